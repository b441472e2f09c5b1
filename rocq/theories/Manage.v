(** Loading any text file, and keeping data sets, without undefined behaviour. *)
From Coq Require Import String Ascii.
From Verif Require Import Base Num NumFacts LoopFacts TimeSeries TSSet Candidate GroupSpace Loader LoaderSpec LoaderProofs
  DataSpec DataProofs Api ApiSpec ApiProofs ManageSpec.
Local Open Scope Z_scope.
Local Open Scope list_scope.

(** ** any file *)
Section AnyFile.
Context {N : Num}.
Notation D := (D N).
Variable stod : string -> parsed D.
Variables (start raw R : Z) (has : bool).
Hypothesis H0 : 0 <= start <= int_max.
Hypothesis Hraw : 0 <= raw <= int_max.
Hypothesis HR : R * raw <= int_max.

(** regular, or one of the two exceptions of the loader *)
Definition calm {A} (r : res A) : Prop := match r with Ret _ => True | Throw (GenexExc _) => True | _ => False end.

Lemma load_tokens_calm row : 0 <= row < R -> forall toks col names buf, 0 <= col -> col + Z.of_nat (length toks) <= raw ->
  Z.of_nat (length buf) = R * raw ->
  (exists names' buf', load_tokens stod row start raw has col toks names buf = Ret (names', buf') /\ length buf' = length buf) \/
  (exists m, load_tokens stod row start raw has col toks names buf = Throw (GenexExc m)).
Proof.
  intros Hrow. induction toks as [|t toks IH]; intros col names buf Hc Hl Hb; cbn [load_tokens length] in *; [eauto|].
  destruct (Z.leb_spec start col) as [Hs|Hs]; [|apply IH; lia].
  destruct ((col =? start) && has) eqn:En; [apply IH; lia|].
  assert (Hb2 : start + b2z has <= col).
  { apply andb_false_iff in En as [En|En]; [apply Z.eqb_neq in En|rewrite En]; pose proof (b2z_range has); cbn; lia. }
  pose proof (b2z_range has) as Hbz.
  assert (Hw : 1 <= raw - start - b2z has <= raw) by lia.
  assert (Hm : row * (raw - start - b2z has) + (raw - start - b2z has) <= R * raw).
  { replace (row * (raw - start - b2z has) + (raw - start - b2z has)) with ((row + 1) * (raw - start - b2z has)) by lia.
    apply Z.le_trans with (R * (raw - start - b2z has)); [apply Z.mul_le_mono_nonneg_r; lia|apply Z.mul_le_mono_nonneg_l; lia]. }
  assert (Hp0 : 0 <= row * (raw - start - b2z has)) by (apply Z.mul_nonneg_nonneg; lia).
  rewrite cell_index_ok by lia. cbn [bind].
  destruct (stod t) as [v| |]; [|right; eexists; reflexivity..].
  rewrite aset_in by lia. cbn [bind]. destruct (IH (col + 1) names (upd buf (Z.to_nat (row * (raw - start - b2z has) + (col - start - b2z has))) v)) as [(n' & b' & E & El)|E];
    [lia|lia|rewrite upd_length; lia| |right; exact E].
  left. exists n', b'. split; [exact E|]. rewrite El. apply upd_length.
Qed.

Lemma load_rows_calm seps : forall n ls row lengths names buf, 0 <= row -> row + Z.of_nat n <= R ->
  (forall l, In l ls -> Z.of_nat (length (tokenize seps l)) <= raw) -> Z.of_nat (length buf) = R * raw ->
  exists ls', (exists c names' buf', load_rows stod seps start raw has n row ls lengths names buf = (ls', Ret (c, names', buf'))) \/
  (exists m, load_rows stod seps start raw has n row ls lengths names buf = (ls', Throw (GenexExc m))).
Proof.
  induction n as [|n IH]; intros ls row lengths names buf Hr Hn Hl Hb; cbn [load_rows]; [eauto 8|].
  destruct ls as [|l ls]; [eauto 8|]. cbv zeta.
  destruct (load_tokens_calm row ltac:(lia) (tokenize seps l) 0 names buf ltac:(lia)) as [(n' & b' & E & El)|(m & E)].
  - pose proof (Hl l (or_introl eq_refl)). lia.
  - exact Hb.
  - rewrite E. apply IH; try lia. intros l' Hin. apply Hl. right. exact Hin.
  - rewrite E. eauto.
Qed.
End AnyFile.

Lemma max_columns_least seps ls m : 0 <= m -> (forall l, In l ls -> Z.of_nat (length (tokenize seps l)) <= m) -> max_columns seps ls <= m.
Proof.
  intros Hm Hl. unfold max_columns. assert (G : forall ls a, a <= m -> (forall l, In l ls -> Z.of_nat (length (tokenize seps l)) <= m) ->
    fold_left (fun m line => let n := Z.of_nat (length (tokenize seps line)) in if m <? n then n else m) ls a <= m).
  { induction ls0 as [|x l IH]; intros a Ha Hx; cbn [fold_left]; [exact Ha|]. apply IH; [|intros y Hy; apply Hx; right; exact Hy].
    cbv zeta. pose proof (Hx x (or_introl eq_refl)). destruct (Z.ltb_spec a (Z.of_nat (length (tokenize seps x)))); lia. }
  apply G; auto.
Qed.

Lemma max_columns_above seps ls : 0 <= max_columns seps ls /\ (forall l, In l ls -> Z.of_nat (length (tokenize seps l)) <= max_columns seps ls) /\
  (max_columns seps ls = 0 \/ exists l, In l ls /\ Z.of_nat (length (tokenize seps l)) = max_columns seps ls).
Proof.
  destruct ls as [|x ls].
  - splits; [cbn; lia|intros l []|left; reflexivity].
  - destruct (widest_ex (map (tokenize seps) (x :: ls))) as [m Hm]; [discriminate|].
    rewrite (max_columns_ok seps (x :: ls) _ m eq_refl Hm). destruct Hm as [H1 (r & H2 & H3)].
    splits; [lia|intros l Hl; apply H1, in_map, Hl|]. right. apply in_map_iff in H2 as (l & <- & Hl). eauto.
Qed.

Lemma loadData_calm {N : Num} (stod : string -> parsed (D N)) (fs : files) d path mr start seps has :
  0 <= start <= int_max ->
  (forall f ls tbl, fs path = Some f -> has_lines (tf_text f) ls -> Forall2 (has_fields (c_str seps)) ls tbl ->
     forall r, In r tbl -> Z.of_nat (length (wanted mr tbl)) * Z.of_nat (length r) <= int_max) ->
  calm (snd (loadData stod fs d path mr start seps has)).
Proof.
  intros H0 Hsz. unfold loadData. destruct (fs path) as [f|] eqn:Ef; [|exact I]. cbv zeta.
  set (ls := file_lines (tf_text f)). pose proof (has_lines_file (tf_text f)) as HL. fold ls in HL.
  assert (HF : Forall2 (has_fields (c_str seps)) ls (map (tokenize seps) ls)).
  { clear. induction ls as [|x l IH]; cbn [map]; constructor; auto. destruct (has_fields_ex (c_str seps) x) as [ts H]. rewrite (tokenize_ok _ _ _ H). exact H. }
  specialize (Hsz f ls _ eq_refl HL HF). rewrite wanted_map, map_length in Hsz. rewrite <- wanted_length. set (R := Z.of_nat (length (wanted mr ls))) in *.
  destruct (max_columns_above seps ls) as (M0 & M1 & M2). set (raw := max_columns seps ls) in *.
  assert (HR : R * raw <= int_max).
  { destruct M2 as [->|(l & Hl & <-)]; [unfold int_max; lia|]. apply (Hsz (tokenize seps l)), in_map, Hl. }
  assert (HRl : R = 0 \/ 1 <= R) by lia.
  rewrite imul_ok by (unfold int_min, int_max in *; nia).
  assert (Hraw : R = 0 \/ raw <= int_max) by (destruct HRl as [->|HRl]; [left; reflexivity|right; nia]).
  assert (Hw0 : 1 <= R -> less raw start has = Ret (raw - start - b2z has)).
  { intros H1. destruct Hraw as [Hraw|Hraw]; [lia|]. pose proof (b2z_range has). unfold less. rewrite isub_ok by (unfold int_min, int_max in *; lia).
    cbn [bind]. apply isub_ok. unfold int_min, int_max in *. lia. }
  destruct HRl as [HRz|HRl].
  - assert (Hls : ls = []).
    { destruct ls as [|x l]; [reflexivity|exfalso]. revert HRz. unfold R. rewrite wanted_firstn, firstn_length. cbn [length]. unfold wanted.
      destruct (Z.leb_spec mr 0); cbn [length]; lia. }
    assert (Hrw : raw = 0) by (unfold raw; rewrite Hls; reflexivity). rewrite HRz, Hrw. cbn [Z.to_nat load_rows].
    match goal with |- context [if ?b then _ else _] => destruct b; [exact I|] end.
    pose proof (b2z_range has). unfold less. rewrite isub_ok by (unfold int_min, int_max in *; lia). cbn [bind].
    rewrite isub_ok by (unfold int_min, int_max in *; lia). exact I.
  - destruct Hraw as [Hraw|Hraw]; [lia|].
    match goal with |- context [load_rows stod seps start raw has (Z.to_nat R) 0 ?l ?a ?b ?c] =>
      destruct (load_rows_calm stod start raw R has H0 ltac:(lia) HR seps (Z.to_nat R) l 0 a b c) as (ls' & [(cn & nm & bf & E)|(m & E)]) end.
    + lia.
    + lia.
    + intros l Hl. apply M1. destruct (tf_fail f) as [k|]; [|exact Hl]. rewrite <- (firstn_skipn k ls). apply in_or_app. left. exact Hl.
    + rewrite repeat_length. rewrite Z2Nat.id; nia.
    + rewrite E. match goal with |- context [if ?b then _ else _] => destruct b; [exact I|] end. rewrite (Hw0 HRl). exact I.
    + rewrite E. exact I.
Qed.

(** ** regular files *)
Section Regular.
Context {N : Num}.

Lemma tidy_run (r0 : D N) h s : tidy r0 h s -> run r0 h s.
Proof. induction 1; [constructor|econstructor; eauto]. Qed.

(** a data set that holds a table, with a name for each series or none *)
Definition fit (d : dataset N) : Prop :=
  (exists rows, holds d rows /\ (ds_names d = [] \/ length (ds_names d) = length rows)) \/ (ds_count d = 0 /\ ds_maxcol d <= 0).

Lemma load_rows_firstn (stod : string -> parsed (D N)) seps start raw has : forall n m ls row lengths names buf, (n <= m)%nat ->
  load_rows stod seps start raw has n row (firstn m ls) lengths names buf = load_rows stod seps start raw has n row ls lengths names buf.
Proof.
  induction n as [|n IH]; intros m ls row lengths names buf Hn; cbn [load_rows]; [destruct ls, m; reflexivity|].
  destruct m as [|m]; [lia|]. destruct ls as [|l ls]; cbn [firstn]; [reflexivity|]. cbv zeta.
  destruct (load_tokens _ _ _ _ _ _ _ _ _) as [[a b]| | |]; auto. apply IH. lia.
Qed.

Lemma loaded_fit (e : env N) d path seps mr start has : regular e path seps mr start has ->
  loadData (e_stod e) (e_files e) ds_new path mr start seps has = (d, Ret tt) -> fit d.
Proof.
  intros [H0 Hreg] E. destruct (e_files e path) as [f|] eqn:Ef.
  2:{ unfold loadData in E. rewrite Ef in E. discriminate. }
  destruct f as [text fail]. cbn [tf_text] in Hreg. set (ls := file_lines text). pose proof (has_lines_file text) as HL. fold ls in HL.
  assert (HF : Forall2 (has_fields (c_str seps)) ls (map (tokenize seps) ls)).
  { clear. induction ls as [|x l IH]; cbn [map]; constructor; auto. destruct (has_fields_ex (c_str seps) x) as [ts H]. rewrite (tokenize_ok _ _ _ H). exact H. }
  destruct (Hreg _ ls _ eq_refl HL HF) as [Hlen Hsz]. set (tbl := map (tokenize seps) ls) in *.
  assert (Hc : ls = [] \/ ls <> []) by (destruct ls; [left; reflexivity|right; discriminate]).
  destruct Hc as [Hnil|Hne].
  - right. unfold loadData in E. rewrite Ef in E. cbn [tf_text tf_fail] in E. fold ls in E. rewrite Hnil in E.
    replace (if mr <=? 0 then Z.of_nat (length (@nil string)) else Z.min mr (Z.of_nat (length (@nil string)))) with 0 in E
      by (cbn [length]; destruct (Z.leb_spec mr 0); lia).
    cbn [length Z.of_nat Z.to_nat load_rows max_columns fold_left] in E. change (imul 0 0) with (@Ret Z 0) in E. cbn [Z.to_nat repeat load_rows] in E.
    destruct (match fail with None => false | Some n => Z.of_nat n <? 0 end); [discriminate|].
    destruct (less 0 start has) as [w| | |] eqn:El; try discriminate. injection E as <-. split; [reflexivity|]. cbn [ds_maxcol].
    unfold less in El. pose proof (b2z_range has). rewrite isub_ok in El by (unfold int_min, int_max in *; lia). cbn [bind] in El.
    apply icheck_inv in El as [-> _]. lia.
  - assert (Htne : tbl <> []) by (unfold tbl; destruct ls; [congruence|discriminate]).
    destruct (widest_ex tbl Htne) as [w Hw].
    assert (Hsz' : Z.of_nat (length (wanted mr tbl)) * w <= int_max) by (destruct Hw as [_ (r & Hr & <-)]; apply Hsz, Hr).
    assert (Key : forall fs : files, fs path = Some (mkFile text None) -> loadData (e_stod e) fs ds_new path mr start seps has = (d, Ret tt) -> fit d).
    { intros fs Efs E'. pose proof (load_ok (e_stod e) fs ds_new path text mr start seps has ls tbl w Efs HL HF Hne (proj1 H0) eq_refl Hw Hlen Hsz') as L.
      destruct (table_outcome (e_stod e) (map (skipn (Z.to_nat (start + b2z has))) (wanted mr tbl))) as [[rows Et]|[Et|Et]]; rewrite Et in L.
      2,3: destruct L as (d' & L & _); congruence.
      destruct L as (d' & L & Hh & _ & Hn & _). assert (d' = d) by congruence. subst d'. left. exists rows. split; [exact Hh|].
      rewrite Hn. destruct has; [right|left; reflexivity]. rewrite map_length. pose proof (table_shape _ _ _ Et) as Hs.
      clear -Et. revert rows Et. generalize (wanted mr tbl). intros l. induction l as [|x l IH]; intros rows Et; cbn [map table] in Et; [injection Et as <-; reflexivity|].
      apply bind_Ret in Et as (v & _ & Et). apply bind_Ret in Et as (vs & Evs & Et). injection Et as <-. cbn. f_equal. apply IH, Evs. }
    destruct fail as [n|]; [|exact (Key _ Ef E)].
    destruct (le_lt_dec (length (wanted mr tbl)) n) as [Hn|Hn].
    + apply (Key (fun _ => Some (mkFile text None)) eq_refl). rewrite <- E. unfold loadData. rewrite Ef. cbn [tf_text tf_fail]. fold ls. cbv zeta.
      rewrite <- wanted_length. assert (EW : length (wanted mr ls) = length (wanted mr tbl)) by (unfold tbl; rewrite wanted_map, map_length; reflexivity).
      destruct (Z.ltb_spec (Z.of_nat n) (Z.of_nat (length (wanted mr ls)))); [lia|].
      destruct (imul _ _); auto. rewrite load_rows_firstn by lia. reflexivity.
    + destruct (load_fail (e_stod e) (e_files e) ds_new path text mr start seps has ls tbl w n Ef HL HF (proj1 H0) Hw Hn Hlen Hsz') as (d' & m & E' & _). congruence.
Qed.

(** ** normalising, whatever the values are *)
Lemma normalize_any (d : dataset N) rows : holds d rows -> rows <> [] ->
  exists d' p rows', normalize d = Ret (d', p) /\ holds d' rows' /\ length rows' = length rows /\ ds_names d' = ds_names d.
Proof.
  intros H Hne. pose proof H as (buf & Ed & Ec & Hm & Hb & Hr).
  assert (HF2 : Forall2 (fun pos v => aget buf pos = Ret v) (cells (ds_maxcol d) 0 rows) (concat rows)).
  { apply cells_values. intros k row Ek j v Ej. rewrite Z.add_0_l. apply (Hr k row Ek). auto. }
  assert (Hrows : Forall (fun r => Z.of_nat (length r) <= ds_maxcol d) rows).
  { apply Forall_forall. intros r Hin. apply In_nth_error in Hin as [k Ek]. apply (Hr k r Ek). }
  assert (Hnd := cells_NoDup (ds_maxcol d) rows Hm Hrows 0).
  assert (Hin : forall p, In p (cells (ds_maxcol d) 0 rows) -> 0 <= p < Z.of_nat (length buf)).
  { intros p Hp. apply cells_In in Hp as (k & r & Ek & Hp). destruct (Hr _ _ Ek) as (_ & Hl & _).
    apply nth_error_Some_lt in Ek. nia. }
  destruct (fold_left mm_step (concat rows) (ninf, nninf)) as [mn mx] eqn:Emm.
  assert (W : exists f buf',
    (if neqb (nsub mx mn) n0 then
       if negb (neqb mx n0) then each_value d (fun pos b => aset b pos n0) buf else Ret buf
     else each_value d (fun pos b => v <- aget b pos ;; aset b pos (ndiv (nsub v mn) (nsub mx mn))) buf) = Ret buf' /\
    length buf' = length buf /\
    (forall p v, In p (cells (ds_maxcol d) 0 rows) -> aget buf p = Ret v -> aget buf' p = Ret (f v))).
  { destruct (neqb (nsub mx mn) n0).
    - destruct (negb (neqb mx n0)).
      + exists (fun _ => n0). rewrite (each_value_ok d rows) by auto.
        destruct (write_fold (fun _ => n0) (fun pos b => aset b pos n0) (cells (ds_maxcol d) 0 rows) buf) as (b' & W1 & W2 & _ & W3); eauto.
      + exists (fun v => v), buf. auto.
    - exists (fun v => ndiv (nsub v mn) (nsub mx mn)). rewrite (each_value_ok d rows) by auto.
      destruct (write_fold (fun v => ndiv (nsub v mn) (nsub mx mn)) (fun pos b => v <- aget b pos ;; aset b pos (ndiv (nsub v mn) (nsub mx mn)))
        (cells (ds_maxcol d) 0 rows) buf) as (b' & W1 & W2 & _ & W3); eauto.
      intros p b v _ _ Ev. rewrite Ev. reflexivity. }
  destruct W as (f & buf' & W & El & W2).
  eexists _, (mn, mx), (map (map f) rows). split; [|split; [exact (holds_map d rows buf buf' f H Ed El W2)|split; [apply map_length|reflexivity]]].
  unfold normalize. destruct (Z.eqb_spec (ds_count d) 0) as [E0|_]; [exfalso; apply Hne; destruct rows; [reflexivity|simpl in Ec; lia]|].
  rewrite Ed. cbn [deref bind]. rewrite (each_value_ok d rows) by auto. rewrite (minmax_fold buf _ _ _ HF2), Emm. cbn [bind]. rewrite W. reflexivity.
Qed.

Lemma fit_normalize d d' p : fit d -> normalize d = Ret (d', p) -> fit d'.
Proof.
  intros [(rows & Hh & Hn)|[H0 _]] E.
  - assert (Hc : rows = [] \/ rows <> []) by (destruct rows; [left; reflexivity|right; discriminate]). destruct Hc as [->|Hne].
    + destruct Hh as (buf & _ & Ec & _). unfold normalize in E. rewrite Ec in E. discriminate.
    + destruct (normalize_any d rows Hh Hne) as (d2 & p2 & rows' & E2 & Hh' & Hl & Hn'). assert (d2 = d') by congruence. subst d2.
      left. exists rows'. split; [exact Hh'|]. rewrite Hn', Hl. exact Hn.
  - unfold normalize in E. rewrite H0 in E. discriminate.
Qed.
End Regular.

(** ** a negative start column *)
Section Negative.
Context {N : Num}.
Variable stod : string -> parsed (D N).
Variables (start raw : Z) (has : bool).
Hypothesis Hneg : start + b2z has < 0.
Notation w := (raw - start - b2z has).

Lemma less_cases x : less x start has = Ret (x - start - b2z has) \/ exists u, less x start has = UB u.
Proof.
  unfold less, isub. destruct (icheck (x - start)) as [a| | |] eqn:E1.
  - apply icheck_inv in E1 as [-> _]. cbn [bind]. destruct (icheck _) as [b| | |] eqn:E2; [apply icheck_inv in E2 as [-> _]; left; f_equal; lia|..];
      unfold icheck in E2; destruct (_ && _) in E2; try discriminate. right. eauto.
  - unfold icheck in E1. destruct (_ && _) in E1; discriminate.
  - cbn [bind]. eauto.
  - unfold icheck in E1. destruct (_ && _) in E1; discriminate.
Qed.

Lemma icheck_cases z : icheck z = Ret z \/ exists u, icheck z = UB u.
Proof. unfold icheck. destruct (_ && _); eauto. Qed.

Lemma cell_cases row col : cell_index row start raw has col = Ret (row * w + (col - start - b2z has)) \/ exists u, cell_index row start raw has col = UB u.
Proof.
  unfold cell_index. destruct (less_cases raw) as [->|[u ->]]; [|right; cbn; eauto]. cbn [bind]. unfold imul, iadd.
  destruct (icheck_cases (row * w)) as [->|[u ->]]; [|right; cbn; eauto]. cbn [bind].
  destruct (less_cases col) as [->|[u ->]]; [|right; cbn; eauto]. cbn [bind].
  destruct (icheck_cases (row * w + (col - start - b2z has))) as [->|[u ->]]; [left; reflexivity|right; eauto].
Qed.

Definition is_number (t : string) : Prop := exists v, stod t = Parsed v.

Lemma neg_tokens row : forall toks col names buf, 0 <= col -> Forall is_number toks ->
  match load_tokens stod row start raw has col toks names buf with
  | Ret (_, buf') => length buf' = length buf /\
      (toks <> [] -> row * w + (col + Z.of_nat (length toks) - 1 - start - b2z has) < Z.of_nat (length buf))
  | Throw _ => False
  | _ => True
  end.
Proof.
  induction toks as [|t toks IH]; intros col names buf Hc HT; cbn [load_tokens]; [split; [reflexivity|congruence]|].
  inversion HT as [|? ? [v Hv] HT']; subst. pose proof (b2z_range has) as Hb.
  destruct (Z.leb_spec start col) as [_|]; [|lia]. destruct (Z.eqb_spec col start) as [|_]; [lia|]. cbn [andb].
  destruct (cell_cases row col) as [->|[u ->]]; [|exact I]. cbn [bind]. rewrite Hv.
  unfold aset. destruct (_ && _) eqn:Ea; [|exact I]. apply andb_true_iff in Ea as [Ea1 Ea2]. apply Z.leb_le in Ea1. apply Z.ltb_lt in Ea2. cbn [bind].
  match goal with |- context [load_tokens stod row start raw has (col + 1) toks names ?b] =>
    specialize (IH (col + 1) names b ltac:(lia) HT'); destruct (load_tokens stod row start raw has (col + 1) toks names b) as [[n' b']| | |] end; auto.
  destruct IH as [I1 I2]. rewrite upd_length in *. split; [exact I1|]. intros _. destruct toks as [|t' toks']; [cbn [length]; lia|].
  specialize (I2 ltac:(discriminate)). cbn [length] in *. lia.
Qed.

Lemma neg_rows seps : 1 <= raw -> forall ls row lengths names buf, 0 <= row -> ls <> [] ->
  (forall l, In l ls -> Forall is_number (tokenize seps l) /\ Z.of_nat (length (tokenize seps l)) = raw) ->
  Z.of_nat (length buf) <= (row + Z.of_nat (length ls)) * raw ->
  ~ ends (snd (load_rows stod seps start raw has (length ls) row ls lengths names buf)).
Proof.
  intros Hraw. induction ls as [|l ls IH]; intros row lengths names buf Hrow Hne Hl Hb; [congruence|]. cbn [length load_rows]. cbv zeta.
  destruct (Hl l (or_introl eq_refl)) as [L1 L2]. pose proof (neg_tokens row (tokenize seps l) 0 names buf ltac:(lia) L1) as T.
  destruct (load_tokens stod row start raw has 0 (tokenize seps l) names buf) as [[n' b']| | |]; cbn; auto.
  destruct T as [T1 T2]. assert (Hc : ls = [] \/ ls <> []) by (destruct ls; [left; reflexivity|right; discriminate]). destruct Hc as [->|Hne'].
  - exfalso. specialize (T2 ltac:(destruct (tokenize seps l); [cbn in L2; lia|discriminate])). rewrite L2 in T2. cbn [length] in Hb.
    pose proof (b2z_range has). nia.
  - apply IH; auto; [lia|intros x Hx; apply Hl; right; exact Hx|]. rewrite T1. cbn [length] in Hb. lia.
Qed.
End Negative.

Lemma imul_cases a b : imul a b = Ret (a * b) \/ exists u, imul a b = UB u.
Proof. apply icheck_cases. Qed.

Lemma loadData_negative {N : Num} (stod : string -> parsed (D N)) (fs : files) (d : dataset N) path text mr start seps (has : bool) ls tbl w :
  fs path = Some (mkFile text None) -> has_lines text ls -> Forall2 (has_fields (c_str seps)) ls tbl -> ls <> [] -> 1 <= w ->
  (forall r, In r tbl -> Z.of_nat (length r) = w /\ forall t, In t r -> exists v, stod t = Parsed v) ->
  start + (if has then 1 else 0) < 0 ->
  ~ ends (snd (loadData stod fs d path mr start seps has)).
Proof.
  intros Ef HL HF Hne Hw Hr Hneg. pose proof (file_lines_ok _ _ HL) as El. pose proof (map_tokenize _ _ _ HF) as Et.
  assert (Hwd : widest tbl w).
  { split; [intros r Hin; destruct (Hr r Hin); lia|]. destruct tbl as [|r tbl]; [destruct ls; [congruence|discriminate]|].
    exists r. split; [left; reflexivity|apply Hr; left; reflexivity]. }
  pose proof (max_columns_ok _ _ _ _ Et Hwd) as Em.
  unfold loadData. rewrite Ef. cbn [tf_text tf_fail]. cbv zeta. rewrite El, Em, <- wanted_length.
  destruct (imul_cases (Z.of_nat (length (wanted mr ls))) w) as [->|[u ->]]; [|exact (fun x => x)].
  assert (Hf : exists k, wanted mr ls = firstn k ls /\ (1 <= k)%nat).
  { unfold wanted. destruct (Z.leb_spec mr 0); [exists (length ls); split; [symmetry; apply firstn_all|destruct ls; [congruence|cbn; lia]]|exists (Z.to_nat mr); split; [reflexivity|lia]]. }
  destruct Hf as (k & Ek & Hk).
  assert (Hwn : wanted mr ls <> []) by (rewrite Ek; destruct k, ls; try lia; try congruence; discriminate).
  match goal with |- context [load_rows ?a ?b ?c ?d ?e ?f ?g ?h ?i ?j ?l] =>
    assert (K : ~ ends (snd (load_rows a b c d e f g h i j l))) end.
  { rewrite Nat2Z.id. rewrite <- (load_rows_firstn stod seps start w has (length (wanted mr ls)) (length (wanted mr ls)) ls) by lia.
    replace (firstn (length (wanted mr ls)) ls) with (wanted mr ls).
    2:{ rewrite Ek, firstn_length. destruct (Nat.min_spec k (length ls)) as [[H1 ->]|[H1 ->]]; [reflexivity|]. rewrite firstn_all. apply firstn_all2. exact H1. }
    apply neg_rows; [exact Hneg|exact Hw|lia|exact Hwn| |].
    - intros l Hl. assert (Hin : In (tokenize seps l) tbl).
      { rewrite <- Et. apply in_map. rewrite Ek in Hl. rewrite <- (firstn_skipn k ls). apply in_or_app. left. exact Hl. }
      destruct (Hr _ Hin) as [R1 R2]. split; [apply Forall_forall; exact R2|exact R1].
    - rewrite repeat_length. nia. }
  match goal with |- context [load_rows ?a ?b ?c ?d ?e ?f ?g ?h ?i ?j ?l] => destruct (load_rows a b c d e f g h i j l) as [ls' o] end.
  cbn [snd] in K. destruct o as [[[a b] c]| | |]; cbn in *; tauto.
Qed.

(** ** lines that are too short *)
Lemma load_rows_lengths {N : Num} (stod : string -> parsed (D N)) seps start raw has : forall n ls row lengths names buf ls' x,
  load_rows stod seps start raw has n row ls lengths names buf = (ls', Ret x) ->
  ls' = lengths ++ map (fun l => Z.of_nat (length (tokenize seps l)) - start - b2z has) (firstn n ls) /\
  fst (fst x) = row + Z.of_nat (length (firstn n ls)).
Proof.
  induction n as [|n IH]; intros ls row lengths names buf ls' x E; cbn [load_rows firstn] in *.
  - injection E as <- <-. rewrite app_nil_r. cbn. split; [reflexivity|lia].
  - destruct ls as [|l ls]; cbn [firstn map] in *; [injection E as <- <-; rewrite app_nil_r; cbn; split; [reflexivity|lia]|].
    cbv zeta in E. destruct (load_tokens _ _ _ _ _ _ _ _ _) as [[n' b']| | |]; try discriminate.
    apply IH in E as [-> ->]. rewrite <- app_assoc. cbn [app length]. split; [reflexivity|lia].
Qed.

Lemma loadData_lengths {N : Num} (stod : string -> parsed (D N)) (fs : files) path text mr start seps has ls tbl d :
  fs path = Some (mkFile text None) -> has_lines text ls -> Forall2 (has_fields (c_str seps)) ls tbl ->
  loadData stod fs ds_new path mr start seps has = (d, Ret tt) ->
  ds_lengths d = map (fun r => Z.of_nat (length r) - start - b2z has) (wanted mr tbl) /\ ds_count d = Z.of_nat (length (wanted mr tbl)).
Proof.
  intros Ef HL HF E. pose proof (file_lines_ok _ _ HL) as El. pose proof (map_tokenize _ _ _ HF) as Et.
  unfold loadData in E. rewrite Ef in E. cbn [tf_text tf_fail] in E. cbv zeta in E. rewrite El, <- wanted_length in E.
  destruct (imul _ _); try discriminate.
  match type of E with context [load_rows ?a ?b ?c ?d ?e ?f ?g ?h ?i ?j ?l] => destruct (load_rows a b c d e f g h i j l) as [ls' o] eqn:ER end.
  destruct o as [[[cn nm] bf]| | |]; try discriminate. destruct (less _ _ _); try discriminate. injection E as <-. cbn [ds_lengths ds_count].
  apply load_rows_lengths in ER as [-> E2]. cbn [fst ds_lengths ds_new app] in *. rewrite Nat2Z.id in *.
  assert (EW : firstn (length (wanted mr ls)) ls = wanted mr ls).
  { unfold wanted. destruct (Z.leb_spec mr 0); [apply firstn_all|]. rewrite firstn_length.
    destruct (Nat.min_spec (Z.to_nat mr) (length ls)) as [[H1 ->]|[H1 ->]]; [reflexivity|]. rewrite firstn_all. symmetry. apply firstn_all2. exact H1. }
  rewrite EW in *. rewrite <- Et, wanted_map, map_map, map_length. split; [reflexivity|]. rewrite E2. lia.
Qed.

Lemma for_n_stuck {S} (body : Z -> S -> res S) : forall n i s, (forall j s', i <= j < i + Z.of_nat n -> match body j s' with Throw _ => False | _ => True end) ->
  (exists j, i <= j < i + Z.of_nat n /\ forall s', ~ ends (body j s')) -> ~ ends (for_n n i body s).
Proof.
  induction n as [|n IH]; intros i s Hb (j & Hj & Hs); [lia|]. cbn [for_n]. destruct (Z.eq_dec j i) as [->|Hne].
  - pose proof (Hs s) as H. destruct (body i s); cbn in *; auto.
  - pose proof (Hb i s ltac:(lia)) as H. destruct (body i s); cbn; auto. apply IH; [intros; apply Hb; lia|exists j; split; [lia|exact Hs]].
Qed.

Lemma for_n_quiet {S} (body : Z -> S -> res S) : (forall j s, match body j s with Throw _ => False | _ => True end) ->
  forall n i s, match for_n n i body s with Throw _ => False | _ => True end.
Proof. intros H. induction n as [|n IH]; intros i s; cbn [for_n]; [exact I|]. pose proof (H i s) as E. destruct (body i s); cbn; auto. apply IH. Qed.

Lemma normalize_stuck {N : Num} (d : dataset N) i len : 0 <= i < ds_count d -> Z.of_nat (length (ds_lengths d)) = ds_count d ->
  nth_error (ds_lengths d) (Z.to_nat i) = Some len -> len < 0 -> ~ ends (normalize d).
Proof.
  intros Hi Hl Hn Hneg. unfold normalize. destruct (Z.eqb_spec (ds_count d) 0); [lia|].
  destruct (ds_data d) as [buf|]; [|exact (fun x => x)]. cbn [deref bind].
  match goal with |- context [each_value d ?f ?s] => assert (K : ~ ends (each_value d f s)); [|destruct (each_value d f s) as [[a b]| | |]; cbn in *; tauto] end.
  unfold each_value, for_. apply for_n_stuck.
  - intros j s' Hj. unfold getItemLength, aget. destruct (0 <=? j); [|exact I]. destruct (nth_error (ds_lengths d) (Z.to_nat j)) as [l|]; [|exact I]. cbn [bind].
    destruct (l <? 0); [exact I|]. apply for_n_quiet. intros z t. destruct (imul_cases j (ds_maxcol d)) as [->|[u ->]]; cbn [bind]; [|exact I].
    unfold minmax_step, aget. destruct (0 <=? _); [|exact I]. destruct (nth_error buf _); exact I.
  - exists i. split; [lia|]. intros s'. unfold getItemLength, aget. destruct (Z.leb_spec 0 i); [|lia]. rewrite Hn. cbn [bind].
    destruct (Z.ltb_spec len 0); [exact (fun x => x)|lia].
Qed.
