(** Property C47: names, lengths and description of loaded series, over all later calls. *)
From Coq Require Import String Ascii.
From Verif Require Import Base Num NumB64 LoopFacts TimeSeries Distance TSSet StdAlg Candidate Group GroupSpace Loader Archive OldFormat BruteForce PAA
  DataSpec DataProofs LoaderSpec LoaderProofs Api ApiSpec ApiProofs ApiQuery HeapFacts PropsLoader PropsApi CliSpec.
Local Open Scope Z_scope.
Local Open Scope list_scope.

(** ** specification *)

(** [s2] comes after [s1] by calls that do not unload [n] *)
Inductive stays {N : Num} (n : string) (s1 : api N) : api N -> Prop :=
| stays_now : stays n s1 s1
| stays_call s2 e c s3 r : stays n s1 s2 -> c <> CUnload n -> c <> CUnloadAll -> exec e c s2 = (s3, r) -> ends r -> stays n s1 s3.

(** the decimal notation of [i], without leading zeros *)
Definition decimal (i : Z) (s : string) : Prop :=
  digits s i /\ (s = "0" \/ exists c s', s = String c s' /\ c <> "0"%char)%string.

(** ** decimal notation *)
Lemma digit_ok v : 0 <= v <= 9 -> digits (TSSet.digit v) v.
Proof. intros Hv. apply digits_one. split; [exact Hv|reflexivity]. Qed.

Lemma dec_digits_ok : forall f n, 0 <= n < 2 ^ Z.of_nat f -> (0 < f)%nat ->
  digits (dec_digits f n) n /\ (0 < n -> exists c s', dec_digits f n = String c s' /\ c <> "0"%char).
Proof.
  induction f as [|f IH]; intros n Hn Hf; [lia|]. cbn [dec_digits]. destruct (Z.ltb_spec n 10) as [H|H].
  - split; [apply digit_ok; lia|]. intros Hp. eexists _, _. split; [reflexivity|]. intros E.
    apply (f_equal nat_of_ascii) in E. rewrite nat_ascii_embedding in E by lia. change (nat_of_ascii "0") with 48%nat in E. lia.
  - rewrite Nat2Z.inj_succ, Z.pow_succ_r in Hn by lia.
    assert (Hq : 0 <= n / 10 < 2 ^ Z.of_nat f). { split; [apply Z.div_pos; lia|]. apply Z.div_lt_upper_bound; lia. }
    assert (Hf' : (0 < f)%nat). { destruct f; [|lia]. cbn in Hn. lia. }
    destruct (IH (n / 10) Hq Hf') as [I1 I2]. split.
    + rewrite (Z.div_mod n 10) at 3 by lia. apply digits_more; [exact I1|]. split; [|reflexivity]. pose proof (Z.mod_pos_bound n 10). lia.
    + intros _. destruct I2 as (c & s' & -> & Hc); [apply Z.div_str_pos; lia|]. eexists _, _. split; [reflexivity|exact Hc].
Qed.

Lemma to_string_ok i : 0 <= i -> decimal i (to_string i).
Proof.
  intros Hi. unfold to_string. destruct (Z.ltb_spec i 0); [lia|].
  destruct (Z.eq_dec i 0) as [->|Hne].
  - split; [|left; reflexivity]. cbn. apply (digit_ok 0). lia.
  - destruct (dec_digits_ok (S (Z.to_nat (Z.log2 i))) i) as [H1 H2]; [|lia|].
    + rewrite Nat2Z.inj_succ, Z2Nat.id by apply Z.log2_nonneg. pose proof (Z.log2_spec i). lia.
    + split; [exact H1|right; apply H2; lia].
Qed.

(** ** the outside of a data set does not change *)
Section Frame.
Context {N : Num}.
Definition outside (d : dataset N) := (ds_names d, ds_lengths d, ds_count d, ds_maxcol d).

Lemma normalize_outside (d d' : dataset N) p : normalize d = Ret (d', p) -> outside d' = outside d.
Proof.
  unfold normalize. destruct (ds_count d =? 0); [discriminate|]. intros En. apply bind_Ret in En as (buf & _ & En).
  apply bind_Ret in En as ([mn mx] & _ & En). cbv zeta in En. apply bind_Ret in En as (buf' & _ & En). injection En as <- _. reflexivity.
Qed.

Lemma step_outside (r0 : D N) h s e c s' r n g : run r0 h s -> exec e c s = (s', r) -> ends r ->
  held s n = Some g -> c <> CUnload n -> c <> CUnloadAll -> exists g', held s' n = Some g' /\ outside (gt_data g') = outside (gt_data g).
Proof.
  intros Hrun E Hr Hg Hc1 Hc2. pose proof (run_good r0 h s Hrun) as G.
  assert (Hu : in_use h n = true) by (apply (run_in_use r0 h s Hrun); congruence).
  assert (Hh : held s' n <> None).
  { apply (run_in_use r0 (h ++ [(c, r)]) s'); [eapply run_call; eauto|]. unfold in_use in *. rewrite fold_left_app, Hu. cbn.
    destruct c, r; cbn; try reflexivity; try congruence; destruct (String.eqb_spec name n); congruence. }
  destruct (held s' n) as [g'|] eqn:Hg'; [|congruence]. exists g'. split; [reflexivity|].
  assert (D : c = CNormalize n \/ c <> CNormalize n).
  { destruct c; try (right; discriminate). destruct (string_dec name n) as [->|Hne]; [auto|right; congruence]. }
  destruct D as [->|D]; [|rewrite (C32_values N r0 h s e c s' r n g g' Hrun E Hr Hg Hg' D); reflexivity].
  cbn [exec] in E. destruct (on_set_spec s n _ s' r G E) as [(Hn & _)|(g0 & g1 & Hg0 & Ef & _ & Hg1 & _)]; [congruence|].
  assert (g0 = g) by congruence. assert (g1 = g') by congruence. subst g0 g1. unfold or_same in Ef.
  destruct (normalize (gt_data g)) as [[d [a b]]| | |] eqn:En; cbn in Ef; injection Ef as <- _; try reflexivity.
  exact (normalize_outside _ _ _ En).
Qed.

Lemma stays_outside (r0 : D N) h s s' n g : run r0 h s -> held s n = Some g -> stays n s s' ->
  (exists h', run r0 h' s') /\ exists g', held s' n = Some g' /\ outside (gt_data g') = outside (gt_data g).
Proof.
  intros Hrun Hg. induction 1 as [|s2 e c s3 r Hst IH Hc1 Hc2 E Hr]; [eauto|].
  destruct IH as ((h2 & R2) & g2 & Hg2 & Ho). destruct (step_outside r0 h2 s2 e c s3 r n g2 R2 E Hr Hg2 Hc1 Hc2) as (g3 & Hg3 & Ho3).
  split; [eexists; eapply run_call; eauto|]. exists g3. split; [exact Hg3|congruence].
Qed.
End Frame.

(** ** C47 *)

(** After a table was loaded under the name [n], and whatever other calls follow, as long as
    [n] is not unloaded: the name of series i is the field in the name column of its row, or
    the decimal notation of i without such a column; its length is the number of values in
    its row; the description of the data set gives the number of rows and the number of values
    in the longest line of the file. *)
Theorem C47_described : forall (N : Num) (r0 : D N) (h : list event) (s : api N) e n path seps maxNumRow start (has : bool) s1 a
    text ls tbl w s2, run r0 h s ->
  exec e (CLoad n path seps maxNumRow start has) s = (s1, Ret a) ->
  e_files e path = Some (mkFile text None) -> has_lines text ls -> Forall2 (has_fields (c_str seps)) ls tbl -> ls <> [] ->
  0 <= start -> widest tbl w ->
  (forall r, In r (wanted maxNumRow tbl) -> start + (if has then 1 else 0) <= Z.of_nat (length r)) ->
  Z.of_nat (length (wanted maxNumRow tbl)) * w <= int_max ->
  stays n s1 s2 ->
  (forall e' i row, 0 <= i -> nth_error (wanted maxNumRow tbl) (Z.to_nat i) = Some row ->
     (exists x, exec e' (CSeriesName n i) s2 = (s2, Ret (AName x)) /\
        if has then nth_error row (Z.to_nat start) = Some x else decimal i x) /\
     exec e' (CSeriesLength n i) s2 = (s2, Ret (AInt (Z.of_nat (length row) - start - (if has then 1 else 0))))) /\
  (forall e' i, i < 0 \/ Z.of_nat (length (wanted maxNumRow tbl)) <= i ->
     exec e' (CSeriesName n i) s2 = (s2, Throw (GenexExc "Invalid time series index"))) /\
  (forall e' s3 b, exec e' (CInfo n) s2 = (s3, Ret b) -> exists i, b = AInfo i /\ i_name i = n /\
     i_count i = Z.of_nat (length (wanted maxNumRow tbl)) /\ i_length i = w - start - (if has then 1 else 0)).
Proof.
  intros N r0 h s e n path seps mr start has s1 a text ls tbl w s2 Hrun E Ef HL HF Hne Hs Hw Hfields Hsz Hst.
  destruct (C32_load N r0 h s e n path seps mr start has s1 (Ret a) Hrun E I) as (_ & Hload).
  destruct (Hload a eq_refl) as (d & i0 & El & Hheld & _).
  pose proof (C29_load_table N (e_stod e) (e_files e) path text seps mr start has ls tbl w Ef HL HF Hne Hs Hw Hfields Hsz) as T.
  set (rows := wanted mr tbl) in *. set (skip := start + (if has then 1 else 0)) in *.
  destruct (table (e_stod e) (map (skipn (Z.to_nat skip)) rows)) as [vals|x| |] eqn:Et; [|destruct T as (_ & d' & El' & _); congruence|contradiction|contradiction].
  destruct T as (d' & El' & Hholds & Hmax & Hnames & Hlens & _). assert (d' = d) by congruence. subst d'. clear El'.
  assert (R1 : run r0 (h ++ [(CLoad n path seps mr start has, Ret a)]) s1) by (eapply run_call; eauto; exact I).
  destruct (stays_outside r0 _ s1 s2 n _ R1 Hheld Hst) as ((h2 & R2) & g2 & Hg2 & Ho). cbn [gt_data] in Ho.
  injection Ho as Hnm Hln Hct Hmx.
  assert (Hlv : forall k row, nth_error rows k = Some row -> exists v, nth_error vals k = Some v /\ length v = (length row - Z.to_nat skip)%nat).
  { clear -Et. revert vals Et. generalize rows. intros l. induction l as [|x l IH]; intros vals Et k row Hk; [destruct k; discriminate|].
    cbn [map table] in Et. apply bind_Ret in Et as (v & Ev & Et). apply bind_Ret in Et as (vs & Evs & Et). injection Et as <-.
    destruct k as [|k]; cbn in Hk |- *.
    - injection Hk as <-. exists v. split; [reflexivity|]. rewrite <- skipn_length. clear -Ev. revert v Ev. generalize (skipn (Z.to_nat skip) x). intros ts.
      induction ts as [|t ts IH]; intros v Ev; cbn [numbers] in Ev; [injection Ev as <-; reflexivity|].
      destruct (e_stod e t); try discriminate. apply bind_Ret in Ev as (v' & Ev' & Ev). injection Ev as <-. cbn. f_equal. apply IH, Ev'.
    - apply (IH vs Evs k row Hk). }
  assert (Hcount : ds_count d = Z.of_nat (length rows)).
  { destruct Hholds as (buf & _ & Hc & _). rewrite Hc. f_equal. clear -Et. revert vals Et. generalize rows. intros l.
    induction l as [|x l IH]; intros vals Et; cbn [map table] in Et; [injection Et as <-; reflexivity|].
    apply bind_Ret in Et as (v & _ & Et). apply bind_Ret in Et as (vs & Evs & Et). injection Et as <-. cbn. f_equal. apply IH, Evs. }
  pose proof (run_good r0 h2 s2 R2) as G2.
  destruct (held_find s2 n g2 G2 Hg2) as (id & _ & _ & F).
  split; [|split].
  - intros e' i row Hi Hrow.
    pose proof (proj1 (nth_error_Some rows (Z.to_nat i)) ltac:(congruence)) as Hlt.
    assert (Hin : In row rows) by (eapply nth_error_In; eauto). pose proof (Hfields row Hin) as Hfr. fold skip in Hfr.
    split.
    + cbn [exec]. unfold pure. rewrite F. cbn [bind]. unfold getTimeSeriesName. rewrite Hct, Hnm, Hcount.
      destruct (Z.ltb_spec i 0) as [|_]; [lia|]. destruct (Z.leb_spec (Z.of_nat (length rows)) i) as [|_]; [lia|]. cbn [orb].
      rewrite Hnames. destruct has.
      * rewrite map_length. destruct (Z.ltb_spec i (Z.of_nat (length rows))) as [_|]; [|lia].
        assert (Ea : aget (map (fun r => nth (Z.to_nat start) r ""%string) rows) i = Ret (nth (Z.to_nat start) row ""%string)).
        { unfold aget. destruct (Z.leb_spec 0 i); [|lia]. rewrite (map_nth_error _ _ _ Hrow). reflexivity. }
        rewrite Ea. cbn [bind]. eexists. split; [reflexivity|]. apply nth_error_nth'. unfold skip in Hfr. lia.
      * cbn [length]. destruct (Z.ltb_spec i (Z.of_nat 0)) as [|_]; [lia|]. eexists. split; [reflexivity|]. apply to_string_ok, Hi.
    + cbn [exec]. unfold pure. rewrite F. cbn [bind]. unfold getItemLength. rewrite Hln, Hlens.
      destruct (Hlv _ _ Hrow) as (v & Hv & Hvl). unfold aget. destruct (Z.leb_spec 0 i); [|lia].
      rewrite (map_nth_error (fun r => Z.of_nat (length r)) _ _ Hv). cbn [bind]. rewrite Hvl. repeat f_equal. unfold skip in *. destruct has; lia.
  - intros e' i Hrow. cbn [exec]. unfold pure. rewrite F. cbn [bind]. unfold getTimeSeriesName. rewrite Hct, Hcount.
    destruct (Z.ltb_spec i 0) as [|Hi]; [reflexivity|].
    destruct (Z.leb_spec (Z.of_nat (length rows)) i); [reflexivity|lia].
  - intros e' s3 b Ei. cbn [exec] in Ei. unfold pure, getDatasetInfo in Ei. rewrite F in Ei. cbn [bind] in Ei.
    match type of Ei with (s2, bind ?m _) = _ => destruct m as [i| | |] eqn:Em; cbn in Ei; try discriminate end.
    injection Ei as _ <-. exists i. split; [reflexivity|].
    apply bind_Ret in Em as (thr & _ & Em). injection Em as <-. cbn. rewrite Hct, Hmx, Hmax. unfold skip in *. splits; auto; lia.
Qed.
Print Assumptions C47_described.

(** The length of a series that does not exist is read from outside of memory, in every
    state of the program, where an exception is documented for the name. *)
Theorem C47_length_refuted : forall (N : Num) (r0 : D N) (h : list event) (s : api N) e n i g, run r0 h s ->
  held s n = Some g -> i < 0 \/ ds_count (gt_data g) <= i -> exec e (CSeriesLength n i) s = (s, UB OutOfBounds).
Proof.
  intros N r0 h s e n i g Hrun Hg Hi. destruct (run_lengths r0 h s Hrun n g Hg) as [Hl _].
  destruct (held_find s n g (run_good r0 h s Hrun) Hg) as (id & _ & _ & F).
  cbn [exec]. unfold pure. rewrite F. cbn [bind]. unfold getItemLength, aget.
  destruct (Z.leb_spec 0 i) as [Hi'|]; [|reflexivity].
  assert (E : nth_error (ds_lengths (gt_data g)) (Z.to_nat i) = None) by (apply nth_error_None; lia). rewrite E. reflexivity.
Qed.
Print Assumptions C47_length_refuted.

(** ** examples *)
Definition ex_named : string := ("a,1,2" ++ nl1 ++ "b,3" ++ nl1 ++ "c,4,5")%string.
(** the same with a line that has no field *)
Definition ex_gap : string := ("a,1,2" ++ nl1 ++ "," ++ nl1 ++ "c,4,5")%string.
Definition ex_env_of (text : string) : env B64 :=
  mkEnv (N := B64) stodZ putZ putZ (fun _ => None) (fun p => if String.eqb p "f" then Some (mkFile text None) else None) (fun _ => true)
    (fun _ => None) (fun _ => false) simple_alg.
Definition ex_loaded (text : string) (has : bool) : api B64 := fst (exec (ex_env_of text) (CLoad "x" "f" "," 0 0 has) ex_start).
Definition told (s : api B64) (c : call B64) : string + Z + seen :=
  match snd (exec (ex_env_of "") c s) with
  | Ret (AName x) => inl (inl x) | Ret (AInt z) => inl (inr z) | r => inr (sight r)
  end.

(** Lines with too few fields for a name: all later names move to other series, and the
    last series cannot be saved. *)
Theorem C47_names_refuted : is_ret (snd (exec (ex_env_of ex_gap) (CLoad "x" "f" "," 0 0 true) ex_start)) = true /\
  map (fun i => told (ex_loaded ex_gap true) (CSeriesName "x" i)) [0; 1; 2] = [inl (inl "a"); inl (inl "c"); inl (inl "2")]%string /\
  told (ex_loaded ex_gap true) (CSeriesLength "x" 1) = inl (inr (-1)) /\
  told (ex_loaded ex_gap true) (CSave "x" "g" ",") = inr (Undefined OutOfBounds).
Proof. vm_compute. auto. Qed.
Print Assumptions C47_names_refuted.

Lemma fields_all seps l : Forall2 (has_fields (c_str seps)) l (map (tokenize seps) l).
Proof.
  induction l as [|x l IH]; [constructor|]. simpl map. constructor; auto.
  destruct (has_fields_ex (c_str seps) x) as [ts H]. rewrite (tokenize_ok _ _ _ H). exact H.
Qed.

Lemma stays_exec {N : Num} n (s1 s2 : api N) e c : stays n s1 s2 -> c <> CUnload n -> c <> CUnloadAll -> ends (snd (exec e c s2)) ->
  stays n s1 (fst (exec e c s2)).
Proof. intros H1 H2 H3 H4. eapply stays_call; eauto. apply surjective_pairing. Qed.

Definition ex_named_lines : list string := ["a,1,2"; "b,3"; "c,4,5"]%string.
Definition ex_named_table : list (list string) := [["a"; "1"; "2"]; ["b"; "3"]; ["c"; "4"; "5"]]%string.
Example C47_example :
  run (N := B64) (b64_ofZ 1) [] ex_start /\
  is_ret (snd (exec (ex_env_of ex_named) (CLoad "x" "f" "," 0 0 true) ex_start)) = true /\
  has_lines ex_named ex_named_lines /\ Forall2 (has_fields (c_str ",")) ex_named_lines ex_named_table /\ widest ex_named_table 3 /\
  (forall r, In r (wanted 0 ex_named_table) -> 0 + 1 <= Z.of_nat (length r)) /\
  (exists s2, stays "x" (ex_loaded ex_named true) s2 /\ s2 <> ex_loaded ex_named true /\
     map (fun i => told s2 (CSeriesName "x" i)) [0; 1; 2; 3] = [inl (inl "a"); inl (inl "b"); inl (inl "c"); inr (Raised "Invalid time series index")]%string /\
     map (fun i => told s2 (CSeriesLength "x" i)) [0; 1; 2; 3] = [inl (inr 2); inl (inr 1); inl (inr 2); inr (Undefined OutOfBounds)]) /\
  map (fun i => told (ex_loaded "1,2" false) (CSeriesName "x" i)) [0; 1] = [inl (inl "0"); inr (Raised "Invalid time series index")]%string.
Proof.
  splits.
  - constructor.
  - vm_compute. reflexivity.
  - change ex_named_lines with (file_lines ex_named). apply has_lines_file.
  - change ex_named_table with (map (tokenize ",") ex_named_lines). apply fields_all.
  - split; [intros r [<-|[<-|[<-|[]]]]; vm_compute; discriminate|]. eexists. split; [left; reflexivity|reflexivity].
  - intros r [<-|[<-|[<-|[]]]]; vm_compute; discriminate.
  - exists (fst (exec (ex_env_of ex_named) (CLoad "y" "f" "," 0 0 true) (fst (exec (ex_env_of ex_named) (CNormalize "x") (ex_loaded ex_named true))))).
    split; [|split; [|vm_compute; auto]].
    + apply stays_exec; [apply stays_exec; [constructor|..]|..]; try discriminate; vm_compute; exact I.
    + intros E. apply (f_equal a_count) in E. vm_compute in E. discriminate.
  - vm_compute. reflexivity.
Qed.
