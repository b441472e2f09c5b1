(** Proofs about data sets: extraction of subsequences and normalisation. *)
From Verif Require Import Base Num NumLaws NumFacts NumMore LoopFacts TimeSeries TSSet DtwPaths DataSpec.

(** ** lists *)
Lemma list_ext {A} (l l' : list A) : (forall k, nth_error l k = nth_error l' k) -> l = l'.
Proof.
  revert l'. induction l as [|x l IH]; intros [|y l'] H; auto.
  - specialize (H O). discriminate.
  - specialize (H O). discriminate.
  - pose proof (H O) as H0. injection H0 as ->. f_equal. apply IH. intros k. apply (H (Datatypes.S k)).
Qed.

Lemma nth_error_firstn_all {A} (l : list A) n k :
  nth_error (firstn n l) k = if (k <? n)%nat then nth_error l k else None.
Proof.
  destruct (Nat.ltb_spec k n); [apply nth_error_firstn; auto|].
  apply nth_error_None. rewrite firstn_length. lia.
Qed.

Lemma nth_error_Some_lt {A} (l : list A) k v : nth_error l k = Some v -> (k < length l)%nat.
Proof. intros H. apply nth_error_Some. congruence. Qed.

(** ** folding a partial operation over a list *)
Fixpoint fold_res {A S : Type} (body : A -> S -> res S) (l : list A) (s : S) : res S :=
  match l with
  | [] => Ret s
  | x :: l' => s' <- body x s ;; fold_res body l' s'
  end.

Lemma fold_res_app {A S} (body : A -> S -> res S) l1 l2 s :
  fold_res body (l1 ++ l2) s = (s' <- fold_res body l1 s ;; fold_res body l2 s').
Proof.
  revert s. induction l1 as [|x l1 IH]; intros s; simpl; auto.
  destruct (body x s); simpl; auto.
Qed.

Fixpoint zseq (i : Z) (n : nat) : list Z :=
  match n with O => [] | S n' => i :: zseq (i + 1) n' end.

Lemma zseq_In i n k : In k (zseq i n) <-> i <= k < i + Z.of_nat n.
Proof.
  revert i. induction n as [|n IH]; intros i; simpl; [lia|].
  rewrite IH. lia.
Qed.

Lemma zseq_length i n : length (zseq i n) = n.
Proof. revert i; induction n; intros; simpl; auto. Qed.

Lemma zseq_NoDup i n : NoDup (zseq i n).
Proof.
  revert i. induction n as [|n IH]; intros i; simpl; constructor; auto.
  rewrite zseq_In. lia.
Qed.

Lemma zseq_nth i n k : (k < n)%nat -> nth_error (zseq i n) k = Some (i + Z.of_nat k).
Proof.
  revert i k. induction n as [|n IH]; intros i k H; [lia|].
  destruct k; simpl; [f_equal; lia|]. rewrite IH by lia. f_equal; lia.
Qed.

Lemma for_n_fold {S} (body : Z -> S -> res S) n i s : for_n n i body s = fold_res body (zseq i n) s.
Proof.
  revert i s. induction n as [|n IH]; intros i s; simpl; auto.
  destruct (body i s); simpl; auto.
Qed.

Lemma for_fold {S} (body : Z -> S -> res S) lo hi s :
  for_ lo hi body s = fold_res body (zseq lo (Z.to_nat (hi - lo))) s.
Proof. apply for_n_fold. Qed.

Lemma fold_res_map {A B S} (f : A -> B) (body : B -> S -> res S) l s :
  fold_res body (map f l) s = fold_res (fun a => body (f a)) l s.
Proof. revert s. induction l as [|x l IH]; intros s; simpl; auto. destruct (body (f x) s); simpl; auto. Qed.

Lemma fold_res_ext {A S} (b1 b2 : A -> S -> res S) l s :
  (forall x s, In x l -> b1 x s = b2 x s) -> fold_res b1 l s = fold_res b2 l s.
Proof.
  revert s. induction l as [|x l IH]; intros s H; simpl; auto.
  rewrite H by (left; auto). destruct (b2 x s); simpl; auto. apply IH. intros; apply H; right; auto.
Qed.

Lemma fold_res_flat {A B S} (f : A -> list B) (body : B -> S -> res S) l s :
  fold_res body (flat_map f l) s = fold_res (fun a => fold_res body (f a)) l s.
Proof.
  revert s. induction l as [|x l IH]; intros s; simpl; auto.
  rewrite fold_res_app. destruct (fold_res body (f x) s); simpl; auto.
Qed.

Section Data.
Context {N : Num}.
Notation D := (D N).
Implicit Types (d : dataset N) (rows : list (list D)).

(** ** reading rows *)
Lemma row_of_Some rows i row : row_of rows i = Some row ->
  0 <= i < Z.of_nat (length rows) /\ nth_error rows (Z.to_nat i) = Some row.
Proof.
  unfold row_of. destruct (Z.ltb_spec i 0); [discriminate|]. intros E. split; auto.
  apply nth_error_Some_lt in E. lia.
Qed.

Lemma row_of_None rows i : row_of rows i = None -> i < 0 \/ Z.of_nat (length rows) <= i.
Proof.
  unfold row_of. destruct (Z.ltb_spec i 0); auto. intros E. apply nth_error_None in E. lia.
Qed.

Lemma row_of_in rows i : 0 <= i < Z.of_nat (length rows) -> exists row, row_of rows i = Some row.
Proof.
  intros H. unfold row_of. destruct (Z.ltb_spec i 0); [lia|].
  destruct (nth_error rows (Z.to_nat i)) eqn:E; eauto. apply nth_error_None in E. lia.
Qed.

Lemma holds_row d rows i row : holds d rows -> row_of rows i = Some row ->
  exists buf, ds_data d = Some buf /\ 0 <= i < ds_count d /\
    getItemLength d i = Ret (Z.of_nat (length row)) /\ Z.of_nat (length row) <= ds_maxcol d /\
    0 <= ds_maxcol d /\ row_ptr d i = Ret (skipn (Z.to_nat (i * ds_maxcol d)) buf) /\
    i * ds_maxcol d + ds_maxcol d <= Z.of_nat (length buf) /\
    firstn (length row) (skipn (Z.to_nat (i * ds_maxcol d)) buf) = row.
Proof.
  intros (buf & Ed & Ec & Hm & Hb & Hr) Ei. apply row_of_Some in Ei as [Hi Ei].
  destruct (Hr _ _ Ei) as (El & Hl & Hv). exists buf.
  assert (Hoff : 0 <= i * ds_maxcol d) by nia.
  assert (Hoff2 : i * ds_maxcol d + ds_maxcol d <= Z.of_nat (length buf)) by nia.
  splits; auto; try lia.
  - unfold getItemLength. apply aget_Ret. split; [lia|auto].
  - unfold row_ptr. rewrite Ed. cbn [deref bind]. rewrite imul_ok by (unfold int_min, int_max in *; lia). cbn [bind].
    destruct (Z.leb_spec 0 (i * ds_maxcol d)); [|lia].
    destruct (Z.leb_spec (i * ds_maxcol d) (Z.of_nat (length buf))); [|lia]. reflexivity.
  - apply list_ext. intros k. rewrite nth_error_firstn_all.
    destruct (Nat.ltb_spec k (length row)) as [Hk|Hk].
    + rewrite nth_error_skipn. destruct (nth_error row k) eqn:E; [|apply nth_error_None in E; lia].
      specialize (Hv _ _ E). apply aget_Ret in Hv as [_ Hv]. rewrite <- Hv. f_equal. lia.
    + symmetry. apply nth_error_None. auto.
Qed.

Lemma firstn_firstn_skipn {A} (l : list A) s n m : (s + n <= m)%nat ->
  firstn n (skipn s (firstn m l)) = firstn n (skipn s l).
Proof.
  intros H. rewrite skipn_firstn_comm, firstn_firstn. f_equal. lia.
Qed.

Lemma view_points (mem row : list D) i s e : firstn (length row) mem = row ->
  0 <= s <= e -> e <= Z.of_nat (length row) ->
  ts_points (ts_view mem i s e) = slice row s e /\ ts_ok (ts_view mem i s e) /\
  length (slice row s e) = Z.to_nat (e - s).
Proof.
  intros Hm Hs He. splits.
  - unfold ts_points, slice, ts_view; simpl. rewrite <- Hm at 1. symmetry. apply firstn_firstn_skipn. lia.
  - assert (length row <= length mem)%nat.
    { rewrite <- Hm at 1. rewrite firstn_length. lia. }
    unfold ts_ok, ts_view; simpl. lia.
  - unfold slice. rewrite firstn_length, skipn_length. lia.
Qed.

(** the subsequence object at (i, s..e-1) *)
Lemma getTimeSeries_ok d rows i s e row : holds d rows -> row_of rows i = Some row ->
  0 <= s < e -> e <= Z.of_nat (length row) ->
  exists t, getTimeSeries d i s e = Ret t /\ ts_points t = slice row s e /\ ts_ok t /\
    ts_index t = i /\ ts_start t = s /\ ts_length t = e - s.
Proof.
  intros H Ei Hs He. destruct (holds_row _ _ _ _ H Ei) as (buf & Ed & Hi & El & Hl & Hm & Ep & Hb & Er).
  destruct (view_points _ row i s e Er ltac:(lia) ltac:(lia)) as (V1 & V2 & _).
  eexists. splits; [|exact V1|exact V2|reflexivity|reflexivity|reflexivity].
  unfold getTimeSeries.
  destruct (Z.ltb_spec i 0); [lia|]. destruct (Z.leb_spec (ds_count d) i); [lia|]. simpl.
  destruct (Z.ltb_spec s 0); [lia|]. destruct (Z.leb_spec e s); [lia|]. simpl.
  rewrite El. simpl. destruct (Z.ltb_spec (Z.of_nat (length row)) e); [lia|].
  rewrite Ep. reflexivity.
Qed.

Lemma getTimeSeries_whole d rows i s e row : holds d rows -> row_of rows i = Some row ->
  s < 0 -> e < 0 ->
  exists t, getTimeSeries d i s e = Ret t /\ ts_points t = row /\ ts_ok t /\
    ts_index t = i /\ ts_start t = 0 /\ ts_length t = Z.of_nat (length row).
Proof.
  intros H Ei Hs He. destruct (holds_row _ _ _ _ H Ei) as (buf & Ed & Hi & El & Hl & Hm & Ep & Hb & Er).
  destruct (view_points _ row i 0 (Z.of_nat (length row)) Er ltac:(lia) ltac:(lia)) as (V1 & V2 & _).
  eexists. splits; [| |exact V2|reflexivity|reflexivity|simpl; lia].
  - unfold getTimeSeries.
    destruct (Z.ltb_spec i 0); [lia|]. destruct (Z.leb_spec (ds_count d) i); [lia|]. simpl.
    destruct (Z.ltb_spec s 0); [|lia]. destruct (Z.ltb_spec e 0); [|lia]. simpl.
    rewrite Ep, El. reflexivity.
  - rewrite V1. unfold slice. simpl. rewrite Z.sub_0_r, Nat2Z.id. apply firstn_all.
Qed.

Lemma getTimeSeries_bad d rows i s e : holds d rows ->
  (row_of rows i = None \/
   exists row, row_of rows i = Some row /\ ~ (s < 0 /\ e < 0) /\ ~ (0 <= s < e /\ e <= Z.of_nat (length row))) ->
  exists m, getTimeSeries d i s e = Throw (GenexExc m).
Proof.
  intros H [Ei|(row & Ei & H1 & H2)].
  - apply row_of_None in Ei. destruct H as (buf & _ & Ec & _). unfold getTimeSeries.
    destruct (Z.ltb_spec i 0); simpl; eauto. destruct (Z.leb_spec (ds_count d) i); simpl; eauto. lia.
  - destruct (holds_row _ _ _ _ H Ei) as (buf & Ed & Hi & El & _). unfold getTimeSeries.
    destruct (Z.ltb_spec i 0); [lia|]. destruct (Z.leb_spec (ds_count d) i); [lia|]. simpl.
    destruct (Z.ltb_spec s 0); simpl.
    + destruct (Z.ltb_spec e 0); simpl; eauto. lia.
    + destruct (Z.leb_spec e s); simpl; eauto. rewrite El. simpl.
      destruct (Z.ltb_spec (Z.of_nat (length row)) e); eauto. lia.
Qed.

(** ** positions of the values *)
Fixpoint cells (mc : Z) (i : Z) (rows : list (list D)) : list Z :=
  match rows with
  | [] => []
  | row :: rows' => zseq (i * mc) (length row) ++ cells mc (i + 1) rows'
  end.

Lemma cells_In mc rows : forall i pos, In pos (cells mc i rows) <->
  exists k row, nth_error rows k = Some row /\
    (i + Z.of_nat k) * mc <= pos < (i + Z.of_nat k) * mc + Z.of_nat (length row).
Proof.
  induction rows as [|row rows IH]; intros i pos; simpl.
  - split; [tauto|]. intros (k & row & E & _). destruct k; discriminate.
  - rewrite in_app_iff, IH, zseq_In. split.
    + intros [H|(k & r & E & H)].
      * exists O, row. split; [reflexivity|]. replace (i + Z.of_nat 0) with i by lia. lia.
      * exists (Datatypes.S k), r. split; [exact E|]. replace (i + Z.of_nat (Datatypes.S k)) with (i + 1 + Z.of_nat k) by lia. lia.
    + intros ([|k] & r & E & H).
      * left. injection E as <-. replace (i + Z.of_nat 0) with i in H by lia. lia.
      * right. exists k, r. split; [exact E|].
        replace (i + Z.of_nat (Datatypes.S k)) with (i + 1 + Z.of_nat k) in H by lia. lia.
Qed.

Lemma NoDup_app {A} (l1 l2 : list A) : NoDup l1 -> NoDup l2 -> (forall x, In x l1 -> In x l2 -> False) ->
  NoDup (l1 ++ l2).
Proof.
  induction l1 as [|x l1 IH]; intros H1 H2 H; simpl; auto.
  inversion H1 as [|? ? Hx H1']; subst. constructor.
  - rewrite in_app_iff. intros [Hi|Hi]; [auto|]. apply (H x); simpl; auto.
  - apply IH; auto. intros y Hy. apply H. right; auto.
Qed.

Lemma cells_NoDup mc rows : 0 <= mc -> Forall (fun r => Z.of_nat (length r) <= mc) rows ->
  forall i, NoDup (cells mc i rows).
Proof.
  intros Hm. induction 1 as [|row rows Hl Hr IH]; intros i; simpl; [constructor|].
  apply NoDup_app; auto using zseq_NoDup.
  intros x Hx Hx'. apply zseq_In in Hx. apply cells_In in Hx' as (k & r & E & Hx'). nia.
Qed.

Lemma each_value_cells {S} d (body : Z -> S -> res S) : forall rows i s,
  0 <= i -> 0 <= ds_maxcol d -> (i + Z.of_nat (length rows)) * ds_maxcol d <= int_max ->
  (forall k row, nth_error rows k = Some row ->
     nth_error (ds_lengths d) (Z.to_nat i + k) = Some (Z.of_nat (length row))) ->
  for_n (length rows) i (fun ts s =>
    len <- getItemLength d ts ;;
    if len <? 0 then UB ForeverUnsigned else
    for_ 0 len (fun i s => row <- imul ts (ds_maxcol d) ;; body (row + i) s) s) s =
  fold_res body (cells (ds_maxcol d) i rows) s.
Proof.
  induction rows as [|row rows IH]; intros i s Hi Hm Hx H; cbn [length for_n cells] in *; [reflexivity|].
  rewrite fold_res_app.
  assert (Em : imul i (ds_maxcol d) = Ret (i * ds_maxcol d)) by (apply imul_ok; unfold int_min; nia).
  rewrite Em. cbn [bind].
  assert (E : getItemLength d i = Ret (Z.of_nat (length row))).
  { apply aget_Ret. split; auto. rewrite <- (Nat.add_0_r (Z.to_nat i)). apply (H O row). reflexivity. }
  rewrite E. simpl. destruct (Z.ltb_spec (Z.of_nat (length row)) 0); [lia|].
  rewrite for_fold, Z.sub_0_r, Nat2Z.id.
  assert (Ez : zseq (i * ds_maxcol d) (length row) = map (fun j => i * ds_maxcol d + j) (zseq 0 (length row))).
  { apply list_ext. intros k. destruct (Nat.lt_ge_cases k (length row)) as [Hk|Hk].
    - rewrite zseq_nth by auto. symmetry. rewrite (map_nth_error _ k _ (zseq_nth 0 _ k Hk)). reflexivity.
    - rewrite !(proj2 (nth_error_None _ _)); rewrite ?map_length, ?zseq_length; auto. }
  rewrite Ez, fold_res_map.
  destruct (fold_res (fun a => body (i * ds_maxcol d + a)) (zseq 0 (length row)) s); simpl; auto.
  apply IH; [lia|exact Hm|nia|]. intros k r Ek. replace (Z.to_nat (i + 1) + k)%nat with (Z.to_nat i + Datatypes.S k)%nat by lia.
  apply H. exact Ek.
Qed.

Lemma each_value_ok {S} d rows (body : Z -> S -> res S) s : holds d rows ->
  each_value d body s = fold_res body (cells (ds_maxcol d) 0 rows) s.
Proof.
  intros (buf & _ & Ec & Hm & Hb & Hr). unfold each_value, for_. rewrite Ec, Z.sub_0_r, Nat2Z.id.
  rewrite Ec in Hb. apply each_value_cells; [lia|exact Hm|lia|]. intros k row Ek. apply (Hr k row Ek).
Qed.

Lemma cells_values (buf : list D) mc rows : forall i,
  (forall k row, nth_error rows k = Some row ->
     forall j v, nth_error row j = Some v -> aget buf ((i + Z.of_nat k) * mc + Z.of_nat j) = Ret v) ->
  Forall2 (fun pos v => aget buf pos = Ret v) (cells mc i rows) (concat rows).
Proof.
  induction rows as [|row rows IH]; intros i H; simpl; [constructor|].
  apply Forall2_app.
  - assert (H0 : forall j v, nth_error row j = Some v -> aget buf (i * mc + Z.of_nat j) = Ret v).
    { intros j v Ej. replace (i * mc) with ((i + Z.of_nat 0) * mc) by lia. apply (H O row); auto. }
    clear H IH. revert H0. generalize (i * mc) as off. induction row as [|x row IHr]; intros off H0; simpl; constructor.
    + replace off with (off + Z.of_nat 0) by lia. apply H0. reflexivity.
    + apply IHr. intros j v Ej. replace (off + 1 + Z.of_nat j) with (off + Z.of_nat (Datatypes.S j)) by lia. apply H0. exact Ej.
  - apply IH. intros k r Ek j v Ej. replace (i + 1 + Z.of_nat k) with (i + Z.of_nat (Datatypes.S k)) by lia.
    apply (H (Datatypes.S k) r); auto.
Qed.

(** ** minimum and maximum *)
Definition mm_step (s : D * D) (v : D) : D * D :=
  (if nltb v (fst s) then v else fst s, if nltb (snd s) v then v else snd s).

Lemma minmax_fold (buf : list D) ps vs s : Forall2 (fun pos v => aget buf pos = Ret v) ps vs ->
  fold_res (minmax_step buf) ps s = Ret (fold_left mm_step vs s).
Proof.
  intros H. revert s. induction H as [|p v ps vs Hp _ IH]; intros s; simpl; auto.
  unfold minmax_step at 1. rewrite Hp. simpl. apply IH.
Qed.

Context {L : NumLaws N}.

Lemma mm_spec vs : forall s, Forall nfin vs -> nn (fst s) -> nn (snd s) ->
  let r := fold_left mm_step vs s in
  nn (fst r) /\ nn (snd r) /\
  nle (fst r) (fst s) /\ nle (snd s) (snd r) /\
  Forall (fun v => nle (fst r) v /\ nle v (snd r)) vs /\
  (In (fst r) vs \/ fst r = fst s) /\ (In (snd r) vs \/ snd r = snd s).
Proof.
  induction vs as [|v vs IH]; intros s Hf H1 H2; simpl.
  - splits; auto using nle_refl.
  - inversion Hf as [|? ? Fv Hf']; subst. pose proof (nfin_nn v Fv) as Nv.
    destruct (IH (mm_step s v) Hf') as (A1 & A2 & A3 & A4 & A5 & A6 & A7).
    { unfold mm_step; simpl. destruct (nltb v (fst s)); auto. }
    { unfold mm_step; simpl. destruct (nltb (snd s) v); auto. }
    set (r := fold_left mm_step vs (mm_step s v)) in *.
    assert (B1 : nle (fst (mm_step s v)) v /\ nle (fst (mm_step s v)) (fst s)).
    { unfold mm_step; simpl. destruct (nltb v (fst s)) eqn:E; split; auto using nle_refl.
      - apply nlt_le; exact E.
      - apply nltb_false_le; auto. }
    assert (B2 : nle v (snd (mm_step s v)) /\ nle (snd s) (snd (mm_step s v))).
    { unfold mm_step; simpl. destruct (nltb (snd s) v) eqn:E; split; auto using nle_refl.
      - apply nlt_le; exact E.
      - apply nltb_false_le; auto. }
    destruct B1 as [B1 B1'], B2 as [B2 B2']. splits; auto.
    + eapply nle_trans; eauto.
    + eapply nle_trans; eauto.
    + constructor; auto. split; eapply nle_trans; eauto.
    + destruct A6 as [A6|A6]; auto. unfold mm_step in A6; simpl in A6.
      destruct (nltb v (fst s)); [left; left; congruence|right; auto].
    + destruct A7 as [A7|A7]; auto. unfold mm_step in A7; simpl in A7.
      destruct (nltb (snd s) v); [left; left; congruence|right; auto].
Qed.

Lemma mm_extremes vs : vs <> [] -> Forall nfin vs ->
  exists mn mx, fold_left mm_step vs (ninf, nninf) = (mn, mx) /\
    In mn vs /\ In mx vs /\ Forall (fun v => nle mn v /\ nle v mx) vs.
Proof.
  intros Hne Hf. destruct (mm_spec vs (ninf, nninf) Hf) as (_ & _ & _ & _ & A5 & A6 & A7).
  { apply lw_inf_nn. } { apply lw_ninf_nn. }
  destruct (fold_left mm_step vs (ninf, nninf)) as [mn mx] eqn:E; simpl in *.
  destruct vs as [|v0 vs0]; [congruence|].
  inversion Hf as [|? ? F0 _]; subst. inversion A5 as [|? ? [B1 B2] _]; subst.
  exists mn, mx. splits; auto.
  - destruct A6 as [|A6]; auto. subst mn. exfalso. apply (nle_not_lt _ _ B1). apply nfin_lt_inf, F0.
  - destruct A7 as [|A7]; auto. subst mx. exfalso. apply (nle_not_lt _ _ B2). apply F0.
Qed.

(** ** writing *)
Lemma write_fold (f : D -> D) (body : Z -> list D -> res (list D)) :
  forall ps (buf : list D),
  NoDup ps -> (forall p, In p ps -> 0 <= p < Z.of_nat (length buf)) ->
  (forall p b v, In p ps -> length b = length buf -> aget b p = Ret v -> body p b = aset b p (f v)) ->
  exists buf', fold_res body ps buf = Ret buf' /\ length buf' = length buf /\
    (forall p, ~ In p ps -> aget buf' p = aget buf p) /\
    (forall p v, In p ps -> aget buf p = Ret v -> aget buf' p = Ret (f v)).
Proof.
  induction ps as [|p ps IH]; intros buf Hnd Hb Hbody; simpl.
  - exists buf. splits; auto. intros p v [].
  - inversion Hnd as [|? ? Hp Hnd']; subst.
    destruct (aget_in buf p) as [v Ev]; [apply Hb; left; auto|].
    rewrite (Hbody p buf v) by (simpl; auto).
    rewrite aset_in by (apply Hb; left; auto). simpl.
    destruct (IH (upd buf (Z.to_nat p) (f v))) as (buf' & E & El & H1 & H2); auto.
    { rewrite upd_length. intros q Hq. apply Hb. right; auto. }
    { rewrite upd_length. intros q b w Hq. apply Hbody. right; auto. }
    exists buf'. rewrite upd_length in El. splits; auto.
    + intros q Hq. rewrite H1 by tauto. apply aget_upd_other; [apply Hb; left; auto|intros ->; apply Hq; left; auto].
    + intros q w [<-|Hq] Ew.
      * rewrite H1 by auto. assert (w = v) by congruence. subst. apply aget_upd_same. apply Hb; left; auto.
      * apply H2; auto. rewrite aget_upd_other; auto; [apply Hb; left; auto|]. intros ->. auto.
Qed.

(** the shape of [holds] after rewriting the values by [f] *)
Lemma holds_map d rows (buf buf' : list D) (f : D -> D) : holds d rows -> ds_data d = Some buf ->
  length buf' = length buf ->
  (forall p v, In p (cells (ds_maxcol d) 0 rows) -> aget buf p = Ret v -> aget buf' p = Ret (f v)) ->
  holds (mkDS (Some buf') (ds_names d) (ds_lengths d) (ds_count d) (ds_maxcol d) (ds_path d) true) (map (map f) rows).
Proof.
  intros (buf0 & Ed & Ec & Hm & Hb & Hr) Ed' El Hf. assert (buf0 = buf) by congruence. subst buf0.
  exists buf'. splits; simpl; auto.
  - rewrite map_length. auto.
  - rewrite El. apply Hb.
  - rewrite El. apply Hb.
  - intros i row E. rewrite nth_error_map in E. destruct (nth_error rows i) as [row0|] eqn:E0; [|discriminate].
    injection E as <-. destruct (Hr _ _ E0) as (H1 & H2 & H3). rewrite map_length. splits; auto.
    intros j v Ej. rewrite nth_error_map in Ej. destruct (nth_error row0 j) as [v0|] eqn:Ej0; [|discriminate].
    injection Ej as <-. apply Hf; [|apply H3; auto].
    apply cells_In. exists i, row0. split; auto. apply nth_error_Some_lt in Ej0. lia.
Qed.

(** the value normalisation gives to [v] *)
Definition norm_val (mn mx v : D) : D :=
  if neqb (nsub mx mn) n0 then (if negb (neqb mx n0) then n0 else v)
  else ndiv (nsub v mn) (nsub mx mn).

Lemma normalize_ok d rows : holds d rows -> concat rows <> [] -> Forall nfin (concat rows) ->
  exists buf buf' mn mx,
    ds_data d = Some buf /\
    normalize d = Ret (mkDS (Some buf') (ds_names d) (ds_lengths d) (ds_count d) (ds_maxcol d) (ds_path d) true,
                       (mn, mx)) /\
    In mn (concat rows) /\ In mx (concat rows) /\ Forall (fun v => nle mn v /\ nle v mx) (concat rows) /\
    holds (mkDS (Some buf') (ds_names d) (ds_lengths d) (ds_count d) (ds_maxcol d) (ds_path d) true)
          (map (map (norm_val mn mx)) rows) /\
    length buf' = length buf /\
    (forall p, (forall i row, nth_error rows i = Some row ->
        ~ (Z.of_nat i * ds_maxcol d <= p < Z.of_nat i * ds_maxcol d + Z.of_nat (length row))) ->
        aget buf' p = aget buf p).
Proof.
  intros H Hne Hf. pose proof H as (buf & Ed & Ec & Hm & Hb & Hr).
  destruct (mm_extremes _ Hne Hf) as (mn & mx & Emm & Imn & Imx & Hall).
  assert (HF2 : Forall2 (fun pos v => aget buf pos = Ret v) (cells (ds_maxcol d) 0 rows) (concat rows)).
  { apply cells_values. intros k row Ek j v Ej. rewrite Z.add_0_l. apply (Hr k row Ek). auto. }
  assert (Hrows : Forall (fun r => Z.of_nat (length r) <= ds_maxcol d) rows).
  { apply Forall_forall. intros r Hin. apply In_nth_error in Hin as [k Ek]. apply (Hr k r Ek). }
  assert (Hnd := cells_NoDup (ds_maxcol d) rows Hm Hrows 0).
  assert (Hin : forall p, In p (cells (ds_maxcol d) 0 rows) -> 0 <= p < Z.of_nat (length buf)).
  { intros p Hp. apply cells_In in Hp as (k & r & Ek & Hp). destruct (Hr _ _ Ek) as (_ & Hl & _).
    apply nth_error_Some_lt in Ek. nia. }
  assert (W : exists buf',
    (if neqb (nsub mx mn) n0 then
       if negb (neqb mx n0) then each_value d (fun pos b => aset b pos n0) buf else Ret buf
     else each_value d (fun pos b => v <- aget b pos ;; aset b pos (ndiv (nsub v mn) (nsub mx mn))) buf) = Ret buf' /\
    length buf' = length buf /\
    (forall p, ~ In p (cells (ds_maxcol d) 0 rows) -> aget buf' p = aget buf p) /\
    (forall p v, In p (cells (ds_maxcol d) 0 rows) -> aget buf p = Ret v -> aget buf' p = Ret (norm_val mn mx v))).
  { unfold norm_val. destruct (neqb (nsub mx mn) n0).
    - destruct (negb (neqb mx n0)).
      + rewrite (each_value_ok d rows) by auto. apply (write_fold (fun _ => n0)); auto.
      + exists buf. splits; auto.
    - rewrite (each_value_ok d rows) by auto. apply (write_fold (fun v => ndiv (nsub v mn) (nsub mx mn))); auto.
      intros p b v _ _ Ev. rewrite Ev. reflexivity. }
  destruct W as (buf' & W & El & W1 & W2).
  exists buf, buf', mn, mx. splits; auto.
  - unfold normalize. destruct (Z.eqb_spec (ds_count d) 0) as [E0|_].
    { exfalso. apply Hne. destruct rows; [reflexivity|simpl in Ec; lia]. }
    rewrite Ed. simpl. rewrite (each_value_ok d rows) by auto.
    rewrite (minmax_fold buf _ _ _ HF2), Emm. simpl. rewrite W. reflexivity.
  - apply (holds_map d rows buf); auto.
  - intros p Hp. apply W1. intros Hc. apply cells_In in Hc as (k & r & Ek & Hc). rewrite Z.add_0_l in Hc.
    apply (Hp k r Ek Hc).
Qed.

(** ** the values normalisation produces *)
Context {E : EpsLaws N}.

Section Vals.
Variables (mn mx : D).
Hypothesis Fmn : nfin mn.
Hypothesis Fmx : nfin mx.
Hypothesis Fd : nfin (nsub mx mn).
Hypothesis Hle : nle mn mx.

Lemma diff_cases : (nlt mn mx /\ nlt n0 (nsub mx mn) /\ neqb (nsub mx mn) n0 = false) \/
  (neqv mn mx /\ neqb (nsub mx mn) n0 = true).
Proof.
  destruct (nle_or_lt mx mn) as [H|H]; [apply nfin_nn; auto..| |].
  - right. split; [split; auto|]. apply neqb_of_eqv. split.
    + apply nle_trans with (nsub mn mn).
      * apply lw_sub_mono; auto. apply nle_refl, nfin_nn; auto.
      * apply lw_sub_self; auto.
    + apply nle_trans with (nsub mx mx).
      * apply lw_sub_self; auto.
      * apply lw_sub_mono; auto. apply nle_refl, nfin_nn; auto.
  - left. pose proof (lw_sub_pos _ _ Fmn Fmx H) as P. splits; auto.
    destruct (neqb (nsub mx mn) n0) eqn:En; auto. apply neqb_true in En. exfalso.
    apply (nle_not_lt _ _ (proj1 En) P).
Qed.

Lemma sub_between v : nfin v -> nle mn v -> nle v mx ->
  nfin (nsub v mn) /\ nle n0 (nsub v mn) /\ nle (nsub v mn) (nsub mx mn).
Proof.
  intros Fv H1 H2.
  assert (A : nle n0 (nsub v mn)).
  { apply nle_trans with (nsub mn mn); [apply lw_sub_self; auto|].
    apply lw_sub_mono; auto. apply nle_refl, nfin_nn; auto. }
  assert (B : nle (nsub v mn) (nsub mx mn)).
  { apply lw_sub_mono; auto. apply nle_refl, nfin_nn; auto. }
  splits; auto. apply nfin_between with n0 (nsub mx mn); auto. apply n0_fin.
Qed.

Lemma norm_range v : nfin v -> nle mn v -> nle v mx ->
  nle n0 (norm_val mn mx v) /\ nle (norm_val mn mx v) (nofZ 1).
Proof.
  intros Fv H1 H2. unfold norm_val.
  destruct diff_cases as [(Hlt & Hp & ->)|[He ->]].
  - destruct (sub_between v Fv H1 H2) as (F1 & A & B). split.
    + apply nle_trans with (ndiv n0 (nsub mx mn)); [apply lw_quo_0; auto|].
      apply lw_quo_mono; auto using n0_fin. apply nle_refl, n0_nn.
    + apply nle_trans with (ndiv (nsub mx mn) (nsub mx mn)); [apply lw_quo_mono; auto|].
      apply lw_quo_self; auto.
  - destruct (negb (neqb mx n0)) eqn:Ez.
    + split; [apply nle_refl, n0_nn|apply lw_ofZ_le; lia].
    + apply negb_false_iff, neqb_true in Ez. split.
      * apply nle_trans with mx; [apply Ez|]. apply nle_trans with mn; [apply He|auto].
      * apply nle_trans with mx; auto. apply nle_trans with n0; [apply Ez|apply lw_ofZ_le; lia].
Qed.

Lemma norm_mono u v : nfin u -> nfin v -> nle mn u -> nle u v -> nle v mx ->
  nle (norm_val mn mx u) (norm_val mn mx v).
Proof.
  intros Fu Fv H1 H2 H3. unfold norm_val.
  destruct diff_cases as [(Hlt & Hp & ->)|[He ->]].
  - destruct (sub_between u Fu H1 (nle_trans _ _ _ H2 H3)) as (F1 & A & B).
    destruct (sub_between v Fv (nle_trans _ _ _ H1 H2) H3) as (F1' & A' & B').
    apply lw_quo_mono; auto. apply lw_sub_mono; auto. apply nle_refl, nfin_nn; auto.
  - destruct (negb (neqb mx n0)) eqn:Ez; [apply nle_refl, n0_nn|auto].
Qed.

Lemma norm_min : neqv (norm_val mn mx mn) n0.
Proof.
  unfold norm_val. destruct diff_cases as [(Hlt & Hp & ->)|[He ->]].
  - destruct (sub_between mn Fmn (nle_refl _ (nfin_nn _ Fmn)) Hle) as (F1 & A & B).
    assert (S0 := lw_sub_self mn Fmn). split.
    + apply nle_trans with (ndiv n0 (nsub mx mn)); [|apply lw_quo_0; auto].
      apply lw_quo_mono; auto using n0_fin. apply S0.
    + apply nle_trans with (ndiv n0 (nsub mx mn)); [apply lw_quo_0; auto|].
      apply lw_quo_mono; auto using n0_fin. apply nle_refl, n0_nn.
  - destruct (negb (neqb mx n0)) eqn:Ez; [apply neqv_refl, n0_nn|].
    apply negb_false_iff, neqb_true in Ez. eapply neqv_trans; eauto.
Qed.

Lemma norm_max : nlt mn mx -> neqv (norm_val mn mx mx) (nofZ 1).
Proof.
  intros Hlt. unfold norm_val. destruct diff_cases as [(_ & Hp & ->)|[He _]].
  - apply lw_quo_self; auto.
  - exfalso. apply (nle_not_lt _ _ (proj2 He) Hlt).
Qed.

Lemma norm_const v : neqv mn mx -> nle mn v -> nle v mx -> neqv (norm_val mn mx v) n0.
Proof.
  intros He H1 H2. unfold norm_val. destruct diff_cases as [(Hlt & _)|[_ ->]].
  - exfalso. apply (nle_not_lt _ _ (proj2 He) Hlt).
  - destruct (negb (neqb mx n0)) eqn:Ez; [apply neqv_refl, n0_nn|].
    apply negb_false_iff, neqb_true in Ez. apply neqv_trans with mx; auto. split; auto.
    apply nle_trans with mn; [apply He|auto].
Qed.

End Vals.

Lemma norm_unit mn mx v : nfin mn -> nfin mx -> nfin v -> neqv mn n0 -> neqv mx (nofZ 1) ->
  nle mn v -> nle v mx -> neqv (norm_val mn mx v) v.
Proof.
  intros Fmn Fmx Fv E0 E1 H1 H2.
  assert (F1 : nfin (@nofZ N 1)) by (apply lw_ofZ_fin; lia).
  assert (L1 : nlt n0 (@nofZ N 1)) by (apply lw_ofZ_lt; lia).
  assert (Ed : neqv (nsub mx mn) (nofZ 1)).
  { destruct (lw_sub_0 (@nofZ N 1) F1) as [A B]. split.
    - apply nle_trans with (nsub (nofZ 1) n0); auto. apply lw_sub_mono; auto using n0_fin; [apply E1|apply E0].
    - apply nle_trans with (nsub (nofZ 1) n0); auto. apply lw_sub_mono; auto using n0_fin; [apply E1|apply E0]. }
  assert (Fd : nfin (nsub mx mn)).
  { apply nfin_between with (@nofZ N 1) (@nofZ N 1); auto; apply Ed. }
  assert (Hle : nle mn mx) by (eapply nle_trans; eauto).
  unfold norm_val. destruct (diff_cases mn mx Fmn Fmx Hle) as [(Hlt & Hp & ->)|[He _]].
  2:{ exfalso. apply (nle_not_lt (nofZ 1) (@n0 N)); auto.
      apply nle_trans with mx; [apply E1|]. apply nle_trans with mn; [apply He|apply E0]. }
  assert (Es : neqv (nsub v mn) v).
  { destruct (lw_sub_0 v Fv) as [A B]. split.
    - apply nle_trans with (nsub v n0); auto. apply lw_sub_mono; auto using n0_fin; [apply nle_refl, nfin_nn; auto|apply E0].
    - apply nle_trans with (nsub v n0); auto. apply lw_sub_mono; auto using n0_fin; [apply nle_refl, nfin_nn; auto|apply E0]. }
  rewrite (lw_eqv_pos (nsub mx mn) (nofZ 1)) by auto.
  apply neqv_trans with (nsub v mn); auto. apply lw_quo_1.
  apply nfin_between with v v; auto; apply Es.
Qed.



Lemma norm_zero mn mx v : nfin mn -> nfin mx -> neqv mn n0 -> neqv mx n0 ->
  nle mn v -> nle v mx -> norm_val mn mx v = v.
Proof.
  intros Fmn Fmx E0 E1 H1 H2. unfold norm_val.
  assert (Hle : nle mn mx) by (eapply nle_trans; eauto).
  destruct (diff_cases mn mx Fmn Fmx Hle) as [(Hlt & _)|[He ->]].
  - exfalso. apply (nle_not_lt mx mn); auto. apply nle_trans with n0; [apply E1|apply E0].
  - rewrite (neqb_of_eqv _ _ E1). reflexivity.
Qed.

Lemma norm_again mn mx mn' mx' vs v :
  nfin mn -> nfin mx -> nfin (nsub mx mn) -> Forall nfin vs ->
  In mn vs -> In mx vs -> Forall (fun v => nle mn v /\ nle v mx) vs ->
  In mn' (map (norm_val mn mx) vs) -> In mx' (map (norm_val mn mx) vs) ->
  Forall (fun v => nle mn' v /\ nle v mx') (map (norm_val mn mx) vs) -> In v vs ->
  neqv (norm_val mn' mx' (norm_val mn mx v)) (norm_val mn mx v).
Proof.
  intros Fmn Fmx Fd Hf Imn Imx Hall Imn' Imx' Hall' Iv.
  rewrite Forall_forall in Hf, Hall, Hall'.
  assert (Hle : nle mn mx) by (apply (Hall mx); auto).
  assert (R : forall w, In w vs -> nle n0 (norm_val mn mx w) /\ nle (norm_val mn mx w) (nofZ 1)).
  { intros w Hw. apply norm_range; auto; apply Hall; auto. }
  assert (F01 : forall w, In w (map (norm_val mn mx) vs) -> nfin w).
  { intros w Hw. apply in_map_iff in Hw as (w0 & <- & Hw). destruct (R w0 Hw) as [A B].
    apply nfin_between with n0 (@nofZ N 1); auto using n0_fin. apply lw_ofZ_fin; lia. }
  assert (Iv' : In (norm_val mn mx v) (map (norm_val mn mx) vs)) by (apply in_map; auto).
  assert (I1 : In (norm_val mn mx mn) (map (norm_val mn mx) vs)) by (apply in_map; auto).
  assert (I2 : In (norm_val mn mx mx) (map (norm_val mn mx) vs)) by (apply in_map; auto).
  assert (Z0 : neqv mn' n0).
  { split.
    - apply nle_trans with (norm_val mn mx mn); [apply Hall'; auto|]. apply norm_min; auto.
    - apply in_map_iff in Imn' as (w0 & <- & Hw). apply R; auto. }
  destruct (diff_cases mn mx Fmn Fmx Hle) as [(Hlt & _ & _)|[He _]].
  - apply norm_unit; auto; try (apply Hall'; auto). split.
    + apply in_map_iff in Imx' as (w0 & <- & Hw). apply R; auto.
    + apply nle_trans with (norm_val mn mx mx); [|apply Hall'; auto].
      apply norm_max; auto.
  - assert (Hz : forall w, In w (map (norm_val mn mx) vs) -> neqv w n0).
    { intros w Hw. apply in_map_iff in Hw as (w0 & <- & Hw). apply norm_const; auto; apply Hall; auto. }
    rewrite norm_zero; auto; try (apply Hall'; auto). apply neqv_refl, nfin_nn; auto.
Qed.

End Data.
