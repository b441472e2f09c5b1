(** Facts about series access and warping paths. *)
From Verif Require Import Base Num TimeSeries Distance DtwSpec LoopFacts.

Section TSFacts.
Context {N : Num}.

Lemma nth_error_firstn {A} (l : list A) n k : (k < n)%nat -> nth_error (firstn n l) k = nth_error l k.
Proof.
  revert l k; induction n as [|n IH]; intros l k H; [lia|].
  destruct l as [|x l]; simpl; [destruct k; auto|]. destruct k; simpl; auto. apply IH; lia.
Qed.
Lemma nth_error_skipn {A} (l : list A) n k : nth_error (skipn n l) k = nth_error l (n + k).
Proof.
  revert l; induction n as [|n IH]; intros l; simpl; auto. destruct l; simpl; auto. destruct k; auto.
Qed.

Lemma ts_points_length (t : TS N) : ts_ok t -> Z.of_nat (length (ts_points t)) = ts_length t.
Proof.
  intros (H1 & H2 & H3 & H4). unfold ts_points. rewrite firstn_length, skipn_length. lia.
Qed.

Lemma ts_get_pt (t : TS N) i : ts_ok t -> 0 <= i < ts_length t -> ts_get t i = Ret (pt t i).
Proof.
  intros Hok Hi. pose proof (ts_points_length t Hok) as Hl.
  destruct Hok as (H1 & H2 & H3 & H4). unfold ts_get.
  destruct (Z.ltb_spec i 0); [lia|]. destruct (Z.leb_spec (ts_length t) i); [lia|]. simpl.
  apply aget_Ret. split; [lia|]. unfold pt.
  rewrite (nth_error_nth' (ts_mem t) n0) by lia. f_equal.
  assert (E : nth_error (ts_points t) (Z.to_nat i) = nth_error (ts_mem t) (Z.to_nat (ts_start t + i))).
  { unfold ts_points. rewrite nth_error_firstn by lia. rewrite nth_error_skipn. f_equal. lia. }
  rewrite (nth_error_nth' (ts_points t) n0) in E by lia.
  rewrite (nth_error_nth' (ts_mem t) n0) in E by lia. congruence.
Qed.

Lemma ts_get_out (t : TS N) i : ~ (0 <= i < ts_length t) ->
  ts_get t i = Throw (GenexExc "Data point index is out of range"%string).
Proof.
  intros H. unfold ts_get. destruct (Z.ltb_spec i 0); auto. destruct (Z.leb_spec (ts_length t) i); auto. lia.
Qed.

Lemma ts_of_list_ok (l : list (D N)) : ts_ok (ts_of_list l).
Proof. unfold ts_ok, ts_of_list; simpl. lia. Qed.

Lemma ts_of_list_points (l : list (D N)) : ts_points (ts_of_list l) = l.
Proof. unfold ts_points, ts_of_list; simpl. rewrite Nat2Z.id. apply firstn_all. Qed.

Lemma pt_in (t : TS N) i : ts_ok t -> 0 <= i < ts_length t -> In (pt t i) (ts_points t).
Proof.
  intros Hok Hi. pose proof (ts_points_length t Hok). unfold pt. apply nth_In. lia.
Qed.
End TSFacts.

(** in-band paths, built from the front *)
Inductive bpath (r : Z) : Z -> Z -> list (Z * Z) -> Prop :=
| bp0 : bpath r 0 0 [(0, 0)]
| bpS : forall i j i' j' p, bpath r i j p -> wstep (i, j) (i', j') -> Z.abs (i' - j') <= r ->
    bpath r i' j' (p ++ [(i', j')]).

Lemma wstep_cases i j i' j' : wstep (i, j) (i', j') ->
  (i' = i + 1 /\ j' = j) \/ (i' = i /\ j' = j + 1) \/ (i' = i + 1 /\ j' = j + 1).
Proof. unfold wstep; simpl; intros [H|[H|H]]; injection H as -> ->; auto. Qed.

Lemma bpath_nonneg r i j p : bpath r i j p -> 0 <= i /\ 0 <= j.
Proof.
  induction 1 as [|i j i' j' p Hp IH Hs Hb]; [lia|]. apply wstep_cases in Hs. lia.
Qed.

Lemma bpath_band r i j p : 0 <= r -> bpath r i j p -> Z.abs (i - j) <= r.
Proof. intros Hr H; destruct H; auto. Qed.

Lemma last_snoc {A} (l : list A) x d : last (l ++ [x]) d = x.
Proof. induction l as [|y l IH]; simpl; auto. rewrite IH. destruct l; auto. Qed.

Lemma chain_snoc c p x : chain c (p ++ [x]) <-> chain c p /\ wstep (last (c :: p) (0,0)) x.
Proof.
  revert c; induction p as [|y p IH]; intros c; simpl.
  - tauto.
  - rewrite IH. simpl. destruct p; tauto.
Qed.

Lemma bpath_path r i j p : 0 <= r -> bpath r i j p -> warping_path (i + 1) (j + 1) p /\ in_band r p.
Proof.
  intros Hr. induction 1 as [|i j i' j' p Hp IH Hs Hb].
  - simpl. split; [auto|]. repeat constructor; simpl; lia.
  - destruct IH as [IH1 IH2]. destruct p as [|c p]; [destruct IH1|].
    destruct IH1 as (E & Hc & Hl). split.
    + change ((c :: p) ++ [(i', j')]) with (c :: (p ++ [(i', j')])). split; [exact E|]. split.
      * apply chain_snoc. split; [exact Hc|]. rewrite Hl.
        replace (i + 1 - 1) with i by lia. replace (j + 1 - 1) with j by lia. exact Hs.
      * change (c :: p ++ [(i', j')]) with ((c :: p) ++ [(i', j')]). rewrite last_snoc. f_equal; lia.
    + apply Forall_app. split; [exact IH2|]. repeat constructor. exact Hb.
Qed.

Lemma path_bpath r i j p : warping_path (i + 1) (j + 1) p -> in_band r p -> bpath r i j p.
Proof.
  revert i j. induction p as [|x p IH] using rev_ind; intros i j Hw Hb; [destruct Hw|].
  destruct p as [|c p].
  - simpl in Hw. destruct Hw as (E & _ & E2). simpl. rewrite E in *. injection E2 as E2 E3.
    replace i with 0 by lia. replace j with 0 by lia. constructor.
  - change ((c :: p) ++ [x]) with (c :: (p ++ [x])) in Hw. destruct Hw as (E & Hc & Hl).
    change (c :: p ++ [x]) with ((c :: p) ++ [x]) in Hl. rewrite last_snoc in Hl. subst x.
    apply chain_snoc in Hc as [Hc Hs].
    apply Forall_app in Hb as [Hb1 Hb2].
    destruct (last (c :: p) (0, 0)) as [i0 j0] eqn:El.
    replace (i + 1 - 1) with i in * by lia. replace (j + 1 - 1) with j in * by lia.
    apply (bpS r i0 j0 i j); auto.
    + apply IH; auto. split; [exact E|]. split; [exact Hc|]. rewrite El. f_equal; lia.
    + inversion Hb2; subst. assumption.
Qed.

Lemma bpath_iff r i j p : 0 <= r ->
  (bpath r i j p <-> warping_path (i + 1) (j + 1) p /\ in_band r p).
Proof. intros Hr; split; [apply bpath_path; auto|intros [H1 H2]; apply path_bpath; auto]. Qed.

Lemma bpath_in r i j p c : bpath r i j p -> In c p -> 0 <= fst c <= i /\ 0 <= snd c <= j.
Proof.
  intros H; revert c. induction H as [|i j i' j' p Hp IH Hs Hb]; intros c Hc.
  - destruct Hc as [<-|[]]. simpl; lia.
  - apply in_app_or in Hc as [Hc|[<-|[]]].
    + apply IH in Hc. apply wstep_cases in Hs. lia.
    + pose proof (bpath_nonneg _ _ _ _ Hp). apply wstep_cases in Hs. simpl. lia.
Qed.

(** any in-band cell is reachable by an in-band path *)
Lemma bpath_exists_aux r k : 0 <= r -> forall i j, 0 <= i -> 0 <= j -> Z.abs (i - j) <= r ->
  i + j <= Z.of_nat k -> exists p, bpath r i j p.
Proof.
  intros Hr. induction k as [|k IH]; intros i j Hi Hj Hb Hk.
  - replace i with 0 by lia. replace j with 0 by lia. eexists; constructor.
  - destruct (Z.eq_dec i 0) as [->|Hi0]; destruct (Z.eq_dec j 0) as [->|Hj0].
    + eexists; constructor.
    + destruct (IH 0 (j - 1)) as [p Hp]; try lia.
      exists (p ++ [(0, j)]). apply (bpS r 0 (j - 1)); auto. unfold wstep; simpl. right; left; f_equal; lia.
    + destruct (IH (i - 1) 0) as [p Hp]; try lia.
      exists (p ++ [(i, 0)]). apply (bpS r (i - 1) 0); auto. unfold wstep; simpl. left; f_equal; lia.
    + destruct (IH (i - 1) (j - 1)) as [p Hp]; try lia.
      exists (p ++ [(i, j)]). apply (bpS r (i - 1) (j - 1)); auto. unfold wstep; simpl. right; right; f_equal; lia.
Qed.

Lemma bpath_exists r i j : 0 <= r -> 0 <= i -> 0 <= j -> Z.abs (i - j) <= r -> exists p, bpath r i j p.
Proof. intros. apply (bpath_exists_aux r (Z.to_nat (i + j))); auto. lia. Qed.

Lemma path_acc_snoc {N : Num} (M : Metric N) a b p i j :
  path_acc M a b (p ++ [(i, j)]) = m_reduce M (path_acc M a b p) (pt a i) (pt b j).
Proof. unfold path_acc. rewrite fold_left_app. reflexivity. Qed.

Lemma in_band_exists p : exists r, 0 <= r /\ in_band r p.
Proof.
  induction p as [|c p (r & Hr & IH)]; [exists 0; split; [lia|constructor]|].
  exists (Z.max r (Z.abs (fst c - snd c))). split; [lia|]. constructor; [lia|].
  eapply Forall_impl; [|exact IH]. simpl; intros; lia.
Qed.

(** a warping path stays inside the matrix *)
Lemma warping_path_bounds m n p c : warping_path m n p -> In c p -> 0 <= fst c < m /\ 0 <= snd c < n.
Proof.
  intros Hp Hc. destruct (in_band_exists p) as (r & Hr & Hb).
  assert (H : bpath r (m - 1) (n - 1) p).
  { apply path_bpath; auto. replace (m - 1 + 1) with m by lia. replace (n - 1 + 1) with n by lia. auto. }
  pose proof (bpath_in _ _ _ _ c H Hc). lia.
Qed.

Lemma full_band m n p r : warping_path m n p -> Z.max m n - 1 <= r -> in_band r p.
Proof.
  intros Hp Hr. apply Forall_forall. intros c Hc. pose proof (warping_path_bounds _ _ _ c Hp Hc). lia.
Qed.
