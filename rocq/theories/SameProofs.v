(** Proofs for C86: subsequences with equal values under the leader rule. *)
From Coq Require Import Sorted.
From Verif Require Import Base Num NumLaws NumFacts LoopFacts TimeSeries Distance Metrics DistSpec TSSet DataSpec StdAlg Candidate Group GroupSpec Members GroupProofs.
Local Open Scope Z_scope.
Local Open Scope list_scope.

Lemma before_asym (c c' : Z * Z) : before c c' -> before c' c -> False.
Proof. unfold before. lia. Qed.

Lemma sorted_snoc {A} (R : A -> A -> Prop) l x : StronglySorted R (l ++ [x]) -> StronglySorted R l /\ forall y, In y l -> R y x.
Proof.
  induction l as [|a l IH]; intros H.
  - split; [constructor|]. intros y [].
  - inversion H as [|a' l' Hs Ha]; subst. destruct (IH Hs) as [H1 H2]. rewrite Forall_app in Ha. destruct Ha as [Ha Hx].
    split; [constructor; auto|]. intros y [<-|Hy]; [|auto]. inversion Hx; auto.
Qed.

Section Leader.
Context {N : Num} {LW : NumLaws N}.
Notation D := (D N).
Variable full : coord -> coord -> D.
Variable thr : D.
Notation half := (ndiv thr (nofZ 2)).

(** where the groups after a step come from *)
Lemma step_origin gs c gs' : leader_step full thr gs c gs' -> Forall (fun g => g <> []) gs ->
  forall g, In g gs' ->
  (g <> [] /\ forall x, In x g -> x = c \/ exists g0, In g0 gs /\ In x g0 /\ rep g0 = rep g) /\
  (In g gs \/
   (g = [c] /\ forall g0, In g0 gs -> nlt half (full (rep g0) c)) \/
   (In c g /\ nle (full (rep g) c) half /\ forall g0, In g0 gs -> nle (full (rep g) c) (full (rep g0) c))).
Proof.
  intros [[Hf ->]|(k & (g0 & Ek & H1 & H2 & _) & ->)] HN g Hg.
  - apply in_app_or in Hg as [Hg|[<-|[]]].
    + split; [|left; auto]. split; [rewrite Forall_forall in HN; auto|]. intros x Hx. right. exists g. auto.
    + split; [|right; left; auto]. split; [discriminate|]. intros x [<-|[]]. auto.
  - assert (Hg0 : In g0 gs) by (eapply nth_error_In; eauto).
    assert (Hne : g0 <> []) by (rewrite Forall_forall in HN; auto).
    unfold add_to in Hg. rewrite (nth_error_nth _ _ _ Ek) in Hg.
    apply In_nth_error in Hg as [j Ej]. rewrite nth_error_upd_eq in Ej. destruct (Nat.eqb_spec j k) as [Hjk|Hjk]; [subst j|].
    + destruct (k <? length gs)%nat; [|discriminate]. injection Ej as <-. split.
      * split; [discriminate|]. intros x [<-|Hx]; [auto|]. right. exists g0. rewrite rep_cons by auto. auto.
      * right; right. rewrite rep_cons by auto. split; [left; auto|]. auto.
    + apply nth_error_In in Ej. split; [|left; auto]. split; [rewrite Forall_forall in HN; auto|].
      intros x Hx. right. exists g. auto.
Qed.

(** groups are not empty, members were processed, and every member is the founder or near it *)
Lemma runs_basic cs gs : runs (leader_step full thr) cs gs ->
  Forall (fun g => g <> []) gs /\
  forall g x, In g gs -> In x g -> In x cs /\ (x = rep g \/ nle (full (rep g) x) half).
Proof.
  intros Hr. induction Hr as [|cs gs c gs' Hr [HN IH] Hs].
  - split; [constructor|]. intros g x [].
  - split.
    + apply Forall_forall. intros g Hg. apply (step_origin _ _ _ Hs HN g Hg).
    + intros g x Hg Hx. destruct (step_origin _ _ _ Hs HN g Hg) as [[Hne Ho] Hc].
      destruct (Ho x Hx) as [->|(g0 & Hg0 & Hx0 & Erep)].
      * split; [apply in_or_app; right; left; auto|].
        destruct Hc as [Hold|[[-> _]|(_ & Hn & _)]]; [apply IH; auto|left; reflexivity|right; auto].
      * destruct (IH g0 x Hg0 Hx0) as [Hi Hrx]. split; [apply in_or_app; auto|]. rewrite <- Erep. auto.
Qed.

(** a subsequence processed later than a member of a group either founded a group, being
    farther than half the threshold from that group's founder, or joined a group whose
    founder is at least as near *)
Lemma nearest cs gs : runs (leader_step full thr) cs gs -> StronglySorted before cs ->
  forall g g' c c', In g gs -> In g' gs -> In c g -> In c' g' -> before c c' ->
  (rep g' = c' /\ nlt half (full (rep g) c')) \/ nle (full (rep g') c') (full (rep g) c').
Proof.
  intros Hr. induction Hr as [|cs gs x gs' Hr IH Hs]; intros Hsort g g' c c' Hg Hg' Hc Hc' Hb; [destruct Hg|].
  apply sorted_snoc in Hsort as [Hsort Hlast]. specialize (IH Hsort).
  destruct (runs_basic _ _ Hr) as [HN Hin].
  destruct (step_origin _ _ _ Hs HN g Hg) as [[_ Ho] _].
  destruct (step_origin _ _ _ Hs HN g' Hg') as [[_ Ho'] Hk].
  destruct (Ho' c' Hc') as [->|(g1' & Hg1' & Hc1' & Er')].
  - (* the new one *)
    destruct (Ho c Hc) as [->|(g1 & Hg1 & Hc1 & Er)]; [exfalso; eapply before_asym; eauto|].
    rewrite <- Er. destruct Hk as [Hold|[[-> Hf]|(_ & _ & Hn)]].
    + exfalso. destruct (Hin g' x Hold Hc') as [Hi _]. pose proof (Hlast x Hi) as Hxx. eapply before_asym; eauto.
    + left. split; [reflexivity|]. auto.
    + right. auto.
  - destruct (Ho c Hc) as [->|(g1 & Hg1 & Hc1 & Er)].
    + exfalso. destruct (Hin g1' c' Hg1' Hc1') as [Hi _]. pose proof (Hlast c' Hi) as Hxx. eapply before_asym; eauto.
    + rewrite <- Er, <- Er'. eapply IH; eauto.
Qed.

(** of two subsequences alike, the later one is at least as near to its founder *)
Lemma later_nearer cs gs : runs (leader_step full thr) cs gs -> StronglySorted before cs ->
  forall g g' c c', In g gs -> In g' gs -> In c g -> In c' g' -> before c c' ->
  full (rep g) c = full (rep g) c' -> nle (full c c) half ->
  nle (full (rep g') c') (full (rep g) c).
Proof.
  intros Hr Hsort g g' c c' Hg Hg' Hc Hc' Hb E H0.
  destruct (nearest cs gs Hr Hsort g g' c c' Hg Hg' Hc Hc' Hb) as [[_ Hf]|Hn]; [|rewrite E; auto].
  exfalso. rewrite <- E in Hf. destruct (runs_basic _ _ Hr) as [_ Hin]. destruct (Hin g c Hg Hc) as [_ [Er|Hle]].
  - rewrite <- Er in Hf. unfold nlt in Hf. destruct H0 as (_ & _ & H0). congruence.
  - unfold nlt in Hf. destruct Hle as (_ & _ & Hle). congruence.
Qed.
End Leader.

(** ** the distance of a series from itself *)
Section Self.
Context {N : Num} {LW : NumLaws N}.
Notation D := (D N).

Lemma nthd_fin (xs : list D) i : Forall nfin xs -> nfin (nthd xs i).
Proof.
  intros H. unfold nthd. destruct (Nat.lt_ge_cases (Z.to_nat i) (length xs)) as [Hlt|Hge].
  - rewrite Forall_forall in H. apply H, nth_In, Hlt.
  - rewrite nth_overflow by lia. apply lw_ofZ_fin. lia.
Qed.

Lemma fold_zero (f : D -> Z * Z -> D) p s :
  (forall s c, In c p -> neqv s n0 -> neqv (f s c) n0) -> neqv s n0 -> neqv (fold_left f p s) n0.
Proof.
  revert s. induction p as [|c p IH]; intros s H Hs; [exact Hs|].
  cbn [fold_left]. apply IH; [intros; apply H; auto; right; auto|]. apply H; auto. left; auto.
Qed.

Lemma neqv_n0 : neqv (@n0 N) n0.
Proof. split; apply nle_refl, n0_nn. Qed.

Lemma straight_same n c : In c (straight n) -> fst c = snd c.
Proof. unfold straight. intros H. apply in_map_iff in H as (i & <- & _). reflexivity. Qed.

Lemma max_zero (a b : D) : neqv a n0 -> neqv b n0 -> neqv (nmax a b) n0.
Proof. intros Ha Hb. unfold nmax. destruct (nltb a b); auto. Qed.

Lemma max_ninf (b : D) : nfin b -> nmax nninf b = b.
Proof. intros [H _]. unfold nmax. rewrite H. reflexivity. Qed.

Lemma pair_self k (xs : list D) : xs <> [] -> Forall nfin xs -> Z.of_nat (length xs) <= 2 ^ 30 -> neqv (pair_value k xs xs) n0.
Proof.
  intros Hne Hf Hl.
  assert (Hlen : 1 <= Z.of_nat (length xs) <= 2 ^ 53) by (destruct xs; [congruence|cbn [length] in *; lia]).
  assert (Habs : forall i, neqv (nabs (nsub (nthd xs i) (nthd xs i))) n0).
  { intros i. pose proof (nthd_fin xs i Hf). split; [apply sub_self_abs; auto|apply abs_sub_pos; auto]. }
  assert (Hadd : forall (s a : D), neqv s n0 -> neqv a n0 -> neqv (nadd s a) n0).
  { intros s a [S1 S2] [A1 A2]. split; [|apply nadd_pos; auto].
    apply (nle_trans _ s); [apply add_zero; auto|auto]. }
  unfold pair_value, along. destruct k.
  - assert (E : neqv (fold_left (fun s c => nadd s (let d := nsub (nthd xs (fst c)) (nthd xs (snd c)) in nmul d d)) (straight (length xs)) n0) n0).
    { apply fold_zero; [|apply neqv_n0]. intros s c Hc Hs. rewrite (straight_same _ _ Hc). apply Hadd; auto.
      pose proof (nthd_fin xs (snd c) Hf). split; [apply euc_dist_self; auto|apply euc_dist_pos; auto]. }
    destruct E as [E1 E2].
    assert (D1 : nle (ndiv (fold_left (fun s c => nadd s (let d := nsub (nthd xs (fst c)) (nthd xs (snd c)) in nmul d d)) (straight (length xs)) n0) (nofZ (Z.of_nat (length xs)))) n0) by (apply div_zero; auto).
    assert (D2 : nle n0 (ndiv (fold_left (fun s c => nadd s (let d := nsub (nthd xs (fst c)) (nthd xs (snd c)) in nmul d d)) (straight (length xs)) n0) (nofZ (Z.of_nat (length xs))))) by (apply div_pos; auto).
    split; [|apply Metrics.sqrt_pos; auto]. apply (nle_trans _ (nsqrt n0)); [apply lw_sqrt_mono; auto|apply lw_sqrt_0].
  - assert (E : neqv (fold_left (fun s c => nadd s (nabs (nsub (nthd xs (fst c)) (nthd xs (snd c))))) (straight (length xs)) n0) n0).
    { apply fold_zero; [|apply neqv_n0]. intros s c Hc Hs. rewrite (straight_same _ _ Hc). auto. }
    destruct E as [E1 E2]. split; [apply div_zero|apply div_pos]; auto.
  - destruct xs as [|x xs]; [congruence|]. unfold straight. cbn [length seq map fold_left].
    rewrite max_ninf.
    + apply fold_zero; [|apply (Habs (Z.of_nat 0))]. intros s c Hc Hs. apply max_zero; auto.
      apply in_map_iff in Hc as (i & <- & _). apply Habs.
    + cbn [fst snd]. pose proof (nthd_fin (x :: xs) (Z.of_nat 0) Hf) as Hx.
      destruct (Habs (Z.of_nat 0)) as [A1 A2]. destruct (lw_ofZ_fin (N := N) 0 ltac:(lia)) as [Z1 Z2]. split.
      * eapply nlt_le_trans; [exact Z1|exact A2].
      * eapply nle_lt_trans; [exact A1|exact Z2].
Qed.
End Self.
