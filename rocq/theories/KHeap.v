(** Keeping the closest groups in a heap, as many as are needed to reach a number
    of members (LocalLengthGroupSpace::interLevelKSim,
    genex/group/LocalLengthGroupSpace.cpp:180-222). *)
From Coq Require Import Permutation.
From Verif Require Import Base Num NumLaws NumFacts LoopFacts TimeSeries Candidate StdAlg HeapFacts Group.
Local Open Scope Z_scope.
Local Open Scope list_scope.

Section KHeap.
Context {N : Num} {LW : NumLaws N}.
Notation D := (D N).
Variable H : std_alg.
Hypothesis Hok : std_ok H.

Definition msum (l : list (gindex N)) : Z := fold_right (fun g a => gi_members g + a) 0 l.

Lemma msum_app l l' : msum (l ++ l') = msum l + msum l'.
Proof. induction l as [|g l IH]; simpl; [reflexivity|]. rewrite IH. lia. Qed.

Lemma msum_perm l l' : Permutation l l' -> msum l = msum l'.
Proof. induction 1; simpl; lia. Qed.

Definition good (g : gindex N) : Prop := nle n0 (gi_dist g) /\ 1 <= gi_members g.

Lemma gi_swo l : Forall good l -> swo gi_lt l.
Proof.
  rewrite Forall_forall. intros Hg. unfold gi_lt. split; [|split].
  - intros x _. apply lw_irrefl.
  - intros x y z _ _ _. apply lw_trans.
  - intros x y z Hx Hy Hz H1 H2. apply nle_ltb.
    apply (nle_trans _ (gi_dist y)); apply nltb_false_le; auto; apply Hg; auto.
Qed.

Lemma gi_front top l : Forall good (top :: l) -> is_heap_b gi_lt (top :: l) = true ->
  forall y, In y (top :: l) -> nle (gi_dist y) (gi_dist top).
Proof.
  intros Hg Hh y Hy. pose proof (heap_front gi_lt top l (gi_swo _ Hg) Hh y Hy) as E.
  rewrite Forall_forall in Hg. apply nltb_false_le; auto; [apply (Hg top (or_introl eq_refl))|apply Hg; auto].
Qed.

(** what is left after trimming: removing one more would leave too few members *)
Definition enough (heap : list (gindex N)) (k : Z) : Prop :=
  is_heap_b gi_lt heap = true /\ exists top l, heap = top :: l /\ 0 < k + gi_members top.

Lemma trim_ok K : 1 <= K -> forall fuel heap k, Forall good heap -> is_heap_b gi_lt heap = true ->
  k = K - msum heap -> k <= 0 -> (length heap <= fuel)%nat ->
  exists heap' removed k', trim H fuel heap k = Ret (heap', k') /\ Permutation heap (heap' ++ removed) /\
    enough heap' k' /\ k' = K - msum heap' /\ k' <= 0 /\
    forall x y, In x heap' -> In y removed -> nle (gi_dist x) (gi_dist y).
Proof.
  intros HK. induction fuel as [|fuel IH]; intros heap k Hg Hh Ek Hk Hf.
  - destruct heap; [simpl in Ek; lia|simpl in Hf; lia].
  - destruct heap as [|top l]; [simpl in Ek; lia|]. cbn [trim front bind].
    destruct (Z.leb_spec (k + gi_members top) 0) as [Hle|Hgt].
    + destruct (pop_heap_ok H Hok gi_lt top l (gi_swo _ Hg) Hh) as (l' & E & P & Hh' & E').
      rewrite E. cbn [bind]. rewrite E'. cbn [bind].
      pose proof (Permutation_length P) as HL. pose proof (msum_perm _ _ P) as HM. simpl in Ek, Hf.
      assert (Hg' : Forall good l') by (eapply Permutation_Forall; [exact P|]; inversion Hg; auto).
      destruct (IH l' (k + gi_members top)) as (heap' & removed & k' & E1 & P1 & He & Ek' & Hk' & Hle'); auto; try lia.
      exists heap', (top :: removed), k'. splits; auto.
      * eapply Permutation_trans; [|apply Permutation_middle]. apply perm_skip. eapply Permutation_trans; eauto.
      * intros x y Hx [<-|Hy]; [|apply Hle'; auto].
        apply (gi_front top l Hg Hh). right. apply (Permutation_in _ (Permutation_sym P)).
        apply (Permutation_in _ (Permutation_sym P1)), in_or_app. auto.
    + exists (top :: l), [], k. rewrite app_nil_r. splits; auto.
      * split; auto. exists top, l. split; auto.
      * intros x y _ [].
Qed.

(** the state after looking at the groups [seen] *)
Definition kinv (K : Z) (seen best : list (gindex N)) (k : Z) : Prop :=
  exists rest, Permutation seen (best ++ rest) /\ k = K - msum best /\
    (0 < k -> rest = []) /\ (k <= 0 -> enough best k) /\
    forall x y, In x best -> In y rest -> nle (gi_dist x) (gi_dist y).

Lemma kinv_start K : 1 <= K -> kinv K [] [] K.
Proof. intros HK. exists []. simpl. splits; auto; try lia. Qed.

Variable K : Z.
Hypothesis HK : 1 <= K.
Variables seen best : list (gindex N).
Variable k : Z.
Variable g : gindex N.
Hypothesis Hgood : Forall good (seen ++ [g]).
Hypothesis HI : kinv K seen best k.

Lemma good_best : Forall good best /\ good g.
Proof.
  destruct HI as (rest & P & _). rewrite Forall_forall in *. split.
  - intros x Hx. apply Hgood, in_or_app. left. apply (Permutation_in _ (Permutation_sym P)), in_or_app. auto.
  - apply Hgood, in_or_app. simpl. auto.
Qed.

(** too far: left out *)
Lemma kinv_skip top l : k <= 0 -> best = top :: l -> nle (gi_dist top) (gi_dist g) -> kinv K (seen ++ [g]) best k.
Proof.
  intros Hk Eb Hle. destruct good_best as [Gb Gg]. destruct HI as (rest & P & Ek & Hr & He & Ho).
  exists (g :: rest). splits; auto; try lia.
  - eapply Permutation_trans; [apply Permutation_sym, Permutation_cons_append|].
    eapply Permutation_trans; [apply perm_skip, P|]. apply Permutation_middle.
  - intros x y Hx [<-|Hy]; [|apply Ho; auto]. eapply nle_trans; [|exact Hle].
    destruct (He Hk) as [Hh _]. rewrite Eb in *. apply (gi_front top l); auto.
Qed.

Lemma perm_add rest heap' removed : Permutation seen (best ++ rest) -> Permutation (best ++ [g]) (heap' ++ removed) ->
  Permutation (seen ++ [g]) (heap' ++ removed ++ rest).
Proof.
  intros P P1. eapply Permutation_trans; [apply Permutation_sym, Permutation_cons_append|].
  eapply Permutation_trans; [apply perm_skip, P|].
  change (g :: best ++ rest) with ((g :: best) ++ rest).
  eapply Permutation_trans; [apply Permutation_app_tail, Permutation_cons_append|].
  rewrite app_assoc. apply Permutation_app_tail. exact P1.
Qed.

(** closer than the farthest kept one *)
Lemma kinv_push top l : k <= 0 -> best = top :: l -> nltb (gi_dist g) (gi_dist top) = true ->
  exists b1 best' k', push_heap H gi_lt (best ++ [g]) = Ret b1 /\
    trim H (length b1) b1 (k - gi_members g) = Ret (best', k') /\ kinv K (seen ++ [g]) best' k'.
Proof.
  intros Hk Eb Hlt. destruct good_best as [Gb Gg]. destruct HI as (rest & P & Ek & Hr & He & Ho).
  assert (Gall : Forall good (best ++ [g])) by (apply Forall_app; split; auto).
  destruct (He Hk) as [Hh _].
  destruct (push_heap_ok H Hok gi_lt best g (gi_swo _ Gall) Hh) as (b1 & E1 & P1' & H1).
  assert (P1 : Permutation (best ++ [g]) b1) by (eapply Permutation_trans; [apply Permutation_sym, Permutation_cons_append|exact P1']).
  assert (G1 : Forall good b1) by (eapply Permutation_Forall; eauto).
  assert (M1 : msum b1 = msum best + gi_members g).
  { rewrite <- (msum_perm _ _ P1), msum_app. simpl. lia. }
  pose proof Gg as [_ Gm].
  destruct (trim_ok K HK (length b1) b1 (k - gi_members g)) as (best' & removed & k' & E2 & P2 & He' & Ek' & Hk' & Hle'); auto; try lia.
  exists b1, best', k'. splits; auto. exists (removed ++ rest). splits; auto; try lia.
  - apply perm_add; auto. eapply Permutation_trans; eauto.
  - intros x y Hx Hy. apply in_app_or in Hy as [Hy|Hy]; [apply Hle'; auto|].
    assert (Hx' : In x (best ++ [g])).
    { apply (Permutation_in _ (Permutation_sym P1)), (Permutation_in _ (Permutation_sym P2)), in_or_app. auto. }
    apply in_app_or in Hx' as [Hx'|[<-|[]]]; [apply Ho; auto|].
    apply (nle_trans _ (gi_dist top)); [apply nlt_le; exact Hlt|]. apply Ho; auto. rewrite Eb. simpl. auto.
Qed.

(** not enough members yet *)
Lemma kinv_more : 0 < k -> 0 < k - gi_members g -> kinv K (seen ++ [g]) (best ++ [g]) (k - gi_members g).
Proof.
  intros Hk Hk'. destruct HI as (rest & P & Ek & Hr & He & Ho). rewrite (Hr Hk) in *. rewrite app_nil_r in P.
  exists []. rewrite app_nil_r, msum_app. simpl. splits; auto; try lia.
  apply Permutation_app_tail, P.
Qed.

Lemma kinv_full : 0 < k -> k - gi_members g <= 0 ->
  exists b1 best' k', make_heap H gi_lt (best ++ [g]) = Ret b1 /\
    trim H (length b1) b1 (k - gi_members g) = Ret (best', k') /\ kinv K (seen ++ [g]) best' k'.
Proof.
  intros Hk Hk1. destruct good_best as [Gb Gg]. destruct HI as (rest & P & Ek & Hr & He & Ho).
  rewrite (Hr Hk) in *. rewrite app_nil_r in P.
  assert (Gall : Forall good (best ++ [g])) by (apply Forall_app; split; auto).
  destruct (make_heap_ok H Hok gi_lt (best ++ [g]) (gi_swo _ Gall)) as (b1 & E1 & P1 & H1).
  assert (G1 : Forall good b1) by (eapply Permutation_Forall; eauto).
  assert (M1 : msum b1 = msum best + gi_members g).
  { rewrite <- (msum_perm _ _ P1), msum_app. simpl. lia. }
  destruct (trim_ok K HK (length b1) b1 (k - gi_members g)) as (best' & removed & k' & E2 & P2 & He' & Ek' & Hk' & Hle'); auto; try lia.
  exists b1, best', k'. splits; auto. exists removed. splits; auto; try lia.
  eapply Permutation_trans; [apply Permutation_app_tail, P|]. eapply Permutation_trans; eauto.
Qed.
End KHeap.
