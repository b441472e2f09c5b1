(** Keeping the k best candidates in a heap: the loop body shared by
    TimeSeriesSet::getKBestMatchesBruteForce and Group::intraGroupKSim, and what
    the loop computes. *)
From Coq Require Import Permutation.
From Verif Require Import Base Num NumLaws NumFacts NumMore LoopFacts TimeSeries Candidate StdAlg HeapFacts DataProofs CandOrder.
Local Open Scope Z_scope.
Local Open Scope list_scope.

Section Spec.
Context {N : Num}.

(** [best] are [k] nearest ones of [all] (all of them if there are fewer) *)
Definition k_nearest (k : Z) (all best : list (cand N)) : Prop :=
  exists rest, Permutation all (best ++ rest) /\
    Z.of_nat (length best) = Z.min k (Z.of_nat (length all)) /\
    forall x y, In x best -> In y rest -> nle (c_dist x) (c_dist y).
End Spec.

Section TopK.
Context {N : Num} {LW : NumLaws N} {EL : EpsLaws N}.
Notation D := (D N).
Variable H : std_alg.
Hypothesis Hok : std_ok H.

(** the body: genex/TimeSeriesSet.cpp:324-343, genex/group/Group.cpp:88-111 *)
Definition topk_step (call : TS N -> D -> res D) (t : TS N) (st : list (cand N) * Z) : res (list (cand N) * Z) :=
  let '(best, k) := st in
  if k >? 0 then
    v <- call t ninf ;;
    let best := (best ++ [mkCand t v])%list in
    best <- (if k - 1 =? 0 then make_heap H cand_lt best else Ret best) ;;
    Ret (best, k - 1)
  else
    top <- front best ;;
    v <- call t (c_dist top) ;;
    if nltb v (c_dist top) then
      best <- push_heap H cand_lt (best ++ [mkCand t v])%list ;;
      best <- pop_heap H cand_lt best ;;
      best <- pop_back best ;;
      Ret (best, k)
    else Ret (best, k).

(** [call t] computes [dist t], except that above the cut-off it may return
    anything not below the cut-off *)
Definition cut_sound (call : TS N -> D -> res D) (dist : TS N -> D) (t : TS N) : Prop :=
  forall cut, nn cut -> exists v, call t cut = Ret v /\
    (nltb cut (dist t) = false -> v = dist t) /\ (nltb cut (dist t) = true -> nltb v cut = false).

Variable call : TS N -> D -> res D.
Variable dist : TS N -> D.
Definition cand_of (t : TS N) : cand N := mkCand t (dist t).

Definition inv (K : Z) (ts : list (TS N)) (st : list (cand N) * Z) : Prop :=
  let '(best, k) := st in
  exists rest, Permutation (map cand_of ts) (best ++ rest) /\
    k = K - Z.of_nat (length best) /\ 0 <= k /\ (rest <> [] -> k = 0) /\
    (k = 0 -> is_heap_b cand_lt best = true) /\
    forall x y, In x best -> In y rest -> nle (c_dist x) (c_dist y).

Lemma sep_sub ts l : separated (map dist ts) -> (forall c, In c l -> In c (map cand_of ts)) ->
  separated (map c_dist l).
Proof.
  intros Hs Hi. apply (separated_incl (map dist ts)); auto. intros x Hx.
  apply in_map_iff in Hx as (c & <- & Hc). apply Hi, in_map_iff in Hc as (t & <- & Ht).
  apply in_map_iff. exists t. auto.
Qed.

Lemma step_inv K ts t st : 1 <= K -> cut_sound call dist t -> separated (map dist (ts ++ [t])) ->
  inv K ts st -> exists st', topk_step call t st = Ret st' /\ inv K (ts ++ [t]) st'.
Proof.
  intros HK Hc Hsep. destruct st as [best k]. intros (rest & P & Ek & Hk & Hr & Hh & Hle). unfold topk_step.
  assert (Pos : forall x, In x (map cand_of (ts ++ [t])) -> nle n0 (c_dist x)).
  { intros x Hx. apply in_map_iff in Hx as (u & <- & Hu). apply Hsep. apply in_map_iff. exists u. auto. }
  assert (Ib : forall x, In x best -> In x (map cand_of (ts ++ [t]))).
  { intros x Hx. rewrite map_app. apply in_or_app. left. apply (Permutation_in _ (Permutation_sym P)), in_or_app. auto. }
  assert (Ir : forall x, In x rest -> In x (map cand_of (ts ++ [t]))).
  { intros x Hx. rewrite map_app. apply in_or_app. left. apply (Permutation_in _ (Permutation_sym P)), in_or_app. auto. }
  assert (It : In (cand_of t) (map cand_of (ts ++ [t]))) by (rewrite map_app; apply in_or_app; simpl; auto).
  destruct (Z.gtb_spec k 0) as [Hk0|Hk0].
  - destruct (Hc ninf lw_inf_nn) as (v & Ev & Hv & _). rewrite Ev, (Hv (lw_inf_top _)). simpl.
    fold (cand_of t). assert (rest = []) by (destruct rest; auto; lia || (assert (k = 0) by (apply Hr; discriminate); lia)). subst rest.
    rewrite app_nil_r in P.
    assert (P' : Permutation (map cand_of (ts ++ [t])) (best ++ [cand_of t])).
    { rewrite map_app. simpl. apply Permutation_app_tail, P. }
    assert (Ss : swo cand_lt (best ++ [cand_of t])).
    { apply cand_swo, (sep_sub (ts ++ [t])); auto. intros c. apply Permutation_in, Permutation_sym, P'. }
    destruct (Z.eqb_spec (k - 1) 0) as [E0|E0].
    + destruct (make_heap_ok H Hok cand_lt _ Ss) as (l' & E & Pl & Hl). rewrite E. simpl.
      eexists. split; [reflexivity|]. exists []. rewrite app_nil_r.
      pose proof (Permutation_length Pl) as HL. rewrite app_length in HL. simpl in HL.
      splits; try lia; auto.
      * eapply Permutation_trans; eauto.
      * intros x y _ [].
    + simpl. eexists. split; [reflexivity|]. exists []. rewrite app_nil_r, app_length. simpl.
      splits; try lia; auto; congruence.
  - assert (Ek0 : k = 0) by lia. specialize (Hh Ek0). clear Hk0.
    assert (Hne : best <> []) by (intros ->; simpl in *; lia).
    destruct best as [|top l]; [contradiction|]. clear Hne. simpl front. cbv beta. unfold bind at 1.
    assert (Ss : swo cand_lt ((top :: l) ++ [cand_of t])).
    { apply cand_swo, (sep_sub (ts ++ [t])); auto. intros c Hin. apply in_app_or in Hin as [Hin|[<-|[]]]; auto. }
    assert (Ss0 : swo cand_lt (top :: l)) by (apply (swo_incl _ ((top :: l) ++ [cand_of t])); auto; intros; apply in_or_app; auto).
    pose proof (heap_front cand_lt top l Ss0 Hh) as Hf.
    assert (Hmax : forall y, In y (top :: l) -> nle (c_dist y) (c_dist top)).
    { intros y Hy. apply (cand_lt_dist (top :: l)); auto; [apply (sep_sub (ts ++ [t])); auto|simpl; auto]. }
    assert (Nt : nn (c_dist top)) by (apply (Pos top), Ib; simpl; auto).
    assert (Nd : nn (dist t)) by apply (Pos _ It).
    destruct (Hc (c_dist top) Nt) as (v & Ev & Hv1 & Hv2). rewrite Ev. unfold bind at 1.
    destruct (nltb v (c_dist top)) eqn:Elt.
    + destruct (nltb (c_dist top) (dist t)) eqn:Ecut; [exfalso; specialize (Hv2 eq_refl); congruence|].
      rewrite (Hv1 eq_refl) in *. fold (cand_of t).
      destruct (push_heap_ok H Hok cand_lt (top :: l) (cand_of t) Ss Hh) as (b1 & E1 & P1 & H1). rewrite E1. unfold bind at 1.
      destruct b1 as [|z l1]; [apply Permutation_sym, Permutation_nil in P1; discriminate|].
      assert (In1 : forall x, In x (z :: l1) -> In x (map cand_of (ts ++ [t]))).
      { intros x Hx. apply (Permutation_in _ (Permutation_sym P1)) in Hx as [<-|Hx]; auto. }
      assert (S1 : swo cand_lt (z :: l1)) by (apply cand_swo, (sep_sub (ts ++ [t])); auto).
      destruct (pop_heap_ok H Hok cand_lt z l1 S1 H1) as (l2 & E2 & P2 & H2 & E2'). rewrite E2. unfold bind at 1.
      rewrite E2'. simpl. eexists. split; [reflexivity|]. exists (z :: rest).
      assert (Hz : forall y, In y (z :: l1) -> nle (c_dist y) (c_dist z)).
      { intros y Hy. apply (cand_lt_dist (z :: l1)); auto; [apply (sep_sub (ts ++ [t])); auto|simpl; auto|].
        apply (heap_front cand_lt z l1 S1 H1 y Hy). }
      pose proof (Permutation_length P1) as L1. pose proof (Permutation_length P2) as L2. simpl in L1, L2.
      splits; try lia; auto.
      * rewrite map_app. simpl. eapply Permutation_trans; [apply Permutation_sym, Permutation_cons_append|].
        eapply Permutation_trans; [apply perm_skip, P|].
        change (cand_of t :: (top :: l) ++ rest) with ((cand_of t :: top :: l) ++ rest).
        eapply Permutation_trans; [apply Permutation_app_tail, P1|].
        simpl. eapply Permutation_trans; [apply perm_skip, Permutation_app_tail, P2|].
        apply Permutation_middle.
      * simpl in Ek. rewrite <- L2. simpl in *. lia.
      * intros x y Hx Hy. apply (Permutation_in _ (Permutation_sym P2)) in Hx.
        destruct Hy as [<-|Hy]; [apply Hz; simpl; auto|].
        assert (Hx' : In x (z :: l1)) by (simpl; auto).
        apply (Permutation_in _ (Permutation_sym P1)) in Hx' as [<-|Hx']; [|apply Hle; auto].
        apply nle_trans with (c_dist top); [apply nlt_le, Elt|apply Hle; simpl; auto].
    + simpl. eexists. split; [reflexivity|]. exists (cand_of t :: rest).
      assert (Hge : nle (c_dist top) (dist t)).
      { destruct (nltb (c_dist top) (dist t)) eqn:Ecut; [apply nlt_le; exact Ecut|].
        rewrite (Hv1 eq_refl) in Elt. apply nltb_false_le; auto. }
      splits; auto.
      * rewrite map_app. simpl map. eapply Permutation_trans; [apply Permutation_sym, Permutation_cons_append|].
        eapply Permutation_trans; [apply perm_skip, P|]. apply Permutation_middle.
      * intros x y Hx [<-|Hy]; [|apply Hle; auto]. simpl. eapply nle_trans; [apply Hmax; auto|exact Hge].
Qed.

Lemma topk_fold K ts : 1 <= K -> (forall t, In t ts -> cut_sound call dist t) -> separated (map dist ts) ->
  exists best k, fold_res (topk_step call) ts ([], K) = Ret (best, k) /\
    k_nearest K (map cand_of ts) best /\ k = K - Z.of_nat (length best) /\ 0 <= k.
Proof.
  intros HK Hc Hs.
  assert (G : forall ts2 ts1 st, (forall t, In t ts2 -> cut_sound call dist t) -> separated (map dist (ts1 ++ ts2)) ->
    inv K ts1 st -> exists st', fold_res (topk_step call) ts2 st = Ret st' /\ inv K (ts1 ++ ts2) st').
  { clear ts Hc Hs. induction ts2 as [|t ts2 IH]; intros ts1 st Hc Hs Hi.
    - exists st. rewrite app_nil_r. auto.
    - destruct (step_inv K ts1 t st) as (st1 & E1 & I1); auto.
      + apply Hc; simpl; auto.
      + apply (separated_incl (map dist (ts1 ++ t :: ts2))); auto.
        intros x Hx. apply in_map_iff in Hx as (u & <- & Hu). apply in_map, in_or_app.
        apply in_app_or in Hu as [Hu|[<-|[]]]; simpl; auto.
      + replace (ts1 ++ t :: ts2) with ((ts1 ++ [t]) ++ ts2) in * by (rewrite <- app_assoc; reflexivity).
        destruct (IH (ts1 ++ [t]) st1) as (st2 & E2 & I2); auto.
        * intros u Hu. apply Hc; simpl; auto.
        * exists st2. simpl. rewrite E1. simpl. auto. }
  destruct (G ts [] ([], K)) as ((best & k) & E & I); auto.
  { exists []. simpl. splits; auto; try lia; congruence. }
  simpl app in I. destruct I as (rest & P & Ek & Hk & Hr & Hh & Hle).
  exists best, k. splits; auto. exists rest. splits; auto.
  rewrite (Permutation_length P), app_length. destruct rest as [|r0 rest]; simpl; [lia|].
  assert (k = 0) by (apply Hr; discriminate). lia.
Qed.
End TopK.
