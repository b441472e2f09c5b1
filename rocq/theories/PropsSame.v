(** Property C86: what grouping does with subsequences that have the same values.
    Specification: SameSpec.v, GroupSpec.v (subsequences, order of processing), GroupView.v
    (what is observed of groups), DistSpec.v (distances). *)
From Coq Require Import String Reals Lra Sorted.
From Flocq Require Import IEEE754.BinarySingleNaN Core.Raux.
From Verif Require Import Base Num NumB64 NumB64Laws NumLaws NumFacts NumXR NumXRLaws LoopFacts TimeSeries Lemire Distance
  DistSpec DistLink Pairwise TSSet StdAlg Candidate Group GroupSpace
  DataSpec DataProofs GroupSpec GroupView Members GroupProofs GroupAll GroupDist PropsDistance PropsData PropsGroup DtwExt SameSpec SameProofs.
Local Open Scope Z_scope.
Local Open Scope list_scope.

Lemma sub_values_nonempty {N : Num} (d : dataset N) rows l c : holds d rows -> 1 <= l <= ds_maxcol d -> ds_maxcol d <= 2 ^ 30 ->
  is_sub rows l c -> sub_values rows l c <> [] /\ Z.of_nat (length (sub_values rows l c)) <= 2 ^ 30.
Proof.
  intros Hd Hl Hm Hc. destruct (sub_ts d rows Hd l Hl c Hc) as (t & _ & Ep & Ho & _ & _ & Hlen).
  rewrite <- Ep. pose proof (ts_points_length t Ho) as Hp. split.
  - intros E. rewrite E in Hp. cbn in Hp. lia.
  - lia.
Qed.

(** ** Manhattan and Chebyshev in IEEE doubles *)
Theorem C86_later_nearer : forall (k : kind) (d : dataset B64) (rows : list (list (D B64)))
    old clock (ratio thr : D B64) threads whole,
  k <> KEuclidean -> holds d rows -> Forall (@nfin B64) (concat rows) ->
  nle (N := B64) n0 (ndiv thr (nofZ 2)) -> nltb (ndiv thr (nofZ 2)) ninf = true ->
  1 <= ds_maxcol d <= 2 ^ 30 -> 1 <= threads -> log_safe d clock ->
  exists g total,
    groupAllLengths (N := B64) clock ratio (mkGS d old) (kind_name k) thr threads whole = (g, Ret total) /\
    forall l, grouped_length d whole l -> exists vs, level_view g l = Some (Ret vs) /\
    (* the later of two subsequences alike is at least as near to its representative *)
    (forall c c' v v', In v vs -> In v' vs -> In c (v_members v) -> In c' (v_members v') ->
       alike rows l c c' -> before c c' ->
       nle (N := B64) (pair_value k (sub_values rows l (v_rep v')) (sub_values rows l c'))
                      (pair_value k (sub_values rows l (v_rep v)) (sub_values rows l c))) /\
    (* representatives are not alike *)
    (forall i j v v', nth_error vs i = Some v -> nth_error vs j = Some v' -> alike rows l (v_rep v) (v_rep v') -> i = j).
Proof.
  intros k d rows old clock ratio thr threads whole Hk Hd Hf Hpos Hthr Hm Ht Hlog.
  destruct (C18_leader_clustering_ieee k d rows old clock ratio thr threads whole Hk Hd Hf Hthr Hm Ht Hlog) as (g & total & E & H).
  exists g, total. split; [exact E|]. intros l Hl. destruct (H l Hl) as (gs & cs & EL & [Hsort Hcs] & HR & Hsep).
  assert (Hlr : 1 <= l <= ds_maxcol d) by (revert Hl; unfold grouped_length; destruct whole; lia).
  exists (map view_of gs). split; [exact EL|].
  assert (Hself : forall c, is_sub rows l c -> nle (N := B64) (pair_value k (sub_values rows l c) (sub_values rows l c)) (ndiv thr (nofZ 2))).
  { intros c Hc. destruct (sub_values_nonempty d rows l c Hd Hlr ltac:(lia) Hc) as [Hne Hlen].
    apply (nle_trans _ n0); [|exact Hpos]. apply (pair_self (N := B64) k _ Hne (sub_values_fin rows l c Hf) Hlen). }
  split.
  - intros c c' v v' Hv Hv' Hc Hc' (S1 & S2 & Ea) Hb.
    apply in_map_iff in Hv as (m & <- & Hv). apply in_map_iff in Hv' as (m' & <- & Hv'). cbn [view_of v_rep v_members] in *.
    refine (later_nearer (N := B64) _ thr cs gs HR Hsort m m' c c' Hv Hv' Hc Hc' Hb _ _).
    + cbv beta. rewrite Ea. reflexivity.
    + apply Hself, S1.
  - intros i j v v' Ei Ej (S1 & S2 & Ea).
    rewrite nth_error_map in Ei. rewrite nth_error_map in Ej.
    destruct (nth_error gs i) as [m|] eqn:Em; [|discriminate]. destruct (nth_error gs j) as [m'|] eqn:Em'; [|discriminate].
    injection Ei as <-. injection Ej as <-. cbn [view_of v_rep] in *.
    assert (Hno : forall a b, sub_values rows l a = sub_values rows l b -> is_sub rows l b ->
      nlt (N := B64) (ndiv thr (nofZ 2)) (pair_value k (sub_values rows l a) (sub_values rows l b)) -> False).
    { intros a b Eab Sb Hlt. rewrite Eab in Hlt. destruct (Hself b Sb) as (_ & _ & Hn). unfold nlt in Hlt. congruence. }
    destruct (Nat.lt_trichotomy i j) as [Hij|[Hij|Hij]]; [exfalso|exact Hij|exfalso].
    + apply (Hno (rep m) (rep m') Ea S2). apply (Hsep i j m m' Hij Em Em').
    + apply (Hno (rep m') (rep m) (eq_sym Ea) S1). apply (Hsep j i m' m Hij Em' Em).
Qed.
Print Assumptions C86_later_nearer.

(** ** all three metrics in exact arithmetic *)
Lemma real_pair_zero k (xs ys : list R) : xs <> [] -> length xs = length ys -> (real_pair k xs ys = 0%R <-> xs = ys).
Proof. intros Hne Hlen. destruct k; cbn [real_pair]; [apply rms_zero|apply mean_abs_zero|apply max_abs_zero]; auto. Qed.
Lemma real_pair_pos k (xs ys : list R) : (0 <= real_pair k xs ys)%R.
Proof. destruct k; cbn [real_pair]; [apply rms_pos|apply mean_abs_pos|apply max_abs_pos]. Qed.

Theorem C86_duplicates_exact : forall (k : kind) (d : dataset XR) (rows : list (list R))
    old clock (ratio : D XR) (t : R) threads whole,
  holds d (map (map Fin) rows) -> (0 <= t)%R ->
  1 <= ds_maxcol d <= 2 ^ 30 -> 1 <= threads -> log_safe d clock ->
  exists g total,
    groupAllLengths clock ratio (mkGS d old) (kind_name k) (Fin t : D XR) threads whole = (g, Ret total) /\
    forall l, grouped_length d whole l -> exists vs, level_view g l = Some (Ret vs) /\
    forall c c' v v', In v vs -> In v' vs -> In c (v_members v) -> In c' (v_members v') ->
      alike (N := XR) (map (map Fin) rows) l c c' -> before c c' ->
      (real_pair k (real_sub rows l (v_rep v')) (real_sub rows l c') <=
         real_pair k (real_sub rows l (v_rep v)) (real_sub rows l c))%R /\
      (* what is alike the representative of a group joins that group *)
      (alike (N := XR) (map (map Fin) rows) l (v_rep v) c -> v' = v).
Proof.
  intros k d rows old clock ratio t threads whole Hd Hpos Hm Ht Hlog.
  destruct (C18_leader_clustering_exact k d rows old clock ratio t threads whole Hd Hm Ht Hlog) as (g & total & E & H).
  exists g, total. split; [exact E|]. intros l Hl. destruct (H l Hl) as (Hdist & gs & cs & EL & [Hsort Hcs] & HR & Hsep).
  assert (Hlr : 1 <= l <= ds_maxcol d) by (revert Hl; unfold grouped_length; destruct whole; lia).
  exists (map view_of gs). split; [exact EL|].
  set (fr := map (map Fin) rows) in *.
  assert (Hval : forall c, is_sub (N := XR) fr l c -> sub_values (N := XR) fr l c = map Fin (real_sub rows l c)).
  { intros c Hc. apply real_sub_values; auto. }
  assert (Hlen : forall c, is_sub (N := XR) fr l c -> Z.of_nat (length (real_sub rows l c)) = l).
  { intros c Hc. destruct (sub_ts d fr Hd l Hlr c Hc) as (u & _ & Ep & Ho & _ & _ & Hln).
    pose proof (ts_points_length u Ho) as Hp. rewrite Ep, (Hval c Hc), map_length in Hp. lia. }
  assert (Heq : forall c c', is_sub (N := XR) fr l c -> is_sub (N := XR) fr l c' ->
    (sub_values (N := XR) fr l c = sub_values (N := XR) fr l c' <-> real_pair k (real_sub rows l c) (real_sub rows l c') = 0%R)).
  { intros c c' Hc Hc'. rewrite (Hval c Hc), (Hval c' Hc'). rewrite real_pair_zero.
    - split; [|intros ->; reflexivity]. intros Em. revert Em. generalize (real_sub rows l c) (real_sub rows l c').
      intros xs. induction xs as [|x xs IH]; intros [|y ys] Em; try discriminate; [reflexivity|].
      cbn [map] in Em. injection Em as -> Em. f_equal. auto.
    - pose proof (Hlen c Hc) as Hc1. destruct (real_sub rows l c); [cbn in Hc1; lia|discriminate].
    - pose proof (Hlen c Hc). pose proof (Hlen c' Hc'). lia. }
  assert (Hsub : forall m c, In m gs -> In c m -> is_sub (N := XR) fr l c).
  { intros m c Hmm Hc. apply Hcs. apply (runs_basic (N := XR) _ _ cs gs HR) with (g := m); auto. }
  assert (Hrep : forall m, In m gs -> is_sub (N := XR) fr l (rep m)).
  { intros m Hmm. destruct (runs_basic (N := XR) _ _ cs gs HR) as [HN _]. rewrite Forall_forall in HN.
    apply (Hsub m); auto. apply rep_in. auto. }
  assert (Hhalf : @ndiv XR (Fin t) (nofZ 2) = Fin (t / 2)).
  { simpl. unfold xdiv. destruct (Req_bool_spec 2 0); [lra|]. reflexivity. }
  intros c c' v v' Hv Hv' Hc Hc' (S1 & S2 & Ea) Hb.
  apply in_map_iff in Hv as (m & <- & Hv). apply in_map_iff in Hv' as (m' & <- & Hv'). cbn [view_of v_rep v_members] in *.
  assert (Hle : (real_pair k (real_sub rows l (rep m')) (real_sub rows l c') <= real_pair k (real_sub rows l (rep m)) (real_sub rows l c))%R).
  { assert (L : nle (N := XR) (Fin (real_pair k (real_sub rows l (rep m')) (real_sub rows l c'))) (Fin (real_pair k (real_sub rows l (rep m)) (real_sub rows l c)))).
    { rewrite <- (Hdist (rep m') c'), <- (Hdist (rep m) c) by auto.
      refine (later_nearer (N := XR) _ (Fin t : D XR) cs gs HR Hsort m m' c c' Hv Hv' Hc Hc' Hb _ _).
      - cbv beta. rewrite Ea. reflexivity.
      - rewrite Hhalf. rewrite (Hdist c c S1 S1). replace (real_pair k (real_sub rows l c) (real_sub rows l c)) with 0%R by (symmetry; apply (Heq c c S1 S1); reflexivity).
        apply XR_nle. simpl. lra. }
    apply XR_nle in L. exact L. }
  split; [exact Hle|]. intros (R1 & _ & Er).
  apply (Heq (rep m) c R1 S1) in Er as Er0. rewrite Er0 in Hle.
  pose proof (real_pair_pos k (real_sub rows l (rep m')) (real_sub rows l c')) as Hp.
  assert (E0 : real_pair k (real_sub rows l (rep m')) (real_sub rows l c') = 0%R) by lra.
  apply (Heq (rep m') c' (Hrep m' Hv') S2) in E0.
  assert (Err : sub_values (N := XR) fr l (rep m') = sub_values (N := XR) fr l (rep m)) by congruence.
  apply In_nth_error in Hv as [i Ei]. apply In_nth_error in Hv' as [j Ej].
  destruct (Nat.lt_trichotomy i j) as [Hij|[Hij|Hij]].
  - exfalso. pose proof (Hsep i j m m' Hij Ei Ej) as Hlt.
    rewrite (proj1 (Heq (rep m) (rep m') R1 (Hrep m' (nth_error_In _ _ Ej))) (eq_sym Err)) in Hlt. lra.
  - subst j. congruence.
  - exfalso. pose proof (Hsep j i m' m Hij Ej Ei) as Hlt.
    rewrite (proj1 (Heq (rep m') (rep m) (Hrep m' (nth_error_In _ _ Ej)) R1) Err) in Hlt. lra.
Qed.
Print Assumptions C86_duplicates_exact.

(** ** subsequences with the same values need not be in the same group: series 1 and 3 are
    both 4, 4; when series 1 is processed, only series 0 represents a group; when series 3 is
    processed, series 2 is nearer. *)
Definition same_rows : list (list (D B64)) := [map b64_ofZ [0; 0]; map b64_ofZ [4; 4]; map b64_ofZ [5; 5]; map b64_ofZ [4; 4]].
Definition same_data : dataset B64 :=
  mkDS (N := B64) (Some (map b64_ofZ [0; 0; 4; 4; 5; 5; 4; 4])) [] [2; 2; 2; 2] 4 2 "f"%string false.
Lemma same_holds : holds same_data same_rows.
Proof.
  exists (map b64_ofZ [0; 0; 4; 4; 5; 5; 4; 4]). splits; try reflexivity; try (unfold int_max; simpl; lia).
  intros i row E. destruct i as [|[|[|[|i]]]]; [| | | |destruct i; discriminate]; injection E as <-; splits; try reflexivity;
    try (simpl; lia); intros j v Ej; repeat (destruct j as [|j]; [injection Ej as <-; reflexivity|]);
    destruct j; discriminate.
Qed.
Definition same_grouped : gset B64 * res Z :=
  groupAllLengths (N := B64) (fun _ => false) (b64_ofZ 1) (mkGS same_data None) "manhattan" (b64_ofZ 8) 1 false.

Lemma show_two o a b : show o = Some [a; b] -> exists v v', o = Some (Ret [v; v']) /\ show_view v = a /\ show_view v' = b.
Proof.
  destruct o as [[vs| | |]|]; intros E; try discriminate. cbn [show] in E.
  destruct vs as [|v [|v' [|? ?]]]; try discriminate. cbn [map] in E. injection E as E1 E2. exists v, v'. auto.
Qed.

Theorem C86_same_group_refuted : exists (d : dataset B64) rows (g : gset B64) total vs v v' c c',
  holds d rows /\ Forall (@nfin B64) (concat rows) /\
  groupAllLengths (N := B64) (fun _ => false) (b64_ofZ 1) (mkGS d None) "manhattan" (b64_ofZ 8) 1 false = (g, Ret total) /\
  level_view g 2 = Some (Ret vs) /\ In v vs /\ In v' vs /\ In c (v_members v) /\ In c' (v_members v') /\
  alike rows 2 c c' /\ before c c' /\ v_rep v <> v_rep v'.
Proof.
  assert (Hshow : show (level_view (fst same_grouped) 2) =
    Some [((0, 0), 2, [(1, 0); (0, 0)]); ((2, 0), 2, [(3, 0); (2, 0)])]) by (vm_compute; reflexivity).
  assert (Htot : snd same_grouped = Ret 2) by (vm_compute; reflexivity).
  assert (Hpair : groupAllLengths (N := B64) (fun _ => false) (b64_ofZ 1) (mkGS same_data None) "manhattan" (b64_ofZ 8) 1 false
    = (fst same_grouped, Ret 2)).
  { rewrite <- Htot. apply surjective_pairing. }
  revert Hshow Hpair. generalize (fst same_grouped). clear Htot. intros g Hshow Hpair.
  apply show_two in Hshow as (v & v' & EL & A & B). unfold show_view in A, B. injection A as A1 A2 A3. injection B as B1 B2 B3.
  exists same_data, same_rows, g, 2, [v; v'], v, v', (1, 0), (3, 0).
  refine (conj same_holds (conj _ (conj Hpair (conj EL (conj _ (conj _ (conj _ (conj _ (conj _ (conj _ _)))))))))).
  - change (concat same_rows) with (ts_points (ts_of_list (N := B64) (concat same_rows))). apply finb_all. vm_compute. reflexivity.
  - left; reflexivity.
  - right; left; reflexivity.
  - rewrite A3. left; reflexivity.
  - rewrite B3. left; reflexivity.
  - split; [exists (map b64_ofZ [4; 4]); split; [reflexivity|cbn; lia]|].
    split; [exists (map b64_ofZ [4; 4]); split; [reflexivity|cbn; lia]|]. reflexivity.
  - right; cbn; lia.
  - rewrite A1, B1. clear. discriminate.
Qed.
Print Assumptions C86_same_group_refuted.

Example C86_example : holds same_data same_rows /\ log_safe same_data (fun _ => false) /\
  alike same_rows 2 (1, 0) (3, 0) /\ before (1, 0) (3, 0) /\
  show (level_view (fst same_grouped) 2) =
    Some [((0, 0), 2, [(1, 0); (0, 0)]); ((2, 0), 2, [(3, 0); (2, 0)])].
Proof.
  split; [apply same_holds|]. split; [intros l _; auto|]. split.
  - split; [exists (map b64_ofZ [4; 4]); split; [reflexivity|cbn; lia]|].
    split; [exists (map b64_ofZ [4; 4]); split; [reflexivity|cbn; lia]|]. reflexivity.
  - split; [right; cbn; lia|]. vm_compute. reflexivity.
Qed.
