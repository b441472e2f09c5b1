(** Properties C16 to C19 and C21: grouping.  Specification: DataSpec.v (data
    sets), GroupSpec.v (subsequences, leader clustering), GroupView.v (what is
    observed of groups), DistSpec.v (distances). *)
From Coq Require Import String Reals Lra Permutation Sorted.
From Flocq Require Import IEEE754.BinarySingleNaN Core.Raux.
From Verif Require Import Base Num NumB64 NumB64Laws NumLaws NumFacts NumXR NumXRLaws LoopFacts TimeSeries Lemire Distance
  DistSpec DistLink Pairwise TSSet StdAlg Candidate Group GroupSpace
  DataSpec DataProofs GroupSpec GroupView Members GroupProofs GroupAll GroupDist PropsDistance PropsData.
Local Open Scope Z_scope.
Local Open Scope list_scope.

(** the progress log neither divides by zero nor computes a percentage beyond the
    range of int: it is not due, or there are no slots (series x start positions), or
    at least five and fewer than 21474840 *)
Definition log_safe {N} (d : dataset N) (clock : Z -> bool) : Prop :=
  forall l, 1 <= l <= ds_maxcol d ->
  clock l = false \/ (ds_maxcol d - l + 1) * ds_count d = 0 \/ 5 <= (ds_maxcol d - l + 1) * ds_count d < 21474840.

(** ** the general statement all of C16 to C18 follow from *)
Section Main.
Context {N : Num} {LW : NumLaws N}.
Notation D := (D N).
Notation pwf M := (fun _ a b dr mt => pairwiseDistance (N := N) M a b dr mt).

Lemma grouping_main (d : dataset N) (rows : list (list D)) old clock (ratio : D) name (M : Metric N) w (thr : D) threads whole
  (full : Z -> coord -> coord -> D) :
  holds d rows -> getDistanceFromName name = Ret (pwf M) -> warpedFor name = Ret w ->
  nltb (ndiv thr (nofZ 2)) ninf = true -> 1 <= ds_maxcol d -> 1 <= threads -> log_safe d clock ->
  exists levels total,
    groupAllLengths clock ratio (mkGS d old) name thr threads whole
      = (mkGS d (Some (mkGG name levels (Some (pwf M)) (Some w) (Some thr) total whole)), Ret total) /\
    Z.of_nat (length levels) = ds_maxcol d + 1 /\ total = count_groups levels /\
    (forall l, 0 <= l -> ~ grouped_length d whole l -> l <= ds_maxcol d -> nth_error levels (Z.to_nat l) = Some None) /\
    (forall l, grouped_length d whole l -> exists L gs, nth_error levels (Z.to_nat l) = Some (Some L) /\
       level_is d rows (pwf M) ratio thr full l L gs).
Proof.
  intros Hd Epw Ew Hthr Hm Ht Hlog.
  destruct (gg_group_ok d rows Hd clock (pwf M) ratio thr full Hthr
    (fun l c c' cut Hl => P0_all d rows Hd M ratio l c c' cut Hl) Hlog gg_new name w whole Epw Ew Hm)
    as (levels & total & E & H1 & H2 & H3 & H4).
  exists levels, total. unfold groupAllLengths. cbn [gt_data].
  assert (El : isLoaded d = true) by (destruct Hd as (buf & E0 & _); unfold isLoaded; rewrite E0; reflexivity).
  rewrite El. cbn [negb]. destruct (Z.leb_spec 1 threads); [|lia]. rewrite E.
  splits; auto.
  - intros l Hl Hng Hlm. apply H3; auto. unfold grouped_length, min_length in *. destruct whole; lia.
  - intros l Hl. apply H4. unfold grouped_length, min_length in *. destruct whole; lia.
Qed.

Lemma view_ok (d : dataset N) name levels pw w thr total whole l L gs rows :
  nth_error levels (Z.to_nat l) = Some (Some L) -> 0 <= l -> state_ok d rows l L gs ->
  level_view (mkGS d (Some (mkGG name levels pw w thr total whole))) l = Some (Ret (map view_of gs)).
Proof.
  intros E Hl [El Es Ha Hc Hs]. unfold level_view. cbn [gt_groups gg_levels].
  destruct (Z.ltb_spec l 0); [lia|]. rewrite E. rewrite Es. f_equal. eapply group_views_ok; eauto.
Qed.

Lemma members_view gs : concat (map v_members (map view_of gs)) = concat gs.
Proof. rewrite map_map. f_equal. rewrite <- (map_id gs) at 2. apply map_ext. reflexivity. Qed.

Lemma level_partitions (d : dataset N) rows pw ratio thr full l L gs : holds d rows -> 1 <= l <= ds_maxcol d ->
  level_is d rows pw ratio thr full l L gs -> partitions rows l (map view_of gs).
Proof.
  intros Hd Hl [[El Es Ha Hc Hs] HR]. unfold partitions. rewrite members_view.
  pose proof (runs_perm _ _ _ _ _ _ _ _ _ HR) as HP. splits.
  - eapply Permutation_NoDup; [exact HP|]. apply all_subs_NoDup.
  - intros c. rewrite <- (all_subs_In d rows Hd l Hl). split; intros H.
    + eapply Permutation_in; [apply Permutation_sym; exact HP|exact H].
    + eapply Permutation_in; [exact HP|exact H].
  - intros v Hv. apply in_map_iff in Hv as (ms & <- & Hms). simpl.
    apply In_nth_error in Hms as [k Ek]. destruct (Forall2_nth_ex_r _ _ _ _ _ Hc Ek) as (g & _ & Hne & _).
    splits; auto.
Qed.

Lemma total_sum (g : gset N) gs : gt_groups g = Some gs ->
  (forall l L, nth_error (gg_levels gs) l = Some (Some L) ->
     exists vs, level_view g (Z.of_nat l) = Some (Ret vs) /\ length vs = length (ll_groups L)) ->
  count_groups (gg_levels gs) = fold_right Z.add 0 (map (groups_at g) (zseq 0 (length (gg_levels gs)))).
Proof.
  intros Eg H.
  assert (G : forall post pre, gg_levels gs = pre ++ post ->
    count_groups post = fold_right Z.add 0 (map (groups_at g) (zseq (Z.of_nat (length pre)) (length post)))).
  { induction post as [|o post IH]; intros pre E; simpl; auto.
    assert (En : nth_error (gg_levels gs) (length pre) = Some o)
      by (rewrite E, nth_error_app2, Nat.sub_diag by lia; reflexivity).
    specialize (IH (pre ++ [o])). rewrite app_length in IH. cbn [length] in IH.
    replace (Z.of_nat (length pre + 1)) with (Z.of_nat (length pre) + 1) in IH by lia.
    rewrite <- IH by (rewrite <- app_assoc; exact E).
    destruct o as [L|].
    - destruct (H _ _ En) as (vs & Ev & Hl). unfold groups_at at 1. rewrite Ev. lia.
    - unfold groups_at at 1, level_view. rewrite Eg. destruct (Z.ltb_spec (Z.of_nat (length pre)) 0); [lia|].
      rewrite Nat2Z.id, En. reflexivity. }
  apply (G (gg_levels gs) []). reflexivity.
Qed.
End Main.

(** ** C16: grouping partitions all subsequences.  In any arithmetic, for all five
    metrics, every threshold whose half is below infinity (not NaN), every data
    set. *)
Theorem C16_grouping_partitions : forall (N : Num) (LW : NumLaws N) (d : dataset N) (rows : list (list (D N)))
    old clock (ratio : D N) name (thr : D N) threads whole,
  holds d rows -> In name groupable -> nltb (ndiv thr (nofZ 2)) ninf = true ->
  1 <= ds_maxcol d -> 1 <= threads -> log_safe d clock ->
  exists g total,
    groupAllLengths clock ratio (mkGS d old) name thr threads whole = (g, Ret total) /\
    gt_data g = d /\ getTotalNumberOfGroups g = total /\
    total = fold_right Z.add 0 (map (groups_at g) (zseq 0 (Z.to_nat (ds_maxcol d + 1)))) /\
    (forall l, grouped_length d whole l -> exists vs, level_view g l = Some (Ret vs) /\ partitions rows l vs) /\
    (forall l, ~ grouped_length d whole l -> level_view g l = None).
Proof.
  intros N LW d rows old clock ratio name thr threads whole Hd Hn Hthr Hm Ht Hlog.
  destruct (groupable_pw (N := N) name Hn) as (M & w & Epw & Ew).
  destruct (grouping_main d rows old clock ratio name M w thr threads whole (fun _ _ _ => n0) Hd Epw Ew Hthr Hm Ht Hlog)
    as (levels & total & E & H1 & H2 & H3 & H4).
  assert (Hg : forall l, grouped_length d whole l -> 1 <= l <= ds_maxcol d)
    by (intros l; unfold grouped_length; destruct whole; lia).
  assert (Hgd : forall l, {grouped_length d whole l} + {~ grouped_length d whole l}).
  { intros l. unfold grouped_length. destruct whole; [apply Z.eq_dec|].
    destruct (Z_le_dec 2 l), (Z_le_dec l (ds_maxcol d)); [left|right|right|right]; lia. }
  eexists _, total. split; [exact E|]. splits; try reflexivity.
  - replace (Z.to_nat (ds_maxcol d + 1)) with (length levels) by lia.
    rewrite H2. apply (total_sum _ (mkGG name levels (Some (fun (_ : D N) a b dr mt => pairwiseDistance M a b dr mt)) (Some w) (Some thr) total whole)).
    + rewrite <- H2. reflexivity.
    + cbn [gg_levels]. intros l L El.
      assert (Hl : Z.of_nat l <= ds_maxcol d) by (apply nth_error_Some_lt in El; lia).
      destruct (Hgd (Z.of_nat l)) as [Hyes|Hno].
      * destruct (H4 _ Hyes) as (L' & gs & EL & HL). rewrite Nat2Z.id, El in EL. injection EL as <-.
        exists (map view_of gs). split.
        -- rewrite <- H2. eapply view_ok; [rewrite Nat2Z.id; eauto|lia|apply HL].
        -- rewrite map_length. destruct HL as [[_ _ _ Hc _] _]. symmetry. eapply Forall2_length; eauto.
      * rewrite <- (Nat2Z.id l) in El. rewrite H3 in El by (auto; lia). discriminate.
  - intros l Hl. destruct (H4 l Hl) as (L & gs & EL & HL). exists (map view_of gs). split.
    + eapply view_ok; [exact EL| |apply HL]. pose proof (Hg l Hl). lia.
    + eapply level_partitions; eauto.
  - intros l Hl. unfold level_view. cbn [gt_groups gg_levels]. destruct (Z.ltb_spec l 0); auto.
    destruct (Z_le_gt_dec l (ds_maxcol d)) as [Hle|Hgt].
    + rewrite H3 by auto. reflexivity.
    + destruct (nth_error levels (Z.to_nat l)) eqn:En; auto. apply nth_error_Some_lt in En. lia.
Qed.
Print Assumptions C16_grouping_partitions.

(** the hypothesis on the threshold is needed: with an infinite threshold the
    second subsequence reads an uninitialised index *)
Theorem C16_infinite_threshold_refuted : exists (d : dataset B64) rows,
  holds d rows /\
  snd (groupAllLengths (N := B64) (fun _ => false) (b64_ofZ 1) (mkGS d None) "sorensen" pinf 1 false) = UB Uninit.
Proof.
  exists (mkDS (N := B64) (Some (map b64_ofZ [0; 0; 0; 0])) [] [2; 2] 2 2 "f"%string false), [map b64_ofZ [0; 0]; map b64_ofZ [0; 0]].
  split; [|vm_compute; reflexivity].
  exists (map b64_ofZ [0; 0; 0; 0]). splits; try reflexivity; try (unfold int_max; simpl; lia).
  intros i row E. destruct i as [|[|i]]; [| |destruct i; discriminate]; injection E as <-; splits; try reflexivity;
    try (simpl; lia); intros j v Ej; repeat (destruct j as [|j]; [injection Ej as <-; reflexivity|]);
    destruct j; discriminate.
Qed.
Print Assumptions C16_infinite_threshold_refuted.

Definition show_view (v : gview) := (v_rep v, v_count v, v_members v).
Definition show (o : option (res (list gview))) : option (list (coord * Z * list coord)) :=
  match o with Some (Ret vs) => Some (map show_view vs) | _ => None end.

(** a data set of two series with six subsequences, grouped with threshold 6 *)
Definition ex2_rows : list (list (D B64)) := [map b64_ofZ [0; 1; 9]; map b64_ofZ [1; 1; 8]].
Definition ex2_data : dataset B64 :=
  mkDS (N := B64) (Some (map b64_ofZ [0; 1; 9; 1; 1; 8])) [] [3; 3] 2 3 "f"%string false.
Lemma ex2_holds : holds ex2_data ex2_rows.
Proof.
  exists (map b64_ofZ [0; 1; 9; 1; 1; 8]). splits; try reflexivity; try (unfold int_max; simpl; lia).
  intros i row E. destruct i as [|[|i]]; [| |destruct i; discriminate]; injection E as <-; splits; try reflexivity;
    try (simpl; lia); intros j v Ej; repeat (destruct j as [|j]; [injection Ej as <-; reflexivity|]);
    destruct j; discriminate.
Qed.
Definition ex2_grouped : gset B64 * res Z :=
  groupAllLengths (N := B64) (fun _ => false) (b64_ofZ 1) (mkGS ex2_data None) "manhattan" (b64_ofZ 6) 1 false.

Example C16_example : holds ex2_data ex2_rows /\ In "manhattan"%string groupable /\
  nltb (n := B64) (ndiv (n := B64) (b64_ofZ 6) (b64_ofZ 2)) pinf = true /\
  snd ex2_grouped = Ret 3 /\
  show (level_view (fst ex2_grouped) 2) =
    Some [((0, 0), 2, [(1, 0); (0, 0)]); ((0, 1), 2, [(1, 1); (0, 1)])] /\
  show (level_view (fst ex2_grouped) 3) = Some [((0, 0), 2, [(1, 0); (0, 0)])].
Proof. split; [apply ex2_holds|]. splits; vm_compute; auto. Qed.

(** ** C17: radius.  In IEEE doubles, for the three basic metrics. *)
Theorem C17_group_radius : forall (k : kind) (d : dataset B64) (rows : list (list (D B64)))
    old clock (ratio thr : D B64) threads whole,
  holds d rows -> nltb (ndiv thr (nofZ 2)) ninf = true ->
  1 <= ds_maxcol d -> 1 <= threads -> log_safe d clock ->
  exists g total,
    groupAllLengths (N := B64) clock ratio (mkGS d old) (kind_name k) thr threads whole = (g, Ret total) /\
    forall l, grouped_length d whole l ->
    exists vs, level_view g l = Some (Ret vs) /\ partitions rows l vs /\
      forall v c, In v vs -> In c (v_members v) -> c <> v_rep v ->
        nle (pair_value k (sub_values rows l (v_rep v)) (sub_values rows l c))
            (ndiv thr (nofZ 2)).
Proof.
  intros k d rows old clock ratio thr threads whole Hd Hthr Hm Ht Hlog.
  destruct (groupable_pw (N := B64) (kind_name k) (kind_groupable k)) as (M & w & Epw & Ew).
  rewrite kind_pw in Epw. injection Epw as EM.
  destruct (grouping_main (N := B64) d rows old clock ratio (kind_name k) (metric_of k) w thr threads whole
     (sub_dist (N := B64) rows k) Hd (kind_pw k) Ew Hthr Hm Ht Hlog) as (levels & total & E & H1 & H2 & H3 & H4).
  eexists _, total. split; [exact E|]. intros l Hl. destruct (H4 l Hl) as (L & gs & EL & HL).
  assert (Hlr : 1 <= l <= ds_maxcol d) by (revert Hl; unfold grouped_length; destruct whole; lia).
  exists (map view_of gs). splits.
  - eapply view_ok; [exact EL|lia|apply HL].
  - eapply level_partitions; eauto.
  - intros v c Hv Hc Hne. apply in_map_iff in Hv as (ms & <- & Hms). simpl in Hc, Hne |- *.
    destruct HL as [_ HR].
    destruct (runs_radius d rows _ ratio thr l (sub_dist (N := B64) rows k l) _ _ (Q1_kind (N := B64) d rows Hd k ratio l Hlr) HR ms c Hms Hc)
      as [->|H]; [contradiction|exact H].
Qed.
Print Assumptions C17_group_radius.

(** diameter, in exact arithmetic: rows of real numbers, threshold t >= 0 *)
Theorem C17_group_diameter : forall (k : kind) (d : dataset XR) (rows : list (list R))
    old clock (ratio : D XR) (t : R) threads whole,
  holds d (map (map Fin) rows) -> (0 <= t)%R ->
  1 <= ds_maxcol d -> 1 <= threads -> log_safe d clock ->
  exists g total,
    groupAllLengths clock ratio (mkGS d old) (kind_name k) (Fin t : D XR) threads whole = (g, Ret total) /\
    forall l, grouped_length d whole l ->
    exists vs, level_view g l = Some (Ret vs) /\ partitions (N := XR) (map (map Fin) rows) l vs /\
      forall v c c', In v vs -> In c (v_members v) -> In c' (v_members v) ->
        (real_pair k (real_sub rows l (v_rep v)) (real_sub rows l c) <= t / 2)%R /\
        (real_pair k (real_sub rows l c) (real_sub rows l c') <= t)%R.
Proof.
  intros k d rows old clock ratio t threads whole Hd Hpos Hm Ht Hlog.
  destruct (groupable_pw (N := XR) (kind_name k) (kind_groupable k)) as (M & w & Epw & Ew).
  assert (Hhalf : @ndiv XR (Fin t) (nofZ 2) = Fin (t / 2)).
  { simpl. unfold xdiv. destruct (Req_bool_spec 2 0); [lra|]. reflexivity. }
  destruct (grouping_main (N := XR) d (map (map Fin) rows) old clock ratio (kind_name k) (metric_of k) w (Fin t : D XR) threads whole
     (sub_dist (N := XR) (map (map Fin) rows) k) Hd (kind_pw k) Ew) as (levels & total & E & H1 & H2 & H3 & H4); auto.
  { rewrite Hhalf. reflexivity. }
  eexists _, total. split; [exact E|]. intros l Hl. destruct (H4 l Hl) as (L & gs & EL & HL).
  assert (Hlr : 1 <= l <= ds_maxcol d) by (revert Hl; unfold grouped_length; destruct whole; lia).
  exists (map view_of gs). splits.
  - eapply view_ok; [exact EL|lia|apply HL].
  - eapply level_partitions; eauto.
  - assert (G : forall ms c, In ms gs -> In c ms -> is_sub (N := XR) (map (map Fin) rows) l c /\
        (real_pair k (real_sub rows l (rep ms)) (real_sub rows l c) <= t / 2)%R).
    { intros ms c Hms Hc. destruct HL as [[_ _ _ Hcent Hs] HR]. rewrite Forall_forall in Hs.
      assert (Hsub : is_sub (N := XR) (map (map Fin) rows) l c) by (apply Hs, in_concat; eauto). split; auto.
      assert (Hne : real_sub rows l c <> []).
      { intros E0. pose proof (real_sub_len rows l c ltac:(lia) Hsub) as E1. rewrite E0 in E1. simpl in E1. lia. }
      destruct (runs_radius d _ _ ratio (Fin t : D XR) l (sub_dist (N := XR) (map (map Fin) rows) k l) _ _ (Q1_kind (N := XR) d _ Hd k ratio l Hlr) HR ms c Hms Hc)
        as [->|H].
      - destruct (C05_pairwise_metric_axioms k (real_sub rows l (rep ms)) (real_sub rows l (rep ms)) (real_sub rows l (rep ms)) Hne eq_refl eq_refl)
          as (_ & _ & Hz & _). rewrite (proj2 Hz eq_refl). lra.
      - assert (Hrep : is_sub (N := XR) (map (map Fin) rows) l (rep ms)).
        { apply Hs, in_concat. exists ms. split; auto. apply rep_in. destruct ms; [destruct Hc|discriminate]. }
        rewrite (sub_dist_real d rows Hd k l _ _ Hlr Hrep Hsub), Hhalf in H. destruct H as (_ & _ & H). simpl in H.
        destruct (Rlt_bool_spec (t / 2) (real_pair k (real_sub rows l (rep ms)) (real_sub rows l c))); [discriminate|auto]. }
    intros v c c' Hv Hc Hc'. apply in_map_iff in Hv as (ms & <- & Hms). cbn [v_members v_rep view_of] in *.
    destruct (G ms c Hms Hc) as [S1 R1]. destruct (G ms c' Hms Hc') as [S2 R2]. split; auto.
    assert (Hrep : is_sub (N := XR) (map (map Fin) rows) l (rep ms)).
    { apply (G ms (rep ms) Hms). apply rep_in. destruct ms; [destruct Hc|discriminate]. }
    pose proof (real_sub_len rows l c ltac:(lia) S1) as E1.
    pose proof (real_sub_len rows l c' ltac:(lia) S2) as E2.
    pose proof (real_sub_len rows l (rep ms) ltac:(lia) Hrep) as E3.
    assert (Hne : forall x, Z.of_nat (length (real_sub rows l x)) = l -> real_sub rows l x <> []).
    { intros x Ex E0. rewrite E0 in Ex. simpl in Ex. lia. }
    destruct (C05_pairwise_metric_axioms k (real_sub rows l c) (real_sub rows l (rep ms)) (real_sub rows l c') (Hne _ E1) ltac:(lia) ltac:(lia))
      as (_ & Hsym & _ & Htri). rewrite Hsym in Htri. lra.
Qed.
Print Assumptions C17_group_diameter.

Example C17_example : log_safe ex2_data (fun _ => false) /\ 1 <= ds_maxcol ex2_data /\
  show (level_view (fst ex2_grouped) 3) = Some [((0, 0), 2, [(1, 0); (0, 0)])] /\
  sub_values ex2_rows 3 (0, 0) = map b64_ofZ [0; 1; 9] /\ sub_values ex2_rows 3 (1, 0) = map b64_ofZ [1; 1; 8] /\
  Bleb (pair_value (N := B64) KManhattan (map b64_ofZ [0; 1; 9]) (map b64_ofZ [1; 1; 8])) (b64_ofZ 3) = true.
Proof.
  split; [intros l _; auto|]. split; [cbn; lia|]. split; [vm_compute; reflexivity|].
  split; [reflexivity|]. split; [reflexivity|]. vm_compute. reflexivity.
Qed.

(** ** C18: the leader clustering rule, exactly *)

(** the subsequences of length [l] in the order in which they are processed *)
Definition in_order {N : Num} (rows : list (list (D N))) (l : Z) (cs : list coord) : Prop :=
  StronglySorted before cs /\ forall c, In c cs <-> is_sub rows l c.

Lemma all_pos_sorted {N : Num} (d : dataset N) rows l : StronglySorted before (all_pos d rows l).
Proof.
  unfold all_pos.
  assert (Z1 : forall n i, StronglySorted Z.lt (zseq i n)).
  { induction n as [|n IH]; intros i; simpl; constructor; auto.
    rewrite Forall_forall. intros x Hx. apply zseq_In in Hx. lia. }
  assert (Inner : forall s l0, StronglySorted Z.lt l0 -> StronglySorted before (map (fun i => (i, s)) l0)).
  { intros s l0 H. induction H as [|x l0 H IH Hx]; simpl; constructor; auto.
    rewrite Forall_forall in *. intros y Hy. apply in_map_iff in Hy as (i & <- & Hi). right. simpl. split; auto. }
  assert (App : forall l1 l2, StronglySorted before l1 -> StronglySorted before l2 ->
    (forall x y, In x l1 -> In y l2 -> before x y) -> StronglySorted before (l1 ++ l2)).
  { intros l1 l2 H. induction H as [|x l1 H IH Hx]; intros H2 Hb; simpl; auto. constructor.
    - apply IH; auto. intros a b Ha Hb'. apply Hb; auto. right; auto.
    - rewrite Forall_forall in *. intros y Hy. apply in_app_or in Hy as [Hy|Hy]; auto. apply Hb; auto. left; auto. }
  pose proof (Z1 (Z.to_nat (ds_maxcol d - l + 1)) 0) as HS. induction HS as [|s ss HS IH Hs]; simpl; [constructor|].
  apply App; auto. intros x y Hx Hy. apply in_map_iff in Hx as (i & <- & _).
  apply in_flat_map in Hy as (s' & Hs' & Hy). apply in_map_iff in Hy as (j & <- & _). left. simpl.
  rewrite Forall_forall in Hs. apply Hs; auto.
Qed.

Lemma sorted_filter {A} (R : A -> A -> Prop) f l : StronglySorted R l -> StronglySorted R (filter f l).
Proof.
  induction 1 as [|x l H IH Hx]; simpl; [constructor|]. destruct (f x); auto. constructor; auto.
  rewrite Forall_forall in *. intros y Hy. apply filter_In in Hy as [Hy _]. auto.
Qed.

Lemma all_subs_order {N : Num} (d : dataset N) rows l : holds d rows -> 1 <= l <= ds_maxcol d ->
  in_order rows l (all_subs d rows l).
Proof.
  intros Hd Hl. split.
  - apply sorted_filter, all_pos_sorted.
  - intros c. apply all_subs_In; auto.
Qed.

(** manhattan and chebyshev in IEEE doubles *)
Theorem C18_leader_clustering_ieee : forall (k : kind) (d : dataset B64) (rows : list (list (D B64)))
    old clock (ratio thr : D B64) threads whole,
  k <> KEuclidean -> holds d rows -> Forall (@nfin B64) (concat rows) ->
  nltb (ndiv thr (nofZ 2)) ninf = true ->
  1 <= ds_maxcol d <= 2 ^ 30 -> 1 <= threads -> log_safe d clock ->
  exists g total,
    groupAllLengths (N := B64) clock ratio (mkGS d old) (kind_name k) thr threads whole = (g, Ret total) /\
    forall l, grouped_length d whole l ->
    let dist c c' := pair_value k (sub_values rows l c) (sub_values rows l c') in
    exists gs cs, level_view g l = Some (Ret (map view_of gs)) /\
      in_order rows l cs /\ runs (leader_step (N := B64) dist thr) cs gs /\
      (* separation of representatives *)
      (forall i j gi gj, (i < j)%nat -> nth_error gs i = Some gi -> nth_error gs j = Some gj ->
         nlt (N := B64) (ndiv thr (nofZ 2)) (dist (rep gi) (rep gj))).
Proof.
  intros k d rows old clock ratio thr threads whole Hk Hd Hf Hthr Hm Ht Hlog.
  destruct (groupable_pw (N := B64) (kind_name k) (kind_groupable k)) as (M & w & Epw & Ew).
  destruct (grouping_main (N := B64) d rows old clock ratio (kind_name k) (metric_of k) w thr threads whole
     (sub_dist (N := B64) rows k) Hd (kind_pw k) Ew Hthr ltac:(lia) Ht Hlog) as (levels & total & E & H1 & H2 & H3 & H4).
  eexists _, total. split; [exact E|]. intros l Hl dist. destruct (H4 l Hl) as (L & gs & EL & HL).
  assert (Hlr : 1 <= l <= ds_maxcol d) by (revert Hl; unfold grouped_length; destruct whole; lia).
  exists gs, (all_subs d rows l).
  assert (HR : runs (leader_step (N := B64) dist thr) (all_subs d rows l) gs).
  { destruct HL as [_ HR]. eapply runs_mono; [|exact HR].
    apply (gstep_leader (N := B64) d rows _ ratio thr l (sub_dist (N := B64) rows k l)).
    apply (Q2_kind (N := B64)); auto. lia. }
  splits; auto.
  - eapply view_ok; [exact EL|lia|apply HL].
  - apply all_subs_order; auto.
  - intros i j gi gj Hij Ei Ej. apply (leader_separation (N := B64) thr dist _ _ HR i j); auto.
Qed.
Print Assumptions C18_leader_clustering_ieee.

(** all three metrics in exact arithmetic *)
Theorem C18_leader_clustering_exact : forall (k : kind) (d : dataset XR) (rows : list (list R))
    old clock (ratio : D XR) (t : R) threads whole,
  holds d (map (map Fin) rows) ->
  1 <= ds_maxcol d <= 2 ^ 30 -> 1 <= threads -> log_safe d clock ->
  exists g total,
    groupAllLengths clock ratio (mkGS d old) (kind_name k) (Fin t : D XR) threads whole = (g, Ret total) /\
    forall l, grouped_length d whole l ->
    let dist c c' := pair_value (N := XR) k (sub_values (N := XR) (map (map Fin) rows) l c) (sub_values (N := XR) (map (map Fin) rows) l c') in
    (forall c c', is_sub (N := XR) (map (map Fin) rows) l c -> is_sub (N := XR) (map (map Fin) rows) l c' ->
       dist c c' = Fin (real_pair k (real_sub rows l c) (real_sub rows l c'))) /\
    exists gs cs, level_view g l = Some (Ret (map view_of gs)) /\
      in_order (N := XR) (map (map Fin) rows) l cs /\ runs (leader_step (N := XR) dist (Fin t : D XR)) cs gs /\
      (forall i j gi gj, (i < j)%nat -> nth_error gs i = Some gi -> nth_error gs j = Some gj ->
         (t / 2 < real_pair k (real_sub rows l (rep gi)) (real_sub rows l (rep gj)))%R).
Proof.
  intros k d rows old clock ratio t threads whole Hd Hm Ht Hlog.
  destruct (groupable_pw (N := XR) (kind_name k) (kind_groupable k)) as (M & w & Epw & Ew).
  assert (Hhalf : @ndiv XR (Fin t) (nofZ 2) = Fin (t / 2)).
  { simpl. unfold xdiv. destruct (Req_bool_spec 2 0); [lra|]. reflexivity. }
  destruct (grouping_main (N := XR) d (map (map Fin) rows) old clock ratio (kind_name k) (metric_of k) w (Fin t : D XR) threads whole
     (sub_dist (N := XR) (map (map Fin) rows) k) Hd (kind_pw k) Ew) as (levels & total & E & H1 & H2 & H3 & H4); auto; try lia.
  { rewrite Hhalf. reflexivity. }
  eexists _, total. split; [exact E|]. intros l Hl dist. destruct (H4 l Hl) as (L & gs & EL & HL).
  assert (Hlr : 1 <= l <= ds_maxcol d) by (revert Hl; unfold grouped_length; destruct whole; lia).
  assert (Hdist : forall c c', is_sub (N := XR) (map (map Fin) rows) l c -> is_sub (N := XR) (map (map Fin) rows) l c' ->
       dist c c' = Fin (real_pair k (real_sub rows l c) (real_sub rows l c'))).
  { intros c c' Hc Hc'. apply (sub_dist_real d rows Hd k l c c' Hlr Hc Hc'). }
  split; auto. exists gs, (all_subs d (map (map Fin) rows) l).
  assert (HR : runs (leader_step (N := XR) dist (Fin t : D XR)) (all_subs d (map (map Fin) rows) l) gs).
  { destruct HL as [_ HR]. eapply runs_mono; [|exact HR].
    apply (gstep_leader (N := XR) d _ _ ratio (Fin t : D XR) l (sub_dist (N := XR) (map (map Fin) rows) k l)).
    apply Q2_real; auto. lia. }
  splits; auto.
  - eapply view_ok; [exact EL|lia|apply HL].
  - apply all_subs_order; auto.
  - intros i j gi gj Hij Ei Ej.
    pose proof (leader_separation (N := XR) (Fin t : D XR) dist _ _ HR i j gi gj Hij Ei Ej) as Hs.
    destruct HL as [[_ _ _ Hcent Hsub] _]. rewrite Forall_forall in Hsub.
    assert (Hr : forall i g, nth_error gs i = Some g -> is_sub (N := XR) (map (map Fin) rows) l (rep g)).
    { intros i0 g0 E0. destruct (Forall2_nth_ex_r _ _ _ _ _ Hcent E0) as (g1 & _ & Hne & _).
      apply Hsub. eapply In_concat; [exact E0|]. apply rep_in; auto. }
    rewrite (Hdist _ _ (Hr _ _ Ei) (Hr _ _ Ej)) in Hs. rewrite Hhalf in Hs. unfold nlt in Hs. simpl in Hs.
    destruct (Rlt_bool_spec (t / 2) (real_pair k (real_sub rows l (rep gi)) (real_sub rows l (rep gj)))); [auto|discriminate].
Qed.
Print Assumptions C18_leader_clustering_exact.

Example C18_example : KManhattan <> KEuclidean /\ Forall (@nfin B64) (concat ex2_rows) /\
  show (level_view (fst ex2_grouped) 2) = Some (map show_view (map view_of [[(1, 0); (0, 0)]; [(1, 1); (0, 1)]])).
Proof.
  split; [discriminate|]. split; [|vm_compute; reflexivity].
  change (concat ex2_rows) with (ts_points (ts_of_list (N := B64) (concat ex2_rows))).
  apply finb_all. vm_compute. reflexivity.
Qed.

(** ** C19: member lists.  [ops] is any sequence of additions (group, coordinate)
    to [n] groups of one length that share one array of [count] x [sub] entries
    with arbitrary initial contents. *)
Definition add_op {N : Num} (sub : Z) (op : nat * coord) (st : list (group N) * mmap) : res (list (group N) * mmap) :=
  match nth_error (fst st) (fst op) with
  | Some g => '(g', mm') <- addMember sub g (snd st) (fst (snd op)) (snd (snd op)) ;; Ret (upd (fst st) (fst op) g', mm')
  | None => UB OutOfBounds
  end.

(** the coordinates added to group [k], most recent first *)
Definition added (k : nat) (ops : list (nat * coord)) : list coord :=
  rev (map snd (filter (fun op => (fst op =? k)%nat) ops)).

Theorem C19_member_lists : forall (N : Num) (n : nat) (count sub len : Z) (mm : mmap) (ops : list (nat * coord)),
  Z.of_nat (length mm) = count * sub -> count * sub <= int_max ->
  Forall (fun op => (fst op < n)%nat /\ 0 <= fst (snd op) < count /\ 0 <= snd (snd op) < sub) ops ->
  NoDup (map snd ops) ->
  exists groups mm', fold_res (add_op sub) ops (repeat (group_new (N := N) len) n, mm) = Ret (groups, mm') /\
    forall k, (k < n)%nat -> exists g, nth_error groups k = Some g /\
      memberCoords sub mm' g = Ret (added k ops) /\ g_count g = Z.of_nat (length (added k ops)) /\
      (* getMembers returns the corresponding series *)
      (forall (d : dataset N) rows, holds d rows -> 1 <= len <= ds_maxcol d -> Forall (is_sub rows len) (map snd ops) ->
         exists ts, getMembers d len sub mm' g = Ret ts /\
           Forall2 (fun c t => ts_index t = fst c /\ ts_start t = snd c /\ ts_points t = sub_values rows len c)
                   (added k ops) ts).
Proof.
  intros N n count sub len mm ops El Hsz Hops Hnd.
  assert (Hsnoc : forall k pre op, added k (pre ++ [op]) = if (fst op =? k)%nat then snd op :: added k pre else added k pre).
  { intros k pre op. unfold added. rewrite filter_app, map_app, rev_app_distr. simpl.
    destruct (fst op =? k)%nat; reflexivity. }
  assert (Hin : forall k pre c, In c (added k pre) -> In c (map snd pre)).
  { intros k pre c H. unfold added in H. apply in_rev in H. apply in_map_iff in H as (op & <- & H).
    apply filter_In in H as [H _]. apply in_map. exact H. }
  destruct (fold_res_inv (fun pre (st : list (group N) * mmap) =>
      length (fst st) = n /\ groups_are count sub (snd st) (fst st) (map (fun k => added k pre) (seq 0 n)))
      (add_op sub) ops (repeat (group_new len) n, mm)) as ([groups mm'] & E & Hlen & Ha).
  - simpl. split; [apply repeat_length|]. unfold groups_are. splits.
    + clear. generalize 0%nat. induction n as [|n IH]; intros s; simpl; constructor; auto. split; reflexivity.
    + exact El.
    + exact Hsz.
    + clear. generalize 0%nat. induction n as [|n IH]; intros s; simpl; [constructor|apply IH].
    + clear. generalize 0%nat. induction n as [|n IH]; intros s; simpl; [constructor|apply IH].
  - intros pre [ko c] post [groups mm1] Eops [Hlen Ha]. cbn [fst snd] in Hlen, Ha.
    rewrite Forall_forall in Hops. destruct (Hops (ko, c)) as (Hk & Hi & Hs); [rewrite Eops; apply in_or_app; right; left; auto|]. cbn [fst snd] in Hk, Hi, Hs.
    destruct (nth_error groups ko) as [g|] eqn:Eg; [|apply nth_error_None in Eg; lia].
    assert (Em : nth_error (map (fun k => added k pre) (seq 0 n)) ko = Some (added ko pre)).
    { rewrite nth_error_map. rewrite (nth_error_nth' _ 0%nat) by (rewrite seq_length; lia). rewrite seq_nth by lia. reflexivity. }
    destruct (addMember_ok count sub mm1 groups _ _ g _ c Ha Eg Em) as (mm2 & Eadd & Ha2).
    { split; auto. }
    { intros Hc. apply in_concat in Hc as (l & Hl & Hc). apply in_map_iff in Hl as (k & <- & _). apply Hin in Hc.
      rewrite Eops, map_app in Hnd. simpl in Hnd. apply NoDup_remove_2 in Hnd. apply Hnd. apply in_or_app. auto. }
    unfold add_op. cbn [fst snd]. rewrite Eg, Eadd. cbn [bind].
    eexists. split; [reflexivity|]. cbn [fst snd]. split; [rewrite upd_length; exact Hlen|].
    replace (map (fun k => added k (pre ++ [(ko, c)])) (seq 0 n)) with (upd (map (fun k => added k pre) (seq 0 n)) ko (c :: added ko pre)); auto.
    apply list_ext. intros j. rewrite nth_error_upd_eq, map_length, seq_length, !nth_error_map.
    destruct (Nat.lt_ge_cases j n) as [Hj|Hj].
    + rewrite (nth_error_nth' _ 0%nat) by (rewrite seq_length; lia). rewrite seq_nth by lia. simpl. rewrite Hsnoc. cbn [fst snd].
      destruct (Nat.eqb_spec j ko) as [->|Hne].
      * rewrite Nat.eqb_refl. destruct (Nat.ltb_spec ko n); [reflexivity|lia].
      * destruct (Nat.eqb_spec ko j); [congruence|reflexivity].
    + rewrite (proj2 (nth_error_None (seq 0 n) j)) by (rewrite seq_length; lia). simpl.
      destruct (Nat.eqb_spec j ko); [lia|reflexivity].
  - exists groups, mm'. split; auto. intros k Hk. cbn [fst snd] in *.
    destruct (nth_error groups k) as [g|] eqn:Eg; [|apply nth_error_None in Eg; lia].
    assert (Em : nth_error (map (fun k => added k ops) (seq 0 n)) k = Some (added k ops)).
    { rewrite nth_error_map. rewrite (nth_error_nth' _ 0%nat) by (rewrite seq_length; lia). rewrite seq_nth by lia. reflexivity. }
    exists g. splits; auto.
    + eapply memberCoords_ok; eauto.
    + destruct Ha as (HF & _). apply (Forall2_nth _ _ _ _ _ _ HF Eg Em).
    + intros d rows Hd Hl Hsub. unfold getMembers. rewrite (walk_group _ _ _ _ _ _ _ _ _ _ Ha Eg Em).
      destruct (fold_res_collect (fun c : coord => getTimeSeries d (fst c) (snd c) (snd c + len)) (added k ops) [])
        as (ts & Ets & HF).
      { intros c Hc. rewrite Forall_forall in Hsub. destruct (sub_ts d rows Hd len Hl c (Hsub c (Hin _ _ _ Hc))) as (t & Et & _). eauto. }
      exists ts. split; [exact Ets|].
      assert (Hall : Forall (is_sub rows len) (added k ops)).
      { rewrite Forall_forall in *. intros c Hc. apply Hsub. eapply Hin; eauto. }
      clear - HF Hd Hl Hall. induction HF as [|c t cs ts Et HF IH]; constructor; inversion Hall as [|? ? Hc Hall']; subst; auto.
      destruct (sub_ts d rows Hd len Hl c Hc) as (t' & Et' & H1 & _ & H2 & H3 & _). rewrite Et in Et'. injection Et' as <-. auto.
Qed.
Print Assumptions C19_member_lists.

Example C19_example :
  let ops := [(0%nat, (0, 0)); (1%nat, (1, 1)); (0%nat, (1, 0)); (1%nat, (0, 1))] in
  Forall (fun op : nat * coord => (fst op < 2)%nat /\ 0 <= fst (snd op) < 2 /\ 0 <= snd (snd op) < 2) ops /\
  NoDup (map snd ops) /\ added 0 ops = [(1, 0); (0, 0)] /\ added 1 ops = [(0, 1); (1, 1)] /\
  match fold_res (add_op (N := B64) 2) ops (repeat (group_new 2) 2, repeat (7, 7) 4) with
  | Ret (groups, mm) => map (memberCoords 2 mm) groups
  | _ => []
  end = [Ret [(1, 0); (0, 0)]; Ret [(0, 1); (1, 1)]].
Proof.
  intros ops. unfold ops. splits.
  - repeat (apply Forall_cons; [simpl; lia|]). apply Forall_nil.
  - repeat (apply NoDup_cons; [simpl; intuition congruence|]). apply NoDup_nil.
  - reflexivity.
  - reflexivity.
  - vm_compute. reflexivity.
Qed.

(** ** C21: grouping and the wall clock.  Refuted: on a data set with fewer than
    five series the progress log divides by zero. *)
Theorem C21_clock_dependent_refuted : exists (d : dataset B64) rows clock,
  holds d rows /\
  snd (groupAllLengths (N := B64) (fun _ => false) (b64_ofZ 1) (mkGS d None) "manhattan" (b64_ofZ 6) 1 false) = Ret 3 /\
  snd (groupAllLengths (N := B64) clock (b64_ofZ 1) (mkGS d None) "manhattan" (b64_ofZ 6) 1 false) = UB DivByZero.
Proof.
  exists ex2_data, ex2_rows, (fun _ => true). splits; [apply ex2_holds|vm_compute; reflexivity|vm_compute; reflexivity].
Qed.
Print Assumptions C21_clock_dependent_refuted.

Lemma for_ext {S} (b1 b2 : Z -> S -> res S) lo hi s : (forall i s, lo <= i < hi -> b1 i s = b2 i s) ->
  for_ lo hi b1 s = for_ lo hi b2 s.
Proof.
  intros H. rewrite !for_fold. apply fold_res_ext. intros x s' Hx. apply zseq_In in Hx. apply H. lia.
Qed.

Lemma generate_clock {N : Num} b b' (d : dataset N) pw ratio thr L : ds_count d = 0 \/ 5 <= ll_sub L * ds_count d < 21474840 ->
  generateGroups b d pw ratio thr L = generateGroups b' d pw ratio thr L.
Proof.
  intros H. unfold generateGroups. destruct (imul _ _) as [total| | |] eqn:Et; cbn [bind]; auto.
  apply icheck_inv in Et as [-> _]. f_equal.
  destruct H as [H|H].
  { apply for_ext. intros s st Hs. apply for_ext. intros i st' Hi. lia. }
  apply (for_ext_inv (fun s (st : Z * llgs N) => fst st = s * ds_count d)); [reflexivity|].
  intros s [cnt L0] Hs Hcnt. cbn [fst] in Hcnt.
  edestruct (for_ext_inv (fun i (st : Z * llgs N) => fst st = s * ds_count d + i)) as [A B].
  3:{ split; [exact A|]. intros st' E. rewrite (B st' E). nia. }
  - cbn [fst]. lia.
  - intros i [cnt' L1] Hi Hcnt'. cbn [fst snd] in *. split.
    + rewrite !log_ok by (auto; nia). reflexivity.
    + intros st'. rewrite log_ok by (auto; nia). cbn [bind]. destruct (getItemLength d i); cbn [bind]; try discriminate.
      destruct (_ <? _); [intros E; injection E as <-; cbn [fst]; lia|].
      destruct (place _ _ _ _ _ _ _); cbn [bind]; try discriminate. intros E; injection E as <-; cbn [fst]; lia.
Qed.

(** what holds: with no series, or at least five and fewer than 21474840 slots, the clock
    has no influence.  Any arithmetic, any data set object, any name, threshold and number
    of threads. *)
Theorem C21_clock_independent_partial : forall (N : Num) (d : dataset N) old clock clock' (ratio : D N) name (thr : D N) threads whole,
  ds_count d = 0 \/ 5 <= ds_count d /\ (ds_maxcol d + 1) * ds_count d < 21474840 ->
  groupAllLengths clock ratio (mkGS d old) name thr threads whole
  = groupAllLengths clock' ratio (mkGS d old) name thr threads whole.
Proof.
  intros N d old clock clock' ratio name thr threads whole Hc. unfold groupAllLengths. cbn [gt_data].
  destruct (negb (isLoaded d)); auto. destruct (1 <=? threads); auto.
  assert (E : gg_group clock d ratio gg_new name thr whole = gg_group clock' d ratio gg_new name thr whole); [|rewrite E; reflexivity].
  unfold gg_group. destruct (gg_loadDistance _ name) as [gs [u| | |]]; auto.
  destruct (Z.ltb_spec (ds_maxcol d + 1) 0); auto. cbn [gg_pw]. destruct (gg_pw gs) as [pw|]; auto.
  assert (G : forall n i g, 0 <= i -> i + Z.of_nat n <= Z.max i (ds_maxcol d + 1) ->
    group_loop clock d pw ratio thr n i g = group_loop clock' d pw ratio thr n i g); [|apply G; lia].
  induction n as [|n IH]; intros i g Hi Hn; simpl; auto.
  assert (El : group_level clock d pw ratio thr i = group_level clock' d pw ratio thr i).
  { unfold group_level, ll_new. destruct (imul _ _); cbn [bind]; auto. destruct (_ <? 0); auto. cbn [bind]. apply generate_clock. cbn [ll_sub].
    destruct Hc as [Hc|Hc]; auto. right. assert (1 <= ds_maxcol d - i + 1) by lia. nia. }
  rewrite El. destruct (group_level clock' d pw ratio thr i); auto. destruct (aset _ _ _); auto. apply IH; lia.
Qed.
Print Assumptions C21_clock_independent_partial.

Example C21_example : ds_count (mkDS (N := B64) (Some (map b64_ofZ [1; 2; 3; 4; 5; 6; 7; 8; 9; 10])) [] [2; 2; 2; 2; 2] 5 2 "f"%string false) = 5 /\
  snd (groupAllLengths (N := B64) (fun _ => true) (b64_ofZ 1) (mkGS (mkDS (N := B64) (Some (map b64_ofZ [1; 2; 3; 4; 5; 6; 7; 8; 9; 10])) [] [2; 2; 2; 2; 2] 5 2 "f"%string false) None)
         "manhattan" (b64_ofZ 6) 1 false) = Ret 3.
Proof. split; vm_compute; reflexivity. Qed.
