(** Grouping all lengths (GlobalGroupSpace::group). *)
From Coq Require Import Permutation String.
From Verif Require Import Base Num NumLaws NumFacts LoopFacts TimeSeries Lemire Distance TSSet StdAlg Candidate Group GroupSpace
  DataSpec DataProofs GroupSpec Members GroupProofs.
Local Open Scope Z_scope.
Local Open Scope list_scope.

Section All.
Context {N : Num} {LW : NumLaws N}.
Notation D := (D N).

(** number of groups in all levels *)
Fixpoint count_groups (levels : list (option (llgs N))) : Z :=
  match levels with
  | [] => 0
  | Some L :: l => Z.of_nat (length (ll_groups L)) + count_groups l
  | None :: l => count_groups l
  end.

Lemma count_upd levels k L : nth_error levels k = Some None ->
  count_groups (upd levels k (Some L)) = count_groups levels + Z.of_nat (length (ll_groups L)).
Proof.
  revert k. induction levels as [|o levels IH]; intros [|k] E; try discriminate; simpl in *.
  - injection E as ->. lia.
  - rewrite (IH k E). destruct o; lia.
Qed.

Lemma count_none n : count_groups (repeat None n) = 0.
Proof. induction n; simpl; auto. Qed.

Variable d : dataset N.
Variable rows : list (list D).
Hypothesis Hd : holds d rows.
Variable clock : Z -> bool.
Variable pw : dist_fn N.
Variables ratio thr : D.
Variable full : Z -> coord -> coord -> D.
Hypothesis Hthr : nltb (ndiv thr (nofZ 2)) ninf = true.
Hypothesis P0 : forall l c c' cut, 1 <= l <= ds_maxcol d -> is_sub rows l c -> is_sub rows l c' ->
  exists v, pwc d pw ratio l c c' cut = Ret v.
Hypothesis Hclock : forall l, 1 <= l <= ds_maxcol d ->
  clock l = false \/ (ds_maxcol d - l + 1) * ds_count d = 0 \/ 5 <= (ds_maxcol d - l + 1) * ds_count d < 21474840.

(** the level of length [l] holds the groups [gs] *)
Definition level_is (l : Z) (L : llgs N) (gs : list (list coord)) : Prop :=
  state_ok d rows l L gs /\ runs (gstep d rows pw ratio thr l (full l)) (all_subs d rows l) gs.

Lemma level_ok l : 1 <= l <= ds_maxcol d ->
  exists L gs, group_level clock d pw ratio thr l = Ret L /\ level_is l L gs.
Proof.
  intros Hl. unfold group_level. destruct (ll_new_ok d rows Hd l Hl) as (L0 & E0 & H0). rewrite E0. cbn [bind].
  destruct (generate_ok d rows Hd pw ratio thr l Hl Hthr (fun c c' cut => P0 l c c' cut Hl) (full l) (clock l) L0
    (Hclock l Hl) H0) as (L & gs & E & HS & HR).
  exists L, gs. split; auto. split; auto.
Qed.

Lemma group_loop_ok : forall n i gs, 1 <= i -> i + Z.of_nat n = ds_maxcol d + 1 ->
  Z.of_nat (length (gg_levels gs)) = ds_maxcol d + 1 ->
  (forall l, i <= l <= ds_maxcol d -> nth_error (gg_levels gs) (Z.to_nat l) = Some None) ->
  exists levels total, group_loop clock d pw ratio thr n i gs =
      (mkGG (gg_name gs) levels (gg_pw gs) (gg_warp gs) (gg_threshold gs) total (gg_whole gs), Ret total) /\
    Z.of_nat (length levels) = ds_maxcol d + 1 /\
    (forall l, 0 <= l < i -> nth_error levels (Z.to_nat l) = nth_error (gg_levels gs) (Z.to_nat l)) /\
    (forall l, i <= l <= ds_maxcol d -> exists L ms, nth_error levels (Z.to_nat l) = Some (Some L) /\ level_is l L ms) /\
    total - count_groups levels = gg_total gs - count_groups (gg_levels gs).
Proof.
  induction n as [|n IH]; intros i gs Hi Hn Hlen Hnone.
  - simpl. exists (gg_levels gs), (gg_total gs). splits; auto; [destruct gs; reflexivity|]. intros l Hl. lia.
  - simpl. destruct (level_ok i ltac:(lia)) as (L & ms & EL & HL). rewrite EL.
    rewrite aset_in by lia.
    destruct (IH (i + 1) (mkGG (gg_name gs) (upd (gg_levels gs) (Z.to_nat i) (Some L)) (gg_pw gs) (gg_warp gs) (gg_threshold gs)
                      (gg_total gs + Z.of_nat (length (ll_groups L))) (gg_whole gs)))
      as (levels & total & E & H1 & H2 & H3 & H4); simpl; try lia.
    + rewrite upd_length. exact Hlen.
    + intros l Hl. rewrite nth_error_upd_eq. destruct (Nat.eqb_spec (Z.to_nat l) (Z.to_nat i)); [lia|].
      apply Hnone. lia.
    + exists levels, total. rewrite E. simpl in *. splits; auto.
      * intros l Hl. rewrite H2 by lia. rewrite nth_error_upd_eq.
        destruct (Nat.eqb_spec (Z.to_nat l) (Z.to_nat i)); [lia|reflexivity].
      * intros l Hl. destruct (Z.eq_dec l i) as [->|Hne]; [|apply H3; lia].
        exists L, ms. split; auto. rewrite H2 by lia. rewrite nth_error_upd_eq, Nat.eqb_refl.
        destruct (Nat.ltb_spec (Z.to_nat i) (length (gg_levels gs))); [reflexivity|lia].
      * rewrite H4. rewrite count_upd by (apply Hnone; lia). lia.
Qed.

(** the lengths that are grouped *)
Definition min_length (whole : bool) : Z := if whole then ds_maxcol d else 2.

Theorem gg_group_ok gs0 name w whole : getDistanceFromName name = Ret pw -> warpedFor name = Ret w -> 1 <= ds_maxcol d ->
  exists levels total,
    gg_group clock d ratio gs0 name thr whole
      = (mkGG name levels (Some pw) (Some w) (Some thr) total whole, Ret total) /\
    Z.of_nat (length levels) = ds_maxcol d + 1 /\ total = count_groups levels /\
    (forall l, 0 <= l < min_length whole -> l <= ds_maxcol d -> nth_error levels (Z.to_nat l) = Some None) /\
    (forall l, min_length whole <= l <= ds_maxcol d ->
       exists L ms, nth_error levels (Z.to_nat l) = Some (Some L) /\ level_is l L ms).
Proof.
  intros Epw Ew Hm. unfold gg_group, gg_loadDistance. rewrite Epw, Ew.
  destruct (Z.ltb_spec (ds_maxcol d + 1) 0); [lia|].
  cbn [gg_name gg_pw gg_warp gg_levels gg_whole with_levels].
  set (levels0 := repeat None (Z.to_nat (ds_maxcol d + 1))).
  assert (Hl0 : length levels0 = Z.to_nat (ds_maxcol d + 1)) by apply repeat_length.
  assert (Hmin : Z.max 0 (gg_minLength (mkGG name levels0 (Some pw) (Some w) (Some thr) 0 whole)) = min_length whole).
  { unfold gg_minLength, min_length. cbn [gg_whole gg_levels]. rewrite Hl0. destruct whole; lia. }
  rewrite Hmin. assert (Hml : 1 <= min_length whole) by (unfold min_length; destruct whole; lia).
  assert (Hn0 : forall l, 0 <= l <= ds_maxcol d -> nth_error levels0 (Z.to_nat l) = Some None).
  { intros l Hl. unfold levels0. apply nth_error_repeat. lia. }
  destruct (Z_le_gt_dec (min_length whole) (ds_maxcol d)) as [Hle|Hgt].
  - destruct (group_loop_ok (Z.to_nat (ds_maxcol d + 1 - min_length whole)) (min_length whole)
      (mkGG name levels0 (Some pw) (Some w) (Some thr) 0 whole)) as (levels & total & E & H1 & H2 & H3 & H4);
      cbn [gg_levels gg_total gg_name gg_pw gg_warp gg_threshold gg_whole] in *; try lia.
    + intros l Hl. apply Hn0. lia.
    + exists levels, total. rewrite E. splits; auto.
      * unfold levels0 in H4. rewrite count_none in H4. lia.
      * intros l Hl Hl'. rewrite H2 by lia. apply Hn0. lia.
  - replace (Z.to_nat (ds_maxcol d + 1 - min_length whole)) with O by lia. simpl.
    exists levels0, 0. splits; auto; try lia.
    + unfold levels0. rewrite count_none. reflexivity.
    + intros l Hl Hl2. apply Hn0. lia.
Qed.
End All.
