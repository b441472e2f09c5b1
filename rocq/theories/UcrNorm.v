(** Facts about mean, standard deviation and z-normal forms. *)
From Coq Require Import Reals Lra.
From Verif Require Import Base DtwSpec DtwPaths LoopFacts DtwReal UcrReal UcrDtw UcrSpec.
Local Open Scope R_scope.

Lemma Rsum_app xs ys : Rsum (xs ++ ys) = Rsum xs + Rsum ys.
Proof. unfold Rsum. induction xs as [|x xs IH]; simpl; [lra|]. rewrite IH. lra. Qed.

Definition squares (xs : list R) : list R := map (fun x => x * x) xs.

Lemma Rsum_pos xs : (forall x, In x xs -> 0 <= x) -> 0 <= Rsum xs.
Proof.
  unfold Rsum. induction xs as [|x xs IH]; simpl; intros H; [lra|].
  pose proof (H x (or_introl eq_refl)). assert (0 <= fold_right Rplus 0 xs) by (apply IH; auto). lra.
Qed.

Lemma Rsum_ge xs x : (forall y, In y xs -> 0 <= y) -> In x xs -> x <= Rsum xs.
Proof.
  unfold Rsum. induction xs as [|y xs IH]; [simpl; tauto|]. simpl; intros H [E|Hx].
  - subst y. assert (0 <= Rsum xs) by (apply Rsum_pos; auto). unfold Rsum in *. lra.
  - pose proof (H y (or_introl eq_refl)). assert (x <= fold_right Rplus 0 xs) by (apply IH; auto). lra.
Qed.

Lemma Rsum_var mu xs :
  Rsum (map (fun x => (x - mu) * (x - mu)) xs) = Rsum (squares xs) - 2 * mu * Rsum xs + IZR (Rlen xs) * (mu * mu).
Proof.
  unfold Rsum, squares, Rlen. induction xs as [|x xs IH]; [simpl; lra|].
  cbn [map fold_right length]. rewrite IH.
  replace (Z.of_nat (S (length xs))) with (Z.of_nat (length xs) + 1)%Z by lia. rewrite plus_IZR. lra.
Qed.

Section Norm.
Variable xs : list R.
Hypothesis Hn : (1 <= Rlen xs)%Z.

Lemma len_pos : 0 < IZR (Rlen xs).
Proof. apply (IZR_lt 0). lia. Qed.

Lemma deviation_sums :
  deviation xs = sqrt (Rsum (squares xs) / IZR (Rlen xs) - Rsum xs / IZR (Rlen xs) * (Rsum xs / IZR (Rlen xs))).
Proof.
  unfold deviation. f_equal. rewrite Rsum_var. unfold average. pose proof len_pos. field. lra.
Qed.

Lemma variance_pos :
  0 <= Rsum (squares xs) / IZR (Rlen xs) - Rsum xs / IZR (Rlen xs) * (Rsum xs / IZR (Rlen xs)).
Proof.
  replace (Rsum (squares xs) / IZR (Rlen xs) - Rsum xs / IZR (Rlen xs) * (Rsum xs / IZR (Rlen xs)))
    with (Rsum (map (fun x => (x - average xs) * (x - average xs)) xs) / IZR (Rlen xs)).
  - apply Rmult_le_pos; [|left; apply Rinv_0_lt_compat, len_pos].
    apply Rsum_pos. intros y Hy. apply in_map_iff in Hy as (x & <- & _). apply Rle_0_sqr.
  - rewrite Rsum_var. unfold average. pose proof len_pos. field. lra.
Qed.

Lemma deviation_zero : deviation xs = 0 -> forall x, In x xs -> x = average xs.
Proof.
  intros H x Hx. unfold deviation in H. apply sqrt_eq_0 in H.
  2:{ apply Rmult_le_pos; [|left; apply Rinv_0_lt_compat, len_pos].
      apply Rsum_pos. intros y Hy. apply in_map_iff in Hy as (z & <- & _). apply Rle_0_sqr. }
  assert (H0 : Rsum (map (fun x => (x - average xs) * (x - average xs)) xs) = 0).
  { pose proof len_pos. apply (Rmult_eq_compat_r (IZR (Rlen xs))) in H. field_simplify in H; lra. }
  assert (H1 : (x - average xs) * (x - average xs) <= 0).
  { rewrite <- H0. apply Rsum_ge.
    - intros y Hy. apply in_map_iff in Hy as (z & <- & _). apply Rle_0_sqr.
    - apply in_map_iff. eauto. }
  assert (x - average xs = 0) by nra. lra.
Qed.

Lemma average_same c : (forall x, In x xs -> x = c) -> average xs = c.
Proof.
  intros H. unfold average. assert (E : Rsum xs = IZR (Rlen xs) * c).
  { unfold Rsum, Rlen. clear Hn. induction xs as [|x l IH]; [simpl; lra|].
    cbn [fold_right length]. rewrite IH by (intros; apply H; simpl; auto). rewrite (H x) by (simpl; auto).
    replace (Z.of_nat (S (length l))) with (Z.of_nat (length l) + 1)%Z by lia. rewrite plus_IZR. lra. }
  rewrite E. pose proof len_pos. field. lra.
Qed.

Lemma flat_deviation : flat xs <-> deviation xs = 0.
Proof.
  split.
  - intros H. destruct xs as [|x0 l] eqn:E; [cbn in Hn; lia|]. rewrite <- E in *.
    assert (Ha : average xs = x0).
    { apply average_same. intros x Hx. apply H; auto. rewrite E. simpl. auto. }
    unfold deviation. rewrite Ha.
    assert (H0 : Rsum (map (fun x => (x - x0) * (x - x0)) xs) = 0).
    { assert (Hall : forall x, In x xs -> x = x0) by (intros x Hx; apply H; auto; rewrite E; simpl; auto).
      clear - Hall. unfold Rsum. induction xs as [|x l IH]; [reflexivity|]. cbn [map fold_right].
      rewrite IH by (intros; apply Hall; simpl; auto). rewrite (Hall x) by (simpl; auto). lra. }
    rewrite H0. unfold Rdiv. rewrite Rmult_0_l. apply sqrt_0.
  - intros H x y Hx Hy. rewrite (deviation_zero H x Hx), (deviation_zero H y Hy). reflexivity.
Qed.

Lemma deviation_pos : ~ flat xs -> 0 < deviation xs.
Proof.
  intros H. assert (0 <= deviation xs) by apply sqrt_pos.
  destruct (Req_dec (deviation xs) 0) as [E|E]; [exfalso; apply H, flat_deviation, E|lra].
Qed.

Lemma znorm_length : Rlen (znorm xs) = Rlen xs.
Proof. unfold Rlen, znorm. rewrite map_length. reflexivity. Qed.

Lemma znorm_pt k : (0 <= k < Rlen xs)%Z -> Rpt (znorm xs) k = (Rpt xs k - average xs) / deviation xs.
Proof.
  intros Hk. unfold Rpt, znorm, Rlen in *.
  rewrite (nth_indep _ 0 ((0 - average xs) / deviation xs)) by (rewrite map_length; lia).
  apply (map_nth (fun x => (x - average xs) / deviation xs)).
Qed.

Lemma znorm_squares : ~ flat xs -> Rsum (squares (znorm xs)) = IZR (Rlen xs).
Proof.
  intros H. pose proof (deviation_pos H) as Hd. pose proof len_pos.
  assert (E : Rsum (squares (znorm xs)) = Rsum (map (fun x => (x - average xs) * (x - average xs)) xs) / (deviation xs * deviation xs)).
  { unfold squares, znorm. rewrite map_map. generalize (average xs) as mu. generalize (deviation xs) Hd. intros sg Hsg mu. unfold Rsum.
    clear - Hsg. induction xs as [|x l IH]; cbn [map fold_right]; [unfold Rdiv; lra|]. rewrite IH. field. lra. }
  rewrite E.
  assert (Es : deviation xs * deviation xs = Rsum (map (fun x => (x - average xs) * (x - average xs)) xs) / IZR (Rlen xs)).
  { unfold deviation at 1 2. apply sqrt_sqrt.
    apply Rmult_le_pos; [|left; apply Rinv_0_lt_compat, len_pos].
    apply Rsum_pos. intros y Hy. apply in_map_iff in Hy as (z & <- & _). apply Rle_0_sqr. }
  assert (Hs : Rsum (map (fun x => (x - average xs) * (x - average xs)) xs) = IZR (Rlen xs) * (deviation xs * deviation xs)).
  { rewrite Es. field. lra. }
  rewrite Hs. field. lra.
Qed.

Lemma znorm_bound k : ~ flat xs -> (0 <= k < Rlen xs)%Z -> Rpt (znorm xs) k * Rpt (znorm xs) k <= IZR (Rlen xs).
Proof.
  intros H Hk. rewrite <- (znorm_squares H). apply Rsum_ge.
  - intros y Hy. unfold squares in Hy. apply in_map_iff in Hy as (z & <- & _). apply Rle_0_sqr.
  - unfold squares. apply in_map_iff. exists (Rpt (znorm xs) k). split; auto. apply nth_In.
    pose proof znorm_length. unfold Rlen in *. lia.
Qed.
End Norm.

(** the model's optimal cost is the specification's *)
Lemma psum_path xs ys p : psum (cst xs ys) p = path_sum (fun x y => (x - y) * (x - y)) xs ys p.
Proof. reflexivity. Qed.

Lemma opt_warped r xs ys m v : (0 <= r)%Z -> Rlen xs = m -> Rlen ys = m ->
  opt r (cst xs ys) (m - 1) (m - 1) v <-> warped_squares r xs ys v.
Proof.
  intros Hr Lx Ly. unfold opt, warped_squares. rewrite Lx, Ly.
  assert (Hb : forall p, bpath r (m - 1) (m - 1) p <-> warping_path m m p /\ in_band r p).
  { intros p. rewrite (bpath_iff r) by auto. replace (m - 1 + 1)%Z with m by lia. tauto. }
  split; intros ((p & H1 & H2) & H3); split.
  - exists p. apply Hb in H1. splits; tauto.
  - intros q Q1 Q2. apply H3, Hb. auto.
  - exists p. destruct H2 as (H2 & H4). split; auto. apply Hb. auto.
  - intros q Q. apply Hb in Q. apply H3; tauto.
Qed.

Lemma znorm_cost xs ys m i j : (1 <= m)%Z -> Rlen xs = m -> Rlen ys = m -> ~ flat xs -> ~ flat ys ->
  (0 <= i < m)%Z -> (0 <= j < m)%Z -> cst (znorm xs) (znorm ys) i j <= 4 * IZR m.
Proof.
  intros Hm Lx Ly Fx Fy Hi Hj. unfold cst.
  pose proof (znorm_bound xs ltac:(lia) i Fx ltac:(lia)) as H1. pose proof (znorm_bound ys ltac:(lia) j Fy ltac:(lia)) as H2.
  rewrite Lx in H1. rewrite Ly in H2.
  set (x := Rpt (znorm xs) i) in *. set (y := Rpt (znorm ys) j) in *.
  pose proof (Rle_0_sqr (x + y)) as H3. unfold Rsqr in H3. lra.
Qed.
