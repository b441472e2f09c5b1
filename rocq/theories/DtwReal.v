(** Exact arithmetic: warpedDistance computes the textbook banded DTW distance.
    The specification here is in plain real arithmetic. *)
From Coq Require Import Reals Lra.
From Flocq Require Import Core.Raux.
From Verif Require Import Base Num NumLaws NumFacts NumXR NumXRLaws TimeSeries Distance DtwSpec DtwPaths
  LoopFacts DtwProofs Metrics DtwMain DtwResults.
Local Open Scope R_scope.

(** the i-th point *)
Definition Rpt (xs : list R) (i : Z) : R := nth (Z.to_nat i) xs 0.

(** sum and maximum of a pointwise cost along a path *)
Definition path_sum (f : R -> R -> R) (xs ys : list R) (p : list (Z * Z)) : R :=
  fold_right (fun c s => f (Rpt xs (fst c)) (Rpt ys (snd c)) + s) 0 p.
Definition path_max (f : R -> R -> R) (xs ys : list R) (p : list (Z * Z)) : R :=
  fold_right (fun c s => Rmax (f (Rpt xs (fst c)) (Rpt ys (snd c))) s) 0 p.

Definition Rlen (xs : list R) : Z := Z.of_nat (length xs).
Definition maxlen (xs ys : list R) : R := IZR (Z.max (Rlen xs) (Rlen ys)).

(** normalised cost of a warping path for the three metrics *)
Definition euclidean_cost (xs ys : list R) (p : list (Z * Z)) : R :=
  sqrt (path_sum (fun x y => (x - y) * (x - y)) xs ys p) / (2 * maxlen xs ys).
Definition manhattan_cost (xs ys : list R) (p : list (Z * Z)) : R :=
  path_sum (fun x y => Rabs (x - y)) xs ys p / (2 * maxlen xs ys).
Definition chebyshev_cost (xs ys : list R) (p : list (Z * Z)) : R :=
  path_max (fun x y => Rabs (x - y)) xs ys p.

(** [a] is a series with the points [xs] *)
Definition is_series (a : TS XR) (xs : list R) : Prop := ts_ok a /\ ts_points a = map Fin xs.

(** Half-width of the warping band for series whose longer length is [len] *)
Definition band_width (ratio : R) (len : Z) : Z := Z.min (Zfloor (IZR len * ratio)) (len - 1).

Lemma is_series_len a xs : is_series a xs -> ts_length a = Rlen xs.
Proof. intros [H1 H2]. rewrite <- ts_points_length, H2, map_length by auto. reflexivity. Qed.

Lemma is_series_pt a xs i : is_series a xs -> pt a i = Fin (Rpt xs i).
Proof.
  intros [_ H]. unfold pt, Rpt. rewrite H. change (@n0 XR) with (Fin (IZR 0)). apply (map_nth Fin).
Qed.

Lemma is_series_fin a xs : is_series a xs -> Forall nfin (ts_points a).
Proof.
  intros [_ H]. rewrite H. apply Forall_forall. intros x Hx. apply in_map_iff in Hx as (y & <- & _).
  apply XR_fin. exists y; auto.
Qed.

Lemma series_of_list (xs : list R) : is_series (ts_of_list (map Fin xs : list (D XR))) xs.
Proof. split; [apply ts_of_list_ok|apply ts_of_list_points]. Qed.

Lemma band_XR ratio len : (0 <= len)%Z -> 0 <= ratio -> IZR len * ratio <= IZR int_max ->
  band (N := XR) (Fin ratio) len = Ret (band_width ratio len).
Proof.
  intros Hl Hq Hle. unfold band, band_width. simpl.
  assert (0 <= IZR len) by (apply (IZR_le 0); auto).
  assert (H1 : (0 <= Zfloor (IZR len * ratio))%Z) by (apply Zfloor_lub; simpl; nra).
  assert (H2 : (Zfloor (IZR len * ratio) <= int_max)%Z).
  { rewrite <- (Zfloor_IZR int_max). apply Zfloor_le. auto. }
  destruct (Z.leb_spec int_min (Zfloor (IZR len * ratio))); [|unfold int_min in *; lia].
  destruct (Z.leb_spec (Zfloor (IZR len * ratio)) int_max); [|lia]. reflexivity.
Qed.

Lemma band_width_nonneg ratio len : (1 <= len)%Z -> 0 <= ratio -> (0 <= band_width ratio len)%Z.
Proof.
  intros Hl Hq. unfold band_width. assert (0 <= IZR len) by (apply (IZR_le 0); lia).
  assert (H1 : (0 <= Zfloor (IZR len * ratio))%Z) by (apply Zfloor_lub; simpl; nra). lia.
Qed.

(** ** costs agree *)
Lemma XR_nrm_div (s : R) k : (1 <= k)%Z -> @ndiv XR (Fin s) (nofZ k) = Fin (s / IZR k).
Proof.
  intros Hk. simpl. rewrite Req_bool_false; auto. apply not_0_IZR. lia.
Qed.

Lemma euc_sum a b xs ys p : is_series a xs -> is_series b ys -> forall s,
  fold_left (fun s c => m_reduce (@Euclidean XR) s (pt a (fst c)) (pt b (snd c))) p (Fin s)
  = Fin (s + path_sum (fun x y => (x - y) * (x - y)) xs ys p).
Proof.
  intros Ha Hb. induction p as [|c p IH]; intros s.
  - simpl. f_equal. lra.
  - cbn [fold_left]. rewrite (is_series_pt a xs), (is_series_pt b ys) by auto.
    change (m_reduce (@Euclidean XR) (Fin s) (Fin (Rpt xs (fst c))) (Fin (Rpt ys (snd c))))
      with (Fin (s + (Rpt xs (fst c) - Rpt ys (snd c)) * (Rpt xs (fst c) - Rpt ys (snd c)))).
    rewrite IH. f_equal. simpl. lra.
Qed.

Lemma man_sum a b xs ys p : is_series a xs -> is_series b ys -> forall s,
  fold_left (fun s c => m_reduce (@Manhattan XR) s (pt a (fst c)) (pt b (snd c))) p (Fin s)
  = Fin (s + path_sum (fun x y => Rabs (x - y)) xs ys p).
Proof.
  intros Ha Hb. induction p as [|c p IH]; intros s.
  - simpl. f_equal. lra.
  - cbn [fold_left]. rewrite (is_series_pt a xs), (is_series_pt b ys) by auto.
    change (m_reduce (@Manhattan XR) (Fin s) (Fin (Rpt xs (fst c))) (Fin (Rpt ys (snd c))))
      with (Fin (s + Rabs (Rpt xs (fst c) - Rpt ys (snd c)))).
    rewrite IH. f_equal. simpl. lra.
Qed.

Lemma XR_nmax (x y : R) : @nmax XR (Fin x) (Fin y) = Fin (Rmax x y).
Proof.
  unfold nmax. simpl. destruct (Rlt_bool_spec x y).
  - rewrite Rmax_right; auto. lra.
  - rewrite Rmax_left; auto.
Qed.

Lemma path_max_pos xs ys p : 0 <= path_max (fun x y => Rabs (x - y)) xs ys p.
Proof. induction p; simpl; [lra|]. eapply Rle_trans; [exact IHp|apply Rmax_r]. Qed.

Lemma che_max a b xs ys p : is_series a xs -> is_series b ys -> forall s, 0 <= s ->
  fold_left (fun s c => m_reduce (@Chebyshev XR) s (pt a (fst c)) (pt b (snd c))) p (Fin s)
  = Fin (Rmax s (path_max (fun x y => Rabs (x - y)) xs ys p)).
Proof.
  intros Ha Hb. induction p as [|c p IH]; intros s Hs.
  - simpl. rewrite Rmax_left; auto.
  - cbn [fold_left]. rewrite (is_series_pt a xs), (is_series_pt b ys) by auto.
    change (m_reduce (@Chebyshev XR) (Fin s) (Fin (Rpt xs (fst c))) (Fin (Rpt ys (snd c))))
      with (@nmax XR (Fin s) (Fin (Rabs (Rpt xs (fst c) - Rpt ys (snd c))))).
    rewrite XR_nmax, IH.
    + f_equal. simpl. rewrite Rmax_assoc. reflexivity.
    + eapply Rle_trans; [exact Hs|apply Rmax_l].
Qed.

(** [cost] is the real-number reading of the cost of metric [M] *)
Definition cost_is (M : Metric XR) (cost : list R -> list R -> list (Z * Z) -> R) : Prop :=
  forall a b xs ys p, is_series a xs -> is_series b ys -> p <> [] ->
    (1 <= Z.max (Rlen xs) (Rlen ys))%Z ->
    path_cost M a b p = Fin (cost xs ys p).

Lemma path_sum_pos f xs ys p : (forall x y, 0 <= f x y) -> 0 <= path_sum f xs ys p.
Proof. intros Hf. induction p as [|c p IH]; simpl; [lra|]. specialize (Hf (Rpt xs (fst c)) (Rpt ys (snd c))). lra. Qed.

Lemma maxlen_eq xs ys : IZR (2 * Z.max (Rlen xs) (Rlen ys)) = 2 * maxlen xs ys.
Proof. unfold maxlen. rewrite mult_IZR. reflexivity. Qed.

Lemma euclidean_cost_is : cost_is Euclidean euclidean_cost.
Proof.
  intros a b xs ys p Ha Hb _ Hl. unfold path_cost, path_acc.
  change (m_init (@Euclidean XR)) with (Fin (IZR 0)). rewrite (euc_sum a b xs ys) by auto.
  rewrite (is_series_len a xs), (is_series_len b ys) by auto.
  unfold m_normDTW, Euclidean. set (s := path_sum _ _ _ _).
  assert (Hs : 0 <= s) by (apply path_sum_pos; intros x y; apply (Rle_0_sqr (x - y))).
  replace (@nsqrt XR (Fin (0 + s))) with (Fin (sqrt s)).
  - rewrite XR_nrm_div by (unfold Rlen in *; lia). rewrite maxlen_eq. reflexivity.
  - simpl. rewrite Rlt_bool_false by lra. rewrite Rplus_0_l. reflexivity.
Qed.

Lemma manhattan_cost_is : cost_is Manhattan manhattan_cost.
Proof.
  intros a b xs ys p Ha Hb _ Hl. unfold path_cost, path_acc.
  change (m_init (@Manhattan XR)) with (Fin (IZR 0)). rewrite (man_sum a b xs ys) by auto.
  rewrite (is_series_len a xs), (is_series_len b ys) by auto.
  unfold m_normDTW, Manhattan. rewrite XR_nrm_div by lia. rewrite maxlen_eq, Rplus_0_l. reflexivity.
Qed.

Lemma chebyshev_cost_is : cost_is Chebyshev chebyshev_cost.
Proof.
  intros a b xs ys p Ha Hb Hp Hl. unfold path_cost, path_acc.
  destruct p as [|c p]; [contradiction|]. cbn [fold_left].
  rewrite (is_series_pt a xs), (is_series_pt b ys) by auto.
  change (m_reduce (@Chebyshev XR) (m_init Chebyshev) (Fin (Rpt xs (fst c))) (Fin (Rpt ys (snd c))))
    with (Fin (Rabs (Rpt xs (fst c) - Rpt ys (snd c)))).
  pose proof (che_max a b xs ys p Ha Hb (Rabs (Rpt xs (fst c) - Rpt ys (snd c))) (Rabs_pos _)) as E.
  rewrite E. reflexivity.
Qed.

(** ** normalisation reflects the order in exact arithmetic *)
Lemma XR_pos x : @nle XR n0 x -> x = PInf \/ exists r, x = Fin r /\ 0 <= r.
Proof.
  intros H. apply XR_nle in H. destruct x; simpl in H; try tauto; eauto.
Qed.

Lemma XR_div_inf k : (1 <= k)%Z -> @ndiv XR PInf (nofZ k) = PInf.
Proof. intros Hk. simpl. rewrite Rlt_bool_false; auto. apply (IZR_le 0). lia. Qed.

Lemma XR_div_reflects u v k : (1 <= k)%Z -> @nle XR n0 u -> @nle XR n0 v ->
  @nle XR (ndiv u (nofZ k)) (ndiv v (nofZ k)) -> @nle XR u v.
Proof.
  intros Hk Hu Hv H. apply XR_pos in Hu, Hv. apply XR_nle. apply XR_nle in H.
  assert (Hk' : 0 < IZR k) by (apply (IZR_lt 0); lia).
  destruct Hu as [->|(ru & -> & Hu)], Hv as [->|(rv & -> & Hv)];
    rewrite ?XR_div_inf, ?XR_nrm_div in H by auto; simpl in *; auto.
  apply Rmult_le_reg_r with (/ IZR k); [apply Rinv_0_lt_compat; auto|]. exact H.
Qed.

Lemma XR_sqrt_reflects u v : @nle XR n0 u -> @nle XR n0 v ->
  @nle XR (nsqrt u) (nsqrt v) -> @nle XR u v.
Proof.
  intros Hu Hv H. apply XR_pos in Hu, Hv. apply XR_nle. apply XR_nle in H.
  destruct Hu as [->|(ru & -> & Hu)], Hv as [->|(rv & -> & Hv)]; simpl in *; auto.
  - rewrite Rlt_bool_false in H by lra. exact H.
  - rewrite !Rlt_bool_false in H by lra. apply sqrt_le_0; auto.
Qed.

Lemma Euclidean_reflects_XR l1 l2 : (1 <= Z.max l1 l2)%Z -> reflects (Euclidean_nice (N := XR)) l1 l2.
Proof.
  intros Hl u v Hu Hv H. cbn [ng_ok ng_le Euclidean_nice m_normDTW Euclidean] in *.
  apply XR_sqrt_reflects; auto. apply XR_div_reflects in H; auto; [lia|apply sqrt_pos; auto|apply sqrt_pos; auto].
Qed.

Lemma Manhattan_reflects_XR l1 l2 : (1 <= Z.max l1 l2)%Z -> reflects (Manhattan_nice (N := XR)) l1 l2.
Proof.
  intros Hl u v Hu Hv H. cbn [ng_ok ng_le Manhattan_nice m_normDTW Manhattan] in *.
  apply XR_div_reflects in H; auto. lia.
Qed.

(** ** the theorem for any metric with a real cost *)
Record real_metric (M : Metric XR) := {
  rm_nice : Nice M;
  rm_cost : list R -> list R -> list (Z * Z) -> R;
  rm_is : cost_is M rm_cost;
  rm_reflects : forall l1 l2, (1 <= Z.max l1 l2)%Z -> reflects rm_nice l1 l2
}.

Definition euclidean_rm : real_metric Euclidean :=
  {| rm_nice := Euclidean_nice; rm_is := euclidean_cost_is; rm_reflects := Euclidean_reflects_XR |}.
Definition manhattan_rm : real_metric Manhattan :=
  {| rm_nice := Manhattan_nice; rm_is := manhattan_cost_is; rm_reflects := Manhattan_reflects_XR |}.
Definition chebyshev_rm : real_metric Chebyshev :=
  {| rm_nice := Chebyshev_nice; rm_is := chebyshev_cost_is;
     rm_reflects := fun l1 l2 _ => Chebyshev_reflects l1 l2 |}.

Section Real.
Variable M : Metric XR.
Variable rm : real_metric M.
Notation cost := (rm_cost M rm).

Section One.
Variables (a b : TS XR) (xs ys : list R) (ratio : R).
Hypothesis Ha : is_series a xs.
Hypothesis Hb : is_series b ys.
Hypothesis Hm : (2 <= Rlen xs <= 2 ^ 30)%Z.
Hypothesis Hn : (2 <= Rlen ys <= 2 ^ 30)%Z.
Hypothesis Hq : 0 <= ratio.
Hypothesis Hq2 : IZR (Z.max (Rlen xs) (Rlen ys)) * ratio <= IZR int_max.
Notation r := (band_width ratio (Z.max (Rlen xs) (Rlen ys))).

Lemma path_ne m n p : warping_path m n p -> p <> [].
Proof. destruct p; simpl; auto. congruence. Qed.

Lemma real_cost m n p : warping_path m n p -> path_cost M a b p = Fin (cost xs ys p).
Proof. intros Hp. apply (rm_is M rm); auto; [apply (path_ne m n); auto|lia]. Qed.

Lemma real_pre : dtw_pre M a b (Fin ratio : D XR) r.
Proof.
  pose proof (is_series_len a xs Ha) as La. pose proof (is_series_len b ys Hb) as Lb.
  constructor; rewrite ?La, ?Lb; auto.
  - apply Ha.
  - apply Hb.
  - apply (is_series_fin a xs Ha).
  - apply (is_series_fin b ys Hb).
  - apply band_XR; auto; lia.
  - apply band_width_nonneg; auto. lia.
  - intros i j p _ _ Hp _. rewrite (real_cost i j p Hp). reflexivity.
Qed.

Lemma real_dtw_min mt : (Z.abs (Rlen xs - Rlen ys) <= r)%Z ->
  exists p mt',
    warping_path (Rlen xs) (Rlen ys) p /\ in_band r p /\
    (forall q, warping_path (Rlen xs) (Rlen ys) q -> in_band r q -> cost xs ys p <= cost xs ys q) /\
    warpedDistance M a b (Fin ratio : D XR) PInf mt = Ret (Fin (cost xs ys p), mt').
Proof.
  intros Hab. pose proof (is_series_len a xs Ha) as La. pose proof (is_series_len b ys Hb) as Lb.
  destruct (dtw_optimal M (rm_nice M rm) a b _ r real_pre) with (mt := mt) as (p & mt' & (H1 & H2 & H3) & E).
  { apply (rm_reflects M rm). lia. }
  { lia. }
  rewrite La, Lb in *. exists p, mt'. splits; auto.
  - intros q Hq1 Hq2'. specialize (H3 q Hq1 Hq2'). rewrite (real_cost _ _ p H1), (real_cost _ _ q Hq1) in H3.
    apply XR_nle in H3. exact H3.
  - rewrite <- (real_cost _ _ p H1). exact E.
Qed.

Lemma real_dtw_inf mt : (r < Z.abs (Rlen xs - Rlen ys))%Z ->
  (forall p, warping_path (Rlen xs) (Rlen ys) p -> ~ in_band r p) /\
  exists mt', warpedDistance M a b (Fin ratio : D XR) PInf mt = Ret (PInf, mt').
Proof.
  intros Hab. pose proof (is_series_len a xs Ha) as La. pose proof (is_series_len b ys Hb) as Lb.
  destruct (dtw_no_path M (rm_nice M rm) a b _ r real_pre mt) as (H1 & H2); [lia|].
  rewrite La, Lb in *. split; auto.
Qed.

(** the matching for a full band *)
Lemma real_matching mt : (Z.max (Rlen xs) (Rlen ys) - 1 <= r)%Z -> exists p,
  warping_path (Rlen xs) (Rlen ys) p /\
  (forall q, warping_path (Rlen xs) (Rlen ys) q -> cost xs ys p <= cost xs ys q) /\
  warpedDistance M a b (Fin ratio : D XR) PInf mt = Ret (Fin (cost xs ys p), (p ++ rev mt)%list).
Proof.
  intros Hfull. pose proof (is_series_len a xs Ha) as La. pose proof (is_series_len b ys Hb) as Lb.
  destruct (dtw_matching_optimal M (rm_nice M rm) a b _ r real_pre) with (mt := mt)
    as (d & p & E & (H1 & H2 & H3) & Heq).
  { apply (rm_reflects M rm). lia. }
  { lia. }
  rewrite La, Lb in *. exists p. split; auto. split.
  - intros q Hq1. assert (Hq2' : in_band r q) by (apply (full_band _ _ _ _ Hq1); lia).
    specialize (H3 q Hq1 Hq2'). rewrite (real_cost _ _ p H1), (real_cost _ _ q Hq1) in H3.
    apply XR_nle in H3. exact H3.
  - rewrite (real_cost _ _ p H1) in Heq. destruct Heq as [He1 He2]. apply XR_nle in He1, He2.
    etransitivity; [exact E|]. f_equal. f_equal. destruct d as [d| | |]; simpl in He1, He2; try tauto. f_equal. lra.
Qed.
End One.
End Real.
