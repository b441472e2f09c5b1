(** Property C51: how far the computed (double) distances can be from the
    exact ones.  Specifications: DtwSpec.v (warping paths), DtwReal.v and
    Pairwise.v (textbook costs over the reals, [real_cost], [real_pair]). *)
From Coq Require Import String Reals Lra Psatz Lia ZArith.
From Flocq Require Import Core BinarySingleNaN.
From Verif Require Import Base Num NumB64 NumLaws NumFacts NumXR NumXRLaws NumB64Laws LoopFacts TimeSeries Distance
  DtwSpec DtwPaths DtwProofs Metrics DtwMain DtwResults DtwBounds DtwReal Pairwise DistSpec DistFacts DistLink
  AccReal AccDtw AccEnd AccKinds AccLink AccPair AccCut PropsDistance.
Local Open Scope R_scope.
Local Open Scope list_scope.

(** the points of a series as real numbers *)
Definition exact_points (t : TS B64) : list R := map (fun x : b64 => B2R x) (ts_points t).

(** [d] is a number and differs from [exact] by at most [exact] * [len] * 2^-45,
    plus 2^-400 for what is lost to underflow *)
Definition agrees (len : Z) (d : b64) (exact : R) : Prop :=
  is_finite d = true /\ Rabs (B2R d - exact) <= exact * (IZR len / IZR (2 ^ 45)) + 1 / IZR (2 ^ 400).

Lemma XX_is : XX = 1 / IZR (2 ^ 400).
Proof. unfold XX, Rdiv. rewrite Rmult_1_l. reflexivity. Qed.
Lemma rho_is (k : nat) len : (Z.of_nat k <= len)%Z -> rho k <= IZR len / IZR (2 ^ 45).
Proof.
  intros H. unfold rho. replace (256 * uu) with (/ IZR (2 ^ 45)).
  - unfold Rdiv. apply Rmult_le_compat_r; [apply Rlt_le, Rinv_0_lt_compat, (IZR_lt 0); reflexivity|].
    rewrite INR_IZR_INZ. apply IZR_le, H.
  - unfold uu. change 256 with (bpow radix2 8). rewrite <- bpow_plus. reflexivity.
Qed.

Lemma agrees_intro (k : nat) len (d : b64) exact : (Z.of_nat k <= len)%Z -> 0 <= exact -> is_finite d = true ->
  B2R d <= exact * (1 + rho k) + XX -> exact * (1 - rho k) - XX <= B2R d -> agrees len d exact.
Proof.
  intros Hk He F H1 H2. split; auto. rewrite <- XX_is. pose proof (rho_is k len Hk) as R1.
  assert (exact * rho k <= exact * (IZR len / IZR (2 ^ 45))) by (apply Rmult_le_compat_l; auto).
  apply Rabs_le. lra.
Qed.

Lemma rho_small (k : nat) : INR k <= KK -> 0 <= rho k <= 1.
Proof.
  intros Hk. pose proof (uk_small k Hk). pose proof uu_pos. pose proof (pos_INR k).
  unfold rho. assert (0 <= INR k * uu) by (apply Rmult_le_pos; lra). lra.
Qed.

Lemma cost_pos k xs ys p : 0 <= real_cost k xs ys p.
Proof.
  assert (ML : 0 <= maxlen xs ys) by (apply (IZR_le 0); unfold Rlen; lia).
  assert (DV : forall x y, 0 <= x -> 0 <= y -> 0 <= x / y).
  { intros x y Hx Hy. unfold Rdiv. apply Rmult_le_pos; auto. destruct (Req_dec y 0) as [->|Hn].
    - rewrite Rinv_0. lra.
    - apply Rlt_le, Rinv_0_lt_compat. lra. }
  destruct k; cbn [real_cost].
  - apply DV; [apply R_sqrt.sqrt_pos|lra].
  - apply DV; [|lra]. apply path_sum_pos. intros; apply Rabs_pos.
  - unfold chebyshev_cost, path_max. induction p as [|c p IH]; cbn [fold_right]; [lra|].
    apply Rle_trans with (1 := IH), Rmax_r.
Qed.

Theorem C51_dtw_near_optimum : forall (k : kind) (a b : TS B64) (ratio : b64) r mt,
  ieee_ok k a b ratio r -> (Z.abs (ts_length a - ts_length b) <= r)%Z ->
  let xs := exact_points a in let ys := exact_points b in
  exists p d,
    warping_path (ts_length a) (ts_length b) p /\ in_band r p /\
    (forall q, warping_path (ts_length a) (ts_length b) q -> in_band r q ->
       real_cost k xs ys p <= real_cost k xs ys q) /\
    value (dist_call (N := B64) (dtw_name k) ratio a b pinf mt) = Ret d /\
    agrees (ts_length a + ts_length b) d (real_cost k xs ys p).
Proof.
  intros k a b ratio r mt H Hab xs ys. rewrite call_dtw. pose proof (proj1 (ok_pre _ _ _ _ _) H) as H'.
  pose proof (reals_len a (io_a _ _ _ _ _ H)) as La. pose proof (reals_len b (io_b _ _ _ _ _ H)) as Lb.
  pose proof (io_m _ _ _ _ _ H) as Hm. pose proof (io_n _ _ _ _ _ H) as Hn. pose proof (io_r _ _ _ _ _ H) as Hr.
  pose proof (band_le _ _ _ (io_band _ _ _ _ _ H)) as Hrl.
  destruct (real_best k xs ys r) as (p & P1 & P2 & P3).
  { change xs with (reals a). rewrite La. exact Hm. } { change ys with (reals b). rewrite Lb. exact Hn. }
  { change xs with (reals a). change ys with (reals b). rewrite La, Lb. lia. }
  { change xs with (reals a). change ys with (reals b). rewrite La, Lb. exact Hab. }
  change (Rlen xs) with (Rlen (reals a)) in *. change (Rlen ys) with (Rlen (reals b)) in *. rewrite La, Lb in *.
  assert (Bp : bpath r (ts_length a - 1) (ts_length b - 1) p).
  { apply path_bpath; auto. replace (ts_length a - 1 + 1)%Z with (ts_length a) by lia.
    replace (ts_length b - 1 + 1)%Z with (ts_length b) by lia. exact P1. }
  set (K := Z.to_nat (ts_length a - 1 + (ts_length b - 1) + 1)).
  assert (HK1 : 1 <= INR K) by (apply (le_INR 1); unfold K; lia).
  assert (HK2 : INR K <= KK).
  { rewrite INR_IZR_INZ, KK_val. apply IZR_le. unfold K. lia. }
  assert (HKl : (Z.of_nat K <= ts_length a + ts_length b)%Z) by (unfold K; lia).
  set (T := IZR (2 * Z.max (ts_length a) (ts_length b))).
  assert (HT : 1 <= T) by (apply (IZR_le 1); lia).
  assert (ET : 2 * maxlen xs ys = T).
  { unfold maxlen, T. change (Rlen xs) with (Rlen (reals a)). change (Rlen ys) with (Rlen (reals b)).
    rewrite La, Lb, mult_IZR. reflexivity. }
  pose proof (rho_small K HK2) as [R0 R1].
  assert (Hback : forall q, bpath r (ts_length a - 1) (ts_length b - 1) q ->
            warping_path (ts_length a) (ts_length b) q /\ in_band r q).
  { intros q Hq. apply bpath_path in Hq; auto.
    replace (ts_length a - 1 + 1)%Z with (ts_length a) in Hq by lia.
    replace (ts_length b - 1 + 1)%Z with (ts_length b) in Hq by lia. exact Hq. }
  assert (Hlow : forall q z, bpath r (ts_length a - 1) (ts_length b - 1) q ->
            real_cost k xs ys q * (1 - rho K) - XX <= z -> real_cost k xs ys p * (1 - rho K) - XX <= z).
  { intros q z Hq Hz. apply Rle_trans with (2 := Hz). apply Hback in Hq as [Q1 Q2].
    apply Rplus_le_compat_r, Rmult_le_compat_r; [lra|apply P3; auto]. }
  exists p. destruct k.
  - destruct (euc_close a b ratio r mt H' Hab) as (v & mt' & F & Pv & Fd & Ed & [Hup (q & Bq & Hlo)] & E).
    change (warpedDistance (metric_of KEuclidean) a b ratio pinf mt) with (warpedDistance (@Euclidean B64) a b ratio (@ninf B64) mt).
    rewrite E. exists (nrm (@Euclidean B64) a b v).
    split; [exact P1|]. split; [exact P2|]. split; [exact P3|]. split; [reflexivity|].
    apply (agrees_intro K); auto; [apply (cost_pos KEuclidean)| |]; rewrite Ed; fold T.
    + cbn [real_cost]. unfold euclidean_cost. rewrite ET. apply (sq_up K T); auto.
      apply path_sum_pos. intros; apply Rle_0_sqr.
    + apply (Hlow q); auto. cbn [real_cost]. unfold euclidean_cost. rewrite ET. apply (sq_low K T); auto.
      apply path_sum_pos. intros; apply Rle_0_sqr.
  - destruct (man_close a b ratio r mt H' Hab) as (v & mt' & F & Pv & Fd & Ed & [Hup (q & Bq & Hlo)] & E).
    change (warpedDistance (metric_of KManhattan) a b ratio pinf mt) with (warpedDistance (@Manhattan B64) a b ratio (@ninf B64) mt).
    rewrite E. exists (nrm (@Manhattan B64) a b v).
    split; [exact P1|]. split; [exact P2|]. split; [exact P3|]. split; [reflexivity|].
    apply (agrees_intro K); auto; [apply (cost_pos KManhattan)| |]; rewrite Ed; fold T.
    + cbn [real_cost]. unfold manhattan_cost. rewrite ET. apply (li_up K T); auto.
      apply path_sum_pos. intros; apply Rabs_pos.
    + apply (Hlow q); auto. cbn [real_cost]. unfold manhattan_cost. rewrite ET. apply (li_low K T); auto.
      apply path_sum_pos. intros; apply Rabs_pos.
  - destruct (dtw_optimal (@Chebyshev B64) Chebyshev_nice a b ratio r H') with (mt := mt) as (q & mt' & (Q1 & Q2 & Q3) & E).
    { apply Chebyshev_reflects. } { exact Hab. }
    change (warpedDistance (metric_of KChebyshev) a b ratio pinf mt) with (warpedDistance (@Chebyshev B64) a b ratio (@ninf B64) mt).
    rewrite E. exists (path_cost (@Chebyshev B64) a b q).
    split; [exact P1|]. split; [exact P2|]. split; [exact P3|]. split; [reflexivity|].
    assert (G : forall s, warping_path (ts_length a) (ts_length b) s -> in_band r s ->
       bfinb (path_acc (@Chebyshev B64) a b s) = true /\
       Rabs (bval (path_acc (@Chebyshev B64) a b s) - chebyshev_cost xs ys s) <= uu * chebyshev_cost xs ys s).
    { intros s S1 S2.
      assert (Bs : bpath r (ts_length a - 1) (ts_length b - 1) s).
      { apply path_bpath; auto. replace (ts_length a - 1 + 1)%Z with (ts_length a) by lia.
        replace (ts_length b - 1 + 1)%Z with (ts_length b) by lia. exact S1. }
      assert (Hlt : @nlt B64 (path_cost (@Chebyshev B64) a b s) ninf).
      { apply (dp_fin _ _ _ _ _ H' (ts_length a) (ts_length b)); auto; lia. }
      assert (Hge : @nle B64 n0 (path_cost (@Chebyshev B64) a b s)).
      { apply (path_cost_pos _ Chebyshev_nice a b ratio r H' s S1 S2). }
      assert (Fs : bfinb (path_acc (@Chebyshev B64) a b s) = true).
      { change (path_cost (@Chebyshev B64) a b s) with (path_acc (@Chebyshev B64) a b s : b64) in *.
        apply below_inf in Hlt as [N1 _]. destruct (ok_val _ Hge) as [Ev|(Fv & _)]; [contradiction|auto]. }
      split; auto. apply (cheb_along a b s); auto.
      - intros ->. exact S1.
      - intros i Hi. apply in_map_iff in Hi as (c & <- & Hc). apply (bpath_in _ _ _ _ _ Bs) in Hc.
        apply nfin_b. pose proof (io_fa _ _ _ _ _ H) as Fa. rewrite Forall_forall in Fa. apply Fa, pt_in; [apply H|lia].
      - intros i Hi. apply in_map_iff in Hi as (c & <- & Hc). apply (bpath_in _ _ _ _ _ Bs) in Hc.
        apply nfin_b. pose proof (io_fb _ _ _ _ _ H) as Fb. rewrite Forall_forall in Fb. apply Fb, pt_in; [apply H|lia]. }
    destruct (G p P1 P2) as [Fp Gp]. destruct (G q Q1 Q2) as [Fq Gq].
    specialize (Q3 p P1 P2). change (path_cost (@Chebyshev B64) a b p) with (path_acc (@Chebyshev B64) a b p : b64) in Q3.
    change (path_cost (@Chebyshev B64) a b q) with (path_acc (@Chebyshev B64) a b q : b64) in *.
    apply nle_reals in Q3; auto.
    pose proof (cost_pos KChebyshev xs ys p) as C1. pose proof (cost_pos KChebyshev xs ys q) as C2.
    pose proof (P3 q Q1 Q2) as C3. cbn [real_cost] in *. apply Rabs_both in Gp. apply Rabs_both in Gq.
    pose proof uu_pos. pose proof uu_small. assert (XP : 0 < XX) by apply bpow_gt_0.
    assert (UR : uu <= rho K) by (unfold rho; nra).
    apply (agrees_intro K); auto.
    + assert (chebyshev_cost xs ys p * uu <= chebyshev_cost xs ys p * rho K) by (apply Rmult_le_compat_l; auto). lra.
    + assert (chebyshev_cost xs ys p * uu <= chebyshev_cost xs ys p * rho K) by (apply Rmult_le_compat_l; auto).
      assert (chebyshev_cost xs ys p * (1 - uu) <= chebyshev_cost xs ys q * (1 - uu)) by (apply Rmult_le_compat_r; lra). lra.
Qed.
Print Assumptions C51_dtw_near_optimum.

(** ** point-to-point distances *)
Lemma agrees_max len (d : b64) exact : (1 <= len)%Z -> 0 <= exact -> is_finite d = true ->
  Rabs (B2R d - exact) <= uu * exact -> agrees len d exact.
Proof.
  intros Hl He F H. split; auto. apply Rle_trans with (1 := H). rewrite <- XX_is.
  assert (XP : 0 < XX) by apply bpow_gt_0. pose proof (rho_is 1 len ltac:(lia)) as R1.
  assert (E1 : rho 1 = 256 * uu) by (unfold rho; simpl; ring). pose proof uu_pos.
  assert (exact * uu <= exact * (IZR len / IZR (2 ^ 45))) by (apply Rmult_le_compat_l; lra). lra.
Qed.

Lemma val_pinf (x : b64) : val x = PInf -> x = pinf.
Proof. destruct x as [s|[]| |s m e H]; intros E; try discriminate E. reflexivity. Qed.

Section PairProps.
Variables a b : TS B64.
Hypothesis Ha : ts_ok a.
Hypothesis Hb : ts_ok b.
Hypothesis Hl : ts_length a = ts_length b.
Hypothesis Hm : (1 <= ts_length a <= 2 ^ 30)%Z.
Hypothesis Fa : Forall (@nfin B64) (ts_points a).
Hypothesis Fb : Forall (@nfin B64) (ts_points b).
Notation xs := (exact_points a).
Notation ys := (exact_points b).

Lemma pair_close k : pw_full (metric_of k) a b = pinf \/
  agrees (ts_length a) (pw_full (metric_of k) a b) (real_pair k xs ys).
Proof.
  destruct (N_range a Hm) as (N1 & N2 & N3). destruct (N_len a b Ha Hb Hl Hm) as [L1 L2].
  change (reals a) with xs in L1. change (reals b) with ys in L2.
  assert (Ki : (Z.of_nat (Z.to_nat (ts_length a)) <= ts_length a)%Z) by lia.
  assert (T1 : 1 <= IZR (ts_length a)) by (apply (IZR_le 1); lia).
  assert (PS : forall x y, 0 <= sqd x y) by (intros; apply Rle_0_sqr).
  assert (PA : forall x y, 0 <= absd x y) by (intros; apply Rabs_pos).
  destruct k; cbn [metric_of].
  - destruct (euc_full a b Ha Hb Hl Hm Fa Fb) as [E|(F & Ft & E)]; [left; apply val_pinf, E|right].
    assert (ER : real_pair KEuclidean xs ys = sqrt (pair_sum sqd xs ys / IZR (ts_length a))).
    { cbn [real_pair]. unfold rms_distance. rewrite L1, N3. reflexivity. }
    destruct (euc_along a b (diag (Z.to_nat (ts_length a))) (fin_diag_a a Ha Hm Fa) (fin_diag_b a b Hb Hl Hm Fb) Ft) as (P & U & L).
    rewrite (sum_diag a b Ha Hb Hl Hm), diag_length in U, L. change (reals a) with xs in *. change (reals b) with ys in *.
    apply (agrees_intro (Z.to_nat (ts_length a))); auto; rewrite ?ER; [apply R_sqrt.sqrt_pos| |]; rewrite E.
    + apply rt_up; auto. apply pair_sum_pos; auto.
    + apply rt_low; auto. apply pair_sum_pos; auto.
  - destruct (man_full a b Ha Hb Hl Hm Fa Fb) as [E|(F & Ft & E)]; [left; apply val_pinf, E|right].
    assert (ER : real_pair KManhattan xs ys = pair_sum absd xs ys / IZR (ts_length a)).
    { cbn [real_pair]. unfold mean_abs_distance. rewrite L1, N3. reflexivity. }
    destruct (man_along a b (diag (Z.to_nat (ts_length a))) (fin_diag_a a Ha Hm Fa) (fin_diag_b a b Hb Hl Hm Fb) Ft) as (P & U & L).
    rewrite (sum_diag a b Ha Hb Hl Hm), diag_length in U, L. change (reals a) with xs in *. change (reals b) with ys in *.
    pose proof (pair_sum_pos absd xs ys PA) as PP.
    apply (agrees_intro (Z.to_nat (ts_length a))); auto; rewrite ?ER; [apply Rle_mult_inv_pos; lra| |]; rewrite E.
    + apply li_up; auto.
    + apply li_low; auto.
  - destruct (cheb_full a b Ha Hb Hl Hm Fa Fb) as [E|(F & E)]; [left; apply val_pinf, E|right].
    apply agrees_max; auto; [lia|]. cbn [real_pair]. unfold max_abs_distance, pair_max.
    induction (combine xs ys) as [|c q IH]; cbn [fold_right]; [lra|]. apply Rle_trans with (1 := IH), Rmax_r.
Qed.

Lemma pair_uncut k mt : dist_call (N := B64) (kind_name k) (b64_ofZ 1) a b pinf mt = Ret (pw_full (metric_of k) a b, mt).
Proof.
  rewrite call_pw. change pinf with (@ninf B64). apply inv_inf; auto. intros v. destruct k; unfold pw_exceeds; cbn [metric_of m_inv Euclidean Manhattan Chebyshev].
  - rewrite Z.max_id, inf_scaled by lia. apply (lw_inf_top (N := B64)).
  - apply (lw_inf_top (N := B64)).
  - apply (lw_inf_top (N := B64)).
Qed.
End PairProps.

Theorem C51_pairwise_near_exact : forall (k : kind) (a b : TS B64) mt,
  ts_ok a -> ts_ok b -> ts_length a = ts_length b -> (1 <= ts_length a <= 2 ^ 30)%Z ->
  Forall (@nfin B64) (ts_points a) -> Forall (@nfin B64) (ts_points b) ->
  exists d, value (dist_call (N := B64) (kind_name k) (b64_ofZ 1) a b pinf mt) = Ret d /\
    (d = pinf \/ agrees (ts_length a) d (real_pair k (exact_points a) (exact_points b))).
Proof.
  intros k a b mt Ha Hb Hl Hm Fa Fb. exists (pw_full (metric_of k) a b). rewrite pair_uncut by auto.
  split; [reflexivity|]. apply pair_close; auto.
Qed.
Print Assumptions C51_pairwise_near_exact.

(** ** moderate data: the point-to-point distances are numbers *)
Lemma div_le_fin v k : fmt64 v -> 0 <= v -> 1 <= k -> R64 (v / k) = Fin (rne (v / k)).
Proof.
  intros Fv Hv Hk. assert (P : 0 <= v / k) by (apply Rle_mult_inv_pos; lra).
  destruct (R64_cases _ P) as [E|E]; auto. exfalso.
  assert (Hle : v / k <= v).
  { apply Rmult_le_reg_r with k; [lra|]. unfold Rdiv. rewrite Rmult_assoc, Rinv_l by lra.
    assert (v * 1 <= v * k) by (apply Rmult_le_compat_l; lra). lra. }
  pose proof (R64_mono _ _ Hle) as Hmn. rewrite E, (R64_fmt v Fv) in Hmn. exact Hmn.
Qed.

Lemma sqrt_fin v : fmt64 v -> 0 <= v -> R64 (sqrt v) = Fin (rne (sqrt v)).
Proof.
  intros Fv Hv. destruct (R64_cases _ (R_sqrt.sqrt_pos v)) as [E|E]; auto. exfalso.
  destruct (Rle_lt_dec 1 v) as [H1|H1].
  - assert (Hle : sqrt v <= v).
    { rewrite <- (sqrt_square v) at 2 by lra. apply sqrt_le_1_alt. assert (v * 1 <= v * v) by (apply Rmult_le_compat_l; lra). lra. }
    pose proof (R64_mono _ _ Hle) as Hmn. rewrite E, (R64_fmt v Fv) in Hmn. exact Hmn.
  - assert (Hle : sqrt v <= 1) by (rewrite <- sqrt_1; apply sqrt_le_1_alt; lra).
    pose proof (R64_mono _ _ Hle) as Hmn. rewrite E, (R64_fmt 1) in Hmn; [exact Hmn|].
    apply (fmt64_bpow 0). lia.
Qed.

Section Moderate.
Variables a b : TS B64.
Hypothesis Ha : ts_ok a.
Hypothesis Hb : ts_ok b.
Hypothesis Hl : ts_length a = ts_length b.
Hypothesis Hm : (1 <= ts_length a <= 2 ^ 30)%Z.
Hypothesis Sa : small_points a.
Hypothesis Sb : small_points b.

Lemma small_fin t : small_points t -> Forall (@nfin B64) (ts_points t).
Proof. intros H. eapply Forall_impl; [|exact H]. intros x Hx. apply moderate_fin, Hx. Qed.

Lemma diag_below (M : Metric B64) : no_overflow M a b 0 ->
  @nlt B64 (path_cost M a b (diag (Z.to_nat (ts_length a)))) ninf.
Proof.
  intros H. apply (H (ts_length a) (ts_length b)); try lia.
  - assert (HN : exists n, Z.to_nat (ts_length a) = S n) by (exists (Nat.pred (Z.to_nat (ts_length a))); lia).
    destruct HN as [n En]. pose proof (bpath_path 0 _ _ _ ltac:(lia) (diag_bpath n)) as [P _]. rewrite En.
    replace (ts_length a) with (Z.of_nat n + 1)%Z by lia. replace (ts_length b) with (Z.of_nat n + 1)%Z by lia. exact P.
  - assert (HN : exists n, Z.to_nat (ts_length a) = S n) by (exists (Nat.pred (Z.to_nat (ts_length a))); lia).
    destruct HN as [n En]. pose proof (bpath_path 0 _ _ _ ltac:(lia) (diag_bpath n)) as [_ P]. rewrite En. exact P.
Qed.

Lemma full_number k : pw_full (metric_of k) a b <> pinf.
Proof.
  pose proof (small_fin a Sa) as Fa. pose proof (small_fin b Sb) as Fb.
  assert (T1 : 1 <= IZR (ts_length a)) by (apply (IZR_le 1); lia).
  assert (Hmx : (1 <= Z.max (ts_length a) (ts_length b) <= 2 ^ 30)%Z) by lia.
  assert (Hn : (1 <= ts_length b <= 2 ^ 30)%Z) by lia.
  destruct (ofZ_facts (ts_length a) ltac:(lia)) as (F & Ev & Ez).
  destruct k; cbn [metric_of]; intros E; apply (f_equal val) in E; change (val pinf) with PInf in E.
  - pose proof (diag_below _ (no_overflow_euclidean a b Ha Hb Sa Sb Hm Hn 0 ltac:(lia))) as H.
    destruct (euc_nrm a b (total a b (@Euclidean B64)) Hmx (ok_euc a b Ha Hb Hl Hm Fa Fb) H) as (Fv & Pv & _).
    set (v := total a b (@Euclidean B64)) in *.
    change (pw_full (@Euclidean B64) a b) with (Bsqrt mode_NE (Bdiv mode_NE v (b64_ofZ (Z.max (ts_length a) (ts_length a))))) in E.
    rewrite Z.max_id in E. assert (Hd : val (Bdiv mode_NE v (b64_ofZ (ts_length a))) = Fin (rne (bval v / IZR (ts_length a)))).
    { rewrite val_div by (left; rewrite Ev; lra). rewrite Ez, (val_finite v Fv). cbn [xdiv]. rewrite Req_bool_false by lra.
      apply div_le_fin; auto. pose proof (val_fmt v) as Hf. rewrite (val_finite v Fv) in Hf. exact Hf. }
    pose proof (val_fmt (Bdiv mode_NE v (b64_ofZ (ts_length a)))) as Hf. rewrite Hd in Hf. cbn [xfmt] in Hf.
    assert (P1 : 0 <= rne (bval v / IZR (ts_length a))) by (apply rne_pos, Rle_mult_inv_pos; lra).
    rewrite val_sqrt, Hd in E. cbn [xsqrt] in E. rewrite Rlt_bool_false in E by auto. rewrite sqrt_fin in E by auto. discriminate E.
  - pose proof (diag_below _ (no_overflow_manhattan a b Ha Hb Sa Sb Hm Hn 0 ltac:(lia))) as H.
    destruct (man_nrm a b (total a b (@Manhattan B64)) Hmx (ok_man a b Ha Hb Hl Hm Fa Fb) H) as (Fv & Pv & _).
    set (v := total a b (@Manhattan B64)) in *.
    change (pw_full (@Manhattan B64) a b) with (Bdiv mode_NE v (b64_ofZ (Z.max (ts_length a) (ts_length a)))) in E.
    rewrite Z.max_id, val_div in E by (left; rewrite Ev; lra). rewrite Ez, (val_finite v Fv) in E. cbn [xdiv] in E.
    rewrite Req_bool_false in E by lra. rewrite div_le_fin in E; auto; [discriminate E|].
    pose proof (val_fmt v) as Hf. rewrite (val_finite v Fv) in Hf. exact Hf.
  - pose proof (diag_below _ (no_overflow_chebyshev a b Ha Hb Sa Sb Hm Hn 0 ltac:(lia))) as H.
    change (pw_full (@Chebyshev B64) a b) with (path_cost (@Chebyshev B64) a b (diag (Z.to_nat (ts_length a)))) in E.
    apply below_inf in H as [H _]. contradiction.
Qed.
End Moderate.

Theorem C51_pairwise_near_exact_moderate : forall (k : kind) (a b : TS B64) mt,
  ts_ok a -> ts_ok b -> ts_length a = ts_length b -> (1 <= ts_length a <= 2 ^ 30)%Z ->
  small_points a -> small_points b ->
  exists d, value (dist_call (N := B64) (kind_name k) (b64_ofZ 1) a b pinf mt) = Ret d /\
    agrees (ts_length a) d (real_pair k (exact_points a) (exact_points b)).
Proof.
  intros k a b mt Ha Hb Hl Hm Sa Sb.
  destruct (C51_pairwise_near_exact k a b mt Ha Hb Hl Hm (small_fin a Sa) (small_fin b Sb)) as (d & E & [E2|H]); [|eauto].
  exfalso. rewrite pair_uncut in E by auto using small_fin. injection E as E. subst d.
  apply (full_number a b Ha Hb Hl Hm Sa Sb k E2).
Qed.
Print Assumptions C51_pairwise_near_exact_moderate.

(** ** the Euclidean cut-off decides wrongly only next to the exact distance *)
Theorem C51_euclidean_cutoff_near_exact : forall (a b : TS B64) (ratio cut : b64) mt,
  ts_ok a -> ts_ok b -> ts_length a = ts_length b -> (1 <= ts_length a <= 2 ^ 30)%Z ->
  Forall (@nfin B64) (ts_points a) -> Forall (@nfin B64) (ts_points b) ->
  is_finite cut = true -> 0 <= B2R cut ->
  let exact := rms_distance (exact_points a) (exact_points b) in
  let tolerance := exact * (IZR (ts_length a) / IZR (2 ^ 44)) + 1 / IZR (2 ^ 400) in
  (exact + tolerance <= B2R cut ->
     dist_call (N := B64) "euclidean" ratio a b cut mt
     = Ret (pair_value (N := B64) KEuclidean (ts_points a) (ts_points b), mt)) /\
  (B2R cut < exact - tolerance -> dist_call (N := B64) "euclidean" ratio a b cut mt = Ret (pinf, mt)).
Proof.
  intros a b ratio cut mt Ha Hb Hl Hm Fa Fb Fc Pc exact tolerance.
  change "euclidean"%string with (kind_name KEuclidean). rewrite call_pw, (pair_value_eq (N := B64)) by auto. cbn [metric_of].
  destruct (N_range a Hm) as (N1 & N2 & N3). destruct (N_len a b Ha Hb Hl Hm) as [L1 L2].
  assert (ER : exact = sqrt (pair_sum sqd (reals a) (reals b) / IZR (ts_length a))).
  { unfold exact, rms_distance. change (exact_points a) with (reals a). rewrite L1, N3. reflexivity. }
  assert (ET : tolerance = exact * (512 * (INR (Z.to_nat (ts_length a)) * uu)) + XX).
  { unfold tolerance. rewrite <- XX_is, N3. do 2 f_equal. unfold Rdiv.
    replace (/ IZR (2 ^ 44)) with (512 * uu); [ring|]. unfold uu. change 512 with (bpow radix2 9). rewrite <- bpow_plus. reflexivity. }
  split; intros H.
  - apply (cut_kept a b); auto. rewrite <- ER. rewrite ET in H. lra.
  - apply (cut_dropped a b); auto. rewrite <- ER. rewrite ET in H. lra.
Qed.
Print Assumptions C51_euclidean_cutoff_near_exact.

(** ** both orders of the arguments agree with the same number *)
Lemma sum_flip f xs ys p : (forall x y, f x y = f y x) -> path_sum f ys xs (flip p) = path_sum f xs ys p.
Proof.
  intros Hf. induction p as [|c p IH]; [reflexivity|]. change (flip (c :: p)) with ((snd c, fst c) :: flip p).
  unfold path_sum in *. cbn [fold_right fst snd]. rewrite IH, Hf. reflexivity.
Qed.
Lemma max_flip f xs ys p : (forall x y, f x y = f y x) -> path_max f ys xs (flip p) = path_max f xs ys p.
Proof.
  intros Hf. induction p as [|c p IH]; [reflexivity|]. change (flip (c :: p)) with ((snd c, fst c) :: flip p).
  unfold path_max in *. cbn [fold_right fst snd]. rewrite IH, Hf. reflexivity.
Qed.
Lemma cost_flip k xs ys p : real_cost k ys xs (flip p) = real_cost k xs ys p.
Proof.
  assert (ML : maxlen ys xs = maxlen xs ys) by (unfold maxlen; rewrite Z.max_comm; reflexivity).
  destruct k; cbn [real_cost]; unfold euclidean_cost, manhattan_cost, chebyshev_cost.
  - rewrite ML, sum_flip; auto. intros; ring.
  - rewrite ML, sum_flip; auto. intros; apply Rabs_minus_sym.
  - apply max_flip. intros; apply Rabs_minus_sym.
Qed.

Lemma ieee_ok_sym k (a b : TS B64) ratio r : ieee_ok k a b ratio r -> ieee_ok k b a ratio r.
Proof. rewrite !ok_pre. apply dtw_pre_sym, nice_of. Qed.

Theorem C51_dtw_near_symmetric : forall (k : kind) (a b : TS B64) (ratio : b64) r mt,
  ieee_ok k a b ratio r -> (Z.abs (ts_length a - ts_length b) <= r)%Z ->
  exists d1 d2 exact,
    value (dist_call (N := B64) (dtw_name k) ratio a b pinf mt) = Ret d1 /\
    value (dist_call (N := B64) (dtw_name k) ratio b a pinf mt) = Ret d2 /\
    agrees (ts_length a + ts_length b) d1 exact /\ agrees (ts_length a + ts_length b) d2 exact.
Proof.
  intros k a b ratio r mt H Hab. pose proof (io_r _ _ _ _ _ H) as Hr.
  destruct (C51_dtw_near_optimum k a b ratio r mt H Hab) as (p & d1 & P1 & P2 & P3 & E1 & A1).
  destruct (C51_dtw_near_optimum k b a ratio r mt (ieee_ok_sym _ _ _ _ _ H) ltac:(lia)) as (q & d2 & Q1 & Q2 & Q3 & E2 & A2).
  exists d1, d2, (real_cost k (exact_points a) (exact_points b) p). split; [exact E1|]. split; [exact E2|]. split; [exact A1|].
  destruct (flip_path r _ _ p Hr P1 P2) as [F1 F2]. destruct (flip_path r _ _ q Hr Q1 Q2) as [G1 G2].
  specialize (Q3 _ F1 F2). specialize (P3 _ G1 G2). rewrite cost_flip in Q3.
  assert (Eq : real_cost k (exact_points b) (exact_points a) q = real_cost k (exact_points a) (exact_points b) p).
  { apply Rle_antisym; auto. rewrite <- (cost_flip k (exact_points b) (exact_points a) q). exact P3. }
  rewrite Eq, Z.add_comm in A2. exact A2.
Qed.
Print Assumptions C51_dtw_near_symmetric.

(** ** the hypotheses are met *)
Example C51_dtw_case : forall k, exists p d,
  value (dist_call (N := B64) (dtw_name k) (b64_lit 1 2) (zs [1; 2; 3; 4; 5]%Z) (zs [1; 1; 2; 7]%Z) pinf []) = Ret d /\
  agrees 9 d (real_cost k (exact_points (zs [1; 2; 3; 4; 5]%Z)) (exact_points (zs [1; 1; 2; 7]%Z)) p).
Proof.
  intros k. destruct (C51_dtw_near_optimum k _ _ _ _ [] (case_ok k)) as (p & d & _ & _ & _ & E & A).
  - change (Z.abs (5 - 4) <= 2)%Z. lia.
  - exists p, d. split; [exact E|exact A].
Qed.

Example C51_pairwise_case : forall k, exists d,
  value (dist_call (N := B64) (kind_name k) (b64_ofZ 1) (zs [5; 1]%Z) (zs [0; 0]%Z) pinf []) = Ret d /\
  agrees 2 d (real_pair k (exact_points (zs [5; 1]%Z)) (exact_points (zs [0; 0]%Z))).
Proof.
  intros k. apply C51_pairwise_near_exact_moderate; try apply zs_ok; try reflexivity;
    try (apply smallb_all; vm_compute; reflexivity). change (1 <= 2 <= 2 ^ 30)%Z. lia.
Qed.

Lemma zs_exact l : (forall z, In z l -> (0 <= z <= 2 ^ 31)%Z) -> exact_points (zs l) = map IZR l.
Proof.
  intros H. unfold exact_points, zs. rewrite (ts_of_list_points (N := B64)), map_map. apply map_ext_in.
  intros z Hz. specialize (H z Hz). pose proof (ofZ_small z ltac:(lia)) as E. destruct (val_Fin _ _ E) as [_ Ev]. exact Ev.
Qed.

(** of [5; 1] and [0; 0]: the exact distance is the square root of 13 *)
Example C51_cutoff_case : forall mt,
  dist_call (N := B64) "euclidean" (b64_ofZ 1) (zs [5; 1]%Z) (zs [0; 0]%Z) (b64_ofZ 4) mt
  = Ret (pair_value (N := B64) KEuclidean (ts_points (zs [5; 1]%Z)) (ts_points (zs [0; 0]%Z)), mt) /\
  dist_call (N := B64) "euclidean" (b64_ofZ 1) (zs [5; 1]%Z) (zs [0; 0]%Z) (b64_ofZ 3) mt = Ret (pinf, mt).
Proof.
  intros mt.
  assert (ER : rms_distance (exact_points (zs [5; 1]%Z)) (exact_points (zs [0; 0]%Z)) = sqrt 13).
  { rewrite !zs_exact by (intros z [<-|[<-|[]]]; lia). unfold rms_distance. f_equal. cbn. field. }
  assert (S1 : 3.6 <= sqrt 13).
  { rewrite <- (sqrt_square 3.6) by lra. apply sqrt_le_1_alt. lra. }
  assert (S2 : sqrt 13 <= 3.7).
  { rewrite <- (sqrt_square 3.7) by lra. apply sqrt_le_1_alt. lra. }
  assert (T1 : IZR (ts_length (zs [5; 1]%Z)) / IZR (2 ^ 44) <= / 100).
  { change (2 / IZR (2 ^ 44) <= / 100). apply Rmult_le_reg_r with (IZR (2 ^ 44)); [apply (IZR_lt 0); reflexivity|].
    unfold Rdiv. rewrite Rmult_assoc, Rinv_l by (apply (IZR_neq _ 0); discriminate).
    assert (200 <= IZR (2 ^ 44)) by (apply (IZR_le 200); vm_compute; discriminate). lra. }
  assert (T2 : 1 / IZR (2 ^ 400) <= / 100).
  { unfold Rdiv. rewrite Rmult_1_l. apply Rinv_le; [lra|]. apply (IZR_le 100). vm_compute. discriminate. }
  assert (T3 : sqrt 13 * (IZR (ts_length (zs [5; 1]%Z)) / IZR (2 ^ 44)) <= sqrt 13 * / 100) by (apply Rmult_le_compat_l; lra).
  destruct (ofZ_facts 4 ltac:(lia)) as (F4 & V4 & _). destruct (ofZ_facts 3 ltac:(lia)) as (F3 & V3 & _).
  pose proof (fun cut => C51_euclidean_cutoff_near_exact (zs [5; 1]%Z) (zs [0; 0]%Z) (b64_ofZ 1) cut mt (zs_ok _) (zs_ok _) eq_refl) as Hc.
  assert (L : (1 <= ts_length (zs [5; 1]%Z) <= 2 ^ 30)%Z) by (change (1 <= 2 <= 2 ^ 30)%Z; lia).
  assert (Fa : Forall (@nfin B64) (ts_points (zs [5; 1]%Z))) by (apply finb_all; vm_compute; reflexivity).
  assert (Fb : Forall (@nfin B64) (ts_points (zs [0; 0]%Z))) by (apply finb_all; vm_compute; reflexivity).
  split.
  - apply (Hc (b64_ofZ 4) L Fa Fb F4); rewrite ?ER, V4; lra.
  - apply (Hc (b64_ofZ 3) L Fa Fb F3); rewrite ?ER, V3; lra.
Qed.
