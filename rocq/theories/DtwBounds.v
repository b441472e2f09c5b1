(** IEEE doubles: points of magnitude at most 2^490 never overflow in DTW. *)
From Coq Require Import Reals Lra.
From Flocq Require Import Core BinarySingleNaN.
From Verif Require Import Base Num NumLaws NumFacts NumXR NumXRLaws NumB64 NumB64Laws TimeSeries Distance
  DtwSpec DtwPaths LoopFacts DtwProofs Metrics DtwMain DtwResults.
Local Open Scope R_scope.

(** 2^490 as a double *)
Definition b64_big : b64 := b64_ofZ (2 ^ 490).

(** a point of moderate size: not NaN, and |x| <= 2^490 *)
Definition moderate (x : b64) : Prop := @nle B64 (nabs (n := B64) x) b64_big.

Lemma fmt64_F2R k e : (Z.abs k < 2 ^ 40)%Z -> (-1074 <= e <= 983)%Z -> fmt64 (IZR k * bpow radix2 e).
Proof.
  intros Hk He. split.
  - apply generic_format_FLT. exists (Float radix2 k e); simpl; [reflexivity| |].
    + unfold prec64. apply Z.lt_trans with (2 ^ 40)%Z; auto. reflexivity.
    + unfold prec64, emax64. lia.
  - rewrite Rabs_mult, <- abs_IZR. rewrite (Rabs_pos_eq (bpow _ _)) by apply bpow_ge_0.
    apply Rlt_le_trans with (bpow radix2 40 * bpow radix2 e).
    + apply Rmult_lt_compat_r; [apply bpow_gt_0|]. change (bpow radix2 40) with (IZR (2 ^ 40)). apply IZR_lt; auto.
    + rewrite <- bpow_plus. apply bpow_le. unfold emax64. lia.
Qed.

Lemma fmt64_bpow e : (-1074 <= e <= 983)%Z -> fmt64 (bpow radix2 e).
Proof. intros He. replace (bpow radix2 e) with (IZR 1 * bpow radix2 e) by lra. apply fmt64_F2R; auto. reflexivity. Qed.

Lemma val_big : val b64_big = Fin (bpow radix2 490).
Proof.
  unfold b64_big. rewrite val_ofZ. unfold xofZ.
  replace (IZR (2 ^ 490)) with (bpow radix2 490) by (rewrite <- IZR_Zpower by lia; reflexivity).
  apply R64_fmt, fmt64_bpow. lia.
Qed.

Lemma moderate_val x : moderate x -> exists v, val x = Fin v /\ Rabs v <= bpow radix2 490.
Proof.
  unfold moderate. intros H. apply nleP_val in H. rewrite val_big in H.
  change (val (nabs (n := B64) x)) with (val (Babs x)) in H. rewrite val_abs in H.
  destruct (val x) as [v| | |]; simpl in H; try tauto. eauto.
Qed.

Lemma moderate_fin x : moderate x -> @nfin B64 x.
Proof.
  intros H. apply moderate_val in H as (v & H & _). apply bfin_iff. apply val_Fin in H. apply H.
Qed.

Lemma xle_fin x c : xleP (Fin 0) x -> xleP x (Fin c) -> exists v, x = Fin v /\ 0 <= v <= c.
Proof. destruct x as [v| | |]; simpl; try tauto. intros; exists v; auto. Qed.

Lemma R64_le r c : fmt64 c -> r <= c -> xleP (R64 r) (Fin c).
Proof. intros F H. rewrite <- (R64_fmt c F). apply R64_mono; auto. Qed.

Lemma R64_0 : R64 0 = Fin 0.
Proof. apply R64_fmt. apply (fmt64_Z 0). simpl; lia. Qed.

Lemma R64_ge0 r : 0 <= r -> xleP (Fin 0) (R64 r).
Proof. intros H. rewrite <- R64_0. apply R64_mono; auto. Qed.

Lemma R64_abs r c : fmt64 c -> Rabs r <= c -> exists v, R64 r = Fin v /\ Rabs v <= c.
Proof.
  intros F H. pose proof (R64_le r c F) as H1. pose proof (R64_le (- r) c F) as H2.
  rewrite R64_opp in H2. pose proof (Rle_abs r). pose proof (Rle_abs (- r)) as H3. rewrite Rabs_Ropp in H3.
  specialize (H1 ltac:(lra)). specialize (H2 ltac:(lra)).
  destruct (R64 r) as [v| | |]; simpl in *; try tauto. exists v. split; auto. apply Rabs_le. lra.
Qed.

Lemma sub_bound x y : moderate x -> moderate y ->
  exists v, val (@nsub B64 x y) = Fin v /\ Rabs v <= bpow radix2 491.
Proof.
  intros Hx Hy. apply moderate_val in Hx as (vx & Ex & Bx). apply moderate_val in Hy as (vy & Ey & By).
  change (@nsub B64 x y) with (Bminus mode_NE x y). rewrite val_minus, Ex, Ey. unfold xsub.
  apply R64_abs; [apply fmt64_bpow; lia|].
  replace (bpow radix2 491) with (bpow radix2 490 + bpow radix2 490).
  2:{ change 491%Z with (1 + 490)%Z. rewrite (bpow_plus radix2 1 490). change (bpow radix2 1) with 2. lra. }
  apply Rle_trans with (Rabs vx + Rabs vy); [|lra].
  replace (vx - vy) with (vx + - vy) by lra. rewrite <- (Rabs_Ropp vy). apply Rabs_triang.
Qed.

Lemma euc_bound x y : moderate x -> moderate y ->
  exists v, val (@euc_dist B64 x y) = Fin v /\ 0 <= v <= bpow radix2 982.
Proof.
  intros Hx Hy. destruct (sub_bound x y Hx Hy) as (v & E & B).
  unfold euc_dist. change (@nmul B64) with (Bmult (prec := prec64) (emax := emax64) mode_NE).
  rewrite val_mult, E. unfold xmul. apply xle_fin.
  - apply R64_ge0. apply Rle_0_sqr.
  - apply R64_le; [apply fmt64_bpow; lia|]. change 982%Z with (491 + 491)%Z. rewrite bpow_plus.
    rewrite <- Rabs_sqr_eq. pose proof (Rabs_pos v). nra.
Qed.

Lemma man_bound x y : moderate x -> moderate y ->
  exists v, val (nabs (@nsub B64 x y)) = Fin v /\ 0 <= v <= bpow radix2 491.
Proof.
  intros Hx Hy. destruct (sub_bound x y Hx Hy) as (v & E & B).
  change (val (Babs (@nsub B64 x y))) with (val (Babs (@nsub B64 x y))).
  exists (Rabs v). split; [|split; [apply Rabs_pos|auto]].
  transitivity (xabs (val (@nsub B64 x y))); [apply val_abs|rewrite E; reflexivity].
Qed.

(** adding [k] bounded terms *)
Lemma add_bound s d k e : (0 <= k)%Z -> (k + 1 < 2 ^ 40)%Z -> (-1074 <= e <= 983)%Z ->
  (exists v, val s = Fin v /\ 0 <= v <= IZR k * bpow radix2 e) ->
  (exists v, val d = Fin v /\ 0 <= v <= bpow radix2 e) ->
  exists v, val (@nadd B64 s d) = Fin v /\ 0 <= v <= IZR (k + 1) * bpow radix2 e.
Proof.
  intros Hk Hk2 He (vs & Es & Bs) (vd & Ed & Bd).
  change (@nadd B64) with (Bplus (prec := prec64) (emax := emax64) mode_NE). rewrite val_plus, Es, Ed.
  unfold xadd. apply xle_fin; [apply R64_ge0; lra|].
  apply R64_le; [apply fmt64_F2R; auto; lia|]. rewrite plus_IZR. lra.
Qed.

Lemma div_fin s k : (1 <= k <= 2 ^ 53)%Z -> (exists v, val s = Fin v /\ 0 <= v <= bpow radix2 983) ->
  exists v, val (@ndiv B64 s (nofZ k)) = Fin v.
Proof.
  intros Hk (v & Ev & Bv). pose proof (ofZ_small k ltac:(lia)) as Ek. apply val_Fin in Ek as Ek'.
  assert (Hk' : 1 <= IZR k) by (apply (IZR_le 1); lia).
  change (@ndiv B64 s (nofZ k)) with (Bdiv mode_NE s (b64_ofZ k)).
  rewrite val_div by (left; destruct Ek' as [_ ->]; lra). rewrite Ev, Ek. unfold xdiv.
  rewrite Req_bool_false by lra.
  destruct (xle_fin (R64 (v / IZR k)) (bpow radix2 983)) as (w & E & _).
  - apply R64_ge0. apply Rmult_le_pos; [lra|]. left. apply Rinv_0_lt_compat. lra.
  - apply R64_le; [apply fmt64_bpow; lia|]. apply Rle_trans with v; [|lra].
    apply Rmult_le_reg_r with (IZR k); [lra|]. unfold Rdiv. rewrite Rmult_assoc, Rinv_l by lra. nra.
  - eauto.
Qed.

Lemma Fin_lt_inf x v : val x = Fin v -> @nlt B64 x ninf.
Proof. intros E. unfold nlt. change (@nltb B64 x ninf) with (Bltb x (B754_infinity false)). rewrite val_ltb, E. reflexivity. Qed.

Section Path.
Variables a b : TS B64.
Hypothesis Ha : ts_ok a.
Hypothesis Hb : ts_ok b.
Hypothesis Ma : Forall moderate (ts_points a).
Hypothesis Mb : Forall moderate (ts_points b).
Hypothesis Hm : (1 <= ts_length a <= 2 ^ 30)%Z.
Hypothesis Hn : (1 <= ts_length b <= 2 ^ 30)%Z.

Lemma mod_a i : (0 <= i < ts_length a)%Z -> moderate (pt a i).
Proof. intros Hi. rewrite Forall_forall in Ma. apply Ma, (pt_in (N := B64)); auto. Qed.
Lemma mod_b i : (0 <= i < ts_length b)%Z -> moderate (pt b i).
Proof. intros Hi. rewrite Forall_forall in Mb. apply Mb, (pt_in (N := B64)); auto. Qed.

(** generic induction: a path of k steps accumulates at most k units *)
Lemma acc_bound (add : b64 -> b64 -> b64 -> b64) e :
  (-1074 <= e <= 983)%Z ->
  (forall s x y k, (0 <= k)%Z -> (k + 1 < 2 ^ 40)%Z -> moderate x -> moderate y ->
     (exists v, val s = Fin v /\ 0 <= v <= IZR k * bpow radix2 e) ->
     exists v, val (add s x y) = Fin v /\ 0 <= v <= IZR (k + 1) * bpow radix2 e) ->
  forall r i j p, bpath r i j p -> (i < ts_length a)%Z -> (j < ts_length b)%Z ->
  exists v, val (fold_left (fun s c => add s (pt a (fst c)) (pt b (snd c))) p (@n0 B64)) = Fin v /\
    0 <= v <= IZR (i + j + 1) * bpow radix2 e.
Proof.
  intros He Hadd r i j p Hp. induction Hp as [|i j i' j' p Hp IH Hw Habs]; intros Hi Hj.
  - cbn [fold_left fst snd]. replace (0 + 0 + 1)%Z with (0 + 1)%Z by lia.
    apply Hadd; [lia|lia|apply mod_a; lia|apply mod_b; lia|].
    exists 0. rewrite val_0. split; auto. lra.
  - rewrite fold_left_app. cbn [fold_left fst snd].
    pose proof (wstep_cases _ _ _ _ Hw) as Hc. pose proof (bpath_nonneg _ _ _ _ Hp) as [Hi0 Hj0].
    destruct IH as (v & Ev & Bv); [lia|lia|].
    replace (i' + j' + 1)%Z with ((i' + j') + 1)%Z by lia.
    apply Hadd; [lia|lia|apply mod_a; lia|apply mod_b; lia|].
    exists v. split; auto. split; [apply Bv|]. eapply Rle_trans; [apply Bv|].
    apply Rmult_le_compat_r; [apply bpow_ge_0|]. apply IZR_le. lia.
Qed.

Lemma path_of i j r p : (0 <= r)%Z -> warping_path i j p -> in_band r p -> bpath r (i - 1) (j - 1) p.
Proof.
  intros Hr H1 H2. apply path_bpath; auto. replace (i - 1 + 1)%Z with i by lia. replace (j - 1 + 1)%Z with j by lia. auto.
Qed.

Lemma no_overflow_euclidean r : (0 <= r)%Z -> no_overflow Euclidean a b r.
Proof.
  intros Hr i j p Hi Hj H1 H2. apply (path_of i j r p Hr) in H1; auto.
  destruct (acc_bound (fun s x y => nadd (n := B64) s (euc_dist (N := B64) x y)) 982 ltac:(lia)) with (r := r) (i := (i - 1)%Z) (j := (j - 1)%Z) (p := p) as (v & Ev & Bv); auto; try lia.
  { intros s x y k Hk Hk2 Hx Hy Hs. apply add_bound; auto; [lia|]. apply euc_bound; auto. }
  unfold path_cost. cbn [m_normDTW Euclidean].
  change (path_acc Euclidean a b p)
    with (fold_left (fun s c => nadd (n := B64) s (euc_dist (N := B64) (pt a (fst c)) (pt b (snd c)))) p (@n0 B64)).
  set (t := fold_left _ p _) in *.
  destruct (div_fin (@nsqrt B64 t) (2 * Z.max (ts_length a) (ts_length b))) as (w & Ew); [lia| |apply (Fin_lt_inf _ w Ew)].
  change (@nsqrt B64 t) with (Bsqrt mode_NE t). rewrite val_sqrt, Ev. unfold xsqrt.
  rewrite Rlt_bool_false by lra. apply xle_fin; [apply R64_ge0, sqrt_ge_0|].
  apply R64_le; [apply fmt64_bpow; lia|]. 
  rewrite <- (sqrt_Rsqr (bpow radix2 983)) by apply bpow_ge_0. apply sqrt_le_1_alt. unfold Rsqr. rewrite <- bpow_plus.
  eapply Rle_trans; [apply Bv|]. apply Rle_trans with (bpow radix2 40 * bpow radix2 982).
  - apply Rmult_le_compat_r; [apply bpow_ge_0|]. change (bpow radix2 40) with (IZR (2 ^ 40)). apply IZR_le. lia.
  - rewrite <- bpow_plus. apply bpow_le. lia.
Qed.

Lemma no_overflow_manhattan r : (0 <= r)%Z -> no_overflow Manhattan a b r.
Proof.
  intros Hr i j p Hi Hj H1 H2. apply (path_of i j r p Hr) in H1; auto.
  destruct (acc_bound (fun s x y => nadd (n := B64) s (nabs (n := B64) (nsub (n := B64) x y))) 491 ltac:(lia)) with (r := r) (i := (i - 1)%Z) (j := (j - 1)%Z) (p := p) as (v & Ev & Bv); auto; try lia.
  { intros s x y k Hk Hk2 Hx Hy Hs. apply add_bound; auto; [lia|]. apply man_bound; auto. }
  unfold path_cost. cbn [m_normDTW Manhattan].
  change (path_acc Manhattan a b p)
    with (fold_left (fun s c => nadd (n := B64) s (nabs (n := B64) (nsub (n := B64) (pt a (fst c)) (pt b (snd c))))) p (@n0 B64)).
  set (t := fold_left _ p _) in *.
  destruct (div_fin t (2 * Z.max (ts_length a) (ts_length b))) as (w & Ew); [lia| |apply (Fin_lt_inf _ w Ew)].
  exists v. split; auto. split; [apply Bv|].
  eapply Rle_trans; [apply Bv|]. apply Rle_trans with (bpow radix2 40 * bpow radix2 491).
  - apply Rmult_le_compat_r; [apply bpow_ge_0|]. change (bpow radix2 40) with (IZR (2 ^ 40)). apply IZR_le. lia.
  - rewrite <- bpow_plus. apply bpow_le. lia.
Qed.

Lemma no_overflow_chebyshev r : (0 <= r)%Z -> no_overflow Chebyshev a b r.
Proof.
  intros Hr i j p Hi Hj H1 H2. apply (path_of i j r p Hr) in H1; auto.
  unfold path_cost. cbn [m_normDTW Chebyshev].
  assert (Hgen : forall i j, bpath r i j p -> (i < ts_length a)%Z -> (j < ts_length b)%Z ->
     @nlt B64 (path_acc Chebyshev a b p) ninf).
  { clear H1 H2 i j Hi Hj. intros i j Hp. induction Hp as [|i j i' j' p Hp IH Hw Habs]; intros Hi Hj.
    - unfold path_acc. cbn [fold_left fst snd].
      destruct (man_bound (pt a 0) (pt b 0)) as (v & Ev & _); [apply mod_a; lia|apply mod_b; lia|].
      cbn [m_reduce m_init Chebyshev].
      destruct (nmax_cases (N := B64) nninf (nabs (nsub (pt a 0) (pt b 0)))) as [E|E]; rewrite E;
        [reflexivity|apply (Fin_lt_inf _ v Ev)].
    - rewrite path_acc_snoc. pose proof (wstep_cases _ _ _ _ Hw) as Hc. pose proof (bpath_nonneg _ _ _ _ Hp) as [Hi0 Hj0].
      destruct (man_bound (pt a i') (pt b j')) as (v & Ev & _); [apply mod_a; lia|apply mod_b; lia|].
      cbn [m_reduce Chebyshev].
      destruct (nmax_cases (N := B64) (path_acc Chebyshev a b p) (nabs (nsub (pt a i') (pt b j')))) as [E|E]; rewrite E;
        [apply IH; lia|apply (Fin_lt_inf _ v Ev)]. }
  apply (Hgen (i - 1)%Z (j - 1)%Z); auto; lia.
Qed.
End Path.
