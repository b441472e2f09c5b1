(** The cut-off of the Euclidean point-to-point distance in double arithmetic
    errs only for cut-offs within rounding distance of the exact value. *)
From Coq Require Import String Reals Lra Psatz Lia ZArith.
From Flocq Require Import Core BinarySingleNaN.
From Verif Require Import Base Num NumB64 NumLaws NumFacts NumXR NumXRLaws NumB64Laws LoopFacts TimeSeries Distance
  DtwSpec DtwPaths DtwProofs Metrics DtwMain DtwResults DtwBounds DtwReal Pairwise DistSpec DistFacts DistLink
  AccReal AccDtw AccEnd AccKinds AccLink AccPair.
Local Open Scope R_scope.

Lemma XX_sq : 16 * X0 <= XX * XX.
Proof.
  unfold X0, XX. change 16 with (bpow radix2 4). rewrite <- !bpow_plus. apply bpow_le. lia.
Qed.

Section Cut.
Variables (k : nat) (m E v c : R).
Hypothesis Hk1 : 1 <= INR k.
Hypothesis Hk : INR k <= KK.
Hypothesis Hm : 1 <= m <= INR k.
Hypothesis HE : 0 <= E.
Hypothesis Hc : 0 <= c.
Notation t := (INR k * uu).
Notation D := (sqrt (E / m)).

Lemma D_sq : D * D * m = E.
Proof. rewrite sqrt_sqrt by (apply Rle_mult_inv_pos; lra). field. lra. Qed.

(** the squared and scaled cut-off, as the program computes it *)
Definition thr : R := rne (rne (c * c) * m).

Lemma thr_low : c * c * m * (1 - 3 * uu) - X0 <= thr.
Proof.
  unfold thr. assert (P : 0 <= c * c) by apply Rle_0_sqr. destruct (rnd_pos_err _ P) as [L1 _].
  pose proof (rne_pos _ P) as P1. assert (P2 : 0 <= rne (c * c) * m) by (apply Rmult_le_pos; lra).
  destruct (rnd_pos_err _ P2) as [L2 _]. pose proof uu_pos. pose proof uu_small. pose proof e0_pos. pose proof e0_X0.
  assert (KS : 2 * e0 * m + e0 <= X0).
  { assert (2 * e0 * m <= 2 * e0 * KK) by (apply Rmult_le_compat_l; lra).
    assert (e1 <= X0 / 4).
    { rewrite e1_is. unfold X0. change (bpow radix2 (-860) / 4) with (bpow radix2 (-860) * bpow radix2 (-2)).
      rewrite <- bpow_plus. apply bpow_le. lia. }
    unfold e1 in *. lra. }
  set (s := c * c) in *. set (s' := rne s) in *.
  assert (A : (s * (1 - uu) - e0) * m <= s' * m) by (apply Rmult_le_compat_r; lra).
  assert (B : (s * (1 - uu) - e0) * m * (1 - uu) <= s' * m * (1 - uu)) by (apply Rmult_le_compat_r; lra).
  assert (C : s * m * (1 - 3 * uu) <= s * m * ((1 - uu) * (1 - uu))).
  { apply Rmult_le_compat_l; [apply Rmult_le_pos; lra|nra]. }
  assert (e0 * m * (1 - uu) <= e0 * m) by (assert (0 <= e0 * m * uu) by (apply Rmult_le_pos; [apply Rmult_le_pos; lra|lra]); lra).
  assert (0 <= e0 * m) by (apply Rmult_le_pos; lra). lra.
Qed.

Lemma thr_high : thr <= c * c * m * (1 + 3 * uu) + X0.
Proof.
  unfold thr. assert (P : 0 <= c * c) by apply Rle_0_sqr. destruct (rnd_pos_err _ P) as [_ L1].
  pose proof (rne_pos _ P) as P1. assert (P2 : 0 <= rne (c * c) * m) by (apply Rmult_le_pos; lra).
  destruct (rnd_pos_err _ P2) as [_ L2]. pose proof uu_pos. pose proof uu_small. pose proof e0_pos. pose proof e0_X0.
  assert (KS : 2 * e0 * m + e0 <= X0).
  { assert (2 * e0 * m <= 2 * e0 * KK) by (apply Rmult_le_compat_l; lra).
    assert (e1 <= X0 / 4).
    { rewrite e1_is. unfold X0. change (bpow radix2 (-860) / 4) with (bpow radix2 (-860) * bpow radix2 (-2)).
      rewrite <- bpow_plus. apply bpow_le. lia. }
    unfold e1 in *. lra. }
  set (s := c * c) in *. set (s' := rne s) in *.
  assert (A : s' * m <= (s * (1 + uu) + e0) * m) by (apply Rmult_le_compat_r; lra).
  assert (B : s' * m * (1 + uu) <= (s * (1 + uu) + e0) * m * (1 + uu)) by (apply Rmult_le_compat_r; lra).
  assert (C : s * m * ((1 + uu) * (1 + uu)) <= s * m * (1 + 3 * uu)).
  { apply Rmult_le_compat_l; [apply Rmult_le_pos; lra|nra]. }
  assert (e0 * m * uu <= e0 * m * 1) by (apply Rmult_le_compat_l; [apply Rmult_le_pos; lra|lra]). lra.
Qed.

Lemma t_facts : uu <= t /\ 0 < t <= / 1000000 /\ 0 <= INR k * SS /\ 16 * (INR k * SS) <= X0.
Proof. apply ku_facts; auto. Qed.

Lemma cut_keeps : v <= (E + INR k * SS) * gg ^ k -> D * (1 + 512 * t) + XX <= c -> v <= thr.
Proof.
  intros Hv H. destruct t_facts as (U1 & U2 & U3 & U4). pose proof (gg_up k Hk) as G. pose proof uu_pos. pose proof uu_small.
  pose proof thr_low as L. pose proof XX_sq as XS. pose proof X0_pos. pose proof D_sq as ED.
  assert (PD : 0 <= D) by apply R_sqrt.sqrt_pos. assert (PX : 0 < XX) by apply bpow_gt_0.
  assert (Hv' : v <= (E + INR k * SS) * (1 + 64 * t)) by (apply Rle_trans with (1 := Hv); apply Rmult_le_compat_l; lra).
  set (s := INR k * SS) in *. set (x := t) in *. set (d := D) in *.
  assert (P1 : 0 <= d * (1 + 512 * x)) by (apply Rmult_le_pos; lra).
  assert (C2 : d * d * (1 + 512 * x) + XX * XX <= c * c).
  { apply Rle_trans with ((d * (1 + 512 * x) + XX) * (d * (1 + 512 * x) + XX)).
    - assert (d * d * (1 + 512 * x) * 1 <= d * d * (1 + 512 * x) * (1 + 512 * x)).
      { apply Rmult_le_compat_l; [|lra]. apply Rmult_le_pos; [apply Rle_0_sqr|lra]. }
      assert (0 <= d * (1 + 512 * x) * XX) by (apply Rmult_le_pos; lra). lra.
    - apply Rmult_le_compat; lra. }
  assert (C3 : (d * d * (1 + 512 * x) + XX * XX) * m <= c * c * m) by (apply Rmult_le_compat_r; lra).
  assert (C4 : E * (1 + 512 * x) + XX * XX <= c * c * m).
  { rewrite <- ED. assert (XX * XX * 1 <= XX * XX * m) by (apply Rmult_le_compat_l; [apply Rle_0_sqr|lra]). lra. }
  assert (C5 : (E * (1 + 512 * x) + XX * XX) * (1 - 3 * uu) <= c * c * m * (1 - 3 * uu)) by (apply Rmult_le_compat_r; lra).
  assert (C6 : E * (1 + 64 * x) <= E * ((1 + 512 * x) * (1 - 3 * uu))) by (apply Rmult_le_compat_l; [lra|nra]).
  assert (C7 : XX * XX * / 2 <= XX * XX * (1 - 3 * uu)) by (apply Rmult_le_compat_l; [apply Rle_0_sqr|lra]).
  assert (C8 : s * (1 + 64 * x) <= s * 2) by (apply Rmult_le_compat_l; lra). lra.
Qed.

Lemma cut_drops : E * hh ^ k - INR k * SS <= v -> c < D * (1 - 512 * t) - XX -> thr < v.
Proof.
  intros Hv H. destruct t_facts as (U1 & U2 & U3 & U4). pose proof (hh_low k) as G. pose proof uu_pos. pose proof uu_small.
  pose proof thr_high as L. pose proof XX_sq as XS. pose proof X0_pos. pose proof D_sq as ED.
  assert (PD : 0 <= D) by apply R_sqrt.sqrt_pos. assert (PX : 0 < XX) by apply bpow_gt_0.
  assert (Hv' : E * (1 - 8 * t) - INR k * SS <= v).
  { apply Rle_trans with (2 := Hv). assert (E * (1 - 8 * t) <= E * hh ^ k) by (apply Rmult_le_compat_l; lra). lra. }
  set (s := INR k * SS) in *. set (x := t) in *. set (d := D) in *.
  assert (P1 : XX <= d * (1 - 512 * x)) by lra.
  assert (C2 : c * c <= d * d * (1 - 512 * x) - XX * XX).
  { apply Rle_trans with ((d * (1 - 512 * x) - XX) * (d * (1 - 512 * x) - XX)); [apply Rmult_le_compat; lra|].
    set (y := d * (1 - 512 * x)) in *. assert (XX * XX <= y * XX) by (apply Rmult_le_compat_r; lra).
    assert (y * y <= d * y) by (apply Rmult_le_compat_r; [lra|]; unfold y; assert (0 <= d * x) by (apply Rmult_le_pos; lra); lra).
    assert (d * y = d * d * (1 - 512 * x)) by (unfold y; ring). lra. }
  assert (C3 : c * c * m <= (d * d * (1 - 512 * x) - XX * XX) * m) by (apply Rmult_le_compat_r; lra).
  assert (C4 : c * c * m <= E * (1 - 512 * x) - XX * XX).
  { rewrite <- ED. assert (XX * XX * 1 <= XX * XX * m) by (apply Rmult_le_compat_l; [apply Rle_0_sqr|lra]). lra. }
  assert (C5 : c * c * m * (1 + 3 * uu) <= (E * (1 - 512 * x) - XX * XX) * (1 + 3 * uu)) by (apply Rmult_le_compat_r; lra).
  assert (C6 : E * ((1 - 512 * x) * (1 + 3 * uu)) <= E * (1 - 8 * x)) by (apply Rmult_le_compat_l; [lra|nra]).
  assert (C7 : 0 <= XX * XX * uu) by (apply Rmult_le_pos; [apply Rle_0_sqr|lra]). lra.
Qed.
End Cut.

Section Run.
Variables a b : TS B64.
Hypothesis Ha : ts_ok a.
Hypothesis Hb : ts_ok b.
Hypothesis Hlen : ts_length a = ts_length b.
Hypothesis Hm : (1 <= ts_length a <= 2 ^ 30)%Z.
Hypothesis Fa : Forall (@nfin B64) (ts_points a).
Hypothesis Fb : Forall (@nfin B64) (ts_points b).
Variable cut : b64.
Hypothesis Fc : bfinb cut = true.
Hypothesis Pc : 0 <= bval cut.
Notation m := (ts_length a).
Notation N := (Z.to_nat m).
Notation E := (pair_sum sqd (reals a) (reals b)).
Notation D := (sqrt (E / IZR m)).
Notation th := (thr (IZR m) (bval cut)).
Notation inv := (Bmult mode_NE (Bmult mode_NE cut cut) (b64_ofZ m)).

Lemma inv_val : val inv = PInf \/ val inv = Fin th.
Proof.
  destruct (ofZ_facts m ltac:(lia)) as (F & Ev & Ez). rewrite !val_mult, Ez, (val_finite _ Fc). cbn [xmul].
  assert (P : 0 <= bval cut * bval cut) by apply Rle_0_sqr. assert (Pz : 1 <= IZR m) by (apply (IZR_le 1); lia).
  destruct (R64_cases _ P) as [E1|E1]; rewrite E1; cbn [xmul].
  - pose proof (rne_pos _ P). destruct (R64_cases (rne (bval cut * bval cut) * IZR m)) as [E2|E2]; auto.
    apply Rmult_le_pos; lra.
  - left. unfold xsgn_inf. rewrite Req_bool_false by lra. rewrite Rlt_bool_true by lra. reflexivity.
Qed.

Lemma inv_fin : th < big -> rne (bval cut * bval cut) < big -> val inv = Fin th.
Proof.
  intros H H2. destruct (ofZ_facts m ltac:(lia)) as (F & Ev & Ez). rewrite !val_mult, Ez, (val_finite _ Fc). cbn [xmul].
  assert (P : 0 <= bval cut * bval cut) by apply Rle_0_sqr. assert (Pz : 1 <= IZR m) by (apply (IZR_le 1); lia).
  pose proof (rne_pos _ P) as P1. unfold R64 at 2. rewrite (Rabs_pos_eq (rne _)) by auto. rewrite Rlt_bool_true by auto.
  cbn [xmul]. unfold R64. assert (P2 : 0 <= rne (bval cut * bval cut) * IZR m) by (apply Rmult_le_pos; lra).
  rewrite (Rabs_pos_eq (rne (_ * _))) by (apply rne_pos; auto). rewrite Rlt_bool_true by exact H. reflexivity.
Qed.

Lemma exceeds_is v : pw_exceeds (@Euclidean B64) a (cut : Num.D B64) v = Bltb inv v.
Proof. unfold pw_exceeds. cbn [m_inv Euclidean]. rewrite Z.max_id. reflexivity. Qed.

Lemma total_bounds : bfinb (total a b (@Euclidean B64)) = true ->
  let v := bval (total a b (@Euclidean B64)) in
  0 <= v /\ v <= (E + INR N * SS) * gg ^ N /\ E * hh ^ N - INR N * SS <= v.
Proof.
  intros F. destruct (euc_along a b (diag N) (fin_diag_a a Ha Hm Fa) (fin_diag_b a b Hb Hlen Hm Fb) F) as (P & U & L).
  rewrite (sum_diag a b Ha Hb Hlen Hm), diag_length in U, L. auto.
Qed.

Lemma E_pos : 0 <= E.
Proof. apply pair_sum_pos. intros; apply Rle_0_sqr. Qed.

Lemma cut_kept mt : D * (1 + 512 * (INR N * uu)) + XX <= bval cut ->
  pairwiseDistance (@Euclidean B64) a b cut mt = Ret (pw_full (@Euclidean B64) a b, mt).
Proof.
  intros H. destruct (N_range a Hm) as (N1 & N2 & N3). pose proof E_pos as PE.
  assert (T1 : 1 <= IZR m <= INR N) by (rewrite N3; split; [apply (IZR_le 1); lia|lra]).
  destruct (pw_run (@Euclidean B64) a b Ha Hb Hlen cut mt ltac:(lia)) as (k & Hk & [(E1 & _)|(E1 & Hk1 & Hx)]); auto.
  rewrite E1. destruct (euc_full a b Ha Hb Hlen Hm Fa Fb) as [Ei|(_ & Ft & _)].
  { replace (pw_full (@Euclidean B64) a b) with (@ninf B64 : b64); auto.
    destruct (pw_full (@Euclidean B64) a b) as [s|[]| |s m' e Hbd]; try discriminate Ei. reflexivity. }
  exfalso. destruct (total_bounds Ft) as (P & U & L).
  pose proof (cut_keeps N (IZR m) E _ (bval cut) N1 N2 T1 PE U H) as G.
  rewrite exceeds_is, val_ltb in Hx.
  pose proof (diag_mono (@Euclidean B64) Euclidean_nice a b Ha Hb Hlen Hm Fa Fb k N ltac:(lia) ltac:(lia)) as Hmn.
  change (@nle B64 (path_acc (@Euclidean B64) a b (diag k)) (total a b (@Euclidean B64))) in Hmn.
  apply nleP_val in Hmn. rewrite (val_finite _ Ft) in Hmn.
  destruct inv_val as [Ev|Ev]; rewrite Ev in Hx; [cbn [xltb] in Hx; discriminate Hx|].
  destruct (val (path_acc (@Euclidean B64) a b (diag k))) as [y| | |] eqn:Ey; simpl in Hx, Hmn; try contradiction; try discriminate Hx.
  destruct (Rlt_bool_spec th y) as [Hy|Hy]; [|discriminate Hx]. lra.
Qed.

Lemma cut_dropped mt : bval cut < D * (1 - 512 * (INR N * uu)) - XX ->
  pairwiseDistance (@Euclidean B64) a b cut mt = Ret (@ninf B64, mt).
Proof.
  intros H. destruct (N_range a Hm) as (N1 & N2 & N3). pose proof E_pos as PE.
  assert (T1 : 1 <= IZR m <= INR N) by (rewrite N3; split; [apply (IZR_le 1); lia|lra]).
  destruct (pw_run (@Euclidean B64) a b Ha Hb Hlen cut mt ltac:(lia)) as (k & Hk & [(E1 & Hno)|(E1 & Hk1 & Hx)]); auto.
  rewrite E1. destruct (euc_full a b Ha Hb Hlen Hm Fa Fb) as [Ei|(_ & Ft & _)].
  { replace (pw_full (@Euclidean B64) a b) with (@ninf B64 : b64); auto.
    destruct (pw_full (@Euclidean B64) a b) as [s|[]| |s m' e Hbd]; try discriminate Ei. reflexivity. }
  exfalso. destruct (total_bounds Ft) as (P & U & L).
  pose proof (cut_drops N (IZR m) E _ (bval cut) N1 N2 T1 PE Pc L H) as G.
  specialize (Hno N ltac:(lia)). rewrite exceeds_is, val_ltb in Hno.
  change (path_acc (@Euclidean B64) a b (diag N)) with (total a b (@Euclidean B64)) in Hno.
  assert (Hv : bval (total a b (@Euclidean B64)) < big).
  { pose proof (abs_B2R_lt_emax prec64 emax64 (total a b (@Euclidean B64))) as Hab.
    apply Rle_lt_trans with (2 := Hab). apply Rle_abs. }
  assert (Q : rne (bval cut * bval cut) <= th).
  { assert (P0 : 0 <= bval cut * bval cut) by apply Rle_0_sqr. pose proof (rne_pos _ P0) as P1.
    rewrite <- (rne_fmt (rne (bval cut * bval cut))) at 1 by apply rne_format. apply rne_mono.
    assert (rne (bval cut * bval cut) * 1 <= rne (bval cut * bval cut) * IZR m) by (apply Rmult_le_compat_l; lra). lra. }
  rewrite inv_fin in Hno by lra. rewrite (val_finite _ Ft) in Hno. cbn [xltb] in Hno.
  rewrite Rlt_bool_true in Hno by exact G. discriminate Hno.
Qed.
End Run.
