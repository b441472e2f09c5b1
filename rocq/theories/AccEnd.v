(** Rounding errors of the final normalisation of an accumulated sum. *)
From Coq Require Import Reals Lra Psatz Lia ZArith.
From Flocq Require Import Core BinarySingleNaN.
From Verif Require Import Base Num NumB64 NumLaws NumXR NumXRLaws NumB64Laws LoopFacts AccReal AccDtw.
Local Open Scope R_scope.

(** relative error allowed for a sum of [k] terms, and the absolute errors *)
Definition rho (k : nat) : R := INR k * (256 * uu).
Definition X0 : R := bpow radix2 (-860).
Definition XX : R := bpow radix2 (-400).
Definition YY : R := bpow radix2 (-430).

Lemma YY_sq : YY * YY = X0.
Proof. unfold YY, X0. rewrite <- bpow_plus. reflexivity. Qed.
Lemma YY_pos : 0 < YY. Proof. apply bpow_gt_0. Qed.
Lemma X0_pos : 0 < X0. Proof. apply bpow_gt_0. Qed.
Lemma YY_XX : 16 * YY <= XX.
Proof. unfold YY, XX. change 16 with (bpow radix2 4). rewrite <- bpow_plus. apply bpow_le. lia. Qed.
Lemma X0_YY : X0 <= YY.
Proof. unfold X0, YY. apply bpow_le. lia. Qed.
Lemma e0_X0 : 16 * e0 <= X0.
Proof. unfold e0, X0. change 16 with (bpow radix2 4). rewrite <- bpow_plus. apply bpow_le. lia. Qed.

Lemma kS_X0 k : INR k <= KK -> 16 * (INR k * SS) <= X0.
Proof.
  intros Hk. unfold SS. pose proof TT_pos.
  apply Rle_trans with (bpow radix2 4 * (KK * (bpow radix2 1 * TT))).
  - change (bpow radix2 4) with 16. change (bpow radix2 1) with 2. apply Rmult_le_compat_l; [lra|].
    apply Rmult_le_compat_r; lra.
  - unfold KK, TT, X0. rewrite <- !bpow_plus. apply bpow_le. lia.
Qed.

Lemma uk_small k : INR k <= KK -> INR k * uu <= / 1000000.
Proof.
  intros Hk. apply Rle_trans with (KK * uu); [apply Rmult_le_compat_r; [apply Rlt_le, uu_pos|auto]|].
  unfold KK, uu. rewrite <- bpow_plus. apply Rle_trans with (bpow radix2 (-20)); [apply bpow_le; lia|].
  change (bpow radix2 (-20)) with (/ 1048576). apply Rinv_le; lra.
Qed.

Lemma gg_up k : INR k <= KK -> gg ^ k <= 1 + 64 * (INR k * uu).
Proof.
  intros Hk. pose proof (uk_small k Hk). pose proof uu_pos. pose proof uu_small. unfold gg.
  apply Rle_trans with (1 := pow_high (32 * uu) k ltac:(lra) ltac:(lra)). lra.
Qed.
Lemma hh_low k : 1 - 8 * (INR k * uu) <= hh ^ k.
Proof.
  pose proof uu_pos. pose proof uu_small. unfold hh.
  apply Rle_trans with (2 := pow_low (8 * uu) k ltac:(lra)). lra.
Qed.

Lemma sqrt_le_self1 y : 1 <= y -> sqrt y <= y.
Proof. intros H. rewrite <- (sqrt_square y) at 2 by lra. apply sqrt_le_1; nra. Qed.
Lemma sqrt_ge_self1 y : 0 <= y <= 1 -> y <= sqrt y.
Proof. intros H. rewrite <- (sqrt_square y) at 1 by lra. apply sqrt_le_1; nra. Qed.
Lemma sqrt_add x y : 0 <= x -> 0 <= y -> sqrt (x + y) <= sqrt x + sqrt y.
Proof.
  intros Hx Hy. pose proof (sqrt_pos x). pose proof (sqrt_pos y).
  rewrite <- (sqrt_square (sqrt x + sqrt y)) by lra. apply sqrt_le_1; [lra|nra|].
  pose proof (sqrt_sqrt x Hx). pose proof (sqrt_sqrt y Hy). nra.
Qed.
Lemma sqrt_YY y : 0 <= y <= X0 -> sqrt y <= YY.
Proof.
  intros H. pose proof YY_pos. rewrite <- (sqrt_square YY) by lra. rewrite YY_sq. apply sqrt_le_1; lra.
Qed.

Lemma rnd_pos_err x : 0 <= x -> x * (1 - uu) - e0 <= rne x <= x * (1 + uu) + e0.
Proof. intros H. pose proof (rnd_err x) as E. rewrite (Rabs_pos_eq x) in E by auto. apply Rabs_both in E. lra. Qed.

Section End.
Variables (k : nat) (K : R).
Hypothesis Hk1 : 1 <= INR k.
Hypothesis Hk : INR k <= KK.
Hypothesis HK : 1 <= K.

Notation ku := (INR k * uu).

Lemma ku_facts : uu <= ku /\ 0 < ku <= / 1000000 /\ 0 <= INR k * SS /\ 16 * (INR k * SS) <= X0.
Proof.
  pose proof uu_pos. pose proof (uk_small k Hk). pose proof (kS_X0 k Hk).
  assert (0 <= SS) by (unfold SS; pose proof TT_pos; lra).
  assert (0 <= INR k * SS) by (apply Rmult_le_pos; lra). splits; auto; nra.
Qed.

Lemma divK_le x : 0 <= x -> 0 <= x / K <= x.
Proof.
  intros Hx. split; [apply Rle_mult_inv_pos; lra|]. apply Rmult_le_reg_r with K; [lra|].
  unfold Rdiv. rewrite Rmult_assoc, Rinv_l by lra. nra.
Qed.

Lemma lin_up v O : 0 <= v -> 0 <= O -> v <= (O + INR k * SS) * gg ^ k ->
  rne (v / K) <= O / K * (1 + 128 * ku) + X0.
Proof.
  intros Hv HO H. destruct ku_facts as (U1 & U2 & U3 & U4). pose proof uu_pos. pose proof (gg_up k Hk) as G.
  pose proof e0_X0. pose proof e0_pos.
  set (s := INR k * SS) in *. set (t := ku) in *.
  assert (H' : v <= (O + s) * (1 + 64 * t)) by (apply Rle_trans with (1 := H); apply Rmult_le_compat_l; lra).
  assert (HvK : v / K <= (O / K + s / K) * (1 + 64 * t)).
  { replace ((O / K + s / K) * (1 + 64 * t)) with ((O + s) * (1 + 64 * t) / K) by (field; lra).
    apply Rmult_le_compat_r; [apply Rlt_le, Rinv_0_lt_compat; lra|auto]. }
  destruct (rnd_pos_err (v / K) (proj1 (divK_le v Hv))) as [_ E].
  pose proof (divK_le O HO) as [P1 _]. pose proof (divK_le s U3) as [P2 P3].
  set (o := O / K) in *. set (s' := s / K) in *.
  assert (F : (1 + 64 * t) * (1 + uu) <= 1 + 128 * t) by nra.
  assert ((o + s') * (1 + 64 * t) * (1 + uu) <= (o + s') * (1 + 128 * t)) by (rewrite Rmult_assoc; apply Rmult_le_compat_l; lra).
  assert (v / K * (1 + uu) <= (o + s') * (1 + 64 * t) * (1 + uu)) by (apply Rmult_le_compat_r; lra).
  assert (s' * (1 + 128 * t) <= s' * 2) by (apply Rmult_le_compat_l; lra). lra.
Qed.

Lemma lin_low v E : 0 <= v -> 0 <= E -> E * hh ^ k - INR k * SS <= v ->
  E / K * (1 - 128 * ku) - X0 <= rne (v / K).
Proof.
  intros Hv HE H. destruct ku_facts as (U1 & U2 & U3 & U4). pose proof uu_pos. pose proof (hh_low k) as G.
  pose proof e0_X0. pose proof e0_pos.
  set (s := INR k * SS) in *. set (t := ku) in *.
  assert (H' : E * (1 - 8 * t) - s <= v).
  { apply Rle_trans with (2 := H). assert (E * (1 - 8 * t) <= E * hh ^ k) by (apply Rmult_le_compat_l; lra). lra. }
  assert (HvK : E / K * (1 - 8 * t) - s / K <= v / K).
  { replace (E / K * (1 - 8 * t) - s / K) with ((E * (1 - 8 * t) - s) / K) by (field; lra).
    apply Rmult_le_compat_r; [apply Rlt_le, Rinv_0_lt_compat; lra|auto]. }
  destruct (rnd_pos_err (v / K) (proj1 (divK_le v Hv))) as [E0 _].
  pose proof (divK_le E HE) as [P1 _]. pose proof (divK_le s U3) as [P2 P3].
  set (o := E / K) in *. set (s' := s / K) in *.
  assert (F : 1 - 128 * t <= (1 - 8 * t) * (1 - uu)) by nra.
  assert (o * (1 - 128 * t) <= o * ((1 - 8 * t) * (1 - uu))) by (apply Rmult_le_compat_l; lra).
  assert ((o * (1 - 8 * t) - s') * (1 - uu) <= v / K * (1 - uu)) by (apply Rmult_le_compat_r; [pose proof uu_small; lra|auto]).
  assert (0 <= s' * uu) by (apply Rmult_le_pos; lra). lra.
Qed.

(** sqrt, then division *)
Lemma sq_up v O : 0 <= v -> 0 <= O -> v <= (O + INR k * SS) * gg ^ k ->
  rne (rne (sqrt v) / K) <= sqrt O / K * (1 + rho k) + XX.
Proof.
  intros Hv HO H. destruct ku_facts as (U1 & U2 & U3 & U4). pose proof uu_pos. pose proof uu_small. pose proof (gg_up k Hk) as G.
  pose proof e0_X0. pose proof e0_pos. pose proof X0_YY. pose proof YY_XX. pose proof X0_pos. pose proof (gg_pow k) as G1.
  unfold rho. replace (INR k * (256 * uu)) with (256 * ku) by ring.
  set (s := INR k * SS) in *. set (t := ku) in *.
  assert (S1 : sqrt v <= (sqrt O + YY) * (1 + 64 * t)).
  { apply Rle_trans with (sqrt ((O + s) * gg ^ k)).
    - apply sqrt_le_1; auto. apply Rle_trans with v; auto.
    - rewrite sqrt_mult by lra. apply Rmult_le_compat; try apply sqrt_pos.
      + apply Rle_trans with (1 := sqrt_add O s HO U3). apply Rplus_le_compat_l, sqrt_YY. lra.
      + apply Rle_trans with (2 := G). apply sqrt_le_self1, G1. }
  pose proof (sqrt_pos v) as Pv. pose proof (sqrt_pos O) as PO. pose proof YY_pos.
  destruct (rnd_pos_err (sqrt v) Pv) as [_ E1].
  assert (P1 : 0 <= rne (sqrt v)) by (apply rne_pos; auto).
  destruct (rnd_pos_err (rne (sqrt v) / K) (proj1 (divK_le _ P1))) as [_ E2].
  set (q := sqrt O) in *.
  assert (Q1 : rne (sqrt v) <= (q + YY) * (1 + 66 * t) + e0).
  { apply Rle_trans with (1 := E1). apply Rplus_le_compat_r.
    apply Rle_trans with ((q + YY) * (1 + 64 * t) * (1 + uu)); [apply Rmult_le_compat_r; lra|].
    rewrite Rmult_assoc. apply Rmult_le_compat_l; [lra|]. nra. }
  assert (Q2 : rne (sqrt v) / K <= (q / K + YY) * (1 + 66 * t) + e0).
  { apply Rle_trans with (((q + YY) * (1 + 66 * t) + e0) / K).
    - apply Rmult_le_compat_r; [apply Rlt_le, Rinv_0_lt_compat; lra|auto].
    - replace (((q + YY) * (1 + 66 * t) + e0) / K) with ((q / K + YY / K) * (1 + 66 * t) + e0 / K) by (field; lra).
      pose proof (divK_le YY ltac:(lra)) as [D1 D2]. pose proof (divK_le e0 ltac:(lra)) as [D3 D4].
      apply Rplus_le_compat; auto. apply Rmult_le_compat_r; lra. }
  pose proof (divK_le q PO) as [D1 _]. set (o := q / K) in *.
  apply Rle_trans with (1 := E2).
  assert (((o + YY) * (1 + 66 * t) + e0) * (1 + uu) <= o * (1 + 256 * t) + 2 * YY + 2 * e0).
  { assert ((1 + 66 * t) * (1 + uu) <= 1 + 256 * t) by nra.
    assert ((o + YY) * ((1 + 66 * t) * (1 + uu)) <= (o + YY) * (1 + 256 * t)) by (apply Rmult_le_compat_l; lra). nra. }
  assert (rne (sqrt v) / K * (1 + uu) <= ((o + YY) * (1 + 66 * t) + e0) * (1 + uu)) by (apply Rmult_le_compat_r; lra).
  lra.
Qed.

Lemma sqrt_low v E : 0 <= v -> 0 <= E -> E * hh ^ k - INR k * SS <= v ->
  sqrt E * (1 - 8 * ku) - YY <= sqrt v.
Proof.
  intros Hv HE H. destruct ku_facts as (U1 & U2 & U3 & U4). pose proof (hh_low k) as G. pose proof (hh_pow k) as G1.
  set (s := INR k * SS) in *. pose proof X0_pos.
  assert (S1 : sqrt (E * hh ^ k) <= sqrt v + YY).
  { apply Rle_trans with (sqrt (v + s)).
    - apply sqrt_le_1; [apply Rmult_le_pos; lra|lra|lra].
    - apply Rle_trans with (1 := sqrt_add v s Hv U3). apply Rplus_le_compat_l, sqrt_YY. lra. }
  rewrite sqrt_mult in S1 by lra.
  assert (sqrt E * (1 - 8 * ku) <= sqrt E * sqrt (hh ^ k)).
  { apply Rmult_le_compat_l; [apply sqrt_pos|]. apply Rle_trans with (1 := G). apply sqrt_ge_self1; auto. }
  lra.
Qed.

Lemma sq_low v E : 0 <= v -> 0 <= E -> E * hh ^ k - INR k * SS <= v ->
  sqrt E / K * (1 - rho k) - XX <= rne (rne (sqrt v) / K).
Proof.
  intros Hv HE H. pose proof (sqrt_low v E Hv HE H) as S1. destruct ku_facts as (U1 & U2 & U3 & U4).
  pose proof uu_pos. pose proof uu_small. pose proof e0_X0. pose proof e0_pos. pose proof X0_YY. pose proof YY_XX.
  pose proof X0_pos. pose proof YY_pos. unfold rho. replace (INR k * (256 * uu)) with (256 * ku) by ring.
  set (t := ku) in *.
  pose proof (sqrt_pos v) as Pv. pose proof (sqrt_pos E) as PO.
  destruct (rnd_pos_err (sqrt v) Pv) as [E1 _].
  assert (P1 : 0 <= rne (sqrt v)) by (apply rne_pos; auto).
  destruct (rnd_pos_err (rne (sqrt v) / K) (proj1 (divK_le _ P1))) as [E2 _].
  set (q := sqrt E) in *.
  assert (Q1 : q * (1 - 10 * t) - 2 * YY <= rne (sqrt v)).
  { apply Rle_trans with (2 := E1).
    assert ((q * (1 - 8 * t) - YY) * (1 - uu) <= sqrt v * (1 - uu)) by (apply Rmult_le_compat_r; lra).
    assert (q * (1 - 10 * t) <= q * ((1 - 8 * t) * (1 - uu))) by (apply Rmult_le_compat_l; [lra|nra]).
    assert (0 <= YY * uu) by (apply Rmult_le_pos; lra). lra. }
  assert (Q2 : q / K * (1 - 10 * t) - 2 * YY <= rne (sqrt v) / K).
  { apply Rle_trans with ((q * (1 - 10 * t) - 2 * YY) / K).
    - replace ((q * (1 - 10 * t) - 2 * YY) / K) with (q / K * (1 - 10 * t) - 2 * (YY / K)) by (field; lra).
      pose proof (divK_le YY ltac:(lra)) as [D1 D2]. lra.
    - apply Rmult_le_compat_r; [apply Rlt_le, Rinv_0_lt_compat; lra|auto]. }
  pose proof (divK_le q PO) as [D1 _]. set (o := q / K) in *.
  apply Rle_trans with (2 := E2).
  assert ((o * (1 - 10 * t) - 2 * YY) * (1 - uu) <= rne (sqrt v) / K * (1 - uu)) by (apply Rmult_le_compat_r; lra).
  assert (o * (1 - 256 * t) <= o * ((1 - 10 * t) * (1 - uu))) by (apply Rmult_le_compat_l; [lra|nra]).
  assert (0 <= YY * uu) by (apply Rmult_le_pos; lra). lra.
Qed.

(** division, then sqrt *)
Lemma rt_up v O : 0 <= v -> 0 <= O -> v <= (O + INR k * SS) * gg ^ k ->
  rne (sqrt (rne (v / K))) <= sqrt (O / K) * (1 + rho k) + XX.
Proof.
  intros Hv HO H. pose proof (lin_up v O Hv HO H) as L. destruct ku_facts as (U1 & U2 & U3 & U4).
  pose proof uu_pos. pose proof uu_small. pose proof e0_X0. pose proof e0_pos. pose proof X0_YY. pose proof YY_XX.
  pose proof X0_pos. pose proof YY_pos. unfold rho. replace (INR k * (256 * uu)) with (256 * ku) by ring.
  pose proof (divK_le O HO) as [D1 _]. pose proof (rne_pos _ (proj1 (divK_le v Hv))) as Pw.
  set (w := rne (v / K)) in *. set (t := ku) in *. set (o := O / K) in *.
  assert (Po : 0 <= o * (1 + 128 * t)) by (apply Rmult_le_pos; lra).
  assert (S1 : sqrt w <= sqrt o * (1 + 128 * t) + YY).
  { apply Rle_trans with (sqrt (o * (1 + 128 * t) + X0)); [apply sqrt_le_1; lra|].
    apply Rle_trans with (1 := sqrt_add (o * (1 + 128 * t)) X0 Po (Rlt_le _ _ X0_pos)). apply Rplus_le_compat; [|apply sqrt_YY; lra].
    rewrite sqrt_mult by lra. apply Rmult_le_compat_l; [apply sqrt_pos|]. apply sqrt_le_self1. lra. }
  destruct (rnd_pos_err (sqrt w) (sqrt_pos w)) as [_ E1]. pose proof (sqrt_pos o) as Pq. set (q := sqrt o) in *.
  apply Rle_trans with (1 := E1).
  assert (sqrt w * (1 + uu) <= (q * (1 + 128 * t) + YY) * (1 + uu)) by (apply Rmult_le_compat_r; lra).
  assert (q * ((1 + 128 * t) * (1 + uu)) <= q * (1 + 256 * t)) by (apply Rmult_le_compat_l; [lra|nra]).
  assert (YY * uu <= YY * 1) by (apply Rmult_le_compat_l; lra). lra.
Qed.

Lemma rt_low v E : 0 <= v -> 0 <= E -> E * hh ^ k - INR k * SS <= v ->
  sqrt (E / K) * (1 - rho k) - XX <= rne (sqrt (rne (v / K))).
Proof.
  intros Hv HO H. pose proof (lin_low v E Hv HO H) as L. destruct ku_facts as (U1 & U2 & U3 & U4).
  pose proof uu_pos. pose proof uu_small. pose proof e0_X0. pose proof e0_pos. pose proof X0_YY. pose proof YY_XX.
  pose proof X0_pos. pose proof YY_pos. unfold rho. replace (INR k * (256 * uu)) with (256 * ku) by ring.
  pose proof (divK_le E HO) as [D1 _]. pose proof (rne_pos _ (proj1 (divK_le v Hv))) as Pw.
  set (w := rne (v / K)) in *. set (t := ku) in *. set (o := E / K) in *.
  assert (Po : 0 <= o * (1 - 128 * t)) by (apply Rmult_le_pos; lra).
  assert (S1 : sqrt o * (1 - 128 * t) <= sqrt w + YY).
  { apply Rle_trans with (sqrt (o * (1 - 128 * t))).
    - rewrite sqrt_mult by lra. apply Rmult_le_compat_l; [apply sqrt_pos|]. apply sqrt_ge_self1. lra.
    - apply Rle_trans with (sqrt (w + X0)); [apply sqrt_le_1; lra|].
      apply Rle_trans with (1 := sqrt_add w X0 Pw ltac:(lra)). apply Rplus_le_compat_l, sqrt_YY. lra. }
  destruct (rnd_pos_err (sqrt w) (sqrt_pos w)) as [E1 _]. pose proof (sqrt_pos o) as Pq. set (q := sqrt o) in *.
  apply Rle_trans with (2 := E1).
  assert ((q * (1 - 128 * t) - YY) * (1 - uu) <= sqrt w * (1 - uu)) by (apply Rmult_le_compat_r; lra).
  assert (q * (1 - 256 * t) <= q * ((1 - 128 * t) * (1 - uu))) by (apply Rmult_le_compat_l; [lra|nra]).
  assert (0 <= YY * uu) by (apply Rmult_le_pos; lra). lra.
Qed.

Lemma li_up v O : 0 <= v -> 0 <= O -> v <= (O + INR k * SS) * gg ^ k ->
  rne (v / K) <= O / K * (1 + rho k) + XX.
Proof.
  intros Hv HO H. pose proof (lin_up v O Hv HO H) as L. destruct ku_facts as (U1 & U2 & _).
  pose proof X0_YY. pose proof YY_XX. pose proof YY_pos. pose proof (divK_le O HO) as [D1 _].
  unfold rho. replace (INR k * (256 * uu)) with (256 * ku) by ring.
  assert (0 <= O / K * ku) by (apply Rmult_le_pos; lra). lra.
Qed.
Lemma li_low v E : 0 <= v -> 0 <= E -> E * hh ^ k - INR k * SS <= v ->
  E / K * (1 - rho k) - XX <= rne (v / K).
Proof.
  intros Hv HO H. pose proof (lin_low v E Hv HO H) as L. destruct ku_facts as (U1 & U2 & _).
  pose proof X0_YY. pose proof YY_XX. pose proof YY_pos. pose proof (divK_le E HO) as [D1 _].
  unfold rho. replace (INR k * (256 * uu)) with (256 * ku) by ring.
  assert (0 <= E / K * ku) by (apply Rmult_le_pos; lra). lra.
Qed.
End End.
