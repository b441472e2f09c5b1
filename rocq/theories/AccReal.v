(** Rounding errors: real-number facts behind PropsAccuracy.v. *)
From Coq Require Import Reals Lra Psatz Lia ZArith.
From Flocq Require Import Core BinarySingleNaN Relative Plus_error.
From Verif Require Import Base Num NumB64 NumLaws NumXR NumXRLaws NumB64Laws.
Local Open Scope R_scope.

#[local] Instance fexp64_valid : Valid_exp fexp64.
Proof. apply FLT_exp_valid. exact prec64_gt_0. Qed.

(** unit roundoff, half the smallest positive double, and two generous bounds
    for what underflow can add *)
Definition uu : R := bpow radix2 (-53).
Definition e0 : R := bpow radix2 (-1075).
Definition TT : R := bpow radix2 (-900).
Definition KK : R := bpow radix2 31.

Lemma uu_pos : 0 < uu. Proof. apply bpow_gt_0. Qed.
Lemma e0_pos : 0 < e0. Proof. apply bpow_gt_0. Qed.
Lemma TT_pos : 0 < TT. Proof. apply bpow_gt_0. Qed.
Lemma KK_val : KK = 2147483648. Proof. reflexivity. Qed.
Lemma uu_small : uu <= / 1000000.
Proof.
  unfold uu. apply Rle_trans with (bpow radix2 (-20)); [apply bpow_le; lia|].
  change (bpow radix2 (-20)) with (/ 1048576). apply Rinv_le; lra.
Qed.

Lemma rnd_err x : Rabs (rne x - x) <= uu * Rabs x + e0.
Proof.
  destruct (error_N_FLT radix2 (3 - emax64 - prec64) prec64 prec64_gt_0 (fun z => negb (Z.even z)) x)
    as (ep & et & H1 & H2 & _ & E).
  change (Znearest (fun z => negb (Z.even z))) with (round_mode mode_NE) in E. rewrite E.
  replace (x * (1 + ep) + et - x) with (ep * x + et) by ring.
  apply Rle_trans with (1 := Rabs_triang _ _). rewrite Rabs_mult.
  replace (/ 2 * bpow radix2 (- prec64 + 1)) with uu in H1.
  2:{ unfold uu. change (/2) with (bpow radix2 (-1)). rewrite <- bpow_plus. reflexivity. }
  replace (/ 2 * bpow radix2 (3 - emax64 - prec64)) with e0 in H2.
  2:{ unfold e0. change (/2) with (bpow radix2 (-1)). rewrite <- bpow_plus. reflexivity. }
  apply Rplus_le_compat; [|exact H2]. apply Rmult_le_compat_r; [apply Rabs_pos|exact H1].
Qed.

Lemma rnd_sum x y : generic_format radix2 fexp64 x -> generic_format radix2 fexp64 y ->
  Rabs (rne (x + y) - (x + y)) <= uu * Rabs (x + y).
Proof.
  intros Fx Fy.
  destruct (FLT_plus_error_N_ex radix2 (3 - emax64 - prec64) prec64 (fun z => negb (Z.even z)) x y Fx Fy) as (ep & H & E).
  change (Znearest (fun z => negb (Z.even z))) with (round_mode mode_NE) in E. rewrite E.
  replace ((x + y) * (1 + ep) - (x + y)) with (ep * (x + y)) by ring. rewrite Rabs_mult.
  apply Rmult_le_compat_r; [apply Rabs_pos|]. apply Rle_trans with (1 := H).
  assert (Eu : u_ro radix2 prec64 = uu).
  { unfold u_ro, uu. change (/2) with (bpow radix2 (-1)). rewrite <- bpow_plus. reflexivity. }
  rewrite Eu. pose proof uu_pos. apply Rmult_le_reg_r with (1 + uu); [lra|].
  unfold Rdiv. rewrite Rmult_assoc, Rinv_l by lra. nra.
Qed.

Lemma rnd_sub x y : generic_format radix2 fexp64 x -> generic_format radix2 fexp64 y ->
  Rabs (rne (x - y) - (x - y)) <= uu * Rabs (x - y).
Proof. intros Fx Fy. apply (rnd_sum x (- y)); auto. apply generic_format_opp; auto. Qed.

Lemma Rabs_both x a : Rabs x <= a -> - a <= x <= a.
Proof. intros H. apply Rabs_le_inv in H. exact H. Qed.

(** powers *)
Lemma pow_low x k : 0 <= x <= 1 -> 1 - INR k * x <= (1 - x) ^ k.
Proof.
  intros Hx. induction k as [|k IH]; [simpl; lra|]. rewrite S_INR. simpl.
  assert (0 <= INR k) by apply pos_INR. nra.
Qed.
Lemma pow_one x k : 0 <= x <= 1 -> (1 - x) ^ k <= 1.
Proof. intros Hx. induction k as [|k IH]; simpl; [lra|]. assert (0 <= (1 - x) ^ k) by (apply pow_le; lra). nra. Qed.
Lemma pow_high x k : 0 <= x <= 1 -> INR k * x <= / 2 -> (1 + x) ^ k <= 1 + 2 * (INR k * x).
Proof.
  intros Hx Hk. pose proof (pow_low x k Hx) as Hl.
  assert (Hm : (1 + x) ^ k * (1 - x) ^ k <= 1).
  { rewrite <- Rpow_mult_distr. replace ((1 + x) * (1 - x)) with (1 - x * x) by ring. apply pow_one. nra. }
  assert (Hp : 0 <= (1 + x) ^ k) by (apply pow_le; lra).
  assert (H0 : 0 <= INR k * x) by (apply Rmult_le_pos; [apply pos_INR|lra]).
  set (s := INR k * x) in *. set (P := (1 + x) ^ k) in *.
  assert (P * (1 - s) <= 1) by nra.
  apply Rmult_le_reg_r with (1 - s); [lra|]. nra.
Qed.

(** when rounded quotients compare, so do the numerators, nearly *)
Section Compare.
Variable K : R.
Hypothesis HK : 1 <= K <= KK.

Definition e1 : R := 2 * e0 * KK.
Lemma e1_is : e1 = bpow radix2 (-1043).
Proof.
  unfold e1, e0, KK. change 2 with (bpow radix2 1). rewrite <- !bpow_plus. reflexivity.
Qed.
Lemma e1_TT : 4 * e1 <= TT.
Proof. rewrite e1_is. unfold TT. change 4 with (bpow radix2 2). rewrite <- bpow_plus. apply bpow_le. lia. Qed.
Lemma e0_e1 : e0 <= e1.
Proof. pose proof e0_pos. unfold e1. rewrite KK_val. nra. Qed.

Lemma div_cmp a b : 0 <= a -> 0 <= b -> rne (a / K) <= rne (b / K) -> a * (1 - uu) <= b * (1 + uu) + e1.
Proof.
  intros Ha Hb H. pose proof (rnd_err (a / K)) as E1. pose proof (rnd_err (b / K)) as E2.
  assert (Pa : 0 <= a / K) by (apply Rle_mult_inv_pos; lra).
  assert (Pb : 0 <= b / K) by (apply Rle_mult_inv_pos; lra).
  rewrite (Rabs_pos_eq (a / K)) in E1 by auto. rewrite (Rabs_pos_eq (b / K)) in E2 by auto.
  apply Rabs_both in E1. apply Rabs_both in E2. destruct E1 as [E1a E1b], E2 as [E2a E2b].
  assert (Ea : a = a / K * K) by (field; lra). assert (Eb : b = b / K * K) by (field; lra).
  set (qa := a / K) in *. set (qb := b / K) in *. pose proof e0_pos. pose proof uu_pos.
  assert (G : qa * (1 - uu) <= qb * (1 + uu) + 2 * e0) by lra.
  rewrite Ea, Eb. unfold e1.
  assert (qa * (1 - uu) * K <= (qb * (1 + uu) + 2 * e0) * K) by (apply Rmult_le_compat_r; lra).
  assert (2 * e0 * K <= 2 * e0 * KK) by (apply Rmult_le_compat_l; lra). lra.
Qed.

Lemma cmp_linear a b : 0 <= a -> 0 <= b -> rne (a / K) <= rne (b / K) -> a <= b * (1 + 20 * uu) + TT.
Proof.
  intros Ha Hb H. pose proof (div_cmp a b Ha Hb H) as G. pose proof uu_pos. pose proof uu_small.
  pose proof e1_TT. pose proof TT_pos.
  assert (Pe : 0 < e1) by (pose proof e0_e1; pose proof e0_pos; lra).
  apply Rmult_le_reg_r with (1 - uu); [lra|]. apply Rle_trans with (1 := G).
  replace ((b * (1 + 20 * uu) + TT) * (1 - uu)) with (b * (1 + uu) + b * (uu * (18 - 20 * uu)) + TT * (1 - uu)) by ring.
  assert (0 <= b * (uu * (18 - 20 * uu))) by (apply Rmult_le_pos; [lra|apply Rmult_le_pos; lra]).
  assert (TT * (1 - uu) >= TT * / 2) by (apply Rmult_ge_compat_l; lra). lra.
Qed.

Definition e2 : R := bpow radix2 (-1040).
Definition ww : R := bpow radix2 (-27).
Lemma ww_uu : 2 * (ww * ww) = uu.
Proof. unfold ww, uu. change 2 with (bpow radix2 1). rewrite <- !bpow_plus. reflexivity. Qed.

Lemma cmp_sqrt a b : 0 <= a -> 0 <= b -> rne (rne (sqrt a) / K) <= rne (rne (sqrt b) / K) ->
  a <= b * (1 + 20 * uu) + TT.
Proof.
  intros Ha Hb H.
  assert (Sa : 0 <= sqrt a) by apply sqrt_pos. assert (Sb : 0 <= sqrt b) by apply sqrt_pos.
  pose proof (div_cmp (rne (sqrt a)) (rne (sqrt b)) (rne_pos _ Sa) (rne_pos _ Sb) H) as G.
  pose proof (rnd_err (sqrt a)) as E1. pose proof (rnd_err (sqrt b)) as E2.
  rewrite (Rabs_pos_eq (sqrt a)) in E1 by auto. rewrite (Rabs_pos_eq (sqrt b)) in E2 by auto.
  apply Rabs_both in E1. apply Rabs_both in E2. destruct E1 as [E1a E1b], E2 as [E2a E2b].
  rewrite <- (sqrt_sqrt a) by auto. rewrite <- (sqrt_sqrt b) by auto.
  set (x := sqrt a) in *. set (y := sqrt b) in *. set (x' := rne x) in *. set (y' := rne y) in *.
  pose proof uu_pos as Pu. pose proof uu_small as Su. pose proof e0_pos as P0. pose proof e0_e1 as L01.
  assert (Pe1 : 0 < e1) by lra.
  assert (E21 : 8 * e1 = e2).
  { rewrite e1_is. unfold e2. change 8 with (bpow radix2 3). rewrite <- bpow_plus. reflexivity. }
  assert (G2 : x * (1 - 3 * uu) <= y * (1 + 3 * uu) + 4 * e1).
  { assert (x' >= x * (1 - uu) - e0) by lra. assert (y' <= y * (1 + uu) + e0) by lra.
    assert ((x * (1 - uu) - e0) * (1 - uu) <= (y * (1 + uu) + e0) * (1 + uu) + e1) by nra. nra. }
  assert (G3 : x <= y * (1 + 7 * uu) + e2).
  { apply Rmult_le_reg_r with (1 - 3 * uu); [lra|]. apply Rle_trans with (1 := G2).
    rewrite <- E21. assert (0 <= y * uu) by (apply Rmult_le_pos; lra). nra. }
  assert (P2 : 0 < e2) by lra.
  assert (G4 : x * x <= (y * (1 + 7 * uu) + e2) * (y * (1 + 7 * uu) + e2)) by (apply Rmult_le_compat; lra).
  apply Rle_trans with (1 := G4).
  (* the cross term *)
  assert (Pw : 0 < ww) by apply bpow_gt_0. pose proof ww_uu as Ew.
  set (z := e2 / ww). assert (Ez : e2 = ww * z) by (unfold z; field; lra).
  assert (Hz : 20 * (z * z) <= TT).
  { unfold z. replace (e2 / ww) with (bpow radix2 (-1013)).
    - unfold TT. apply Rle_trans with (bpow radix2 5 * (bpow radix2 (-1013) * bpow radix2 (-1013))).
      + apply Rmult_le_compat_r; [apply Rmult_le_pos; apply bpow_ge_0|]. change (bpow radix2 5) with 32. lra.
      + rewrite <- !bpow_plus. apply bpow_le. lia.
    - unfold e2, ww. unfold Rdiv. rewrite <- bpow_opp, <- bpow_plus. reflexivity. }
  assert (Cr : 2 * (y * e2) <= ww * ww * (y * y) / 1 + z * z).
  { rewrite Ez. assert (0 <= (ww * y - z) * (ww * y - z)) by apply Rle_0_sqr. nra. }
  assert (He : e2 * e2 <= z * z).
  { rewrite Ez. assert (ww <= 1) by (unfold ww; change 1 with (bpow radix2 0); apply bpow_le; lia).
    assert (0 <= z * z) by apply Rle_0_sqr. assert (ww * ww <= 1) by nra.
    replace (ww * z * (ww * z)) with (ww * ww * (z * z)) by ring. nra. }
  assert (Hyy : 0 <= y * y) by apply Rle_0_sqr.
  assert (Hye : 0 <= y * e2) by (apply Rmult_le_pos; lra).
  assert (C2 : 14 * uu * (y * e2) <= y * e2) by nra.
  replace ((y * (1 + 7 * uu) + e2) * (y * (1 + 7 * uu) + e2))
    with (y * y * (1 + 14 * uu + 49 * (uu * uu)) + 2 * (y * e2) + 14 * uu * (y * e2) + e2 * e2) by ring.
  nra.
Qed.
End Compare.
