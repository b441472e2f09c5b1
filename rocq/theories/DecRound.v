(** Proofs about the text of numbers (PrintDec.v), part 3: writing and reading one number. *)
From Coq Require Import ZArith Lia Reals Lra String Ascii.
From Flocq Require Import Core BinarySingleNaN Relative.
From Verif Require Import Base Num NumB64 NumB64Laws LoopFacts Loader LoaderSpec PrintDec DecText DecReal.
Local Open Scope Z_scope.
Notation B2R := (@BinarySingleNaN.B2R prec64 emax64).

Definition minus (s : bool) : string := if s then "-"%string else ""%string.
Definition signed (s : bool) (r : R) : R := if s then (- r)%R else r.

(** the fraction that is printed *)
Lemma fraction s m e H : let x : b64 := B754_finite s m e H in
  let n := Z.pos m * 2 ^ Z.max e 0 in let d := 2 ^ Z.max (- e) 0 in
  0 < n /\ 0 < d /\ (IZR n / IZR d = Rabs (B2R x))%R /\ (0 < Rabs (B2R x))%R /\ B2R x = signed s (Rabs (B2R x)) /\ -1100 <= Z.log2 n - Z.log2 d <= 1100.
Proof.
  intros x n d. assert (Pd : 0 < d) by (apply Z.pow_pos_nonneg; lia). assert (P2 : 0 < 2 ^ Z.max e 0) by (apply Z.pow_pos_nonneg; lia).
  assert (Pn : 0 < n) by (unfold n; nia).
  assert (Ex : (Rabs (B2R x) = IZR (Z.pos m) * b2 e)%R).
  { unfold x, BinarySingleNaN.B2R. rewrite <- F2R_Zabs. unfold F2R. cbn [Fnum Fexp]. f_equal. f_equal. destruct s; reflexivity. }
  assert (Pm : (0 < IZR (Z.pos m))%R) by (apply (IZR_lt 0); lia). assert (Pe := b2_pos e).
  assert (Eq : (IZR n / IZR d = Rabs (B2R x))%R).
  { rewrite Ex. unfold n, d. rewrite mult_IZR, !IZR_2 by lia. unfold Rdiv. rewrite <- bpow_opp, Rmult_assoc, <- bpow_plus. f_equal. f_equal. lia. }
  assert (P : (0 < Rabs (B2R x))%R) by (rewrite Ex; apply Rmult_lt_0_compat; lra).
  split; [exact Pn|]. split; [exact Pd|]. split; [exact Eq|]. split; [exact P|]. split.
  - unfold signed. unfold x, BinarySingleNaN.B2R. destruct s; cbn [cond_Zopp].
    + rewrite Rabs_left; [ring|]. apply F2R_lt_0. reflexivity.
    + rewrite Rabs_pos_eq; [reflexivity|]. apply F2R_ge_0. cbn. lia.
  - pose proof (x_binary n d Pn Pd) as [B1 B2]. rewrite Eq in B1, B2.
    assert (U : (Rabs (B2R x) < b2 emax64)%R) by apply (abs_B2R_lt_emax prec64 emax64 x).
    assert (Lo : (b2 (-1074) <= Rabs (B2R x))%R).
    { apply (abs_B2R_ge_emin prec64 emax64 x). reflexivity. }
    pose proof (lt_bpow radix2 _ _ (Rlt_trans _ _ _ B1 U)). pose proof (lt_bpow radix2 _ _ (Rle_lt_trans _ _ _ Lo B2)). unfold emax64 in *. lia.
Qed.

Lemma put_is p x : 1 <= p -> is_finite x = true -> B2R x <> 0%R -> exists M k,
  put_double p x = (minus (Bsign x) ++ format_g p M k)%string /\ 10 ^ (p - 1) <= M < 10 ^ p /\
  (Rabs (Rabs (B2R x) - IZR M * b10 (k - p + 1)) <= b10 (k - p + 1) / 2)%R /\
  (Rabs (Rabs (B2R x) - IZR M * b10 (k - p + 1)) <= b10 (1 - p) / 2 * Rabs (B2R x))%R /\
  (Rabs (Rabs (B2R x) - IZR M * b10 (k - p + 1)) = b10 (k - p + 1) / 2 -> Z.even M = true)%R.
Proof.
  intros Hp Hf Hx. destruct x as [s|s| |s m e H]; try discriminate; try (elim Hx; reflexivity).
  destruct (fraction s m e H) as (Pn & Pd & Eq & _ & _ & HL). destruct (significant_ok p _ _ Hp Pn Pd HL) as (M & k & E & HM & H1 & H2 & H3).
  rewrite Eq in H1, H2, H3. exists M, k. split; [unfold put_double; rewrite E; reflexivity|]. auto.
Qed.

Lemma put_unique p x M k : 1 <= p -> is_finite x = true -> B2R x <> 0%R -> 10 ^ (p - 1) <= M < 10 ^ p ->
  (Rabs (Rabs (B2R x) - IZR M * b10 (k - p + 1)) < b10 (k - p + 1) / 20)%R -> put_double p x = (minus (Bsign x) ++ format_g p M k)%string.
Proof.
  intros Hp Hf Hx HM HH. destruct x as [s|s| |s m e H]; try discriminate; try (elim Hx; reflexivity).
  destruct (fraction s m e H) as (Pn & Pd & Eq & _ & _ & HL). rewrite <- Eq in HH. pose proof (significant_is p _ _ Hp Pn Pd HL M k HM HH) as E.
  unfold put_double. rewrite E. reflexivity.
Qed.

Lemma positive (v : b64) : is_finite v = true -> (0 < B2R v)%R -> exists m e H, v = B754_finite false m e H.
Proof.
  destruct v as [s|s| |s m e H]; intros Hf Hv; try discriminate; [cbn in Hv; lra|]. destruct s; [|eauto].
  exfalso. cbn in Hv. assert (F2R (Float radix2 (Z.neg m) e) < 0)%R by (apply F2R_lt_0; reflexivity). lra.
Qed.

Lemma scan_is p M k s : 1 <= p -> 10 ^ (p - 1) <= M < 10 ^ p -> let y := (IZR M * b10 (k - p + 1))%R in (0 < near y < b2 1024)%R ->
  exists v, scan_double (minus s ++ format_g p M k) = Some v /\ is_finite v = true /\ Bsign v = s /\ B2R v = signed s (near y).
Proof.
  intros Hp HM y Hy. destruct (format_parts p M k Hp HM) as (m & sc & Hpart & Pm & E & Hns).
  assert (Rs : read_sign (minus s ++ format_g p M k) = (s, format_g p M k)).
  { destruct s; [reflexivity|]. cbn [minus String.append]. destruct (format_g p M k) as [|c w]; [reflexivity|].
    cbn in Hns. unfold read_sign. destruct c as [[] [] [] [] [] [] [] []]; try reflexivity; elim Hns; reflexivity. }
  rewrite scan_parts, Rs, Hpart. set (n := m * 10 ^ Z.max sc 0). set (d := 10 ^ Z.max (- sc) 0).
  assert (Pd : 0 < d) by (apply Z.pow_pos_nonneg; lia). assert (0 < 10 ^ Z.max sc 0) by (apply Z.pow_pos_nonneg; lia). assert (Pn : 0 < n) by (unfold n; nia).
  assert (Eq : (IZR n / IZR d = y)%R).
  { apply (f_equal IZR) in E. rewrite !mult_IZR, !IZR_10 in E by lia. unfold n, d, y. rewrite mult_IZR, !IZR_10 by lia.
    pose proof (b10_pos (Z.max (- sc) 0)) as P1. pose proof (b10_pos (Z.max (p - 1 - k) 0)) as P2.
    replace (b10 (k - p + 1)) with (b10 (Z.max (k - p + 1) 0) * / b10 (Z.max (p - 1 - k) 0))%R by (rewrite <- bpow_opp, <- bpow_plus; f_equal; lia).
    apply Rmult_eq_reg_r with (b10 (Z.max (- sc) 0) * b10 (Z.max (p - 1 - k) 0))%R; [|apply Rmult_integral_contrapositive; lra].
    field_simplify; [|lra|lra]. rewrite (Rmult_comm (IZR m * _)), (Rmult_comm (IZR M * _)) in *. lra. }
  destruct (nearest_ok n d Pn Pd) as [F V]; [rewrite Eq; apply Hy|]. rewrite Eq in V.
  destruct (positive _ F) as (mm & ee & H' & Ev); [rewrite V; apply Hy|]. cbv zeta. rewrite Ev in *.
  destruct s; eexists; (split; [reflexivity|]); (split; [reflexivity|]); (split; [reflexivity|]); cbn [signed].
  - rewrite <- V. apply B2R_Bopp.
  - exact V.
Qed.

(** rounding to a double in the normal range *)
Lemma near_err y : (b2 (-1022) <= y)%R -> (Rabs (near y - y) <= b2 (-53) * y)%R.
Proof.
  intros H. pose proof (b2_pos (-1022)). assert (P53 : Prec_gt_0 53) by reflexivity.
  pose proof (relative_error_N_FLT radix2 (-1074) 53 P53 (fun z => negb (Z.even z)) y) as R.
  rewrite (Rabs_pos_eq y) in R by lra. specialize (R H).
  replace (/ 2 * b2 (- (53) + 1))%R with (b2 (-53)) in R; [exact R|]. change (- (53) + 1) with (1 + -53). rewrite bpow_plus. change (b2 1) with 2%R. lra.
Qed.
Lemma near_mono x y : (x <= y)%R -> (near x <= near y)%R.
Proof. intros H. apply round_le; [apply FLT_exp_valid; reflexivity|apply valid_rnd_N|exact H]. Qed.
Lemma near_b2 e : -1074 <= e -> near (b2 e) = b2 e.
Proof. intros H. apply round_generic; [apply valid_rnd_N|]. apply generic_format_FLT_bpow; [reflexivity|exact H]. Qed.
Lemma near_0 : near 0 = 0%R. Proof. apply round_0. apply valid_rnd_N. Qed.
Lemma near_id (x : b64) : is_finite x = true -> near (B2R x) = B2R x.
Proof. intros _. apply round_generic; [apply valid_rnd_N|]. apply (generic_format_B2R prec64 emax64). Qed.

(** results in the normal range are read by std::stod *)
Lemma normal_read (v : b64) : is_finite v = true -> (b2 (-1022) <= Rabs (B2R v))%R -> below_normal v = false.
Proof.
  destruct v as [s|s| |s m e H]; intros Hf Hv; try reflexivity. apply Z.ltb_ge.
  assert (Ex : (Rabs (B2R (B754_finite s m e H)) = IZR (Z.pos m) * b2 e)%R).
  { unfold BinarySingleNaN.B2R. rewrite <- F2R_Zabs. unfold F2R. cbn [Fnum Fexp]. f_equal. f_equal. destruct s; reflexivity. }
  rewrite Ex in Hv. destruct (Z.le_gt_cases (2 ^ 52) (Z.pos m)) as [|C]; [assumption|]. exfalso.
  assert (He : e = -1074).
  { pose proof H as H0. unfold SpecFloat.bounded in H0. apply andb_prop in H0. destruct H0 as [H0 _]. unfold SpecFloat.canonical_mantissa in H0. apply Zeq_bool_eq in H0.
    unfold SpecFloat.fexp, SpecFloat.emin, prec64, emax64 in H0. rewrite Digits.Zpos_digits2_pos in H0.
    assert (Hd : Digits.Zdigits radix2 (Z.pos m) <= 52).
    { destruct (Z.le_gt_cases (Digits.Zdigits radix2 (Z.pos m)) 52) as [|C1]; [assumption|]. exfalso.
      pose proof (Digits.Zpower_le_Zdigits radix2 52 (Z.pos m) C1) as C2. change (Z.abs (Z.pos m)) with (Z.pos m) in C2. change (radix_val radix2 ^ 52) with (2 ^ 52) in C2. lia. }
    lia. }
  subst e. apply IZR_lt in C. rewrite IZR_2 in C by lia. apply Rmult_lt_compat_r with (r := b2 (-1074)) in C; [|apply b2_pos].
  rewrite <- bpow_plus in C. change (52 + -1074) with (-1022) in C. lra.
Qed.

(** ** a number that is written and read *)
Definition ordinary (x : b64) : Prop := is_finite x = true /\ (B2R x = 0%R \/ (b2 (-1021) <= Rabs (B2R x) <= b2 1023)%R).

Lemma b10_small p : 1 <= p -> (b10 (1 - p) <= 1)%R.
Proof. intros H. change 1%R with (b10 0). apply bpow_le. lia. Qed.

Lemma signed_abs s r : (0 <= r)%R -> Rabs (signed s r) = r.
Proof. intros H. destruct s; cbn; [rewrite Rabs_Ropp|]; apply Rabs_pos_eq; exact H. Qed.

Lemma sign_value (x : b64) : is_finite x = true -> B2R x = signed (Bsign x) (Rabs (B2R x)).
Proof.
  destruct x as [s|s| |s m e H]; intros Hf; try discriminate.
  - cbn. rewrite Rabs_R0. destruct s; cbn; ring.
  - apply fraction.
Qed.

Lemma write_read p x : 1 <= p -> ordinary x -> B2R x <> 0%R -> exists M k v,
  let y := (IZR M * b10 (k - p + 1))%R in
  10 ^ (p - 1) <= M < 10 ^ p /\ put_double p x = (minus (Bsign x) ++ format_g p M k)%string /\
  (Rabs (Rabs (B2R x) - y) <= b10 (k - p + 1) / 2)%R /\ (Rabs (Rabs (B2R x) - y) <= b10 (1 - p) / 2 * Rabs (B2R x))%R /\
  (b2 (-1022) <= y)%R /\
  stod_double (put_double p x) = Parsed v /\ is_finite v = true /\ Bsign v = Bsign x /\ B2R v = signed (Bsign x) (near y) /\ (b2 (-1022) <= near y)%R /\
  (Rabs (Rabs (B2R x) - y) = b10 (k - p + 1) / 2 -> Z.even M = true)%R.
Proof.
  intros Hp [Hf Ho] Hx. destruct Ho as [Ho|Ho]; [contradiction|]. destruct (put_is p x Hp Hf Hx) as (M & k & E & HM & H1 & H2 & H3).
  set (y := (IZR M * b10 (k - p + 1))%R) in *. set (a := Rabs (B2R x)) in *. pose proof (b10_small p Hp). pose proof (b2_pos (-1021)).
  assert (Hr : (Rabs (a - y) <= a / 2)%R). { apply Rle_trans with (1 := H2). replace (a / 2)%R with (1 / 2 * a)%R by lra. apply Rmult_le_compat_r; lra. }
  assert (Hy : (a / 2 <= y <= a * 3 / 2)%R) by (unfold Rabs in Hr; destruct Rcase_abs; lra).
  assert (E1 : (b2 (-1021) = 2 * b2 (-1022))%R) by (change 2%R with (b2 1); rewrite <- bpow_plus; reflexivity).
  assert (E2 : (b2 1024 = 2 * b2 1023)%R) by (change 2%R with (b2 1); rewrite <- bpow_plus; reflexivity).
  assert (L : (b2 (-1022) <= y)%R) by lra. pose proof (near_err y L) as NE. pose proof (near_mono _ _ L) as NM. rewrite near_b2 in NM by lia.
  pose proof (b2_pos (-1022)) as P22. pose proof (b2_pos 1023) as P1023.
  assert (B53 : (b2 (-53) <= / 16)%R). { change (/ 16)%R with (b2 (-4)). apply bpow_le. lia. }
  assert (U : (near y < b2 1024)%R).
  { assert (near y <= y * 17 / 16)%R. { assert (b2 (-53) * y <= / 16 * y)%R by (apply Rmult_le_compat_r; lra). unfold Rabs in NE. destruct Rcase_abs; lra. } lra. }
  destruct (scan_is p M k (Bsign x) Hp HM) as (v & V1 & V2 & V3 & V4); [fold y; lra|]. fold y in V4.
  exists M, k, v. cbv zeta. fold y. fold a. split; [exact HM|]. split; [exact E|]. split; [exact H1|]. split; [exact H2|]. split; [exact L|].
  split; [|auto]. unfold stod_double. rewrite E, V1. rewrite normal_read; [reflexivity|exact V2|]. rewrite V4, signed_abs by lra. exact NM.
Qed.

(** a number with at most p digits *)
Lemma short_norm p N j : 1 <= p -> 0 < N < 10 ^ p -> exists M k, 10 ^ (p - 1) <= M < 10 ^ p /\ (IZR N * b10 j = IZR M * b10 (k - p + 1))%R.
Proof.
  intros Hp HN. assert (Ht : exists t, 1 <= t <= p /\ 10 ^ (t - 1) <= N < 10 ^ t).
  { clear j. assert (H : forall q : nat, N < 10 ^ Z.of_nat q -> exists t, 1 <= t <= Z.of_nat q /\ 10 ^ (t - 1) <= N < 10 ^ t).
    { induction q as [|q IH]; intros Hq; [cbn in Hq; lia|]. destruct (Z.lt_ge_cases N (10 ^ Z.of_nat q)) as [C|C].
      - destruct (IH C) as (t & T1 & T2). exists t. split; [lia|exact T2].
      - exists (Z.of_nat (S q)). split; [lia|]. replace (Z.of_nat (S q) - 1) with (Z.of_nat q) by lia. lia. }
    destruct (H (Z.to_nat p)) as (t & T1 & T2); [rewrite Z2Nat.id by lia; lia|]. exists t. split; [lia|exact T2]. }
  destruct Ht as (t & Ht & HN2). exists (N * 10 ^ (p - t)), (j - (p - t) + p - 1). assert (P : 0 < 10 ^ (p - t)) by (apply Z.pow_pos_nonneg; lia). split.
  - replace (p - 1) with ((t - 1) + (p - t)) by lia. replace (10 ^ p) with (10 ^ t * 10 ^ (p - t)) by (rewrite <- Z.pow_add_r by lia; f_equal; lia).
    rewrite Z.pow_add_r by lia. split; [apply Z.mul_le_mono_nonneg_r; lia|apply Z.mul_lt_mono_pos_r; lia].
  - rewrite mult_IZR, IZR_10, Rmult_assoc, <- bpow_plus by lia. f_equal. f_equal. lia.
Qed.

Lemma near_digits p M k : 1 <= p <= 14 -> 10 ^ (p - 1) <= M < 10 ^ p -> let y := (IZR M * b10 (k - p + 1))%R in
  (b2 (-1022) <= y)%R -> (Rabs (near y - y) < b10 (k - p + 1) / 20)%R.
Proof.
  intros Hp HM y Hy. apply Rle_lt_trans with (1 := near_err y Hy). unfold y. set (u := b10 (k - p + 1)). assert (Pu : (0 < u)%R) by apply b10_pos.
  replace (u / 20)%R with (/ 20 * u)%R by lra. rewrite <- Rmult_assoc. apply Rmult_lt_compat_r; [exact Pu|].
  assert (HM14 : M < 10 ^ 14) by (apply Z.lt_le_trans with (10 ^ p); [lia|apply Z.pow_le_mono_r; lia]).
  apply IZR_lt in HM14. assert (E : (b2 (-53) * IZR (2 ^ 53) = 1)%R) by (rewrite IZR_2, <- bpow_plus by lia; reflexivity).
  pose proof (b2_pos (-53)). change (2 ^ 53) with 9007199254740992 in E. change (10 ^ 14) with 100000000000000 in HM14.
  apply Rmult_lt_compat_l with (r := b2 (-53)) in HM14; [|assumption]. lra.
Qed.

Lemma same_text p (v : b64) M k : 1 <= p <= 14 -> 10 ^ (p - 1) <= M < 10 ^ p -> let y := (IZR M * b10 (k - p + 1))%R in
  (b2 (-1022) <= y)%R -> is_finite v = true -> Rabs (B2R v) = near y -> put_double p v = (minus (Bsign v) ++ format_g p M k)%string.
Proof.
  intros Hp HM y Hy Hf Hv. pose proof (near_mono _ _ Hy) as NM. rewrite near_b2 in NM by lia. pose proof (b2_pos (-1022)).
  apply put_unique; [lia|exact Hf| |exact HM|].
  - intros C. rewrite C, Rabs_R0 in Hv. lra.
  - rewrite Hv. apply near_digits; auto.
Qed.

Lemma same_value (x v : b64) : is_finite x = true -> is_finite v = true -> Bsign v = Bsign x -> B2R v = B2R x -> v = x.
Proof. intros Hx Hv Hs Hr. apply B2R_Bsign_inj; auto. Qed.

Lemma zero_text p (x : b64) : is_finite x = true -> B2R x = 0%R -> put_double p x = (minus (Bsign x) ++ "0")%string /\ stod_double (put_double p x) = Parsed x.
Proof.
  intros Hf H. destruct x as [s|s| |s m e Hb]; try discriminate.
  - destruct s; split; reflexivity.
  - exfalso. destruct (fraction s m e Hb) as (_ & _ & _ & P & _). rewrite H, Rabs_R0 in P. lra.
Qed.

(** numbers with at most p digits are written and read without a change *)
Lemma short_same p (x : b64) N j : 1 <= p <= 14 -> ordinary x -> Z.abs N < 10 ^ p -> B2R x = near (IZR N * b10 j) -> stod_double (put_double p x) = Parsed x.
Proof.
  intros Hp Hx HN E. pose proof Hx as [Hf Ho]. destruct (Req_dec (B2R x) 0) as [Z|NZ]; [apply zero_text; auto|].
  destruct Ho as [Ho|Ho]; [contradiction|].
  assert (NN : N <> 0) by (intros ->; rewrite Rmult_0_l, near_0 in E; contradiction).
  destruct (short_norm p (Z.abs N) j ltac:(lia) ltac:(lia)) as (M & k & HM & EM).
  set (y := (IZR M * b10 (k - p + 1))%R) in *. assert (Ea : Rabs (B2R x) = near y).
  { rewrite E, <- EM, abs_IZR. unfold near. rewrite <- round_NE_abs by (apply FLT_exp_valid; reflexivity).
    rewrite Rabs_mult, (Rabs_pos_eq (b10 j)) by (left; apply b10_pos). reflexivity. }
  assert (Hy : (b2 (-1022) <= y)%R).
  { destruct (Rle_or_lt (b2 (-1022)) y) as [|C]; [assumption|]. exfalso. assert (N1 : (near y <= near (b2 (-1022)))%R) by (apply near_mono; lra).
    rewrite near_b2 in N1 by lia. assert (b2 (-1022) < b2 (-1021))%R by (apply bpow_lt; lia). lra. }
  pose proof (same_text p x M k Hp HM Hy Hf Ea) as T.
  pose proof (near_mono _ _ Hy) as NM. rewrite near_b2 in NM by lia. pose proof (b2_pos (-1022)).
  assert (B : (b2 1023 < b2 1024)%R) by (apply bpow_lt; lia).
  destruct (scan_is p M k (Bsign x) ltac:(lia) HM) as (v & V1 & V2 & V3 & V4); [fold y; lra|]. fold y in V4.
  assert (v = x) as <-.
  { apply same_value; auto. rewrite V4, (sign_value x Hf), Ea. reflexivity. }
  unfold stod_double. rewrite T, V1, normal_read; [reflexivity|exact V2|]. rewrite Ea. exact NM.
Qed.

(** writing what was read *)
Lemma write_again p x : 1 <= p <= 14 -> ordinary x -> exists v, stod_double (put_double p x) = Parsed v /\ is_finite v = true /\ put_double p v = put_double p x /\ stod_double (put_double p v) = Parsed v.
Proof.
  intros Hp Hx. destruct (Req_dec (B2R x) 0) as [Z|NZ].
  - destruct Hx as [Hf _]. destruct (zero_text p x Hf Z) as [_ E]. exists x. auto.
  - destruct (write_read p x ltac:(lia) Hx NZ) as (M & k & v & HM & E & H1 & H2 & Hy & V & Vf & Vs & Vv & Vn & _). set (y := (IZR M * b10 (k - p + 1))%R) in *.
    pose proof (b2_pos (-1022)). exists v. split; [exact V|]. split; [exact Vf|].
    assert (T : put_double p v = put_double p x).
    { rewrite E, <- Vs. apply same_text; auto. rewrite Vv, signed_abs by lra. reflexivity. }
    split; [exact T|]. rewrite T. exact V.
Qed.
