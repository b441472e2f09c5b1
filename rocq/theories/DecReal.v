(** Proofs about the text of numbers (PrintDec.v), part 2: the values. *)
From Coq Require Import ZArith Lia Reals Lra.
From Flocq Require Import Core BinarySingleNaN Round_odd.
From Verif Require Import Base Num NumB64 NumB64Laws LoopFacts PrintDec.
Local Open Scope Z_scope.

Definition radix10 : radix := Build_radix 10 eq_refl.
Notation b10 := (bpow radix10).
Notation b2 := (bpow radix2).
Definition near (x : R) : R := round radix2 (FLT_exp (-1074) 53) ZnearestE x.

Lemma IZR_10 n : 0 <= n -> IZR (10 ^ n) = b10 n.
Proof. intros H. apply (IZR_Zpower radix10 n H). Qed.
Lemma IZR_2 n : 0 <= n -> IZR (2 ^ n) = b2 n.
Proof. intros H. apply (IZR_Zpower radix2 n H). Qed.
Lemma b10_pos n : (0 < b10 n)%R. Proof. apply bpow_gt_0. Qed.
Lemma b2_pos n : (0 < b2 n)%R. Proof. apply bpow_gt_0. Qed.

(** ** powers of 2 and of 10 *)
Lemma root_le a b n : 0 <= a -> 0 <= b -> 0 < n -> a ^ n <= b ^ n -> a <= b.
Proof. intros Ha Hb Hn H. destruct (Z.le_gt_cases a b) as [|C]; [assumption|]. pose proof (Z.pow_lt_mono_l b a n Hn ltac:(lia)). lia. Qed.

Lemma pow_2_10 a k : 0 <= a -> 0 <= k -> 28 * a <= 93 * k -> 2 ^ a <= 10 ^ k.
Proof.
  intros Ha Hk H. apply (root_le _ _ 28); try (apply Z.pow_nonneg; lia); [lia|]. rewrite <- !Z.pow_mul_r by lia.
  apply Z.le_trans with (2 ^ (93 * k)); [apply Z.pow_le_mono_r; lia|]. rewrite (Z.mul_comm k 28), !Z.pow_mul_r by lia.
  apply Z.pow_le_mono_l. split; [lia|]. vm_compute. discriminate.
Qed.
Lemma pow_10_2 a k : 0 <= a -> 0 <= k -> 196 * k <= 59 * a -> 10 ^ k <= 2 ^ a.
Proof.
  intros Ha Hk H. apply (root_le _ _ 59); try (apply Z.pow_nonneg; lia); [lia|]. rewrite <- !Z.pow_mul_r by lia.
  apply Z.le_trans with (2 ^ (196 * k)); [|apply Z.pow_le_mono_r; lia]. rewrite (Z.mul_comm k 59), !Z.pow_mul_r by lia.
  apply Z.pow_le_mono_l. split; [lia|]. vm_compute. discriminate.
Qed.

Lemma b2_le_b10 a k : (0 <= k -> 28 * a <= 93 * k) -> (k < 0 -> 59 * a <= 196 * k) -> (b2 a <= b10 k)%R.
Proof.
  intros H1 H2. destruct (Z.le_gt_cases 0 k) as [Hk|Hk].
  - destruct (Z.le_gt_cases 0 a) as [Ha|Ha].
    + rewrite <- IZR_10, <- IZR_2 by lia. apply IZR_le, pow_2_10; lia.
    + apply Rle_trans with 1%R; [change 1%R with (b2 0)|change 1%R with (b10 0)]; apply bpow_le; lia.
  - assert (Ha : a < 0) by lia. replace a with (- (- a)) by lia. replace k with (- (- k)) by lia. rewrite (bpow_opp radix2), (bpow_opp radix10).
    apply Rinv_le; [apply b10_pos|]. rewrite <- IZR_10, <- IZR_2 by lia. apply IZR_le, pow_10_2; lia.
Qed.
Lemma b10_le_b2 a k : (0 <= k -> 196 * k <= 59 * a) -> (k < 0 -> 93 * k <= 28 * a) -> (b10 k <= b2 a)%R.
Proof.
  intros H1 H2. destruct (Z.le_gt_cases 0 k) as [Hk|Hk].
  - assert (0 <= a) by lia. rewrite <- IZR_10, <- IZR_2 by lia. apply IZR_le, pow_10_2; lia.
  - destruct (Z.le_gt_cases 0 a) as [Ha|Ha].
    + apply Rle_trans with 1%R; [change 1%R with (b10 0)|change 1%R with (b2 0)]; apply bpow_le; lia.
    + replace a with (- (- a)) by lia. replace k with (- (- k)) by lia. rewrite (bpow_opp radix2), (bpow_opp radix10).
      apply Rinv_le; [apply b2_pos|]. rewrite <- IZR_10, <- IZR_2 by lia. apply IZR_le, pow_2_10; lia.
Qed.

(** ** the decimal exponent *)
Section Quotient.
Variables (n d : Z).
Hypothesis (Hn : 0 < n) (Hd : 0 < d).
Let x := (IZR n / IZR d)%R.
Let L := Z.log2 n - Z.log2 d.

Lemma d_pos : (0 < IZR d)%R. Proof. apply (IZR_lt 0). exact Hd. Qed.
Lemma x_pos : (0 < x)%R. Proof. apply Rdiv_lt_0_compat; [apply (IZR_lt 0); exact Hn|apply d_pos]. Qed.

Lemma x_binary : (b2 (L - 1) < x < b2 (L + 1))%R.
Proof.
  destruct (Z.log2_spec n Hn) as [N1 N2]. destruct (Z.log2_spec d Hd) as [D1 D2]. pose proof (Z.log2_nonneg n). pose proof (Z.log2_nonneg d).
  apply IZR_le in N1, D1. apply IZR_lt in N2, D2. rewrite !IZR_2 in * by lia. pose proof d_pos. unfold x, L. split.
  - apply Rmult_lt_reg_r with (IZR d); [exact d_pos|]. unfold Rdiv. rewrite Rmult_assoc, Rinv_l, Rmult_1_r by lra.
    apply Rlt_le_trans with (b2 (Z.log2 n)); [|exact N1].
    apply Rlt_le_trans with (b2 (Z.log2 n - Z.log2 d - 1) * b2 (Z.succ (Z.log2 d)))%R; [apply Rmult_lt_compat_l; [apply b2_pos|exact D2]|].
    rewrite <- bpow_plus. apply bpow_le. lia.
  - apply Rmult_lt_reg_r with (IZR d); [exact d_pos|]. unfold Rdiv. rewrite Rmult_assoc, Rinv_l, Rmult_1_r by lra.
    apply Rlt_le_trans with (b2 (Z.succ (Z.log2 n))); [exact N2|].
    apply Rle_trans with (b2 (Z.log2 n - Z.log2 d + 1) * b2 (Z.log2 d))%R; [|apply Rmult_le_compat_l; [apply bpow_ge_0|exact D1]].
    rewrite <- bpow_plus. apply bpow_le. lia.
Qed.

Lemma dec_test k : (10 ^ Z.max k 0 * d <=? n * 10 ^ Z.max (- k) 0) = true <-> (b10 k <= x)%R.
Proof.
  pose proof d_pos. assert (E : b10 k = (b10 (Z.max k 0) / b10 (Z.max (- k) 0))%R).
  { unfold Rdiv. rewrite <- bpow_opp, <- bpow_plus. f_equal. lia. }
  rewrite Z.leb_le. split; intros H0.
  - apply IZR_le in H0. rewrite !mult_IZR, !IZR_10 in H0 by lia. rewrite E. unfold x, Rdiv.
    pose proof (b10_pos (Z.max (- k) 0)) as P. apply Rmult_le_reg_r with (b10 (Z.max (- k) 0)); [exact P|]. rewrite Rmult_assoc, Rinv_l, Rmult_1_r by lra.
    apply Rmult_le_reg_r with (IZR d); [lra|]. replace (IZR n * / IZR d * b10 (Z.max (- k) 0) * IZR d)%R with (IZR n * b10 (Z.max (- k) 0))%R by (field; lra). exact H0.
  - apply le_IZR. rewrite !mult_IZR, !IZR_10 by lia. rewrite E in H0. pose proof (b10_pos (Z.max (- k) 0)) as P. unfold x, Rdiv in H0.
    apply Rmult_le_compat_r with (r := (b10 (Z.max (- k) 0) * IZR d)%R) in H0; [|apply Rmult_le_pos; lra].
    replace (b10 (Z.max k 0) * / b10 (Z.max (- k) 0) * (b10 (Z.max (- k) 0) * IZR d))%R with (b10 (Z.max k 0) * IZR d)%R in H0 by (field; lra).
    replace (IZR n * / IZR d * (b10 (Z.max (- k) 0) * IZR d))%R with (IZR n * b10 (Z.max (- k) 0))%R in H0 by (field; lra). exact H0.
Qed.

Lemma dec_exp_ok K fuel : forall k0, (b10 K <= x < b10 (K + 1))%R -> K <= k0 < K + Z.of_nat fuel -> dec_exp fuel k0 n d = K.
Proof.
  induction fuel as [|fuel IH]; intros k0 HK Hk; [lia|]. cbn [dec_exp].
  destruct (10 ^ Z.max k0 0 * d <=? n * 10 ^ Z.max (- k0) 0) eqn:E.
  - apply dec_test in E. assert (b10 k0 < b10 (K + 1))%R by lra. apply lt_bpow in H. lia.
  - apply IH; [exact HK|]. split; [|lia]. destruct (Z.eq_dec k0 K) as [->|]; [|lia]. exfalso. pose proof (proj2 (dec_test K) (proj1 HK)). congruence.
Qed.

Hypothesis HL : -1100 <= L <= 1100.
Let k0 := (L + 1) * 30103 / 100000 + 1.

Lemma guess K : (b10 K <= x < b10 (K + 1))%R -> K <= k0 < K + Z.of_nat 5.
Proof.
  intros HK. pose proof x_binary as Hx. assert (Hk : 100000 * (k0 - 1) <= (L + 1) * 30103 < 100000 * (k0 - 1) + 100000).
  { unfold k0. replace ((L + 1) * 30103 / 100000 + 1 - 1) with ((L + 1) * 30103 / 100000) by lia. pose proof (Z.mul_div_le ((L + 1) * 30103) 100000 ltac:(lia)).
    pose proof (Z.mul_succ_div_gt ((L + 1) * 30103) 100000 ltac:(lia)). lia. }
  split.
  - destruct (Z.le_gt_cases K k0) as [|C]; [assumption|]. exfalso.
    assert (b2 (L + 1) <= b10 (k0 + 1))%R by (apply b2_le_b10; lia). assert (b10 (k0 + 1) <= b10 K)%R by (apply bpow_le; lia). lra.
  - destruct (Z.lt_ge_cases k0 (K + Z.of_nat 5)) as [|C]; [assumption|]. exfalso.
    assert (b10 (k0 - 3) <= b2 (L - 1))%R by (apply b10_le_b2; lia). assert (b10 (K + 1) <= b10 (k0 - 3))%R by (apply bpow_le; lia). lra.
Qed.

Lemma has_exp : exists K, (b10 K <= x < b10 (K + 1))%R.
Proof.
  exists (mag radix10 x - 1). pose proof x_pos. destruct (mag radix10 x) as [e He]. cbn [mag_val]. specialize (He ltac:(lra)).
  rewrite Rabs_pos_eq in He by lra. replace (e - 1 + 1) with e by lia. exact He.
Qed.

Lemma exp_is K : (b10 K <= x < b10 (K + 1))%R -> dec_exp 5 ((Z.log2 n - Z.log2 d + 1) * 30103 / 100000 + 1) n d = K.
Proof. intros HK. apply dec_exp_ok; [exact HK|]. apply (guess K HK). Qed.
End Quotient.

(** ** rounding to an integer *)
Lemma round_even_near a b : 0 <= a -> 0 < b -> (Rabs (IZR a / IZR b - IZR (round_even a b)) <= 1 / 2)%R.
Proof.
  intros Ha Hb. assert (P : (0 < IZR b)%R) by (apply (IZR_lt 0); exact Hb).
  assert (E : (IZR a / IZR b = IZR (a / b) + IZR (a mod b) / IZR b)%R).
  { rewrite (Z.div_mod a b) at 1 by lia. rewrite plus_IZR, mult_IZR. field. lra. }
  pose proof (Z.mod_pos_bound a b Hb) as M. rewrite E.
  assert (F : forall c, (IZR (a mod b) / IZR b <= c)%R <-> (IZR (a mod b) <= c * IZR b)%R).
  { intros c. split; intros H; [apply Rmult_le_compat_r with (r := IZR b) in H; [|lra]; unfold Rdiv in H; rewrite Rmult_assoc, Rinv_l in H; lra|].
    apply Rmult_le_reg_r with (IZR b); [lra|]. unfold Rdiv. rewrite Rmult_assoc, Rinv_l; lra. }
  assert (G : forall c, (c <= IZR (a mod b) / IZR b)%R <-> (c * IZR b <= IZR (a mod b))%R).
  { intros c. split; intros H; [apply Rmult_le_compat_r with (r := IZR b) in H; [|lra]; unfold Rdiv in H; rewrite Rmult_assoc, Rinv_l in H; lra|].
    apply Rmult_le_reg_r with (IZR b); [lra|]. unfold Rdiv. rewrite Rmult_assoc, Rinv_l; lra. }
  assert (M0 : (0 <= IZR (a mod b) / IZR b)%R) by (apply G; rewrite Rmult_0_l; apply (IZR_le 0); lia).
  assert (M1 : (IZR (a mod b) / IZR b <= 1)%R) by (apply F; rewrite Rmult_1_l; apply IZR_le; lia).
  assert (Lo : 2 * (a mod b) <= b -> (IZR (a mod b) / IZR b <= 1 / 2)%R).
  { intros H. apply F. apply IZR_le in H. rewrite mult_IZR in H. lra. }
  assert (Hi : b <= 2 * (a mod b) -> (1 / 2 <= IZR (a mod b) / IZR b)%R).
  { intros H. apply G. apply IZR_le in H. rewrite mult_IZR in H. lra. }
  unfold round_even. cbv zeta. destruct (Z.ltb_spec (2 * (a mod b)) b) as [C|C]; [specialize (Lo ltac:(lia)); rewrite Rabs_pos_eq; lra|].
  specialize (Hi C). destruct (Z.ltb_spec b (2 * (a mod b))) as [C'|C'].
  - rewrite plus_IZR. unfold Rabs. destruct Rcase_abs; lra.
  - specialize (Lo C'). destruct (Z.even (a / b)); rewrite ?plus_IZR; unfold Rabs; destruct Rcase_abs; lra.
Qed.

(** a number half-way between two integers is rounded to the even one *)
Lemma round_even_tie a b : 0 <= a -> 0 < b -> (Rabs (IZR a / IZR b - IZR (round_even a b)) = 1 / 2)%R -> Z.even (round_even a b) = true.
Proof.
  intros Ha Hb H. assert (P : (0 < IZR b)%R) by (apply (IZR_lt 0); exact Hb).
  assert (E : (IZR a / IZR b = IZR (a / b) + IZR (a mod b) / IZR b)%R).
  { rewrite (Z.div_mod a b) at 1 by lia. rewrite plus_IZR, mult_IZR. field. lra. }
  assert (Q : forall c, (IZR (a mod b) / IZR b = c)%R -> (IZR (a mod b) = c * IZR b)%R) by (intros c <-; field; lra).
  pose proof (Z.mod_pos_bound a b Hb) as M.
  assert (T : 2 * (a mod b) = b -> Z.even (round_even a b) = true).
  { intros T. unfold round_even. cbv zeta. rewrite T, Z.ltb_irrefl. destruct (Z.even (a / b)) eqn:Ev; [exact Ev|].
    rewrite Z.even_add, Ev. reflexivity. }
  apply T. apply eq_IZR. rewrite mult_IZR. revert H. unfold round_even. cbv zeta. rewrite E.
  assert (M0 : (0 <= IZR (a mod b) / IZR b)%R) by (apply Rmult_le_pos; [apply (IZR_le 0); lia|left; apply Rinv_0_lt_compat; exact P]).
  assert (M1 : (IZR (a mod b) / IZR b < 1)%R).
  { apply Rmult_lt_reg_r with (IZR b); [exact P|]. unfold Rdiv. rewrite Rmult_assoc, Rinv_l, Rmult_1_l, Rmult_1_r by lra. apply IZR_lt. lia. }
  assert (Up : forall q, (Rabs (IZR q + IZR (a mod b) / IZR b - IZR (q + 1)) = 1 / 2)%R -> (2 * IZR (a mod b) = IZR b)%R).
  { intros q. rewrite plus_IZR. intros H. assert (X : (IZR (a mod b) / IZR b = 1 / 2)%R) by (unfold Rabs in H; destruct Rcase_abs in H; lra). apply Q in X. lra. }
  assert (Dn : forall q, (Rabs (IZR q + IZR (a mod b) / IZR b - IZR q) = 1 / 2)%R -> (2 * IZR (a mod b) = IZR b)%R).
  { intros q H. assert (X : (IZR (a mod b) / IZR b = 1 / 2)%R) by (unfold Rabs in H; destruct Rcase_abs in H; lra). apply Q in X. lra. }
  destruct (2 * (a mod b) <? b); [apply Dn|]. destruct (b <? 2 * (a mod b)); [apply Up|]. destruct (Z.even (a / b)); [apply Dn|apply Up].
Qed.

Lemma round_even_is a b M : 0 <= a -> 0 < b -> (Rabs (IZR a / IZR b - IZR M) < 1 / 2)%R -> round_even a b = M.
Proof.
  intros Ha Hb H. pose proof (round_even_near a b Ha Hb) as H'. assert (A : (Rabs (IZR (round_even a b - M)) < 1)%R).
  { rewrite minus_IZR. replace (IZR (round_even a b) - IZR M)%R with ((IZR a / IZR b - IZR M) - (IZR a / IZR b - IZR (round_even a b)))%R by ring.
    unfold Rabs in *. repeat destruct Rcase_abs; lra. }
  rewrite <- abs_IZR in A. apply (lt_IZR _ 1) in A. lia.
Qed.

(** ** [p] significant digits *)
Section Digits.
Variables (p n d : Z).
Hypothesis (Hp : 1 <= p) (Hn : 0 < n) (Hd : 0 < d) (HL : -1100 <= Z.log2 n - Z.log2 d <= 1100).
Let x := (IZR n / IZR d)%R.

Lemma scaled K : let s := p - 1 - K in let a := n * 10 ^ Z.max s 0 in let b := d * 10 ^ Z.max (- s) 0 in
  0 <= a /\ 0 < b /\ (IZR a / IZR b = x * b10 s)%R.
Proof.
  intros s a b. assert (0 < 10 ^ Z.max s 0) by (apply Z.pow_pos_nonneg; lia). assert (0 < 10 ^ Z.max (- s) 0) by (apply Z.pow_pos_nonneg; lia).
  split; [unfold a; nia|]. split; [unfold b; nia|]. unfold a, b, x. rewrite !mult_IZR, !IZR_10 by lia.
  pose proof (d_pos d Hd). pose proof (b10_pos (Z.max (- s) 0)).
  replace (b10 s) with (b10 (Z.max s 0) * / b10 (Z.max (- s) 0))%R by (rewrite <- bpow_opp, <- bpow_plus; f_equal; lia). field. split; lra.
Qed.

Lemma significant_at K : (b10 K <= x < b10 (K + 1))%R -> exists M,
  significant p n d = (if M =? 10 ^ p then (10 ^ (p - 1), K + 1) else (M, K)) /\
  M = round_even (n * 10 ^ Z.max (p - 1 - K) 0) (d * 10 ^ Z.max (- (p - 1 - K)) 0).
Proof.
  intros HK. eexists. split; [|reflexivity]. unfold significant. rewrite (exp_is n d Hn Hd HL K HK). reflexivity.
Qed.

Lemma significant_ok : exists M k, significant p n d = (M, k) /\ 10 ^ (p - 1) <= M < 10 ^ p /\
  (Rabs (x - IZR M * b10 (k - p + 1)) <= b10 (k - p + 1) / 2)%R /\ (Rabs (x - IZR M * b10 (k - p + 1)) <= b10 (1 - p) / 2 * x)%R /\
  (Rabs (x - IZR M * b10 (k - p + 1)) = b10 (k - p + 1) / 2 -> Z.even M = true)%R.
Proof.
  destruct (has_exp n d Hn Hd) as [K HK]. fold x in HK. destruct (significant_at K HK) as (M & E & EM).
  destruct (scaled K) as (S1 & S2 & S3). set (s := p - 1 - K) in *.
  pose proof (round_even_near _ _ S1 S2) as R. rewrite S3, <- EM in R.
  pose proof (round_even_tie _ _ S1 S2) as T. rewrite S3, <- EM in T.
  assert (Hs : (b10 s * b10 (K - p + 1) = 1)%R) by (rewrite <- bpow_plus; replace (s + (K - p + 1)) with 0 by (unfold s; lia); reflexivity).
  assert (Ps := b10_pos s). assert (Pj := b10_pos (K - p + 1)).
  assert (Err : (Rabs (x - IZR M * b10 (K - p + 1)) <= b10 (K - p + 1) / 2)%R).
  { replace (x - IZR M * b10 (K - p + 1))%R with ((x * b10 s - IZR M) * b10 (K - p + 1))%R by (rewrite Rmult_minus_distr_r, Rmult_assoc, Hs; ring).
    rewrite Rabs_mult, (Rabs_pos_eq (b10 _)) by lra. apply Rmult_le_compat_r with (r := b10 (K - p + 1)) in R; [|lra]. lra. }
  assert (Err2 : (b10 (K - p + 1) / 2 <= b10 (1 - p) / 2 * x)%R).
  { replace (K - p + 1) with ((1 - p) + K) by lia. rewrite bpow_plus. pose proof (b10_pos (1 - p)). destruct HK as [HK _].
    apply Rmult_le_compat_l with (r := b10 (1 - p)) in HK; lra. }
  assert (Ylo : (b10 (p - 1) <= x * b10 s)%R).
  { replace (p - 1) with (K + s) by (unfold s; lia). rewrite bpow_plus. apply Rmult_le_compat_r; lra. }
  assert (Yhi : (x * b10 s < b10 p)%R).
  { replace p with (K + 1 + s) by (unfold s; lia). rewrite bpow_plus. apply Rmult_lt_compat_r; [exact Ps|apply HK]. }
  assert (Mlo : 10 ^ (p - 1) <= M).
  { assert (A : (IZR (10 ^ (p - 1) - 1) < IZR M)%R). { rewrite minus_IZR, IZR_10 by lia. unfold Rabs in R. destruct Rcase_abs; lra. } apply lt_IZR in A. lia. }
  assert (Mhi : M <= 10 ^ p).
  { assert (A : (IZR M < IZR (10 ^ p + 1))%R). { rewrite plus_IZR, IZR_10 by lia. unfold Rabs in R. destruct Rcase_abs; lra. } apply lt_IZR in A. lia. }
  destruct (Z.eqb_spec M (10 ^ p)) as [C|C].
  - exists (10 ^ (p - 1)), (K + 1). split; [exact E|]. split; [split; [lia|apply Z.pow_lt_mono_r; lia]|].
    assert (Eq : (IZR (10 ^ (p - 1)) * b10 (K + 1 - p + 1) = IZR M * b10 (K - p + 1))%R).
    { rewrite C, !IZR_10, <- !bpow_plus by lia. f_equal. lia. }
    rewrite Eq. assert (b10 (K - p + 1) < b10 (K + 1 - p + 1))%R by (apply bpow_lt; lia). split; [lra|]. split; lra.
  - exists M, K. split; [exact E|]. split; [lia|]. split; [exact Err|]. split; [lra|]. intros Hx. apply T.
    replace (x * b10 s - IZR M)%R with ((x - IZR M * b10 (K - p + 1)) * b10 s)%R by (rewrite Rmult_minus_distr_r, Rmult_assoc, (Rmult_comm (b10 (K - p + 1))), Hs; ring).
    rewrite Rabs_mult, Hx, (Rabs_pos_eq (b10 s)) by lra. rewrite Rmult_comm. unfold Rdiv. rewrite <- Rmult_assoc, Hs. lra.
Qed.

Lemma significant_is M k : 10 ^ (p - 1) <= M < 10 ^ p -> (Rabs (x - IZR M * b10 (k - p + 1)) < b10 (k - p + 1) / 20)%R -> significant p n d = (M, k).
Proof.
  intros HM H. set (j := k - p + 1) in *. assert (Pj := b10_pos j). assert (Mlo : (b10 (p - 1) <= IZR M)%R) by (rewrite <- IZR_10 by lia; apply IZR_le, HM).
  assert (Mhi : (IZR M <= b10 p - 1)%R) by (rewrite <- IZR_10, <- (minus_IZR _ 1) by lia; apply IZR_le; lia).
  assert (Ek : (b10 (p - 1) * b10 j = b10 k)%R) by (rewrite <- bpow_plus; f_equal; unfold j; lia).
  assert (Ek1 : (b10 p * b10 j = b10 (k + 1))%R) by (rewrite <- bpow_plus; f_equal; unfold j; lia).
  assert (Hx : (IZR M * b10 j - b10 j / 20 < x < IZR M * b10 j + b10 j / 20)%R) by (unfold Rabs in H; destruct Rcase_abs; lra).
  assert (Lo : (b10 k <= IZR M * b10 j)%R) by (rewrite <- Ek; apply Rmult_le_compat_r; lra).
  assert (Hi : (IZR M * b10 j <= b10 (k + 1) - b10 j)%R) by (rewrite <- Ek1; apply Rmult_le_compat_r with (r := b10 j) in Mhi; lra).
  destruct (Rle_or_lt (b10 k) x) as [C|C].
  - assert (HK : (b10 k <= x < b10 (k + 1))%R) by lra. destruct (significant_at k HK) as (M' & E & EM).
    destruct (scaled k) as (S1 & S2 & S3). set (s := p - 1 - k) in *.
    assert (Hs : (b10 j * b10 s = 1)%R) by (rewrite <- bpow_plus; replace (j + s) with 0 by (unfold j, s; lia); reflexivity). pose proof (b10_pos s).
    assert (M' = M) as ->.
    { rewrite EM. apply round_even_is; auto. rewrite S3. replace (x * b10 s - IZR M)%R with ((x - IZR M * b10 j) * b10 s)%R by (rewrite Rmult_minus_distr_r, Rmult_assoc, Hs; ring).
      rewrite Rabs_mult, (Rabs_pos_eq (b10 s)) by lra. apply Rmult_lt_compat_r with (r := b10 s) in H; [|lra].
      replace (b10 j / 20 * b10 s)%R with (/ 20)%R in H by (unfold Rdiv; rewrite Rmult_assoc, (Rmult_comm (/ 20)), <- Rmult_assoc, Hs; ring). lra. }
    rewrite E. destruct (Z.eqb_spec M (10 ^ p)); [lia|reflexivity].
  - assert (EM : M = 10 ^ (p - 1)).
    { assert (A : (IZR M * b10 j < (b10 (p - 1) + / 20) * b10 j)%R) by (rewrite Rmult_plus_distr_r, Ek; lra).
      apply Rmult_lt_reg_r in A; [|exact Pj]. assert (A1 : (IZR M < IZR (10 ^ (p - 1) + 1))%R) by (rewrite plus_IZR, IZR_10 by lia; lra). apply lt_IZR in A1. lia. }
    assert (Eq : (IZR M * b10 j = b10 k)%R) by (rewrite EM, IZR_10 by lia; exact Ek). rewrite Eq in *.
    assert (E10 : (b10 k = 10 * b10 (k - 1))%R) by (change 10%R with (b10 1); rewrite <- bpow_plus; f_equal; lia).
    assert (Jk : (b10 j <= b10 k)%R) by (apply bpow_le; unfold j; lia). pose proof (b10_pos (k - 1)).
    assert (HK : (b10 (k - 1) <= x < b10 (k - 1 + 1))%R) by (replace (k - 1 + 1) with k by lia; lra).
    destruct (significant_at (k - 1) HK) as (M' & E & EM'). destruct (scaled (k - 1)) as (S1 & S2 & S3). set (s := p - 1 - (k - 1)) in *.
    assert (Hs : (b10 j * b10 s = 10)%R) by (rewrite <- bpow_plus; replace (j + s) with 1 by (unfold j, s; lia); reflexivity). pose proof (b10_pos s).
    assert (Hks : (b10 k * b10 s = b10 p)%R) by (rewrite <- bpow_plus; f_equal; unfold s; lia).
    assert (M' = 10 ^ p) as ->.
    { rewrite EM'. apply round_even_is; auto. rewrite S3, IZR_10 by lia. replace (x * b10 s - b10 p)%R with ((x - b10 k) * b10 s)%R by (rewrite Rmult_minus_distr_r, Hks; ring).
      rewrite Rabs_mult, (Rabs_pos_eq (b10 s)) by lra. apply Rmult_lt_compat_r with (r := b10 s) in H; [|lra].
      replace (b10 j / 20 * b10 s)%R with (1 / 2)%R in H by (unfold Rdiv; rewrite Rmult_assoc, (Rmult_comm (/ 20)), <- Rmult_assoc, Hs; lra). exact H. }
    rewrite E, Z.eqb_refl, EM. f_equal. lia.
Qed.
End Digits.

(** ** the nearest double *)
Lemma odd_round n d k : 0 < n -> 0 < d -> 0 <= k ->
  let x := (IZR n / IZR d)%R in
  Zrnd_odd (x * b2 (k + 1)) = 2 * (n * 2 ^ k / d) + (if n * 2 ^ k mod d =? 0 then 0 else 1).
Proof.
  intros Hn Hd Hk x. set (q := n * 2 ^ k / d). set (r := n * 2 ^ k mod d). assert (Pd := d_pos d Hd).
  pose proof (Z.mod_pos_bound (n * 2 ^ k) d Hd) as Hr. fold r in Hr.
  assert (E : (x * b2 (k + 1) = IZR (2 * q) + 2 * (IZR r / IZR d))%R).
  { unfold x. rewrite bpow_plus, <- IZR_2 by lia. change (b2 1) with 2%R. rewrite mult_IZR.
    replace (IZR n / IZR d * (IZR (2 ^ k) * 2))%R with (2 * (IZR (n * 2 ^ k) / IZR d))%R by (rewrite mult_IZR; field; lra).
    rewrite (Z.div_mod (n * 2 ^ k) d) by lia. fold q r. rewrite plus_IZR, mult_IZR. field. lra. }
  assert (R0 : (0 <= IZR r / IZR d)%R) by (apply Rmult_le_pos; [apply (IZR_le 0); lia|left; apply Rinv_0_lt_compat; exact Pd]).
  assert (R1 : (IZR r / IZR d < 1)%R).
  { apply Rmult_lt_reg_r with (IZR d); [exact Pd|]. unfold Rdiv. rewrite Rmult_assoc, Rinv_l, Rmult_1_l, Rmult_1_r by lra. apply IZR_lt. lia. }
  destruct (Z.eqb_spec r 0) as [C|C].
  - rewrite E, C. unfold Rdiv. rewrite Rmult_0_l, Rmult_0_r, Rplus_0_r, Z.add_0_r. unfold Zrnd_odd. rewrite Zfloor_IZR. destruct Req_EM_T; [reflexivity|contradiction].
  - assert (R2 : (0 < IZR r / IZR d)%R) by (apply Rdiv_lt_0_compat; [apply (IZR_lt 0); lia|exact Pd]). rewrite E.
    set (u := (2 * (IZR r / IZR d))%R) in *. assert (Hu : (0 < u < 2)%R) by (unfold u; lra). clearbody u. unfold Zrnd_odd.
    destruct (Rlt_or_le u 1) as [C1|C1].
    + assert (F : Zfloor (IZR (2 * q) + u) = 2 * q) by (apply Zfloor_imp; rewrite plus_IZR; lra). rewrite F.
      destruct Req_EM_T as [X|_]; [lra|]. rewrite Z.even_mul. cbn [Z.even orb]. apply Zceil_imp. rewrite minus_IZR, !plus_IZR. lra.
    + assert (F : Zfloor (IZR (2 * q) + u) = 2 * q + 1) by (apply Zfloor_imp; rewrite !plus_IZR; lra). rewrite F.
      destruct Req_EM_T as [X|_]; [reflexivity|]. rewrite Z.even_add, Z.even_mul. reflexivity.
Qed.

Lemma nearest_ok n d : 0 < n -> 0 < d -> (near (IZR n / IZR d) < b2 1024)%R ->
  is_finite (nearest n d) = true /\ B2R (nearest n d) = near (IZR n / IZR d).
Proof.
  intros Hn Hd Hmax. set (x := (IZR n / IZR d)%R) in *. set (k := Z.max 0 (66 - Z.log2 n + Z.log2 d)).
  pose proof (x_binary n d Hn Hd) as Hx. fold x in Hx. pose proof (x_pos n d Hn Hd) as Px. fold x in Px.
  set (q := mag radix2 x + k + 1). set (z := 2 * (n * 2 ^ k / d) + (if n * 2 ^ k mod d =? 0 then 0 else 1)).
  assert (Hq : 55 <= q).
  { assert (Z.log2 n - Z.log2 d <= mag radix2 x).
    { apply mag_ge_bpow. rewrite Rabs_pos_eq by lra. left. apply Hx. }
    unfold q, k. lia. }
  assert (Eodd : round radix2 (FLX_exp q) Zrnd_odd x = F2R (Float radix2 z (- k - 1))).
  { unfold round, scaled_mantissa, cexp, FLX_exp. replace (mag radix2 x - q) with (- k - 1) by (unfold q; lia). f_equal. f_equal.
    replace (- (- k - 1)) with (k + 1) by lia. apply odd_round; auto. unfold k. lia. }
  assert (Enear : round radix2 (SpecFloat.fexp prec64 emax64) (round_mode mode_NE) (F2R (Float radix2 z (- k - 1))) = near x).
  { rewrite <- Eodd. unfold near. change (SpecFloat.fexp prec64 emax64) with (FLT_exp (-1074) 53). cbn [round_mode].
    assert (P53 : Prec_gt_0 53) by reflexivity. assert (Pq : Prec_gt_0 q) by (unfold Prec_gt_0; lia).
    apply round_N_odd; [reflexivity|apply FLT_exp_valid, P53|apply exists_NE_FLT; right; lia|apply FLX_exp_valid, Pq|apply exists_NE_FLX; right; lia|].
    intros e. unfold FLX_exp, FLT_exp. lia. }
  pose proof (binary_normalize_correct prec64 emax64 _ _ mode_NE z (- k - 1) false) as H. cbv zeta in H. rewrite Enear in H.
  assert (P0 : (0 <= near x)%R).
  { unfold near. assert (P53 : Prec_gt_0 53) by reflexivity. apply round_ge_generic; [apply FLT_exp_valid, P53|apply valid_rnd_N|apply generic_format_0|lra]. }
  rewrite Rlt_bool_true in H by (rewrite Rabs_pos_eq by exact P0; exact Hmax). destruct H as (H1 & H2 & _).
  unfold nearest. fold k. fold z. split; [exact H2|exact H1].
Qed.
