(** Whole numbers: the sums of the distances are exact in doubles, and comparing
    rounded normalised sums compares the sums. *)
From Coq Require Import Reals Lra Psatz Lia ZArith.
From Flocq Require Import Core BinarySingleNaN.
From Verif Require Import Base Num NumB64 NumLaws NumFacts NumXR NumXRLaws NumB64Laws LoopFacts TimeSeries Distance
  DtwSpec DtwPaths DtwProofs Metrics DtwMain DtwResults DtwReal Pairwise AccReal AccDtw AccEnd AccKinds AccLink.
Local Open Scope R_scope.

(** the double [x] is the whole number [z] *)
Definition isZ (x : b64) (z : Z) : Prop := val x = Fin (IZR z).

Lemma isZ_ofZ z : (Z.abs z <= 2 ^ 53)%Z -> isZ (b64_ofZ z) z.
Proof. exact (ofZ_small z). Qed.
Lemma isZ_minus x y p q : isZ x p -> isZ y q -> (Z.abs (p - q) <= 2 ^ 53)%Z -> isZ (Bminus mode_NE x y) (p - q).
Proof.
  unfold isZ. intros Hx Hy H. destruct (val_Fin _ _ Hx) as [Fx Ex]. destruct (val_Fin _ _ Hy) as [Fy Ey].
  rewrite val_minus_fin by auto. rewrite Ex, Ey, <- minus_IZR. apply R64_fmt, fmt64_Z, H.
Qed.
Lemma isZ_plus x y p q : isZ x p -> isZ y q -> (Z.abs (p + q) <= 2 ^ 53)%Z -> isZ (Bplus mode_NE x y) (p + q).
Proof.
  unfold isZ. intros Hx Hy H. destruct (val_Fin _ _ Hx) as [Fx Ex]. destruct (val_Fin _ _ Hy) as [Fy Ey].
  rewrite val_plus_fin by auto. rewrite Ex, Ey, <- plus_IZR. apply R64_fmt, fmt64_Z, H.
Qed.
Lemma isZ_mult x y p q : isZ x p -> isZ y q -> (Z.abs (p * q) <= 2 ^ 53)%Z -> isZ (Bmult mode_NE x y) (p * q).
Proof.
  unfold isZ. intros Hx Hy H. destruct (val_Fin _ _ Hx) as [Fx Ex]. destruct (val_Fin _ _ Hy) as [Fy Ey].
  rewrite val_mult_fin by auto. rewrite Ex, Ey, <- mult_IZR. apply R64_fmt, fmt64_Z, H.
Qed.
Lemma isZ_abs x p : isZ x p -> isZ (Babs x) (Z.abs p).
Proof. unfold isZ. intros Hx. rewrite val_abs, Hx. cbn [xabs]. rewrite abs_IZR. reflexivity. Qed.
Lemma isZ_max x y p q : isZ x p -> isZ y q -> isZ (@nmax B64 x y) (Z.max p q).
Proof.
  unfold isZ. intros Hx Hy. unfold nmax. change (@nltb B64 x y) with (Bltb x y). rewrite val_ltb, Hx, Hy. cbn [xltb].
  destruct (Rlt_bool_spec (IZR p) (IZR q)) as [H|H].
  - apply lt_IZR in H. rewrite Z.max_r by lia. exact Hy.
  - apply le_IZR in H. rewrite Z.max_l by lia. exact Hx.
Qed.

(** quotients and roots of whole numbers *)
Lemma isZ_div x s k : isZ x s -> (0 <= s <= 2 ^ 53)%Z -> (1 <= k <= 2 ^ 53)%Z ->
  val (Bdiv mode_NE x (b64_ofZ k)) = Fin (rne (IZR s / IZR k)).
Proof.
  intros Hx Hs Hk. destruct (val_Fin _ _ Hx) as [Fx Ex]. destruct (val_Fin _ _ (isZ_ofZ k ltac:(lia))) as [Fk Ek].
  assert (P1 : 1 <= IZR k) by (apply (IZR_le 1); lia). assert (P0 : 0 <= IZR s) by (apply (IZR_le 0); lia).
  rewrite val_div_fin; auto; rewrite ?Ek; [|lra]. rewrite Ex.
  assert (P : 0 <= IZR s / IZR k) by (apply Rle_mult_inv_pos; lra).
  destruct (R64_cases _ P) as [E|E]; auto. exfalso.
  assert (Hle : IZR s / IZR k <= IZR s).
  { apply Rmult_le_reg_r with (IZR k); [lra|]. unfold Rdiv. rewrite Rmult_assoc, Rinv_l by lra.
    assert (IZR s * 1 <= IZR s * IZR k) by (apply Rmult_le_compat_l; lra). lra. }
  pose proof (R64_mono _ _ Hle) as Hmn. rewrite E, (R64_fmt (IZR s)) in Hmn by (apply fmt64_Z; lia). exact Hmn.
Qed.

Lemma real_div (x : b64) v k : val x = Fin v -> 0 <= v <= 2 ^ 53 -> (1 <= k <= 2 ^ 53)%Z ->
  val (Bdiv mode_NE x (b64_ofZ k)) = Fin (rne (v / IZR k)).
Proof.
  intros Hx Hv Hk. destruct (val_Fin _ _ Hx) as [Fx Ex]. destruct (val_Fin _ _ (isZ_ofZ k ltac:(lia))) as [Fk Ek].
  assert (P1 : 1 <= IZR k) by (apply (IZR_le 1); lia).
  rewrite val_div_fin; auto; rewrite ?Ek; [|lra]. rewrite Ex.
  assert (P : 0 <= v / IZR k) by (apply Rle_mult_inv_pos; lra).
  destruct (R64_cases _ P) as [E|E]; auto. exfalso.
  assert (Hle : v / IZR k <= IZR (2 ^ 53)).
  { apply Rle_trans with v; [|simpl in Hv |- *; lra].
    apply Rmult_le_reg_r with (IZR k); [lra|]. unfold Rdiv. rewrite Rmult_assoc, Rinv_l by lra.
    assert (v * 1 <= v * IZR k) by (apply Rmult_le_compat_l; lra). lra. }
  pose proof (R64_mono _ _ Hle) as Hmn. rewrite E, (R64_fmt (IZR (2 ^ 53))) in Hmn by (apply fmt64_Z; lia). exact Hmn.
Qed.

Lemma sqrt_bound v : 0 <= v <= 2 ^ 53 -> 0 <= sqrt v <= 2 ^ 53.
Proof.
  intros H. split; [apply R_sqrt.sqrt_pos|]. destruct (Rle_lt_dec 1 v) as [H1|H1].
  - apply Rle_trans with v; [|lra]. apply sqrt_le_self1, H1.
  - apply Rle_trans with 1; [|simpl; lra]. rewrite <- sqrt_1. apply sqrt_le_1_alt. lra.
Qed.

Lemma real_sqrt (x : b64) v : val x = Fin v -> 0 <= v <= 2 ^ 53 ->
  val (Bsqrt mode_NE x) = Fin (rne (sqrt v)) /\ 0 <= rne (sqrt v) <= 2 ^ 53.
Proof.
  intros Hx Hv. destruct (val_Fin _ _ Hx) as [Fx Ex]. pose proof (sqrt_bound v Hv) as Hs.
  assert (H53 : 2 ^ 53 = IZR (2 ^ 53)) by (simpl; lra).
  split.
  - rewrite val_sqrt_fin; auto; rewrite Ex; [|lra].
    destruct (R64_cases _ (proj1 Hs)) as [E|E]; auto. exfalso. rewrite H53 in Hs.
    pose proof (R64_mono _ _ (proj2 Hs)) as Hmn. rewrite E, (R64_fmt (IZR (2 ^ 53))) in Hmn by (apply fmt64_Z; lia). exact Hmn.
  - split; [apply rne_pos, Hs|]. rewrite H53 in *. rewrite <- (rne_fmt (IZR (2 ^ 53))).
    + apply rne_mono, Hs.
    + apply (fmt64_Z (2 ^ 53)). lia.
Qed.

(** integers that differ by a small part of themselves are equal *)
Lemma near_le s t : (0 <= t <= 2 ^ 46)%Z -> IZR s <= IZR t * (1 + 20 * uu) + TT -> (s <= t)%Z.
Proof.
  intros Ht H. apply Zlt_succ_le. apply lt_IZR. rewrite succ_IZR.
  assert (IZR t * (20 * uu) <= 1 / 4).
  { apply Rle_trans with (IZR (2 ^ 46) * (20 * uu)).
    - apply Rmult_le_compat_r; [pose proof uu_pos; lra|apply IZR_le; lia].
    - unfold uu. replace (bpow radix2 (-53)) with (/ IZR (2 ^ 53)) by (simpl; lra). simpl. lra. }
  assert (TT <= 1 / 4).
  { unfold TT. apply Rle_trans with (bpow radix2 (-2)); [apply bpow_le; lia|simpl; lra]. }
  lra.
Qed.

Section Opt.
Variable M : Metric B64.
Variable ng : Nice M.
Variables a b : TS B64.
Variable ratio : b64.
Variable r : Z.
Hypothesis Hpre : dtw_pre M a b ratio r.
Notation m := (ts_length a).
Notation n := (ts_length b).
Variables za zb : Z -> Z.
Variables B C : Z.
Hypothesis Pa : forall i, (0 <= i < m)%Z -> isZ (pt a i) (za i) /\ (Z.abs (za i) <= B)%Z.
Hypothesis Pb : forall i, (0 <= i < n)%Z -> isZ (pt b i) (zb i) /\ (Z.abs (zb i) <= B)%Z.
(** the cost of a pair of points and how costs are put together *)
Variables (g op : Z -> Z -> Z).
Hypothesis Hg : forall p q, (Z.abs p <= B)%Z -> (Z.abs q <= B)%Z -> (0 <= g p q <= C)%Z.
Hypothesis Hop : forall s c, (0 <= s)%Z -> (0 <= c)%Z -> (0 <= op s c <= s + c)%Z.
Hypothesis Hmono : forall s t c, (s <= t)%Z -> (op s c <= op t c)%Z.
Hypothesis Hlim : ((m + n) * C <= 2 ^ 46)%Z.
Variable iv : acc M -> Z -> Prop.
Hypothesis H0 : forall x y p q, isZ x p -> isZ y q -> (Z.abs p <= B)%Z -> (Z.abs q <= B)%Z ->
  iv (m_reduce M (m_init M) x y) (op 0 (g p q)).
Hypothesis Hred : forall v s x y p q, iv v s -> (0 <= s)%Z -> isZ x p -> isZ y q -> (Z.abs p <= B)%Z -> (Z.abs q <= B)%Z ->
  (s + g p q <= 2 ^ 46)%Z -> iv (m_reduce M v x y) (op s (g p q)).
Hypothesis Hcmp : forall v w s t, iv v s -> iv w t -> (0 <= s <= 2 ^ 46)%Z -> (0 <= t <= 2 ^ 46)%Z ->
  @nle B64 (nrm M a b v) (nrm M a b w) -> (s <= t)%Z.

Definition zval (p : list (Z * Z)) : Z := fold_left (fun s c => op s (g (za (fst c)) (zb (snd c)))) p 0%Z.

Lemma zval_snoc p i j : zval (p ++ [(i, j)])%list = op (zval p) (g (za i) (zb j)).
Proof. unfold zval. rewrite fold_left_app. reflexivity. Qed.

Let Ha := dp_a _ _ _ _ _ Hpre.
Let Hb := dp_b _ _ _ _ _ Hpre.
Let Hm := dp_m _ _ _ _ _ Hpre.
Let Hn := dp_n _ _ _ _ _ Hpre.
Let Hr := dp_r _ _ _ _ _ Hpre.
Let Fa := dp_fa _ _ _ _ _ Hpre.
Let Fb := dp_fb _ _ _ _ _ Hpre.
Let Hno := dp_fin _ _ _ _ _ Hpre.

Lemma C_pos : (0 <= C)%Z.
Proof. pose proof (Hg (za 0) (zb 0) (proj2 (Pa 0%Z ltac:(lia))) (proj2 (Pb 0%Z ltac:(lia)))). lia. Qed.

Lemma zval_bound i j p : bpath r i j p -> (i < m)%Z -> (j < n)%Z -> (0 <= zval p <= (i + j + 1) * C)%Z.
Proof.
  pose proof C_pos as HC.
  induction 1 as [|i j i' j' p Hp IH Hs Hb']; intros Hi Hj.
  - unfold zval. cbn [fold_left fst snd].
    pose proof (Hg (za 0) (zb 0) (proj2 (Pa 0%Z ltac:(lia))) (proj2 (Pb 0%Z ltac:(lia)))) as G.
    pose proof (Hop 0 _ ltac:(lia) (proj1 G)). lia.
  - rewrite zval_snoc. pose proof (wstep_cases _ _ _ _ Hs) as Hc. pose proof (bpath_nonneg _ _ _ _ Hp) as [P1 P2].
    specialize (IH ltac:(lia) ltac:(lia)).
    pose proof (Hg (za i') (zb j') (proj2 (Pa i' ltac:(lia))) (proj2 (Pb j' ltac:(lia)))) as G.
    pose proof (Hop (zval p) _ ltac:(lia) (proj1 G)).
    destruct Hc as [[-> ->]|[[-> ->]|[-> ->]]]; nia.
Qed.

Lemma zval_lim i j p : bpath r i j p -> (i < m)%Z -> (j < n)%Z -> (0 <= zval p <= 2 ^ 46)%Z.
Proof.
  intros Hp Hi Hj. pose proof (zval_bound i j p Hp Hi Hj). pose proof C_pos. pose proof (bpath_nonneg _ _ _ _ Hp).
  assert ((i + j + 1) * C <= (m + n) * C)%Z by (apply Z.mul_le_mono_nonneg_r; lia). lia.
Qed.

Definition least (i j : Z) (v : acc M) : Prop :=
  exists p, bpath r i j p /\ iv v (zval p) /\ forall q, bpath r i j q -> (zval p <= zval q)%Z.

Lemma only_corner q : bpath r 0 0 q -> q = [(0, 0)%Z].
Proof.
  intros Hq. inversion Hq as [E|i j i' j' p Hp Hw Habs E1 E2 E3]; subst; auto.
  exfalso. apply wstep_cases in Hw. apply bpath_nonneg in Hp. lia.
Qed.

Lemma least_0 : least 0 0 (m_reduce M (m_init M) (pt a 0) (pt b 0)).
Proof.
  exists [(0, 0)%Z]. split; [constructor|]. split.
  - destruct (Pa 0%Z ltac:(lia)) as [A1 A2]. destruct (Pb 0%Z ltac:(lia)) as [B1 B2].
    unfold zval. cbn [fold_left fst snd]. apply H0; auto.
  - intros q Hq. rewrite (only_corner q Hq). lia.
Qed.

Lemma least_S : forall i j ip jp v',
  inb a b r i j -> wstep (ip, jp) (i, j) -> inb a b r ip jp -> ng_ok ng v' -> Phi1 M a b r ip jp v' -> least ip jp v' ->
  (forall iq jq, wstep (iq, jq) (i, j) -> inb a b r iq jq ->
     exists vq, ng_ok ng vq /\ Phi1 M a b r iq jq vq /\ least iq jq vq /\ @nle B64 (nrm M a b v') (nrm M a b vq)) ->
  least i j (m_reduce M v' (pt a i) (pt b j)).
Proof.
  intros i j ip jp v' Hij Hw Hp Hok _ (p & Hpp & Hiv & Hle) Hmin.
  assert (Hij' := Hij). unfold inb in Hij', Hp.
  destruct (Pa i ltac:(lia)) as [A1 A2]. destruct (Pb j ltac:(lia)) as [B1 B2].
  assert (Hnew : bpath r i j (p ++ [(i, j)])) by (apply (bpS r ip jp); auto; lia).
  exists (p ++ [(i, j)])%list. split; [exact Hnew|]. split.
  - rewrite zval_snoc. pose proof (zval_bound _ _ _ Hpp ltac:(lia) ltac:(lia)) as Hb1. pose proof C_pos as HC.
    pose proof (Hg _ _ A2 B2) as G. pose proof (wstep_cases _ _ _ _ Hw) as Hc. pose proof (bpath_nonneg _ _ _ _ Hpp).
    apply Hred; auto; [lia|].
    assert ((ip + jp + 1) * C + C <= (m + n) * C)%Z by nia. lia.
  - intros q Hq. inversion Hq as [E|iq jq i' j' q' Hq' Hw' Habs E1 E2 E3]; subst.
    { exfalso. apply wstep_cases in Hw. lia. }
    pose proof (wstep_cases _ _ _ _ Hw') as Hc. pose proof (bpath_nonneg _ _ _ _ Hq').
    assert (Hiq : inb a b r iq jq) by (unfold inb; apply bpath_band in Hq'; auto; lia).
    destruct (Hmin iq jq Hw' Hiq) as (vq & _ & _ & (pq & Hpq & Hivq & Hleq) & Hnle).
    rewrite !zval_snoc. apply Hmono. apply Z.le_trans with (zval pq); [|apply Hleq, Hq'].
    apply (Hcmp v' vq); auto; eapply zval_lim; eauto; lia.
Qed.

(** the value returned without a cut-off *)
Lemma whole_opt mt : (Z.abs (m - n) <= r)%Z -> exists v p mt',
  bpath r (m - 1) (n - 1) p /\ iv v (zval p) /\ (0 <= zval p <= 2 ^ 46)%Z /\
  (forall q, bpath r (m - 1) (n - 1) q -> (zval p <= zval q)%Z) /\
  warpedDistance M a b ratio (@ninf B64) mt = Ret (nrm M a b v, mt').
Proof.
  intros Hab.
  destruct (warped_gen M ng a b r Ha Hb Hm Hn Hr Fa Fb Hno least least_0 least_S ratio (dp_band _ _ _ _ _ Hpre))
    as (cF & dF & _ & HdF & Hrun).
  destruct HdF as [(_ & v & Hok & [HPhi (p & Hp & Hiv & Hle)] & EdF)|(H1 & _)]; [|lia].
  destruct (Hrun ninf mt lw_inf_nn) as (d & mt' & nc & E & _ & Hc).
  exists v, p, (mt' ++ rev mt)%list. splits; auto; try (eapply zval_lim; eauto; lia).
  rewrite E. destruct Hc as [[-> _]|[_ Hlt]]; [rewrite EdF; reflexivity|]. exfalso.
  apply (nle_not_lt _ _ (nle_inf _ (nlt_nn_r _ _ Hlt)) Hlt).
Qed.
End Opt.
