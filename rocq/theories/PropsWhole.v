(** Property C69: distances between series of whole numbers.  The specification is
    the beginning of this file: warping paths of DtwSpec.v, their costs in whole
    numbers, one rounding to the nearest double where it says so. *)
From Coq Require Import String Reals Lra Psatz Lia ZArith.
From Flocq Require Import Core BinarySingleNaN.
From Verif Require Import Base Num NumB64 NumLaws NumFacts NumXR NumXRLaws NumB64Laws LoopFacts TimeSeries Distance
  DtwSpec DtwPaths DtwProofs Metrics DtwMain DtwResults DtwReal DtwBounds Pairwise DistSpec DistFacts DistLink
  AccReal AccDtw AccEnd AccKinds AccLink AccPair PropsDistance PropsAccuracy DtwWhole.
Local Open Scope Z_scope.
Local Open Scope list_scope.

(** the points of [t] are the whole numbers [zs], at most [B] in magnitude *)
Record whole_series (t : TS B64) (zs : list Z) (B : Z) : Prop := {
  ws_ok : ts_ok t;
  ws_points : Forall2 (fun (x : b64) z => is_finite x = true /\ B2R x = IZR z) (ts_points t) zs;
  ws_bound : Forall (fun z => Z.abs z <= B) zs
}.

(** the cost of an alignment: the sum of squares, the sum or the largest of the differences *)
Definition gap (k : kind) (x y : Z) : Z :=
  match k with KEuclidean => (x - y) * (x - y) | _ => Z.abs (x - y) end.
Definition join (k : kind) (s c : Z) : Z :=
  match k with KChebyshev => Z.max s c | _ => s + c end.
Definition zcost (k : kind) (xs ys : list Z) (p : list (Z * Z)) : Z :=
  fold_left (fun s c => join k s (gap k (nth (Z.to_nat (fst c)) xs 0) (nth (Z.to_nat (snd c)) ys 0))) p 0.

(** the nearest double (ties to even) *)
Definition near (x : R) : R := round radix2 (FLT_exp (-1074) 53) ZnearestE x.

(** the distance belonging to a cost: warped, and point by point *)
Definition warped_value (k : kind) (s len : Z) : R :=
  match k with
  | KEuclidean => near (near (sqrt (IZR s)) / IZR (2 * len))
  | KManhattan => near (IZR s / IZR (2 * len))
  | KChebyshev => IZR s
  end.
Definition paired_value (k : kind) (s len : Z) : R :=
  match k with
  | KEuclidean => near (sqrt (near (IZR s / IZR len)))
  | KManhattan => near (IZR s / IZR len)
  | KChebyshev => IZR s
  end.

(** the largest cost of a pair of numbers of magnitude up to [B] *)
Definition largest (k : kind) (B : Z) : Z :=
  match k with KEuclidean => 4 * B * B | _ => 2 * B end.

(** ** from here on proofs *)
Lemma near_rne x : near x = rne x.
Proof. reflexivity. Qed.

Lemma Forall2_len {A C} (R : A -> C -> Prop) l l' : Forall2 R l l' -> length l = length l'.
Proof. induction 1; simpl; congruence. Qed.

Section W.
Variables (t : TS B64) (zs : list Z) (B : Z).
Hypothesis Ht : whole_series t zs B.

Lemma ws_length : ts_length t = Z.of_nat (length zs).
Proof.
  rewrite <- (Forall2_len _ _ _ (ws_points _ _ _ Ht)). symmetry. exact (ts_points_length (N := B64) t (ws_ok _ _ _ Ht)).
Qed.

Lemma ws_pt i : 0 <= i < ts_length t -> isZ (pt t i) (nth (Z.to_nat i) zs 0) /\ Z.abs (nth (Z.to_nat i) zs 0) <= B.
Proof.
  intros Hi. rewrite ws_length in Hi. assert (Hn : (Z.to_nat i < length zs)%nat) by lia. split.
  - unfold isZ, pt. pose proof (ws_points _ _ _ Ht) as HF.
    assert (G : forall (l : list b64) (z : list Z) k, Forall2 (fun (x : b64) z => is_finite x = true /\ B2R x = IZR z) l z ->
      (k < length z)%nat -> val (nth k l (@n0 B64)) = Fin (IZR (nth k z 0))).
    { intros l z k H. revert k. induction H as [|x y l z [H1 H2] H IH]; intros k Hk; [simpl in Hk; lia|].
      destruct k as [|k]; cbn [nth]; [rewrite (val_finite x H1), H2; reflexivity|]. apply IH. simpl in Hk. lia. }
    apply G; auto.
  - pose proof (ws_bound _ _ _ Ht) as HF. rewrite Forall_forall in HF. apply HF, nth_In, Hn.
Qed.

Lemma ws_small : B <= 2 ^ 53 -> small_points t.
Proof.
  intros HB. unfold small_points.
  assert (G : forall (l : list b64) z, Forall2 (fun (x : b64) z => is_finite x = true /\ B2R x = IZR z) l z ->
    Forall (fun z => Z.abs z <= B) z -> Forall (fun x => @nle B64 (nabs (n := B64) x) (b64_ofZ (2 ^ 490))) l);
    [|exact (G _ _ (ws_points _ _ _ Ht) (ws_bound _ _ _ Ht))].
  induction 1 as [|x z l zs' [H1 H2] HF IH]; intros HB'; [constructor|].
  inversion HB' as [|z' l' Hz Hzs]; subst. constructor; auto.
  apply nleP_val. change (@nabs B64 x) with (Babs x). change (b64_ofZ (2 ^ 490)) with b64_big.
  rewrite val_abs, (val_finite x H1), H2, val_big. cbn [xabs xleP].
  rewrite <- abs_IZR. apply Rle_trans with (IZR (2 ^ 53)); [apply IZR_le; lia|].
  apply Rle_trans with (bpow radix2 53); [simpl; lra|apply bpow_le; lia].
Qed.
End W.

Lemma gap_bound B k p q : Z.abs p <= B -> Z.abs q <= B -> 0 <= gap k p q <= largest k B.
Proof. intros Hp Hq. unfold gap, largest. destruct k; [|lia|lia]. assert (Z.abs (p - q) <= 2 * B) by lia. nia. Qed.

Section Dtw.
Variables (a b : TS B64) (xs ys : list Z) (B : Z).
Hypothesis Wa : whole_series a xs B.
Hypothesis Wb : whole_series b ys B.
Variables (ratio : b64) (r : Z).
Hypothesis Hm : 2 <= ts_length a <= 2 ^ 30.
Hypothesis Hn : 2 <= ts_length b <= 2 ^ 30.
Hypothesis Hband : band (N := B64) ratio (Z.max (ts_length a) (ts_length b)) = Ret r.
Hypothesis Hr : Z.abs (ts_length a - ts_length b) <= r.
Notation m := (ts_length a).
Notation n := (ts_length b).
Notation len := (Z.max m n).

Lemma B_pos : 0 <= B.
Proof. pose proof (proj2 (ws_pt a xs B Wa 0 ltac:(lia))). lia. Qed.

Lemma B_lim k : (m + n) * largest k B <= 2 ^ 46 -> B <= 2 ^ 46 /\ largest k B <= 2 ^ 46.
Proof. pose proof B_pos as HB. unfold largest. intros H. destruct k; nia. Qed.

Lemma isZ_gap k x y p q : isZ x p -> isZ y q -> Z.abs p <= B -> Z.abs q <= B ->
  (m + n) * largest k B <= 2 ^ 46 ->
  isZ (match k with
       | KEuclidean => Bmult mode_NE (Bminus mode_NE x y) (Bminus mode_NE x y)
       | _ => Babs (Bminus mode_NE x y) end) (gap k p q).
Proof.
  intros Hx Hy Hp Hq Hl. destruct (B_lim k Hl) as [L1 L2]. pose proof (gap_bound B k p q Hp Hq) as G.
  assert (Hs : isZ (Bminus mode_NE x y) (p - q)) by (apply isZ_minus; auto; lia).
  destruct k; cbn [gap] in *; [|apply isZ_abs, Hs|apply isZ_abs, Hs].
  apply isZ_mult; auto. lia.
Qed.

Lemma whole_run k mt : (m + n) * largest k B <= 2 ^ 46 ->
  exists d p, bpath r (m - 1) (n - 1) p /\
    (forall q, bpath r (m - 1) (n - 1) q -> zcost k xs ys p <= zcost k xs ys q) /\
    value (dist_call (N := B64) (dtw_name k) ratio a b pinf mt) = Ret d /\
    val d = Fin (warped_value k (zcost k xs ys p) len).
Proof.
  intros Hl. destruct (B_lim k Hl) as [L1 L2]. pose proof B_pos as HB.
  assert (H : ieee_ok k a b ratio r).
  { apply small_ok; auto; try lia; try apply (ws_ok _ _ _ Wa); try apply (ws_ok _ _ _ Wb);
      [apply (ws_small a xs B)|apply (ws_small b ys B)]; auto; lia. }
  rewrite call_dtw. pose proof (proj1 (ok_pre _ _ _ _ _) H) as H'.
  assert (HK : 1 <= 2 * len <= 2 ^ 53) by lia.
  assert (HKr : (1 <= IZR (2 * len) <= KK)%R) by (split; [apply (IZR_le 1); lia|rewrite KK_val; apply IZR_le; lia]).
  assert (H46 : forall s, 0 <= s <= 2 ^ 46 -> (0 <= IZR s <= 2 ^ 53)%R).
  { intros s Hs. split; [apply (IZR_le 0); lia|]. apply Rle_trans with (IZR (2 ^ 53)); [apply IZR_le; lia|simpl; lra]. }
  destruct k; cbn [metric_of] in *.
  - assert (En : forall (v : b64) s, isZ v s -> 0 <= s <= 2 ^ 46 ->
      val (nrm (@Euclidean B64) a b v) = Fin (rne (rne (sqrt (IZR s)) / IZR (2 * len)))).
    { intros v s Hv Hs. change (nrm (@Euclidean B64) a b v) with (Bdiv mode_NE (Bsqrt mode_NE v) (b64_ofZ (2 * len))).
      destruct (real_sqrt v _ Hv (H46 s Hs)) as [E1 E2]. apply real_div; auto. }
    destruct (whole_opt (@Euclidean B64) Euclidean_nice a b ratio r H'
      (fun i => nth (Z.to_nat i) xs 0) (fun i => nth (Z.to_nat i) ys 0) B (largest KEuclidean B)
      (ws_pt a xs B Wa) (ws_pt b ys B Wb) (gap KEuclidean) (join KEuclidean) (gap_bound B KEuclidean)) with (iv := isZ) (mt := mt)
      as (v & p & mt' & P1 & P2 & P3 & P4 & E).
    + cbn [join]. lia.
    + cbn [join]. lia.
    + exact Hl.
    + intros x y p q Hx Hy Hp Hq.
      apply (isZ_plus (b64_ofZ 0) (Bmult mode_NE (Bminus mode_NE x y) (Bminus mode_NE x y)) 0 (gap KEuclidean p q)).
      * apply isZ_ofZ. lia.
      * apply (isZ_gap KEuclidean); auto.
      * pose proof (gap_bound B KEuclidean p q Hp Hq). lia.
    + intros v s x y p q Hv Hs Hx Hy Hp Hq Hlim.
      apply (isZ_plus v (Bmult mode_NE (Bminus mode_NE x y) (Bminus mode_NE x y)) s (gap KEuclidean p q)); auto.
      * apply (isZ_gap KEuclidean); auto.
      * pose proof (gap_bound B KEuclidean p q Hp Hq). lia.
    + intros v w s t' Hv Hw Hs Ht Hle. apply nleP_val in Hle. rewrite (En v s Hv Hs), (En w t' Hw Ht) in Hle. cbn [xleP] in Hle.
      apply near_le; auto. apply (cmp_sqrt (IZR (2 * len)) HKr); auto; [apply (H46 s Hs)|apply (H46 t' Ht)].
    + exact Hr.
    + exists (nrm (@Euclidean B64) a b v), p. split; [exact P1|]. split; [exact P4|].
      change (warpedDistance (@Euclidean B64) a b ratio pinf mt) with (warpedDistance (@Euclidean B64) a b ratio (@ninf B64) mt).
      rewrite E. split; [reflexivity|]. exact (En v _ P2 P3).
  - assert (En : forall (v : b64) s, isZ v s -> 0 <= s <= 2 ^ 46 ->
      val (nrm (@Manhattan B64) a b v) = Fin (rne (IZR s / IZR (2 * len)))).
    { intros v s Hv Hs. change (nrm (@Manhattan B64) a b v) with (Bdiv mode_NE v (b64_ofZ (2 * len))).
      apply real_div; auto. }
    destruct (whole_opt (@Manhattan B64) Manhattan_nice a b ratio r H'
      (fun i => nth (Z.to_nat i) xs 0) (fun i => nth (Z.to_nat i) ys 0) B (largest KManhattan B)
      (ws_pt a xs B Wa) (ws_pt b ys B Wb) (gap KManhattan) (join KManhattan) (gap_bound B KManhattan)) with (iv := isZ) (mt := mt)
      as (v & p & mt' & P1 & P2 & P3 & P4 & E).
    + cbn [join]. lia.
    + cbn [join]. lia.
    + exact Hl.
    + intros x y p q Hx Hy Hp Hq.
      apply (isZ_plus (b64_ofZ 0) (Babs (Bminus mode_NE x y)) 0 (gap KManhattan p q)).
      * apply isZ_ofZ. lia.
      * apply (isZ_gap KManhattan); auto.
      * pose proof (gap_bound B KManhattan p q Hp Hq). lia.
    + intros v s x y p q Hv Hs Hx Hy Hp Hq Hlim.
      apply (isZ_plus v (Babs (Bminus mode_NE x y)) s (gap KManhattan p q)); auto.
      * apply (isZ_gap KManhattan); auto.
      * pose proof (gap_bound B KManhattan p q Hp Hq). lia.
    + intros v w s t' Hv Hw Hs Ht Hle. apply nleP_val in Hle. rewrite (En v s Hv Hs), (En w t' Hw Ht) in Hle. cbn [xleP] in Hle.
      apply near_le; auto. apply (cmp_linear (IZR (2 * len)) HKr); auto; [apply (H46 s Hs)|apply (H46 t' Ht)].
    + exact Hr.
    + exists (nrm (@Manhattan B64) a b v), p. split; [exact P1|]. split; [exact P4|].
      change (warpedDistance (@Manhattan B64) a b ratio pinf mt) with (warpedDistance (@Manhattan B64) a b ratio (@ninf B64) mt).
      rewrite E. split; [reflexivity|]. exact (En v _ P2 P3).
  - destruct (whole_opt (@Chebyshev B64) Chebyshev_nice a b ratio r H'
      (fun i => nth (Z.to_nat i) xs 0) (fun i => nth (Z.to_nat i) ys 0) B (largest KChebyshev B)
      (ws_pt a xs B Wa) (ws_pt b ys B Wb) (gap KChebyshev) (join KChebyshev) (gap_bound B KChebyshev)) with (iv := isZ) (mt := mt)
      as (v & p & mt' & P1 & P2 & P3 & P4 & E).
    + cbn [join]. lia.
    + cbn [join]. lia.
    + exact Hl.
    + intros x y p q Hx Hy Hp Hq. pose proof (isZ_gap KChebyshev x y p q Hx Hy Hp Hq Hl) as G. cbn [join].
      rewrite Z.max_r by (pose proof (gap_bound B KChebyshev p q Hp Hq); lia).
      change (isZ (@nmax B64 (@nninf B64) (Babs (Bminus mode_NE x y))) (gap KChebyshev p q)).
      unfold nmax. change (@nltb B64 (@nninf B64) (Babs (Bminus mode_NE x y))) with (Bltb (B754_infinity true) (Babs (Bminus mode_NE x y))).
      rewrite val_ltb. unfold isZ in G. rewrite G. exact G.
    + intros v s x y p q Hv Hs Hx Hy Hp Hq Hlim. apply (isZ_max v (Babs (Bminus mode_NE x y)) s (gap KChebyshev p q)); auto.
      apply (isZ_gap KChebyshev); auto.
    + intros v w s t' Hv Hw Hs Ht Hle. change (@nle B64 v w) in Hle. apply nleP_val in Hle.
      unfold isZ in *. rewrite Hv, Hw in Hle. apply le_IZR, Hle.
    + exact Hr.
    + exists v, p. split; [exact P1|]. split; [exact P4|].
      change (warpedDistance (@Chebyshev B64) a b ratio pinf mt) with (warpedDistance (@Chebyshev B64) a b ratio (@ninf B64) mt).
      rewrite E. split; [reflexivity|]. exact P2.
Qed.
End Dtw.

(** *** point by point *)
Definition as_b64 (k : kind) : acc (metric_of (N := B64) k) -> b64 :=
  match k with KEuclidean => fun v => v | KManhattan => fun v => v | KChebyshev => fun v => v end.

Section Pair.
Variables (a b : TS B64) (xs ys : list Z) (B : Z).
Hypothesis Wa : whole_series a xs B.
Hypothesis Wb : whole_series b ys B.
Hypothesis Hm : 1 <= ts_length a <= 2 ^ 30.
Hypothesis Hl : ts_length a = ts_length b.
Variable k : kind.
Hypothesis Hlim : ts_length a * largest k B <= 2 ^ 46.
Notation m := (ts_length a).
Notation metric := (metric_of (N := B64) k).

Lemma B_lim1 : 0 <= B /\ B <= 2 ^ 46 /\ largest k B <= 2 ^ 46.
Proof.
  pose proof (proj2 (ws_pt a xs B Wa 0 ltac:(lia))) as H0. assert (HB : 0 <= B) by lia.
  pose proof Hlim as Hx. revert Hx. unfold largest. destruct k; intros Hx; splits; auto; nia.
Qed.

Lemma zcost_snoc p i j : zcost k xs ys (p ++ [(i, j)]) =
  join k (zcost k xs ys p) (gap k (nth (Z.to_nat i) xs 0) (nth (Z.to_nat j) ys 0)).
Proof. unfold zcost. rewrite fold_left_app. reflexivity. Qed.

Lemma one_gap x y p q : isZ x p -> isZ y q -> Z.abs p <= B -> Z.abs q <= B ->
  isZ (match k with
       | KEuclidean => Bmult mode_NE (Bminus mode_NE x y) (Bminus mode_NE x y)
       | _ => Babs (Bminus mode_NE x y) end) (gap k p q) /\ 0 <= gap k p q <= largest k B.
Proof.
  intros Hx Hy Hp Hq. destruct B_lim1 as (L0 & L1 & L2). pose proof (gap_bound B k p q Hp Hq) as G. split; auto.
  assert (Hs : isZ (Bminus mode_NE x y) (p - q)) by (apply isZ_minus; auto; lia).
  revert G L2. destruct k; cbn [gap]; intros G L2; [|apply isZ_abs, Hs|apply isZ_abs, Hs].
  apply isZ_mult; auto. lia.
Qed.

Lemma diag_acc j : (Z.of_nat (S j) <= m) ->
  isZ (as_b64 k (path_acc metric a b (diag (S j)))) (zcost k xs ys (diag (S j))) /\
  0 <= zcost k xs ys (diag (S j)) <= Z.of_nat (S j) * largest k B.
Proof.
  destruct B_lim1 as (L0 & L1 & L2).
  induction j as [|j IH]; intros Hj.
  - destruct (ws_pt a xs B Wa 0 ltac:(lia)) as [A1 A2]. destruct (ws_pt b ys B Wb 0 ltac:(lia)) as [B1 B2].
    destruct (one_gap _ _ _ _ A1 B1 A2 B2) as [G1 G2].
    change (diag 1) with [(0, 0)]. change [(0, 0)] with (@nil (Z * Z) ++ [(0, 0)]). rewrite path_acc_snoc, zcost_snoc.
    change (zcost k xs ys []) with 0.
    assert (E : join k 0 (gap k (nth (Z.to_nat 0) xs 0) (nth (Z.to_nat 0) ys 0)) = gap k (nth (Z.to_nat 0) xs 0) (nth (Z.to_nat 0) ys 0)).
    { revert G2. destruct k; cbn [join]; lia. }
    rewrite E. split; [|lia]. clear E. revert G1 G2. unfold as_b64. destruct k; intros G1 G2.
    + apply (isZ_plus (b64_ofZ 0) _ 0 _ (isZ_ofZ 0 ltac:(lia)) G1). lia.
    + apply (isZ_plus (b64_ofZ 0) _ 0 _ (isZ_ofZ 0 ltac:(lia)) G1). lia.
    + change (isZ (@nmax B64 (@nninf B64) (Babs (Bminus mode_NE (pt a 0) (pt b 0)))) (gap KChebyshev (nth (Z.to_nat 0) xs 0) (nth (Z.to_nat 0) ys 0))).
      unfold nmax. change (@nltb B64 (@nninf B64) (Babs (Bminus mode_NE (pt a 0) (pt b 0)))) with (Bltb (B754_infinity true) (Babs (Bminus mode_NE (pt a 0) (pt b 0)))).
      rewrite val_ltb. unfold isZ in G1. rewrite G1. exact G1.
  - destruct (IH ltac:(lia)) as [I1 I2]. clear IH. set (i := Z.of_nat (S j)) in *.
    destruct (ws_pt a xs B Wa i ltac:(lia)) as [A1 A2]. destruct (ws_pt b ys B Wb i ltac:(lia)) as [B1 B2].
    destruct (one_gap _ _ _ _ A1 B1 A2 B2) as [G1 G2].
    rewrite (diag_S (S j)). fold i. rewrite path_acc_snoc, zcost_snoc.
    replace (Z.of_nat (S (S j))) with (i + 1) by lia.
    assert (Hs : zcost k xs ys (diag (S j)) + gap k (nth (Z.to_nat i) xs 0) (nth (Z.to_nat i) ys 0) <= (i + 1) * largest k B) by lia.
    assert (Hb : (i + 1) * largest k B <= 2 ^ 46).
    { apply Z.le_trans with (m * largest k B); auto. apply Z.mul_le_mono_nonneg_r; lia. }
    split; [|revert I2 G2 Hs; destruct k; cbn [join]; lia].
    generalize dependent (path_acc metric a b (diag (S j))). generalize dependent (zcost k xs ys (diag (S j))).
    unfold as_b64. revert G1 G2. destruct k; intros G1 G2 s Hs1 Hs2 v Hv.
    + apply (isZ_plus v _ s _ Hv G1). lia.
    + apply (isZ_plus v _ s _ Hv G1). lia.
    + apply (isZ_max v _ s _ Hv G1).
Qed.

Lemma pair_run mt : let s := zcost k xs ys (straight (length xs)) in
  exists d, value (dist_call (N := B64) (kind_name k) (b64_ofZ 1) a b pinf mt) = Ret d /\
    val d = Fin (paired_value k s m).
Proof.
  intros s. destruct B_lim1 as (L0 & L1 & L2).
  rewrite (pair_uncut a b (ws_ok _ _ _ Wa) (ws_ok _ _ _ Wb) Hl Hm).
  exists (pw_full metric a b). split; [reflexivity|].
  destruct (Z.to_nat m) as [|j] eqn:Ej; [lia|].
  destruct (diag_acc j ltac:(lia)) as [D1 D2].
  assert (Es : s = zcost k xs ys (diag (S j))).
  { unfold s. rewrite (ws_length a xs B Wa) in Ej. rewrite Nat2Z.id in Ej. rewrite Ej. reflexivity. }
  rewrite <- Es in D1, D2.
  assert (Hs : 0 <= s <= 2 ^ 46) by lia. clear Es.
  assert (Hs' : (0 <= IZR s <= 2 ^ 53)%R).
  { split; [apply (IZR_le 0); lia|]. apply Rle_trans with (IZR (2 ^ 53)); [apply IZR_le; lia|simpl; lra]. }
  unfold pw_full. rewrite Ej. generalize dependent (path_acc metric a b (diag (S j))). unfold as_b64. clearbody s.
  clear D2 L2 Hlim. destruct k; intros v Hv.
  - change (val (Bsqrt mode_NE (Bdiv mode_NE v (b64_ofZ (Z.max m m)))) = Fin (paired_value KEuclidean s m)).
    rewrite Z.max_id. pose proof (real_div v (IZR s) m Hv Hs' ltac:(lia)) as E1.
    destruct (real_sqrt _ _ E1) as [E2 _]; [|exact E2].
    assert (P1 : (1 <= IZR m)%R) by (apply (IZR_le 1); lia). split.
    + apply rne_pos. apply Rle_mult_inv_pos; lra.
    + replace (2 ^ 53)%R with (IZR (2 ^ 53)) in * by (simpl; lra). rewrite <- (rne_fmt (IZR (2 ^ 53))) by (apply (fmt64_Z (2 ^ 53)); lia).
      apply rne_mono. apply Rle_trans with (IZR s); [|lra].
      apply Rmult_le_reg_r with (IZR m); [lra|]. unfold Rdiv. rewrite Rmult_assoc, Rinv_l by lra.
      assert (IZR s * 1 <= IZR s * IZR m)%R by (apply Rmult_le_compat_l; lra). lra.
  - change (val (Bdiv mode_NE v (b64_ofZ (Z.max m m))) = Fin (paired_value KManhattan s m)).
    rewrite Z.max_id. apply (real_div v (IZR s) m Hv Hs'). lia.
  - exact Hv.
Qed.
End Pair.

Lemma val_is (d : b64) x : val d = Fin x -> is_finite d = true /\ B2R d = x.
Proof. apply val_Fin. Qed.

(** ** C69: on whole numbers nothing is lost to rounding inside a sum: the warped
    distance belongs to the least cost of all alignments in the band, rounded once at
    the end (twice for the Euclidean distance, not at all for the Chebyshev one) *)
Theorem C69_warped_whole_numbers : forall (k : kind) (a b : TS B64) xs ys B (ratio : b64) r mt,
  whole_series a xs B -> whole_series b ys B ->
  2 <= ts_length a <= 2 ^ 30 -> 2 <= ts_length b <= 2 ^ 30 ->
  (ts_length a + ts_length b) * largest k B <= 2 ^ 46 ->
  band (N := B64) ratio (Z.max (ts_length a) (ts_length b)) = Ret r -> Z.abs (ts_length a - ts_length b) <= r ->
  exists p d,
    warping_path (ts_length a) (ts_length b) p /\ in_band r p /\
    (forall q, warping_path (ts_length a) (ts_length b) q -> in_band r q -> zcost k xs ys p <= zcost k xs ys q) /\
    value (dist_call (N := B64) (dtw_name k) ratio a b pinf mt) = Ret d /\ is_finite d = true /\
    B2R d = warped_value k (zcost k xs ys p) (Z.max (ts_length a) (ts_length b)).
Proof.
  intros k a b xs ys B ratio r mt Wa Wb Hm Hn Hl Hband Hr.
  destruct (whole_run a b xs ys B Wa Wb ratio r Hm Hn Hband Hr k mt Hl) as (d & p & P1 & P2 & P3 & P4).
  assert (H0 : 0 <= r) by lia.
  exists p, d. apply bpath_path in P1; auto.
  replace (ts_length a - 1 + 1) with (ts_length a) in P1 by lia. replace (ts_length b - 1 + 1) with (ts_length b) in P1 by lia.
  destruct (val_is d _ P4) as [F1 F2]. splits; try apply P1; auto.
  intros q Q1 Q2. apply P2. apply path_bpath; auto.
  replace (ts_length a - 1 + 1) with (ts_length a) by lia. replace (ts_length b - 1 + 1) with (ts_length b) by lia. exact Q1.
Qed.
Print Assumptions C69_warped_whole_numbers.

Theorem C69_paired_whole_numbers : forall (k : kind) (a b : TS B64) xs ys B mt,
  whole_series a xs B -> whole_series b ys B ->
  1 <= ts_length a <= 2 ^ 30 -> ts_length a = ts_length b -> ts_length a * largest k B <= 2 ^ 46 ->
  exists d, value (dist_call (N := B64) (kind_name k) (b64_ofZ 1) a b pinf mt) = Ret d /\ is_finite d = true /\
    B2R d = paired_value k (zcost k xs ys (straight (length xs))) (ts_length a).
Proof.
  intros k a b xs ys B mt Wa Wb Hm Hl Hlim.
  destruct (pair_run a b xs ys B Wa Wb Hm Hl k Hlim mt) as (d & E & V). exists d.
  destruct (val_is d _ V). auto.
Qed.
Print Assumptions C69_paired_whole_numbers.

(** *** what follows: in doubles, on whole numbers, *)
Lemma warped_mono k s t len : 0 <= s <= t -> 1 <= len -> (warped_value k s len <= warped_value k t len)%R.
Proof.
  intros Hs Hlen. assert (P : (0 < / IZR (2 * len))%R) by (apply Rinv_0_lt_compat, (IZR_lt 0); lia).
  assert (Q : (IZR s <= IZR t)%R) by (apply IZR_le; lia).
  destruct k; cbn [warped_value]; rewrite ?near_rne; [| |exact Q].
  - apply rne_mono, Rmult_le_compat_r; [lra|]. apply rne_mono. apply sqrt_le_1_alt, Q.
  - apply rne_mono, Rmult_le_compat_r; lra.
Qed.

Lemma gap_pos k x y : 0 <= gap k x y.
Proof. destruct k; cbn [gap]; [apply Z.square_nonneg|apply Z.abs_nonneg|apply Z.abs_nonneg]. Qed.

Lemma zcost_pos k xs ys p : 0 <= zcost k xs ys p.
Proof.
  unfold zcost. assert (G : forall s, 0 <= s -> 0 <= fold_left (fun s c => join k s (gap k (nth (Z.to_nat (fst c)) xs 0) (nth (Z.to_nat (snd c)) ys 0))) p s).
  { induction p as [|c p IH]; intros s Hs; cbn [fold_left]; auto. apply IH.
    assert (0 <= gap k (nth (Z.to_nat (fst c)) xs 0) (nth (Z.to_nat (snd c)) ys 0)) by apply gap_pos.
    destruct k; cbn [join]; lia. }
  apply G. lia.
Qed.

(** the warped distance is symmetric *)
Theorem C69_symmetric : forall (k : kind) (a b : TS B64) xs ys B (ratio : b64) r mt mt',
  whole_series a xs B -> whole_series b ys B ->
  2 <= ts_length a <= 2 ^ 30 -> 2 <= ts_length b <= 2 ^ 30 ->
  (ts_length a + ts_length b) * largest k B <= 2 ^ 46 ->
  band (N := B64) ratio (Z.max (ts_length a) (ts_length b)) = Ret r -> Z.abs (ts_length a - ts_length b) <= r ->
  exists d d', value (dist_call (N := B64) (dtw_name k) ratio a b pinf mt) = Ret d /\
    value (dist_call (N := B64) (dtw_name k) ratio b a pinf mt') = Ret d' /\ Beqb d d' = true.
Proof.
  intros k a b xs ys B ratio r mt mt' Wa Wb Hm Hn Hl Hband Hr.
  destruct (C69_warped_whole_numbers k a b xs ys B ratio r mt Wa Wb Hm Hn Hl Hband Hr) as (p & d & P1 & P2 & P3 & P4 & P5 & P6).
  destruct (C69_warped_whole_numbers k b a ys xs B ratio r mt' Wb Wa Hn Hm) as (q & d' & Q1 & Q2 & Q3 & Q4 & Q5 & Q6);
    [lia|rewrite Z.max_comm; exact Hband|lia|].
  exists d, d'. splits; auto.
  assert (EF : forall xs ys s, zcost k ys xs (flip s) = zcost k xs ys s).
  { intros xs' ys' s. unfold zcost, flip.
    generalize 0 at 3 6. induction s as [|c s IH]; intros z; cbn [fold_left map]; auto. rewrite IH. cbn [fst snd]. do 2 f_equal.
    destruct k; cbn [gap]; [ring|lia|lia]. }
  assert (E : zcost k xs ys p = zcost k ys xs q).
  { apply Z.le_antisymm.
    - rewrite <- (EF ys xs q). destruct (flip_path r _ _ q ltac:(lia) Q1 Q2). apply P3; auto.
    - rewrite <- (EF xs ys p). destruct (flip_path r _ _ p ltac:(lia) P1 P2). apply Q3; auto. }
  rewrite (Beqb_correct _ _ d d' P5 Q5), P6, Q6, E, Z.max_comm. apply Req_bool_true. reflexivity.
Qed.
Print Assumptions C69_symmetric.

(** a wider band never increases it *)
Theorem C69_wider_band : forall (k : kind) (a b : TS B64) xs ys B (ratio ratio' : b64) r r' mt mt',
  whole_series a xs B -> whole_series b ys B ->
  2 <= ts_length a <= 2 ^ 30 -> 2 <= ts_length b <= 2 ^ 30 ->
  (ts_length a + ts_length b) * largest k B <= 2 ^ 46 ->
  band (N := B64) ratio (Z.max (ts_length a) (ts_length b)) = Ret r -> Z.abs (ts_length a - ts_length b) <= r ->
  band (N := B64) ratio' (Z.max (ts_length a) (ts_length b)) = Ret r' -> r <= r' ->
  exists d d', value (dist_call (N := B64) (dtw_name k) ratio a b pinf mt) = Ret d /\
    value (dist_call (N := B64) (dtw_name k) ratio' a b pinf mt') = Ret d' /\ Bltb d d' = false.
Proof.
  intros k a b xs ys B ratio ratio' r r' mt mt' Wa Wb Hm Hn Hl Hband Hr Hband' Hrr.
  destruct (C69_warped_whole_numbers k a b xs ys B ratio r mt Wa Wb Hm Hn Hl Hband Hr) as (p & d & P1 & P2 & P3 & P4 & P5 & P6).
  destruct (C69_warped_whole_numbers k a b xs ys B ratio' r' mt' Wa Wb Hm Hn Hl Hband' ltac:(lia)) as (q & d' & Q1 & Q2 & Q3 & Q4 & Q5 & Q6).
  exists d, d'. splits; auto. rewrite (Bltb_correct _ _ d d' P5 Q5), P6, Q6. apply Rlt_bool_false.
  apply warped_mono; [|lia]. split; [apply zcost_pos|]. apply Q3; auto.
  unfold in_band in *. eapply Forall_impl; [|exact P2]. intros c Hc. cbn beta in *. lia.
Qed.
Print Assumptions C69_wider_band.

(** the warped distance of series of the same length is at most a rounding beyond the
    half of the mean (the largest for Chebyshev) of the differences point by point *)
Theorem C69_warped_below_paired : forall (k : kind) (a b : TS B64) xs ys B (ratio : b64) r mt,
  whole_series a xs B -> whole_series b ys B ->
  2 <= ts_length a <= 2 ^ 30 -> ts_length a = ts_length b ->
  (ts_length a + ts_length b) * largest k B <= 2 ^ 46 ->
  band (N := B64) ratio (ts_length a) = Ret r -> 0 <= r ->
  exists d, value (dist_call (N := B64) (dtw_name k) ratio a b pinf mt) = Ret d /\
    (B2R d <= warped_value k (zcost k xs ys (straight (length xs))) (ts_length a))%R.
Proof.
  intros k a b xs ys B ratio r mt Wa Wb Hm Hab Hl Hband Hr.
  destruct (C69_warped_whole_numbers k a b xs ys B ratio r mt Wa Wb Hm ltac:(lia) Hl) as (p & d & P1 & P2 & P3 & P4 & P5 & P6);
    [rewrite <- Hab, Z.max_id; exact Hband|lia|].
  exists d. split; auto. rewrite P6, <- Hab, Z.max_id. apply warped_mono; [|lia]. split; [apply zcost_pos|].
  rewrite <- Hab in P3.
  assert (Hs : warping_path (ts_length a) (ts_length a) (straight (length xs)) /\ in_band 0 (straight (length xs))).
  { change (straight (length xs)) with (diag (length xs)).
    assert (El : ts_length a = Z.of_nat (length xs)) by (apply (ws_length a xs B Wa)).
    rewrite El. destruct (length xs) as [|n] eqn:En; [lia|].
    pose proof (AccPair.diag_bpath n) as Hd. apply bpath_path in Hd; [|lia]. replace (Z.of_nat (S n)) with (Z.of_nat n + 1) by lia. exact Hd. }
  destruct Hs as [S1 S2]. apply P3; auto. unfold in_band in *. eapply Forall_impl; [|exact S2]. intros c Hc. cbn beta in *. lia.
Qed.
Print Assumptions C69_warped_below_paired.

(** every list of whole numbers that a double can hold is such a series *)
Lemma zs_whole l B : B <= 2 ^ 53 -> Forall (fun z => Z.abs z <= B) l -> whole_series (zs l) l B.
Proof.
  intros HB Hl. split.
  - apply (DtwPaths.ts_of_list_ok (N := B64)).
  - unfold zs. rewrite (DtwPaths.ts_of_list_points (N := B64)). induction Hl as [|z l Hz Hl IH]; cbn [map]; constructor; auto.
    apply val_Fin, ofZ_small. lia.
  - exact Hl.
Qed.

(** a case: five whole numbers up to two million against four of them, half a band *)
Example C69_case : forall k, whole_series (zs [1; 2000000; 3; 4; -5]) [1; 2000000; 3; 4; -5] 2000000 /\
  whole_series (zs [1; 1; 2000000; 7]) [1; 1; 2000000; 7] 2000000 /\
  (ts_length (zs [1; 2000000; 3; 4; -5]) + ts_length (zs [1; 1; 2000000; 7])) * largest KManhattan 2000000 <= 2 ^ 46 /\
  band (N := B64) (b64_lit 1 2) (Z.max (ts_length (zs [1; 2000000; 3; 4; -5])) (ts_length (zs [1; 1; 2000000; 7]))) = Ret 2 /\
  zcost k [1; 2000000; 3; 4; -5] [1; 1; 2000000; 7] [(0, 0); (0, 1); (1, 2); (2, 3); (3, 3); (4, 3)] =
  match k with KEuclidean => 169 | KManhattan => 19 | KChebyshev => 12 end.
Proof.
  intros k. splits.
  - apply zs_whole; [lia|]. repeat constructor; lia.
  - apply zs_whole; [lia|]. repeat constructor; lia.
  - change ((5 + 4) * (2 * 2000000) <= 2 ^ 46). lia.
  - vm_compute. reflexivity.
  - destruct k; reflexivity.
Qed.

(** the value it gives: 19 along the way, divided by twice the length *)
Example C69_value : exists d, value (dist_call (N := B64) (dtw_name KManhattan) (b64_lit 1 2) (zs [1; 2000000; 3; 4; -5]) (zs [1; 1; 2000000; 7]) pinf []) = Ret d /\
  is_finite d = true /\ (B2R d <= near (19 * / 10))%R.
Proof.
  destruct (C69_case KManhattan) as (W1 & W2 & L & Bd & C).
  destruct (C69_warped_whole_numbers KManhattan _ _ _ _ _ (b64_lit 1 2) 2 [] W1 W2) as (p & d & P1 & P2 & P3 & P4 & P5 & P6);
    [change (2 <= 5 <= 2 ^ 30); lia|change (2 <= 4 <= 2 ^ 30); lia|exact L|exact Bd|change (1 <= 2); lia|].
  exists d. splits; auto. rewrite P6.
  change (Z.max (ts_length (zs [1; 2000000; 3; 4; -5])) (ts_length (zs [1; 1; 2000000; 7]))) with 5.
  refine (Rle_trans _ _ _ (warped_mono KManhattan _ 19 5 _ ltac:(lia)) _).
  - split; [apply zcost_pos|]. rewrite <- C. apply P3.
    + change (warping_path 5 4 [(0, 0); (0, 1); (1, 2); (2, 3); (3, 3); (4, 3)]). unfold warping_path. cbn.
      repeat split; unfold wstep; cbn; auto.
    + repeat constructor; cbn; lia.
  - cbn [warped_value]. apply Req_le. reflexivity.
Qed.
