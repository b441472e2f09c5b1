(** Property C66: how distances depend on the width of the warping band.  Specifications:
    NamedSpec.v ([stretch]), DistSpec.v, DtwSpec.v, SearchSpec.v. *)
From Coq Require Import String Reals Lra Lia ZArith.
From Flocq Require Import Core BinarySingleNaN.
From Verif Require Import Base Num NumB64 NumLaws NumFacts NumB64Laws NumXR NumXRLaws LoopFacts TimeSeries TSSet Distance DtwSpec DtwPaths DtwProofs Metrics DtwMain
  DtwResults DtwReal Pairwise Band DistSpec DistLink GroupSpace DataSpec DataProofs StdAlg HeapFacts Candidate SearchSpec SearchCases BruteForce Loader Api ApiSpec ApiProofs
  ApiQuery NamedSpec PropsDistance PropsAccuracy PropsLoader PropsApi PropsNamed PropsSearch PropsMore PropsApiQuery PropsNorm KBest PropsCount.
Local Open Scope Z_scope.
Local Open Scope list_scope.

(** ** bands *)
Lemma in_band_wider r r' p : r <= r' -> in_band r p -> in_band r' p.
Proof. intros H. apply Forall_impl. intros c. lia. Qed.

Lemma band_width_mono ratio ratio' len : 1 <= len -> (ratio <= ratio')%R -> band_width ratio len <= band_width ratio' len.
Proof.
  intros Hl H. unfold band_width. assert (Zfloor (IZR len * ratio) <= Zfloor (IZR len * ratio')).
  { apply Zfloor_le. apply Rmult_le_compat_l; [|exact H]. apply (IZR_le 0). lia. }
  lia.
Qed.

(** the only path in a band of width 0 *)
Lemma bpath_zero i j p : bpath 0 i j p -> i = j /\ p = diag (Z.to_nat (i + 1)).
Proof.
  induction 1 as [|i j i' j' p Hp [IH1 IH2] Hw Habs]; [split; reflexivity|].
  pose proof (bpath_nonneg _ _ _ _ Hp). apply wstep_cases in Hw. assert (i' = i + 1 /\ j' = i + 1) as [-> ->] by lia. split; [reflexivity|].
  rewrite IH2. replace (Z.to_nat (i + 1 + 1)) with (S (Z.to_nat (i + 1))) by lia. rewrite diag_S. do 3 f_equal; lia.
Qed.
Lemma straight_only n p : 1 <= n -> warping_path n n p -> in_band 0 p -> p = straight (Z.to_nat n).
Proof.
  intros Hn Hp Hb. replace n with (n - 1 + 1) in Hp at 1 2 by lia. apply (path_bpath 0) in Hp; [|exact Hb].
  apply bpath_zero in Hp as [_ ->]. replace (n - 1 + 1) with n by lia. reflexivity.
Qed.

(** the warped distance along the straight path in terms of the point-to-point distance *)
Definition straight_distance (k : kind) (len : nat) (d : R) : R :=
  match k with KEuclidean => d / (2 * sqrt (INR len)) | KManhattan => d / 2 | KChebyshev => d end.

Lemma straight_cost k xs ys : length xs = length ys -> xs <> [] ->
  real_cost k xs ys (straight (length xs)) = straight_distance k (length xs) (real_pair k xs ys).
Proof.
  intros Hl Hne. change (straight (length xs)) with (diag (length xs)).
  assert (Hp : (0 < INR (length xs))%R) by (apply lt_0_INR; destruct xs; [contradiction|cbn; lia]).
  assert (Hm : maxlen xs ys = INR (length xs)).
  { unfold maxlen, Rlen. rewrite <- Hl, Z.max_id, <- INR_IZR_INZ. reflexivity. }
  destruct k; cbn [real_cost real_pair straight_distance]; unfold euclidean_cost, manhattan_cost, chebyshev_cost, rms_distance, mean_abs_distance, max_abs_distance;
    rewrite ?path_sum_diag, ?path_max_diag by exact Hl; [| |reflexivity].
  - rewrite Hm, sqrt_div_alt by exact Hp. set (s := sqrt (INR (length xs))).
    assert (Hs : (0 < s)%R) by (apply sqrt_lt_R0, Hp). assert (E : INR (length xs) = (s * s)%R) by (symmetry; apply sqrt_sqrt; lra).
    rewrite E. field. lra.
  - rewrite Hm. field. lra.
Qed.

(** ** exact arithmetic *)

(** A wider band: no distance asked for becomes larger.  The calls succeed in both cases. *)
Theorem C66_wider_band_exact : forall (r0 : D XR) h (s s1 s2 : api XR) e0 e1 e2 a1 a2 (k : kind) n1 i1 b1 f1 (xs : list R) n2 i2 b2 f2 (ys : list R) (ratio ratio' : R),
  run r0 h s -> stretch s n1 i1 b1 f1 (map Fin xs) -> stretch s n2 i2 b2 f2 (map Fin ys) ->
  2 <= Rlen xs <= 2 ^ 30 -> 2 <= Rlen ys <= 2 ^ 30 ->
  (0 <= ratio <= ratio')%R -> (IZR (Z.max (Rlen xs) (Rlen ys)) * ratio' <= IZR int_max)%R ->
  exec e0 (CRatio (Fin ratio : D XR)) s = (s1, a1) -> exec e0 (CRatio (Fin ratio' : D XR)) s1 = (s2, a2) ->
  exists d d' : D XR,
    exec e1 (CDistance n1 i1 b1 f1 n2 i2 b2 f2 (dtw_name k)) s1 = (s1, Ret (AValue d)) /\
    exec e2 (CDistance n1 i1 b1 f1 n2 i2 b2 f2 (dtw_name k)) s2 = (s2, Ret (AValue d')) /\ nle d' d.
Proof.
  intros r0 h s s1 s2 e0 e1 e2 a1 a2 k n1 i1 b1 f1 xs n2 i2 b2 f2 ys ratio ratio' Hrun H1 H2 Hx Hy Hr Hb E1 E2.
  assert (Hrun1 : run r0 (h ++ [(CRatio (Fin ratio : D XR), a1)]) s1).
  { apply (run_call r0 h s e0 (CRatio (Fin ratio : D XR)) s1 a1 Hrun E1). injection E1 as _ <-. exact I. }
  assert (Hrun2 : run r0 ((h ++ [(CRatio (Fin ratio : D XR), a1)]) ++ [(CRatio (Fin ratio' : D XR), a2)]) s2).
  { apply (run_call r0 _ s1 e0 (CRatio (Fin ratio' : D XR)) s2 a2 Hrun1 E2). injection E2 as _ <-. exact I. }
  pose proof (run_ratio _ _ _ Hrun1) as R1. pose proof (run_ratio _ _ _ Hrun2) as R2.
  injection E1 as <- <-. injection E2 as <- <-. cbn [a_ratio] in R1, R2.
  set (len := Z.max (Rlen xs) (Rlen ys)) in *.
  assert (Hb' : (IZR len * ratio <= IZR int_max)%R).
  { refine (Rle_trans _ _ _ _ Hb). apply Rmult_le_compat_l; [|lra]. apply (IZR_le 0). lia. }
  assert (Hmono := band_width_mono ratio ratio' len ltac:(lia) ltac:(lra)).
  destruct (C55_distance_exact r0 _ _ e1 k n1 i1 b1 f1 xs n2 i2 b2 f2 ys Hrun1 H1 H2) as [_ D1].
  destruct (C55_distance_exact r0 _ _ e2 k n1 i1 b1 f1 xs n2 i2 b2 f2 ys Hrun2 H1 H2) as [_ D2].
  destruct (D1 ratio (eq_sym R1) ltac:(lra) Hx Hy Hb') as (D1a & D1b & _).
  destruct (D2 ratio' (eq_sym R2) ltac:(lra) Hx Hy Hb) as (D2a & D2b & _). fold len in D1a, D1b, D2a, D2b.
  destruct (Z.le_gt_cases (Z.abs (Rlen xs - Rlen ys)) (band_width ratio len)) as [C|C].
  - destruct (D1a C) as (p & P1 & P2 & P3 & Ep). destruct (D2a ltac:(lia)) as (q & Q1 & Q2 & Q3 & Eq).
    do 2 eexists. split; [exact Ep|]. split; [exact Eq|]. apply XR_nle. cbn. apply Q3; [exact P1|]. apply (in_band_wider _ _ _ Hmono P2).
  - specialize (D1b ltac:(lia)). destruct (Z.le_gt_cases (Z.abs (Rlen xs - Rlen ys)) (band_width ratio' len)) as [C'|C'].
    + destruct (D2a C') as (q & Q1 & Q2 & Q3 & Eq). do 2 eexists. split; [exact D1b|]. split; [exact Eq|]. apply XR_nle. exact I.
    + specialize (D2b ltac:(lia)). do 2 eexists. split; [exact D1b|]. split; [exact D2b|]. apply XR_nle. exact I.
Qed.
Print Assumptions C66_wider_band_exact.

(** The narrowest band compares point by point: the warped distance is the point-to-point distance
    up to a factor; and it is never larger, whatever the band. *)
Theorem C66_straight_exact : forall (r0 : D XR) h (s : api XR) e (k : kind) n1 i1 b1 f1 (xs : list R) n2 i2 b2 f2 (ys : list R) (ratio : R),
  run r0 h s -> stretch s n1 i1 b1 f1 (map Fin xs) -> stretch s n2 i2 b2 f2 (map Fin ys) ->
  2 <= Rlen xs <= 2 ^ 30 -> length xs = length ys -> ratio_after r0 h = Fin ratio ->
  (0 <= ratio)%R -> (IZR (Rlen xs) * ratio <= IZR int_max)%R ->
  exists d d' : R,
    exec e (CDistance n1 i1 b1 f1 n2 i2 b2 f2 (kind_name k)) s = (s, Ret (AValue (Fin d : D XR))) /\
    exec e (CDistance n1 i1 b1 f1 n2 i2 b2 f2 (dtw_name k)) s = (s, Ret (AValue (Fin d' : D XR))) /\
    (d' <= straight_distance k (length xs) d <= d)%R /\
    ((IZR (Rlen xs) * ratio < 1)%R -> d' = straight_distance k (length xs) d).
Proof.
  intros r0 h s e k n1 i1 b1 f1 xs n2 i2 b2 f2 ys ratio Hrun H1 H2 Hx Hl Er Hr Hb.
  assert (Hne : xs <> []) by (intros ->; unfold Rlen in Hx; cbn in Hx; lia).
  assert (El : Rlen ys = Rlen xs) by (unfold Rlen; rewrite Hl; reflexivity).
  destruct (C55_distance_exact r0 h s e k n1 i1 b1 f1 xs n2 i2 b2 f2 ys Hrun H1 H2) as [D1 D2].
  specialize (D1 Hl Hne ltac:(unfold Rlen in Hx; lia)).
  destruct (D2 ratio Er Hr Hx ltac:(lia)) as (D2a & _ & _); [rewrite El, Z.max_id; exact Hb|]. rewrite El, Z.max_id in D2a.
  assert (Hw : 0 <= band_width ratio (Rlen xs)) by (apply band_width_nonneg; lia || lra).
  destruct (D2a ltac:(lia)) as (p & P1 & P2 & P3 & Ep).
  exists (real_pair k xs ys), (real_cost k xs ys p). split; [exact D1|]. split; [exact Ep|].
  assert (Hs : warping_path (Rlen xs) (Rlen xs) (straight (length xs)) /\ in_band 0 (straight (length xs))).
  { change (straight (length xs)) with (diag (length xs)). unfold Rlen. destruct (length xs) as [|n] eqn:En; [destruct xs; [contradiction|discriminate]|].
    pose proof (AccPair.diag_bpath n) as Hd. apply bpath_path in Hd; [|lia]. replace (Z.of_nat (S n)) with (Z.of_nat n + 1) by lia. exact Hd. }
  destruct Hs as [S1 S2]. split.
  - split.
    + rewrite <- (straight_cost k xs ys Hl Hne). apply P3; [exact S1|]. apply (in_band_wider 0 _ _ Hw S2).
    + assert (P : (0 <= real_pair k xs ys)%R) by apply (C05_pairwise_metric_axioms k xs ys ys Hne Hl eq_refl).
      destruct k; cbn [straight_distance]; [| |lra]; [|lra].
      assert (Hs1 : (1 <= sqrt (INR (length xs)))%R).
      { rewrite <- sqrt_1. apply sqrt_le_1_alt. apply (le_INR 1). destruct xs; [contradiction|cbn; lia]. }
      apply Rmult_le_reg_r with (2 * sqrt (INR (length xs)))%R; [lra|]. unfold Rdiv. rewrite Rmult_assoc, Rinv_l by lra. nra.
  - intros H0. assert (Z0 : band_width ratio (Rlen xs) = 0).
    { unfold band_width. assert (Zfloor (IZR (Rlen xs) * ratio) = 0); [|lia]. apply Zfloor_imp. cbn. split; [|lra].
      apply Rmult_le_pos; [apply (IZR_le 0); lia|exact Hr]. }
    rewrite Z0 in P2. rewrite (straight_only (Rlen xs) p ltac:(lia) P1 P2). unfold Rlen. rewrite Nat2Z.id. apply straight_cost; auto.
Qed.
Print Assumptions C66_straight_exact.

(** ** any arithmetic with the laws *)
Lemma ret_inj {A} (x y : A) : Ret x = Ret y -> x = y.
Proof. intros [= ->]. reflexivity. Qed.

Section Wider.
Context {N : Num} {L : NumLaws N}.

Lemma narrower_ok k (a b : TS N) (ratio ratio' : D N) r r' : ieee_ok k a b ratio' r' -> band ratio (Z.max (ts_length a) (ts_length b)) = Ret r -> 0 <= r <= r' ->
  ieee_ok k a b ratio r.
Proof.
  intros [Ha Hb Hm Hn Fa Fb Hband Hr Hf] E H. constructor; auto; [lia|]. intros i j p Hi Hj H1 H2. apply (Hf i j p); auto. apply (in_band_wider r); auto. lia.
Qed.

Lemma dtw_values k (a b : TS N) (ratio : D N) r mt : ieee_ok k a b ratio r -> 
  exists d, value (dist_call (dtw_name k) ratio a b ninf mt) = Ret d /\ nle n0 d.
Proof.
  intros H. rewrite call_dtw. pose proof (proj1 (ok_pre _ _ _ _ _) H) as H'.
  destruct (Z.le_gt_cases (Z.abs (ts_length a - ts_length b)) r) as [C|C].
  - destruct (dtw_is_path_cost _ (nice_of k) a b ratio r H' mt C) as (p & mt' & P1 & P2 & E). rewrite E. eexists. split; [reflexivity|].
    apply (path_cost_pos _ (nice_of k) a b ratio r H' p P1 P2).
  - destruct (dtw_no_path _ (nice_of k) a b ratio r H' mt ltac:(lia)) as (_ & mt' & E). rewrite E. eexists. split; [reflexivity|].
    apply nle_inf. apply n0_nn.
Qed.

Lemma wider_value k (a b : TS N) (ratio ratio' : D N) r r' d d' mt mt' : ieee_ok k a b ratio r -> ieee_ok k a b ratio' r' -> r <= r' ->
  reflects (nice_of k) (ts_length a) (ts_length b) ->
  value (dist_call (dtw_name k) ratio a b ninf mt) = Ret d -> value (dist_call (dtw_name k) ratio' a b ninf mt') = Ret d' -> nle d' d.
Proof.
  intros H H' Hr Hrefl E E'. destruct (dtw_values k a b ratio' r' mt' H') as (d1 & E1 & P1). rewrite E' in E1. injection E1 as <-.
  rewrite call_dtw in E, E'. apply ok_pre in H. apply ok_pre in H'.
  destruct (Z.le_gt_cases (Z.abs (ts_length a - ts_length b)) r) as [C|C].
  - destruct (dtw_is_path_cost _ (nice_of k) a b ratio r H mt C) as (p & m1 & Q1 & Q2 & Ep).
    destruct (dtw_optimal _ (nice_of k) a b ratio' r' H' Hrefl mt' ltac:(lia)) as (q & m2 & (_ & _ & Q3) & Eq).
    rewrite Ep in E. rewrite Eq in E'. injection E as <-. injection E' as <-. apply Q3; [exact Q1|]. apply (in_band_wider r); auto.
  - destruct (dtw_no_path _ (nice_of k) a b ratio r H mt ltac:(lia)) as (_ & m1 & Ep). rewrite Ep in E. injection E as <-.
    apply nle_inf. apply (nle_nn_r _ _ P1).
Qed.

(** best matches for two distances of which one is never larger *)
Variables (rows : list (list (D N))) (k : kind) (ratio ratio' : D N) (q : list (D N)) (P : place -> Prop).
Hypothesis Hless : forall p d d', P p -> dtw_of k ratio q (place_values rows p) = Ret d -> dtw_of k ratio' q (place_values rows p) = Ret d' -> nle d' d.
Hypothesis Hval : forall p, P p -> exists d d', dtw_of k ratio q (place_values rows p) = Ret d /\ dtw_of k ratio' q (place_values rows p) = Ret d' /\ nn d /\ nn d'.

Lemma best_less K best best' : best_matches rows k ratio q P K best -> best_matches rows k ratio' q P K best' -> ascending best -> ascending best' ->
  length best = length best' /\ forall i c c', nth_error best i = Some c -> nth_error best' i = Some c' -> nle (c_dist c') (c_dist c).
Proof.
  intros (B1 & B2 & B3 & B4) (B1' & B2' & B3' & B4') Ha Ha'.
  assert (Hin : forall c, In c (map place_of best) -> P c) by (intros p Hp; apply in_map_iff in Hp as (c & <- & Hc); apply B1, Hc).
  assert (Hin' : forall c, In c (map place_of best') -> P c) by (intros p Hp; apply in_map_iff in Hp as (c & <- & Hc); apply B1', Hc).
  split.
  - destruct B3 as [B3|[B3 A3]], B3' as [B3'|[B3' A3']]; try lia.
    + pose proof (NoDup_incl_length B2 (fun p Hp => A3' p (Hin p Hp))) as X. rewrite !map_length in X. lia.
    + pose proof (NoDup_incl_length B2' (fun p Hp => A3 p (Hin' p Hp))) as X. rewrite !map_length in X. lia.
    + pose proof (NoDup_incl_length B2 (fun p Hp => A3' p (Hin p Hp))) as X.
      pose proof (NoDup_incl_length B2' (fun p Hp => A3 p (Hin' p Hp))) as X'. rewrite !map_length in X, X'. lia.
  - intros i c c' Hi Hi'. pose proof (nth_error_In _ _ Hi) as Ic. pose proof (nth_error_In _ _ Hi') as Ic'.
    assert (V : forall d, In d best -> dtw_of k ratio q (place_values rows (place_of d)) = Ret (c_dist d) /\ nn (c_dist d)).
    { intros d Hd. destruct (B1 d Hd) as (X & Y). apply match_value in Y. destruct (Hval _ X) as (v & _ & Ev & _ & Nv & _). rewrite Y in Ev. injection Ev as <-. auto. }
    assert (V' : forall d, In d best' -> dtw_of k ratio' q (place_values rows (place_of d)) = Ret (c_dist d) /\ nn (c_dist d)).
    { intros d Hd. destruct (B1' d Hd) as (X & Y). apply match_value in Y. destruct (Hval _ X) as (_ & v & _ & Ev & _ & Nv). rewrite Y in Ev. injection Ev as <-. auto. }
    destruct (V c Ic) as [_ Nc]. destruct (V' c' Ic') as [_ Nc'].
    destruct (nltb (c_dist c) (c_dist c')) eqn:Elt; [exfalso|split; auto].
    assert (Hnot : forall v, nle v (c_dist c) -> nle (c_dist c') v -> False).
    { intros v H1 H2. destruct (nle_trans _ _ _ H2 H1) as (_ & _ & X). congruence. }
    set (A := firstn (S i) (map place_of best)).
    assert (Hlt : (i < length best)%nat) by (apply nth_error_Some; congruence).
    assert (LA : length A = S i) by (unfold A; rewrite firstn_length, map_length; lia).
    assert (HA : forall p, In p A -> P p /\ exists v, dtw_of k ratio' q (place_values rows p) = Ret v /\ nle v (c_dist c)).
    { intros p Hp. apply In_nth_error in Hp as [j Hj]. assert (Hj2 : (j < S i)%nat) by (rewrite <- LA; apply nth_error_Some; congruence).
      unfold A in Hj. rewrite nth_error_firstn in Hj by exact Hj2. rewrite nth_error_map in Hj.
      destruct (nth_error best j) as [d|] eqn:Ej; [|discriminate Hj]. injection Hj as <-. pose proof (nth_error_In _ _ Ej) as Id.
      split; [apply B1, Id|]. destruct (V d Id) as [Ed Nd]. destruct (Hval _ (proj1 (B1 d Id))) as (v & v' & Ev & Ev' & _ & _).
      exists v'. split; [exact Ev'|]. apply nle_trans with (c_dist d); [exact (Hless _ _ _ (proj1 (B1 d Id)) Ed Ev')|].
      apply (at_rank best j d i c); auto. lia. }
    assert (NA : NoDup A) by (rewrite <- (firstn_skipn (S i) (map place_of best)) in B2; exact (SearchProofs.NoDup_app_l _ _ B2)).
    assert (Hincl : incl A (firstn i (map place_of best'))).
    { intros p Hp. destruct (HA p Hp) as (HP & v & Ev & Hv). destruct (in_dec place_dec p (map place_of best')) as [Hr|Hr].
      - apply in_map_iff in Hr as (d & <- & Hdr). destruct (V' d Hdr) as [Ed Nd]. rewrite Ed in Ev. injection Ev as <-.
        apply In_nth_error in Hdr as [j Hj]. destruct (Nat.lt_ge_cases j i) as [Hji|Hji].
        + apply nth_error_In with j. rewrite nth_error_firstn by exact Hji. rewrite nth_error_map, Hj. reflexivity.
        + exfalso. apply (Hnot (c_dist d)); auto. apply (at_rank best' i c' j d); auto.
      - exfalso. apply (Hnot v Hv). apply (B4' p v c'); auto. }
    pose proof (NoDup_incl_length NA Hincl) as X. rewrite firstn_length in X. lia.
Qed.
End Wider.

Lemma nearest_gen {N : Num} {L : NumLaws N} rows k (ratio ratio' : D N) q (P : place -> Prop) K best best' :
  (forall l1 l2, 1 <= Z.max l1 l2 -> reflects (nice_of k) l1 l2) -> nfin ratio' -> nle n0 ratio -> nle ratio ratio' ->
  searchable rows k ratio q P -> searchable rows k ratio' q P ->
  best_matches rows k ratio q P K best -> best_matches rows k ratio' q P K best' -> ascending best -> ascending best' ->
  length best = length best' /\ forall i c c', nth_error best i = Some c -> nth_error best' i = Some c' -> nle (c_dist c') (c_dist c).
Proof.
  intros Hrefl Hf H0 Hle S S' B B' A A'. refine (best_less rows k ratio ratio' q P _ _ K best best' B B' A A').
  - intros p d d' Hp E E'. destruct (S p Hp) as (r & Ok). destruct (S' p Hp) as (r' & Ok'). pose proof (io_m _ _ _ _ _ Ok) as Hm. pose proof (io_n _ _ _ _ _ Ok) as Hn.
    refine (wider_value k _ _ ratio ratio' r r' d d' [] [] Ok Ok' _ _ E E'); [|apply Hrefl; lia].
    apply (band_mono_ratio ratio ratio' (Z.max (ts_length (ts_of_list q)) (ts_length (ts_of_list (place_values rows p))))); auto; [lia|apply Ok|apply Ok'].
  - intros p Hp. destruct (S p Hp) as (r & Ok). destruct (S' p Hp) as (r' & Ok').
    destruct (dtw_values k _ _ ratio r [] Ok) as (d & E & Hd). destruct (dtw_values k _ _ ratio' r' [] Ok') as (d' & E' & Hd').
    exists d, d'. split; [exact E|]. split; [exact E'|]. split; [apply (nle_nn_r _ _ Hd)|apply (nle_nn_r _ _ Hd')].
Qed.

(** The exhaustive search with a wider band: the first best match is at least as near as before, so
    is the second best, and so on. *)
Theorem C66_nearest_exact : forall (r0 : D XR) h (s s1 s2 : api XR) e0 e a1 a2 t g (rows : list (list R)) qn i st en (xs : list R) k K (ratio ratio' : R),
  run r0 h s -> held s t = Some g -> holds (gt_data g) (real_rows rows) -> (forall row, In row rows -> Z.of_nat (length row) <= 2 ^ 30) ->
  stretch s qn i st en (map Fin xs) -> 2 <= Rlen xs <= 2 ^ 30 -> (0 <= ratio <= ratio')%R -> (ratio' <= 1)%R -> std_ok (e_alg e) -> 1 <= K ->
  no_near_ties (N := XR) (real_rows rows) k (Fin ratio) (map Fin xs) (long_enough (real_rows rows)) ->
  no_near_ties (N := XR) (real_rows rows) k (Fin ratio') (map Fin xs) (long_enough (real_rows rows)) ->
  exec e0 (CRatio (Fin ratio : D XR)) s = (s1, a1) -> exec e0 (CRatio (Fin ratio' : D XR)) s1 = (s2, a2) ->
  exists best best',
    exec e (CBrute K t qn i st en (kind_name k)) s1 = (s1, Ret (ACands best)) /\
    exec e (CBrute K t qn i st en (kind_name k)) s2 = (s2, Ret (ACands best')) /\
    length best = length best' /\
    forall j c c', nth_error best j = Some c -> nth_error best' j = Some c' -> nle (c_dist c') (c_dist c).
Proof.
  intros r0 h s s1 s2 e0 e a1 a2 t g rows qn i st en xs k K ratio ratio' Hrun Hh Hd Hrows Hq Hx Hr Hr' Hok HK T T' E1 E2.
  injection E1 as <- <-. injection E2 as <- <-. pose proof (run_good r0 h s Hrun) as G. cbn [a_sets a_objs a_paa a_count].
  destruct (stretch_get s qn i st en (map Fin xs) G Hq) as (idq & gq & q & Eid & Eg & Eq & Oq & Pq & _).
  destruct (held_find s t g G Hh) as (id & F1 & F2 & F3).
  assert (Fq : find_set s qn = Ret gq) by (unfold find_set; rewrite Eid; exact Eg).
  assert (Sq : is_series q xs) by (split; assumption).
  destruct (C26_brute_force_exact_reals (e_alg e) k (gt_data g) rows q xs ratio K Hok Hd Sq Hx Hrows ltac:(lra) HK T) as (best & B1 & B2 & B3).
  destruct (C26_brute_force_exact_reals (e_alg e) k (gt_data g) rows q xs ratio' K Hok Hd Sq Hx Hrows ltac:(lra) HK T') as (best' & B1' & B2' & B3').
  assert (Q : forall x : D XR, exec e (CBrute K t qn i st en (kind_name k)) (mkApi (a_sets s) (a_objs s) (a_paa s) (a_count s) x)
     = (mkApi (a_sets s) (a_objs s) (a_paa s) (a_count s) x, cs <- getKBestMatchesBruteForce (e_alg e) x (gt_data g) q K (kind_name k) ;; Ret (ACands cs))).
  { intros x. cbn [exec]. unfold pure, query_series. change (find_id (mkApi (a_sets s) (a_objs s) (a_paa s) (a_count s) x)) with (find_id s).
    change (find_set (mkApi (a_sets s) (a_objs s) (a_paa s) (a_count s) x)) with (find_set s). rewrite F1, F3, Fq. cbn [bind]. rewrite Eq. reflexivity. }
  exists best, best'. split; [rewrite Q, B1; reflexivity|]. split; [rewrite Q, B1'; reflexivity|].
  assert (SS : forall x, (0 <= x <= 1)%R -> searchable (N := XR) (real_rows rows) k (Fin x) (map Fin xs) (long_enough (real_rows rows))).
  { intros x Hxx. rewrite <- Pq. apply (searchable_real k rows x q xs); auto. }
  refine (nearest_gen (real_rows rows) k (Fin ratio) (Fin ratio') (map Fin xs) (long_enough (real_rows rows)) K best best' _ _ _ _ (SS ratio ltac:(lra)) (SS ratio' ltac:(lra)) B2 B2' B3 B3').
  - intros l1 l2 Hl. apply reflects_of. exact Hl.
  - split; reflexivity.
  - apply XR_nle. cbn. lra.
  - apply XR_nle. cbn. lra.
Qed.
Print Assumptions C66_nearest_exact.

(** ** doubles *)

(** Chebyshev: exactly as above; the others: both answers are within rounding of exact distances of
    which the second is not larger. *)
Theorem C66_wider_band_ieee : forall (r0 : b64) h (s s1 s2 : api B64) e0 e1 e2 a1 a2 (k : kind) n1 i1 b1 f1 (xs : list (D B64)) n2 i2 b2 f2 (ys : list (D B64)) (ratio ratio' : b64),
  run (N := B64) r0 h s -> stretch s n1 i1 b1 f1 xs -> stretch s n2 i2 b2 f2 ys -> Forall moderate_value xs -> Forall moderate_value ys ->
  let lx := Z.of_nat (length xs) in let ly := Z.of_nat (length ys) in 2 <= lx <= 2 ^ 30 -> 2 <= ly <= 2 ^ 30 ->
  @nle B64 n0 ratio -> @nle B64 ratio ratio' -> @nle B64 ratio' (b64_ofZ 1) ->
  exec e0 (CRatio (N := B64) ratio) s = (s1, a1) -> exec e0 (CRatio (N := B64) ratio') s1 = (s2, a2) ->
  exists d d' : b64,
    exec e1 (CDistance n1 i1 b1 f1 n2 i2 b2 f2 (dtw_name k)) s1 = (s1, Ret (AValue (d : D B64))) /\
    exec e2 (CDistance n1 i1 b1 f1 n2 i2 b2 f2 (dtw_name k)) s2 = (s2, Ret (AValue (d' : D B64))) /\
    (k = KChebyshev -> @nle B64 d' d) /\
    (d = pinf \/ exists x x' : R, (x' <= x)%R /\ agrees (lx + ly) d x /\ agrees (lx + ly) d' x').
Proof.
  intros r0 h s s1 s2 e0 e1 e2 a1 a2 k n1 i1 b1 f1 xs n2 i2 b2 f2 ys ratio ratio' Hrun H1 H2 Mx My lx ly Hx Hy P0 P1 P2 E1 E2.
  assert (Hrun1 : run (N := B64) r0 (h ++ [(CRatio (N := B64) ratio, a1)]) s1).
  { apply (run_call (N := B64) r0 h s e0 (CRatio (N := B64) ratio) s1 a1 Hrun E1). injection E1 as _ <-. exact I. }
  assert (Hrun2 : run (N := B64) r0 ((h ++ [(CRatio (N := B64) ratio, a1)]) ++ [(CRatio (N := B64) ratio', a2)]) s2).
  { apply (run_call (N := B64) r0 _ s1 e0 (CRatio (N := B64) ratio') s2 a2 Hrun1 E2). injection E2 as _ <-. exact I. }
  pose proof (run_ratio _ _ _ Hrun1) as R1. pose proof (run_ratio _ _ _ Hrun2) as R2.
  injection E1 as <- <-. injection E2 as <- <-. cbn [a_ratio] in R1, R2. cbn [a_sets a_objs a_paa a_count] in *.
  destruct (named_calls (N := B64) r0 _ _ e1 n1 i1 b1 f1 xs n2 i2 b2 f2 ys Hrun1 H1 H2) as (a & b & (A1 & B1 & A2 & B2 & A3 & B3) & D1 & _).
  destruct (named_calls (N := B64) r0 _ _ e2 n1 i1 b1 f1 xs n2 i2 b2 f2 ys Hrun2 H1 H2) as (a' & b' & (A1' & B1' & A2' & B2' & A3' & B3') & D2 & _).
  specialize (D1 (dtw_name k)). specialize (D2 (dtw_name k)). rewrite <- R1 in D1. rewrite <- R2 in D2. fold lx in A3, A3'. fold ly in B3, B3'.
  assert (Sa : small_points a) by (unfold small_points; rewrite A2; exact Mx). assert (Sb : small_points b) by (unfold small_points; rewrite B2; exact My).
  assert (F0 : @nle B64 n0 ratio') by (apply (nle_trans (N := B64) _ ratio); assumption).
  assert (Q1 : @nle B64 ratio (b64_ofZ 1)) by (apply (nle_trans (N := B64) _ ratio'); assumption).
  assert (N0 : forall x : b64, @nle B64 n0 x -> Bltb x (b64_ofZ 0) = false) by (intros x X; apply X).
  destruct (C10_band_defined ratio (Z.max (ts_length a) (ts_length b)) ltac:(lia) (N0 _ P0) Q1) as (r & Er).
  destruct (C10_band_defined ratio' (Z.max (ts_length a) (ts_length b)) ltac:(lia) (N0 _ F0) P2) as (r' & Er').
  assert (Fin1 : forall x : b64, @nle B64 n0 x -> @nle B64 x (b64_ofZ 1) -> nfin (N := B64) x).
  { intros x X Y. apply (nfin_between (N := B64) n0 x (b64_ofZ 1)); auto; split; reflexivity. }
  assert (Hr : 0 <= r) by (apply (C10_band_between_0_and_length ratio (Z.max (ts_length a) (ts_length b)) r ltac:(lia) (Fin1 _ P0 Q1) (N0 _ P0) Er)).
  assert (Hr' : 0 <= r') by (apply (C10_band_between_0_and_length ratio' (Z.max (ts_length a) (ts_length b)) r' ltac:(lia) (Fin1 _ F0 P2) (N0 _ F0) Er')).
  assert (Hrr : r <= r') by (apply (band_mono_ratio (N := B64) ratio ratio' (Z.max (ts_length a) (ts_length b))); auto; lia).
  assert (Ok : ieee_ok k a b ratio r) by (apply C02_no_overflow_for_moderate_data; auto; lia).
  assert (Ok' : ieee_ok k a b ratio' r') by (apply C02_no_overflow_for_moderate_data; auto; lia).
  destruct (dtw_values (N := B64) k a b ratio r [] Ok) as (d & Ed & _). destruct (dtw_values (N := B64) k a b ratio' r' [] Ok') as (d' & Ed' & _).
  assert (Ed2 : value (dist_call (N := B64) (dtw_name k) ratio' a' b' (@ninf B64) []) = Ret d').
  { refine (eq_trans _ Ed'). rewrite !call_dtw. f_equal. apply (DtwExt.warped_ext (N := B64)); split; auto; split; auto; congruence. }
  exists d, d'. split; [|split; [|split]].
  - refine (eq_trans D1 _). f_equal. exact (f_equal (fun x => v <- x ;; Ret (AValue (N := B64) v)) Ed).
  - refine (eq_trans D2 _). f_equal. exact (f_equal (fun x => v <- x ;; Ret (AValue (N := B64) v)) Ed2).
  - intros ->. refine (wider_value (N := B64) KChebyshev a b ratio ratio' r r' d d' [] [] Ok Ok' Hrr _ Ed Ed'). apply Chebyshev_reflects.
  - destruct (Z.le_gt_cases (Z.abs (ts_length a - ts_length b)) r) as [C|C]; [right|left].
    + destruct (C51_dtw_near_optimum k a b ratio r [] Ok C) as (p & d1 & X1 & X2 & X3 & X4 & X5).
      destruct (C51_dtw_near_optimum k a b ratio' r' [] Ok' ltac:(lia)) as (p' & d1' & Y1 & Y2 & Y3 & Y4 & Y5).
      assert (Eq1 : d = d1) by (apply ret_inj; exact (eq_trans (eq_sym Ed) X4)). assert (Eq2 : d' = d1') by (apply ret_inj; exact (eq_trans (eq_sym Ed') Y4)).
      subst d1 d1'. rewrite A3, B3 in *. do 2 eexists. split; [|split; [exact X5|exact Y5]]. apply Y3; [exact X1|]. apply (in_band_wider r); auto.
    + destruct (dtw_no_path _ (nice_of k) a b ratio r (proj1 (ok_pre _ _ _ _ _) Ok) [] ltac:(lia)) as (_ & m' & E').
      assert (Ed3 : value (dist_call (N := B64) (dtw_name k) ratio a b (@ninf B64) []) = Ret (@ninf B64)) by (rewrite call_dtw, E'; reflexivity).
      apply ret_inj. exact (eq_trans (eq_sym Ed) Ed3).
Qed.
Print Assumptions C66_wider_band_ieee.

(** The exhaustive search in doubles with the Chebyshev distance. *)
Theorem C66_nearest_chebyshev_ieee : forall (r0 : D B64) h (s s1 s2 : api B64) e0 e a1 a2 t g rows qn i st en xs K (ratio ratio' : b64),
  @run B64 r0 h s -> held s t = Some g -> holds (gt_data g) rows -> moderate_data rows -> asks_for s qn i st en xs ->
  @nle B64 n0 ratio -> @nle B64 ratio ratio' -> @nle B64 ratio' (b64_ofZ 1) -> std_ok (e_alg e) -> 1 <= K ->
  no_near_ties (N := B64) rows KChebyshev ratio xs (long_enough rows) ->
  no_near_ties (N := B64) rows KChebyshev ratio' xs (long_enough rows) ->
  exec e0 (CRatio (N := B64) ratio) s = (s1, a1) -> exec e0 (CRatio (N := B64) ratio') s1 = (s2, a2) ->
  exists best best',
    exec e (CBrute K t qn i st en "chebyshev") s1 = (s1, Ret (ACands best)) /\
    exec e (CBrute K t qn i st en "chebyshev") s2 = (s2, Ret (ACands best')) /\
    length best = length best' /\
    forall j c c', nth_error best j = Some c -> nth_error best' j = Some c' -> @nle B64 (c_dist c') (c_dist c).
Proof.
  intros r0 h s s1 s2 e0 e a1 a2 t g rows qn i st en xs K ratio ratio' Hrun Hh Hd Hm Hq P0 P1 P2 Hok HK T T' E1 E2.
  assert (Hrun1 : @run B64 r0 (h ++ [(CRatio (N := B64) ratio, a1)]) s1).
  { apply (run_call (N := B64) r0 h s e0 (CRatio (N := B64) ratio) s1 a1 Hrun E1). injection E1 as _ <-. exact I. }
  assert (Hrun2 : @run B64 r0 ((h ++ [(CRatio (N := B64) ratio, a1)]) ++ [(CRatio (N := B64) ratio', a2)]) s2).
  { apply (run_call (N := B64) r0 _ s1 e0 (CRatio (N := B64) ratio') s2 a2 Hrun1 E2). injection E2 as _ <-. exact I. }
  injection E1 as <- <-. injection E2 as <- <-. cbn [a_sets a_objs a_paa a_count] in *.
  assert (Q0 : @nle B64 n0 ratio') by (apply (nle_trans (N := B64) _ ratio); assumption).
  assert (Q1 : @nle B64 ratio (b64_ofZ 1)) by (apply (nle_trans (N := B64) _ ratio'); assumption).
  assert (M : moderate_ratio ratio) by (split; assumption). assert (M' : moderate_ratio ratio') by (split; assumption).
  change "chebyshev"%string with (kind_name KChebyshev).
  destruct (C34_brute_force_partial r0 _ _ t g rows qn i st en xs KChebyshev K e Hrun1 Hh Hd Hm Hq M Hok HK T) as (best & B1 & B2 & B3).
  destruct (C34_brute_force_partial r0 _ _ t g rows qn i st en xs KChebyshev K e Hrun2 Hh Hd Hm Hq M' Hok HK T') as (best' & B1' & B2' & B3').
  exists best, best'. split; [exact B1|]. split; [exact B1'|].
  destruct (asks_series s qn i st en xs (run_good _ _ _ Hrun) Hq) as (q & _ & Hmq & Eq & _). cbn [a_ratio] in B2, B2'.
  refine (nearest_gen (N := B64) rows KChebyshev ratio ratio' xs (long_enough rows) K best best' _ _ P0 P1 _ _ B2 B2' B3 B3').
  - intros l1 l2 _. apply Chebyshev_reflects.
  - apply (nfin_between (N := B64) n0 ratio' (b64_ofZ 1)); auto; split; reflexivity.
  - rewrite <- Eq. apply searchable_moderate; auto.
  - rewrite <- Eq. apply searchable_moderate; auto.
Qed.
Print Assumptions C66_nearest_chebyshev_ieee.

(** ** refutations *)

(** Doubles: in the sum distances the computed value can grow.  The programme compares
    divided sums, and two different sums can become equal when divided. *)
Definition tenths_env : env B64 :=
  mkEnv (N := B64) (fun w => match stodZ w with Parsed x => Parsed (ndiv (n := B64) x (b64_ofZ 10)) | o => o end) putZ putZ (fun _ => None)
    (fun p => if String.eqb p "f" then Some (mkFile ("25,63,83" ++ nl1 ++ "73,78,74" ++ nl1 ++ "40,19,10" ++ nl1 ++ "34,2,4") None)%string else None)
    (fun _ => true) (fun _ => None) (fun _ => false) simple_alg.
Definition halved : b64 := ndiv (n := B64) (b64_ofZ 1) (b64_ofZ 2).
Definition larger (r r' : res (answer B64)) : bool :=
  match r, r' with Ret (AValue d), Ret (AValue d') => nltb (n := B64) d d' | _, _ => false end.
Lemma larger_inv r r' : larger r r' = true -> exists d d', r = Ret (AValue d) /\ r' = Ret (AValue d') /\ @nlt B64 d d'.
Proof. destruct r as [[]| | |]; try discriminate. destruct r' as [[]| | |]; try discriminate. intros H. eauto. Qed.

Theorem C66_wider_band_ieee_refuted : forall k, k <> KChebyshev -> exists e h (s : api B64) c d d',
  run (N := B64) (b64_ofZ 1) h s /\ map fst h = [st_load] /\
  (exists n1 i1 b1 f1 n2 i2 b2 f2, c = CDistance (N := B64) n1 i1 b1 f1 n2 i2 b2 f2 (dtw_name k)) /\
  snd (exec e c (st_after e [CRatio (N := B64) (b64_ofZ 0)] s)) = Ret (AValue d) /\
  snd (exec e c (st_after e [CRatio (N := B64) (b64_ofZ 0); CRatio (N := B64) halved] s)) = Ret (AValue d') /\
  @nlt B64 d d'.
Proof.
  intros k Hk.
  destruct (st_run tenths_env [st_load] [] ex_start (@run_start B64 (b64_ofZ 1))) as (h & Hrun & Hh); [vm_compute; reflexivity|].
  set (s := st_after tenths_env [st_load] ex_start) in *.
  set (c := CDistance (N := B64) "x" (match k with KEuclidean => 2 | _ => 0 end) (-1) (-1) "x" (match k with KEuclidean => 3 | _ => 1 end) (-1) (-1) (dtw_name k)).
  assert (E : larger (snd (exec tenths_env c (st_after tenths_env [CRatio (N := B64) (b64_ofZ 0)] s)))
                (snd (exec tenths_env c (st_after tenths_env [CRatio (N := B64) (b64_ofZ 0); CRatio (N := B64) halved] s))) = true).
  { destruct k; [vm_compute; reflexivity|vm_compute; reflexivity|contradiction]. }
  apply larger_inv in E as (d & d' & E1 & E2 & E3). exists tenths_env, h, s, c, d, d'. split; [exact Hrun|]. split; [exact Hh|].
  split; [unfold c; eauto 10|]. split; [exact E1|]. split; [exact E2|exact E3].
Qed.
Print Assumptions C66_wider_band_ieee_refuted.

(** The search in the groups: with a wider band the answer can be farther away.  The query is a series of the data set itself and is found with ratio 0, but not
    with ratio 1. *)
Definition three_env : env B64 :=
  mkEnv (N := B64) stodZ putZ putZ (fun _ => None)
    (fun p => if String.eqb p "f" then Some (mkFile ("2,0,3" ++ nl1 ++ "3,0,1" ++ nl1 ++ "2,3,0") None)%string else None)
    (fun _ => true) (fun _ => None) (fun _ => false) simple_alg.
Definition three_group : call B64 := CGroup (N := B64) "x" (b64_ofZ 4) "chebyshev" 1 true.
Definition three_query : call B64 := CBest (N := B64) "x" "x" 1 0 3.
Lemma best_seen_inv r l c v : best_seen r = Some (l, c, v) -> exists m : cand B64, r = Ret (ACand m) /\ place_of m = (l, c) /\ sf (c_dist m) = v.
Proof. destruct r as [[]| | |]; try discriminate. cbn. intros H. injection H as <- <- <-. eexists. split; [reflexivity|]. split; reflexivity. Qed.

Theorem C66_best_match_refuted : exists e h (s : api B64) (c c' : cand B64),
  run (N := B64) (b64_ofZ 1) h s /\ map fst h = [st_load; three_group] /\
  snd (exec e three_query (st_after e [CRatio (N := B64) (b64_ofZ 0)] s)) = Ret (ACand c) /\
  snd (exec e three_query (st_after e [CRatio (N := B64) (b64_ofZ 0); CRatio (N := B64) (b64_ofZ 1)] s)) = Ret (ACand c') /\
  place_of c = (3, (1, 0)) /\ place_of c' = (3, (2, 0)) /\ @nlt B64 (c_dist c) (c_dist c').
Proof.
  destruct (st_run three_env [st_load; three_group] [] ex_start (@run_start B64 (b64_ofZ 1))) as (h & Hrun & Hh); [vm_compute; reflexivity|].
  set (s := st_after three_env [st_load; three_group] ex_start) in *.
  set (x := snd (exec three_env three_query (st_after three_env [CRatio (N := B64) (b64_ofZ 0)] s))).
  set (y := snd (exec three_env three_query (st_after three_env [CRatio (N := B64) (b64_ofZ 0); CRatio (N := B64) (b64_ofZ 1)] s))).
  assert (E1 : best_seen x = Some (3, (1, 0), SpecFloat.S754_zero false)) by (vm_compute; reflexivity).
  assert (E2 : best_seen y = Some (3, (2, 0), SpecFloat.S754_finite false 4503599627370496 (-52))) by (vm_compute; reflexivity).
  destruct (best_seen_inv x _ _ _ E1) as (c & C1 & C2 & C3). destruct (best_seen_inv y _ _ _ E2) as (c' & C1' & C2' & C3').
  exists three_env, h, s, c, c'. split; [exact Hrun|]. split; [exact Hh|]. split; [exact C1|]. split; [exact C1'|]. split; [exact C2|]. split; [exact C2'|].
  assert (X0 : B2SF (b64_ofZ 0) = SpecFloat.S754_zero false) by (vm_compute; reflexivity).
  assert (X1 : B2SF (b64_ofZ 1) = SpecFloat.S754_finite false 4503599627370496 (-52)) by (vm_compute; reflexivity).
  assert (D0 : (c_dist c : b64) = b64_ofZ 0) by (apply (B2SF_inj prec64 emax64); exact (eq_trans C3 (eq_sym X0))).
  assert (D1 : (c_dist c' : b64) = b64_ofZ 1) by (apply (B2SF_inj prec64 emax64); exact (eq_trans C3' (eq_sym X1))).
  unfold nlt. rewrite D0, D1. vm_compute. reflexivity.
Qed.
Print Assumptions C66_best_match_refuted.

(** ** cases that meet the hypotheses *)
Lemma path_max_ge f xs ys p c : In c p -> (f (Rpt xs (fst c)) (Rpt ys (snd c)) <= path_max f xs ys p)%R.
Proof.
  induction p as [|c' p IH]; intros H; [destruct H|]. unfold path_max. cbn [fold_right]. destruct H as [->|H]; [apply Rmax_l|].
  eapply Rle_trans; [apply IH, H|apply Rmax_r].
Qed.
Lemma path_last m n p : warping_path m n p -> In (m - 1, n - 1) p.
Proof.
  destruct p as [|c p]; [intros []|]. intros (_ & _ & <-). destruct (exists_last (l := c :: p)) as (l & x & ->); [discriminate|].
  rewrite last_snoc. apply in_app_iff. right. left. reflexivity.
Qed.

(** the data set of two series 0 0 and 1 3 from a file; the query is the first *)
Lemma two_places p : long_enough (N := XR) (real_rows two_rows) p -> p = (2, (0, 0)) \/ p = (2, (1, 0)).
Proof.
  destruct p as [l [i j]]. intros [H1 (row & Hr & H2)]. cbn [fst snd] in *. apply row_of_Some in Hr as [H0 Hr].
  assert (Hi : Z.to_nat i = 0%nat \/ Z.to_nat i = 1%nat).
  { assert (Z.to_nat i < 2)%nat by (apply (nth_error_Some (real_rows two_rows)); congruence). lia. }
  assert (L : Z.of_nat (length row) = 2) by (destruct Hi as [Hi|Hi]; rewrite Hi in Hr; injection Hr as <-; reflexivity).
  assert (l = 2) by lia. assert (j = 0) by lia. subst l j. destruct Hi; [left|right]; do 2 f_equal; lia.
Qed.
Lemma two_dist (ratio : R) p v : (0 <= ratio <= 1)%R -> long_enough (N := XR) (real_rows two_rows) p ->
  dtw_of (N := XR) KChebyshev (Fin ratio) (map Fin [0; 0]%R) (place_values (real_rows two_rows) p) = Ret v ->
  exists x, v = Fin x /\ ((p = (2, (0, 0)) /\ x = 0%R) \/ (p = (2, (1, 0)) /\ (3 <= x)%R)).
Proof.
  intros Hr Hp E.
  assert (G : forall ys : list R, Rlen ys = 2 -> dtw_of (N := XR) KChebyshev (Fin ratio) (map Fin [0; 0]%R) (map Fin ys) = Ret v ->
     exists p, v = Fin (chebyshev_cost [0; 0]%R ys p) /\ warping_path 2 2 p /\
       forall q, warping_path 2 2 q -> in_band (band_width ratio 2) q -> (chebyshev_cost [0; 0]%R ys p <= chebyshev_cost [0; 0]%R ys q)%R).
  { intros ys Hy Ev. assert (L2 : Rlen [0; 0]%R = 2) by reflexivity.
    destruct (C01_dtw_is_the_optimum KChebyshev (ts_of_list (N := XR) (map Fin [0; 0]%R)) (ts_of_list (N := XR) (map Fin ys)) [0; 0]%R ys ratio []) as [X _].
    - apply series_of_list.
    - apply series_of_list.
    - rewrite L2; lia.
    - rewrite Hy; lia.
    - lra.
    - rewrite L2, Hy. unfold int_max. change (Z.max 2 2) with 2. lra.
    - rewrite L2, Hy in X. change (Z.max 2 2) with 2 in X. destruct X as (p0 & P1 & P2 & P3 & P4).
      + change (Z.abs (2 - 2)) with 0. apply band_width_nonneg; [lia|lra].
      + exists p0. split; [|split; [exact P1|exact P3]]. apply ret_inj. exact (eq_trans (eq_sym Ev) P4). }
  assert (S1 : warping_path 2 2 (straight 2)) by (split; [reflexivity|]; split; [|reflexivity]; split; [right; right; reflexivity|exact I]).
  assert (S2 : in_band (band_width ratio 2) (straight 2)).
  { pose proof (band_width_nonneg ratio 2 ltac:(lia) ltac:(lra)). repeat constructor; cbn; lia. }
  destruct (two_places p Hp) as [-> | ->].
  - destruct (G [0; 0]%R eq_refl E) as (q & -> & Q1 & Q2). eexists. split; [reflexivity|]. left. split; [reflexivity|].
    specialize (Q2 _ S1 S2). pose proof (path_max_pos [0; 0]%R [0; 0]%R q) as Q3.
    replace (chebyshev_cost [0; 0]%R [0; 0]%R (straight 2)) with 0%R in Q2; [unfold chebyshev_cost in *; lra|].
    symmetry. refine (eq_trans (straight_cost KChebyshev [0; 0]%R [0; 0]%R eq_refl ltac:(discriminate)) _).
    exact (proj2 (proj1 (proj2 (proj2 (C05_pairwise_metric_axioms KChebyshev [0; 0]%R [0; 0]%R [0; 0]%R ltac:(discriminate) eq_refl eq_refl)))) eq_refl).
  - destruct (G [1; 3]%R eq_refl E) as (q & -> & Q1 & _). eexists. split; [reflexivity|]. right. split; [reflexivity|].
    pose proof (path_max_ge (fun x y => Rabs (x - y)) [0; 0]%R [1; 3]%R q _ (path_last 2 2 q Q1)) as H.
    change (Rabs (0 - 3) <= path_max (fun x y => Rabs (x - y)) [0; 0]%R [1; 3]%R q)%R in H.
    unfold chebyshev_cost. refine (Rle_trans _ _ _ _ H). rewrite Rabs_left; lra.
Qed.
Lemma two_ties (ratio : R) : (0 <= ratio <= 1)%R ->
  no_near_ties (N := XR) (real_rows two_rows) KChebyshev (Fin ratio) (map Fin [0; 0]%R) (long_enough (real_rows two_rows)).
Proof.
  intros Hr p p' v v' Hp Hp' E E'. destruct (two_dist ratio p v Hr Hp E) as (x & -> & Hx). destruct (two_dist ratio p' v' Hr Hp' E') as (x' & -> & Hx').
  assert (Far : forall y z : R, y = 0%R -> (3 <= z)%R -> nltb (n := XR) (nabs (nsub (Fin y : D XR) (Fin z))) neps = false /\ nltb (n := XR) (nabs (nsub (Fin z : D XR) (Fin y))) neps = false).
  { intros y z -> Hz. cbn. split.
    - destruct (Rlt_bool_spec (Rabs (0 - z)) (1 / 1000000000)) as [H|H]; [|reflexivity]. rewrite Rabs_left in H; lra.
    - destruct (Rlt_bool_spec (Rabs (z - 0)) (1 / 1000000000)) as [H|H]; [|reflexivity]. rewrite Rabs_right in H; lra. }
  destruct Hx as [[-> ->]|[-> Hx]], Hx' as [[-> ->]|[-> Hx']].
  - left. split; apply XR_nle; cbn; lra.
  - right. apply (Far 0%R x' eq_refl Hx').
  - right. apply (Far 0%R x eq_refl Hx).
  - left. assert (X : Fin x = Fin x') by (apply ret_inj; exact (eq_trans (eq_sym E) E')). injection X as <-. split; apply XR_nle; cbn; lra.
Qed.

Example C66_exact_example : exists h g, run (N := XR) (Fin 1) h real_state /\ held real_state "x" = Some g /\
  holds (gt_data g) (real_rows two_rows) /\ (forall row, In row two_rows -> Z.of_nat (length row) <= 2 ^ 30) /\
  stretch real_state "x" 0 (-1) (-1) (map Fin [0; 0]%R) /\ stretch real_state "x" 1 0 2 (map Fin [1; 3]%R) /\
  Rlen [0; 0]%R = 2 /\ Rlen [1; 3]%R = 2 /\ (IZR 2 * 1 <= IZR int_max)%R /\ std_ok (e_alg real_env) /\
  no_near_ties (N := XR) (real_rows two_rows) KChebyshev (Fin 0) (map Fin [0; 0]%R) (long_enough (real_rows two_rows)) /\
  no_near_ties (N := XR) (real_rows two_rows) KChebyshev (Fin 1) (map Fin [0; 0]%R) (long_enough (real_rows two_rows)).
Proof.
  destruct C65_regrouping_example as ((h & Hrun) & (g & Hg & Hd & _) & _). exists h, g. split; [exact Hrun|]. split; [exact Hg|]. split; [exact Hd|].
  split; [intros row [<-|[<-|[]]]; cbn; lia|].
  split; [exists g, (real_rows two_rows), (map Fin [0; 0]%R); split; [exact Hg|]; split; [exact Hd|]; split; [reflexivity|]; left; auto with zarith|].
  split; [exists g, (real_rows two_rows), (map Fin [1; 3]%R); split; [exact Hg|]; split; [exact Hd|]; split; [reflexivity|]; right; split; [lia|split; [cbn; lia|reflexivity]]|].
  split; [reflexivity|]. split; [reflexivity|]. split; [unfold int_max; lra|]. split; [apply simple_alg_ok|]. split; apply two_ties; lra.
Qed.

(** three series 2 0 3, 3 0 1 and 2 3 0 from a file; the query is the second *)
Definition three_rows : list (list (D B64)) := [map b64_ofZ [2; 0; 3]; map b64_ofZ [3; 0; 1]; map b64_ofZ [2; 3; 0]].
Definition three_places : list place :=
  [(2, (0, 0)); (2, (0, 1)); (3, (0, 0)); (2, (1, 0)); (2, (1, 1)); (3, (1, 0)); (2, (2, 0)); (2, (2, 1)); (3, (2, 0))].
Definition separate (ratio : b64) : bool :=
  forallb (fun p => forallb (fun p' =>
      match dtw_of (N := B64) KChebyshev ratio (map b64_ofZ [3; 0; 1]) (place_values three_rows p),
            dtw_of (N := B64) KChebyshev ratio (map b64_ofZ [3; 0; 1]) (place_values three_rows p') with
      | Ret v, Ret v' => sepb v v' | _, _ => false end) three_places) three_places.
Lemma three_ties (ratio : b64) : separate ratio = true ->
  no_near_ties (N := B64) three_rows KChebyshev ratio (map b64_ofZ [3; 0; 1]) (long_enough three_rows).
Proof.
  intros G p p' v v' Hp Hp' Ev Ev'. assert (I : forall p, long_enough three_rows p -> In p three_places).
  { intros x Hx. apply (BruteProofs.bf_places_In (N := B64) three_rows) in Hx. exact Hx. }
  apply I in Hp, Hp'. unfold separate in G. rewrite forallb_forall in G. specialize (G p Hp). rewrite forallb_forall in G. specialize (G p' Hp').
  cbv beta in G. rewrite Ev, Ev' in G. unfold sepb in G. apply orb_true_iff in G as [G|G].
  - left. apply (neqb_true (N := B64)). exact G.
  - right. apply negb_true_iff in G. exact G.
Qed.

Example C66_ieee_example : exists h g, run (N := B64) (b64_ofZ 1) h (st_after three_env [st_load; three_group] ex_start) /\
  held (st_after three_env [st_load; three_group] ex_start) "x" = Some g /\ holds (gt_data g) three_rows /\ moderate_data three_rows /\
  asks_for (st_after three_env [st_load; three_group] ex_start) "x" 1 0 3 (map b64_ofZ [3; 0; 1]) /\
  no_near_ties (N := B64) three_rows KChebyshev (b64_ofZ 0) (map b64_ofZ [3; 0; 1]) (long_enough three_rows) /\
  no_near_ties (N := B64) three_rows KChebyshev (b64_ofZ 1) (map b64_ofZ [3; 0; 1]) (long_enough three_rows) /\
  std_ok (e_alg three_env) /\ @nle B64 n0 (b64_ofZ 0) /\ @nle B64 (b64_ofZ 0) (b64_ofZ 1).
Proof.
  destruct (st_run three_env [st_load; three_group] [] ex_start (@run_start B64 (b64_ofZ 1))) as (h & Hrun & Hh); [vm_compute; reflexivity|].
  set (s := st_after three_env [st_load; three_group] ex_start) in *.
  assert (E1 : option_map (set_seen 3) (held s "x") = Some (Some (map PropsNorm.sf (map b64_ofZ [2; 0; 3; 3; 0; 1; 2; 3; 0])), [3; 3; 3], 3, 3, Some [((0, 0), 2, [(1, 0); (0, 0)]); ((2, 0), 1, [(2, 0)])]))
    by (vm_compute; reflexivity).
  destruct (held s "x") as [g|] eqn:Eh; [|discriminate E1]. cbn [option_map] in E1. apply some_inj in E1.
  apply set_seen_inv in E1 as (D1 & D2 & D3 & D4 & _).
  assert (Hd : holds (gt_data g) three_rows).
  { exists (map b64_ofZ [2; 0; 3; 3; 0; 1; 2; 3; 0]). split; [exact D1|]. rewrite D3, D4. split; [reflexivity|]. split; [lia|]. split; [split; vm_compute; discriminate|].
    intros i row Er. rewrite D2.
    destruct i as [|[|[|i]]]; [| | |destruct i; discriminate Er]; injection Er as <-; (split; [reflexivity|]); (split; [vm_compute; discriminate|]);
      intros j v Ej; repeat (destruct j as [|j]; [injection Ej as <-; reflexivity|]); destruct j; discriminate Ej. }
  assert (Hm : moderate_data three_rows).
  { intros row Hin. split; [|destruct Hin as [<-|[<-|[<-|[]]]]; vm_compute; discriminate].
    destruct Hin as [<-|[<-|[<-|[]]]]; apply leb64_all; vm_compute; reflexivity. }
  exists h, g. split; [exact Hrun|]. split; [reflexivity|]. split; [exact Hd|]. split; [exact Hm|].
  split; [exists g, three_rows, (map b64_ofZ [3; 0; 1]); split; [exact Eh|]; split; [exact Hd|]; split; [exact Hm|]; split; [reflexivity|];
    split; [lia|]; split; [lia|]; split; [vm_compute; discriminate|reflexivity]|].
  split; [apply three_ties; vm_compute; reflexivity|]. split; [apply three_ties; vm_compute; reflexivity|].
  split; [apply simple_alg_ok|]. split; (split; [reflexivity|split; reflexivity]).
Qed.
