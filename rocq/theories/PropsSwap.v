(** Property C90: the order of the two series in a request for their distance.  Specifications:
    NamedSpec.v ([stretch]), ApiSpec.v ([run]), DtwSpec.v, PropsAccuracy.v ([agrees]) and PropsWhole.v. *)
From Coq Require Import String Reals Lra Lia ZArith.
From Flocq Require Import Core BinarySingleNaN.
From Verif Require Import Base Num NumB64 NumLaws NumFacts NumB64Laws NumXR NumXRLaws LoopFacts TimeSeries TSSet Distance DtwSpec DtwPaths DtwProofs Metrics DtwMain
  DtwResults DtwReal Pairwise Band DistSpec DistLink GroupSpace DataSpec DataProofs StdAlg HeapFacts Candidate SearchSpec SearchCases BruteForce Loader Api ApiSpec ApiProofs
  ApiQuery NamedSpec PropsDistance PropsAccuracy PropsLoader PropsApi PropsNamed PropsSearch PropsMore PropsApiQuery PropsNorm KBest PropsCount PropsBand PropsWhole PropsTurn.
Local Open Scope Z_scope.
Local Open Scope list_scope.

(** the five distances that compare value with value at the same place *)
Definition paired_names : list string := ["euclidean"; "manhattan"; "chebyshev"; "cosine"; "sorensen"]%string.

(** ** from here on proofs *)
Section Swap.
Context {N : Num}.

Lemma forb_rel {S S'} (R : S -> S' -> Prop) body body' : forall n i s s',
  (forall k s s', i <= k < i + Z.of_nat n -> R s s' -> exists t t' b, body k s = Ret (t, b) /\ body' k s' = Ret (t', b) /\ R t t') ->
  R s s' -> exists t t' b, forb_n n i body s = Ret (t, b) /\ forb_n n i body' s' = Ret (t', b) /\ R t t'.
Proof.
  induction n as [|n IH]; intros i s s' H Hs; cbn [forb_n].
  - exists s, s', false. auto.
  - destruct (H i s s' ltac:(lia) Hs) as (t & t' & b & E & E' & Ht). rewrite E, E'. cbn [bind].
    destruct b; [exists t, t', true; auto|]. apply IH; auto. intros k u u' Hk. apply H. lia.
Qed.

Lemma pt_same (a a' : TS N) i : ts_points a = ts_points a' -> pt a i = pt a' i.
Proof. unfold pt. intros ->. reflexivity. Qed.

Lemma pair_swap (M : Metric N) (R : acc M -> acc M -> Prop) (a b a' b' : TS N) cut mt :
  R (m_init M) (m_init M) -> (forall t t' x y, R t t' -> R (m_reduce M t x y) (m_reduce M t' y x)) ->
  (forall t t' l, R t t' -> m_norm M t l l = m_norm M t' l l) ->
  (forall inv rd, m_inv M = Some (inv, rd) -> forall t t', R t t' -> rd t = rd t') ->
  ts_ok a -> ts_ok b -> ts_ok a' -> ts_ok b' -> ts_points a = ts_points a' -> ts_points b = ts_points b' ->
  pairwiseDistance M a b cut mt = pairwiseDistance M b' a' cut mt.
Proof.
  intros R0 R1 R2 R3 Oa Ob Oa' Ob' Pa Pb.
  pose proof (ts_points_length a Oa) as La. pose proof (ts_points_length b Ob) as Lb.
  pose proof (ts_points_length a' Oa') as La'. pose proof (ts_points_length b' Ob') as Lb'.
  rewrite Pa, La' in La. rewrite Pb, Lb' in Lb.
  assert (0 <= ts_length a) by apply Oa. assert (0 <= ts_length b) by apply Ob.
  assert (0 <= ts_length a') by apply Oa'. assert (0 <= ts_length b') by apply Ob'.
  assert (Ea : ts_length a' = ts_length a) by lia. assert (Eb : ts_length b' = ts_length b) by lia.
  unfold pairwiseDistance. rewrite Ea, Eb, (Z.eqb_sym (ts_length b)). destruct (Z.eqb_spec (ts_length a) (ts_length b)) as [El|]; [|reflexivity].
  cbn [negb]. rewrite <- El. set (cut' := match m_inv M with None => cut | Some (inv, _) => inv cut (ts_length a) (ts_length a) end).
  destruct (forb_rel R (pairwise_step M a b cut') (pairwise_step M b' a' cut') (Z.to_nat (ts_length a - 0)) 0 (m_init M) (m_init M)) as (t & t' & d & E & E' & Ht).
  - intros k u u' Hk Hu. unfold pairwise_step.
    rewrite (ts_get_pt a), (ts_get_pt b), (ts_get_pt a'), (ts_get_pt b') by (auto; lia). cbn [bind].
    rewrite <- (pt_same a a' k Pa), <- (pt_same b b' k Pb), Ea, Eb, <- El.
    do 3 eexists. split; [reflexivity|]. pose proof (R1 _ _ (pt a k) (pt b k) Hu) as Hn. split; [|exact Hn].
    do 2 f_equal. destruct (m_inv M) as [[inv rd]|] eqn:Em; f_equal; symmetry; [eapply R3; eauto|apply R2; exact Hn].
  - exact R0.
  - unfold forb_. rewrite E, E'. cbn [bind]. destruct d; [reflexivity|]. rewrite (R2 _ _ _ Ht). reflexivity.
Qed.
End Swap.

Lemma Bplus_comm m (x y : b64) : Bplus (prec := prec64) (emax := emax64) m x y = Bplus m y x.
Proof.
  destruct x as [sx|sx| |sx mx ex Hx], y as [sy|sy| |sy my ey Hy]; cbn [Bplus]; try reflexivity.
  - destruct sx, sy, m; reflexivity.
  - destruct sx, sy; reflexivity.
  - cbv zeta. unfold Fplus_naive. rewrite (Z.min_comm ex ey), Z.add_comm. reflexivity.
Qed.
Lemma Bmult_comm m (x y : b64) : Bmult (prec := prec64) (emax := emax64) m x y = Bmult m y x.
Proof.
  destruct x as [sx|sx| |sx mx ex Hx], y as [sy|sy| |sy my ey Hy]; cbn [Bmult]; try rewrite (xorb_comm sx sy); try reflexivity.
  apply B2SF_inj. rewrite !B2SF_SF2B. rewrite (Pos.mul_comm mx my), (Z.add_comm ex ey), (xorb_comm sx sy). reflexivity.
Qed.
Lemma fin_nfin (x : b64) : is_finite x = true -> nfin (N := B64) x.
Proof. destruct x as [[]|[]| |[] m e0 He]; intros H; try discriminate H; split; reflexivity. Qed.
Lemma abs_diff_comm (x y : D B64) : nabs (n := B64) (nsub (n := B64) x y) = nabs (n := B64) (nsub (n := B64) y x).
Proof.
  destruct (is_finite (x : b64)) eqn:Fx; [destruct (is_finite (y : b64)) eqn:Fy|].
  - apply (lw_sub_opp (N := B64)); apply fin_nfin; assumption.
  - destruct (x : b64) as [sx|sx| |sx mx ex Hx], (y : b64) as [sy|sy| |sy my ey Hy]; try discriminate; reflexivity.
  - destruct (x : b64) as [sx|sx| |sx mx ex Hx], (y : b64) as [sy|sy| |sy my ey Hy]; try discriminate; try reflexivity; destruct sx, sy; reflexivity.
Qed.

(** In doubles, whatever the values, the paired distances do not depend on the order: the two requests
    have the same outcome, be it the same double or the same exception. *)
Theorem C90_paired : forall (r0 : b64) h (s : api B64) e e' nm n1 i1 b1 f1 xs n2 i2 b2 f2 ys,
  run (N := B64) r0 h s -> stretch s n1 i1 b1 f1 xs -> stretch s n2 i2 b2 f2 ys -> In nm paired_names ->
  exec e (CDistance n1 i1 b1 f1 n2 i2 b2 f2 nm) s = exec e' (CDistance n2 i2 b2 f2 n1 i1 b1 f1 nm) s.
Proof.
  intros r0 h s e e' nm n1 i1 b1 f1 xs n2 i2 b2 f2 ys Hrun H1 H2 Hn.
  destruct (named_calls (N := B64) r0 h s e _ _ _ _ _ _ _ _ _ _ Hrun H1 H2) as (a & b & (Oa & Ob & Pa & Pb & _) & D1 & _).
  destruct (named_calls (N := B64) r0 h s e' _ _ _ _ _ _ _ _ _ _ Hrun H2 H1) as (b' & a' & (Ob' & Oa' & Pb' & Pa' & _) & D2 & _).
  refine (eq_trans (D1 nm) (eq_trans _ (eq_sym (D2 nm)))). rewrite <- Pa' in Pa. rewrite <- Pb' in Pb.
  generalize (ratio_after (N := B64) r0 h). intros ratio. clear - Oa Ob Pa Pb Oa' Ob' Hn.
  cut (dist_call (N := B64) nm ratio a b (@ninf B64) [] = dist_call (N := B64) nm ratio b' a' (@ninf B64) []); [intros ->; reflexivity|].
  assert (Hs : forall x y : D B64, euc_dist (N := B64) x y = euc_dist (N := B64) y x).
  { intros x y. unfold euc_dist. apply (lw_mul_abs (N := B64)), abs_diff_comm. }
  assert (Hinv : forall (A : Type) (f : (b64 -> Z -> Z -> b64) * (A -> b64)), @None ((b64 -> Z -> Z -> b64) * (A -> b64)) = Some f -> False) by (intros A f X; discriminate X).
  destruct Hn as [<-|[<-|[<-|[<-|[<-|[]]]]]].
  - change (pairwiseDistance (N := B64) Euclidean a b (@ninf B64) [] = pairwiseDistance (N := B64) Euclidean b' a' (@ninf B64) []).
    apply (pair_swap (N := B64) Euclidean eq); [reflexivity| | | |assumption..].
    + intros t t' x y <-. exact (f_equal (nadd (n := B64) t) (Hs x y)).
    + intros t t' l <-. reflexivity.
    + intros inv rd _ t t' <-. reflexivity.
  - change (pairwiseDistance (N := B64) Manhattan a b (@ninf B64) [] = pairwiseDistance (N := B64) Manhattan b' a' (@ninf B64) []).
    apply (pair_swap (N := B64) Manhattan eq); [reflexivity| | | |assumption..].
    + intros t t' x y <-. exact (f_equal (nadd (n := B64) t) (abs_diff_comm x y)).
    + intros t t' l <-. reflexivity.
    + intros inv rd _ t t' <-. reflexivity.
  - change (pairwiseDistance (N := B64) Chebyshev a b (@ninf B64) [] = pairwiseDistance (N := B64) Chebyshev b' a' (@ninf B64) []).
    apply (pair_swap (N := B64) Chebyshev eq); [reflexivity| | | |assumption..].
    + intros t t' x y <-. exact (f_equal (nmax (N := B64) t) (abs_diff_comm x y)).
    + intros t t' l <-. reflexivity.
    + intros inv rd _ t t' <-. reflexivity.
  - change (pairwiseDistance (N := B64) Cosine a b (@ninf B64) [] = pairwiseDistance (N := B64) Cosine b' a' (@ninf B64) []).
    apply (pair_swap (N := B64) Cosine (fun t t' => match t, t' with (p0, p1, p2), (q0, q1, q2) => p0 = q1 /\ p1 = q0 /\ p2 = q2 end)); [| | | |assumption..].
    + cbn [m_init Cosine]. auto.
    + intros [[p0 p1] p2] [[q0 q1] q2] x y (-> & -> & ->). cbn [m_reduce Cosine]. split; [reflexivity|]. split; [reflexivity|].
      exact (f_equal (nadd (n := B64) q2) (Bmult_comm mode_NE x y)).
    + intros [[p0 p1] p2] [[q0 q1] q2] l (-> & -> & ->).
      exact (f_equal (fun z => ndiv (n := B64) q2 (nsqrt (n := B64) z)) (Bmult_comm mode_NE q1 q0)).
    + intros inv rd Hf. destruct (Hinv _ _ Hf).
  - change (pairwiseDistance (N := B64) Sorensen a b (@ninf B64) [] = pairwiseDistance (N := B64) Sorensen b' a' (@ninf B64) []).
    apply (pair_swap (N := B64) Sorensen eq); [reflexivity| | | |assumption..].
    + intros [p0 p1] t' x y <-. cbn [m_reduce Sorensen]. f_equal.
      * exact (f_equal (nadd (n := B64) p0) (abs_diff_comm x y)).
      * exact (f_equal (fun z => nadd (n := B64) p1 (nabs (n := B64) z)) (Bplus_comm mode_NE x y)).
    + intros t t' l <-. reflexivity.
    + intros inv rd Hf. destruct (Hinv _ _ Hf).
Qed.
Print Assumptions C90_paired.

(** In exact numbers the warped distances of the first three kinds do not depend on it either. *)
Theorem C90_exact : forall (r0 : D XR) h (s : api XR) e e' (k : kind) n1 i1 b1 f1 (xs : list R) n2 i2 b2 f2 (ys : list R) ratio,
  run r0 h s -> stretch s n1 i1 b1 f1 (map Fin xs) -> stretch s n2 i2 b2 f2 (map Fin ys) ->
  ratio_after r0 h = Fin ratio -> (0 <= ratio)%R -> 2 <= Rlen xs <= 2 ^ 30 -> 2 <= Rlen ys <= 2 ^ 30 ->
  (IZR (Z.max (Rlen xs) (Rlen ys)) * ratio <= IZR int_max)%R -> exists d : D XR,
    exec e (CDistance n1 i1 b1 f1 n2 i2 b2 f2 (dtw_name k)) s = (s, Ret (AValue d)) /\
    exec e' (CDistance n2 i2 b2 f2 n1 i1 b1 f1 (dtw_name k)) s = (s, Ret (AValue d)).
Proof.
  intros r0 h s e e' k n1 i1 b1 f1 xs n2 i2 b2 f2 ys ratio Hrun H1 H2 Hr P0 Hx Hy Hm.
  destruct (C55_distance_exact r0 h s e k n1 i1 b1 f1 xs n2 i2 b2 f2 ys Hrun H1 H2) as (_ & W).
  destruct (C55_distance_exact r0 h s e' k n2 i2 b2 f2 ys n1 i1 b1 f1 xs Hrun H2 H1) as (_ & W').
  specialize (W ratio Hr P0 Hx Hy Hm). specialize (W' ratio Hr P0 Hy Hx). rewrite (Z.max_comm (Rlen ys)) in W'. specialize (W' Hm).
  cbv zeta in W, W'. set (r := band_width ratio (Z.max (Rlen xs) (Rlen ys))) in *.
  destruct W as (W1 & W2 & _). destruct W' as (W1' & W2' & _).
  destruct (Z.le_gt_cases (Z.abs (Rlen xs - Rlen ys)) r) as [C|C].
  - destruct (W1 C) as (p & P1 & P2 & P3 & E). destruct (W1' ltac:(lia)) as (q & Q1 & Q2 & Q3 & E').
    assert (Hr0 : 0 <= r) by lia.
    destruct (flip_path r _ _ p Hr0 P1 P2) as [F1 F2]. destruct (flip_path r _ _ q Hr0 Q1 Q2) as [G1 G2].
    specialize (Q3 _ F1 F2). specialize (P3 _ G1 G2). rewrite cost_flip in Q3.
    assert (Eq : real_cost k ys xs q = real_cost k xs ys p).
    { apply Rle_antisym; auto. rewrite <- (cost_flip k ys xs q). exact P3. }
    rewrite Eq in E'. eauto.
  - specialize (W2 C). specialize (W2' ltac:(lia)). eauto.
Qed.
Print Assumptions C90_exact.

(** In doubles: the maximum distance is the same; the two others may differ in their last digits, but
    both are within the bound of C51 of the same exact number; or both are infinite. *)
Theorem C90_warped_ieee_partial : forall (r0 : b64) h (s : api B64) e e' (k : kind) n1 i1 b1 f1 (xs : list (D B64)) n2 i2 b2 f2 (ys : list (D B64)),
  run (N := B64) r0 h s -> stretch s n1 i1 b1 f1 xs -> stretch s n2 i2 b2 f2 ys -> Forall moderate_value xs -> Forall moderate_value ys ->
  let lx := Z.of_nat (length xs) in let ly := Z.of_nat (length ys) in 2 <= lx <= 2 ^ 30 -> 2 <= ly <= 2 ^ 30 ->
  let ratio : b64 := ratio_after (N := B64) r0 h in @nle B64 n0 ratio -> @nle B64 ratio (b64_ofZ 1) ->
  exists d d' : b64,
    exec e (CDistance n1 i1 b1 f1 n2 i2 b2 f2 (dtw_name k)) s = (s, Ret (AValue (d : D B64))) /\
    exec e' (CDistance n2 i2 b2 f2 n1 i1 b1 f1 (dtw_name k)) s = (s, Ret (AValue (d' : D B64))) /\
    (k = KChebyshev -> Beqb d d' = true) /\
    (d = pinf /\ d' = pinf \/ exists x : R, agrees (lx + ly) d x /\ agrees (lx + ly) d' x).
Proof.
  intros r0 h s e e' k n1 i1 b1 f1 xs n2 i2 b2 f2 ys Hrun H1 H2 Mx My lx ly Hx Hy ratio P0 P1.
  destruct (named_calls (N := B64) r0 h s e _ _ _ _ _ _ _ _ _ _ Hrun H1 H2) as (a & b & (A1 & B1 & A2 & B2 & A3 & B3) & D1 & _).
  destruct (named_calls (N := B64) r0 h s e' _ _ _ _ _ _ _ _ _ _ Hrun H2 H1) as (b' & a' & (B1' & A1' & B2' & A2' & B3' & A3') & D2 & _).
  specialize (D1 (dtw_name k)). specialize (D2 (dtw_name k)). fold ratio in D1, D2. fold lx in A3, A3'. fold ly in B3, B3'.
  assert (Sa : small_points a) by (unfold small_points; rewrite A2; exact Mx). assert (Sb : small_points b) by (unfold small_points; rewrite B2; exact My).
  assert (N0 : Bltb ratio (b64_ofZ 0) = false) by apply P0.
  destruct (C10_band_defined ratio (Z.max (ts_length a) (ts_length b)) ltac:(lia) N0 P1) as (r & Er).
  assert (Fr : nfin (N := B64) ratio) by (apply (nfin_between (N := B64) n0 ratio (b64_ofZ 1)); auto; split; reflexivity).
  assert (Hr : 0 <= r) by (apply (C10_band_between_0_and_length ratio (Z.max (ts_length a) (ts_length b)) r ltac:(lia) Fr N0 Er)).
  assert (Ok : ieee_ok k a b ratio r) by (apply C02_no_overflow_for_moderate_data; auto; lia).
  pose proof (ieee_ok_sym _ _ _ _ _ Ok) as Ok'.
  destruct (dtw_values (N := B64) k a b ratio r [] Ok) as (d & Ed & _). destruct (dtw_values (N := B64) k b a ratio r [] Ok') as (d' & Ed' & _).
  assert (Ed2 : value (dist_call (N := B64) (dtw_name k) ratio b' a' (@ninf B64) []) = Ret d').
  { refine (eq_trans _ Ed'). rewrite !call_dtw. f_equal. apply (DtwExt.warped_ext (N := B64)); split; auto; split; auto; congruence. }
  exists d, d'. split; [|split; [|split]].
  - refine (eq_trans D1 _). f_equal. exact (f_equal (fun x => v <- x ;; Ret (AValue (N := B64) v)) Ed).
  - refine (eq_trans D2 _). f_equal. exact (f_equal (fun x => v <- x ;; Ret (AValue (N := B64) v)) Ed2).
  - intros ->. rewrite call_dtw in Ed, Ed'.
    destruct (dtw_sym _ (nice_of KChebyshev) a b ratio r (proj1 (ok_pre _ _ _ _ _) Ok) [] []) as (c & c' & m & m' & F1 & F2 & Fe); [apply Chebyshev_reflects..|].
    assert (Eq1 : d = c) by (apply ret_inj; refine (eq_trans (eq_sym Ed) _); rewrite F1; reflexivity).
    assert (Eq2 : d' = c') by (apply ret_inj; refine (eq_trans (eq_sym Ed') _); rewrite F2; reflexivity).
    subst c c'. apply (neqb_of_eqv (N := B64)). exact Fe.
  - destruct (Z.le_gt_cases (Z.abs (ts_length a - ts_length b)) r) as [C|C]; [right|left].
    + destruct (C51_dtw_near_symmetric k a b ratio r [] Ok C) as (c & c' & x & F1 & F2 & X1 & X2).
      assert (Eq1 : d = c) by (apply ret_inj; exact (eq_trans (eq_sym Ed) F1)). assert (Eq2 : d' = c') by (apply ret_inj; exact (eq_trans (eq_sym Ed') F2)).
      subst c c'. rewrite A3, B3 in *. eauto.
    + split.
      * destruct (dtw_no_path _ (nice_of k) a b ratio r (proj1 (ok_pre _ _ _ _ _) Ok) [] ltac:(lia)) as (_ & m' & E').
        assert (Ed3 : value (dist_call (N := B64) (dtw_name k) ratio a b (@ninf B64) []) = Ret (@ninf B64)) by (rewrite call_dtw, E'; reflexivity).
        apply ret_inj. exact (eq_trans (eq_sym Ed) Ed3).
      * destruct (dtw_no_path _ (nice_of k) b a ratio r (proj1 (ok_pre _ _ _ _ _) Ok') [] ltac:(lia)) as (_ & m' & E').
        assert (Ed3 : value (dist_call (N := B64) (dtw_name k) ratio b a (@ninf B64) []) = Ret (@ninf B64)) by (rewrite call_dtw, E'; reflexivity).
        apply ret_inj. exact (eq_trans (eq_sym Ed') Ed3).
Qed.
Print Assumptions C90_warped_ieee_partial.

(** ... and for whole numbers that are not too large all three are the same *)
Theorem C90_whole_numbers : forall (r0 : b64) h (s : api B64) e e' (k : kind) B n1 i1 b1 f1 xs zx n2 i2 b2 f2 ys zy r,
  run (N := B64) r0 h s -> stretch s n1 i1 b1 f1 xs -> stretch s n2 i2 b2 f2 ys -> whole xs zx B -> whole ys zy B ->
  let lx := Z.of_nat (length zx) in let ly := Z.of_nat (length zy) in
  (lx + ly) * largest k B <= 2 ^ 46 -> 2 <= lx <= 2 ^ 30 -> 2 <= ly <= 2 ^ 30 ->
  band (N := B64) (ratio_after (N := B64) r0 h) (Z.max lx ly) = Ret r -> Z.abs (lx - ly) <= r -> exists d d' : b64,
    exec e (CDistance n1 i1 b1 f1 n2 i2 b2 f2 (dtw_name k)) s = (s, Ret (AValue (d : D B64))) /\
    exec e' (CDistance n2 i2 b2 f2 n1 i1 b1 f1 (dtw_name k)) s = (s, Ret (AValue (d' : D B64))) /\ Beqb d d' = true.
Proof.
  intros r0 h s e e' k B n1 i1 b1 f1 xs zx n2 i2 b2 f2 ys zy r Hrun H1 H2 W1 W2 lx ly Hl Hx Hy Hb Hr.
  destruct (named_calls (N := B64) r0 h s e _ _ _ _ _ _ _ _ _ _ Hrun H1 H2) as (a & b & (A1 & B1 & A2 & B2 & A3 & B3) & D1 & _).
  destruct (named_calls (N := B64) r0 h s e' _ _ _ _ _ _ _ _ _ _ Hrun H2 H1) as (b' & a' & (B1' & A1' & B2' & A2' & B3' & A3') & D2 & _).
  pose proof (named_whole _ _ _ _ A1 A2 W1) as A. pose proof (named_whole _ _ _ _ B1 B2 W2) as A'.
  pose proof (ws_length _ _ _ A) as La. pose proof (ws_length _ _ _ A') as Lb. fold lx in La. fold ly in Lb.
  destruct (C69_symmetric k a b zx zy B (ratio_after (N := B64) r0 h) r [] [] A A') as (d & d' & E & E' & Heq); try (rewrite La, Lb); auto; try lia.
  exists d, d'. split; [|split; [|exact Heq]].
  - refine (eq_trans (D1 (dtw_name k)) _). f_equal. exact (f_equal (fun x => v <- x ;; Ret (AValue (N := B64) v)) E).
  - refine (eq_trans (D2 (dtw_name k)) _). f_equal.
    assert (Ed2 : value (dist_call (N := B64) (dtw_name k) (ratio_after (N := B64) r0 h) b' a' (@ninf B64) []) = Ret d').
    { refine (eq_trans _ E'). rewrite !call_dtw. f_equal. apply (DtwExt.warped_ext (N := B64)); split; auto; split; auto; congruence. }
    exact (f_equal (fun x => v <- x ;; Ret (AValue (N := B64) v)) Ed2).
Qed.
Print Assumptions C90_whole_numbers.

(** ** refutations: a file of eight lines, in tenths *)
Definition swap_env : env B64 :=
  mkEnv (N := B64) (fun w => match stodZ w with Parsed x => Parsed (ndiv (n := B64) x (b64_ofZ 10)) | o => o end) putZ putZ (fun _ => None)
    (fun p => if String.eqb p "f" then Some (mkFile ("10,0,11" ++ nl1 ++ "3,7,4" ++ nl1 ++ "14,6,15" ++ nl1 ++ "8,14,3" ++ nl1 ++ "10,80,80" ++ nl1 ++ "80,80,10" ++ nl1 ++ "60,20,80" ++ nl1 ++ "10,20,90") None)%string else None)
    (fun _ => true) (fun _ => None) (fun _ => false) simple_alg.
Definition swap_pair nm : Z * Z :=
  if String.eqb nm "euclidean_dtw" then (0, 1) else if String.eqb nm "manhattan_dtw" then (2, 3)
  else if String.eqb nm "cosine_dtw" then (4, 5) else (7, 6).
(** the warped distances other than the maximum distance: the request in one order returns less than in the other *)
Theorem C90_warped_refuted : forall nm, In nm ["euclidean_dtw"; "manhattan_dtw"; "cosine_dtw"; "sorensen_dtw"]%string -> exists e h (s : api B64) i j d d',
  run (N := B64) (b64_ofZ 1) h s /\ map fst h = [st_load] /\
  snd (exec e (CDistance (N := B64) "x" i (-1) (-1) "x" j (-1) (-1) nm) s) = Ret (AValue d) /\
  snd (exec e (CDistance (N := B64) "x" j (-1) (-1) "x" i (-1) (-1) nm) s) = Ret (AValue d') /\
  @nlt B64 d d'.
Proof.
  intros nm Hn.
  destruct (st_run swap_env [st_load] [] ex_start (@run_start B64 (b64_ofZ 1))) as (h & Hrun & Hh); [vm_compute; reflexivity|].
  set (s := st_after swap_env [st_load] ex_start) in *.
  assert (E : larger (snd (exec swap_env (CDistance (N := B64) "x" (fst (swap_pair nm)) (-1) (-1) "x" (snd (swap_pair nm)) (-1) (-1) nm) s))
                (snd (exec swap_env (CDistance (N := B64) "x" (snd (swap_pair nm)) (-1) (-1) "x" (fst (swap_pair nm)) (-1) (-1) nm) s)) = true).
  { destruct Hn as [<-|[<-|[<-|[<-|[]]]]]; vm_compute; reflexivity. }
  apply larger_inv in E as (d & d' & E1 & E2 & E3). exists swap_env, h, s, (fst (swap_pair nm)), (snd (swap_pair nm)), d, d'.
  split; [exact Hrun|]. split; [exact Hh|]. split; [exact E1|]. split; [exact E2|exact E3].
Qed.
Print Assumptions C90_warped_refuted.

(** the hypotheses can be met: two of the series of C75's example *)
Example C90_example : exists h (s : api B64), run (N := B64) (b64_ofZ 1) h s /\
  stretch s "x" 0 (-1) (-1) (map b64_ofZ [1; 7; 2; 4]) /\ stretch s "x" 1 (-1) (-1) (map b64_ofZ [3; 3; 8; 1]) /\
  forall nm, In nm (paired_names ++ map dtw_name [KEuclidean; KManhattan; KChebyshev]) ->
    let there := shown_distance (snd (exec (table_env turned_lines) (CDistance "x" 0 (-1) (-1) "x" 1 (-1) (-1) nm) s)) in
    let back := shown_distance (snd (exec (table_env turned_lines) (CDistance "x" 1 (-1) (-1) "x" 0 (-1) (-1) nm) s)) in
    there = back /\ there <> None.
Proof.
  destruct (table_loaded turned_lines turned_rows 4 (b64_ofZ 1)) as (h & g & Hrun & Hh & Hg & Hd);
    [vm_compute; reflexivity|vm_compute; reflexivity|repeat constructor|vm_compute; discriminate|].
  set (e := table_env turned_lines) in *. set (s := st_after e [st_load; CRatio (N := B64) (b64_ofZ 1)] ex_start) in *.
  exists h, s. split; [exact Hrun|]. split; [apply (row_stretch s g turned_rows 0 _ Hg Hd eq_refl)|].
  split; [apply (row_stretch s g turned_rows 1 _ Hg Hd eq_refl)|]. clear. intros nm Hn.
  repeat (destruct Hn as [<-|Hn]; [split; [vm_compute; reflexivity|vm_compute; discriminate]|]). destruct Hn.
Qed.
