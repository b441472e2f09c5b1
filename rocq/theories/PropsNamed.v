(** Property C55: distances and matchings of series given by the name of their data set.
    Specifications: NamedSpec.v, DtwSpec.v (warping paths), DtwReal.v and Pairwise.v
    (textbook costs over the reals). *)
From Coq Require Import String Reals Lra Lia ZArith.
From Flocq Require Import Core BinarySingleNaN.
From Verif Require Import Base Num NumB64 NumLaws NumXR LoopFacts TimeSeries TSSet Distance DtwSpec DtwPaths DtwReal Pairwise DistSpec DistLink GroupSpace
  DataSpec DataProofs Api ApiSpec ApiProofs NamedSpec PropsDistance PropsAccuracy PropsApi.
Local Open Scope Z_scope.
Local Open Scope list_scope.

(** ** the band ratio *)
Lemma on_set_ratio {N : Num} (s : api N) n f s' r : on_set s n f = (s', r) -> a_ratio s' = a_ratio s.
Proof.
  unfold on_set. destruct (find_id s n) as [id| | |]; try (intros [= <- _]; reflexivity).
  destruct (deref_set s id) as [g| | |]; try (intros [= <- _]; reflexivity). destruct (f g). intros [= <- _]. reflexivity.
Qed.
Lemma search_ratio {N : Num} (s : api N) n q f s' r : search_groups s n q f = (s', r) -> a_ratio s' = a_ratio s.
Proof. unfold search_groups. destruct q; try (intros [= <- _]; reflexivity). apply on_set_ratio. Qed.
Lemma step_ratio {N : Num} (e : env N) c s s' r : exec e c s = (s', r) -> a_ratio s' = match c with CRatio x => x | _ => a_ratio s end.
Proof.
  destruct c; cbn [exec]; try (unfold pure; intros [= <- _]; reflexivity); try apply on_set_ratio; try apply search_ratio.
  all: repeat match goal with |- context [match ?x with _ => _ end = _] => destruct x end; unfold pure; try (intros [= <- _]; reflexivity).
Qed.
Lemma run_ratio {N : Num} (r0 : D N) h s : run r0 h s -> a_ratio s = ratio_after r0 h.
Proof.
  induction 1 as [|h s e c s' r Hrun IH E Hr]; [reflexivity|]. unfold ratio_after in *. rewrite fold_left_app. cbn [fold_left].
  rewrite (step_ratio e c s s' r E), IH. destruct c; try reflexivity. cbn [exec] in E. injection E as _ <-. reflexivity.
Qed.

(** ** the two series *)
Lemma stretch_get {N : Num} (s : api N) n i st en xs : good s -> stretch s n i st en xs ->
  exists id g t, find_id s n = Ret id /\ deref_set s id = Ret g /\ getTimeSeries (gt_data g) i st en = Ret t /\ ts_ok t /\ ts_points t = xs /\
    ts_length t = Z.of_nat (length xs).
Proof.
  intros G (g & rows & row & Hh & Hd & Hr & Hx).
  destruct (find_alive s n G) as [(id & g' & _ & _ & _ & Hf & Hde & _ & Hh')|(_ & _ & _ & Hh')]; rewrite Hh in Hh'; [injection Hh' as <-|discriminate].
  assert (X : exists t, getTimeSeries (gt_data g) i st en = Ret t /\ ts_ok t /\ ts_points t = xs).
  { destruct Hx as [(H1 & H2 & ->)|(H1 & H2 & ->)].
    - destruct (getTimeSeries_whole _ _ _ _ _ _ Hd Hr H1 H2) as (t & E & P & O & _). eauto.
    - destruct (getTimeSeries_ok _ _ _ _ _ _ Hd Hr H1 H2) as (t & E & P & O & _). eauto. }
  destruct X as (t & E & O & P). exists id, g, t. splits; auto. rewrite <- P. symmetry. apply ts_points_length. exact O.
Qed.

Lemma two_get {N : Num} (s : api N) n1 i1 s1 e1 xs n2 i2 s2 e2 ys : good s ->
  stretch s n1 i1 s1 e1 xs -> stretch s n2 i2 s2 e2 ys ->
  exists a b, two_series s n1 i1 s1 e1 n2 i2 s2 e2 = Ret (a, b) /\ ts_ok a /\ ts_ok b /\ ts_points a = xs /\ ts_points b = ys /\
    ts_length a = Z.of_nat (length xs) /\ ts_length b = Z.of_nat (length ys).
Proof.
  intros G H1 H2. destruct (stretch_get s _ _ _ _ _ G H1) as (id1 & g1 & a & A1 & A2 & A3 & A4 & A5 & A6).
  destruct (stretch_get s _ _ _ _ _ G H2) as (id2 & g2 & b & B1 & B2 & B3 & B4 & B5 & B6).
  exists a, b. split; [|auto 7]. unfold two_series. rewrite A1. cbn. rewrite B1. cbn. rewrite A2. cbn. rewrite A3. cbn. rewrite B2. cbn. rewrite B3. reflexivity.
Qed.

(** what the two calls do *)
Lemma named_calls {N : Num} (r0 : D N) h (s : api N) e n1 i1 s1 e1 xs n2 i2 s2 e2 ys : run r0 h s ->
  stretch s n1 i1 s1 e1 xs -> stretch s n2 i2 s2 e2 ys ->
  exists a b, (ts_ok a /\ ts_ok b /\ ts_points a = xs /\ ts_points b = ys /\
    ts_length a = Z.of_nat (length xs) /\ ts_length b = Z.of_nat (length ys)) /\
    (forall nm, exec e (CDistance n1 i1 s1 e1 n2 i2 s2 e2 nm) s =
       (s, v <- value (dist_call nm (ratio_after r0 h) a b ninf []) ;; Ret (AValue v))) /\
    (forall nm, exec e (CMatching n1 i1 s1 e1 n2 i2 s2 e2 nm) s =
       (s, ok <- ends_in_dtw nm ;;
           if negb ok then Throw (GenexExc "Can only compute matchings using _dtw distances")
           else '(_, m) <- dist_call nm (ratio_after r0 h) a b ninf [] ;; Ret (AMatching m))).
Proof.
  intros Hrun H1 H2. destruct (two_get s _ _ _ _ _ _ _ _ _ _ (run_good _ _ _ Hrun) H1 H2) as (a & b & E & Hab).
  exists a, b. split; [exact Hab|]. rewrite <- (run_ratio r0 h s Hrun). split; intros nm; cbn [exec]; unfold pure; rewrite E; cbn.
  - f_equal. unfold dist_call. destruct (getDistanceFromName nm) as [f| | |]; cbn; [|reflexivity..].
    destruct (f (a_ratio s) a b ninf []) as [[v m]| | |]; reflexivity.
  - f_equal. destruct (ends_in_dtw nm) as [[]| | |]; cbn; [|reflexivity..]. unfold dist_call. destruct (getDistanceFromName nm) as [f| | |]; cbn; [|reflexivity..].
    destruct (f (a_ratio s) a b ninf []) as [[v m]| | |]; reflexivity.
Qed.

Lemma kind_dtw k : ends_in_dtw (dtw_name k) = Ret true.
Proof. destruct k; reflexivity. Qed.

(** ** exact arithmetic *)
Theorem C55_distance_exact : forall (r0 : D XR) h (s : api XR) e (k : kind) n1 i1 s1 e1 (xs : list R) n2 i2 s2 e2 (ys : list R),
  run r0 h s -> stretch s n1 i1 s1 e1 (map Fin xs) -> stretch s n2 i2 s2 e2 (map Fin ys) ->
  (length xs = length ys -> xs <> [] -> Z.of_nat (length xs) <= 2 ^ 30 ->
     exec e (CDistance n1 i1 s1 e1 n2 i2 s2 e2 (kind_name k)) s = (s, Ret (AValue (Fin (real_pair k xs ys) : D XR)))) /\
  (forall ratio, ratio_after r0 h = Fin ratio -> (0 <= ratio)%R -> 2 <= Rlen xs <= 2 ^ 30 -> 2 <= Rlen ys <= 2 ^ 30 ->
     (IZR (Z.max (Rlen xs) (Rlen ys)) * ratio <= IZR int_max)%R ->
     let r := band_width ratio (Z.max (Rlen xs) (Rlen ys)) in
     (Z.abs (Rlen xs - Rlen ys) <= r -> exists p,
        warping_path (Rlen xs) (Rlen ys) p /\ in_band r p /\
        (forall q, warping_path (Rlen xs) (Rlen ys) q -> in_band r q -> (real_cost k xs ys p <= real_cost k xs ys q)%R) /\
        exec e (CDistance n1 i1 s1 e1 n2 i2 s2 e2 (dtw_name k)) s = (s, Ret (AValue (Fin (real_cost k xs ys p) : D XR)))) /\
     (r < Z.abs (Rlen xs - Rlen ys) ->
        exec e (CDistance n1 i1 s1 e1 n2 i2 s2 e2 (dtw_name k)) s = (s, Ret (AValue (PInf : D XR)))) /\
     (r = Z.max (Rlen xs) (Rlen ys) - 1 -> exists p,
        exec e (CMatching n1 i1 s1 e1 n2 i2 s2 e2 (dtw_name k)) s = (s, Ret (AMatching p)) /\
        warping_path (Rlen xs) (Rlen ys) p /\
        (forall q, warping_path (Rlen xs) (Rlen ys) q -> (real_cost k xs ys p <= real_cost k xs ys q)%R))).
Proof.
  intros r0 h s e k n1 i1 s1 e1 xs n2 i2 s2 e2 ys Hrun H1 H2.
  destruct (named_calls r0 h s e _ _ _ _ _ _ _ _ _ _ Hrun H1 H2) as (a & b & (A1 & B1 & A2 & B2 & _) & ED & EM).
  assert (Sa : is_series a xs) by (split; assumption). assert (Sb : is_series b ys) by (split; assumption).
  split.
  - intros Hl Hne Hm. rewrite ED. rewrite (C05_pairwise_textbook k a b xs ys _ [] Sa Sb Hl Hne Hm). reflexivity.
  - intros ratio Er Hq Hx Hy Hb r. rewrite Er in ED, EM.
    destruct (C01_dtw_is_the_optimum k a b xs ys ratio [] Sa Sb Hx Hy Hq Hb) as [C1 C2].
    split; [|split].
    + intros Hab. destruct (C1 Hab) as (p & P1 & P2 & P3 & E). exists p. splits; auto. rewrite ED. f_equal. exact (f_equal (fun x => v <- x ;; Ret (AValue v)) E).
    + intros Hab. destruct (C2 Hab) as [_ E]. rewrite ED. f_equal. exact (f_equal (fun x => v <- x ;; Ret (AValue v)) E).
    + intros Hr. destruct (C11_matching_legal_and_optimal k a b xs ys ratio Sa Sb Hx Hy Hq Hb Hr) as (p & E & P1 & P2).
      exists p. splits; auto. rewrite EM, kind_dtw. cbn. f_equal. exact (f_equal (fun x => '(_, m) <- x ;; Ret (AMatching m)) E).
Qed.
Print Assumptions C55_distance_exact.

(** ** doubles: the same up to the rounding errors of C51 *)
Theorem C55_distance_ieee : forall (r0 : b64) h (s : api B64) e (k : kind) n1 i1 s1 e1 (xs : list (D B64)) n2 i2 s2 e2 (ys : list (D B64)),
  run (N := B64) r0 h s -> stretch s n1 i1 s1 e1 xs -> stretch s n2 i2 s2 e2 ys ->
  Forall (fun x => @nle B64 (nabs (n := B64) x) (b64_ofZ (2 ^ 490))) xs ->
  Forall (fun x => @nle B64 (nabs (n := B64) x) (b64_ofZ (2 ^ 490))) ys ->
  let lx := Z.of_nat (length xs) in let ly := Z.of_nat (length ys) in
  let X := map (fun x : b64 => B2R x) xs in let Y := map (fun x : b64 => B2R x) ys in
  (lx = ly -> 1 <= lx <= 2 ^ 30 -> exists d : b64,
     exec e (CDistance n1 i1 s1 e1 n2 i2 s2 e2 (kind_name k)) s = (s, Ret (AValue (d : D B64))) /\
     agrees lx d (real_pair k X Y)) /\
  (forall r, 2 <= lx <= 2 ^ 30 -> 2 <= ly <= 2 ^ 30 -> band (N := B64) (ratio_after (N := B64) r0 h) (Z.max lx ly) = Ret r -> 0 <= r ->
     (Z.abs (lx - ly) <= r -> exists p (d : b64),
        warping_path lx ly p /\ in_band r p /\
        (forall q, warping_path lx ly q -> in_band r q -> (real_cost k X Y p <= real_cost k X Y q)%R) /\
        exec e (CDistance n1 i1 s1 e1 n2 i2 s2 e2 (dtw_name k)) s = (s, Ret (AValue (d : D B64))) /\
        agrees (lx + ly) d (real_cost k X Y p)) /\
     (exists m, exec e (CMatching n1 i1 s1 e1 n2 i2 s2 e2 (dtw_name k)) s = (s, Ret (AMatching m)) /\ warping_path lx ly m)).
Proof.
  intros r0 h s e k n1 i1 s1 e1 xs n2 i2 s2 e2 ys Hrun H1 H2 Mx My lx ly X Y.
  destruct (named_calls (N := B64) r0 h s e _ _ _ _ _ _ _ _ _ _ Hrun H1 H2) as (a & b & (A1 & B1 & A2 & B2 & A3 & B3) & ED & EM).
  assert (EX : exact_points a = X) by (exact (f_equal (map (fun x : b64 => B2R x)) A2)).
  assert (EY : exact_points b = Y) by (exact (f_equal (map (fun x : b64 => B2R x)) B2)).
  assert (Sa : small_points a) by (unfold small_points; rewrite A2; exact Mx).
  assert (Sb : small_points b) by (unfold small_points; rewrite B2; exact My).
  assert (La : ts_length a = lx) by exact A3. assert (Lb : ts_length b = ly) by exact B3.
  assert (V : forall nm (d : b64), value (dist_call (N := B64) nm (ratio_after (N := B64) r0 h) a b pinf []) = Ret d ->
     exec e (CDistance n1 i1 s1 e1 n2 i2 s2 e2 nm) s = (s, Ret (AValue (d : D B64)))).
  { intros nm d E. rewrite ED. f_equal. exact (f_equal (fun x => v <- x ;; Ret (AValue (N := B64) v)) E). }
  clear ED. split.
  - intros Hl Hm. destruct (C51_pairwise_near_exact_moderate k a b [] A1 B1) as (d & E & Ag); auto.
    + congruence.
    + rewrite La. exact Hm.
    + exists d. split; [|rewrite <- EX, <- EY, <- La; exact Ag]. apply V. refine (eq_trans _ E). f_equal. rewrite !call_pw. reflexivity.
  - intros r Hx Hy Hb Hr. assert (Ok : ieee_ok k a b (ratio_after (N := B64) r0 h : b64) r).
    { apply C02_no_overflow_for_moderate_data; auto; rewrite ?La, ?Lb; auto. }
    split.
    + intros Hab. destruct (C51_dtw_near_optimum k a b _ r [] Ok) as (p & d & P1 & P2 & P3 & E & Ag); [rewrite La, Lb; exact Hab|].
      rewrite La, Lb, EX, EY in *. exists p, d. split; [exact P1|]. split; [exact P2|]. split; [exact P3|]. split; [exact (V _ d E)|exact Ag].
    + destruct (C06_dtw_nonnegative_ieee k a b _ r pinf [] Ok eq_refl) as (d & E & _).
      destruct (dist_call (N := B64) (dtw_name k) (ratio_after (N := B64) r0 h) a b pinf []) as [[d' m]| | |] eqn:Ec; try discriminate E.
      exists m. split.
      * rewrite EM, kind_dtw. cbn. f_equal. exact (f_equal (fun x => '(_, m) <- x ;; Ret (AMatching (N := B64) m)) Ec).
      * rewrite <- La, <- Lb. exact (C11_matching_legal_ieee k a b _ r pinf d' m Ok eq_refl Ec).
Qed.
Print Assumptions C55_distance_ieee.

(** ** errors *)

(** Series of different lengths have no point-to-point distance, stretches that are not there, unknown
    distances and matchings without warping: the exception of the library, and nothing
    changes. *)
Theorem C55_errors : forall (N : Num) (r0 : D N) h (s : api N) e n1 i1 s1 e1 n2 i2 s2 e2 nm, run r0 h s ->
  let throws c := exists m, exec e c s = (s, Throw (GenexExc m)) in
  (no_stretch s n1 i1 s1 e1 /\ in_use h n2 = true \/ no_stretch s n2 i2 s2 e2 /\ (exists xs, stretch s n1 i1 s1 e1 xs) ->
     throws (CDistance n1 i1 s1 e1 n2 i2 s2 e2 nm) /\ throws (CMatching n1 i1 s1 e1 n2 i2 s2 e2 nm)) /\
  (forall xs ys, stretch s n1 i1 s1 e1 xs -> stretch s n2 i2 s2 e2 ys ->
     (length xs <> length ys -> forall k, throws (CDistance n1 i1 s1 e1 n2 i2 s2 e2 (kind_name k))) /\
     (~ In nm documented_names -> throws (CDistance n1 i1 s1 e1 n2 i2 s2 e2 nm)) /\
     ((3 <= String.length nm)%nat -> ~ In nm documented_names -> throws (CMatching n1 i1 s1 e1 n2 i2 s2 e2 nm)) /\
     (forall k, throws (CMatching n1 i1 s1 e1 n2 i2 s2 e2 (kind_name k)))).
Proof.
  intros N r0 h s e n1 i1 s1 e1 n2 i2 s2 e2 nm Hrun throws. pose proof (run_good _ _ _ Hrun) as G.
  assert (NG : forall n i st en, no_stretch s n i st en -> exists id g m, find_id s n = Ret id /\ deref_set s id = Ret g /\
     getTimeSeries (gt_data g) i st en = Throw (GenexExc m)).
  { intros n i st en (g & rows & Hh & Hd & Hx). destruct (find_alive s n G) as [(id & g' & _ & _ & _ & Hf & Hde & _ & Hh')|(_ & _ & _ & Hh')];
      rewrite Hh in Hh'; [injection Hh' as <-|discriminate].
    destruct (getTimeSeries_bad _ rows i st en Hd Hx) as (m & E). exists id, g, m. auto. }
  split.
  - intros H. assert (E : exists m, two_series s n1 i1 s1 e1 n2 i2 s2 e2 = Throw (GenexExc m)).
    { destruct H as [[Hn Hu]|[Hn [xs Hs]]].
      - destruct (NG _ _ _ _ Hn) as (id & g & m & E1 & E2 & E3). apply (run_in_use r0 h s Hrun n2) in Hu.
        destruct (find_alive s n2 G) as [(id' & g' & _ & _ & _ & Hf & _)|(_ & _ & _ & Hh')]; [|contradiction].
        exists m. unfold two_series. rewrite E1. cbn. rewrite Hf. cbn. rewrite E2. cbn. rewrite E3. reflexivity.
      - destruct (NG _ _ _ _ Hn) as (id & g & m & E1 & E2 & E3). destruct (stretch_get s _ _ _ _ _ G Hs) as (id1 & g1 & a & A1 & A2 & A3 & _).
        exists m. unfold two_series. rewrite A1. cbn. rewrite E1. cbn. rewrite A2. cbn. rewrite A3. cbn. rewrite E2. cbn. rewrite E3. reflexivity. }
    destruct E as [m E]. split; exists m; cbn [exec]; unfold pure; rewrite E; reflexivity.
  - intros xs ys H1 H2. destruct (named_calls r0 h s e _ _ _ _ _ _ _ _ _ _ Hrun H1 H2) as (a & b & (A1 & B1 & A2 & B2 & A3 & B3) & ED & EM).
    assert (U : ~ In nm documented_names -> exists m, getDistanceFromName (N := N) nm = Throw (GenexExc m)).
    { intros Hn. unfold getDistanceFromName. destruct (assoc nm allDistances) as [f|] eqn:Ea; [|eauto]. exfalso. apply Hn.
      clear -Ea. unfold allDistances in Ea. simpl in Ea. unfold documented_names.
      repeat match type of Ea with context [String.eqb nm ?k] => destruct (String.eqb_spec nm k) as [->|?]; [simpl; tauto|] end. discriminate. }
    split; [|split; [|split]].
    + intros Hl k. unfold throws. rewrite ED.
      assert (E : exists m, dist_call (kind_name k) (ratio_after r0 h) a b ninf [] = Throw (GenexExc m)).
      { rewrite call_pw. apply pw_mismatch. rewrite A3, B3. intros E. apply Hl. apply Nat2Z.inj. exact E. }
      destruct E as [m ->]. exists m. reflexivity.
    + intros Hn. destruct (U Hn) as [m E]. exists m. rewrite ED. unfold dist_call. rewrite E. reflexivity.
    + intros Hlen Hn. destruct (U Hn) as [m E]. unfold throws. rewrite EM. unfold ends_in_dtw.
      destruct (Nat.ltb_spec (String.length nm) 3); [lia|]. cbn. destruct (String.eqb _ _); cbn; [|eauto].
      unfold dist_call. rewrite E. cbn. eauto.
    + intros k. unfold throws. rewrite EM. destruct k; cbn; eauto.
Qed.
Print Assumptions C55_errors.

(** For a name of less than three characters the matching raises std::out_of_range, not
    the exception of the library. *)
Theorem C55_short_name_refuted : forall (N : Num) (r0 : D N) h (s : api N) e n1 i1 s1 e1 n2 i2 s2 e2 nm xs ys, run r0 h s ->
  stretch s n1 i1 s1 e1 xs -> stretch s n2 i2 s2 e2 ys -> (String.length nm < 3)%nat ->
  exec e (CMatching n1 i1 s1 e1 n2 i2 s2 e2 nm) s = (s, Throw (StdExc "basic_string::substr")).
Proof.
  intros N r0 h s e n1 i1 s1 e1 n2 i2 s2 e2 nm xs ys Hrun H1 H2 Hl.
  destruct (named_calls r0 h s e _ _ _ _ _ _ _ _ _ _ Hrun H1 H2) as (a & b & _ & _ & EM). rewrite EM. unfold ends_in_dtw.
  destruct (Nat.ltb_spec (String.length nm) 3); [reflexivity|lia].
Qed.
Print Assumptions C55_short_name_refuted.

(** ** Examples *)
Lemma ex_stretch i row : row_of ex_rows i = Some row -> stretch ex_s1 "x" i (-1) (-1) row.
Proof. intros H. destruct ex_held as (d & Hh & Hd & _). exists (mkGS d None), ex_rows, row. split; [exact Hh|]. split; [exact Hd|]. split; [exact H|]. left. lia || auto with zarith. Qed.

Example C55_example_stretches :
  stretch ex_s1 "x" 0 (-1) (-1) (map b64_ofZ [1; 2]) /\ stretch ex_s1 "x" 2 1 2 (map b64_ofZ [6]).
Proof.
  split; [apply ex_stretch; reflexivity|]. destruct ex_held as (d & Hh & Hd & _). exists (mkGS d None), ex_rows, (map b64_ofZ [5; 6]).
  split; [exact Hh|]. split; [exact Hd|]. split; [reflexivity|]. right. split; [lia|]. split; [vm_compute; discriminate|reflexivity].
Qed.

Definition shown_distance (r : res (answer B64)) : option SpecFloat.spec_float := match r with Ret (AValue x) => Some (B2SF (x : b64)) | _ => None end.
Definition shown_matching (r : res (answer B64)) : option (list (Z * Z)) := match r with Ret (AMatching m) => Some m | _ => None end.
Example C55_example :
  shown_distance (snd (exec ex_env (CDistance "x" 0 (-1) (-1) "x" 1 (-1) (-1) "manhattan") ex_s1)) = Some (B2SF (b64_ofZ 2)) /\
  shown_distance (snd (exec ex_env (CDistance "x" 0 0 1 "x" 2 1 2 "euclidean") ex_s1)) = Some (B2SF (b64_ofZ 5)) /\
  shown_matching (snd (exec ex_env (CMatching "x" 0 (-1) (-1) "x" 1 (-1) (-1) "manhattan_dtw") ex_s1)) = Some [(0, 0); (1, 1)] /\
  after ex_s1 (CDistance "x" 0 0 1 "x" 2 0 2 "euclidean") <> Done /\
  after ex_s1 (CDistance "x" 0 0 1 "x" 3 (-1) (-1) "euclidean") <> Done /\
  after ex_s1 (CMatching "x" 0 0 2 "x" 2 0 2 "euclidean") = Raised "Can only compute matchings using _dtw distances" /\
  after ex_s1 (CMatching "x" 0 0 2 "x" 2 0 2 "no") = Raised "basic_string::substr".
Proof. vm_compute. repeat split; discriminate. Qed.

(** The list of distances the interface gives names each documented one once, in
    every state, and changes nothing. *)
Theorem C15_listed_names : forall (N : Num) (s : api N) e, exists l, exec e CAllDistances s = (s, Ret (ADistances l)) /\
  NoDup l /\ forall nm, In nm l <-> In nm documented_names.
Proof.
  intros N s e. eexists. split; [reflexivity|]. split.
  - cbn. repeat constructor; simpl; intuition discriminate.
  - intros nm. cbn. unfold documented_names. simpl. tauto.
Qed.
Print Assumptions C15_listed_names.
