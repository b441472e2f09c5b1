(** The project's own unit tests (/repo/test), run on the model with double precision.

    Each definition [t_...] replays the test case of the same name in the cited file, with the
    data files of the project (UnitData.v), and says whether all its checks hold; the kernel
    computes that they do.  This is a check of the model against the expectations that the
    authors of the code wrote down, not a proof of a property.

    BOOST_TEST(x == y) under tolerance(1e-9) is [close], BOOST_CHECK_THROW(e, GenexException)
    is [throws], BOOST_CHECK_EQUAL is equality.  BOOST_TEST(x, y), with a comma, which
    several tests use, only checks that x is not zero ([nonzero]); where the value behind the
    comma is right, [close] checks it here.

    Left out: the tests on datasets/test/ItalyPowerDemand_DATA (too much for the kernel), the
    ones that save and load single groups, lengths and series (only GroupableTimeSeriesSet is
    saved by the program), and time_series_check_equal and create_paa_wrapper, which check nothing. *)
From Verif Require Import Base Num NumB64 TimeSeries Lemire Distance TSSet Loader PrintDec StdAlg HeapFacts Candidate
  Group GroupSpace BruteForce TSObject Archive UnitData.
From Flocq Require Import IEEE754.BinarySingleNaN.
Local Open Scope string_scope.
Local Open Scope Z_scope.
Local Open Scope list_scope.

(** double precision *)
Notation dbl := (D B64).

(** ** the checks *)
Definition num (z : Z) : dbl := b64_ofZ z.
Definition nums (l : list Z) : list dbl := map num l.
Definition dec (s : string) : dbl := match scan_double s with Some x => x | None => B754_nan end.
Definition root (x : dbl) : dbl := nsqrt (n := B64) x.
Definition over (x : dbl) (z : Z) : dbl := ndiv (n := B64) x (num z).

Definition le (x y : dbl) : bool := nltb (n := B64) x y || neqb (n := B64) x y.
(** the tolerance of the tests, 1e-9 (EPS, genex/Config.hpp, and TOLERANCE): the relative difference to both values *)
Definition close (x y : dbl) : bool :=
  let d := nabs (n := B64) (nsub (n := B64) x y) in let tol := dec "0.000000001" in
  le d (nmul (n := B64) tol (nabs (n := B64) x)) && le d (nmul (n := B64) tol (nabs (n := B64) y)).
Definition nonzero (x : dbl) : bool := negb (neqb (n := B64) x (num 0)).
Definition is_inf (x : dbl) : bool := match x with B754_infinity _ => true | _ => false end.

Definition gives {A} (r : res A) (f : A -> bool) : bool := match r with Ret a => f a | _ => false end.
Definition throws {A} (r : res A) : bool := match r with Throw (GenexExc _) => true | _ => false end.
Definition all_close (l l' : list dbl) : bool :=
  Nat.eqb (length l) (length l') && forallb (fun p => close (fst p) (snd p)) (combine l l').
Definition same_matching (m m' : matching) : bool :=
  Nat.eqb (length m) (length m') &&
  forallb (fun p => (fst (fst p) =? fst (snd p)) && (snd (fst p) =? snd (snd p))) (combine m m').

(** ** test/distance *)
Definition ts (l : list Z) : TS B64 := ts_of_list (N := B64) (nums l).
(** TimeSeries(data, 0, 0, n): the first n values *)
Definition first_of (n : Z) (l : list Z) : TS B64 := ts_view (N := B64) (nums l) 0 0 n.
Definition inf : dbl := ninf (n := B64).
Definition pw (M : Metric B64) (a b : TS B64) : res (dbl * matching) := pairwiseDistance M a b inf [].
Definition dtw (M : Metric B64) (a b : TS B64) : res (dbl * matching) := warpedDistance M a b (num 1) inf [].
Definition value_is (r : res (dbl * matching)) (x : dbl) : bool := gives r (fun p => close (fst p) x).

Definition dat_1 := [1; 2; 3; 4; 5].
Definition dat_2 := [11; 2; 3; 4; 5].
Definition dat_3 := [2; 4].
Definition dat_4 := [2; 2; 2; 4; 4].
Definition dat_5 := [1; 2; 2; 4].
Definition dat_6 := [1; 2; 4; 5].
Definition dat_7 := [2; 2; 2; 2].
Definition dat_8 := [20; 20; 20; 15].
Definition dat_9 := [2; 2; 2; 2; 2; 2].
Definition dat_10 := [4; 3; 3; 3; 3; 3].
Definition dat_11 := [4; 3; 5; 3; 5; 3; 4].
Definition dat_12 := [4; 3; 3; 1; 1; 3; 4].
Definition dat_13 := [0; 2; 3; 5; 8; 6; 3; 2; 3; 5].
Definition dat_14 := [8; 4; 6; 1; 5; 10; 9].

(** test/distance/DistanceTest.cpp:51-65; the Euclidean value, written 2.0 in a check that
    only looks for nonzero, is the root of 100/5 *)
Definition t_general_distance : bool :=
  gives (pw Euclidean (ts dat_1) (ts dat_2)) (fun p => nonzero (fst p) && close (fst p) (root (num 20)))
  && value_is (pw Manhattan (ts dat_1) (ts dat_2)) (num 2)
  && value_is (pw Chebyshev (ts dat_1) (ts dat_2)) (num 10).
Example general_distance : t_general_distance = true. Proof. vm_compute. reflexivity. Qed.

(** test/distance/DistanceTest.cpp:67-156 *)
Definition matched (r : res (dbl * matching)) (x : dbl) (m : matching) : bool :=
  gives r (fun p => close (fst p) x && same_matching (snd p) m).
Definition t_easy_general_warped_distance : bool :=
  let a := first_of 2 dat_1 in let b := first_of 2 dat_2 in
  let m34 := [(0, 0); (0, 1); (0, 2); (1, 3); (1, 4)] in
  let m56 := [(0, 0); (1, 1); (2, 1); (3, 2); (3, 3)] in
  value_is (dtw Euclidean a b) (over (root (num 100)) 4)
  && value_is (dtw Euclidean (ts dat_3) (ts dat_4)) (num 0)
  && value_is (dtw Manhattan (ts dat_3) (ts dat_4)) (num 0)
  && value_is (dtw Chebyshev (ts dat_3) (ts dat_4)) (num 0)
  && value_is (dtw Euclidean (ts dat_5) (ts dat_6)) (over (root (num 1)) 8)
  && value_is (dtw Manhattan (ts dat_5) (ts dat_6)) (over (num 1) 8)
  && value_is (dtw Chebyshev (ts dat_5) (ts dat_6)) (num 1)
  && value_is (dtw Euclidean (ts dat_11) (ts dat_12)) (over (root (num 12)) 14)
  && value_is (dtw Manhattan (ts dat_11) (ts dat_12)) (over (num 8) 14)
  && value_is (dtw Chebyshev (ts dat_11) (ts dat_12)) (num 2)
  && matched (dtw Euclidean a b) (over (root (num 100)) 4) [(0, 0); (1, 1)]
  && matched (dtw Euclidean (ts dat_3) (ts dat_4)) (num 0) m34
  && matched (dtw Manhattan (ts dat_3) (ts dat_4)) (num 0) m34
  && matched (dtw Chebyshev (ts dat_3) (ts dat_4)) (num 0) m34
  && matched (dtw Euclidean (ts dat_5) (ts dat_6)) (over (root (num 1)) 8) m56
  && matched (dtw Manhattan (ts dat_5) (ts dat_6)) (over (root (num 1)) 8) m56
  && matched (dtw Chebyshev (ts dat_5) (ts dat_6)) (num 1) m56.
Example easy_general_warped_distance : t_easy_general_warped_distance = true. Proof. vm_compute. reflexivity. Qed.

(** test/distance/DistanceTest.cpp:158-181, with the ratio 1 that the test before has set *)
Definition t_easy_gwd_dropout : bool :=
  let cut M a b := warpedDistance (N := B64) M a b (num 1) (num 5) [] in
  value_is (cut Euclidean (ts dat_3) (ts dat_4)) (num 0)
  && value_is (cut Manhattan (ts dat_3) (ts dat_4)) (num 0)
  && value_is (cut Chebyshev (ts dat_3) (ts dat_4)) (num 0)
  && gives (cut Manhattan (ts dat_7) (ts dat_8)) (fun p => is_inf (fst p))
  && gives (cut Chebyshev (ts dat_7) (ts dat_8)) (fun p => is_inf (fst p)).
Example easy_gwd_dropout : t_easy_gwd_dropout = true. Proof. vm_compute. reflexivity. Qed.

(** test/distance/DistanceTest.cpp:183-197 *)
Definition t_gwd_different_distances : bool :=
  value_is (dtw Euclidean (ts dat_9) (ts dat_10)) (over (root (num 9)) 12)
  && value_is (dtw Manhattan (ts dat_9) (ts dat_10)) (over (num 7) 12)
  && value_is (dtw Chebyshev (ts dat_9) (ts dat_10)) (num 2).
Example gwd_different_distances : t_gwd_different_distances = true. Proof. vm_compute. reflexivity. Qed.

(** test/distance/DistanceTest.cpp:199-210 *)
Definition t_get_distance_metric : bool :=
  gives (getDistanceFromName (N := B64) "euclidean") (fun _ => true) && throws (getDistanceFromName (N := B64) "oracle").
Example get_distance_metric : t_get_distance_metric = true. Proof. vm_compute. reflexivity. Qed.

(** test/distance/DistanceTest.cpp:212-222 *)
Definition t_keogh_lower_bound : bool :=
  gives (keoghLowerBound (N := B64) (dec "0.2") (ts dat_13) (ts dat_14) (num 10)) (fun x => close x (over (root (num 31)) 20)).
Example keogh_lower_bound : t_keogh_lower_bound = true. Proof. vm_compute. reflexivity. Qed.

(** the loops of the tests of the metrics: init, reduce for every pair, norm *)
Definition total (M : Metric B64) (a b : list dbl) : dbl :=
  m_norm M (fold_left (fun t p => m_reduce M t (fst p) (snd p)) (combine a b) (m_init M)) (Z.of_nat (length a)) (Z.of_nat (length b)).

(** test/distance/EuclideanNormTest.cpp:18-34, ManhattanNormTest.cpp:18-35, ChebyshevNormTest.cpp:17-33 *)
Definition t_norms : bool :=
  close (total Euclidean (nums dat_1) (nums dat_2)) (root (over (num 100) 5))
  && close (total Manhattan (nums dat_1) (nums dat_2)) (num 2)
  && close (total Chebyshev (nums dat_1) (nums dat_2)) (num 10).
Example norms : t_norms = true. Proof. vm_compute. reflexivity. Qed.

(** test/distance/EuclideanTest.cpp:10-28, ManhattanTest.cpp:10-28, ChebyshevTest.cpp:10-28: [dist], here
    through a reduce on the initial value, and two steps of [reduce] *)
Definition one (M : Metric B64) (x y : dbl) : acc M := m_reduce M (m_init M) x y.
Definition t_dists : bool :=
  close (one Euclidean (num 100) (num 110)) (num 100)
  && close (total Euclidean (nums [4; 7]) (nums [0; 10])) (root (over (num 25) 2))
  && close (one Manhattan (num 100) (num 110)) (num 10)
  && close (total Manhattan (nums [60; 15]) (nums [10; 5])) (num 30)
  && close (one Chebyshev (num 100) (num 110)) (num 10)
  && close (total Chebyshev (nums [50; 20]) (nums [0; 10])) (num 50).
Example dists : t_dists = true. Proof. vm_compute. reflexivity. Qed.

(** test/distance/CosineTest.cpp:17-33 and SorensenTest.cpp:17-33.  The expected values 0.94 and
    0.3216 stand behind a comma and are not checked: they would fail.  (0.94 is the value for all
    ten points, the test takes five; 8.2/28.6 is not 0.3216.) *)
Definition t_cosine_sorensen : bool :=
  let c := total Cosine (nums [5; 0; 3; 0; 2]) (nums [3; 0; 2; 0; 1]) in
  let s := total Sorensen (nums [3; 1; 2; 5; 4]) [dec "3.4"; num 4; dec "1.2"; num 2; num 3] in
  nonzero c && nonzero s && negb (close c (dec "0.94")) && negb (close s (dec "0.3216"))
  && close s (ndiv (n := B64) (dec "8.2") (dec "28.6")).
Example cosine_sorensen : t_cosine_sorensen = true. Proof. vm_compute. reflexivity. Qed.

(** ** test/TimeSeriesTest.cpp, on the objects of TSObject.v *)
Definition dat : list dbl := nums [1; 2; 3; 4; 5; 6; 7].
Definition dat2 : list dbl := [num (-1); num 4; num 5; num 3; dec "1.5"; num 6; num (-5)].
Definition sums : list dbl := [num 0; num 6; num 8; num 7; dec "6.5"; num 12; num 2].

(** run operations one after the other; the outcome of the last one *)
Fixpoint ops (l : list (op B64)) (w : world B64) (last : res (out B64)) : world B64 * res (out B64) :=
  match l with
  | [] => (w, last)
  | x :: l' => let '(w', r) := TSObject.exec x w in ops l' w' r
  end.
Definition outcome_of (l : list (op B64)) : res (out B64) := snd (ops l world0 (Ret VUnit)).
Definition array (l : list dbl) : op B64 := @OBuf B64 (map Some l).
Definition at_block (b : nat) : ptr := Some (b, 0).
Definition point_is (r : res (out B64)) (x : dbl) : bool := gives r (fun v => match v with VVal y => close y x | _ => false end).

(** time_series_length:38-43, time_series_out_of_range:45-50 *)
Definition t_time_series_out_of_range : bool :=
  (ts_length (first_of 5 [1; 2; 3; 4; 5; 6; 7]) =? 5)
  && throws (outcome_of [array dat; OView (at_block 0) 0 0 5; @OAt B64 0 10]).
Example time_series_out_of_range : t_time_series_out_of_range = true. Proof. vm_compute. reflexivity. Qed.

(** time_series_modify_data:52-59 *)
Definition t_time_series_modify_data : bool :=
  point_is (outcome_of [array dat; OData (at_block 0) 2; OAt 0 0]) (num 1)
  && point_is (outcome_of [array dat; OData (at_block 0) 2; @OSet B64 0 0 (num 99); OAt 0 0]) (num 99).
Example time_series_modify_data : t_time_series_modify_data = true. Proof. vm_compute. reflexivity. Qed.

(** time_series_addition:61-71 *)
Definition t_time_series_addition : bool :=
  forallb (fun i => point_is (outcome_of [array dat; array dat2; OData (at_block 0) 7; OData (at_block 1) 7; OAdd 0 1; OAt 0 (Z.of_nat i)])
                             (nth i sums (num 0))) (seq 0 7).
Example time_series_addition : t_time_series_addition = true. Proof. vm_compute. reflexivity. Qed.

(** time_series_keogh_upper_lower:73-114.  The bands are asked for one after the other, the
    upper and the lower envelope in turn, as in the test: the envelope of the last band is cached. *)
Definition envelope_is (v : res (out B64)) (l : list dbl) : bool :=
  gives v (fun v => match v with
                    | VArr (Some cells) => all_close (map (fun c => match c with Some x => x | None => B754_nan end) cells) l
                    | _ => false
                    end).
Fixpoint envelopes (l : list (Z * (list dbl * list dbl))) (w : world B64) : bool :=
  match l with
  | [] => true
  | (band, (up, lo)) :: l' =>
      let '(w1, u) := TSObject.exec (OUpper 0 band) w in
      let '(w2, d) := TSObject.exec (OLower 0 band) w1 in
      envelope_is u up && envelope_is d lo && envelopes l' w2
  end.
Definition d15 : dbl := dec "1.5".
Definition t_keogh_upper_lower : bool :=
  let z := num in
  envelopes [(1, (nums [4; 5; 5; 5; 6; 6; 6], [z (-1); z (-1); z 3; d15; d15; z (-5); z (-5)]));
             (2, (nums [5; 5; 5; 6; 6; 6; 6], [z (-1); z (-1); z (-1); d15; z (-5); z (-5); z (-5)]));
             (3, (nums [5; 5; 6; 6; 6; 6; 6], nums [-1; -1; -1; -5; -5; -5; -5]));
             (4, (nums [5; 6; 6; 6; 6; 6; 6], nums [-1; -1; -5; -5; -5; -5; -5]));
             (6, (nums [6; 6; 6; 6; 6; 6; 6], nums [-5; -5; -5; -5; -5; -5; -5]))]
            (fst (ops [array dat2; OData (at_block 0) 7] world0 (Ret VUnit)))
  && envelopes [(2, (nums [3; 5; 8; 8; 8; 8; 8; 6; 5; 5], nums [0; 0; 0; 2; 3; 2; 2; 2; 2; 2]))]
               (fst (ops [array (nums dat_13); OData (at_block 0) 10] world0 (Ret VUnit))).
Example keogh_upper_lower : t_keogh_upper_lower = true. Proof. vm_compute. reflexivity. Qed.
