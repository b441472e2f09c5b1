(** The unit tests of data sets and groups (/repo/test/TimeSeriesSetTest.cpp and /repo/test/group):
    see UnitTests.v.  The longer computations are done with Succeed, which checks a definition and
    does not keep it. *)
From Verif Require Import Base Num NumB64 TimeSeries Distance TSSet Loader PrintDec StdAlg HeapFacts Candidate
  Group GroupSpace BruteForce Archive UnitData UnitTests.
From Flocq Require Import IEEE754.BinarySingleNaN.
Require Import Coq.Strings.Ascii.
Local Open Scope string_scope.
Local Open Scope Z_scope.
Local Open Scope list_scope.

(** std::stod skips leading blanks, which the comma separated files have *)
Fixpoint skip_blanks (s : string) : string :=
  match s with String " "%char s' => skip_blanks s' | _ => s end.
Definition stod_ (s : string) : parsed dbl := stod_double (skip_blanks s).

Definition dir (f : string) : string := ("datasets/test/" ++ f)%string.
Definition load_ (f : string) (rows col : Z) (seps : string) (named : bool) : dataset B64 * res unit :=
  loadData (N := B64) stod_ test_files ds_new (dir f) rows col seps named.
(** the data set after a successful load *)
Definition set_of (f : string) (rows col : Z) (seps : string) (named : bool) : res (dataset B64) :=
  let '(d, r) := load_ f rows col seps named in _ <- r ;; Ret d.
Definition loaded (f : string) : res (dataset B64) := set_of f 0 0 " " false.

Definition series (d : dataset B64) (i : Z) : res (TS B64) := getTimeSeries d i (-1) (-1).
Definition point (r : res (TS B64)) (i : Z) (x : dbl) : bool := gives r (fun t => gives (ts_get t i) (fun y => close y x)).
Definition last_point (r : res (TS B64)) (x : dbl) : bool := gives r (fun t => gives (ts_get t (ts_length t - 1)) (fun y => close y x)).
Definition name_is (d : dataset B64) (i : Z) (s : string) : bool := gives (getTimeSeriesName d i) (String.eqb s).

(** ** test/TimeSeriesSetTest.cpp *)

(** time_series_set_load_space:32-48, _load_comma:50-62, _load_file_not_exist:64-68 *)
Definition t_set_load : bool :=
  gives (set_of "test_10_20_space.txt" 20 0 " " false) (fun d =>
    (ds_count d =? 10) && String.eqb (ds_path d) (dir "test_10_20_space.txt")
    && point (series d 0) 0 (dec "3.029296875") && last_point (series d 0) (dec "2.537109375")
    && point (series d 9) 0 (dec "1.089843750") && last_point (series d 9) (dec "0.002822876"))
  && gives (set_of "test_15_20_comma.csv" 20 0 "," false) (fun d =>
    (ds_count d =? 15) && String.eqb (ds_path d) (dir "test_15_20_comma.csv")
    && point (series d 0) 0 (dec "4.122284712") && last_point (series d 0) (dec "2.684802835"))
  && throws (loaded "unicorn_santa_magic_halting_problem_solution").
Succeed Definition set_load : t_set_load = true := eq_refl true <: t_set_load = true.

(** time_series_set_load_uneven_rows:70-85, _load_text_only:87-91, _load_very_big_value:93-97, _load_all:99-107 *)
Definition t_set_load_more : bool :=
  gives (set_of "test_3_uneven_space.txt" 20 0 " " false) (fun d =>
    (ds_count d =? 3) && String.eqb (ds_path d) (dir "test_3_uneven_space.txt")
    && point (series d 0) 0 (num 1) && last_point (series d 0) (num 8)
    && point (series d 2) 0 (num 11) && last_point (series d 2) (num 10))
  && throws (set_of "test_text_only.txt" 10 0 " " false)
  && throws (set_of "very_big_value.txt" 0 0 " " false)
  && gives (set_of "test_15_20_comma.csv" (-1) 0 "," false) (fun d => ds_count d =? 15).
Succeed Definition set_load_more : t_set_load_more = true := eq_refl true <: t_set_load_more = true.

(** time_series_set_get_sub_time_series:109-119, _uneven_get_sub_time_series:121-131, _get_invalid_sub_time_series:133-144 *)
Definition t_set_sub : bool :=
  gives (set_of "test_10_20_space.txt" 20 0 " " false) (fun d =>
    let t := getTimeSeries d 0 5 10 in
    gives t (fun t => (ts_length t =? 5) && throws (ts_get t 5))
    && point t 0 (dec "2.656250000") && point t 4 (dec "3.822265625")
    && throws (series d 100) && throws (series d (-2)) && throws (getTimeSeries d 0 (-1) 10)
    && throws (getTimeSeries d 0 0 100) && throws (getTimeSeries d 0 11 10) && throws (getTimeSeries d 0 10 10))
  && gives (set_of "test_3_uneven_space.txt" 20 0 " " false) (fun d =>
    let t := getTimeSeries d 0 3 7 in
    gives t (fun t => (ts_length t =? 4) && throws (ts_get t 4)) && point t 0 (num 4) && point t 3 (num 7)).
Example set_sub : t_set_sub = true. Proof. vm_compute. reflexivity. Qed.

(** time_series_set_load_omit_rows_and_columns:146-162 *)
Definition t_set_omit : bool :=
  gives (set_of "test_10_20_space.txt" 5 5 " " false) (fun d =>
    (ds_count d =? 5)
    && point (series d 0) 0 (dec "2.656250000") && last_point (series d 0) (dec "2.537109375")
    && point (series d 1) 0 (dec "2.267578125") && last_point (series d 1) (dec "0.352783203")).
Example set_omit : t_set_omit = true. Proof. vm_compute. reflexivity. Qed.

(** normalize:164-177, normalize_2:179-198, normalize_exception:200-204 *)
Definition row_is (d : dataset B64) (i : Z) (l : list dbl) : bool := gives (series d i) (fun t => all_close (ts_points t) l).
Definition t_normalize : bool :=
  gives (d <- set_of "test_5_10_space.txt" 10 0 " " false ;; normalize d) (fun r => let '(d, (lo, hi)) := r in
    close lo (num 1) && close hi (num 11) && row_is d 0 (map (fun i => over (num i) 10) [0; 1; 2; 3; 4; 5; 6; 7; 8; 9]))
  && gives (d <- set_of "test_3_11_space.txt" 11 0 " " false ;; normalize d) (fun r => let '(d, (lo, hi)) := r in
    close lo (num 1) && close hi (num 21)
    && row_is d 0 (map (fun i => over (num i) 20) [0; 1; 2; 3; 4; 5; 6; 7; 8; 9; 10])
    && row_is d 2 (map (fun i => over (num (i + 10)) 20) [0; 1; 2; 3; 4; 5; 6; 7; 8; 9; 10]))
  && throws (normalize (N := B64) ds_new).
Example normalize_ : t_normalize = true. Proof. vm_compute. reflexivity. Qed.

(** basic_k_exhaustive:206-212, with the ratio 0.1 a program starts with *)
Definition ratio0 : dbl := dec "0.1".
Definition dist_zero (r : res (list (cand B64))) : bool := gives r (fun l => match l with c :: _ => close (c_dist c) (num 0) | [] => false end).
Definition t_basic_k_exhaustive : bool :=
  dist_zero (d <- set_of "test_3_10_space.txt" 20 0 " " false ;; q <- series d 0 ;;
             getKBestMatchesBruteForce simple_alg ratio0 d q 1 "euclidean").
Succeed Definition basic_k_exhaustive : t_basic_k_exhaustive = true := eq_refl true <: t_basic_k_exhaustive = true.

(** read_time_series_name:214-244: one data set that is loaded three times *)
Definition t_read_time_series_name : bool :=
  let '(d1, r1) := load_ "test_5_10_space.txt" (-1) 0 " " false in
  let again d f col seps := loadData (N := B64) stod_ test_files d (dir f) (-1) col seps true in
  let '(d2, r2) := again d1 "test_5_10_space_with_names.txt" 1 " " in
  let '(d3, r3) := again d2 "test_5_10_comma_with_names.txt" 0 "," in
  gives r1 (fun _ => true) && gives r2 (fun _ => true) && gives r3 (fun _ => true)
  && name_is d1 0 "0" && name_is d1 1 "1" && name_is d1 2 "2" && name_is d1 3 "3" && name_is d1 4 "4"
  && name_is d2 0 "alice" && name_is d2 1 "bob" && name_is d2 2 "charles" && name_is d2 3 "david" && name_is d2 4 "emma"
  && name_is d3 0 "alice alice" && name_is d3 1 "bob bob" && name_is d3 2 "charles charles" && name_is d3 3 "david david"
  && name_is d3 4 "emma emma"
  && point (series d3 2) 0 (num 2) && point (series d3 2) 1 (num 3) && point (series d3 2) 2 (num 4).
Succeed Definition read_time_series_name : t_read_time_series_name = true := eq_refl true <: t_read_time_series_name = true.

(** ** test/group/GroupsTest.cpp *)

(** basic_groups:34-75.  The member map of the test has more entries than the group uses. *)
Definition t_basic_groups : bool :=
  gives (d <- set_of "test_5_10_space.txt" 5 0 " " false ;;
         let g0 := group_new (N := B64) 5 in
         c0 <- cent_ts d 5 (g_cent g0) ;;
         '(g1, mm1) <- addMember 6 g0 (repeat (0, 0) 50) 0 0 ;;
         g1 <- setCentroid d 5 g1 0 0 ;;
         c1 <- cent_ts d 5 (g_cent g1) ;;
         '(g2, _) <- addMember 6 g1 mm1 1 0 ;;
         Ret (d, c0, g1, c1, g2))
    (fun r => let '(d, c0, g1, c1, g2) := r in
       (ds_maxcol d =? 10) && (ds_count d =? 5)
       && all_close (ts_points c0) (nums [0; 0; 0; 0; 0])
       && (g_count g1 =? 1) && all_close (ts_points c1) (nums [1; 2; 3; 4; 5]) && (g_count g2 =? 2)).
Example basic_groups : t_basic_groups = true. Proof. vm_compute. reflexivity. Qed.

(** group_get_best_match:77-101 *)
Definition euclidean_dtw : warped B64 := WPlain (fun ratio a b c m => warpedDistance Euclidean a b ratio c m).
Definition t_group_get_best_match : bool :=
  gives (d <- set_of "test_3_10_space.txt" 3 0 " " false ;;
         '(g, mm) <- addMember 1 (group_new (N := B64) 10) (repeat (0, 0) 30) 2 0 ;;
         '(g, mm) <- addMember 1 g mm 0 0 ;;
         t <- getTimeSeries d 1 0 10 ;;
         c <- groupBestMatch d 10 1 euclidean_dtw ratio0 mm g t ;; Ret (t, c))
    (fun r => let '(t, c) := r in point (Ret t) 0 (num 1) && close (c_dist c) (over (root (num 1)) 20)).
Example group_get_best_match : t_group_get_best_match = true. Proof. vm_compute. reflexivity. Qed.

(** ** test/group/LocalLengthGroupSpaceTest.cpp *)

(** local_length_group_space:21-34, _different:36-49 *)
Definition euclidean : dist_fn B64 := fun _ a b c m => pairwiseDistance Euclidean a b c m.
Definition number_of_groups (L : llgs B64) : Z := Z.of_nat (length (ll_groups L)).
Definition groups_of_length_10 (f : string) (pw : dist_fn B64) : res (dataset B64 * llgs B64 * llgs B64) :=
  d <- set_of f 5 0 " " false ;; L <- ll_new d 10 ;;
  L' <- generateGroups false d pw ratio0 (dec "0.5") L ;; Ret (d, L, L').
Definition t_local_length_group_space : bool :=
  gives (groups_of_length_10 "test_group_5_10_space.txt" euclidean)
    (fun r => let '(_, L, L') := r in (number_of_groups L =? 0) && (number_of_groups L' =? 1))
  && gives (groups_of_length_10 "test_group_5_10_different_space.txt" euclidean)
    (fun r => let '(_, L, L') := r in (number_of_groups L =? 0) && (number_of_groups L' =? 2)).
Example local_length_group_space : t_local_length_group_space = true. Proof. vm_compute. reflexivity. Qed.

(** groups_best_group:51-82: grouped with the ratio 0.1, searched with the ratio 1; the
    envelopes cached in the groups are carried from query to query *)
Fixpoint best_groups (d : dataset B64) (L : llgs B64) (l : list (Z * Z * Z * Z)) : bool :=
  match l with
  | [] => true
  | (g, i, s, e) :: l' =>
      match (q <- getTimeSeries d i s e ;; getBestGroup d euclidean_dtw (num 1) L q inf) with
      | Ret (L', (_, Some g')) => (g =? g') && best_groups d L' l'
      | _ => false
      end
  end.
Definition t_groups_best_group : bool :=
  gives (groups_of_length_10 "test_group_5_10_different_space.txt" (fun ratio a b c m => warpedDistance Euclidean a b ratio c m))
    (fun r => let '(d, _, L) := r in best_groups d L
       [(0, 1, 0, 10); (0, 1, 0, 9); (0, 1, 0, 8); (0, 1, 0, 6); (0, 1, 0, 5); (0, 1, 0, 4); (0, 1, 4, 10); (0, 1, 5, 10); (0, 0, 3, 7);
        (1, 4, 0, 10); (1, 4, 0, 9); (1, 4, 0, 8); (1, 4, 0, 6); (1, 4, 0, 5); (1, 4, 0, 4); (1, 4, 4, 10); (1, 4, 5, 10); (1, 4, 6, 10)]).
Succeed Definition groups_best_group : t_groups_best_group = true := eq_refl true <: t_groups_best_group = true.

(** ** test/group/GlobalGroupSpaceTest.cpp *)

(** traverse_order:98-104 *)
Definition t_traverse_order : bool :=
  gives (generateTraverseOrder (N := B64) (dec "0.4") 3 7) (fun l => if list_eq_dec Z.eq_dec l [3; 2; 4; 5] then true else false).
Example traverse_order : t_traverse_order = true. Proof. vm_compute. reflexivity. Qed.

(** local_length_group_space:24-59 (and _multi_threaded:61-96, which has the same result: C20) *)
Fixpoint best_matches (ratio : dbl) (d : dataset B64) (gs : ggs B64) (l : list (res (TS B64) * (dbl -> bool))) : bool :=
  match l with
  | [] => true
  | (q, ok) :: l' =>
      match (q <- q ;; gg_getBestMatch d ratio gs q) with
      | Ret (gs', c) => ok (c_dist c) && best_matches ratio d gs' l'
      | _ => false
      end
  end.
Definition zero (x : dbl) : bool := close x (num 0).
Definition outside : list dbl := [num 110; num 116; num 118; num 117; dec "16.5"; num 112; num 112].
Definition t_global_group_space : bool :=
  gives (set_of "test_group_5_10_different_space.txt" 5 0 " " false) (fun d =>
    let '(gs, r) := gg_group (fun _ => false) d ratio0 gg_new "euclidean" (dec "0.5") false in
    (ds_count d =? 5) && (ds_maxcol d =? 10) && gives r (fun _ => true)
    && best_matches ratio0 d gs
         [(getTimeSeries d 0 0 10, zero); (getTimeSeries d 0 4 10, zero); (getTimeSeries d 0 6 9, zero); (getTimeSeries d 0 2 10, zero);
          (getTimeSeries d 0 3 7, zero); (getTimeSeries d 4 0 10, zero); (getTimeSeries d 4 4 10, zero); (getTimeSeries d 4 6 10, zero);
          (getTimeSeries d 4 2 10, zero); (getTimeSeries d 4 3 7, zero);
          (Ret (ts_view (N := B64) outside 0 0 7), fun x => nltb (n := B64) (num 0) x)]).
Succeed Definition global_group_space : t_global_group_space = true := eq_refl true <: t_global_group_space = true.

(** ** test/group/GroupableTimeSeriesSetTest.cpp *)
Definition gset_of (f : string) : res (gset B64) := d <- loaded f ;; Ret (mkGS d None).
Definition group_all (g : gset B64) (threshold : dbl) : gset B64 * res Z :=
  groupAllLengths (fun _ => false) ratio0 g "euclidean" threshold 1 false.
Definition grouped_of (g : gset B64) (threshold : dbl) : res (gset B64) := let '(g, r) := group_all g threshold in _ <- r ;; Ret g.
Definition normalized (g : gset B64) : res (gset B64) := '(d, _) <- normalize (gt_data g) ;; Ret (mkGS d (gt_groups g)).

(** groupable_time_series_grouping_and_reset:30-37, _not_grouped_exception:39-46 *)
Definition t_grouping : bool :=
  gives (gset_of "test_3_10_space.txt") (fun g =>
    let '(g', r) := group_all g (dec "0.5") in
    gives r (fun n => (2 <? n) && (getTotalNumberOfGroups g' =? n))
    && throws (q <- series (gt_data g) 0 ;; getBestMatch ratio0 g q)).
Succeed Definition grouping : t_grouping = true := eq_refl true <: t_grouping = true.

(** basic_get_best_match:48-56 *)
Definition t_basic_get_best_match : bool :=
  gives (g <- gset_of "test_3_10_space.txt" ;; g <- normalized g ;; g <- grouped_of g (dec "0.5") ;;
         q <- series (gt_data g) 0 ;; getBestMatch ratio0 g q) (fun r => zero (c_dist (snd r))).
Succeed Definition basic_get_best_match : t_basic_get_best_match = true := eq_refl true <: t_basic_get_best_match = true.

(** groupable_time_series_save_load:58-81: operator== of candidates compares the series (index, start, end and
    values) and the distances.  The groups are loaded into a data set that is not normalized yet. *)
Definition same_cand (a b : cand B64) : bool :=
  (ts_index (c_data a) =? ts_index (c_data b)) && (ts_start (c_data a) =? ts_start (c_data b)) && (ts_end (c_data a) =? ts_end (c_data b))
  && all_close (ts_points (c_data a)) (ts_points (c_data b)) && neqb (n := B64) (c_dist a) (c_dist b).
Definition t_save_load : bool :=
  gives (g <- gset_of "test_3_10_space.txt" ;; g <- normalized g ;; g <- grouped_of g (dec "0.1") ;;
         q <- series (gt_data g) 0 ;; '(g, best) <- getBestMatch ratio0 g q ;;
         file <- save g ;;
         g2 <- gset_of "test_3_10_space.txt" ;;
         let '(g2, r) := load g2 file in _ <- r ;;
         g2 <- normalized g2 ;; '(g2, best2) <- getBestMatch ratio0 g2 q ;;
         x <- getThreshold g ;; x2 <- getThreshold g2 ;;
         Ret (g, best, g2, best2, x, x2))
    (fun r => let '(g, best, g2, best2, x, x2) := r in
       same_cand best best2 && String.eqb (getDistanceName g) (getDistanceName g2) && neqb (n := B64) x x2
       && (getTotalNumberOfGroups g =? getTotalNumberOfGroups g2)).
Succeed Definition save_load : t_save_load = true := eq_refl true <: t_save_load = true.

(** groupable_time_series_save_load_incompatible:83-98 *)
Definition t_save_load_incompatible : bool :=
  gives (g <- gset_of "test_3_10_space.txt" ;; g <- normalized g ;; g <- grouped_of g (dec "0.1") ;;
         file <- save g ;; g2 <- gset_of "test_10_20_space.txt" ;; Ret (load g2 file)) (fun r => throws (snd r)).
Succeed Definition save_load_incompatible : t_save_load_incompatible = true := eq_refl true <: t_save_load_incompatible = true.
