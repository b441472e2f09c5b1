(** The unit tests of the API (/repo/test/GenexAPITest.cpp): see UnitTests.v. *)
From Verif Require Import Base Num NumB64 TimeSeries Distance TSSet Loader PrintDec StdAlg HeapFacts Candidate
  Group GroupSpace BruteForce Archive PAA Api UnitData UnitTests UnitSets.
Local Open Scope string_scope.
Local Open Scope Z_scope.
Local Open Scope list_scope.

(** the world in which the tests run *)
Definition tenv : env B64 :=
  mkEnv (N := B64) stod_ (fun _ => "") (fun _ => "") (fun _ => None) test_files (fun _ => true) (fun _ => None) (fun _ => false) simple_alg.

(** a new GenexAPI; the ratio is global and starts as 0.1 *)
Definition start : api B64 := api_new (N := B64) ratio0.
Definition after_ (c : call B64) (s : api B64) : api B64 := fst (exec tenv c s).
Definition does (c : call B64) (s : api B64) : res (answer B64) := snd (exec tenv c s).
Definition fine (r : res (answer B64)) : bool := gives r (fun _ => true).
Fixpoint calls (l : list (call B64)) (s : api B64) : res (api B64) :=
  match l with
  | [] => Ret s
  | c :: l' => let '(s', r) := exec tenv c s in _ <- r ;; calls l' s'
  end.

Definition t10 : string := dir "test_10_20_space.txt".
Definition t15 : string := dir "test_15_20_comma.csv".
Definition load1 (n p seps : string) (rows col : Z) : call B64 := CLoad n p seps rows col false.
Definition count_is (s : api B64) (n : Z) : bool := gives (does CCount s) (fun a => match a with AInt m => m =? n | _ => false end).

(** api_load_dataset:45-58 *)
Definition t_api_load_dataset : bool :=
  gives (calls [load1 "test0" t10 " " 0 0; load1 "test1" t15 "," 10 0; load1 "test2" (dir "test_3_uneven_space.txt") " " 0 0] start) (fun s =>
    count_is s 3
    && throws (does (load1 "test0" t10 " " 0 0) s)
    && throws (does (load1 "not_exist" "unicorn_santa_magic_halting_problem_solution" " " 10 0) s)).
Succeed Definition api_load_dataset : t_api_load_dataset = true := eq_refl true <: t_api_load_dataset = true.

(** api_unload_dataset:60-72, api_unload_all_dataset:74-85 *)
Definition three : list (call B64) := [load1 "test0" t10 " " 5 0; load1 "test1" t15 "," 10 0; load1 "test2" t10 " " 6 0].
Definition t_api_unload : bool :=
  gives (calls three start) (fun s =>
    count_is s 3
    && gives (calls [CUnload "test1"] s) (fun s' => throws (does (CUnload "test1") s') && count_is s' 2)
    && gives (calls [CUnloadAll] s) (fun s' => throws (does (CUnload "test0") s') && count_is s' 0)).
Succeed Definition api_unload : t_api_unload = true := eq_refl true <: t_api_unload = true.

(** api_get_dataset_info:87-101 *)
Definition t_api_get_dataset_info : bool :=
  gives (calls [load1 "test0" t10 " " 5 0; load1 "test1" t15 "," 10 4] start) (fun s =>
    gives (does (CInfo "test1") s) (fun a => match a with
      | AInfo i => String.eqb (i_name i) "test1" && (i_count i =? 10) && (i_length i =? 16) | _ => false end)
    && gives (calls [load1 "test2" t15 "," 10 0; CUnload "test2"] s) (fun s' => throws (does (CInfo "test2") s'))).
Succeed Definition api_get_dataset_info : t_api_get_dataset_info = true := eq_refl true <: t_api_get_dataset_info = true.

(** ** searches
    Grouping five rows of twenty values takes minutes here, so the following tests are not part
    of the build.  [Eval vm_compute in] each of them gives [true]. *)
Definition two : list (call B64) := [load1 "test0" t10 " " 5 0; load1 "test1" t10 " " 5 0].
Definition grouped : res (api B64) := calls (two ++ [CGroup (N := B64) "test0" (dec "0.5") "euclidean" 1 false]) start.
Definition wide (s : api B64) : res (api B64) := calls [CRatio (N := B64) (num 1)] s.

(** the queries of the tests: whole series, and a part of the first one *)
Definition queries (from : Z) : list (string * Z * Z * Z) :=
  [("test0", 0, -1, -1); ("test1", 0, -1, -1); ("test1", 1, -1, -1); ("test1", 0, from, 10)].
Definition best (q : string * Z * Z * Z) : call B64 := let '(n, i, a, b) := q in CBest "test0" n i a b.
Definition kbest (k : Z) (q : string * Z * Z * Z) : call B64 := let '(n, i, a, b) := q in CKBest k k "test0" n i a b.
Definition brute (k : Z) (q : string * Z * Z * Z) : call B64 := let '(n, i, a, b) := q in CBrute k "test0" n i a b "euclidean".

(** api_group:103-114 *)
Definition t_api_group : bool :=
  gives (calls [load1 "test" t10 " " 5 0] start) (fun s =>
    let group x n m := exec tenv (CGroup (N := B64) n (dec "0.5") m 1 false) x in
    let many r := gives r (fun a => match a with AInt c => 20 <? c | _ => false end) in
    let '(s1, r1) := group s "test" "euclidean" in
    let '(s2, r2) := group s1 "test" "chebyshev" in
    many r1 && many r2 && throws (snd (group s2 "test1" "euclidean")) && throws (snd (group s2 "test" "oracle"))).

(** api_match:116-137 *)
Definition t_api_match : bool :=
  gives grouped (fun s =>
    forallb (fun q => gives (does (best q) s) (fun a => match a with ACand c => zero (c_dist c) | _ => false end)) (queries 5)
    && throws (does (CBest "test1" "test0" 0 (-1) (-1)) s) && throws (does (CBest "test1" "test0" 35 (-1) (-1)) s)
    && throws (does (CBest "test1" "test0" 1 100 125) s)).

(** timeSeriesEqual:28-33, containsTimeSeries:35-43 *)
Definition same_place (a b : TS B64) : bool :=
  (ts_length a =? ts_length b) && (ts_start a =? ts_start b) && (ts_index a =? ts_index b).
Definition has (k : Z) (l e : res (answer B64)) : bool :=
  gives l (fun l => gives e (fun e => match l, e with
    | ACands l, ACand c => (Z.of_nat (length l) =? k) && existsb (fun x => same_place (c_data x) (c_data c)) l
    | _, _ => false end)).

(** api_knn_k_1:140-171, api_knn_k_2:173-200, api_knn_k_4:202-230: in the last one the k best matches are asked for
    the positions from 4 and the best match for those from 5 *)
Definition t_api_knn (k from : Z) : bool :=
  gives (s <- grouped ;; wide s) (fun s =>
    forallb (fun p => has k (does (kbest k (fst p)) s) (does (best (snd p)) s)) (combine (queries from) (queries 5))
    && throws (does (CKBest 1 1 "test1" "test0" 0 (-1) (-1)) s) && throws (does (CKBest 1 1 "test1" "test0" 35 (-1) (-1)) s)
    && throws (does (CKBest 1 1 "test1" "test0" 1 100 125) s)).

(** api_kx_k_1:233-260, api_kx_k_4:262-289; they run after api_knn_k_4, so the ratio is 1 *)
Definition t_api_kx (k : Z) : bool :=
  gives (s <- grouped ;; wide s) (fun s =>
    forallb (fun q => has k (does (brute k q) s) (does (best q) s)) (queries 5)).
