(** Model of the library interface: class GenexAPI. *)
From Coq Require Import Ascii.
From Verif Require Import Base Num TimeSeries Distance TSSet StdAlg Candidate Group GroupSpace Loader Archive OldFormat BruteForce PAA.
Local Open Scope Z_scope.
Local Open Scope list_scope.

(** std::map<string, T>: the entries in ascending order of their keys.  [assoc]
    (Distance.v) is find. *)
Fixpoint map_put {A} (k : string) (v : A) (l : list (string * A)) : list (string * A) :=
  match l with
  | [] => [(k, v)]
  | (k', v') :: l' =>
      match String.compare k k' with
      | Lt => (k, v) :: l
      | Eq => (k, v) :: l'
      | Gt => (k', v') :: map_put k v l'
      end
  end.
Definition map_erase {A} (k : string) (l : list (string * A)) : list (string * A) :=
  filter (fun e => negb (String.eqb k (fst e))) l.

Section Api.
Context {N : Num}.
Notation D := (D N).

(** What a call finds outside the program: how numbers are read and printed (with six
    and with sixteen digits; [e_scan] reads one word of a stream), the text files, which files can be opened for writing, the group files, the clock behind the
    progress messages, and the standard algorithms.  All of it may differ from call to
    call. *)
Record env := mkEnv {
  e_stod : string -> parsed D;
  e_put : D -> string;
  e_put16 : D -> string;
  e_scan : string -> option D;
  e_files : files;
  e_writable : string -> bool;
  e_groups : string -> option (list (tok N));
  e_clock : Z -> bool;
  e_alg : std_alg
}.

(** class GenexAPI, genex/GenexAPI.hpp, with the data sets it has allocated: [a_sets]
    (_loadedDatasets) maps a name to the number of an object in [a_objs] ([None]: deleted),
    [a_paa] (_paaWrappers) maps a name to a wrapper, which keeps a reference to its data
    set; [a_ratio] is the global warping band ratio, genex/distance/Distance.cpp:81-87. *)
Record api := mkApi {
  a_sets : list (string * nat);
  a_objs : list (option (gset N));
  a_paa : list (string * (nat * paa N));
  a_count : Z;
  a_ratio : D
}.

(** a new GenexAPI; [ratio] is the global ratio, at first 0.1 *)
Definition api_new (ratio : D) : api := mkApi [] [] [] 0 ratio.

Definition put_obj (s : api) (id : nat) (o : option (gset N)) : api :=
  mkApi (a_sets s) (upd (a_objs s) id o) (a_paa s) (a_count s) (a_ratio s).

(** dataset_metadata_t, genex/GenexAPI.hpp:20-47 *)
Record info := mkInfo {
  i_name : string; i_count : Z; i_length : Z; i_normalized : bool; i_grouped : bool;
  i_distance : string; i_threshold : D }.

(** what the calls return; for those that write a file also what they write *)
Inductive answer :=
| AUnit | AInt (z : Z) | AName (s : string) | AInfo (i : info) | AInfos (l : list info) | ADistances (l : list string)
| ASeries (t : TS N) | APair (a b : D) | ACand (c : cand N) | ACands (l : list (cand N)) | AValue (x : D)
| AMatching (m : matching) | AText (s : string) | AArchive (ts : list (tok N)).

(** the public functions, genex/GenexAPI.hpp *)
Inductive call :=
| CLoad (name path separators : string) (maxNumRow startCol : Z) (hasName : bool)
| CSave (name path : string) (separator : ascii)
| CUnload (name : string)
| CUnloadAll
| CCount
| CSeriesName (name : string) (index : Z)
| CSeriesLength (name : string) (index : Z)
| CInfo (name : string)
| CAllInfo
| CAllDistances
| CSeries (name : string) (index start end_ : Z)
| CNormalize (name : string)
| CGroup (name : string) (threshold : D) (distance : string) (numThreads : Z) (whole : bool)
| CSaveGroups (name path : string)
| CLoadGroups (name path : string)
| CSaveText (name path : string) (sizeOnly : bool)
| CLoadText (name path : string)
| CRatio (ratio : D)
| CBest (target query : string) (index start end_ : Z)
| CKBest (k ke : Z) (target query : string) (index start end_ : Z)
| CBrute (k : Z) (target query : string) (index start end_ : Z) (distance : string)
| CPrepare (name : string) (blockSize : Z)
| CPAA (k : Z) (target query : string) (index start end_ : Z) (distance : string)
| CDistance (name1 : string) (idx1 start1 end1 : Z) (name2 : string) (idx2 start2 end2 : Z) (distance : string)
| CMatching (name1 : string) (idx1 start1 end1 : Z) (name2 : string) (idx2 start2 end2 : Z) (distance : string).

Definition no_dataset : exn := GenexExc "There is no dataset with the given name".
Definition name_used : exn := GenexExc "Name has already been used".
Definition not_prepared : exn := GenexExc "Dataset is not prepared for PAA".

(** _checkDatasetName(name), then *_loadedDatasets[name]: genex/GenexAPI.cpp:274-280 *)
Definition deref_set (s : api) (id : nat) : res (gset N) :=
  match nth_error (a_objs s) id with Some (Some g) => Ret g | _ => UB UseAfterFree end.
Definition find_id (s : api) (name : string) : res nat :=
  match assoc name (a_sets s) with Some id => Ret id | None => Throw no_dataset end.
Definition find_set (s : api) (name : string) : res (gset N) :=
  id <- find_id s name ;; deref_set s id.

(** an outcome without a change of state *)
Definition pure {A} (s : api) (r : res A) (f : A -> answer) : api * res answer :=
  (s, a <- r ;; Ret (f a)).

(** a call that works on one data set and may change it *)
Definition on_set (s : api) (name : string) (f : gset N -> gset N * res answer) : api * res answer :=
  match find_id s name with
  | Ret id => match deref_set s id with
              | Ret g => let '(g', r) := f g in (put_obj s id (Some g'), r)
              | Throw x => (s, Throw x) | UB u => (s, UB u) | Hang => (s, Hang)
              end
  | Throw x => (s, Throw x) | UB u => (s, UB u) | Hang => (s, Hang)
  end.

(** a change that only a regular end of the call brings about: see [search_groups] *)
Definition or_same (g : gset N) (r : res (gset N * answer)) : gset N * res answer :=
  match r with
  | Ret (g', a) => (g', Ret a)
  | Throw x => (g, Throw x) | UB u => (g, UB u) | Hang => (g, Hang)
  end.

(** getDatasetInfo, genex/GenexAPI.cpp:101-113 *)
Definition getDatasetInfo (s : api) (name : string) : res info :=
  g <- find_set s name ;;
  thr <- getThreshold g ;;
  Ret (mkInfo name (ds_count (gt_data g)) (ds_maxcol (gt_data g)) (ds_normalized (gt_data g)) (isGrouped g)
              (getDistanceName g) thr).

(** getAllDatasetInfo, genex/GenexAPI.cpp:115-123 *)
Fixpoint each_info (s : api) (names : list string) : res (list info) :=
  match names with
  | [] => Ret []
  | n :: ns => i <- getDatasetInfo s n ;; is <- each_info s ns ;; Ret (i :: is)
  end.

(** the query series of the searches, genex/GenexAPI.cpp:190-193, 200-204, 211-215, 235-241:
    both names are checked before the series is taken *)
Definition query_series (s : api) (target query : string) (index start end_ : Z) : res (TS N) :=
  _ <- find_id s target ;; q <- find_set s query ;; getTimeSeries (gt_data q) index start end_.

(** a search on the groups of the target, genex/GenexAPI.cpp:187-206.  A query fills the
    caches of the groups; if it ends with an exception, what it has cached until then is
    not recorded in the model. *)
Definition search_groups (s : api) (target : string) (q : res (TS N)) (f : gset N -> TS N -> res (gset N * answer))
  : api * res answer :=
  match q with
  | Ret t => on_set s target (fun g => or_same g (f g t))
  | Throw x => (s, Throw x) | UB u => (s, UB u) | Hang => (s, Hang)
  end.

(** distance_name.substr(distance_name.length() - 3) != "dtw", genex/GenexAPI.cpp:265: for
    a name of less than three characters the position wraps around *)
Definition ends_in_dtw (name : string) : res bool :=
  if (String.length name <? 3)%nat then Throw (StdExc "basic_string::substr")
  else Ret (String.eqb (substring (String.length name - 3) 3 name) "dtw").

(** the two series of distanceBetween and matchingBetween, genex/GenexAPI.cpp:249-252, 261-264 *)
Definition two_series (s : api) (n1 : string) (i1 s1 e1 : Z) (n2 : string) (i2 s2 e2 : Z) : res (TS N * TS N) :=
  id1 <- find_id s n1 ;; id2 <- find_id s n2 ;;
  g1 <- deref_set s id1 ;; a <- getTimeSeries (gt_data g1) i1 s1 e1 ;;
  g2 <- deref_set s id2 ;; b <- getTimeSeries (gt_data g2) i2 s2 e2 ;;
  Ret (a, b).

(** PAAWrapper::generatePAAMatrix of a wrapper whose data set may have been deleted: the
    block size is checked before the data set is used, genex/PAAWrapper.cpp:46-52 *)
Definition wrapper_generate (s : api) (w : nat * paa N) (blockSize : Z) : (nat * paa N) * res unit :=
  match nth_error (a_objs s) (fst w) with
  | Some (Some g) => let '(p, r) := generatePAAMatrix (snd w) (gt_data g) blockSize in ((fst w, p), r)
  | _ => (w, if blockSize <? 1 then Throw (GenexExc "Block size for PAA must be positive") else UB UseAfterFree)
  end.

(** PAAWrapper::getKBestMatchesPAA of a wrapper whose data set may have been deleted,
    genex/PAAWrapper.cpp:98-109: k and the distance are looked at first *)
Definition wrapper_search (H : std_alg) (s : api) (w : nat * paa N) (q : TS N) (k : Z) (distance : string)
  : res (list (cand N)) :=
  match nth_error (a_objs s) (fst w) with
  | Some (Some g) => getKBestMatchesPAA H (a_ratio s) (snd w) (gt_data g) q k distance
  | _ => if k <=? 0 then Throw (GenexExc "K must be positive") else
         _ <- getDistanceFromName (N := N) (distance ++ "_dtw") ;; UB UseAfterFree
  end.

(** One call: the state after it and its outcome. *)
Definition exec (e : env) (c : call) (s : api) : api * res answer :=
  match c with
  (* loadDataset, genex/GenexAPI.cpp:22-49.  An exception other than GenexException leaves
     the new object allocated *)
  | CLoad name path seps maxNumRow startCol hasName =>
      match assoc name (a_sets s) with
      | Some _ => (s, Throw name_used)
      | None =>
          let '(d, r) := loadData (e_stod e) (e_files e) ds_new path maxNumRow startCol seps hasName in
          let add o := mkApi (a_sets s) (a_objs s ++ [o]) (a_paa s) (a_count s) (a_ratio s) in
          match r with
          | Ret _ =>
              let s' := mkApi (map_put name (length (a_objs s)) (a_sets s)) (a_objs s ++ [Some (mkGS d None)]) (a_paa s)
                              (a_count s + 1) (a_ratio s) in
              pure s' (getDatasetInfo s' name) AInfo
          | Throw (GenexExc m) => (add None, Throw (GenexExc m))
          | Throw x => (add (Some (mkGS d None)), Throw x)
          | UB u => (s, UB u)
          | Hang => (s, Hang)
          end
      end
  (* saveDataset, genex/GenexAPI.cpp:51-55 *)
  | CSave name path sep =>
      pure s (g <- find_set s name ;; saveData (e_put e) (e_writable e path) (gt_data g) path sep) AText
  (* unloadDataset, genex/GenexAPI.cpp:57-72.  Lines 65-70 run only if there is no wrapper
     of that name; then they add and remove a null wrapper *)
  | CUnload name =>
      match find_id s name with
      | Ret id =>
          match deref_set s id with
          | Ret _ =>
              (mkApi (map_erase name (a_sets s)) (upd (a_objs s) id None)
                     (match assoc name (a_paa s) with None => map_erase name (a_paa s) | Some _ => a_paa s end)
                     (a_count s - 1) (a_ratio s), Ret AUnit)
          | Throw x => (s, Throw x) | UB u => (s, UB u) | Hang => (s, Hang)
          end
      | Throw x => (s, Throw x) | UB u => (s, UB u) | Hang => (s, Hang)
      end
  (* unloadAllDataset, genex/GenexAPI.cpp:74-82 *)
  | CUnloadAll =>
      (mkApi [] (fold_left (fun objs p => upd objs (snd p) None) (a_sets s) (a_objs s)) (a_paa s) 0 (a_ratio s), Ret AUnit)
  (* getDatasetCount, genex/GenexAPI.cpp:84-87 *)
  | CCount => (s, Ret (AInt (a_count s)))
  (* getTimeSeriesName, genex/GenexAPI.cpp:89-93 *)
  | CSeriesName name i => pure s (g <- find_set s name ;; getTimeSeriesName (gt_data g) i) AName
  (* getTimeSeriesLength, genex/GenexAPI.cpp:95-99 *)
  | CSeriesLength name i => pure s (g <- find_set s name ;; getItemLength (gt_data g) i) AInt
  | CInfo name => pure s (getDatasetInfo s name) AInfo
  | CAllInfo => pure s (each_info s (map fst (a_sets s))) AInfos
  (* getAllDistanceInfo, genex/GenexAPI.cpp:125-134 *)
  | CAllDistances => (s, Ret (ADistances (map fst (allDistances (N := N)))))
  (* getTimeSeries, genex/GenexAPI.cpp:136-140 *)
  | CSeries name i st en => pure s (g <- find_set s name ;; getTimeSeries (gt_data g) i st en) ASeries
  (* normalizeDataset, genex/GenexAPI.cpp:143-147 *)
  | CNormalize name =>
      on_set s name (fun g => or_same g ('(d, (a, b)) <- normalize (gt_data g) ;; Ret (mkGS d (gt_groups g), APair a b)))
  (* groupDataset, genex/GenexAPI.cpp:149-155 *)
  | CGroup name thr dist threads whole =>
      on_set s name (fun g => let '(g', r) := groupAllLengths (e_clock e) (a_ratio s) g dist thr threads whole in
                              (g', n <- r ;; Ret (AInt n)))
  (* saveGroups, genex/GenexAPI.cpp:157-161 *)
  | CSaveGroups name path =>
      pure s (g <- find_set s name ;;
              let '(file, r) := saveToFile (e_writable e path) (e_groups e path) g in
              _ <- r ;; Ret (match file with Some ts => ts | None => [] end)) AArchive
  (* loadGroups, genex/GenexAPI.cpp:163-168 *)
  | CLoadGroups name path =>
      on_set s name (fun g => let '(g', r) := loadFromFile (e_groups e path) g in
                              (g', _ <- r ;; Ret (AInt (getTotalNumberOfGroups g'))))
  (* saveGroupsOld, genex/GenexAPI.cpp:170-174 *)
  | CSaveText name path sizeOnly =>
      pure s (g <- find_set s name ;; saveGroupsOld (e_put e) (e_put16 e) (e_writable e path) sizeOnly g) AText
  (* loadGroupsOld, genex/GenexAPI.cpp:176-180.  Failing reads are not modelled *)
  | CLoadText name path =>
      on_set s name (fun g => let '(g', r) := loadGroupsOld (e_scan e) (option_map tf_text (e_files e path)) g in
                              (g', n <- r ;; Ret (AInt n)))
  (* setWarpingBandRatio, genex/GenexAPI.cpp:182-185 *)
  | CRatio r => (mkApi (a_sets s) (a_objs s) (a_paa s) (a_count s) r, Ret AUnit)
  (* getBestMatch, genex/GenexAPI.cpp:187-195 *)
  | CBest target qn i st en =>
      search_groups s target (query_series s target qn i st en) (fun g t =>
        '(g', c) <- getBestMatch (a_ratio s) g t ;; Ret (g', ACand c))
  (* getKBestMatches, genex/GenexAPI.cpp:197-206 *)
  | CKBest k ke target qn i st en =>
      search_groups s target (query_series s target qn i st en) (fun g t =>
        '(g', cs) <- getKBestMatches (e_alg e) (a_ratio s) g t k ke ;; Ret (g', ACands cs))
  (* getKBestMatchesBruteForce, genex/GenexAPI.cpp:208-217 *)
  | CBrute k target qn i st en dist =>
      pure s (t <- query_series s target qn i st en ;; g <- find_set s target ;;
              getKBestMatchesBruteForce (e_alg e) (a_ratio s) (gt_data g) t k dist) ACands
  (* preparePAA, genex/GenexAPI.cpp:219-230 *)
  | CPrepare name b =>
      match find_id s name with
      | Ret id =>
          match (match assoc name (a_paa s) with
                 | Some w => Ret w
                 | None => g <- deref_set s id ;; p <- paa_new (gt_data g) ;; Ret (id, p)
                 end) with
          | Ret w => let '(w', r) := wrapper_generate s w b in
                     (mkApi (a_sets s) (a_objs s) (map_put name w' (a_paa s)) (a_count s) (a_ratio s), _ <- r ;; Ret AUnit)
          | Throw x => (s, Throw x) | UB u => (s, UB u) | Hang => (s, Hang)
          end
      | Throw x => (s, Throw x) | UB u => (s, UB u) | Hang => (s, Hang)
      end
  (* getKBestMatchesPAA, genex/GenexAPI.cpp:232-243 *)
  | CPAA k target qn i st en dist =>
      pure s (_ <- find_id s target ;; q <- find_id s qn ;;
              match assoc target (a_paa s) with
              | None => Throw not_prepared
              | Some w => g <- deref_set s q ;; t <- getTimeSeries (gt_data g) i st en ;;
                          wrapper_search (e_alg e) s w t k dist
              end) ACands
  (* distanceBetween, genex/GenexAPI.cpp:245-255 *)
  | CDistance n1 i1 s1 e1 n2 i2 s2 e2 dist =>
      pure s ('(a, b) <- two_series s n1 i1 s1 e1 n2 i2 s2 e2 ;;
              f <- getDistanceFromName dist ;; '(v, _) <- f (a_ratio s) a b ninf [] ;; Ret v) AValue
  (* matchingBetween, genex/GenexAPI.cpp:257-272 *)
  | CMatching n1 i1 s1 e1 n2 i2 s2 e2 dist =>
      pure s ('(a, b) <- two_series s n1 i1 s1 e1 n2 i2 s2 e2 ;;
              ok <- ends_in_dtw dist ;;
              if negb ok then Throw (GenexExc "Can only compute matchings using _dtw distances") else
              f <- getDistanceFromName dist ;; '(_, m) <- f (a_ratio s) a b ninf [] ;; Ret m) AMatching
  end.

(** ~GenexAPI, genex/GenexAPI.cpp:17-20 *)
Definition api_destroy (e : env) (s : api) : api := fst (exec e CUnloadAll s).

End Api.
Arguments env : clear implicits.
Arguments api : clear implicits.
Arguments answer : clear implicits.
Arguments call : clear implicits.
Arguments info : clear implicits.
