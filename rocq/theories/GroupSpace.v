(** genex/group/GlobalGroupSpace.{hpp,cpp} and genex/GroupableTimeSeriesSet.{hpp,cpp}
    (saving and loading are in Archive.v, the multi-threaded loop in ThreadPool.v). *)
From Verif Require Import Base Num TimeSeries Lemire Distance TSSet StdAlg Candidate Group.
Local Open Scope string_scope.
Local Open Scope Z_scope.

Section GroupSpace.
Context {N : Num}.
Notation D := (D N).

(** class GlobalGroupSpace, genex/group/GlobalGroupSpace.hpp:85-92.  Empty
    std::function and uninitialised members are None; a null pointer in
    localLengthGroupSpace is None. *)
Record ggs := mkGG {
  gg_name : string;
  gg_levels : list (option (llgs N));
  gg_pw : option (dist_fn N);
  gg_warp : option (warped N);
  gg_threshold : option D;
  gg_total : Z;
  gg_whole : bool
}.

(** GlobalGroupSpace::GlobalGroupSpace, genex/group/GlobalGroupSpace.cpp:29-30 *)
Definition gg_new : ggs := mkGG "" [] None None None 0 false.

Definition with_levels (gs : ggs) (l : list (option (llgs N))) : ggs :=
  mkGG (gg_name gs) l (gg_pw gs) (gg_warp gs) (gg_threshold gs) (gg_total gs) (gg_whole gs).

(** the warped distance chosen by _loadDistance for a name *)
Definition warpedFor (name : string) : res (warped N) :=
  if String.eqb name "euclidean" then Ret WCascade
  else f <- getDistanceFromName (name ++ "_dtw") ;; Ret (WPlain f).

(** GlobalGroupSpace::_loadDistance, genex/group/GlobalGroupSpace.cpp:46-56: the
    members assigned before an exception keep their new values *)
Definition gg_loadDistance (gs : ggs) (name : string) : ggs * res unit :=
  let gs := mkGG name (gg_levels gs) (gg_pw gs) (gg_warp gs) (gg_threshold gs) (gg_total gs) (gg_whole gs) in
  match getDistanceFromName name with
  | Ret pw =>
      let gs := mkGG name (gg_levels gs) (Some pw) (gg_warp gs) (gg_threshold gs) (gg_total gs) (gg_whole gs) in
      match warpedFor name with
      | Ret w => (mkGG name (gg_levels gs) (Some pw) (Some w) (gg_threshold gs) (gg_total gs) (gg_whole gs), Ret tt)
      | Throw e => (gs, Throw e) | UB u => (gs, UB u) | Hang => (gs, Hang)
      end
  | Throw e => (gs, Throw e) | UB u => (gs, UB u) | Hang => (gs, Hang)
  end.

(** GlobalGroupSpace::_getMinLength, genex/group/GlobalGroupSpace.cpp:66-69 *)
Definition gg_minLength (gs : ggs) : Z :=
  if gg_whole gs then Z.of_nat (length (gg_levels gs)) - 1 else 2.

(** GlobalGroupSpace::_group, genex/group/GlobalGroupSpace.cpp:58-64: the group
    space of one length.  [clock i]: whether the progress log is due. *)
Definition group_level (clock : Z -> bool) (d : dataset N) (pw : dist_fn N) (ratio threshold : D) (i : Z)
  : res (llgs N) :=
  L <- ll_new d i ;; generateGroups (clock i) d pw ratio threshold L.

(** the loop of GlobalGroupSpace::group, genex/group/GlobalGroupSpace.cpp:82-85.
    If generateGroups throws, the slot keeps a space without groups here (in C++
    it keeps the groups made so far; for data read by loadData the only such
    exception comes from the very first subsequence). *)
Fixpoint group_loop (clock : Z -> bool) (d : dataset N) (pw : dist_fn N) (ratio threshold : D)
  (n : nat) (i : Z) (gs : ggs) : ggs * res Z :=
  match n with
  | O => (gs, Ret (gg_total gs))
  | S n' =>
      match group_level clock d pw ratio threshold i with
      | Ret L =>
          match aset (gg_levels gs) i (Some L) with
          | Ret levels =>
              group_loop clock d pw ratio threshold n' (i + 1)
                (mkGG (gg_name gs) levels (gg_pw gs) (gg_warp gs) (gg_threshold gs)
                      (gg_total gs + Z.of_nat (length (ll_groups L))) (gg_whole gs))
          | Throw e => (gs, Throw e) | UB u => (gs, UB u) | Hang => (gs, Hang)
          end
      | Throw e =>
          (match ll_new d i with
           | Ret L0 => match aset (gg_levels gs) i (Some L0) with
                       | Ret levels => with_levels gs levels | _ => gs end
           | _ => gs end, Throw e)
      | UB u => (gs, UB u)
      | Hang => (gs, Hang)
      end
  end.

(** GlobalGroupSpace::group, genex/group/GlobalGroupSpace.cpp:71-88 *)
Definition gg_group (clock : Z -> bool) (d : dataset N) (ratio : D) (gs : ggs) (name : string)
  (threshold : D) (whole : bool) : ggs * res Z :=
  let gs := with_levels gs [] in (* reset() *)
  match gg_loadDistance gs name with
  | (gs, Ret _) =>
      let size := ds_maxcol d + 1 in
      if size <? 0 then (gs, Throw (StdExc "vector::_M_default_append")) else
      let gs := mkGG (gg_name gs) (repeat None (Z.to_nat size)) (gg_pw gs) (gg_warp gs)
                     (Some threshold) 0 whole in
      let lo := Z.max 0 (gg_minLength gs) in
      match gg_pw gs with
      | Some pw => group_loop clock d pw ratio threshold (Z.to_nat (size - lo)) lo gs
      | None => (gs, Throw (StdExc "bad_function_call"))
      end
  | (gs, Throw e) => (gs, Throw e)
  | (gs, UB u) => (gs, UB u)
  | (gs, Hang) => (gs, Hang)
  end.

(** generateTraverseOrder, genex/group/GlobalGroupSpace.cpp:250-287.  Each
    iteration adds a length or stops a direction; [fuel] is enough
    (traverse_fuel in Traverse.v). *)
Fixpoint traverse_loop (ratio : D) (q total : Z) (fuel : nat) (low high : Z) (lowStop highStop : bool)
  (order : list Z) : res (list Z) :=
  if lowStop && highStop then Ret order else
  match fuel with
  | O => Hang
  | S fuel' =>
      let lowStop := lowStop || (low <? 2) in
      let highStop := highStop || (total <? high) in
      '(low, lowStop, order) <-
        (if negb lowStop then
           r <- band ratio q ;;
           if q <=? low + r then Ret (low - 1, false, (order ++ [low])%list)
           else Ret (low, true, order)
         else Ret (low, lowStop, order)) ;;
      '(high, highStop, order) <-
        (if negb highStop then
           r <- band ratio high ;;
           if high <=? q + r then Ret (high + 1, false, (order ++ [high])%list)
           else Ret (high, true, order)
         else Ret (high, highStop, order)) ;;
      traverse_loop ratio q total fuel' low high lowStop highStop order
  end.

Definition generateTraverseOrder (ratio : D) (q total : Z) : res (list Z) :=
  traverse_loop ratio q total (Z.to_nat (Z.abs q + Z.max 0 total + 2)) (q - 1) (q + 1) false false [q].

(** the loop over the order of lengths,
    genex/group/GlobalGroupSpace.cpp:146-159, 173-180 *)
Fixpoint each_level {S : Type} (order : list Z) (levels : list (option (llgs N)))
  (body : llgs N -> S -> res (llgs N * S)) (s : S) : res (list (option (llgs N)) * S) :=
  match order with
  | [] => Ret (levels, s)
  | i :: order' =>
      o <- aget levels i ;;
      match o with
      | None => each_level order' levels body s
      | Some L =>
          '(L', s') <- body L s ;;
          levels' <- aset levels i (Some L') ;;
          each_level order' levels' body s'
      end
  end.

(** [localLengthGroupSpace.size() - 1] passed as int *)
Definition gg_totalLength (gs : ggs) : Z := Z.of_nat (length (gg_levels gs)) - 1.

Definition no_function {A} : res A := Throw (StdExc "bad_function_call").

(** GlobalGroupSpace::getBestMatch, genex/group/GlobalGroupSpace.cpp:135-161:
    state of the loop (bestSoFarDist, bestSoFarGroup as length and index) *)
Definition bestLevel_step (d : dataset N) (w : warped N) (ratio : D) (query : TS N)
  (L : llgs N) (st : D * option (Z * Z)) : res (llgs N * (D * option (Z * Z))) :=
  '(L', (v, bg)) <- getBestGroup d w ratio L query (fst st) ;;
  if nltb v (fst st) then
    Ret (L', (v, match bg with Some i => Some (ll_length L, i) | None => None end))
  else Ret (L', st).

Definition gg_getBestMatch (d : dataset N) (ratio : D) (gs : ggs) (query : TS N)
  : res (ggs * cand N) :=
  if ts_length query <=? 1 then Throw (GenexExc "Length of query must be larger than 1") else
  order <- generateTraverseOrder ratio (ts_length query) (gg_totalLength gs) ;;
  match gg_warp gs with
  | None =>
      (* no distance was ever loaded: there are no groups *)
      _ <- each_level order (gg_levels gs) (fun L (_ : unit) => no_function) tt ;; UB NullDeref
  | Some w =>
      '(levels, (_, bg)) <- each_level order (gg_levels gs) (bestLevel_step d w ratio query) (ninf, None) ;;
      '(len, i) <- deref bg ;;
      oL <- aget levels len ;; L <- deref oL ;; g <- aget (ll_groups L) i ;;
      c <- groupBestMatch d len (ll_sub L) w ratio (ll_map L) g query ;;
      Ret (with_levels gs levels, c)
  end.

Section WithAlg.
Variable H : std_alg.

(** GlobalGroupSpace::getKBestMatches, genex/group/GlobalGroupSpace.cpp:163-214 *)
Definition interLevel_step (d : dataset N) (w : warped N) (ratio : D) (query : TS N)
  (L : llgs N) (st : list (gindex N) * Z) : res (llgs N * (list (gindex N) * Z)) :=
  '(L', best, k) <- interLevelKSim H d w ratio L query (fst st) (snd st) ;;
  Ret (L', (best, k)).

(** the group a heap entry refers to: (space, group) *)
Definition find_group (levels : list (option (llgs N))) (g : gindex N) : res (llgs N * group N) :=
  oL <- aget levels (gi_length g) ;; L <- deref oL ;;
  gr <- getGroup L (gi_index g) ;; Ret (L, gr).

(** genex/group/GlobalGroupSpace.cpp:197-207 *)
Fixpoint add_members (d : dataset N) (levels : list (option (llgs N))) (threshold : option D)
  (gis : list (gindex N)) (best : list (cand N)) : res (list (cand N)) :=
  match gis with
  | [] => Ret best
  | g :: gis' =>
      '(L, gr) <- find_group levels g ;;
      ms <- getMembers d (ll_length L) (ll_sub L) (ll_map L) gr ;;
      th <- (match ms with [] => Ret n0 | _ => init_get threshold end) ;;
      add_members d levels threshold gis'
        (best ++ map (fun t => mkCand t (nadd (gi_dist g) th)) ms)%list
  end.

(** genex/group/GlobalGroupSpace.cpp:209-211 *)
Fixpoint recompute (w : warped N) (ratio : D) (query : TS N) (best : list (cand N)) : res (list (cand N)) :=
  match best with
  | [] => Ret []
  | c :: best' =>
      v <- warp_call w ratio query (c_data c) ninf ;;
      best'' <- recompute w ratio query best' ;;
      Ret (mkCand (c_data c) v :: best'')
  end.

Definition gg_getKBestMatches (d : dataset N) (ratio : D) (gs : ggs) (query : TS N) (k : Z)
  : res (ggs * list (cand N)) :=
  order <- generateTraverseOrder ratio (ts_length query) (gg_totalLength gs) ;;
  match gg_warp gs with
  | None =>
      _ <- each_level order (gg_levels gs) (fun L (_ : unit) => no_function) tt ;; Ret (gs, [])
  | Some w =>
      '(levels, (best, k')) <- each_level order (gg_levels gs) (interLevel_step d w ratio query) ([], k) ;;
      res1 <- match best with
              | [] => Ret []
              | g :: rest =>
                  '(L, gr) <- find_group levels g ;;
                  c1 <- intraGroupKSim H d (ll_length L) (ll_sub L) w ratio (ll_map L) gr query
                          (k' + gi_members g) ;;
                  add_members d levels (gg_threshold gs) rest c1
              end ;;
      res2 <- recompute w ratio query res1 ;;
      Ret (with_levels gs levels, res2)
  end.

(** ** class GroupableTimeSeriesSet, genex/GroupableTimeSeriesSet.hpp:25-122 *)
Record gset := mkGS { gt_data : dataset N; gt_groups : option ggs }.

(** isGrouped, genex/GroupableTimeSeriesSet.cpp:49-52 *)
Definition isGrouped (g : gset) : bool := match gt_groups g with Some _ => true | None => false end.

(** groupAllLengths, genex/GroupableTimeSeriesSet.cpp:22-47.  Grouping with more
    than one thread gives the result of grouping with one (C20). *)
Definition groupAllLengths (clock : Z -> bool) (ratio : D) (g : gset) (name : string) (threshold : D)
  (numThreads : Z) (whole : bool) : gset * res Z :=
  if negb (isLoaded (gt_data g)) then (g, Throw (GenexExc "No data to group")) else
  if 1 <=? numThreads then
    let '(gs, r) := gg_group clock (gt_data g) ratio gg_new name threshold whole in
    (mkGS (gt_data g) (Some gs), r)
  else (mkGS (gt_data g) (Some gg_new), Throw (GenexExc "Number of threads must be positive")).

(** getTotalNumberOfGroups, getDistanceName, getThreshold,
    genex/GroupableTimeSeriesSet.cpp:54-80 *)
Definition getTotalNumberOfGroups (g : gset) : Z :=
  match gt_groups g with Some gs => gg_total gs | None => 0 end.
Definition getDistanceName (g : gset) : string :=
  match gt_groups g with Some gs => gg_name gs | None => "" end.
Definition getThreshold (g : gset) : res D :=
  match gt_groups g with Some gs => init_get (gg_threshold gs) | None => Ret n0 end.

(** getBestMatch, genex/GroupableTimeSeriesSet.cpp:144-151 *)
Definition getBestMatch (ratio : D) (g : gset) (query : TS N) : res (gset * cand N) :=
  match gt_groups g with
  | Some gs => '(gs', c) <- gg_getBestMatch (gt_data g) ratio gs query ;;
               Ret (mkGS (gt_data g) (Some gs'), c)
  | None => Throw (GenexExc "Dataset is not grouped")
  end.

(** vector::resize(k) with value-initialised new elements *)
Definition resize {A} (l : list A) (k : Z) (dflt : A) : res (list A) :=
  if k <? 0 then Throw (StdExc "vector::_M_default_append")
  else Ret (firstn (Z.to_nat k) l ++ repeat dflt (Z.to_nat k - length l))%list.

(** getKBestMatches, genex/GroupableTimeSeriesSet.cpp:153-168 *)
Definition getKBestMatches (ratio : D) (g : gset) (query : TS N) (k h : Z)
  : res (gset * list (cand N)) :=
  match gt_groups g with
  | Some gs =>
      if h <? k then
        Throw (GenexExc "Number of examined time series must be larger than or equal to the number of time series to look for")
      else
        '(gs', results) <- gg_getKBestMatches (gt_data g) ratio gs query h ;;
        results <- sort H cand_lt results ;;
        results <- resize results k cand_default ;;
        Ret (mkGS (gt_data g) (Some gs'), results)
  | None => Throw (GenexExc "Dataset is not grouped")
  end.

End WithAlg.
End GroupSpace.
Arguments ggs : clear implicits.
Arguments gset : clear implicits.
