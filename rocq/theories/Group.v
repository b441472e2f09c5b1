(** genex/group/Group.{hpp,cpp}, genex/group/LocalLengthGroupSpace.{hpp,cpp}. *)
From Verif Require Import Base Num TimeSeries Lemire Distance TSSet StdAlg Candidate.
Local Open Scope string_scope.
Local Open Scope Z_scope.

Section Group.
Context {N : Num}.
Notation D := (D N).

(** member_coord_t, genex/group/Group.hpp:19 *)
Definition coord : Type := Z * Z.

(** The centroid of a group (TimeSeries member, genex/group/Group.hpp:174): a view
    of the data set made by setCentroid, or a series owning its values (the
    zero-filled one of the constructor, or one read by loadGroupOld). *)
Inductive centroid :=
| CView (index start : Z)
| COwn (vals : list D).

(** The envelope cached in a TimeSeries object (keoghCacheValid,
    cachedWarpingBand, keoghLower, keoghUpper; genex/TimeSeries.hpp:180-183). *)
Record cache := mkCache { ca_band : Z; ca_lo : list (option D); ca_up : list (option D) }.

(** class Group, genex/group/Group.hpp:162-174.  groupIndex is the position in
    the vector of groups; dataset, memberMap, memberLength, subTimeSeriesCount are
    arguments. *)
Record group := mkGroup {
  g_cent : centroid;
  g_cache : option cache;      (* envelope cached in the centroid *)
  g_last : coord;              (* lastMemberCoord *)
  g_count : Z
}.

(** Group::Group, genex/group/Group.hpp:70-79 *)
Definition group_new (len : Z) : group :=
  mkGroup (COwn (repeat n0 (Z.to_nat len))) None (-1, -1) 0.

(** memberMap: vector<group_membership_t>.  Only [prev] is modelled; groupIndex
    is never read.  A default group_membership_t has prev = (0,0)
    (std::pair value-initialises). *)
Definition mmap : Type := list coord.

(** [tsIndex * this->subTimeSeriesCount + tsStart], an int *)
Definition member_pos (sub index start : Z) : res Z := p <- imul index sub ;; iadd p start.

(** Group::addMember, genex/group/Group.cpp:18-24 *)
Definition addMember (sub : Z) (g : group) (mm : mmap) (index start : Z) : res (group * mmap) :=
  pos <- member_pos sub index start ;;
  mm' <- aset mm pos (g_last g) ;;
  Ret (mkGroup (g_cent g) (g_cache g) (index, start) (g_count g + 1), mm').

(** Group::setCentroid, genex/group/Group.cpp:26-29: a move assignment; the
    cached envelope, if any, stays (genex/TimeSeries.cpp:93-111). *)
Definition setCentroid (d : dataset N) (len : Z) (g : group) (index start : Z) : res group :=
  _ <- getTimeSeries d index start (start + len) ;;
  Ret (mkGroup (CView index start) (g_cache g) (g_last g) (g_count g)).

(** the centroid as a time series over the data set's current memory *)
Definition cent_ts (d : dataset N) (len : Z) (c : centroid) : res (TS N) :=
  match c with
  | CView index start => mem <- row_ptr d index ;; Ret (ts_view mem index start (start + len))
  | COwn vals => Ret (ts_of_list vals)
  end.

(** ** distances from a centroid, with the envelope cached in the centroid *)

(** getKeoghLower / getKeoghUpper, genex/TimeSeries.cpp:177-193 *)
Definition cachedLU (c : option cache) (t : TS N) (w : Z) : res cache :=
  match c with
  | Some c0 => if w =? ca_band c0 then Ret c0
               else '(lo, up) <- keoghLU t w ;; Ret (mkCache w lo up)
  | None => '(lo, up) <- keoghLU t w ;; Ret (mkCache w lo up)
  end.

(** keoghLowerBound, genex/distance/Distance.cpp:112-133, [a] with its cache *)
Definition keoghLowerBoundC (ratio : D) (c : option cache) (a b : TS N) (dropout : D)
  : res (D * option cache) :=
  let len := Z.min (ts_length a) (ts_length b) in
  let mx := Z.max (ts_length a) (ts_length b) in
  w <- band ratio mx ;;
  c' <- cachedLU c a w ;;
  let idropout := nmul (nmul dropout (nofZ 2)) (nofZ mx) in
  let idropout := nmul idropout idropout in
  '(lb, _) <- forb_ 0 len (keogh_step b (ca_lo c') (ca_up c') idropout) n0 ;;
  Ret (euc_normDTW lb a b, Some c').

(** crossKeoghLowerBound, genex/distance/Distance.cpp:135-144.  The cache of [b]
    (a query object made for this call, whose values do not change meanwhile) is
    not tracked: see TSObject.v. *)
Definition crossKeoghLowerBoundC (ratio : D) (c : option cache) (a b : TS N) (dropout : D)
  : res (D * option cache) :=
  '(lb, c') <- keoghLowerBoundC ratio c a b dropout ;;
  if nltb dropout lb then Ret (ninf, c')
  else lb2 <- keoghLowerBound ratio b a dropout ;; Ret (nmax lb lb2, c').

(** cascadeDistance, genex/distance/Distance.cpp:146-162 *)
Definition cascadeDistanceC (ratio : D) (c : option cache) (a b : TS N) (dropout : D)
  : res (D * option cache) :=
  lb <- kimLowerBound a b ;;
  if nltb dropout lb then Ret (ninf, c) else
  '(lb, c') <- crossKeoghLowerBoundC ratio c a b dropout ;;
  if nltb dropout lb then Ret (ninf, c') else
  '(v, _) <- warpedDistance Euclidean a b ratio dropout [] ;; Ret (v, c').

(** The two kinds of warped distance a group space uses
    (genex/group/GlobalGroupSpace.cpp:50-55). *)
Inductive warped :=
| WCascade
| WPlain (f : dist_fn N).

(** calling it without centroid cache: warpedDistance(query, member, ...).
    gNoMatching, the matching argument, does not influence the value (C14). *)
Definition warp_call (w : warped) (ratio : D) (a b : TS N) (dropout : D) : res D :=
  match w with
  | WCascade => '(v, _) <- cascadeDistance ratio a b dropout [] ;; Ret v
  | WPlain f => '(v, _) <- f ratio a b dropout [] ;; Ret v
  end.

(** Group::distanceFromCentroid, genex/group/Group.cpp:31-34, for a warped
    distance: the distance and the group with its new cache *)
Definition distanceFromCentroid (d : dataset N) (len : Z) (w : warped) (ratio : D)
  (g : group) (query : TS N) (dropout : D) : res (D * group) :=
  t <- cent_ts d len (g_cent g) ;;
  '(v, c') <- match w with
              | WCascade => cascadeDistanceC ratio (g_cache g) t query dropout
              | WPlain f => '(v, _) <- f ratio t query dropout [] ;; Ret (v, g_cache g)
              end ;;
  Ret (v, mkGroup (g_cent g) c' (g_last g) (g_count g)).

(** ** members *)

(** The loops [while (currentMemberCoord.first != -1) {...; currentMemberCoord =
    memberMap[...].prev;}] (genex/group/Group.cpp:43-60, 80-115, 126-135, 147-153,
    Group.hpp:185-191).  The next coordinate only depends on the position in
    memberMap, so after more steps than memberMap has entries the loop runs in a
    cycle for ever: [Hang]. *)
Fixpoint walk_n {S : Type} (sub : Z) (mm : mmap) (fuel : nat) (cur : coord)
         (body : Z -> Z -> S -> res S) (s : S) : res S :=
  if fst cur =? -1 then Ret s else
  match fuel with
  | O => Hang
  | Datatypes.S fuel' =>
      s' <- body (fst cur) (snd cur) s ;;
      pos <- member_pos sub (fst cur) (snd cur) ;;
      nxt <- aget mm pos ;;
      walk_n sub mm fuel' nxt body s'
  end.
Definition walk {S : Type} (sub : Z) (mm : mmap) (cur : coord)
           (body : Z -> Z -> S -> res S) (s : S) : res S :=
  walk_n sub mm (length mm) cur body s.

(** Group::getMembers, genex/group/Group.cpp:122-137 *)
Definition getMembers (d : dataset N) (len sub : Z) (mm : mmap) (g : group) : res (list (TS N)) :=
  walk sub mm (g_last g) (fun i s acc =>
    t <- getTimeSeries d i s (s + len) ;; Ret (acc ++ [t])%list) [].

(** the coordinates written by save / saveGroupOld: genex/group/Group.hpp:184-192,
    genex/group/Group.cpp:146-153 *)
Definition memberCoords (sub : Z) (mm : mmap) (g : group) : res (list coord) :=
  walk sub mm (g_last g) (fun i s acc => Ret (acc ++ [(i, s)])%list) [].

(** Group::getBestMatch, genex/group/Group.cpp:36-69: state
    (bestSoFarDist, bestSoFarMember); the pair starts value-initialised. *)
Definition bestMember_step (d : dataset N) (len : Z) (w : warped) (ratio : D) (query : TS N)
  (i s : Z) (st : D * coord) : res (D * coord) :=
  t <- getTimeSeries d i s (s + len) ;;
  v <- warp_call w ratio query t (fst st) ;;
  if nltb v (fst st) then Ret (v, (i, s)) else Ret st.

Definition groupBestMatch (d : dataset N) (len sub : Z) (w : warped) (ratio : D)
  (mm : mmap) (g : group) (query : TS N) : res (cand N) :=
  '(bd, bm) <- walk sub mm (g_last g) (bestMember_step d len w ratio query) (ninf, (0, 0)) ;;
  t <- getTimeSeries d (fst bm) (snd bm) (snd bm + len) ;;
  Ret (mkCand t bd).

Section WithAlg.
Variable H : std_alg.

(** body of the loop of Group::intraGroupKSim, genex/group/Group.cpp:82-114:
    state (bestSoFar, k).  The counter extraTimeSeries is not modelled. *)
Definition intra_step (d : dataset N) (len : Z) (w : warped) (ratio : D) (query : TS N)
  (i s : Z) (st : list (cand N) * Z) : res (list (cand N) * Z) :=
  let '(best, k) := st in
  t <- getTimeSeries d i s (s + len) ;;
  if k >? 0 then
    v <- warp_call w ratio query t ninf ;;
    let best := (best ++ [mkCand t v])%list in
    best <- (if k - 1 =? 0 then make_heap H cand_lt best else Ret best) ;;
    Ret (best, k - 1)
  else
    top <- front best ;;
    v <- warp_call w ratio query t (c_dist top) ;;
    if nltb v (c_dist top) then
      best <- push_heap H cand_lt (best ++ [mkCand t v])%list ;;
      best <- pop_heap H cand_lt best ;;
      best <- pop_back best ;;
      Ret (best, k)
    else Ret (best, k).

(** Group::intraGroupKSim, genex/group/Group.cpp:71-120 *)
Definition intraGroupKSim (d : dataset N) (len sub : Z) (w : warped) (ratio : D)
  (mm : mmap) (g : group) (query : TS N) (k : Z) : res (list (cand N)) :=
  '(best, _) <- walk sub mm (g_last g) (intra_step d len w ratio query) ([], k) ;;
  Ret best.

(** ** LocalLengthGroupSpace *)

(** class LocalLengthGroupSpace, genex/group/LocalLengthGroupSpace.hpp:78-82 *)
Record llgs := mkLL {
  ll_length : Z;
  ll_sub : Z;                    (* subTimeSeriesCount *)
  ll_groups : list group;
  ll_map : mmap
}.

(** LocalLengthGroupSpace::LocalLengthGroupSpace,
    genex/group/LocalLengthGroupSpace.cpp:26-31 *)
Definition ll_new (d : dataset N) (len : Z) : res llgs :=
  let sub := ds_maxcol d - len + 1 in
  size <- imul (ds_count d) sub ;;
  if size <? 0 then Throw (StdExc "cannot create std::vector larger than max_size()")
  else Ret (mkLL len sub [] (repeat (0, 0) (Z.to_nat size))).

(** genex/group/LocalLengthGroupSpace.cpp:84-92: state (bestSoFar, bestSoFarIndex);
    the index starts uninitialised *)
Definition nearest_step (d : dataset N) (len : Z) (pw : dist_fn N) (ratio : D)
  (groups : list group) (query : TS N) (i : Z) (st : D * option Z) : res (D * option Z) :=
  g <- aget groups i ;;
  t <- cent_ts d len (g_cent g) ;;
  '(v, _) <- pw ratio t query (fst st) [] ;;
  if nltb v (fst st) then Ret (v, Some i) else Ret st.

(** the logging branch, genex/group/LocalLengthGroupSpace.cpp:69-74; the percentage
    is computed as [counter*100/totalTimeSeries] *)
Definition log_step (doLog : bool) (total counter : Z) : res unit :=
  if doLog then
    r <- cmod counter (Z.quot total 5) ;;
    if r =? 0 then
      _ <- imul counter 100 ;;
      if total =? 0 then UB DivByZero else Ret tt
    else Ret tt
  else Ret tt.

(** genex/group/LocalLengthGroupSpace.cpp:78-105: put one subsequence into a group *)
Definition place (d : dataset N) (pw : dist_fn N) (ratio threshold : D)
  (idx start : Z) (L : llgs) : res llgs :=
  query <- getTimeSeries d idx start (start + ll_length L) ;;
  let n := Z.of_nat (length (ll_groups L)) in
  '(best, bi) <- for_ 0 n (nearest_step d (ll_length L) pw ratio (ll_groups L) query) (ninf, None) ;;
  '(groups, bi) <-
    (if nltb (ndiv threshold (nofZ 2)) best || (n =? 0) then
       g <- setCentroid d (ll_length L) (group_new (ll_length L)) idx start ;;
       Ret ((ll_groups L ++ [g])%list, n)
     else bi <- init_get bi ;; Ret (ll_groups L, bi)) ;;
  g <- aget groups bi ;;
  '(g', mm') <- addMember (ll_sub L) g (ll_map L) idx start ;;
  groups' <- aset groups bi g' ;;
  Ret (mkLL (ll_length L) (ll_sub L) groups' mm').

(** LocalLengthGroupSpace::generateGroups,
    genex/group/LocalLengthGroupSpace.cpp:50-110.  [doLog]: at least 10 seconds
    have passed since the last log line.  Output is not modelled. *)
Definition generateGroups (doLog : bool) (d : dataset N) (pw : dist_fn N) (ratio threshold : D)
  (L : llgs) : res llgs :=
  total <- imul (ll_sub L) (ds_count d) ;;
  '(_, L') <- for_ 0 (ll_sub L) (fun start st =>
    for_ 0 (ds_count d) (fun idx (st : Z * llgs) =>
      let counter := fst st + 1 in
      _ <- log_step doLog total counter ;;
      len <- getItemLength d idx ;;
      if len <? start + ll_length (snd st) then Ret (counter, snd st)
      else L' <- place d pw ratio threshold idx start (snd st) ;; Ret (counter, L')) st) (0, L) ;;
  Ret L'.

(** LocalLengthGroupSpace::getGroup, genex/group/LocalLengthGroupSpace.cpp:117-123 *)
Definition getGroup (L : llgs) (idx : Z) : res group :=
  if (idx <? 0) || (Z.of_nat (length (ll_groups L)) <=? idx)
  then Throw (GenexExc "Group index is out of range")
  else aget (ll_groups L) idx.

(** LocalLengthGroupSpace::getBestGroup,
    genex/group/LocalLengthGroupSpace.cpp:163-178: the groups (with caches), the
    best distance and the best group (None = nullptr) *)
Definition bestGroup_step (d : dataset N) (len : Z) (w : warped) (ratio : D) (query : TS N)
  (i : Z) (st : list group * (D * option Z)) : res (list group * (D * option Z)) :=
  let '(groups, (bd, bg)) := st in
  g <- aget groups i ;;
  '(v, g') <- distanceFromCentroid d len w ratio g query bd ;;
  groups <- aset groups i g' ;;
  if nltb v bd then Ret (groups, (v, Some i)) else Ret (groups, (bd, bg)).

Definition getBestGroup (d : dataset N) (w : warped) (ratio : D) (L : llgs) (query : TS N) (dropout : D)
  : res (llgs * (D * option Z)) :=
  '(groups, r) <- for_ 0 (Z.of_nat (length (ll_groups L)))
      (bestGroup_step d (ll_length L) w ratio query) (ll_groups L, (dropout, None)) ;;
  Ret (mkLL (ll_length L) (ll_sub L) groups (ll_map L), r).

(** group_index_t, genex/group/Group.hpp:42-56 *)
Record gindex := mkGI { gi_length : Z; gi_index : Z; gi_members : Z; gi_dist : D }.
Definition gi_lt (x y : gindex) : bool := nltb (gi_dist x) (gi_dist y).

(** [while (k + bestSoFar.front().members <= 0) {...}],
    genex/group/LocalLengthGroupSpace.cpp:196-200, 213-217.  Each iteration removes
    an element, so the length is enough fuel. *)
Fixpoint trim (fuel : nat) (heap : list gindex) (k : Z) : res (list gindex * Z) :=
  top <- front heap ;;
  if k + gi_members top <=? 0 then
    match fuel with
    | O => UB EmptyFront
    | S fuel' =>
        heap <- pop_heap H gi_lt heap ;;
        heap <- pop_back heap ;;
        trim fuel' heap (k + gi_members top)
    end
  else Ret (heap, k).

(** body of LocalLengthGroupSpace::interLevelKSim,
    genex/group/LocalLengthGroupSpace.cpp:185-220: state (groups, bestSoFar, k) *)
Definition inter_step (d : dataset N) (len : Z) (w : warped) (ratio : D) (query : TS N)
  (i : Z) (st : list group * list gindex * Z) : res (list group * list gindex * Z) :=
  let '(groups, best, k) := st in
  g <- aget groups i ;;
  if k <=? 0 then
    top <- front best ;;
    '(v, g') <- distanceFromCentroid d len w ratio g query (gi_dist top) ;;
    groups <- aset groups i g' ;;
    if nltb v (gi_dist top) then
      best <- push_heap H gi_lt (best ++ [mkGI len i (g_count g) v])%list ;;
      '(best, k) <- trim (length best) best (k - g_count g) ;;
      Ret (groups, best, k)
    else Ret (groups, best, k)
  else
    '(v, g') <- distanceFromCentroid d len w ratio g query ninf ;;
    groups <- aset groups i g' ;;
    let best := (best ++ [mkGI len i (g_count g) v])%list in
    let k := k - g_count g in
    if k <=? 0 then
      best <- make_heap H gi_lt best ;;
      '(best, k) <- trim (length best) best k ;;
      Ret (groups, best, k)
    else Ret (groups, best, k).

(** LocalLengthGroupSpace::interLevelKSim,
    genex/group/LocalLengthGroupSpace.cpp:180-222 *)
Definition interLevelKSim (d : dataset N) (w : warped) (ratio : D) (L : llgs) (query : TS N)
  (best : list gindex) (k : Z) : res (llgs * list gindex * Z) :=
  '(groups, best, k) <- for_ 0 (Z.of_nat (length (ll_groups L)))
      (inter_step d (ll_length L) w ratio query) (ll_groups L, best, k) ;;
  Ret (mkLL (ll_length L) (ll_sub L) groups (ll_map L), best, k).

End WithAlg.
End Group.
Arguments cache : clear implicits.
Arguments group : clear implicits.
Arguments llgs : clear implicits.
Arguments gindex : clear implicits.
Arguments warped : clear implicits.
Arguments centroid : clear implicits.
