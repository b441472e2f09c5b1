(** genex/distance/*.hpp, genex/distance/Distance.cpp *)
From Verif Require Import Base Num TimeSeries Lemire.
Local Open Scope string_scope.
Local Open Scope Z_scope.

Section Distance.
Context {N : Num}.
Notation D := (D N).

(** A distance metric class DM with accumulator type T.  [reduce] never reads
    its argument [next] before overwriting it, so it is a function of [prev].
    [norm]/[normDTW] use the two series only through their lengths.
    [m_dflt] is the value-initialised T: 0.0 for data_t, nullptr (None) for
    data_t*. [m_inv] is inverseNorm together with the reading of T as data_t. *)
Record Metric := mkMetric {
  acc : Type;
  m_dflt : option acc;
  m_init : acc;
  m_reduce : acc -> D -> D -> acc;
  m_norm : acc -> Z -> Z -> D;
  m_normDTW : acc -> Z -> Z -> D;
  m_inv : option ((D -> Z -> Z -> D) * (acc -> D))
}.

(** Euclidean::dist, genex/distance/Euclidean.hpp:14-17; pow(d,2) = d*d *)
Definition euc_dist (x y : D) : D := let d := nsub x y in nmul d d.

(** class Euclidean, genex/distance/Euclidean.hpp:11-47 *)
Definition Euclidean : Metric :=
  {| acc := D; m_dflt := Some n0; m_init := n0;
     m_reduce := fun prev x y => nadd prev (euc_dist x y);
     m_norm := fun total l1 l2 => nsqrt (ndiv total (nofZ (Z.max l1 l2)));
     m_normDTW := fun total l1 l2 => ndiv (nsqrt total) (nofZ (2 * Z.max l1 l2));
     m_inv := Some (fun d l1 l2 => nmul (nmul d d) (nofZ (Z.max l1 l2)), fun t => t) |}.

(** class Manhattan, genex/distance/Manhattan.hpp:11-43 *)
Definition Manhattan : Metric :=
  {| acc := D; m_dflt := Some n0; m_init := n0;
     m_reduce := fun prev x y => nadd prev (nabs (nsub x y));
     m_norm := fun total l1 l2 => ndiv total (nofZ (Z.max l1 l2));
     m_normDTW := fun total l1 l2 => ndiv total (nofZ (2 * Z.max l1 l2));
     m_inv := None |}.

(** class Chebyshev, genex/distance/Chebyshev.hpp:11-43 *)
Definition Chebyshev : Metric :=
  {| acc := D; m_dflt := Some n0; m_init := nninf;
     m_reduce := fun prev x y => nmax prev (nabs (nsub x y));
     m_norm := fun total _ _ => total;
     m_normDTW := fun total _ _ => total;
     m_inv := None |}.

(** class Cosine, genex/distance/Cosine.hpp:11-45; the accumulator is a heap
    array of three doubles. *)
Definition Cosine : Metric :=
  {| acc := D * D * D; m_dflt := None; m_init := (n0, n0, n0);
     m_reduce := fun '(p0, p1, p2) x y =>
       (nadd p0 (nmul x x), nadd p1 (nmul y y), nadd p2 (nmul x y));
     m_norm := fun '(t0, t1, t2) _ _ => ndiv t2 (nsqrt (nmul t0 t1));
     m_normDTW := fun '(t0, t1, t2) _ _ => ndiv t2 (nsqrt (nmul t0 t1));
     m_inv := None |}.

(** class Sorensen, genex/distance/Sorensen.hpp:11-44 *)
Definition Sorensen : Metric :=
  {| acc := D * D; m_dflt := None; m_init := (n0, n0);
     m_reduce := fun '(p0, p1) x y => (nadd p0 (nabs (nsub x y)), nadd p1 (nabs (nadd x y)));
     m_norm := fun '(t0, t1) _ _ => ndiv t0 t1;
     m_normDTW := fun '(t0, t1) _ _ => ndiv t0 t1;
     m_inv := None |}.

(** calculateWarpingBandSize, genex/distance/Distance.cpp:89-93; the global
    warpingBandRatio is an argument. *)
Definition band (ratio : D) (len : Z) : res Z :=
  match nfloor (nmul (nofZ len) ratio) with
  | Some b => if (int_min <=? b) && (b <=? int_max) then Ret (Z.min b (len - 1))
              else UB BadConversion
  | None => UB BadConversion
  end.

Definition matching := list (Z * Z).

Section Warped.
Variable M : Metric.
Variables a b : TS N.

Notation m := (ts_length a).
Notation n := (ts_length b).

Definition cells : Type := list (list (option (acc M))) * list (list D).

(** [cost[i][j] = reduce(init(), prev, a[i], b[j]); ncost[i][j] = normDTW(...)]:
    genex/distance/Distance.hpp:117-119, 124-126, 132-134, 162-164 *)
Definition put_cell (i j : Z) (prev : acc M) (c : cells) : res cells :=
  x <- ts_get a i ;; y <- ts_get b j ;;
  let v := m_reduce M prev x y in
  cost' <- mset (fst c) i j (Some v) ;;
  ncost' <- mset (snd c) i j (m_normDTW M v m n) ;;
  Ret (cost', ncost').

(** first column, genex/distance/Distance.hpp:122-127 *)
Definition col_step (i : Z) (c : cells) : res cells :=
  p <- mget (fst c) (i - 1) 0 ;; p <- deref p ;; put_cell i 0 p c.

(** first row, genex/distance/Distance.hpp:130-135 *)
Definition row_step (j : Z) (c : cells) : res cells :=
  p <- mget (fst c) 0 (j - 1) ;; p <- deref p ;; put_cell 0 j p c.

(** body of the inner loop, genex/distance/Distance.hpp:145-166 *)
Definition cell_step (r i j : Z) (st : cells * D) : res (cells * D) :=
  let '(c, best) := st in
  if j =? 0 then
    v <- mget (snd c) i j ;; Ret (c, nmin best v)
  else
    ij1 <- (if (i - r <=? j - 1) && (j - 1 <=? i + r) then mget (snd c) i (j - 1) else Ret ninf) ;;
    i1j1 <- mget (snd c) (i - 1) (j - 1) ;;
    i1j <- (if (j - r <=? i - 1) && (i - 1 <=? j + r) then mget (snd c) (i - 1) j else Ret ninf) ;;
    p_up <- mget (fst c) (i - 1) j ;;
    minPrev <- (if nltb i1j1 ij1 && nltb i1j1 i1j then mget (fst c) (i - 1) (j - 1)
                else if nltb ij1 i1j then mget (fst c) i (j - 1)
                else Ret p_up) ;;
    p <- deref minPrev ;;
    c' <- put_cell i j p c ;;
    v <- mget (snd c') i j ;;
    Ret (c', nmin best v).

(** body of the outer loop, genex/distance/Distance.hpp:140-171 *)
Definition row_loop (r : Z) (dropout : D) (i : Z) (c : cells) : res (cells * bool) :=
  '(c', best) <- for_ (Z.max (i - r) 0) (Z.min (i + r) (n - 1) + 1) (cell_step r i) (c, ninf) ;;
  Ret (c', nltb dropout best).

(** back-tracking loop, genex/distance/Distance.hpp:183-209.  Every iteration
    either lowers i+j or changes nothing but [matching]: then the loop never
    ends, [Hang] (see bt_stuck_forever in DtwHang.v). *)
Fixpoint backtrack (ncost : list (list D)) (fuel : nat) (i j : Z) (mt : matching) : res matching :=
  if (i =? 0) && (j =? 0) then Ret mt else
  match fuel with
  | O => Hang
  | S fuel' =>
      let mt := (mt ++ [(i, j)])%list in
      if i =? 0 then backtrack ncost fuel' i (j - 1) mt
      else if j =? 0 then backtrack ncost fuel' (i - 1) j mt
      else
        d <- mget ncost (i - 1) (j - 1) ;;
        u <- mget ncost (i - 1) j ;;
        l <- mget ncost i (j - 1) ;;
        let mn := nmin d (nmin u l) in
        if neqb d mn then backtrack ncost fuel' (i - 1) (j - 1) mt
        else if neqb u mn then backtrack ncost fuel' (i - 1) j mt
        else if neqb l mn then backtrack ncost fuel' i (j - 1) mt
        else Hang
  end.

(** the matrix part, genex/distance/Distance.hpp:110-180: fills the matrices
    and returns them with the result *)
Definition warped_fill (r : Z) (dropout : D) : res (cells * D) :=
  if (m <? 0) || (n <? 0) then Throw (StdExc "vector::vector") else
  let cost := mat m n (m_dflt M) in
  ncost <- mset (mat m n n0) (m - 1) (n - 1) ninf ;;
  c <- put_cell 0 0 (m_init M) (cost, ncost) ;;
  c <- for_ 1 (Z.min (2 * r + 1) m) col_step c ;;
  c <- for_ 1 (Z.min (2 * r + 1) n) row_step c ;;
  '(c, dropped) <- forb_ 1 m (row_loop r dropout) c ;;
  result <- (if dropped then Ret ninf else mget (snd c) (m - 1) (n - 1)) ;;
  Ret (c, result).

(** warpedDistance<DM,T>, genex/distance/Distance.hpp:82-221.  Takes the
    matching vector passed by reference and returns (distance, new matching).
    Not modelled: the memory leaked by [clean] skipping row 0 and column 0. *)
Definition warpedDistance (ratio dropout : D) (mt : matching) : res (D * matching) :=
  r <- band ratio (Z.max m n) ;;
  if (m =? 1) && (n =? 1) then
    x <- ts_get a 0 ;; y <- ts_get b 0 ;;
    Ret (m_normDTW M (m_reduce M (m_init M) x y) m n, mt)
  else
    '(c, result) <- warped_fill r dropout ;;
    mt' <- backtrack (snd c) (Z.to_nat (m + n)) (m - 1) (n - 1) mt ;;
    Ret (result, rev (mt' ++ [(0, 0)])).

(** pairwiseDistance, genex/distance/Distance.hpp:227-264 (no inverseNorm) and
    270-308 (inverseNorm) *)
Definition pairwise_step (dropout : D) (i : Z) (total : acc M) : res (acc M * bool) :=
  x <- ts_get a i ;; y <- ts_get b i ;;
  let total := m_reduce M total x y in
  let exceeds :=
    match m_inv M with
    | None => nltb dropout (m_norm M total m n)
    | Some (_, rd) => nltb dropout (rd total)
    end in
  Ret (total, exceeds).

Definition pairwiseDistance (dropout : D) (mt : matching) : res (D * matching) :=
  if negb (m =? n) then
    Throw (GenexExc "Two time series must have the same length for pairwise distance")
  else
    let dropout' := match m_inv M with None => dropout | Some (inv, _) => inv dropout m n end in
    '(total, dropped) <- forb_ 0 m (pairwise_step dropout') (m_init M) ;;
    Ret (if dropped then ninf else m_norm M total m n, mt).

End Warped.

(** TimeSeries::generateKeoghLU, genex/TimeSeries.cpp:195-212: (lower, upper).
    Here without the cache (see TSObject.v for the cache). *)
Definition keoghLU (t : TS N) (warpingBand : Z) : res (list (option D) * list (option D)) :=
  if ts_length t <? 0 then Throw (StdExc "bad_array_new_length") else
  lower_upper_lemire (skipn (Z.to_nat (ts_start t)) (ts_mem t)) (ts_length t)
                     (Z.min warpingBand (ts_length t - 1)).

(** Euclidean::normDTW on plain doubles *)
Definition euc_normDTW (total : D) (a b : TS N) : D :=
  m_normDTW Euclidean total (ts_length a) (ts_length b).

(** kimLowerBound, genex/distance/Distance.cpp:97-110 *)
Definition kimLowerBound (a b : TS N) : res D :=
  let al := ts_length a in let bl := ts_length b in let l := Z.min al bl in
  result <- (if l =? 1 then
               x <- ts_get a 0 ;; y <- ts_get b 0 ;; Ret (euc_dist x y)
             else if l >? 1 then
               x <- ts_get a 0 ;; y <- ts_get b 0 ;;
               x' <- ts_get a (al - 1) ;; y' <- ts_get b (bl - 1) ;;
               Ret (nadd (euc_dist x y) (euc_dist x' y'))
             else Ret n0) ;;
  Ret (euc_normDTW result a b).

(** loop body of keoghLowerBound, genex/distance/Distance.cpp:123-131; the
    flag of the result says that the loop condition [lb < idropout] failed *)
Definition keogh_step (b : TS N) (lo up : list (option D)) (idropout : D) (i : Z) (lb : D)
  : res (D * bool) :=
  if nltb lb idropout then
    x <- ts_get b i ;;
    u <- aget up i ;; u <- init_get u ;;
    if nltb u x then Ret (nadd lb (euc_dist x u), false)
    else
      l <- aget lo i ;; l <- init_get l ;;
      if nltb x l then Ret (nadd lb (euc_dist x l), false) else Ret (lb, false)
  else Ret (lb, true).

(** keoghLowerBound, genex/distance/Distance.cpp:112-133 *)
Definition keoghLowerBound (ratio : D) (a b : TS N) (dropout : D) : res D :=
  let len := Z.min (ts_length a) (ts_length b) in
  let mx := Z.max (ts_length a) (ts_length b) in
  w <- band ratio mx ;;
  '(lo, up) <- keoghLU a w ;;
  let idropout := nmul (nmul dropout (nofZ 2)) (nofZ mx) in
  let idropout := nmul idropout idropout in
  '(lb, _) <- forb_ 0 len (keogh_step b lo up idropout) n0 ;;
  Ret (euc_normDTW lb a b).

(** crossKeoghLowerBound, genex/distance/Distance.cpp:135-144 *)
Definition crossKeoghLowerBound (ratio : D) (a b : TS N) (dropout : D) : res D :=
  lb <- keoghLowerBound ratio a b dropout ;;
  if nltb dropout lb then Ret ninf
  else lb2 <- keoghLowerBound ratio b a dropout ;; Ret (nmax lb lb2).

(** cascadeDistance, genex/distance/Distance.cpp:146-162 *)
Definition cascadeDistance (ratio : D) (a b : TS N) (dropout : D) (mt : matching)
  : res (D * matching) :=
  lb <- kimLowerBound a b ;;
  if nltb dropout lb then Ret (ninf, mt) else
  lb <- crossKeoghLowerBound ratio a b dropout ;;
  if nltb dropout lb then Ret (ninf, mt) else
  warpedDistance Euclidean a b ratio dropout mt.

(** A resolved distance function (dist_t, genex/distance/Distance.hpp:28-29):
    series, series, cut-off, matching, with the global band ratio. *)
Definition dist_fn : Type := D -> TS N -> TS N -> D -> matching -> res (D * matching).

(** gAllDistance / gAllDistanceName, genex/distance/Distance.cpp:30-48 *)
Definition allDistances : list (string * dist_fn) :=
  let two (nm : string) (M : Metric) :=
    [(nm, fun _ a b d mt => pairwiseDistance M a b d mt);
     ((nm ++ "_dtw")%string, fun ratio a b d mt => warpedDistance M a b ratio d mt)] in
  (two "euclidean" Euclidean ++ two "manhattan" Manhattan ++ two "chebyshev" Chebyshev
   ++ two "cosine" Cosine ++ two "sorensen" Sorensen)%list.

Fixpoint assoc {A} (k : string) (l : list (string * A)) : option A :=
  match l with
  | [] => None
  | (k', v) :: l' => if String.eqb k k' then Some v else assoc k l'
  end.

(** getDistanceFromName, genex/distance/Distance.cpp:67-76 *)
Definition getDistanceFromName (name : string) : res dist_fn :=
  match assoc name allDistances with
  | Some f => Ret f
  | None => Throw (GenexExc ("Cannot find distance with name: " ++ name))
  end.

(** GlobalGroupSpace::_loadDistance, genex/group/GlobalGroupSpace.cpp:46-56:
    (pairwise, warped) *)
Definition loadDistance (name : string) : res (dist_fn * dist_fn) :=
  pw <- getDistanceFromName name ;;
  w <- (if String.eqb name "euclidean" then
          Ret (fun ratio a b d mt => cascadeDistance ratio a b d mt)
        else getDistanceFromName (name ++ "_dtw")) ;;
  Ret (pw, w).

End Distance.
Arguments Metric : clear implicits.
Arguments acc {N}.
Arguments dist_fn : clear implicits.
