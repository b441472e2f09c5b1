(** Piecewise aggregate approximation: genex/PAAWrapper.hpp, genex/PAAWrapper.cpp. *)
From Verif Require Import Base Num TimeSeries Lemire Distance TSSet StdAlg Candidate.
Local Open Scope string_scope.
Local Open Scope Z_scope.

Section PAA.
Context {N : Num}.
Notation D := (D N).

(** Members of class PAAWrapper, genex/PAAWrapper.hpp:52-55.  [blockSize] is not
    initialised by the constructor (None).  The referenced data set is an argument of
    the functions. *)
Record paa := mkPAA { paa_block : option Z; paa_mat : list (list (TS N)) }.

(** TimeSeries(int length), genex/TimeSeries.cpp:37-46: zeros.  [new data_t[n]] with
    negative n throws std::bad_array_new_length. *)
Definition ts_zeros (n : Z) : res (list D) :=
  if n <? 0 then Throw (StdExc "std::bad_array_new_length") else Ret (repeat n0 (Z.to_nat n)).

(** [dest[idx] = v] for an owning series of [length dest] points,
    genex/TimeSeries.cpp:127-133 *)
Definition ts_put (dest : list D) (idx : Z) (v : D) : res (list D) :=
  if (idx <? 0) || (Z.of_nat (length dest) <=? idx) then Throw (GenexExc "Data point index is out of range")
  else aset dest idx v.

(** int division and remainder *)
Definition iquot (a b : Z) : res Z := if b =? 0 then UB DivByZero else Ret (Z.quot a b).
Definition irem (a b : Z) : res Z := if b =? 0 then UB DivByZero else Ret (Z.rem a b).

(** body of the loop of tsPAA, genex/PAAWrapper.cpp:35-41: state (sum, count, dest) *)
Definition paa_step (source : TS N) (blockSize : Z) (i : Z) (st : D * Z * list D) : res (D * Z * list D) :=
  let '(sum, count, dest) := st in
  let count := count + 1 in
  v <- ts_get source i ;;
  let sum := nadd sum v in
  if (count =? blockSize) || (i =? ts_length source - 1) then
    q <- iquot i blockSize ;;
    dest <- ts_put dest q (ndiv sum (nofZ count)) ;;
    Ret (n0, 0, dest)
  else Ret (sum, count, dest).

(** tsPAA, genex/PAAWrapper.cpp:26-44 *)
Definition tsPAA (source : TS N) (blockSize : Z) : res (TS N) :=
  q <- iquot (ts_length source - 1) blockSize ;;
  dest <- ts_zeros (q + 1) ;;
  '(_, _, dest) <- for_ 0 (ts_length source) (paa_step source blockSize) (n0, 0, dest) ;;
  Ret (ts_of_list dest).

(** PAAWrapper::PAAWrapper, genex/PAAWrapper.cpp:15-21 *)
Definition paa_new (d : dataset N) : res paa :=
  mat <- for_ 0 (ds_count d) (fun i mat => t <- getTimeSeries d i (-1) (-1) ;; Ret (mat ++ [[t]])%list) [] ;;
  Ret (mkPAA None mat).

(** genex/PAAWrapper.cpp:56-59; the row as far as it was filled is kept if an exception
    leaves the loop *)
Fixpoint gen_row (d : dataset N) (itemLength blockSize i : Z) (n : nat) (offset : Z) (row : list (TS N))
  : list (TS N) * res unit :=
  match n with
  | O => (row, Ret tt)
  | S n' =>
      match (t <- getTimeSeries d i offset itemLength ;; tsPAA t blockSize) with
      | Ret p => gen_row d itemLength blockSize i n' (offset + 1) (row ++ [p])%list
      | Throw e => (row, Throw e)
      | UB u => (row, UB u)
      | Hang => (row, Hang)
      end
  end.

(** genex/PAAWrapper.cpp:54-60: [paaMat[i].clear()] outside the vector is undefined *)
Fixpoint gen_rows (d : dataset N) (itemLength blockSize : Z) (n : nat) (i : Z) (mat : list (list (TS N)))
  : list (list (TS N)) * res unit :=
  match n with
  | O => (mat, Ret tt)
  | S n' =>
      if Z.of_nat (length mat) <=? i then (mat, UB OutOfBounds) else
      let '(row, r) := gen_row d itemLength blockSize i (Z.to_nat blockSize) 0 [] in
      let mat := upd mat (Z.to_nat i) row in
      match r with
      | Ret _ => gen_rows d itemLength blockSize n' (i + 1) mat
      | _ => (mat, r)
      end
  end.

(** PAAWrapper::generatePAAMatrix, genex/PAAWrapper.cpp:46-62.  Line 52 uses the largest
    length as an index into the vector of lengths. *)
Definition generatePAAMatrix (w : paa) (d : dataset N) (blockSize : Z) : paa * res unit :=
  if blockSize <? 1 then (w, Throw (GenexExc "Block size for PAA must be positive")) else
  match getItemLength d (ds_maxcol d) with
  | Ret itemLength =>
      let blockSize := Z.min blockSize itemLength in
      let '(mat, r) := gen_rows d itemLength blockSize (Z.to_nat (ds_count d)) 0 (paa_mat w) in
      match r with
      | Ret _ => (mkPAA (Some blockSize) mat, Ret tt)
      | _ => (mkPAA (paa_block w) mat, r)
      end
  | Throw e => (w, Throw e)
  | UB u => (w, UB u)
  | Hang => (w, Hang)
  end.

(** TimeSeries::average, genex/TimeSeries.cpp:168-174: the variable [sum] is not
    initialised before values are added to it *)
Definition ts_average (t : TS N) : res D :=
  sum <- for_ 0 (ts_length t) (fun i sum =>
           s <- init_get sum ;; v <- aget (ts_mem t) (ts_start t + i) ;; Ret (Some (nadd s v))) None ;;
  s <- init_get sum ;; Ret (ndiv s (nofZ (ts_length t))).

(** PAAWrapper::getPAA, genex/PAAWrapper.cpp:64-96 *)
Definition getPAA (w : paa) (d : dataset N) (index start end_ : Z) : res (TS N) :=
  if (index <? 0) || (ds_count d <=? index) then Throw (GenexExc "Invalid time series index") else
  len <- getItemLength d index ;;
  let '(start, end_) := if (start <? 0) && (end_ <? 0) then (0, len) else (start, end_) in
  if (start <? 0) || (end_ <=? start) || (len <? end_)
  then Throw (GenexExc "Invalid starting or ending position of a time series") else
  blockSize <- init_get (paa_block w) ;;
  offset <- irem start blockSize ;;
  row <- aget (paa_mat w) index ;;
  wholePAA <- aget row offset ;;
  q <- iquot (end_ - start - 1) blockSize ;;
  let paaLength := q + 1 in
  dest <- ts_zeros paaLength ;;
  paaStart <- iquot (start - offset) blockSize ;;
  paaEnd <- iquot (end_ - offset) blockSize ;;
  dest <- for_ paaStart paaEnd (fun i dest => v <- ts_get wholePAA i ;; ts_put dest (i - paaStart) v) dest ;;
  r <- irem (end_ - offset) blockSize ;;
  dest <- (if r =? 0 then Ret dest else
           q <- iquot (end_ - start) blockSize ;;
           t <- getTimeSeries d index (start + q * blockSize) end_ ;;
           a <- ts_average t ;;
           ts_put dest (paaLength - 1) a) ;;
  Ret (ts_of_list dest).

(** body of the innermost loop of getKBestMatchesPAA, genex/PAAWrapper.cpp:121-148:
    state (bestSoFar, k) *)
Definition paa_search_step (H : std_alg) (f : dist_fn N) (ratio : D) (w : paa) (d : dataset N) (paaQuery : TS N)
  (idx len start : Z) (st : list (cand N) * Z) : res (list (cand N) * Z) :=
  let '(best, k) := st in
  t <- getTimeSeries d idx start (start + len) ;;
  p <- getPAA w d idx start (start + len) ;;
  if k >? 0 then
    '(v, _) <- f ratio paaQuery p ninf [] ;;
    let best := (best ++ [mkCand t v])%list in
    best <- (if k - 1 =? 0 then make_heap H cand_lt best else Ret best) ;;
    Ret (best, k - 1)
  else
    top <- front best ;;
    '(v, _) <- f ratio paaQuery p (c_dist top) [] ;;
    if nltb v (c_dist top) then
      best <- push_heap H cand_lt (best ++ [mkCand t v])%list ;;
      best <- pop_heap H cand_lt best ;;
      best <- pop_back best ;;
      Ret (best, k)
    else Ret (best, k).

(** PAAWrapper::getKBestMatchesPAA, genex/PAAWrapper.cpp:98-156 *)
Definition getKBestMatchesPAA (H : std_alg) (ratio : D) (w : paa) (d : dataset N) (query : TS N) (k : Z) (name : string)
  : res (list (cand N)) :=
  if k <=? 0 then Throw (GenexExc "K must be positive") else
  f <- getDistanceFromName (name ++ "_dtw") ;;
  n <- getItemLength d (ds_maxcol d) ;;
  blockSize <- init_get (paa_block w) ;;
  paaQuery <- tsPAA query blockSize ;;
  '(best, _) <- for_ 0 (ds_count d) (fun idx st =>
      for_ 2 (n + 1) (fun len st =>
        for_ 0 (n - len + 1) (fun start st => paa_search_step H f ratio w d paaQuery idx len start st) st) st) ([], k) ;;
  sort H cand_lt best.

End PAA.
Arguments paa : clear implicits.
