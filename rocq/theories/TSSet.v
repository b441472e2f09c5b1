(** genex/TimeSeriesSet.{hpp,cpp}: a data set in memory (the text reader and
    writer are in Loader.v, the exhaustive search in BruteForce.v). *)
From Verif Require Import Base Num TimeSeries.
Local Open Scope string_scope.
Local Open Scope Z_scope.

Section TSSet.
Context {N : Num}.
Notation D := (D N).

(** Fields of class TimeSeriesSet, genex/TimeSeriesSet.hpp:144-153.
    [ds_data = None] is the null pointer. *)
Record dataset := mkDS {
  ds_data : option (list D);
  ds_names : list string;
  ds_lengths : list Z;
  ds_count : Z;                (* itemCount *)
  ds_maxcol : Z;               (* maxCol *)
  ds_path : string;
  ds_normalized : bool
}.

(** TimeSeriesSet::TimeSeriesSet, genex/TimeSeriesSet.cpp:20-23 *)
Definition ds_new : dataset := mkDS None [] [] 0 0 "" false.

(** TimeSeriesSet::clearData, genex/TimeSeriesSet.cpp:172-179: neither
    [lengths] nor [normalized] is reset. *)
Definition clearData (d : dataset) : dataset :=
  mkDS None [] (ds_lengths d) 0 0 (ds_path d) (ds_normalized d).

(** getItemLength, genex/TimeSeriesSet.hpp:78: no bounds check *)
Definition getItemLength (d : dataset) (i : Z) : res Z := aget (ds_lengths d) i.

(** isLoaded, genex/TimeSeriesSet.hpp:127 *)
Definition isLoaded (d : dataset) : bool := match ds_data d with Some _ => true | None => false end.

(** [std::to_string(int)] *)
Definition digit (n : Z) : string :=
  String (Ascii.ascii_of_nat (48 + Z.to_nat n)) EmptyString.
Fixpoint dec_digits (fuel : nat) (n : Z) : string :=
  match fuel with
  | O => ""
  | S f => if n <? 10 then digit n else dec_digits f (n / 10) ++ digit (n mod 10)
  end.
Definition to_string (n : Z) : string :=
  if n <? 0 then "-" ++ dec_digits (S (Z.to_nat (Z.log2 (- n)))) (- n)
  else dec_digits (S (Z.to_nat (Z.log2 n))) n.

(** TimeSeriesSet::getTimeSeriesName, genex/TimeSeriesSet.cpp:30-41 *)
Definition getTimeSeriesName (d : dataset) (index : Z) : res string :=
  if (index <? 0) || (ds_count d <=? index) then Throw (GenexExc "Invalid time series index")
  else if index <? Z.of_nat (length (ds_names d)) then aget (ds_names d) index
  else Ret (to_string index).

(** [this->data + index * this->maxCol]: the rest of the buffer from there *)
Definition row_ptr (d : dataset) (index : Z) : res (list D) :=
  buf <- deref (ds_data d) ;;
  off <- imul index (ds_maxcol d) ;;
  if (0 <=? off) && (off <=? Z.of_nat (length buf)) then Ret (skipn (Z.to_nat off) buf)
  else UB OutOfBounds.

(** TimeSeriesSet::getTimeSeries, genex/TimeSeriesSet.cpp:181-196.  The
    returned object refers to the data set's memory; here it carries the memory
    as it is now. *)
Definition getTimeSeries (d : dataset) (index start end_ : Z) : res (TS N) :=
  if (index <? 0) || (ds_count d <=? index) then Throw (GenexExc "Invalid time series index")
  else if (start <? 0) && (end_ <? 0) then
    mem <- row_ptr d index ;; len <- getItemLength d index ;; Ret (ts_view mem index 0 len)
  else
    let bad := Throw (GenexExc "Invalid starting or ending position of a time series") in
    if (start <? 0) || (end_ <=? start) then bad else
    len <- getItemLength d index ;;
    if len <? end_ then bad else
    mem <- row_ptr d index ;; Ret (ts_view mem index start end_).

(** The loops [for (ts..itemCount) for (unsigned i = 0; i < lengths[ts]; i++)]
    of normalize over the positions of all values
    (genex/TimeSeriesSet.cpp:251-252, 271-273, 283-285).  [i] is unsigned, so a
    negative length is converted to a number near 2^32 and the loop leaves the
    buffer.  The product of the position is an int; the sum is unsigned and, being
    the sum of two numbers below 2^31, exact. *)
Definition each_value {S : Type} (d : dataset) (body : Z -> S -> res S) (s : S) : res S :=
  for_ 0 (ds_count d) (fun ts s =>
    len <- getItemLength d ts ;;
    if len <? 0 then UB ForeverUnsigned else
    for_ 0 len (fun i s => row <- imul ts (ds_maxcol d) ;; body (row + i) s) s) s.

(** genex/TimeSeriesSet.cpp:253-259: state (MIN, MAX) *)
Definition minmax_step (buf : list D) (pos : Z) (s : D * D) : res (D * D) :=
  v <- aget buf pos ;;
  let mx := if nltb (snd s) v then v else snd s in
  let mn := if nltb v (fst s) then v else fst s in
  Ret (mn, mx).

(** TimeSeriesSet::normalize, genex/TimeSeriesSet.cpp:198-293: the new data
    set and (MIN, MAX) *)
Definition normalize (d : dataset) : res (dataset * (D * D)) :=
  if ds_count d =? 0 then Throw (GenexExc "No data to normalize") else
  buf <- deref (ds_data d) ;;
  '(mn, mx) <- each_value d (minmax_step buf) (ninf, nninf) ;;
  let diff := nsub mx mn in
  buf' <- (if neqb diff n0 then
             if negb (neqb mx n0) then each_value d (fun pos b => aset b pos n0) buf else Ret buf
           else each_value d (fun pos b => v <- aget b pos ;; aset b pos (ndiv (nsub v mn) diff)) buf) ;;
  Ret (mkDS (Some buf') (ds_names d) (ds_lengths d) (ds_count d) (ds_maxcol d) (ds_path d) true, (mn, mx)).

End TSSet.
Arguments dataset : clear implicits.
