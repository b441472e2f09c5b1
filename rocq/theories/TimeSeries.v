(** genex/TimeSeries.hpp, genex/TimeSeries.cpp: the read-only view of a time
    series.  (The mutable object with its envelope cache is in TSObject.v.) *)
From Verif Require Import Base Num.
Local Open Scope string_scope.
Local Open Scope Z_scope.

Section TS.
Context {N : Num}.

(** Fields of class TimeSeries (genex/TimeSeries.hpp:163-178) relevant for
    reading: [ts_mem] is the memory reachable from the [data] pointer (the
    rest of the buffer it points into); the series is [start, end). *)
Record TS := mkTS {
  ts_mem : list (D N);
  ts_index : Z;
  ts_start : Z;
  ts_end : Z;
  ts_length : Z
}.

(** TimeSeries(data, index, start, end), genex/TimeSeries.cpp:18-27 *)
Definition ts_view (mem : list (D N)) (index start end_ : Z) : TS :=
  mkTS mem index start end_ (end_ - start).

(** TimeSeries(data, length), genex/TimeSeries.cpp:29-35, and an owning series
    holding exactly the given points (TimeSeries(int length), 37-46, after
    the points were written). *)
Definition ts_of_list (l : list (D N)) : TS :=
  mkTS l 0 0 (Z.of_nat (length l)) (Z.of_nat (length l)).

(** TimeSeries::operator[], genex/TimeSeries.cpp:127-133 *)
Definition ts_get (t : TS) (idx : Z) : res (D N) :=
  if (idx <? 0) || (ts_length t <=? idx)
  then Throw (GenexExc "Data point index is out of range")
  else aget (ts_mem t) (ts_start t + idx).

(** The points of a series. *)
Definition ts_points (t : TS) : list (D N) :=
  firstn (Z.to_nat (ts_length t)) (skipn (Z.to_nat (ts_start t)) (ts_mem t)).

(** The view lies inside the memory it points to. *)
Definition ts_ok (t : TS) : Prop :=
  0 <= ts_start t /\ 0 <= ts_length t /\ ts_end t = ts_start t + ts_length t /\
  ts_start t + ts_length t <= Z.of_nat (length (ts_mem t)).

End TS.
Arguments TS : clear implicits.
