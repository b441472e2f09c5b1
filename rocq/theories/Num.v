(** The number operations used by the code on [data_t] (= double,
    genex/TimeSeries.hpp:20).  The model is parametric in them; NumB64.v
    instantiates them with IEEE-754 binary64 and NumXR.v with exact
    extended reals. *)
From Verif Require Import Base.

Record Num := mkNum {
  D : Type;
  nltb : D -> D -> bool;        (* operator< (false on NaN) *)
  neqb : D -> D -> bool;        (* operator== (false on NaN) *)
  nadd : D -> D -> D;
  nsub : D -> D -> D;
  nmul : D -> D -> D;
  ndiv : D -> D -> D;
  nsqrt : D -> D;               (* std::sqrt *)
  nabs : D -> D;                (* std::abs(double), fabs *)
  nofZ : Z -> D;                (* int -> double conversion *)
  nfloor : D -> option Z;       (* floor(x) as an integer; None on NaN and infinities *)
  ninf : D;                     (* INF, genex/TimeSeries.hpp:12 *)
  nninf : D;                    (* -INF *)
  neps : D                      (* EPS = 1e-9, genex/TimeSeries.hpp:13 *)
}.

Arguments nltb {n}. Arguments neqb {n}. Arguments nadd {n}. Arguments nsub {n}.
Arguments nmul {n}. Arguments ndiv {n}. Arguments nsqrt {n}. Arguments nabs {n}.
Arguments nofZ {n}. Arguments nfloor {n}. Arguments ninf {n}. Arguments nninf {n}.
Arguments neps {n}.

(** std::min(a,b) returns b if b < a, else a; std::max(a,b) returns b if a < b, else a. *)
Definition nmin {N : Num} (a b : D N) : D N := if nltb b a then b else a.
Definition nmax {N : Num} (a b : D N) : D N := if nltb a b then b else a.
Definition n0 {N : Num} : D N := nofZ 0.

(** Range of C++ [int], used for double -> int conversions. *)
Definition int_min : Z := -2147483648.
Definition int_max : Z := 2147483647.

(** the value of a signed computation, undefined outside the range of [int] *)
Definition icheck (z : Z) : res Z :=
  if (int_min <=? z) && (z <=? int_max) then Ret z else UB IntOverflow.
Definition imul (a b : Z) : res Z := icheck (a * b).
Definition iadd (a b : Z) : res Z := icheck (a + b).
Definition isub (a b : Z) : res Z := icheck (a - b).
