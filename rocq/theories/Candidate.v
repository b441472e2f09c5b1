(** candidate_time_series_t, genex/TimeSeries.hpp:207-235 *)
From Verif Require Import Base Num TimeSeries.

Section Candidate.
Context {N : Num}.
Notation D := (D N).

Record cand := mkCand { c_data : TS N; c_dist : D }.

(** candidate_time_series_t::operator<, genex/TimeSeries.hpp:212-227 *)
Definition cand_lt (x y : cand) : bool :=
  if nltb (nabs (nsub (c_dist x) (c_dist y))) neps then
    if ts_index (c_data x) =? ts_index (c_data y) then
      if ts_start (c_data x) =? ts_start (c_data y) then
        ts_length (c_data x) <? ts_length (c_data y)
      else ts_start (c_data x) <? ts_start (c_data y)
    else ts_index (c_data x) <? ts_index (c_data y)
  else nltb (c_dist x) (c_dist y).

(** candidate_time_series_t::candidate_time_series_t(), genex/TimeSeries.hpp:229 *)
Definition cand_default : cand := mkCand (ts_of_list []) n0.

End Candidate.
Arguments cand : clear implicits.
