(** Missing values: what std::stod makes of "nan".  A missing value is a number that does not
    equal itself. *)
From Verif Require Import Base Num TimeSeries.
Local Open Scope list_scope.

Section Spec.
Context {N : Num}.
Notation D := (D N).

Definition missing (x : D) : Prop := neqb x x = false.

(** a series with a missing value; with a missing value before its last point *)
Definition gaps (t : TS N) : Prop := Exists missing (ts_points t).
Definition early_gaps (t : TS N) : Prop := Exists missing (removelast (ts_points t)).

(** the pairs of points of which neither is missing *)
Definition known (x : D) : bool := neqb x x.
Definition known_pairs (xs ys : list D) : list (D * D) := filter (fun c => known (fst c) && known (snd c)) (combine xs ys).
End Spec.
