(** Specification of saving and loading groups. *)
From Coq Require Import Permutation.
From Verif Require Import Base Num TimeSeries Distance DistSpec TSSet StdAlg Candidate Group GroupSpace DataSpec GroupSpec GroupView
  QuerySpec PropsGroup Archive.
Local Open Scope Z_scope.
Local Open Scope list_scope.

Section Spec.
Context {N : Num}.
Notation D := (D N).

(** Grouped data sets with the data [rows], as they arise by grouping, by any
    queries, and by saving the groups and loading them into any data set with the
    same data.  [b] tells whether the groups come from a file.  Groups of whole
    series are not saved again once they come from a file. *)
Inductive history (H : std_alg) (rows : list (list D)) (k : kind) (thr : D) (whole : bool) (maxcol : Z) : bool -> gset N -> Prop :=
| by_grouping d old clock ratio threads g total :
    holds d rows -> ds_maxcol d = maxcol -> 1 <= threads -> log_safe d clock ->
    groupAllLengths clock ratio (mkGS d old) (kind_name k) thr threads whole = (g, Ret total) ->
    history H rows k thr whole maxcol false g
| by_query b g g' : history H rows k thr whole maxcol b g -> asked H g g' -> history H rows k thr whole maxcol b g'
| by_loading b g f f' d' old g' :
    history H rows k thr whole maxcol b g -> (whole = true -> b = false) ->
    saveToFile true f g = (f', Ret tt) ->
    holds d' rows -> ds_maxcol d' = maxcol -> loadFromFile f' (mkGS d' old) = (g', Ret tt) ->
    history H rows k thr whole maxcol true g'.

(** the same group, possibly with its members in another order *)
Definition same_group (v v' : gview) : Prop :=
  v_rep v' = v_rep v /\ v_count v' = v_count v /\ Permutation (v_members v) (v_members v').

(** the same groups, threshold and distance *)
Definition same_groups (g g' : gset N) : Prop :=
  isGrouped g' = isGrouped g /\ getDistanceName g' = getDistanceName g /\ getThreshold g' = getThreshold g /\
  getTotalNumberOfGroups g' = getTotalNumberOfGroups g /\
  forall l, match level_view g l, level_view g' l with
            | Some (Ret vs), Some (Ret vs') => Forall2 same_group vs vs'
            | None, None => True
            | _, _ => False
            end.
End Spec.
