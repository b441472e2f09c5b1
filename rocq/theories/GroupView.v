(** What can be observed of the groups of a data set, as it is written by
    saveGroups: for each length the list of groups, each with its representative,
    its count and its members. *)
From Verif Require Import Base Num TimeSeries TSSet StdAlg Candidate Group GroupSpace DataProofs DataSpec GroupSpec.
Local Open Scope Z_scope.
Local Open Scope list_scope.

Section View.
Context {N : Num}.

(** representative, count, members from the most recent to the first *)
Record gview := mkView { v_rep : coord; v_count : Z; v_members : list coord }.

Definition group_view (sub : Z) (mm : mmap) (g : group N) : res gview :=
  ms <- memberCoords sub mm g ;;
  Ret (mkView (match g_cent g with CView i s => (i, s) | COwn _ => (0, 0) end) (g_count g) ms).

Fixpoint group_views (sub : Z) (mm : mmap) (groups : list (group N)) : res (list gview) :=
  match groups with
  | [] => Ret []
  | g :: groups' => v <- group_view sub mm g ;; vs <- group_views sub mm groups' ;; Ret (v :: vs)
  end.

(** the groups of length [l]; None if that length is not grouped *)
Definition level_view (g : gset N) (l : Z) : option (res (list gview)) :=
  match gt_groups g with
  | None => None
  | Some gs =>
      if l <? 0 then None else
      match nth_error (gg_levels gs) (Z.to_nat l) with
      | Some (Some L) => Some (group_views (ll_sub L) (ll_map L) (ll_groups L))
      | _ => None
      end
  end.

Definition groups_at (g : gset N) (l : Z) : Z :=
  match level_view g l with Some (Ret vs) => Z.of_nat (length vs) | _ => 0 end.

(** the view of a grouping in the sense of GroupSpec.v *)
Definition view_of (ms : list coord) : gview := mkView (rep ms) (Z.of_nat (length ms)) ms.

(** [vs] partitions the subsequences of length [l]: each of them is in exactly one
    group, nothing else is in any group, groups are not empty, counts are right,
    and the representative of a group is its first member *)
Definition partitions (rows : list (list (D N))) (l : Z) (vs : list gview) : Prop :=
  NoDup (concat (map v_members vs)) /\
  (forall c, In c (concat (map v_members vs)) <-> is_sub rows l c) /\
  forall v, In v vs -> v_members v <> [] /\ v_count v = Z.of_nat (length (v_members v)) /\
    v_rep v = last (v_members v) (0, 0).

(** the lengths that are grouped: all from 2 on, or only the item length *)
Definition grouped_length (d : dataset N) (whole : bool) (l : Z) : Prop :=
  if whole then l = ds_maxcol d else 2 <= l <= ds_maxcol d.
End View.
