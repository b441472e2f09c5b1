(** Specification for the text format of groups. *)
From Coq Require Import String Ascii Permutation.
From Verif Require Import Base Num TimeSeries TSSet Candidate Group GroupSpace Loader LoaderSpec DataSpec GroupSpec GroupView OldFormat.
Local Open Scope string_scope.
Local Open Scope Z_scope.

(** a piece of text that is read as one word *)
Definition is_word (w : string) : Prop := w <> "" /\ every (fun c => ~ sep_char spaces c) w.

Section Spec.
Context {N : Num}.
Notation D := (D N).

(** Every value of the data, printed and read again, is the same.  (For doubles and
    sixteen digits this holds for some values and not for others.) *)
Definition printed_exactly (put16 : D -> string) (scan : string -> option D) (rows : list (list D)) : Prop :=
  forall row v, In row rows -> In v row -> is_word (put16 v) /\ scan (put16 v) = Some v.

(** a number that can be read again, whatever its value then *)
Definition printed_readably (put : D -> string) (scan : string -> option D) (v : D) : Prop :=
  is_word (put v) /\ scan (put v) <> None.

(** what can be seen of a group: the values of its representative and its members *)
Record content := mkContent { ct_values : list D; ct_count : Z; ct_members : list coord }.
Definition content_of (d : dataset N) (len sub : Z) (mm : mmap) (g : group N) : res content :=
  t <- cent_ts d len (g_cent g) ;; ms <- memberCoords sub mm g ;; Ret (mkContent (ts_points t) (g_count g) ms).
Fixpoint contents (d : dataset N) (len sub : Z) (mm : mmap) (gs : list (group N)) : res (list content) :=
  match gs with
  | [] => Ret []
  | g :: gs' => v <- content_of d len sub mm g ;; vs <- contents d len sub mm gs' ;; Ret (v :: vs)
  end.
(** the groups for one length; None: there are none *)
Definition level_contents (g : gset N) (len : Z) : option (res (list content)) :=
  match gt_groups g with
  | None => None
  | Some gs =>
      if len <? 0 then None else
      match nth_error (gg_levels gs) (Z.to_nat len) with
      | Some (Some L) => Some (contents (gt_data g) len (ll_sub L) (ll_map L) (ll_groups L))
      | _ => None
      end
  end.

(** the same values and members, the latter possibly in another order *)
Definition same_content (v v' : content) : Prop :=
  ct_values v' = ct_values v /\ ct_count v' = ct_count v /\ Permutation (ct_members v) (ct_members v').

(** The same groups for the same distance; nothing is said about the threshold. *)
Definition same_text_groups (g g' : gset N) : Prop :=
  isGrouped g' = isGrouped g /\ getDistanceName g' = getDistanceName g /\
  getTotalNumberOfGroups g' = getTotalNumberOfGroups g /\
  forall l, match level_contents g l, level_contents g' l with
            | Some (Ret vs), Some (Ret vs') => Forall2 same_content vs vs'
            | None, None => True
            | _, _ => False
            end.
End Spec.
