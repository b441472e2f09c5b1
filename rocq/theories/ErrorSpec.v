(** Comparing the answers of two searches for the same query. *)
From Coq Require Import Reals.
From Verif Require Import Base Num NumLaws NumXR TSSet Distance DistSpec Candidate Group GroupSpace GroupView SearchSpec QuerySpec.
Local Open Scope list_scope.

(** At every position that both lists have, the first one is not farther. *)
Definition dominated {N : Num} (cs cs' : list (cand N)) : Prop :=
  forall i x y, nth_error cs i = Some x -> nth_error cs' i = Some y -> nle (c_dist x) (c_dist y).

(** the distances of a list of answers *)
Definition distances (cs : list (cand XR)) (xs : list R) : Prop := map (fun c => c_dist c) cs = map Fin xs.

(** The error of the answers [xs], compared with the answers [ys]: the mean of the
    differences of their distances.
    /repo/scripts/common.py:142-145 (compute_rel_error). *)
Definition mean_error (xs ys : list R) : R :=
  (fold_right Rplus 0 (map (fun p => fst p - snd p) (combine xs ys)) / INR (length xs))%R.

(** no two groups of the lengths [S] have the same distance to the query *)
Definition groups_apart {N : Num} (rows : list (list (D N))) (k : kind) (ratio : D N) (q : list (D N)) (S : Z -> Prop) (g : gset N) : Prop :=
  forall l v l' v' x x', S l -> group_in g l v -> S l' -> group_in g l' v' ->
  group_dist rows k ratio q l v x -> group_dist rows k ratio q l' v' x' -> neqv x x' -> (l, v) = (l', v').
