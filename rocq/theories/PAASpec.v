(** Specification of piecewise aggregate approximation. *)
From Verif Require Import Base Num.
Local Open Scope Z_scope.

Section Spec.
Context {N : Num}.
Notation D := (D N).

(** the mean of a list of values, summed from left to right *)
Definition mean (xs : list D) : D := ndiv (fold_left nadd xs n0) (nofZ (Z.of_nat (length xs))).

(** block j: the values j*b, ..., j*b + b - 1, as far as there are any *)
Definition block (b : nat) (xs : list D) (j : nat) : list D := firstn b (skipn (j * b) xs).

(** the means of all blocks; the last block may be shorter *)
Definition block_means (b : nat) (xs : list D) : list D :=
  map (fun j => mean (block b xs j)) (seq 0 ((length xs + b - 1) / b)).

End Spec.
