(** Specification for C85: thresholds that are not numbers a distance can exceed, or that
    every distance exceeds. *)
From Verif Require Import Base Num NumLaws TSSet DataSpec GroupSpec DistSpec.
Local Open Scope Z_scope.

Section Spec.
Context {N : Num}.

(** the subsequence of this length that is processed first *)
Definition first_sub (rows : list (list (D N))) (l : Z) (c : Z * Z) : Prop :=
  is_sub rows l c /\ forall c', is_sub rows l c' -> c' = c \/ before c c'.

(** its distance from another subsequence of this length is a number below infinity *)
Definition measured (k : kind) (rows : list (list (D N))) (l : Z) (c0 c : Z * Z) : Prop :=
  nlt (pair_value k (sub_values rows l c0) (sub_values rows l c)) ninf.

End Spec.
