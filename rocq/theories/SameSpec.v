(** Specification for C86: subsequences with the same values. *)
From Verif Require Import Base Num TSSet DataSpec GroupSpec.
Local Open Scope Z_scope.

Section Spec.
Context {N : Num}.

(** two subsequences of length [l] have the same values *)
Definition alike (rows : list (list (D N))) (l : Z) (c c' : Z * Z) : Prop :=
  is_sub rows l c /\ is_sub rows l c' /\ sub_values rows l c = sub_values rows l c'.

End Spec.
