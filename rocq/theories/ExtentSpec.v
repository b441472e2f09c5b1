(** What is expected of the experiments with queries against groups. *)
From Coq Require Import String.
From Verif Require Import Base Experiment Extent.
Local Open Scope Z_scope.
Local Open Scope list_scope.

(** [ke] is an integer nearest to [i + 1] thousandths of [n] *)
Definition thousandths (n : Z) (i : nat) (ke : Z) : Prop := Z.abs (1000 * ke - (Z.of_nat i + 1) * n) <= 500.

(** the thresholds the groups may have been made with *)
Definition similarities : list string := ["0.1"; "0.2"; "0.3"; "0.4"; "0.5"]%string.

Section Spec.
Variables (T A E : Type).

(** [es]: errors of the searches for the [k] best matches of [q] that look at 1, 2, 3, ...
    thousandths of the [n] subsequences, compared with [bf]; up to the first tiny error, or
    all thousand *)
Definition explored (l : glib T A E) (k n : Z) (q : query) (bf : A) (es : list E) : Prop :=
  (0 < length es <= 1000)%nat /\
  forall i e, nth_error es i = Some e ->
    (exists ke t t' a, thousandths n i ke /\ g_ksim _ _ _ l t k ke q = Some (a, t') /\ g_err _ _ _ l a bf = Some e) /\
    ((S i < length es)%nat -> g_tiny _ _ _ l e = false) /\
    (S i = length es -> g_tiny _ _ _ l e = true \/ length es = 1000%nat).

Definition in_one (f : files A E) (d : string) (o : one A) : Prop := In o (rows_at d (f_one _ _ f)).
Definition in_many (f : files A E) (d : string) (o : many E) : Prop := In o (rows_at d (f_many _ _ f)).

(** one entry for each method and query *)
Definition once (f : files A E) : Prop := forall d,
  NoDup (map (fun o => (o_method _ o, o_query _ o)) (rows_at d (f_one _ _ f))) /\
  NoDup (map (fun o => (m_method _ o, m_query _ o)) (rows_at d (f_many _ _ f))).

(** [f'] has what is in [f], in the same order, and perhaps more *)
Definition grown (f f' : files A E) : Prop := forall d, exists x y,
  rows_at d (f_one _ _ f') = rows_at d (f_one _ _ f) ++ x /\ rows_at d (f_many _ _ f') = rows_at d (f_many _ _ f) ++ y.
(** nothing the run asks for raises, with the recorded answers [f] *)
Record works (l : glib T A E) (k : Z) (f : files A E) : Prop := {
  w_load : g_load _ _ _ l <> None;
  w_groups : forall t d st, g_exists _ _ _ l d st = true -> g_groups _ _ _ l t d st <> None;
  w_sim : forall t q, g_sim _ _ _ l t q <> None;
  w_ksim : forall t ke q, k <= ke -> g_ksim _ _ _ l t k ke q <> None;
  w_err : forall t ke q a t' d b, g_ksim _ _ _ l t k ke q = Some (a, t') -> in_one f d b -> o_method _ b = "bf"%string -> g_err _ _ _ l a (o_answer _ b) <> None }.

(** what a run leaves behind for a query, distance and threshold it has come to the end
    with: the answer for one match and, if there is an exhaustive answer, the errors *)
Definition served (d st : string) (q : query) (f : files A E) : Prop :=
  (exists o, in_one f d o /\ o_method _ o = ("genex_" ++ st)%string /\ o_query _ o = q) /\
  ((exists b, in_one f d b /\ o_method _ b = "bf"%string /\ o_query _ b = q) ->
   exists o, in_many f d o /\ m_method _ o = ("genex_" ++ st)%string /\ m_query _ o = q).
End Spec.
