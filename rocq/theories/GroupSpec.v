(** Specification of grouping: which subsequences there are, and the "leader"
    clustering rule, in terms of coordinates (series, start) and a distance
    between them. *)
From Verif Require Import Base Num NumLaws TimeSeries TSSet DataSpec.

Section Spec.
Context {N : Num}.
Notation D := (D N).

(** (series, start) *)
Notation coord := (Z * Z)%type.

(** the subsequence of length [len] at [c] lies inside its series *)
Definition is_sub (rows : list (list D)) (len : Z) (c : coord) : Prop :=
  exists row, row_of rows (fst c) = Some row /\ 0 <= snd c /\ snd c + len <= Z.of_nat (length row).

(** its values *)
Definition sub_values (rows : list (list D)) (len : Z) (c : coord) : list D :=
  match row_of rows (fst c) with
  | Some row => slice row (snd c) (snd c + len)
  | None => []
  end.

(** A grouping is a list of groups in order of creation.  A group is the list of
    its members, the most recent first; its representative is the member that
    founded it, the last of the list. *)
Definition rep (g : list coord) : coord := last g (0, 0).

(** One step of leader clustering with threshold t: [c] founds a new group if
    all representatives are farther than t/2; otherwise it joins the first of the
    groups with the nearest representative. *)
Definition founds (dist : coord -> coord -> D) (t : D) (gs : list (list coord)) (c : coord) : Prop :=
  forall g, In g gs -> nlt (ndiv t (nofZ 2)) (dist (rep g) c).

Definition joins (dist : coord -> coord -> D) (t : D) (gs : list (list coord)) (c : coord) (k : nat) : Prop :=
  exists g, nth_error gs k = Some g /\
    nle (dist (rep g) c) (ndiv t (nofZ 2)) /\
    (forall g', In g' gs -> nle (dist (rep g) c) (dist (rep g') c)) /\
    (forall j g', (j < k)%nat -> nth_error gs j = Some g' -> nlt (dist (rep g) c) (dist (rep g') c)).

(** the grouping after [c] was added to group number [k] *)
Definition add_to (gs : list (list coord)) (k : nat) (c : coord) : list (list coord) :=
  upd gs k (c :: nth k gs []).

Definition leader_step (dist : coord -> coord -> D) (t : D)
  (gs : list (list coord)) (c : coord) (gs' : list (list coord)) : Prop :=
  (founds dist t gs c /\ gs' = (gs ++ [[c]])%list) \/
  (exists k, joins dist t gs c k /\ gs' = add_to gs k c).

(** processing the subsequences [cs] one after the other *)
Inductive runs (step : list (list coord) -> coord -> list (list coord) -> Prop)
  : list coord -> list (list coord) -> Prop :=
| runs_nil : runs step [] []
| runs_snoc cs gs c gs' : runs step cs gs -> step gs c gs' -> runs step (cs ++ [c]) gs'.

(** processing order: by start position, then by series *)
Definition before (c c' : coord) : Prop := snd c < snd c' \/ (snd c = snd c' /\ fst c < fst c').

End Spec.
