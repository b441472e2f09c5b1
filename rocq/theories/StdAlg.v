(** The heap and sort algorithms of the C++ standard library, as used by the
    code (std::make_heap, std::push_heap, std::pop_heap, std::sort).  The model
    does not fix an implementation: it takes any [std_alg] that satisfies the
    contract [std_ok] of the C++ standard.  A call whose precondition fails
    (the comparison is not a strict weak order on the elements, or the range is
    not a heap) is undefined behaviour. *)
From Coq Require Import Permutation.
From Verif Require Import Base.

(** is [lt] a strict weak order on the elements of [l] *)
Definition swo_b {A} (lt : A -> A -> bool) (l : list A) : bool :=
  forallb (fun x => negb (lt x x) &&
    forallb (fun y => forallb (fun z =>
      (negb (lt x y && lt y z) || lt x z) &&
      (negb (negb (lt x y) && negb (lt y z)) || negb (lt x z))) l) l) l.

(** no parent is smaller than its child: element i has parent (i-1)/2 *)
Definition is_heap_b {A} (lt : A -> A -> bool) (l : list A) : bool :=
  forallb (fun i =>
    match nth_error l ((i - 1) / 2)%nat, nth_error l i with
    | Some p, Some c => negb (lt p c)
    | _, _ => true
    end) (seq 1 (length l - 1)).

(** an implementation of the algorithms *)
Record std_alg := mkAlg {
  al_make : forall A, (A -> A -> bool) -> list A -> list A;
  al_push : forall A, (A -> A -> bool) -> list A -> list A;
  al_pop : forall A, (A -> A -> bool) -> list A -> list A;
  al_sort : forall A, (A -> A -> bool) -> list A -> list A
}.

(** [alg.heap.operations], [alg.sort] of the C++ standard *)
Record std_ok (H : std_alg) : Prop := {
  so_make : forall A lt (l : list A), swo_b lt l = true ->
    Permutation l (al_make H A lt l) /\ is_heap_b lt (al_make H A lt l) = true;
  so_push : forall A lt (l : list A) x, swo_b lt (l ++ [x])%list = true -> is_heap_b lt l = true ->
    Permutation (l ++ [x])%list (al_push H A lt (l ++ [x])%list) /\
    is_heap_b lt (al_push H A lt (l ++ [x])%list) = true;
  so_pop : forall A lt (x : A) l, swo_b lt (x :: l) = true -> is_heap_b lt (x :: l) = true ->
    exists l', al_pop H A lt (x :: l) = (l' ++ [x])%list /\ Permutation l l' /\ is_heap_b lt l' = true;
  so_sort : forall A lt (l : list A), swo_b lt l = true ->
    Permutation l (al_sort H A lt l) /\
    forall i x y, nth_error (al_sort H A lt l) i = Some x -> nth_error (al_sort H A lt l) (S i) = Some y ->
      lt y x = false
}.

Section Calls.
Variable H : std_alg.
Context {A : Type}.
Variable lt : A -> A -> bool.

(** std::make_heap(v.begin(), v.end()) *)
Definition make_heap (v : list A) : res (list A) :=
  if swo_b lt v then Ret (al_make H A lt v) else UB BadOrder.

(** std::push_heap(v.begin(), v.end()): all but the last element form a heap *)
Definition push_heap (v : list A) : res (list A) :=
  if swo_b lt v && is_heap_b lt (removelast v) then Ret (al_push H A lt v) else UB BadOrder.

(** std::pop_heap(v.begin(), v.end()) *)
Definition pop_heap (v : list A) : res (list A) :=
  match v with
  | [] => UB EmptyFront
  | _ => if swo_b lt v && is_heap_b lt v then Ret (al_pop H A lt v) else UB BadOrder
  end.

(** std::sort(v.begin(), v.end()) *)
Definition sort (v : list A) : res (list A) :=
  if swo_b lt v then Ret (al_sort H A lt v) else UB BadOrder.

(** v.front() *)
Definition front (v : list A) : res A :=
  match v with [] => UB EmptyFront | x :: _ => Ret x end.

(** v.pop_back() *)
Definition pop_back (v : list A) : res (list A) :=
  match v with [] => UB EmptyFront | _ => Ret (removelast v) end.
End Calls.
