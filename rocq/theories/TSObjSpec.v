(** What is observed of time series objects, and histories of operations. *)
From Verif Require Import Base Num TimeSeries TSObject.
Local Open Scope Z_scope.

Section Spec.
Context {N : Num}.
Notation D := (D N).

(** the points an object stands for: as many as its length, each readable *)
Definition value_of (h : heap N) (o : obj N) (pts : list D) : Prop :=
  Z.of_nat (length pts) = o_length o /\
  forall k x, nth_error pts k = Some x -> rd h (o_data o) (o_start o + Z.of_nat k) = Ret x.
Definition value (w : world N) (i : nat) (pts : list D) : Prop :=
  exists o, get_obj w i = Some o /\ value_of (w_heap w) o pts.

(** cell [a] of block [b] is a point of the object *)
Definition covers (o : obj N) (b : nat) (a : Z) : Prop :=
  exists off, o_data o = Some (b, off) /\ off + o_start o <= a < off + o_start o + o_length o.

(** the pointer refers to a block that exists or existed, or is null *)
Definition known (h : heap N) (p : ptr) : Prop :=
  match p with None => True | Some (b, _) => (b < length h)%nat end.

(** Adding [oj] to [oi] reads no point of [oj] that was written before: [oj] does not begin
    before [oi] and reach into it. *)
Definition no_overrun (oi oj : obj N) : Prop :=
  forall b off off', o_data oi = Some (b, off) -> o_data oj = Some (b, off') ->
    off + o_start oi <= off' + o_start oj \/ off' + o_start oj + o_length oj <= off + o_start oi.

(** object [i] owns block [b] *)
Definition owns (w : world N) (i b : nat) : Prop :=
  exists o off, get_obj w i = Some o /\ o_owner o = true /\ o_data o = Some (b, off).
(** object [i] refers to block [b] *)
Definition refers (w : world N) (i b : nat) : Prop :=
  exists o off, get_obj w i = Some o /\ o_data o = Some (b, off).

(** object [m] does not use memory owned by [i] *)
Definition apart_from (w : world N) (i m : nat) : Prop := forall b, owns w i b -> ~ refers w m b.

(** programs only use pointers they got from somewhere, and do not themselves free
    the memory of an object *)
Definition legal (w : world N) (x : op N) : Prop :=
  match x with
  | OView p _ _ _ | OData p _ => known (w_heap w) p
  | OFree b => forall i, ~ owns w i b
  | _ => True
  end.

(** histories of operations satisfying [ok], without undefined behaviour *)
Definition defined {A} (r : res A) : Prop := match r with Ret _ | Throw _ => True | _ => False end.
Inductive history (ok : world N -> op N -> Prop) : list (op N) -> world N -> Prop :=
| no_history : history ok [] world0
| one_more l x w w' r : history ok l w -> legal w x -> ok w x -> exec x w = (w', r) -> defined r -> history ok (l ++ [x]) w'.

(** the program itself allocated block [b] in the course of history [l] *)
Definition program_block (ok : world N -> op N -> Prop) (l : list (op N)) (b : nat) : Prop :=
  exists l1 cells l2 w, l = (l1 ++ OBuf cells :: l2)%list /\ history ok l1 w /\ b = length (w_heap w).
Definition allocated (w : world N) (b : nat) : Prop := exists cells, nth_error (w_heap w) b = Some (Some cells).

Definition any (w : world N) (x : op N) : Prop := True.

(** An operation that leaves alone what other objects have cached: it writes no cell of
    an object whose envelope is cached (the target of += excepted), and assigns to no
    such object. *)
Definition caching (w : world N) (i : nat) (o : obj N) : Prop := get_obj w i = Some o /\ o_valid o = true.
Definition quiet (w : world N) (x : op N) : Prop :=
  match x with
  | OWrite b k _ => forall i o, caching w i o -> ~ covers o b k
  | OSet i k _ => forall oi b off, get_obj w i = Some oi -> o_data oi = Some (b, off) ->
      forall j o, caching w j o -> ~ covers o b (off + o_start oi + k)
  | OAdd i _ => forall oi b a, get_obj w i = Some oi -> covers oi b a ->
      forall j o, caching w j o -> j <> i -> ~ covers o b a
  | OAssign i _ | OMove i _ => forall o, get_obj w i = Some o -> o_valid o = false
  | _ => True
  end.
End Spec.
