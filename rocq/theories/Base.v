(** Outcomes, loops and arrays used by the whole model. *)
From Coq Require Export String.
From Coq Require Export ZArith Lia Bool List.
Export ListNotations.
Open Scope Z_scope.

(** C++ exceptions.  [GenexExc] is genex::GenexException
    (genex/Exception.hpp), [StdExc] any other std::exception. *)
Inductive exn :=
| GenexExc (msg : string)
| StdExc (what : string).

(** Kinds of undefined behaviour the model distinguishes. *)
Inductive ub :=
| OutOfBounds        (* access outside an array, vector or buffer *)
| NullDeref          (* dereference of a null pointer *)
| Uninit             (* use of an indeterminate value *)
| DivByZero          (* integer division or modulo by zero *)
| UseAfterFree       (* access to a deleted object *)
| BadConversion      (* double -> int conversion out of range *)
| EmptyFront         (* front()/pop on an empty container *)
| BadOrder           (* comparator is not a strict weak order in std::sort/heap *)
| ForeverUnsigned    (* loop runs past the buffer because of a signed/unsigned comparison *)
| IntOverflow.       (* result of a signed computation does not fit an int *)

(** Outcome of running a piece of C++ code. [Hang]: an infinite loop. *)
Inductive res (A : Type) :=
| Ret (a : A)
| Throw (e : exn)
| UB (u : ub)
| Hang.
Arguments Ret {A}. Arguments Throw {A}. Arguments UB {A}. Arguments Hang {A}.

Definition bind {A B} (x : res A) (f : A -> res B) : res B :=
  match x with
  | Ret a => f a
  | Throw e => Throw e
  | UB u => UB u
  | Hang => Hang
  end.

Notation "x <- e ;; f" := (bind e (fun x => f))
  (at level 61, e at next level, right associativity).
Notation "' p <- e ;; f" := (bind e (fun p => f))
  (at level 61, p pattern, e at next level, right associativity).

(** [for (int i = i0; i < i0 + n; i++) s = body(i, s);] *)
Fixpoint for_n {S : Type} (n : nat) (i : Z) (body : Z -> S -> res S) (s : S) : res S :=
  match n with
  | O => Ret s
  | Datatypes.S n' => s' <- body i s ;; for_n n' (i + 1) body s'
  end.

(** [for (int i = lo; i < hi; i++) s = body(i, s);] *)
Definition for_ {S : Type} (lo hi : Z) (body : Z -> S -> res S) (s : S) : res S :=
  for_n (Z.to_nat (hi - lo)) lo body s.

(** The same loop with [break]: the body returns the new state and whether
    to leave the loop.  The result says whether the loop was left by [break]. *)
Fixpoint forb_n {S : Type} (n : nat) (i : Z) (body : Z -> S -> res (S * bool)) (s : S)
  : res (S * bool) :=
  match n with
  | O => Ret (s, false)
  | Datatypes.S n' =>
      '(s', brk) <- body i s ;;
      if brk then Ret (s', true) else forb_n n' (i + 1) body s'
  end.

Definition forb_ {S : Type} (lo hi : Z) (body : Z -> S -> res (S * bool)) (s : S)
  : res (S * bool) :=
  forb_n (Z.to_nat (hi - lo)) lo body s.

(** Array / vector access without bounds check ([operator[]] of std::vector,
    raw pointers): outside the array it is undefined behaviour. *)
Definition aget {A} (l : list A) (i : Z) : res A :=
  if (0 <=? i) then
    match nth_error l (Z.to_nat i) with Some x => Ret x | None => UB OutOfBounds end
  else UB OutOfBounds.

Fixpoint upd {A} (l : list A) (n : nat) (v : A) : list A :=
  match l, n with
  | [], _ => []
  | _ :: l', O => v :: l'
  | x :: l', Datatypes.S n' => x :: upd l' n' v
  end.

Definition aset {A} (l : list A) (i : Z) (v : A) : res (list A) :=
  if (0 <=? i) && (i <? Z.of_nat (length l)) then Ret (upd l (Z.to_nat i) v)
  else UB OutOfBounds.

(** Matrices as [vector<vector<T>>]. *)
Definition mget {A} (m : list (list A)) (i j : Z) : res A :=
  row <- aget m i ;; aget row j.

Definition mset {A} (m : list (list A)) (i j : Z) (v : A) : res (list (list A)) :=
  row <- aget m i ;; row' <- aset row j v ;; aset m i row'.

Definition mat {A} (m n : Z) (v : A) : list (list A) :=
  repeat (repeat v (Z.to_nat n)) (Z.to_nat m).

(** Reading a variable or array cell that may be uninitialised. *)
Definition init_get {A} (o : option A) : res A :=
  match o with Some v => Ret v | None => UB Uninit end.

(** Dereferencing a pointer that may be null. *)
Definition deref {A} (o : option A) : res A :=
  match o with Some v => Ret v | None => UB NullDeref end.
