(** What is expected of the experiment scripts. *)
From Coq Require Import String.
From Verif Require Import Base Experiment.
Local Open Scope Z_scope.
Local Open Scope list_scope.

(** random numbers are within the bounds asked for, and as many as asked for *)
Definition fair (n : nat) (count len : Z) (rnd : nat -> list draw) : Prop :=
  forall i, length (rnd i) = n /\
    Forall (fun x => 0 <= fst x < count /\ 0 <= fst (snd x) < len /\ 0 <= snd (snd x) < len) (rnd i).

(** a stretch of at least two points of a series of a data set: from [q_start] up to and
    without [q_end] *)
Definition stretch_of (count len : Z) (q : query) : Prop :=
  0 <= q_index q < count /\ 0 <= q_start q /\ q_start q + 2 <= q_end q <= len.

(** files left by a process that does [es] and is killed after any number of its steps *)
Definition xleft (es : list xevent) (x x' : xdisk) : Prop := exists n, x' = fold_left xafter (firstn n es) x.
Definition xfinished (es : list xevent) (x : xdisk) : xdisk := fold_left xafter es x.

(** any number of runs of the experiment scripts with the same number [k] of matches, each
    killed at some point or not *)
Inductive runs (l : xlib) (k : Z) : xdisk -> xdisk -> Prop :=
| r_none x : runs l k x x
| r_run m ds fresh x x1 x2 : xleft (fst (experiment l m k ds fresh x)) x x1 -> runs l k x1 x2 -> runs l k x x2.

(** the results file can be read: [[]] if there is none *)
Definition xreadable (x : xdisk) (r : results) : Prop :=
  match x_results x with None => r = [] | Some (XWhole r') => r = r' | Some XCut => False end.

(** the entry for a method, distance and query is in the results *)
Definition has (r : results) (d : string) (e : entry) : Prop := exists l, entries d r = Some l /\ In e l.
Definition has_run (r : results) (m d : string) (q : query) : Prop := exists ans, has r d (mkEntry q m ans).

(** every entry is what the library answers, and there is one entry for each method and query *)
Definition honest (l : xlib) (k : Z) (r : results) : Prop :=
  (forall d e, has r d e -> x_search l (e_method e) k d (e_query e) = Some (e_answer e)) /\
  (forall d es, entries d r = Some es -> NoDup (map (fun e => (e_method e, e_query e)) es)).

(** the searches made *)
Definition searches (es : list xevent) : list (string * query) :=
  flat_map (fun e => match e with XSearch d q => [(d, q)] | _ => [] end) es.
