(** What is expected of the grouping script when its runs are interrupted. *)
From Coq Require Import String.
From Verif Require Import Base Script.
Local Open Scope Z_scope.
Local Open Scope list_scope.

(** [left_by es k k']: a process that does [es], started on the files [k] and killed at some
    point or not at all, can leave the files [k'] *)
Inductive left_by : list event -> disk -> disk -> Prop :=
| l_killed es k : left_by es k k
| l_cut p c es k : left_by (EWrite p c :: es) k (put_file p (Cut c) k)
| l_step e es k k' : left_by es (after e k) k' -> left_by (e :: es) k k'.

(** the files left by a process that is not killed *)
Definition finished (es : list event) (k : disk) : disk := fold_left (fun k e => after e k) es k.

(** the names of distances have no blank in them, thresholds are not negative, and no
    distance or threshold is asked for twice *)
Fixpoint plain (s : string) : Prop :=
  match s with EmptyString => True | String c s' => c <> Ascii.ascii_of_nat 32 /\ plain s' end.
Definition proper (a : args) : Prop :=
  Forall plain (a_dist a) /\ Forall (fun t => 0 <= t) (a_tenths a) /\ NoDup (a_dist a) /\ NoDup (a_tenths a).

(** a run that continues the work of earlier ones *)
Definition resuming (a : args) : Prop := proper a /\ a_start_over a = false /\ a_dry a = false.

(** any number of resuming runs, one after the other, each killed at some point or not *)
Inductive history (l : lib) : disk -> disk -> Prop :=
| h_none k : history l k k
| h_run a k k1 k2 : resuming a -> left_by (fst (script a l k)) k k1 -> history l k1 k2 -> history l k k2.

(** the records file is there and complete *)
Definition readable (k : disk) (r : infos) : Prop := k PRecords = Some (Whole (DRecords r)).

(** the records say that this grouping has been done *)
Definition recorded (r : infos) (ds d : string) (t : Z) : Prop :=
  exists i l, lookup ds r = Some i /\ i_progress i = Some l /\ In (key ds d t) l.

(** both files of this grouping are there, complete and as the library makes them *)
Definition saved (l : lib) (k : disk) (ds d : string) (t : Z) : Prop :=
  exists g z, l_group l ds d t = Some (g, z) /\
    k (PGroups ds d t) = Some (Whole (DBytes g)) /\ k (PSizes ds d t) = Some (Whole (DBytes z)).

(** everything that the records say has been done is on the disk *)
Definition trusty (l : lib) (k : disk) : Prop :=
  forall r ds d t, readable k r -> plain d -> 0 <= t -> recorded r ds d t -> saved l k ds d t.

(** the number of subsequences is within the bounds given, negative meaning no bound *)
Definition within (n lo hi : Z) : Prop := (lo < 0 \/ lo <= n) /\ (hi < 0 \/ n <= hi).

(** the grouping is asked for by the command line *)
Definition wanted (a : args) (r : infos) (ds d : string) (t : Z) : Prop :=
  (exists i, In (ds, i) r /\ within (i_subseq i) (a_min a) (a_max a)) /\
  is_out ds = false /\ In d (a_dist a) /\ In t (a_tenths a).

(** every library call that the run can make works *)
Definition working (a : args) (l : lib) (r : infos) : Prop :=
  forall ds d t, wanted a r ds d t -> l_load l ds = true /\ l_group l ds d t <> None.

(** the groupings that a run makes, in order *)
Definition groupings (es : list event) : list (string * string * Z) :=
  flat_map (fun e => match e with EGroup ds d t => [(ds, d, t)] | _ => [] end) es.

(** one entry for each data set, and no negative number of subsequences *)
Definition tidy (r : infos) : Prop := NoDup (map fst r) /\ Forall (fun e => 0 <= i_subseq (snd e)) r.
