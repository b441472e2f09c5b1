(** Model of the experiment scripts scripts/3_brute_force.py and scripts/4_paa.py and of
    scripts/common.py: the random queries and the results files.  The two scripts differ in
    the name of the method and the library call only. *)
From Coq Require Import String Ascii.
From Verif Require Import Base.
Local Open Scope string_scope.
Local Open Scope Z_scope.
Local Open Scope list_scope.

(** a query: the columns of the query file, scripts/common.py:63-64 *)
Record query := mkQuery { q_index : Z; q_start : Z; q_end : Z; q_outside : Z }.
Definition query_eqb (p q : query) : bool :=
  (q_index p =? q_index q) && (q_start p =? q_start q) && (q_end p =? q_end q) && (q_outside p =? q_outside q).

(** ** random queries *)

(** one row of random numbers: an element of [indices] and a row of [subindices],
    scripts/common.py:37-38 *)
Definition draw := (Z * (Z * Z))%type.

(** the rows kept of a batch, scripts/common.py:39-42 *)
Definition rows_of (outside : Z) (batch : list draw) : list query :=
  filter (fun q => 1 <? q_end q - q_start q)
    (map (fun x => mkQuery (fst x) (Z.min (fst (snd x)) (snd (snd x))) (Z.max (fst (snd x)) (snd (snd x))) outside) batch).

(** generate_random_queries, scripts/common.py:34-47: the loop, for at most [fuel] rounds.
    [rnd i] is the batch of round [i].  randint raises ValueError if its bound is not positive.
    [GEndless]: the fuel did not suffice *)
Inductive generated := GRows (l : list query) | GRaise | GEndless.
Fixpoint gather (fuel : nat) (n : nat) (outside : Z) (rnd : nat -> list draw) (i : nat) (acc : list query) : generated :=
  match fuel with
  | O => GEndless
  | S fuel' =>
      let acc' := acc ++ rows_of outside (rnd i) in
      if (length acc' <? n)%nat then gather fuel' n outside rnd (S i) acc' else GRows (firstn n acc')
  end.
Definition generate (fuel n : nat) (count len outside : Z) (rnd : nat -> list draw) : generated :=
  if (count <=? 0) || (len <=? 0) then GRaise else gather fuel n outside rnd 0 [].

(** get_queries without a query file, scripts/common.py:56-67: half of the queries, rounded
    down, from the data set, the others from the queries data set *)
Definition get_queries (fuel nquery : nat) (incount inlen outcount outlen : Z) (rin rout : nat -> list draw) : generated :=
  let nin := Nat.div nquery 2 in
  match generate fuel nin incount inlen 0 rin with
  | GRows a => match generate fuel (nquery - nin) outcount outlen 1 rout with GRows b => GRows (a ++ b) | g => g end
  | g => g
  end.

(** ** results *)

(** an entry of a results file; [e_method] is the part of the key after result_ *)
Record entry := mkEntry { e_query : query; e_method : string; e_answer : string }.
(** the results file of a data set: entries by distance *)
Definition results := list (string * list entry).

(** the files of one data set.  [XCut]: cut short, so that json.load raises *)
Inductive rfile := XWhole (r : results) | XCut.
Record xdisk := mkX { x_queries : option (list query); x_results : option rfile }.

(** what the process does.  [XRows l]: the query file has the rows [l]; [XTrunc]: the results
    file is opened for writing; [XDump]: and written.  Simplifications: rows of the query file
    are written as a whole; a partly written results file is like an empty one *)
Inductive xevent :=
| XRows (l : list query)
| XLoad
| XSearch (d : string) (q : query)
| XTrunc
| XDump (r : results)
| XUnload.

(** the library for one data set and a method: loading, and the search by method, k, distance
    and query ([None]: the call raises) *)
Record xlib := mkXLib { x_load : bool; x_search : string -> Z -> string -> query -> option string }.

Fixpoint entries (d : string) (r : results) : option (list entry) :=
  match r with [] => None | (n, l) :: r' => if String.eqb n d then Some l else entries d r' end.
Fixpoint set_entries (d : string) (l : list entry) (r : results) : results :=
  match r with [] => [(d, l)] | (n, l') :: r' => if String.eqb n d then (n, l) :: r' else (n, l') :: set_entries d l r' end.

(** scripts/3_brute_force.py:50-52 *)
Definition is_run (m : string) (q : query) (l : list entry) : bool :=
  existsb (fun e => String.eqb (e_method e) m && query_eqb (e_query e) q) l.

(** the loop over the queries, scripts/3_brute_force.py:42-83 *)
Fixpoint each_query (l : xlib) (m : string) (k : Z) (d : string) (qs : list query) (r : results) : list xevent * option results :=
  match qs with
  | [] => ([], Some r)
  | q :: qs' =>
      let old := match entries d r with Some o => o | None => [] end in
      if is_run m q old then each_query l m k d qs' r
      else
        match x_search l m k d q with
        | None => ([XSearch d q], None)
        | Some ans =>
            let r' := set_entries d (old ++ [mkEntry q m ans]) r in
            let (es, o) := each_query l m k d qs' r' in
            (XSearch d q :: XTrunc :: XDump r' :: es, o)
        end
  end.

(** the loop over the distances, scripts/3_brute_force.py:38-40 *)
Fixpoint each_dist (l : xlib) (m : string) (k : Z) (ds : list string) (qs : list query) (r : results) : list xevent * option results :=
  match ds with
  | [] => ([], Some r)
  | d :: ds' =>
      let r0 := match entries d r with Some _ => r | None => set_entries d [] r end in
      let (es, o) := each_query l m k d qs r0 in
      match o with
      | Some r' => let (es', o') := each_dist l m k ds' qs r' in (es ++ es', o')
      | None => (es, None)
      end
  end.

(** run_brute_force and run_paa, scripts/3_brute_force.py:18-89 and 4_paa.py:18-89, with
    get_results_object, scripts/common.py:121-129 *)
Definition run_method (l : xlib) (m : string) (k : Z) (ds : list string) (qs : list query) (f : option rfile) : list xevent * option results :=
  if x_load l then
    match f with
    | Some XCut => ([XLoad], None)
    | _ =>
        let r := match f with Some (XWhole r) => r | _ => [] end in
        let (es, o) := each_dist l m k ds qs r in
        match o with
        | Some r' => (XLoad :: es ++ [XUnload], Some r')
        | None => (XLoad :: es, None)
        end
    end
  else ([XLoad], None).

(** writing the query file, scripts/common.py:63-65 *)
Definition write_rows (qs : list query) : list xevent := map (fun n => XRows (firstn n qs)) (seq 0 (S (length qs))).

(** one of the scripts on one data set, scripts/3_brute_force.py:105-127; [fresh]: the
    queries that get_queries would generate *)
Definition experiment (l : xlib) (m : string) (k : Z) (ds : list string) (fresh : list query) (x : xdisk) : list xevent * option results :=
  match x_queries x with
  | Some qs => run_method l m k ds qs (x_results x)
  | None => let (es, o) := run_method l m k ds fresh (x_results x) in (write_rows fresh ++ es, o)
  end.

(** the files after an event *)
Definition xafter (x : xdisk) (e : xevent) : xdisk :=
  match e with
  | XRows l => mkX (Some l) (x_results x)
  | XTrunc => mkX (x_queries x) (Some XCut)
  | XDump r => mkX (x_queries x) (Some (XWhole r))
  | _ => x
  end.
