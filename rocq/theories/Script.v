(** Model of the grouping script scripts/2_generate_groups.py: which group files it writes,
    in which order, and how it records its progress.  The library calls are parameters; the
    script itself is modelled statement by statement as far as it changes files. *)
From Coq Require Import String Ascii.
From Verif Require Import Base Num OldFormat.
Local Open Scope string_scope.
Local Open Scope Z_scope.
Local Open Scope list_scope.

(** The value of a data set in the records file: the columns written by
    scripts/1_extract_info.py:30-32, and the list added by [progress],
    scripts/2_generate_groups.py:121-132 ([None]: no such key yet). *)
Record info := mkInfo { i_count : Z; i_length : Z; i_subseq : Z; i_progress : option (list string) }.

(** the records file as read by json.load: a dict from the names of data sets *)
Definition infos := list (string * info).

(** the command line, scripts/2_generate_groups.py:92-110.  [a_tenths]: the values that the
    loop over np.arange(from_st, to_st, 0.1) takes after rounding (:36-37), times 10.
    [a_stamp]: the time in the name of the csv file (:32-34) *)
Record args := mkArgs {
  a_min : Z; a_max : Z;
  a_tenths : list Z;
  a_dist : list string;
  a_start_over : bool;
  a_dry : bool;
  a_stamp : string
}.

(** The library, for fixed data files: whether loading and normalising a data set works, and
    the group file and the file of group sizes that group, saveGroups and saveGroupsSize make
    for a distance and a threshold ([None]: one of these calls raises an exception). *)
Record lib := mkLib {
  l_load : string -> bool;
  l_group : string -> string -> Z -> option (string * string)
}.

(** The files the script writes.  Simplification: a path is the kind of the file and the names
    in it instead of a string (:32-34, :54-63). *)
Inductive path :=
| PGroups (ds d : string) (t : Z)
| PSizes (ds d : string) (t : Z)
| PRows (ds stamp : string)
| PRecords.

(** what is written to a file *)
Inductive doc :=
| DBytes (s : string)
| DRows (l : list (string * Z))
| DRecords (r : infos).

(** a file: completely written, or cut short because the process was killed while writing *)
Inductive file := Whole (c : doc) | Cut (c : doc).
Definition disk := path -> option file.

Definition path_eqb (p q : path) : bool :=
  match p, q with
  | PGroups a b t, PGroups a' b' t' | PSizes a b t, PSizes a' b' t' => String.eqb a a' && String.eqb b b' && (t =? t')
  | PRows a b, PRows a' b' => String.eqb a a' && String.eqb b b'
  | PRecords, PRecords => true
  | _, _ => false
  end.
Definition put_file (p : path) (f : file) (k : disk) : disk := fun q => if path_eqb p q then Some f else k q.

(** what the process does, in order *)
Inductive event :=
| ELoad (ds : string)
| EGroup (ds d : string) (t : Z)
| EWrite (p : path) (c : doc)
| EUnload (ds : string).

Fixpoint lookup (ds : string) (r : infos) : option info :=
  match r with [] => None | (n, i) :: r' => if String.eqb n ds then Some i else lookup ds r' end.

(** '%.1f' of a threshold that is [t] tenths, [t >= 0] *)
Definition tenths (t : Z) : string := (put_int (t / 10) ++ "." ++ put_int (t mod 10))%string.

(** '%s %s %.1f' % (ds_name, dist, st), scripts/2_generate_groups.py:118 and :126 *)
Definition key (ds d : string) (t : Z) : string := (ds ++ " " ++ d ++ " " ++ tenths t)%string.

(** exclude, scripts/2_generate_groups.py:115-119 *)
Definition exclude (a : args) (r : infos) (ds d : string) (t : Z) : bool :=
  negb (a_start_over a) &&
  match lookup ds r with
  | Some i => match i_progress i with Some l => existsb (String.eqb (key ds d t)) l | None => false end
  | None => false
  end.

(** the change to ds_info made by progress, scripts/2_generate_groups.py:121-129 *)
Definition noted (k : string) (i : info) : info :=
  let l := match i_progress i with Some l => l | None => [] end in
  mkInfo (i_count i) (i_length i) (i_subseq i) (Some (if existsb (String.eqb k) l then l else l ++ [k])).
Definition progress (r : infos) (ds d : string) (t : Z) : infos :=
  map (fun e => if String.eqb (fst e) ds then (fst e, noted (key ds d t) (snd e)) else e) r.

(** the two loops of group_dataset, scripts/2_generate_groups.py:35-82, over the distances and
    thresholds still to come; [rows] are the records of this run.  With the events comes
    ds_info after the loop, [None] if an exception stops the script. *)
Fixpoint each_job (a : args) (l : lib) (ds : string) (jobs : list (string * Z)) (r : infos) (rows : list (string * Z))
  : list event * option infos :=
  match jobs with
  | [] => ([], Some r)
  | (d, t) :: jobs' =>
      if exclude a r ds d t then each_job a l ds jobs' r rows
      else if a_dry a then each_job a l ds jobs' r rows
      else
        match l_group l ds d t with
        | None => ([EGroup ds d t], None)
        | Some (g, z) =>
            let rows' := rows ++ [(d, t)] in
            let r' := progress r ds d t in
            let (es, o) := each_job a l ds jobs' r' rows' in
            (EGroup ds d t :: EWrite (PGroups ds d t) (DBytes g) :: EWrite (PSizes ds d t) (DBytes z) ::
             EWrite (PRows ds (a_stamp a)) (DRows rows') :: EWrite PRecords (DRecords r') :: es, o)
        end
  end.

Definition jobs (a : args) : list (string * Z) := flat_map (fun d => map (fun t => (d, t)) (a_tenths a)) (a_dist a).

(** group_dataset, scripts/2_generate_groups.py:23-86 *)
Definition group_dataset (a : args) (l : lib) (ds : string) (r : infos) : list event * option infos :=
  if l_load l ds then
    let (es, o) := each_job a l ds (jobs a) r [] in
    match o with
    | Some r' => (ELoad ds :: es ++ [EUnload ds], Some r')
    | None => (ELoad ds :: es, None)
    end
  else ([ELoad ds], None).

(** ds.endswith('_out') *)
Definition is_out (s : string) : bool :=
  (4 <=? String.length s)%nat && String.eqb (substring (String.length s - 4) 4 s) "_out".

(** sorted on pairs of a number and a name, scripts/2_generate_groups.py:139 *)
Definition pair_leb (x y : Z * string) : bool :=
  (fst x <? fst y) || ((fst x =? fst y) && match String.compare (snd x) (snd y) with Gt => false | _ => true end).
Fixpoint insert (x : Z * string) (l : list (Z * string)) : list (Z * string) :=
  match l with [] => [x] | y :: l' => if pair_leb x y then x :: l else y :: insert x l' end.
Definition sorted (l : list (Z * string)) : list (Z * string) := fold_right insert [] l.
Definition order (r : infos) : list (Z * string) :=
  sorted (map (fun e => (i_subseq (snd e), fst e)) (filter (fun e => negb (is_out (fst e))) r)).

(** the test on the number of subsequences, scripts/2_generate_groups.py:143-146, also
    check_subseq_range, scripts/common.py:88-92 *)
Definition check_range (subseq lo hi : Z) : bool :=
  ((hi <? 0) && (lo <? 0)) || ((lo <=? subseq) && (subseq <=? hi)) ||
  ((lo <? 0) && (0 <=? hi) && (subseq <=? hi)) || ((hi <? 0) && (0 <=? lo) && (lo <=? subseq)).

(** the loop over the data sets, scripts/2_generate_groups.py:141-154.  Simplification: the
    names are ASCII, so that encode(...) changes nothing *)
Fixpoint each_set (a : args) (l : lib) (ord : list (Z * string)) (r : infos) : list event * option infos :=
  match ord with
  | [] => ([], Some r)
  | (n, ds) :: ord' =>
      if check_range n (a_min a) (a_max a) then
        let (es, o) := group_dataset a l ds r in
        match o with
        | Some r' => let (es', o') := each_set a l ord' r' in (es ++ es', o')
        | None => (es, None)
        end
      else each_set a l ord' r
  end.

(** The script, scripts/2_generate_groups.py:112-174, started with the files of [k].  A records
    file that is missing or cut short makes open or json.load raise (:112-113); zip of nothing
    has no second item (:140).  Not modelled: the e-mail at the end and the log. *)
Definition script (a : args) (l : lib) (k : disk) : list event * option infos :=
  match k PRecords with
  | Some (Whole (DRecords r)) => match order r with [] => ([], None) | ord => each_set a l ord r end
  | _ => ([], None)
  end.

(** the files after an event *)
Definition after (e : event) (k : disk) : disk := match e with EWrite p c => put_file p (Whole c) k | _ => k end.
