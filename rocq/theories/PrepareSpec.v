(** What is expected of the scripts that prepare the data sets. *)
From Coq Require Import String.
From Verif Require Import Base Script Prepare.
Local Open Scope string_scope.
Local Open Scope Z_scope.
Local Open Scope list_scope.

(** [l] lists the names in a folder, in any order *)
Definition lists (l : list string) (r : folder) : Prop := NoDup l /\ forall n, In n l <-> r n <> None.

(** the archive as it is unpacked: a folder for each data set, with its two files *)
Definition unpacked (r : folder) (train test : string -> string) : Prop :=
  forall ds x, hidden ds = false -> r ds = Some x ->
    exists inside, x = NFolder inside /\ inside (ds ++ "_TRAIN")%string = Some (train ds) /\ inside (ds ++ "_TEST")%string = Some (test ds) /\
      r (ds ++ "_QUERY")%string = None /\ r (ds ++ "_DATA")%string = None.

(** names of files the script writes *)
Definition written (l : list string) (n : string) : Prop :=
  exists ds, In ds l /\ hidden ds = false /\ (n = (ds ++ "_QUERY")%string \/ n = (ds ++ "_DATA")%string).

(** [sets]: the data sets in the folder, with the number and length of the series in the data
    and in the queries: everything that ends in DATA belongs to one of them, and they can all
    be loaded *)
Definition prepared (describe : string -> option (Z * Z)) (r : folder) (sets : list (string * ((Z * Z) * (Z * Z)))) : Prop :=
  NoDup (map fst sets) /\
  (forall n x, r n = Some x -> ends_with "DATA" n = true -> exists ds i, In (ds, i) sets /\ n = (ds ++ "_DATA")%string) /\
  (forall ds x y, In (ds, (x, y)) sets ->
     (exists t, r (ds ++ "_DATA")%string = Some (NFile t) /\ describe t = Some x) /\
     (exists t, r (ds ++ "_QUERY")%string = Some (NFile t) /\ describe t = Some y)).

(** the subsequences of at least two points of [count] series of [len] points *)
Definition all_subsequences (x : Z * Z) : Z := fst x * (snd x * (snd x - 1) / 2).
