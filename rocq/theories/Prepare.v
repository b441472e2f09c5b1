(** Model of scripts/0_process_ucr.py and scripts/1_extract_info.py: preparing the data sets
    and their records. *)
From Coq Require Import String Ascii.
From Verif Require Import Base Script.
Local Open Scope string_scope.
Local Open Scope Z_scope.
Local Open Scope list_scope.

(** What is in a folder: files with their contents, and folders of files.  Simplification:
    no folders in these folders, no links or access rights. *)
Inductive node := NFile (text : string) | NFolder (inside : string -> option string).
Definition folder := string -> option node.
Definition put (name : string) (x : node) (r : folder) : folder := fun n => if String.eqb n name then Some x else r n.

(** ** scripts/0_process_ucr.py *)

(** ds.startswith('.'), scripts/0_process_ucr.py:20 *)
Definition hidden (ds : string) : bool := match ds with String c _ => Ascii.eqb c "."%char | EmptyString => false end.

(** what the script does to files: opening one for writing empties it *)
Inductive act := AEmpty (name : string) | AFill (name text : string).
Definition after_act (r : folder) (a : act) : folder :=
  match a with AEmpty n => put n (NFile "") r | AFill n t => put n (NFile t) r end.
Definition after_acts (acts : list act) (r : folder) : folder := fold_left after_act acts r.

(** shutil.copyfile(root/ds/ds_from, root/ds_to), scripts/0_process_ucr.py:22-31; [None]: an
    exception.  Simplification: a copy that is interrupted leaves the file empty, not part of
    it *)
Definition copy (r : folder) (ds from to : string) : option (list act) :=
  match r ds with
  | Some (NFolder inside) =>
      match inside (ds ++ from)%string with
      | Some text => match r (ds ++ to)%string with
                     | Some (NFolder _) => None
                     | _ => Some [AEmpty (ds ++ to)%string; AFill (ds ++ to)%string text]
                     end
      | None => None
      end
  | _ => None
  end.

(** the loop over os.listdir(root), scripts/0_process_ucr.py:18-32: what it does, and whether
    it came to the end *)
Fixpoint process (listing : list string) (r : folder) : list act * bool :=
  match listing with
  | [] => ([], true)
  | ds :: rest =>
      if hidden ds then process rest r
      else match copy r ds "_TRAIN" "_QUERY" with
           | None => ([], false)
           | Some a1 =>
               let r1 := after_acts a1 r in
               match copy r1 ds "_TEST" "_DATA" with
               | None => (a1, false)
               | Some a2 => let (a3, ok) := process rest (after_acts a2 r1) in (a1 ++ a2 ++ a3, ok)
               end
           end
  end.

(** ** scripts/1_extract_info.py *)

(** n.endswith('DATA'), scripts/1_extract_info.py:14 *)
Definition ends_with (suffix s : string) : bool :=
  (String.length suffix <=? String.length s)%nat &&
  String.eqb (substring (String.length s - String.length suffix) (String.length suffix) s) suffix.

(** ds[:len(ds) - len('_DATA')], scripts/1_extract_info.py:19; a negative bound counts from the end *)
Definition data_name (ds : string) : string :=
  if (String.length ds <? 5)%nat then substring 0 (String.length ds - (5 - String.length ds)) ds
  else substring 0 (String.length ds - 5) ds.

(** pg.loadDataset(name, path, ',', -1, 1): [describe] gives the number of series and their
    length for the text of a file; a name that is in use is refused *)
Definition load (describe : string -> option (Z * Z)) (r : folder) (loaded : list string) (name file : string) : option (Z * Z) :=
  if existsb (String.eqb name) loaded then None
  else match r file with Some (NFile text) => describe text | _ => None end.

Fixpoint put_info (name : string) (x : Z * Z) (d : list (string * (Z * Z))) : list (string * (Z * Z)) :=
  match d with
  | [] => [(name, x)]
  | (n, y) :: d' => if String.eqb n name then (n, x) :: d' else (n, y) :: put_info name x d'
  end.

(** the loop, scripts/1_extract_info.py:18-28: the data set is unloaded after its loading, the
    queries, loaded under the same name, are not *)
Fixpoint extract (describe : string -> option (Z * Z)) (r : folder) (listing : list string) (loaded : list string) (d : list (string * (Z * Z)))
  : option (list (string * (Z * Z)) * list string) :=
  match listing with
  | [] => Some (d, loaded)
  | ds :: rest =>
      if ends_with "DATA" ds then
        let name := data_name ds in
        match load describe r loaded name ds with
        | None => None
        | Some x =>
            match load describe r loaded name (name ++ "_QUERY")%string with
            | None => None
            | Some y => extract describe r rest (name :: loaded) (put_info (name ++ "_out")%string y (put_info name x d))
            end
        end
      else extract describe r rest loaded d
  end.

(** the records file, scripts/1_extract_info.py:30-32; [None]: an exception before it is
    written.  Simplification: the column with the name is left out; pandas computes in 64-bit
    numbers, here there is no limit *)
Definition records_of (d : list (string * (Z * Z))) : infos :=
  map (fun p => (fst p, mkInfo (fst (snd p)) (snd (snd p)) (fst (snd p) * snd (snd p) * (snd (snd p) - 1) / 2) None)) d.
Definition extract_info (describe : string -> option (Z * Z)) (r : folder) (listing : list string) : option infos :=
  match extract describe r listing [] [] with Some (d, _) => Some (records_of d) | None => None end.
