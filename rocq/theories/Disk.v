(** Model of saving a data set to a disk with a limited amount of room.  Loader.v gives the
    text that is written if every write succeeds; here each write to the stream can fail. *)
From Coq Require Import String Ascii.
From Verif Require Import Base Num TSSet Loader GroupSpace Api.
Local Open Scope Z_scope.
Local Open Scope string_scope.

(** An output stream: what has reached the file, the number of characters that still fit on
    the disk, and whether no write has failed (the badbit of the stream is not set). *)
Record stream := mkStream { st_text : string; st_room : nat; st_good : bool }.

(** [f << w], as used in genex/TimeSeriesSet.cpp:162-167.  A write that does not fit writes
    what fits and sets the badbit; a stream with the badbit set writes nothing.
    Simplifications: the buffer of the stream is not modelled (characters reach the file at
    once), and the room on the disk changes only by these writes. *)
Definition emit (w : string) (s : stream) : stream :=
  if st_good s then
    if (String.length w <=? st_room s)%nat then mkStream (st_text s ++ w) (st_room s - String.length w) true
    else mkStream (st_text s ++ substring 0 (st_room s) w) 0 false
  else s.

(** the files of a disk *)
Definition disk := string -> option string.
Definition on_disk (path text : string) (k : disk) : disk := fun p => if String.eqb p path then Some text else k p.

Section Disk.
Context {N : Num} (put : D N -> string).

(** one line of saveData, genex/TimeSeriesSet.cpp:160-168 *)
Definition save_row_disk (d : dataset N) (separator : ascii) (i : Z) (s : stream) : res stream :=
  s <- match ds_names d with
       | [] => Ret s
       | _ => name <- aget (ds_names d) i ;; Ret (emit (String separator "") (emit name s))
       end ;;
  len <- getItemLength d i ;;
  s <- for_ 0 len (fun j s =>
         buf <- deref (ds_data d) ;;
         row <- imul i (ds_maxcol d) ;; pos <- iadd row j ;;
         v <- aget buf pos ;; Ret (emit (String separator "") (emit (put v) s))) s ;;
  Ret (emit (String newline "") s).

(** TimeSeriesSet::saveData, genex/TimeSeriesSet.cpp:152-170.  Opening the stream empties the
    file; [room] is the number of characters that fit on the disk then.  The state of the
    stream is never looked at. *)
Definition saveData_disk (can_open : bool) (d : dataset N) (filePath : string) (separator : ascii) (room : nat) (k : disk) : disk * res unit :=
  if can_open then
    match for_ 0 (ds_count d) (save_row_disk d separator) (mkStream "" room true) with
    | Ret s => (on_disk filePath (st_text s) k, Ret tt)
    | Throw x => (k, Throw x) | UB u => (k, UB u) | Hang => (k, Hang)
    end
  else (k, Throw (GenexExc ("Cannot open " ++ filePath))).

(** GenexAPI::saveDataset, genex/GenexAPI.cpp:51-55 *)
Definition saveDataset_disk (s : api N) (name path : string) (separator : ascii) (can_open : bool) (room : nat) (k : disk) : disk * res unit :=
  match find_set s name with
  | Ret g => saveData_disk can_open (gt_data g) path separator room k
  | Throw x => (k, Throw x) | UB u => (k, UB u) | Hang => (k, Hang)
  end.
End Disk.
