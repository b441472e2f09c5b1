(** Reading and writing data sets as text: TimeSeriesSet::loadData and saveData,
    genex/TimeSeriesSet.cpp:43-170. *)
From Coq Require Import String Ascii.
From Verif Require Import Base Num TSSet.
Local Open Scope string_scope.
Local Open Scope Z_scope.

Definition newline : ascii := "010"%char.

(** The lines [std::getline(f, line)] delivers: ended by a newline, the last one also
    by the end of the file unless it is empty. *)
Fixpoint file_lines (s : string) : list string :=
  match s with
  | "" => []
  | String c s' =>
      if Ascii.eqb c newline then "" :: file_lines s'
      else match file_lines s' with
           | [] => [String c ""]
           | l :: ls => String c l :: ls
           end
  end.

(** [separators.c_str()] ends at the first NUL *)
Fixpoint c_str (s : string) : string :=
  match s with
  | "" => ""
  | String c s' => if Ascii.eqb c zero then "" else String c (c_str s')
  end.

Fixpoint mem_char (c : ascii) (s : string) : bool :=
  match s with "" => false | String c' s' => Ascii.eqb c c' || mem_char c s' end.

(** boost::tokenizer with boost::char_separator(separators.c_str()): the separators
    are dropped and so are empty tokens.  The state is the token under way and the
    tokens after it. *)
Definition push_token (t : string) (ts : list string) : list string :=
  match t with "" => ts | _ => t :: ts end.
Fixpoint tokens_from (seps s : string) : string * list string :=
  match s with
  | "" => ("", [])
  | String c s' =>
      let '(t, ts) := tokens_from seps s' in
      if mem_char c seps then ("", push_token t ts) else (String c t, ts)
  end.
Definition tokenize (separators line : string) : list string :=
  let '(t, ts) := tokens_from (c_str separators) line in push_token t ts.

(** result of std::stod: a value, std::invalid_argument or std::out_of_range *)
Inductive parsed (A : Type) := Parsed (v : A) | InvalidArgument | OutOfRange.
Arguments Parsed {A}. Arguments InvalidArgument {A}. Arguments OutOfRange {A}.

(** A readable file: its text, and the number of lines that can be read in the second
    pass before the device fails (None: it does not fail). *)
Record tfile := mkFile { tf_text : string; tf_fail : option nat }.

(** A file system for reading: None if the file cannot be opened. *)
Definition files := string -> option tfile.

Definition b2z (b : bool) : Z := if b then 1 else 0.

Section Loader.
Context {N : Num}.
Notation D := (D N).
(** std::stod and the output of a double by [<<]: not modelled *)
Variable stod : string -> parsed D.
Variable put : D -> string.

(** _getMaxRowsMaxColumns, genex/TimeSeriesSet.cpp:43-62: the second component *)
Definition max_columns (separators : string) (ls : list string) : Z :=
  fold_left (fun m line => let n := Z.of_nat (length (tokenize separators line)) in if m <? n then n else m) ls 0.

Definition unparsable : exn := GenexExc "Dataset file contains unparsable text".
Definition out_of_range : exn := GenexExc "Values are out of range".

(** [rawMaxCol - startCol - hasNameCol] and [col - startCol - hasNameCol], genex/TimeSeriesSet.cpp:115, 148 *)
Definition less (x startCol : Z) (hasName : bool) : res Z := a <- isub x startCol ;; isub a (b2z hasName).

(** the position of a value in the buffer, genex/TimeSeriesSet.cpp:115 *)
Definition cell_index (row startCol rawMaxCol : Z) (hasName : bool) (col : Z) : res Z :=
  w <- less rawMaxCol startCol hasName ;; p <- imul row w ;; c <- less col startCol hasName ;; iadd p c.

(** one line, genex/TimeSeriesSet.cpp:103-131: from column [col] on *)
Fixpoint load_tokens (row startCol rawMaxCol : Z) (hasName : bool) (col : Z) (toks : list string)
  (names : list string) (buf : list D) : res (list string * list D) :=
  match toks with
  | [] => Ret (names, buf)
  | t :: toks' =>
      if startCol <=? col then
        if (col =? startCol) && hasName then
          load_tokens row startCol rawMaxCol hasName (col + 1) toks' (names ++ [t])%list buf
        else
          pos <- cell_index row startCol rawMaxCol hasName col ;;
          match stod t with
          | Parsed v =>
              buf' <- aset buf pos v ;;
              load_tokens row startCol rawMaxCol hasName (col + 1) toks' names buf'
          | InvalidArgument => Throw unparsable
          | OutOfRange => Throw out_of_range
          end
      else load_tokens row startCol rawMaxCol hasName (col + 1) toks' names buf
  end.

(** the loop over rows, genex/TimeSeriesSet.cpp:95-136, for at most [n] lines: the
    lengths pushed so far and, if there was no exception, itemCount, names and data *)
Fixpoint load_rows (separators : string) (startCol rawMaxCol : Z) (hasName : bool) (n : nat) (row : Z) (ls : list string)
  (lengths : list Z) (names : list string) (buf : list D) : list Z * res (Z * list string * list D) :=
  match n, ls with
  | S n', line :: ls' =>
      let toks := tokenize separators line in
      let lengths' := (lengths ++ [Z.of_nat (length toks) - startCol - b2z hasName])%list in
      match load_tokens row startCol rawMaxCol hasName 0 toks names buf with
      | Ret (names', buf') => load_rows separators startCol rawMaxCol hasName n' (row + 1) ls' lengths' names' buf'
      | Throw e => (lengths', Throw e)
      | UB u => (lengths', UB u)
      | Hang => (lengths', Hang)
      end
  | _, _ => (lengths, Ret (row, names, buf))
  end.

(** TimeSeriesSet::loadData, genex/TimeSeriesSet.cpp:64-150: the data set after the
    call and the outcome.  [new data_t[n]] with [memset] gives zeros; running out of
    memory is not modelled. *)
Definition loadData (fs : files) (d : dataset N) (filePath : string) (maxNumRow startCol : Z) (separators : string)
  (hasName : bool) : dataset N * res unit :=
  let d0 := clearData d in
  match fs filePath with
  | None => (d0, Throw (GenexExc ("Cannot open " ++ filePath)))
  | Some f =>
      let ls := file_lines (tf_text f) in
      let lineCount := Z.of_nat (length ls) in
      let rawMaxCol := max_columns separators ls in
      let rows := if maxNumRow <=? 0 then lineCount else Z.min maxNumRow lineCount in
      let ls2 := match tf_fail f with None => ls | Some n => firstn n ls end in
      let bad := match tf_fail f with None => false | Some n => Z.of_nat n <? rows end in
      match imul rows rawMaxCol with
      | Ret size =>
          let '(lengths, r) := load_rows separators startCol rawMaxCol hasName (Z.to_nat rows) 0 ls2 (ds_lengths d) []
                                 (repeat n0 (Z.to_nat size)) in
          match r with
          | Ret (count, names, buf) =>
              if bad then (mkDS None [] lengths 0 0 (ds_path d) (ds_normalized d), Throw (GenexExc "Error while reading file"))
              else match less rawMaxCol startCol hasName with
                   | Ret w => (mkDS (Some buf) names lengths count w filePath (ds_normalized d), Ret tt)
                   | Throw e => (d0, Throw e)
                   | UB u => (d0, UB u)
                   | Hang => (d0, Hang)
                   end
          | Throw e => (mkDS None [] lengths 0 0 (ds_path d) (ds_normalized d), Throw e)
          | UB u => (d0, UB u)
          | Hang => (d0, Hang)
          end
      | Throw e => (d0, Throw e)
      | UB u => (d0, UB u)
      | Hang => (d0, Hang)
      end
  end.

(** one line of saveData, genex/TimeSeriesSet.cpp:160-168 *)
Definition save_row (d : dataset N) (separator : ascii) (i : Z) (out : string) : res string :=
  out <- match ds_names d with
         | [] => Ret out
         | _ => name <- aget (ds_names d) i ;; Ret (out ++ name ++ String separator "")
         end ;;
  len <- getItemLength d i ;;
  out <- for_ 0 len (fun j out =>
           buf <- deref (ds_data d) ;;
           row <- imul i (ds_maxcol d) ;; pos <- iadd row j ;;
           v <- aget buf pos ;; Ret (out ++ put v ++ String separator "")) out ;;
  Ret (out ++ String newline "").

(** TimeSeriesSet::saveData, genex/TimeSeriesSet.cpp:152-170: the text written if the
    file can be opened.  Failing writes are not modelled here; see Disk.v (the code does not look for
    them). *)
Definition saveData (can_open : bool) (d : dataset N) (filePath : string) (separator : ascii) : res string :=
  if can_open then for_ 0 (ds_count d) (save_row d separator) ""
  else Throw (GenexExc ("Cannot open " ++ filePath)).

End Loader.
