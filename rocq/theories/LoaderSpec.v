(** Specification of text files holding a table. *)
From Coq Require Import String Ascii.
From Verif Require Import Base Num TSSet Loader.
Local Open Scope string_scope.
Local Open Scope Z_scope.

(** every character of [s] satisfies [P] *)
Fixpoint every (P : ascii -> Prop) (s : string) : Prop :=
  match s with "" => True | String c s' => P c /\ every P s' end.

(** [text] consists of the lines [ls], each ended by a newline; the last newline may
    be missing if the last line is not empty *)
Definition is_line (l : string) : Prop := every (fun c => c <> newline) l.
Fixpoint text_of (ls : list string) : string :=
  match ls with [] => "" | l :: ls' => l ++ String newline (text_of ls') end.
Definition has_lines (text : string) (ls : list string) : Prop :=
  Forall is_line ls /\
  (text = text_of ls \/ exists ls' l, ls = (ls' ++ [l])%list /\ l <> "" /\ text = text_of ls' ++ l).

(** [line] consists of the fields [ts]: non-empty pieces without separators, with
    separators between them (and perhaps before the first and after the last) *)
Definition sep_char (seps : string) (c : ascii) : Prop := mem_char c seps = true.
Inductive has_fields (seps : string) : string -> list string -> Prop :=
| fields_none s : every (sep_char seps) s -> has_fields seps s []
| fields_cons pre t rest ts :
    every (sep_char seps) pre -> t <> "" -> every (fun c => ~ sep_char seps c) t ->
    (rest = "" \/ exists c rest', rest = String c rest' /\ sep_char seps c) ->
    has_fields seps rest ts -> has_fields seps (pre ++ t ++ rest) (t :: ts).

Section Spec.
Context {N : Num}.
Notation D := (D N).
Variable stod : string -> parsed D.

(** the numbers in a list of fields, or the exception for the first one that is none *)
Fixpoint numbers (ts : list string) : res (list D) :=
  match ts with
  | [] => Ret []
  | t :: ts' =>
      match stod t with
      | Parsed v => vs <- numbers ts' ;; Ret (v :: vs)
      | InvalidArgument => Throw (GenexExc "Dataset file contains unparsable text")
      | OutOfRange => Throw (GenexExc "Values are out of range")
      end
  end.

(** the same for a table, row by row *)
Fixpoint table (rows : list (list string)) : res (list (list D)) :=
  match rows with
  | [] => Ret []
  | r :: rows' => vs <- numbers r ;; vss <- table rows' ;; Ret (vs :: vss)
  end.
End Spec.

(** the lines that are read *)
Definition wanted {A} (maxNumRow : Z) (l : list A) : list A :=
  if maxNumRow <=? 0 then l else firstn (Z.to_nat maxNumRow) l.

(** the largest number of fields in a line *)
Definition widest (tbl : list (list string)) (w : Z) : Prop :=
  (forall r, In r tbl -> Z.of_nat (length r) <= w) /\ (exists r, In r tbl /\ Z.of_nat (length r) = w).

(** a usable field: not empty, without the separator and without newlines *)
Definition clean (separator : ascii) (s : string) : Prop :=
  s <> "" /\ every (fun c => c <> separator /\ c <> newline) s.
