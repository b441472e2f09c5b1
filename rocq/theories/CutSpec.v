(** Specification of what is left of a table when its file is cut off at any place. *)
From Coq Require Import String.
From Verif Require Import Base.
Local Open Scope string_scope.

(** [w] is the beginning of [s] *)
Definition begins (w s : string) : Prop := exists rest, s = w ++ rest.

(** what is left of a row: its first fields and perhaps a part of the next one *)
Definition row_left (r r' : list string) : Prop :=
  exists j part, (part = [] \/ exists w f, part = [w] /\ nth_error r j = Some f /\ w <> "" /\ w <> f /\ begins w f) /\ r' = (firstn j r ++ part)%list.

(** what is left of a table: its first rows and perhaps a part of the next one *)
Definition what_is_left (tbl tbl' : list (list string)) : Prop :=
  exists k, tbl' = firstn k tbl \/
  exists r r', nth_error tbl k = Some r /\ row_left r r' /\ r' <> [] /\ tbl' = (firstn k tbl ++ [r'])%list.
