(** Specification of regular text files and of histories that load only such files. *)
From Coq Require Import String Ascii.
From Verif Require Import Base Num Loader LoaderSpec Api ApiSpec.
Local Open Scope Z_scope.
Local Open Scope list_scope.

Section Spec.
Context {N : Num}.

(** The start column is not negative, each line that is read has a field for the name, if
    there are names, and for all columns before it, and the table fits into an int.  (Files
    that cannot be opened, that break off and that contain other things than numbers are
    regular, too.) *)
Definition regular (e : env N) (path seps : string) (mr start : Z) (has : bool) : Prop :=
  0 <= start <= int_max /\
  forall f ls tbl, e_files e path = Some f -> has_lines (tf_text f) ls -> Forall2 (has_fields (c_str seps)) ls tbl ->
    (forall r, In r (wanted mr tbl) -> start + (if has then 1 else 0) <= Z.of_nat (length r)) /\
    (forall r, In r tbl -> Z.of_nat (length (wanted mr tbl)) * Z.of_nat (length r) <= int_max).

(** histories in which all files that are loaded are regular *)
Definition loads_regular (e : env N) (c : call N) : Prop :=
  match c with CLoad _ path seps mr start has => regular e path seps mr start has | _ => True end.
Inductive tidy (r0 : D N) : list event -> api N -> Prop :=
| tidy_start : tidy r0 [] (api_new r0)
| tidy_call h s e c s' r : tidy r0 h s -> loads_regular e c -> exec e c s = (s', r) -> ends r -> tidy r0 (h ++ [(c, r)]) s'.
End Spec.
