(** Specification of the calls that take series by the name of their data set, their
    number and positions. *)
From Verif Require Import Base Num TimeSeries TSSet GroupSpace DataSpec Api ApiSpec.
Local Open Scope Z_scope.
Local Open Scope list_scope.

Section Spec.
Context {N : Num}.

(** the band ratio after the calls [h]: the one set last *)
Definition ratio_after (r0 : D N) (h : list event) : D N :=
  fold_left (fun r ev => match ev with (CRatio x, Ret _) => x | _ => r end) h r0.

(** [xs]: the points of series number [i] of the data set called [n], all of them if [st] and [en]
    are both negative, and from [st] to before [en] otherwise *)
Definition stretch (s : api N) (n : string) (i st en : Z) (xs : list (D N)) : Prop :=
  exists g rows row, held s n = Some g /\ holds (gt_data g) rows /\ row_of rows i = Some row /\
    ((st < 0 /\ en < 0 /\ xs = row) \/ (0 <= st < en /\ en <= Z.of_nat (length row) /\ xs = slice row st en)).

(** no such stretch: no series with this number, or positions outside of it *)
Definition no_stretch (s : api N) (n : string) (i st en : Z) : Prop :=
  exists g rows, held s n = Some g /\ holds (gt_data g) rows /\
    (row_of rows i = None \/
     exists row, row_of rows i = Some row /\ ~ (st < 0 /\ en < 0) /\ ~ (0 <= st < en /\ en <= Z.of_nat (length row))).
End Spec.
