(** What it means for a data set object to hold a table of series.  This is the
    specification view of a data set used by the properties about data sets,
    groups and queries: [rows] lists the series, each with its own length. *)
From Verif Require Import Base Num TimeSeries TSSet.

Section Spec.
Context {N : Num}.
Notation D := (D N).

(** [d] is loaded and its series are [rows]: there are as many series as rows, the
    length of series i is the length of row i (at most the item length), and value
    j of series i is entry j of row i, at position i * itemLength + j of the
    buffer.  The size of the buffer is an int. *)
Definition holds (d : dataset N) (rows : list (list D)) : Prop :=
  exists buf, ds_data d = Some buf /\
    ds_count d = Z.of_nat (length rows) /\ 0 <= ds_maxcol d /\
    ds_count d * ds_maxcol d <= Z.of_nat (length buf) <= int_max /\
    forall i row, nth_error rows i = Some row ->
      nth_error (ds_lengths d) i = Some (Z.of_nat (length row)) /\
      Z.of_nat (length row) <= ds_maxcol d /\
      forall j v, nth_error row j = Some v ->
        aget buf (Z.of_nat i * ds_maxcol d + Z.of_nat j) = Ret v.

(** row number [i] *)
Definition row_of (rows : list (list D)) (i : Z) : option (list D) :=
  if i <? 0 then None else nth_error rows (Z.to_nat i).

(** the values s..e-1 of a row *)
Definition slice (row : list D) (s e : Z) : list D :=
  firstn (Z.to_nat (e - s)) (skipn (Z.to_nat s) row).

End Spec.
