(** Distances depend on a series only through its points. *)
From Coq Require Import FunctionalExtensionality.
From Verif Require Import Base Num NumLaws NumFacts LoopFacts TimeSeries Lemire Distance DtwSpec DistSpec.
Local Open Scope Z_scope.
Local Open Scope list_scope.

Section Ext.
Context {N : Num}.
Notation D := (D N).

Lemma ts_points_length (a : TS N) : ts_ok a -> Z.of_nat (length (ts_points a)) = ts_length a.
Proof.
  intros (H1 & H2 & H3 & H4). unfold ts_points. rewrite firstn_length, skipn_length. lia.
Qed.

Lemma nth_error_skipn {A} (l : list A) n i : nth_error (skipn n l) i = nth_error l (n + i).
Proof. revert l. induction n as [|n IH]; intros [|x l]; simpl; auto. destruct i; reflexivity. Qed.

Lemma nth_error_firstn {A} (l : list A) n i : (i < n)%nat -> nth_error (firstn n l) i = nth_error l i.
Proof. revert l i. induction n as [|n IH]; intros [|x l] [|i] H; simpl; auto; try lia. apply IH. lia. Qed.

Lemma ts_get_points (a : TS N) i : ts_ok a ->
  ts_get a i = if (i <? 0) || (ts_length a <=? i) then Throw (GenexExc "Data point index is out of range")
               else aget (ts_points a) i.
Proof.
  intros (H1 & H2 & H3 & H4). unfold ts_get. destruct (Z.ltb_spec i 0); simpl; auto.
  destruct (Z.leb_spec (ts_length a) i); auto. unfold aget.
  destruct (Z.leb_spec 0 i); [|lia]. destruct (Z.leb_spec 0 (ts_start a + i)); [|lia].
  unfold ts_points. rewrite nth_error_firstn, nth_error_skipn by lia.
  replace (Z.to_nat (ts_start a) + Z.to_nat i)%nat with (Z.to_nat (ts_start a + i)) by lia. reflexivity.
Qed.

Lemma ts_get_ext (a a' : TS N) : ts_ok a -> ts_ok a' -> ts_points a = ts_points a' -> ts_get a = ts_get a'.
Proof.
  intros Ha Ha' E. apply functional_extensionality. intros i.
  rewrite (ts_get_points a), (ts_get_points a') by auto.
  rewrite <- (ts_points_length a), <- (ts_points_length a') by auto. rewrite E. reflexivity.
Qed.

Lemma ts_len_ext (a a' : TS N) : ts_ok a -> ts_ok a' -> ts_points a = ts_points a' -> ts_length a = ts_length a'.
Proof. intros Ha Ha' E. rewrite <- (ts_points_length a), <- (ts_points_length a') by auto. rewrite E. reflexivity. Qed.

(** the same series: equal points *)
Definition same (a a' : TS N) : Prop := ts_ok a /\ ts_ok a' /\ ts_points a = ts_points a'.

Lemma warped_ext (M : Metric N) a a' b b' (ratio cut : D) mt : same a a' -> same b b' ->
  warpedDistance M a b ratio cut mt = warpedDistance M a' b' ratio cut mt.
Proof.
  intros (Ha & Ha' & Ea) (Hb & Hb' & Eb).
  unfold warpedDistance, warped_fill, row_loop, cell_step, row_step, col_step, put_cell, cells.
  rewrite (ts_get_ext a a'), (ts_get_ext b b'), (ts_len_ext a a'), (ts_len_ext b b') by auto. reflexivity.
Qed.

Lemma pairwise_ext (M : Metric N) a a' b b' (cut : D) mt : same a a' -> same b b' ->
  pairwiseDistance M a b cut mt = pairwiseDistance M a' b' cut mt.
Proof.
  intros (Ha & Ha' & Ea) (Hb & Hb' & Eb). unfold pairwiseDistance, pairwise_step.
  rewrite (ts_get_ext a a'), (ts_get_ext b b'), (ts_len_ext a a'), (ts_len_ext b b') by auto. reflexivity.
Qed.

Lemma ts_of_list_same (a : TS N) : ts_ok a -> same a (ts_of_list (ts_points a)).
Proof.
  intros Ha. split; auto. split.
  - unfold ts_ok, ts_of_list; simpl. lia.
  - unfold ts_of_list, ts_points at 2; simpl. rewrite Nat2Z.id, firstn_all. reflexivity.
Qed.

Lemma ieee_ok_ext k a a' b b' (ratio : D) r : same a a' -> same b b' ->
  ieee_ok k a b ratio r -> ieee_ok k a' b' ratio r.
Proof.
  intros (Ha & Ha' & Ea) (Hb & Hb' & Eb) [H1 H2 H3 H4 H5 H6 H7 H8 H9].
  pose proof (ts_len_ext a a' Ha Ha' Ea) as La. pose proof (ts_len_ext b b' Hb Hb' Eb) as Lb.
  rewrite La, Lb, Ea, Eb in *. constructor; auto.
Qed.
End Ext.
