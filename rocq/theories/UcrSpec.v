(** Specification: the window of a sequence of numbers that is nearest to a query. *)
From Coq Require Import Reals Permutation.
From Verif Require Import Base DtwSpec DtwReal.
Local Open Scope R_scope.

Definition Rsum (xs : list R) : R := fold_right Rplus 0 xs.

(** mean and (population) standard deviation *)
Definition average (xs : list R) : R := Rsum xs / IZR (Rlen xs).
Definition deviation (xs : list R) : R :=
  sqrt (Rsum (map (fun x => (x - average xs) * (x - average xs)) xs) / IZR (Rlen xs)).

(** z-normalisation *)
Definition znorm (xs : list R) : list R := map (fun x => (x - average xs) / deviation xs) xs.

(** all numbers equal: there is no z-normal form *)
Definition flat (xs : list R) : Prop := forall x y, In x xs -> In y xs -> x = y.

(** the m numbers from index k on *)
Definition window (xs : list R) (k m : Z) : list R := firstn (Z.to_nat m) (skipn (Z.to_nat k) xs).

(** the smallest sum of squared differences over the warping paths in the band *)
Definition warped_squares (r : Z) (xs ys : list R) (v : R) : Prop :=
  let cost p := path_sum (fun x y => (x - y) * (x - y)) xs ys p in
  (exists p, warping_path (Rlen xs) (Rlen ys) p /\ in_band r p /\ cost p = v) /\
  (forall p, warping_path (Rlen xs) (Rlen ys) p -> in_band r p -> v <= cost p).

(** the distance of two sequences: DTW of their z-normal forms *)
Definition ucr_distance (r : Z) (xs ys : list R) (d : R) : Prop :=
  exists v, warped_squares r (znorm xs) (znorm ys) v /\ d = sqrt v.

(** [loc] is the first of the nearest windows, and [d] its distance *)
Definition nearest_window (r : Z) (data query : list R) (loc : Z) (d : R) : Prop :=
  let m := Rlen query in
  (0 <= loc <= Rlen data - m)%Z /\ ~ flat (window data loc m) /\ ucr_distance r (window data loc m) query d /\
  forall k d', (0 <= k <= Rlen data - m)%Z -> ~ flat (window data k m) -> ucr_distance r (window data k m) query d' ->
    d <= d' /\ ((k < loc)%Z -> d < d').

(** a sorting function that leaves a permutation of the indices *)
Definition arranges {A} (sort : list A -> list Z) : Prop :=
  forall l, Permutation (sort l) (map Z.of_nat (seq 0 (length l))).
