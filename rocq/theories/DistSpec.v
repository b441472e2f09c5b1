(** Specification of the warped and point-to-point distances of the three
    basic metrics, for any arithmetic, and the preconditions of the theorems in
    PropsDistance.v.  Independent of the model's metric records. *)
From Coq Require Import String.
From Verif Require Import Base Num NumB64 NumLaws TimeSeries Distance DtwSpec.
Local Open Scope Z_scope.
Local Open Scope list_scope.

Inductive kind := KEuclidean | KManhattan | KChebyshev.

Definition kind_name (k : kind) : string :=
  match k with KEuclidean => "euclidean" | KManhattan => "manhattan" | KChebyshev => "chebyshev" end.
Definition dtw_name (k : kind) : string := (kind_name k ++ "_dtw")%string.

(** calling a distance by name with band ratio, cut-off and matching vector:
    getDistanceFromName(nm)(a, b, cut, mt) *)
Definition dist_call {N : Num} (nm : string) (ratio : D N) (a b : TS N) (cut : D N) (mt : list (Z * Z))
  : res (D N * list (Z * Z)) :=
  f <- getDistanceFromName nm ;; f ratio a b cut mt.

(** what a call returns apart from the matching *)
Definition value {A B} (r : res (A * B)) : res A :=
  match r with Ret (d, _) => Ret d | Throw e => Throw e | UB u => UB u | Hang => Hang end.

Section Spec.
Context {N : Num}.
Notation D := (D N).

Definition nthd (xs : list D) (i : Z) : D := nth (Z.to_nat i) xs n0.

(** accumulated cost along a list of index pairs, left to right *)
Definition along (k : kind) (xs ys : list D) (p : list (Z * Z)) : D :=
  match k with
  | KEuclidean => fold_left (fun s c =>
      nadd s (let d := nsub (nthd xs (fst c)) (nthd ys (snd c)) in nmul d d)) p n0
  | KManhattan => fold_left (fun s c => nadd s (nabs (nsub (nthd xs (fst c)) (nthd ys (snd c))))) p n0
  | KChebyshev => fold_left (fun s c => nmax s (nabs (nsub (nthd xs (fst c)) (nthd ys (snd c))))) p nninf
  end.

(** normalised cost of a warping path: for Euclidean sqrt(sum)/(2 max(m,n)),
    for Manhattan sum/(2 max(m,n)), for Chebyshev the maximum *)
Definition warp_cost (k : kind) (xs ys : list D) (p : list (Z * Z)) : D :=
  let len := Z.max (Z.of_nat (length xs)) (Z.of_nat (length ys)) in
  match k with
  | KEuclidean => ndiv (nsqrt (along k xs ys p)) (nofZ (2 * len))
  | KManhattan => ndiv (along k xs ys p) (nofZ (2 * len))
  | KChebyshev => along k xs ys p
  end.

(** (0,0), (1,1), ..., (len-1,len-1) *)
Definition straight (len : nat) : list (Z * Z) := map (fun i => (Z.of_nat i, Z.of_nat i)) (seq 0 len).

(** the point-to-point distance of two series of the same length *)
Definition pair_value (k : kind) (xs ys : list D) : D :=
  let s := along k xs ys (straight (length xs)) in
  let len := Z.of_nat (length xs) in
  match k with
  | KEuclidean => nsqrt (ndiv s (nofZ len))
  | KManhattan => ndiv s (nofZ len)
  | KChebyshev => s
  end.

(** two series of at least two (at most 2^30) finite points, a usable band [r],
    and no cost of an in-band path (to any cell) overflows to infinity *)
Record ieee_ok (k : kind) (a b : TS N) (ratio : D) (r : Z) : Prop := {
  io_a : ts_ok a; io_b : ts_ok b;
  io_m : 2 <= ts_length a <= 2 ^ 30;
  io_n : 2 <= ts_length b <= 2 ^ 30;
  io_fa : Forall nfin (ts_points a);
  io_fb : Forall nfin (ts_points b);
  io_band : band ratio (Z.max (ts_length a) (ts_length b)) = Ret r;
  io_r : 0 <= r;
  io_fin : forall i j p, 1 <= i <= ts_length a -> 1 <= j <= ts_length b ->
    warping_path i j p -> in_band r p -> nltb (warp_cost k (ts_points a) (ts_points b) p) ninf = true
}.
End Spec.

(** points with |x| <= 2^490 *)
Definition small_points (a : TS B64) : Prop :=
  Forall (fun x => @nle B64 (nabs (n := B64) x) (b64_ofZ (2 ^ 490))) (ts_points a).

(** [v] is the largest / smallest of the points at most [w] positions away
    from position [k] *)
Definition largest_near {N : Num} (t : TS N) (w k : Z) (v : D N) : Prop :=
  (exists i, 0 <= i < ts_length t /\ Z.abs (i - k) <= w /\ v = pt t i) /\
  (forall i, 0 <= i < ts_length t -> Z.abs (i - k) <= w -> nle (pt t i) v).
Definition smallest_near {N : Num} (t : TS N) (w k : Z) (v : D N) : Prop :=
  (exists i, 0 <= i < ts_length t /\ Z.abs (i - k) <= w /\ v = pt t i) /\
  (forall i, 0 <= i < ts_length t -> Z.abs (i - k) <= w -> nle v (pt t i)).
