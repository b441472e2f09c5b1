(** What the distances called "cosine" and "sorensen" are meant to compute from the pairs of
    points they compare, in any arithmetic and over the reals.  Independent of the model's
    metric records. *)
From Coq Require Import Reals.
From Verif Require Import Base Num DistSpec.
Local Open Scope list_scope.

Section Spec.
Context {N : Num}.
Notation D := (D N).

(** f summed over pairs of numbers, from the first to the last, starting from 0 *)
Definition total (f : D -> D -> D) (ps : list (D * D)) : D := fold_left (fun s c => nadd s (f (fst c) (snd c))) ps n0.

(** sum of x y, divided by the root of (sum of x x) (sum of y y) *)
Definition cosine_of (ps : list (D * D)) : D :=
  ndiv (total (fun x y => nmul x y) ps) (nsqrt (nmul (total (fun x _ => nmul x x) ps) (total (fun _ y => nmul y y) ps))).

(** sum of |x - y|, divided by the sum of |x + y| *)
Definition sorensen_of (ps : list (D * D)) : D :=
  ndiv (total (fun x y => nabs (nsub x y)) ps) (total (fun x y => nabs (nadd x y)) ps).

(** the points that a list of index pairs matches *)
Definition met (xs ys : list D) (p : list (Z * Z)) : list (D * D) := map (fun c => (nthd xs (fst c), nthd ys (snd c))) p.
End Spec.

(** over the reals *)
Definition Rtotal (f : R -> R -> R) (ps : list (R * R)) : R := fold_right (fun c s => (f (fst c) (snd c) + s)%R) 0%R ps.
Definition dot (xs ys : list R) : R := Rtotal Rmult (combine xs ys).
Definition norm (xs : list R) : R := sqrt (dot xs xs).
Definition cosine (xs ys : list R) : R := (dot xs ys / (norm xs * norm ys))%R.
Definition apart (xs ys : list R) : R := Rtotal (fun x y => Rabs (x - y)) (combine xs ys).
Definition together (xs ys : list R) : R := Rtotal (fun x y => Rabs (x + y)) (combine xs ys).
Definition nonzero (xs : list R) : Prop := Exists (fun x => x <> 0%R) xs.
