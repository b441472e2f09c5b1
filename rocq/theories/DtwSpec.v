(** Specification: warping paths and their costs. *)
From Verif Require Import Base Num TimeSeries Distance.

Section Spec.
Context {N : Num}.

(** the i-th point of a series *)
Definition pt (t : TS N) (i : Z) : D N := nth (Z.to_nat i) (ts_points t) n0.

(** one step of a warping path: advance in one of the series or in both *)
Definition wstep (c c' : Z * Z) : Prop :=
  c' = (fst c + 1, snd c) \/ c' = (fst c, snd c + 1) \/ c' = (fst c + 1, snd c + 1).

Fixpoint chain (c : Z * Z) (p : list (Z * Z)) : Prop :=
  match p with
  | [] => True
  | c' :: p' => wstep c c' /\ chain c' p'
  end.

(** a warping path of an m-point and an n-point series: it starts by matching
    the first points, ends by matching the last points, and every step is legal *)
Definition warping_path (m n : Z) (p : list (Z * Z)) : Prop :=
  match p with
  | [] => False
  | c :: p' => c = (0, 0) /\ chain c p' /\ last p (0, 0) = (m - 1, n - 1)
  end.

(** Sakoe-Chiba band *)
Definition in_band (r : Z) (p : list (Z * Z)) : Prop :=
  Forall (fun c => Z.abs (fst c - snd c) <= r) p.

(** accumulated and normalised cost of a path for a metric *)
Definition path_acc (M : Metric N) (a b : TS N) (p : list (Z * Z)) : acc M :=
  fold_left (fun s c => m_reduce M s (pt a (fst c)) (pt b (snd c))) p (m_init M).

Definition path_cost (M : Metric N) (a b : TS N) (p : list (Z * Z)) : D N :=
  m_normDTW M (path_acc M a b p) (ts_length a) (ts_length b).

End Spec.
