(** Specification of similarity search: what a match is, and what it means to
    return the best ones. *)
From Coq Require Import String.
From Verif Require Import Base Num NumB64 NumLaws TimeSeries Distance DistSpec TSSet DataSpec GroupSpec Candidate.
Local Open Scope Z_scope.
Local Open Scope list_scope.

Section Spec.
Context {N : Num}.
Notation D := (D N).

(** the warped distance of two sequences, as the library computes it without
    cut-off (C01, C02 say which number that is) *)
Definition dtw_of (k : kind) (ratio : D) (xs ys : list D) : res D :=
  value (dist_call (dtw_name k) ratio (ts_of_list xs) (ts_of_list ys) ninf []).

(** a subsequence: its length, and its series and start *)
Definition place := (Z * (Z * Z))%type.
Definition place_values (rows : list (list D)) (p : place) : list D := sub_values rows (fst p) (snd p).

(** the subsequences of at least two points *)
Definition long_enough (rows : list (list D)) (p : place) : Prop := 2 <= fst p /\ is_sub rows (fst p) (snd p).

(** where a candidate lies *)
Definition place_of (c : cand N) : place := (ts_length (c_data c), (ts_index (c_data c), ts_start (c_data c))).

(** [c] is a true match for the query [q]: a subsequence of the data, with its
    values, and with its true distance *)
Definition true_match (rows : list (list D)) (k : kind) (ratio : D) (q : list D) (c : cand N) : Prop :=
  is_sub rows (fst (place_of c)) (snd (place_of c)) /\
  ts_points (c_data c) = place_values rows (place_of c) /\
  dtw_of k ratio q (ts_points (c_data c)) = Ret (c_dist c).

(** distances in the order of the list never decrease *)
Definition ascending (cs : list (cand N)) : Prop :=
  forall i j x y, (i < j)%nat -> nth_error cs i = Some x -> nth_error cs j = Some y -> nle (c_dist x) (c_dist y).

(** [cs] are K matches from the places [P] (all, if there are not more than K):
    true matches at distinct places, and no other place is closer to [q] than any
    of them *)
Definition best_matches (rows : list (list D)) (k : kind) (ratio : D) (q : list D) (P : place -> Prop)
  (K : Z) (cs : list (cand N)) : Prop :=
  (forall c, In c cs -> P (place_of c) /\ true_match rows k ratio q c) /\
  NoDup (map place_of cs) /\
  (Z.of_nat (length cs) = K \/ (Z.of_nat (length cs) < K /\ forall p, P p -> In p (map place_of cs))) /\
  (forall p v c, P p -> ~ In p (map place_of cs) -> dtw_of k ratio q (place_values rows p) = Ret v ->
     In c cs -> nle (c_dist c) v).

(** no two of the distances from [q] to the places [P] are closer to each other
    than EPS = 1e-9 without being equal *)
Definition no_near_ties (rows : list (list D)) (k : kind) (ratio : D) (q : list D) (P : place -> Prop) : Prop :=
  forall p p' v v', P p -> P p' ->
  dtw_of k ratio q (place_values rows p) = Ret v -> dtw_of k ratio q (place_values rows p') = Ret v' ->
  neqv v v' \/ nltb (nabs (nsub v v')) neps = false.

(** the distance from [q] to each place is a sum without overflow, with a usable band *)
Definition searchable (rows : list (list D)) (k : kind) (ratio : D) (q : list D) (P : place -> Prop) : Prop :=
  forall p, P p -> exists r, ieee_ok k (ts_of_list q) (ts_of_list (place_values rows p)) ratio r.
End Spec.

(** data, query and band ratio within the limits of the IEEE theorems: values at
    most 2^490, lengths at most 2^30, ratio between 0 and 1 *)
Definition moderate_value (x : D B64) : Prop := @nle B64 (nabs (n := B64) x) (nofZ (2 ^ 490)).
Definition moderate_data (rows : list (list (D B64))) : Prop :=
  forall row, In row rows -> Forall moderate_value row /\ Z.of_nat (length row) <= 2 ^ 30.
Definition moderate_query (q : TS B64) : Prop :=
  ts_ok q /\ Forall moderate_value (ts_points q) /\ 2 <= ts_length q <= 2 ^ 30.
Definition moderate_ratio (ratio : D B64) : Prop :=
  @nle B64 (nofZ 0) ratio /\ @nle B64 ratio (nofZ 1).
