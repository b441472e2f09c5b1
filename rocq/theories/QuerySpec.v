(** Specification of queries against groups. *)
From Coq Require Import String.
From Coq Require Import Permutation.
From Verif Require Import Base Num TimeSeries Distance DistSpec TSSet StdAlg Candidate Group GroupSpace DataSpec GroupSpec GroupView
  SearchSpec NumLaws.
Local Open Scope Z_scope.
Local Open Scope list_scope.

Section Spec.
Context {N : Num}.
Notation D := (D N).

(** two lengths differ by at most the band of the larger one: the ones between
    which a warped distance is finite *)
Definition within_band (ratio : D) (q l : Z) : Prop :=
  exists r, band ratio (Z.max l q) = Ret r /\ Z.abs (l - q) <= r.

(** the lengths a query of length [q] searches *)
Definition searched (d : dataset N) (whole : bool) (ratio : D) (q l : Z) : Prop :=
  grouped_length d whole l /\ within_band ratio q l.

(** the subsequences of these lengths *)
Definition searched_place (d : dataset N) (rows : list (list D)) (whole : bool) (ratio : D) (q : Z) (p : place) : Prop :=
  searched d whole ratio q (fst p) /\ is_sub rows (fst p) (snd p).

(** [v] is a group of length [l] in the data set [g] *)
Definition group_in (g : gset N) (l : Z) (v : gview) : Prop :=
  exists vs, level_view g l = Some (Ret vs) /\ In v vs.

(** the distance of a group of length [l] to the query is [x]: that of its
    representative *)
Definition group_dist (rows : list (list D)) (k : kind) (ratio : D) (q : list D) (l : Z) (v : gview) (x : D) : Prop :=
  dtw_of k ratio (place_values rows (l, v_rep v)) q = Ret x.

(** data set [g'] arises from [g] by any queries, with any band ratios *)
Inductive asked (H : std_alg) (g : gset N) : gset N -> Prop :=
| asked_none : asked H g g
| asked_best g1 g2 ratio query c : asked H g g1 -> getBestMatch ratio g1 query = Ret (g2, c) -> asked H g g2
| asked_k g1 g2 ratio query k h cs : asked H g g1 -> getKBestMatches H ratio g1 query k h = Ret (g2, cs) -> asked H g g2.

(** [c] is the best member of the group [v] of length [l], which is the closest
    one of all groups of the searched lengths [S] *)
Definition best_of_closest (rows : list (list D)) (k : kind) (ratio : D) (q : list D) (S : Z -> Prop) (g : gset N) (c : cand N) : Prop :=
  true_match rows k ratio q c /\
  exists l v x, S l /\ group_in g l v /\ group_dist rows k ratio q l v x /\
    fst (place_of c) = l /\ In (snd (place_of c)) (v_members v) /\
    (forall l' v' x', S l' -> group_in g l' v' -> group_dist rows k ratio q l' v' x' -> nle x x') /\
    (forall m y, In m (v_members v) -> dtw_of k ratio q (place_values rows (l, m)) = Ret y -> nle (c_dist c) y).

(** as [searchable], for distances from the places to the query *)
Definition searchable_from (rows : list (list D)) (k : kind) (ratio : D) (q : list D) (P : place -> Prop) : Prop :=
  forall p, P p -> exists r, ieee_ok k (ts_of_list (place_values rows p)) (ts_of_list q) ratio r.

(** the places of the members of a group, given with its length *)
Definition group_places (lv : Z * gview) : list place := map (fun m => (fst lv, m)) (v_members (snd lv)).

(** [C] is what a search that looks at [h] subsequences may look at: all of the
    places [P] if these are fewer than [h]; otherwise [h] places, namely all members
    of the groups [inner] and a part of the members of the group [far].  No group
    left out ([outer]) is closer than [far], which is not closer than those of
    [inner]; and no member of [far] left out is closer than those taken. *)
Definition considered (rows : list (list D)) (k : kind) (ratio : D) (q : list D) (S : Z -> Prop) (P : place -> Prop)
  (g : gset N) (h : Z) (C : list place) : Prop :=
  NoDup C /\ (forall p, In p C -> P p) /\
  ((Z.of_nat (length C) < h /\ forall p, P p -> In p C) \/
   (Z.of_nat (length C) = h /\ exists inner far outer part,
      (forall l v, S l /\ group_in g l v <-> In (l, v) (inner ++ far :: outer)) /\
      (forall l v x y, In (l, v) inner -> group_dist rows k ratio q l v x ->
         group_dist rows k ratio q (fst far) (snd far) y -> nle x y) /\
      (forall l v x y, In (l, v) outer -> group_dist rows k ratio q (fst far) (snd far) x ->
         group_dist rows k ratio q l v y -> nle x y) /\
      Permutation C (part ++ flat_map group_places inner) /\ part <> [] /\ incl part (group_places far) /\
      (forall p p' v v', In p part -> In p' (group_places far) -> ~ In p' part ->
         dtw_of k ratio q (place_values rows p) = Ret v -> dtw_of k ratio q (place_values rows p') = Ret v' -> nle v v'))).
End Spec.

(** there are at least [n] places [P] *)
Definition at_least (P : place -> Prop) (n : Z) : Prop :=
  exists ps, NoDup ps /\ (forall p, In p ps -> P p) /\ n <= Z.of_nat (length ps).

(** [ps] are the places [P] *)
Definition listing (P : place -> Prop) (ps : list place) : Prop := NoDup ps /\ forall p, In p ps <-> P p.
