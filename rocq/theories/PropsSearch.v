(** Properties C26 and C27: exhaustive search and the order of results.
    Specification: SearchSpec.v (matches), DataSpec.v (data sets), DistSpec.v. *)
From Coq Require Import String Reals Lra.
From Flocq Require Import IEEE754.BinarySingleNaN Core.Raux.
From Verif Require Import Base Num NumB64 NumB64Laws NumLaws NumFacts NumXR NumXRLaws NumMore LoopFacts TimeSeries Lemire Distance
  DtwReal DistSpec DistLink TSSet StdAlg HeapFacts Candidate BruteForce DataSpec DataProofs GroupSpec
  CandOrder TopK SearchSpec SearchProofs SearchCases BruteProofs PropsDistance PropsData PropsGroup.
Local Open Scope Z_scope.
Local Open Scope list_scope.

(** ** C26 *)

(** IEEE doubles.  [H] is any implementation of the standard heap and sort
    algorithms. *)
Theorem C26_brute_force_exact_ieee : forall (H : std_alg) (k : kind) (d : dataset B64) (rows : list (list (D B64)))
    (query : TS B64) (ratio : D B64) K,
  std_ok H -> holds d rows -> moderate_data rows -> moderate_query query -> moderate_ratio ratio -> 1 <= K ->
  no_near_ties (N := B64) rows k ratio (ts_points query) (long_enough rows) ->
  exists best, getKBestMatchesBruteForce (N := B64) H ratio d query K (kind_name k) = Ret best /\
    best_matches (N := B64) rows k ratio (ts_points query) (long_enough rows) K best /\ ascending best.
Proof.
  intros H k d rows query ratio K Hok Hd Hm Hq Hr HK Ht.
  apply (brute_main (N := B64)); auto; [apply Hq|]. apply searchable_moderate; auto.
Qed.
Print Assumptions C26_brute_force_exact_ieee.

(** Exact arithmetic: the same for real data. *)
Theorem C26_brute_force_exact_reals : forall (H : std_alg) (k : kind) (d : dataset XR) (rows : list (list R))
    (query : TS XR) (xs : list R) (ratio : R) K,
  std_ok H -> holds d (real_rows rows) -> is_series query xs -> 2 <= Z.of_nat (length xs) <= 2 ^ 30 ->
  (forall row, In row rows -> Z.of_nat (length row) <= 2 ^ 30) -> (0 <= ratio <= 1)%R -> 1 <= K ->
  no_near_ties (N := XR) (real_rows rows) k (Fin ratio) (map Fin xs) (long_enough (real_rows rows)) ->
  exists best, getKBestMatchesBruteForce (N := XR) H (Fin ratio) d query K (kind_name k) = Ret best /\
    best_matches (N := XR) (real_rows rows) k (Fin ratio) (map Fin xs) (long_enough (real_rows rows)) K best /\ ascending best.
Proof.
  intros H k d rows query xs ratio K Hok Hd Hq Hl Hrows Hr HK Ht.
  assert (E : ts_points query = map Fin xs) by apply Hq. rewrite <- E in *.
  apply (brute_main (N := XR)); auto; [apply Hq|]. apply (searchable_real k rows ratio query xs); auto.
Qed.
Print Assumptions C26_brute_force_exact_reals.

(** k <= 0 *)
Theorem C26_nonpositive_k_throws : forall (N : Num) (H : std_alg) (ratio : D N) (d : dataset N) query K name,
  K <= 0 -> getKBestMatchesBruteForce H ratio d query K name = Throw (GenexExc "K must be positive").
Proof.
  intros N H ratio d query K name HK. unfold getKBestMatchesBruteForce. destruct (Z.leb_spec K 0); [auto|lia].
Qed.
Print Assumptions C26_nonpositive_k_throws.

(** results as (length, series, start, distance) with the float without its proof *)
Definition show_cands (r : res (list (cand B64))) :=
  match r with
  | Ret cs => Some (map (fun c : cand B64 => (ts_length (c_data c), ts_index (c_data c), ts_start (c_data c), B2SF (c_dist c : b64))) cs)
  | _ => None
  end.

(** a data set with two series of three points; query 1 9 *)
Definition bf_query : TS B64 := zs [1; 9].
Definition bf_places_ex : list place :=
  [(2, (0, 0)); (2, (0, 1)); (3, (0, 0)); (2, (1, 0)); (2, (1, 1)); (3, (1, 0))].

Example C26_example_run :
  show_cands (getKBestMatchesBruteForce (N := B64) simple_alg (b64_ofZ 1) ex2_data bf_query 2 "manhattan")
  = Some [(2, 0, 1, B2SF (b64_ofZ 0)); (3, 0, 0, B2SF (b64_lit 1 6))].
Proof. vm_compute. reflexivity. Qed.

(** the hypotheses of the theorem hold for it *)
Lemma ex2_places p : long_enough ex2_rows p -> In p bf_places_ex.
Proof.
  intros Hp. apply (bf_places_In (N := B64) ex2_rows) in Hp. exact Hp.
Qed.

Definition sepb (x y : b64) : bool := Beqb x y || negb (Bltb (Babs (Bminus mode_NE x y)) (@neps B64)).

Example C26_example_pre : holds ex2_data ex2_rows /\ moderate_data ex2_rows /\ moderate_query bf_query /\
  moderate_ratio (b64_ofZ 1) /\
  no_near_ties (N := B64) ex2_rows KManhattan (b64_ofZ 1) (ts_points bf_query) (long_enough ex2_rows).
Proof.
  split; [apply ex2_holds|]. split; [|split; [|split]].
  - intros row [<-|[<-|[]]]; (split; [|vm_compute; discriminate]).
    + apply leb64_all. vm_compute. reflexivity.
    + apply leb64_all. vm_compute. reflexivity.
  - split; [apply zs_ok|]. split; [|vm_compute; split; discriminate]. apply leb64_all. vm_compute. reflexivity.
  - split; (split; [reflexivity|split; reflexivity]).
  - intros p p' v v' Hp Hp' Ev Ev'. apply ex2_places in Hp, Hp'.
    assert (G : forallb (fun p => forallb (fun p' =>
      match dtw_of (N := B64) KManhattan (b64_ofZ 1) (ts_points bf_query) (place_values ex2_rows p),
            dtw_of (N := B64) KManhattan (b64_ofZ 1) (ts_points bf_query) (place_values ex2_rows p') with
      | Ret v, Ret v' => sepb v v' | _, _ => false end) bf_places_ex) bf_places_ex = true) by (vm_compute; reflexivity).
    rewrite forallb_forall in G. specialize (G p Hp). rewrite forallb_forall in G. specialize (G p' Hp').
    cbv beta in G. rewrite Ev, Ev' in G. unfold sepb in G. apply orb_true_iff in G as [G|G].
    + left. apply (neqb_true (N := B64)). exact G.
    + right. apply negb_true_iff in G. exact G.
Qed.

(** Near ties: distances 1.2e-9, 0.6e-9 and 0 (all closer than 1e-9 to their
    neighbour) in this order make the comparison cyclic, and std::make_heap is
    called with an invalid comparison, whatever its implementation is. *)
Definition nano (n : Z) : b64 := b64_lit n 10000000000.
Definition tie_rows : list (list (D B64)) := [[nano 24; nano 24]; [nano 12; nano 12]; [nano 0; nano 0]].
Definition tie_data : dataset B64 := mkDS (N := B64) (Some (concat tie_rows)) [] [2; 2; 2] 3 2 "f"%string false.

Lemma tie_holds : holds tie_data tie_rows.
Proof.
  exists (concat tie_rows). splits; try reflexivity; try (unfold int_max; simpl; lia).
  intros i row E. destruct i as [|[|[|i]]]; [| | |destruct i; discriminate]; injection E as <-; splits; try reflexivity;
    try (simpl; lia); intros j v Ej; repeat (destruct j as [|j]; [injection Ej as <-; reflexivity|]);
    destruct j; discriminate.
Qed.

Definition bad_order {A} (r : res A) : bool := match r with UB BadOrder => true | _ => false end.
Lemma is_bad_order {A} (r : res A) : bad_order r = true -> r = UB BadOrder.
Proof. destruct r as [a|e|[]|]; try discriminate; auto. Qed.

Theorem C26_near_ties_refuted : exists (d : dataset B64) rows (query : TS B64) (ratio : D B64),
  holds d rows /\ moderate_query query /\
  forall H : std_alg, getKBestMatchesBruteForce (N := B64) H ratio d query 3 "manhattan" = UB BadOrder.
Proof.
  exists tie_data, tie_rows, (zs [0; 0]), (b64_ofZ 1). split; [apply tie_holds|]. split.
  - split; [apply zs_ok|]. split; [|vm_compute; split; discriminate]. apply leb64_all. vm_compute. reflexivity.
  - intros H. apply is_bad_order. vm_compute. reflexivity.
Qed.
Print Assumptions C26_near_ties_refuted.

(** ** C27 *)

(** three candidates in a cycle: x < y and y < z but not x < z (in fact z < x) *)
Theorem C27_order_not_transitive_refuted : exists x y z : cand B64,
  cand_lt x y = true /\ cand_lt y z = true /\ cand_lt x z = false /\ cand_lt z x = true.
Proof.
  exists (mkCand (ts_view (N := B64) [] 0 0 2) (nano 12)), (mkCand (ts_view (N := B64) [] 1 0 2) (nano 6)),
    (mkCand (ts_view (N := B64) [] 2 0 2) (nano 0)).
  splits; vm_compute; reflexivity.
Qed.
Print Assumptions C27_order_not_transitive_refuted.

(** On candidates whose distances are not negative and pairwise equal or at least
    EPS apart it is irreflexive, transitive and has transitive incomparability. *)
Theorem C27_strict_weak_order_partial : forall cs : list (cand B64),
  (forall c, In c cs -> nle (N := B64) n0 (c_dist c)) ->
  (forall c c', In c cs -> In c' cs -> neqv (N := B64) (c_dist c) (c_dist c') \/
     nltb (n := B64) (nabs (n := B64) (nsub (n := B64) (c_dist c) (c_dist c'))) neps = false) ->
  (forall x, In x cs -> cand_lt x x = false) /\
  (forall x y z, In x cs -> In y cs -> In z cs -> cand_lt x y = true -> cand_lt y z = true -> cand_lt x z = true) /\
  (forall x y z, In x cs -> In y cs -> In z cs -> cand_lt x y = false -> cand_lt y x = false ->
     cand_lt y z = false -> cand_lt z y = false -> cand_lt x z = false /\ cand_lt z x = false).
Proof.
  intros cs Hp Ha. destruct (cand_swo (N := B64) cs) as (H1 & H2 & H3).
  { split.
    - intros x Hx. apply in_map_iff in Hx as (c & <- & Hc). auto.
    - intros x y Hx Hy. apply in_map_iff in Hx as (c & <- & Hc). apply in_map_iff in Hy as (c' & <- & Hc'). apply Ha; auto. }
  splits; auto. intros x y z Hx Hy Hz E1 E2 E3 E4. split; [apply (H3 x y z)|apply (H3 z y x)]; auto.
Qed.
Print Assumptions C27_strict_weak_order_partial.

Example C27_example : let c i x := mkCand (ts_view (N := B64) [] i 0 2) (b64_ofZ x) in
  let cs := [c 0 1; c 1 1; c 2 5] in
  (forall a, In a cs -> nle (N := B64) n0 (c_dist a)) /\
  (forall a b, In a cs -> In b cs -> neqv (N := B64) (c_dist a) (c_dist b) \/
     nltb (n := B64) (nabs (n := B64) (nsub (n := B64) (c_dist a) (c_dist b))) neps = false).
Proof.
  intros c cs. split.
  - intros a [<-|[<-|[<-|[]]]]; (split; [reflexivity|split; reflexivity]).
  - intros a b Ha Hb.
    assert (G : forallb (fun a : cand B64 => forallb (fun b : cand B64 => sepb (c_dist a) (c_dist b)) cs) cs = true) by (vm_compute; reflexivity).
    rewrite forallb_forall in G. specialize (G a Ha). rewrite forallb_forall in G. specialize (G b Hb).
    unfold sepb in G. apply orb_true_iff in G as [G|G].
    + left. apply (neqb_true (N := B64)). exact G.
    + right. apply negb_true_iff in G. exact G.
Qed.
