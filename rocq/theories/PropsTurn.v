(** Property C75: turning both series upside down, shifting both by the same amount, or reversing both in
    time.  Specifications: DtwSpec.v, NamedSpec.v ([stretch]), SearchSpec.v, GroupView.v and the beginning
    of this file. *)
From Coq Require Import String Reals Lra Lia ZArith Permutation.
From Flocq Require Import Core BinarySingleNaN.
From Verif Require Import Base Num NumB64 NumLaws NumFacts NumB64Laws NumXR NumXRLaws LoopFacts TimeSeries TSSet Distance DtwSpec DtwPaths DtwProofs Metrics DtwMain
  DtwResults DtwReal Pairwise DistSpec DistFacts DistLink Group GroupView GroupSpace DataSpec DataProofs StdAlg Candidate GroupSpec SearchSpec SearchCases
  BruteForce Loader Api ApiSpec ApiProofs ApiQuery NamedSpec PropsDistance PropsLoader PropsApi PropsNamed PropsSearch PropsMore PropsApiQuery PropsNorm
  HeapFacts KBest PropsBand PropsWhole PropsScale PropsOrder Turn TurnGroup.
Local Open Scope Z_scope.
Local Open Scope list_scope.

(** the three ways to turn a series *)
Inductive turn (A : Type) := Upside_down | Shifted (by_ : A) | Backwards.
Arguments Upside_down {A}. Arguments Shifted {A}. Arguments Backwards {A}.
Definition turned {A} (neg : A -> A) (add : A -> A -> A) (t : turn A) (xs : list A) : list A :=
  match t with Upside_down => map neg xs | Shifted c => map (add c) xs | Backwards => rev xs end.
Definition turnedR := turned Ropp Rplus.
Definition turnedZ := turned Z.opp Z.add.

(** ** from here on proofs *)
Lemma turned_length {A} neg add t (xs : list A) : length (turned neg add t xs) = length xs.
Proof. destruct t; cbn; rewrite ?map_length, ?rev_length; reflexivity. Qed.
Lemma turned_Rlen t xs : Rlen (turnedR t xs) = Rlen xs.
Proof. unfold Rlen, turnedR. rewrite turned_length. reflexivity. Qed.

(** the corresponding path *)
Definition turned_path {A} (t : turn A) (m n : Z) (p : list (Z * Z)) : list (Z * Z) := match t with Backwards => back m n p | _ => p end.

Section Costs.
Local Open Scope R_scope.
Definition blind (f : R -> R -> R) : Prop := (forall x y, f (- x) (- y) = f x y) /\ forall c x y, f (c + x) (c + y) = f x y.
Lemma blind_sq : blind (fun x y => (x - y) * (x - y)).
Proof. split; intros; ring. Qed.
Lemma blind_abs : blind (fun x y => Rabs (x - y)).
Proof. split; intros; [rewrite <- (Rabs_Ropp (x - y))|]; f_equal; ring. Qed.

Lemma turned_pt f t xs ys i j : blind f -> (0 <= i < Rlen xs)%Z -> (0 <= j < Rlen ys)%Z ->
  let c := match t with Backwards => facing (Rlen xs) (Rlen ys) (i, j) | _ => (i, j) end in
  f (Rpt (turnedR t xs) (fst c)) (Rpt (turnedR t ys) (snd c)) = f (Rpt xs i) (Rpt ys j).
Proof.
  intros [B1 B2] Hi Hj. unfold Rpt, turnedR, Rlen in *. destruct t as [|c|]; cbn [turned facing fst snd].
  - rewrite (nth_indep (map Ropp xs) 0 (- 0)), (nth_indep (map Ropp ys) 0 (- 0)), !(map_nth Ropp) by (rewrite map_length; lia). apply B1.
  - rewrite (nth_indep (map (Rplus c) xs) 0 (c + 0)), (nth_indep (map (Rplus c) ys) 0 (c + 0)), !(map_nth (Rplus c)) by (rewrite map_length; lia). apply B2.
  - rewrite !rev_nth_Z by assumption. reflexivity.
Qed.

Lemma turned_sum f t xs ys p : blind f -> Forall (fun c => (0 <= fst c < Rlen xs /\ 0 <= snd c < Rlen ys)%Z) p ->
  path_sum f (turnedR t xs) (turnedR t ys) (turned_path t (Rlen xs) (Rlen ys) p) = path_sum f xs ys p.
Proof.
  intros B H.
  assert (G : path_sum f (turnedR t xs) (turnedR t ys) (map (fun c => match t with Backwards => facing (Rlen xs) (Rlen ys) c | _ => c end) p) = path_sum f xs ys p).
  { induction H as [|[i j] p [Hi Hj] Hp IH]; [reflexivity|]. unfold path_sum in *. cbn [map fold_right]. rewrite IH. f_equal.
    pose proof (turned_pt f t xs ys i j B Hi Hj) as E. destruct t; exact E. }
  destruct t; cbn [turned_path]; [rewrite map_id in G; exact G|rewrite map_id in G; exact G|]. rewrite <- G. unfold back, path_sum.
  apply fold_right_perm; [intros; ring|]. apply Permutation_sym, Permutation_rev.
Qed.
Lemma turned_max f t xs ys p : blind f -> Forall (fun c => (0 <= fst c < Rlen xs /\ 0 <= snd c < Rlen ys)%Z) p ->
  path_max f (turnedR t xs) (turnedR t ys) (turned_path t (Rlen xs) (Rlen ys) p) = path_max f xs ys p.
Proof.
  intros B H.
  assert (G : path_max f (turnedR t xs) (turnedR t ys) (map (fun c => match t with Backwards => facing (Rlen xs) (Rlen ys) c | _ => c end) p) = path_max f xs ys p).
  { induction H as [|[i j] p [Hi Hj] Hp IH]; [reflexivity|]. unfold path_max in *. cbn [map fold_right]. rewrite IH. f_equal.
    pose proof (turned_pt f t xs ys i j B Hi Hj) as E. destruct t; exact E. }
  destruct t; cbn [turned_path]; [rewrite map_id in G; exact G|rewrite map_id in G; exact G|]. rewrite <- G. unfold back, path_max.
  apply fold_right_perm; [intros; rewrite !Rmax_assoc, (Rmax_comm (f _ _)); reflexivity|]. apply Permutation_sym, Permutation_rev.
Qed.

Lemma turned_cost k t xs ys p : warping_path (Rlen xs) (Rlen ys) p ->
  real_cost k (turnedR t xs) (turnedR t ys) (turned_path t (Rlen xs) (Rlen ys) p) = real_cost k xs ys p.
Proof.
  intros Hp. pose proof (path_inside _ _ _ Hp) as H.
  assert (M : maxlen (turnedR t xs) (turnedR t ys) = maxlen xs ys) by (unfold maxlen; rewrite !turned_Rlen; reflexivity).
  destruct k; cbn [real_cost]; unfold euclidean_cost, manhattan_cost, chebyshev_cost; rewrite ?M.
  - rewrite turned_sum by (exact blind_sq || exact H). reflexivity.
  - rewrite turned_sum by (exact blind_abs || exact H). reflexivity.
  - rewrite turned_max by (exact blind_abs || exact H). reflexivity.
Qed.

Lemma straight_inside xs ys : length xs = length ys -> Forall (fun c => (0 <= fst c < Rlen xs /\ 0 <= snd c < Rlen ys)%Z) (diag (length xs)).
Proof.
  intros E. apply Forall_forall. intros c Hc. unfold diag in Hc. apply in_map_iff in Hc as (i & <- & Hi). apply in_seq in Hi. unfold Rlen. cbn [fst snd]. lia.
Qed.
Lemma back_straight n : back (Z.of_nat n) (Z.of_nat n) (diag n) = diag n.
Proof.
  unfold back, diag. rewrite map_map, <- map_rev. apply nth_ext with (d := (0, 0)%Z) (d' := (0, 0)%Z); [rewrite !map_length, rev_length; reflexivity|].
  intros i Hi. rewrite map_length, rev_length, seq_length in Hi.
  rewrite (nth_indep _ (0, 0)%Z ((fun x => facing (Z.of_nat n) (Z.of_nat n) (Z.of_nat x, Z.of_nat x)) 0%nat)) by (rewrite map_length, rev_length, seq_length; exact Hi).
  rewrite (map_nth (fun x => facing (Z.of_nat n) (Z.of_nat n) (Z.of_nat x, Z.of_nat x))). rewrite rev_nth by (rewrite seq_length; exact Hi).
  rewrite (nth_indep _ (0, 0)%Z ((fun x => (Z.of_nat x, Z.of_nat x)) 0%nat)) by (rewrite map_length, seq_length; exact Hi).
  rewrite (map_nth (fun x => (Z.of_nat x, Z.of_nat x))). rewrite seq_length, !seq_nth by lia. unfold facing. cbn [fst snd]. f_equal; lia.
Qed.

Lemma path_max_diag f xs ys : length xs = length ys -> path_max f xs ys (diag (length xs)) = pair_max f xs ys.
Proof.
  intros H. unfold path_max, pair_max. rewrite (Pairwise.combine_map xs ys H). unfold diag. induction (seq 0 (length xs)) as [|i l IH]; cbn; [reflexivity|].
  rewrite IH. unfold Rpt. rewrite !Nat2Z.id. reflexivity.
Qed.

Lemma turned_pair k t xs ys : length xs = length ys -> real_pair k (turnedR t xs) (turnedR t ys) = real_pair k xs ys.
Proof.
  intros E. assert (E' : length (turnedR t xs) = length (turnedR t ys)) by (unfold turnedR; rewrite !turned_length; exact E).
  assert (L : length (turnedR t xs) = length xs) by (unfold turnedR; apply turned_length).
  assert (P : turned_path t (Rlen xs) (Rlen ys) (diag (length xs)) = diag (length xs)).
  { destruct t; cbn [turned_path]; try reflexivity. unfold Rlen. rewrite <- E. apply back_straight. }
  pose proof (straight_inside xs ys E) as H.
  destruct k; cbn [real_pair]; unfold rms_distance, mean_abs_distance, max_abs_distance; rewrite ?L.
  - rewrite <- !path_sum_diag by assumption. rewrite L. rewrite <- (turned_sum _ t xs ys (diag (length xs)) blind_sq H), P. reflexivity.
  - rewrite <- !path_sum_diag by assumption. rewrite L. rewrite <- (turned_sum _ t xs ys (diag (length xs)) blind_abs H), P. reflexivity.
  - rewrite <- !path_max_diag by assumption. rewrite L. rewrite <- (turned_max _ t xs ys (diag (length xs)) blind_abs H), P. reflexivity.
Qed.
End Costs.

(** ** C75 *)

(** In exact numbers: the distance of two stretches of data sets is that of two stretches that hold the
    same values turned.  Reversing time needs series of the same length or a band ratio of at least 1 if
    the distance is a warped one. *)
Theorem C75_exact : forall (r0 : D XR) h (s : api XR) e e' (k : kind) (t : turn R)
    n1 i1 s1 e1 (xs : list R) n2 i2 s2 e2 (ys : list R) m1 j1 u1 v1 m2 j2 u2 v2,
  run r0 h s -> stretch s n1 i1 s1 e1 (map Fin xs) -> stretch s n2 i2 s2 e2 (map Fin ys) ->
  stretch s m1 j1 u1 v1 (map Fin (turnedR t xs)) -> stretch s m2 j2 u2 v2 (map Fin (turnedR t ys)) ->
  (length xs = length ys -> 1 <= Rlen xs <= 2 ^ 30 -> exists d : D XR,
     exec e (CDistance n1 i1 s1 e1 n2 i2 s2 e2 (kind_name k)) s = (s, Ret (AValue d)) /\
     exec e' (CDistance m1 j1 u1 v1 m2 j2 u2 v2 (kind_name k)) s = (s, Ret (AValue d))) /\
  (forall ratio, ratio_after r0 h = Fin ratio -> (0 <= ratio)%R -> 2 <= Rlen xs <= 2 ^ 30 -> 2 <= Rlen ys <= 2 ^ 30 ->
     (IZR (Z.max (Rlen xs) (Rlen ys)) * ratio <= IZR int_max)%R ->
     t <> Backwards \/ length xs = length ys \/ (1 <= ratio)%R -> exists d : D XR,
     exec e (CDistance n1 i1 s1 e1 n2 i2 s2 e2 (dtw_name k)) s = (s, Ret (AValue d)) /\
     exec e' (CDistance m1 j1 u1 v1 m2 j2 u2 v2 (dtw_name k)) s = (s, Ret (AValue d))).
Proof.
  intros r0 h s e e' k t n1 i1 s1 e1 xs n2 i2 s2 e2 ys m1 j1 u1 v1 m2 j2 u2 v2 Hrun H1 H2 H1' H2'.
  destruct (C55_distance_exact r0 h s e k n1 i1 s1 e1 xs n2 i2 s2 e2 ys Hrun H1 H2) as (P & W).
  destruct (C55_distance_exact r0 h s e' k m1 j1 u1 v1 _ m2 j2 u2 v2 _ Hrun H1' H2') as (P' & W').
  assert (L : forall zs, length (turnedR t zs) = length zs) by (intros zs; unfold turnedR; apply turned_length).
  split.
  - intros El Hl. exists (Fin (real_pair k xs ys)). split; [apply P; auto; [intros ->; unfold Rlen in Hl; cbn in Hl; lia|apply Hl]|].
    rewrite <- (turned_pair k t xs ys El). apply P'; rewrite ?L; [exact El| |apply Hl].
    intros E. apply (f_equal (@length R)) in E. rewrite L in E. unfold Rlen in Hl. cbn in E. lia.
  - intros ratio Hr H0 Hx Hy Hi Hc.
    assert (Hr0 : Z.max (Rlen xs) (Rlen ys) - 1 <= band_width ratio (Z.max (Rlen xs) (Rlen ys)) \/ ~ (1 <= ratio)%R).
    { destruct (Rle_dec 1 ratio) as [Y|Y]; [left|right; exact Y]. unfold band_width. apply Z.min_glb; [|lia].
      assert (Z.max (Rlen xs) (Rlen ys) <= Zfloor (IZR (Z.max (Rlen xs) (Rlen ys)) * ratio)); [|lia].
      apply Zfloor_lub. rewrite <- (Rmult_1_r (IZR (Z.max (Rlen xs) (Rlen ys)))) at 1. apply Rmult_le_compat_l; [apply (IZR_le 0); lia|exact Y]. }
    set (r := band_width ratio (Z.max (Rlen xs) (Rlen ys))) in *.
    destruct (W ratio Hr H0 Hx Hy Hi) as (A & B & _). fold r in A, B.
    destruct (W' ratio Hr H0) as (A' & B' & _); rewrite ?turned_Rlen; auto. rewrite !turned_Rlen in A', B'. fold r in A', B'.
    destruct (Z_le_gt_dec (Z.abs (Rlen xs - Rlen ys)) r) as [Hab|Hab]; [|exists PInf; split; [apply B; lia|apply B'; lia]].
    destruct (A Hab) as (p & A1 & A2 & A3 & A4). destruct (A' Hab) as (q & Q1 & Q2 & Q3 & Q4).
    exists (Fin (real_cost k xs ys p)). split; [exact A4|]. rewrite Q4. do 4 f_equal.
    assert (T : forall p, warping_path (Rlen xs) (Rlen ys) p -> in_band r p ->
      warping_path (Rlen xs) (Rlen ys) (turned_path t (Rlen xs) (Rlen ys) p) /\ in_band r (turned_path t (Rlen xs) (Rlen ys) p)).
    { intros p0 Hp Hb. destruct t; cbn [turned_path]; auto. split; [apply back_path, Hp|]. apply back_band; auto.
      destruct Hc as [Hc|[Hc|Hc]]; [congruence|left; unfold Rlen; congruence|right]. destruct Hr0; [assumption|contradiction]. }
    apply Rle_antisym.
    + rewrite <- (turned_cost k t xs ys p A1). apply Q3; apply T; auto.
    + destruct (T q Q1 Q2) as [T1 T2]. apply (Rle_trans _ _ _ (A3 _ T1 T2)). right. pose proof (turned_cost k t xs ys _ T1) as C.
      replace (turned_path t (Rlen xs) (Rlen ys) (turned_path t (Rlen xs) (Rlen ys) q)) with q in C; [symmetry; exact C|].
      destruct t; cbn [turned_path]; try reflexivity. symmetry. apply back_back.
Qed.
Print Assumptions C75_exact.

(** *** upside down, in doubles *)
Definition respects {N : Num} (f : D N -> D N) (fn : dist_fn N) : Prop :=
  forall ratio a a' b b' cut mt, changed f a a' -> changed f b b' -> fn ratio a' b' cut mt = fn ratio a b cut mt.

Lemma named_changed {N : Num} (f : D N -> D N) nm fn :
  unnoticed f (@Euclidean N) -> unnoticed f (@Manhattan N) -> unnoticed f (@Chebyshev N) -> unnoticed f (@Cosine N) -> unnoticed f (@Sorensen N) ->
  getDistanceFromName nm = Ret fn -> respects f fn.
Proof.
  intros U1 U2 U3 U4 U5. unfold getDistanceFromName, allDistances. cbn [assoc app].
  repeat (match goal with |- context [if String.eqb nm ?x then _ else _] => destruct (String.eqb nm x) end;
    [intros H; injection H as <-; intros ratio a a' b b' cut mt Ha Hb; first [apply (changed_pairwise f); assumption|apply (changed_warped f); assumption]|]).
  discriminate.
Qed.

Definition opp64 : D B64 -> D B64 := @Bopp prec64 emax64.
Lemma opp_euclidean : unnoticed opp64 (@Euclidean B64).
Proof.
  intros prev x y. change (Bplus mode_NE prev (Bmult mode_NE (Bminus mode_NE (Bopp x) (Bopp y)) (Bminus mode_NE (Bopp x) (Bopp y))) =
    Bplus mode_NE prev (Bmult mode_NE (Bminus mode_NE x y) (Bminus mode_NE x y)) :> b64).
  rewrite (square_opposite _ _ (minus_opp x y)). reflexivity.
Qed.
Lemma opp_manhattan : unnoticed opp64 (@Manhattan B64).
Proof.
  intros prev x y. change (Bplus mode_NE prev (Babs (Bminus mode_NE (Bopp x) (Bopp y))) = Bplus mode_NE prev (Babs (Bminus mode_NE x y)) :> b64).
  rewrite (abs_opposite _ _ (minus_opp x y)). reflexivity.
Qed.
Lemma opp_chebyshev : unnoticed opp64 (@Chebyshev B64).
Proof.
  intros prev x y. change (nmax (N := B64) prev (Babs (Bminus mode_NE (Bopp x) (Bopp y))) = nmax (N := B64) prev (Babs (Bminus mode_NE x y))).
  rewrite (abs_opposite _ _ (minus_opp x y)). reflexivity.
Qed.
Lemma opp_cosine : unnoticed opp64 (@Cosine B64).
Proof.
  intros [[p0 p1] p2] x y. change ((Bplus mode_NE p0 (Bmult mode_NE (Bopp x) (Bopp x)), Bplus mode_NE p1 (Bmult mode_NE (Bopp y) (Bopp y)), Bplus mode_NE p2 (Bmult mode_NE (Bopp x) (Bopp y)))
    = (Bplus mode_NE p0 (Bmult mode_NE x x), Bplus mode_NE p1 (Bmult mode_NE y y), Bplus mode_NE p2 (Bmult mode_NE x y)) :> b64 * b64 * b64).
  rewrite !mult_opp. reflexivity.
Qed.
Lemma opp_sorensen : unnoticed opp64 (@Sorensen B64).
Proof.
  intros [p0 p1] x y. change ((Bplus mode_NE p0 (Babs (Bminus mode_NE (Bopp x) (Bopp y))), Bplus mode_NE p1 (Babs (Bplus mode_NE (Bopp x) (Bopp y))))
    = (Bplus mode_NE p0 (Babs (Bminus mode_NE x y)), Bplus mode_NE p1 (Babs (Bplus mode_NE x y))) :> b64 * b64).
  rewrite (abs_opposite _ _ (minus_opp x y)), (abs_opposite _ _ (plus_opp x y)). reflexivity.
Qed.
Lemma opp_named nm fn : getDistanceFromName (N := B64) nm = Ret fn -> respects opp64 fn.
Proof. apply named_changed; [exact opp_euclidean|exact opp_manhattan|exact opp_chebyshev|exact opp_cosine|exact opp_sorensen]. Qed.

Lemma named_value {N : Num} (f : D N -> D N) nm (ratio : D N) a a' b b' cut mt : (forall fn, getDistanceFromName nm = Ret fn -> respects f fn) ->
  changed f a a' -> changed f b b' -> dist_call nm ratio a' b' cut mt = dist_call nm ratio a b cut mt.
Proof. intros H Ha Hb. unfold dist_call. destruct (getDistanceFromName nm) as [fn| | |] eqn:E; cbn [bind]; try reflexivity. apply (H fn eq_refl); assumption. Qed.

(** In doubles and for every name of a distance: with the signs of all values changed the answers are the
    same, numbers, matchings and errors. *)
Theorem C75_upside_down : forall (r0 : b64) h (s : api B64) e e' nm
    n1 i1 s1 e1 (xs : list (D B64)) n2 i2 s2 e2 (ys : list (D B64)) m1 j1 u1 v1 m2 j2 u2 v2,
  run (N := B64) r0 h s -> stretch s n1 i1 s1 e1 xs -> stretch s n2 i2 s2 e2 ys ->
  stretch s m1 j1 u1 v1 (map (fun x : b64 => Bopp x) xs) -> stretch s m2 j2 u2 v2 (map (fun x : b64 => Bopp x) ys) ->
  exec e' (CDistance m1 j1 u1 v1 m2 j2 u2 v2 nm) s = exec e (CDistance n1 i1 s1 e1 n2 i2 s2 e2 nm) s /\
  exec e' (CMatching m1 j1 u1 v1 m2 j2 u2 v2 nm) s = exec e (CMatching n1 i1 s1 e1 n2 i2 s2 e2 nm) s.
Proof.
  intros r0 h s e e' nm n1 i1 s1 e1 xs n2 i2 s2 e2 ys m1 j1 u1 v1 m2 j2 u2 v2 Hrun H1 H2 H1' H2'.
  destruct (named_calls (N := B64) r0 h s e _ _ _ _ _ _ _ _ _ _ Hrun H1 H2) as (a & b & (Oa & Ob & Pa & Pb & _) & D1 & D2).
  destruct (named_calls (N := B64) r0 h s e' _ _ _ _ _ _ _ _ _ _ Hrun H1' H2') as (a' & b' & (Oa' & Ob' & Pa' & Pb' & _) & D1' & D2').
  assert (Ca : changed opp64 a a') by (split; [exact Oa|]; split; [exact Oa'|]; rewrite Pa, Pa'; reflexivity).
  assert (Cb : changed opp64 b b') by (split; [exact Ob|]; split; [exact Ob'|]; rewrite Pb, Pb'; reflexivity).
  pose proof (named_value (N := B64) opp64 nm (ratio_after (N := B64) r0 h) a a' b b' ninf [] (opp_named nm) Ca Cb) as V.
  split; [refine (eq_trans (D1' nm) (eq_trans _ (eq_sym (D1 nm))))|refine (eq_trans (D2' nm) (eq_trans _ (eq_sym (D2 nm))))].
  - exact (f_equal (fun v => (s, r <- value v ;; Ret (AValue r))) V).
  - exact (f_equal (fun v => (s, ok <- ends_in_dtw nm ;; if negb ok then Throw (GenexExc "Can only compute matchings using _dtw distances")
      else '(_, m) <- v ;; Ret (AMatching m))) V).
Qed.
Print Assumptions C75_upside_down.

(** The groups of a data set and those of the data set upside down are the same, for every name of a
    distance, every threshold and in every detail that shows. *)
Theorem C75_upside_down_groups : forall (r0 : b64) h (s s1 s2 : api B64) e n m g g' (rows : list (list (D B64))) nm (thr : D B64) threads whole a a',
  run (N := B64) r0 h s -> held s n = Some g -> held s m = Some g' -> holds (gt_data g) rows ->
  holds (gt_data g') (map (map (fun x : b64 => Bopp x)) rows) -> ds_maxcol (gt_data g') = ds_maxcol (gt_data g) ->
  exec e (CGroup n thr nm threads whole) s = (s1, a) -> exec e (CGroup m thr nm threads whole) s = (s2, a') ->
  a' = a /\ exists g1 g2, held s1 n = Some g1 /\ held s2 m = Some g2 /\ forall l, level_view g2 l = level_view g1 l.
Proof.
  intros r0 h s s1 s2 e n m [d old] [d' old'] rows nm thr threads whole a a' Hrun Hn Hm Hd Hd' Hc E1 E2. cbn [gt_data] in *.
  pose proof (run_good (N := B64) _ _ _ Hrun) as G.
  destruct (grouping_same (N := B64) opp64 d d' rows nm old old' (e_clock e) (a_ratio s) thr threads whole Hd Hd' Hc (opp_named nm)) as (gs & r & X & X').
  cbn [exec] in E1, E2.
  destruct (on_set_spec _ _ _ _ _ G E1) as [(Y & _)|(g0 & g1 & Y & F & _ & Y1 & _)]; [congruence|].
  destruct (on_set_spec _ _ _ _ _ G E2) as [(Y' & _)|(g0' & g1' & Y' & F' & _ & Y1' & _)]; [congruence|].
  rewrite Hn in Y. injection Y as <-. rewrite Hm in Y'. injection Y' as <-.
  rewrite X in F. rewrite X' in F'. injection F as <- <-. injection F' as <- <-.
  split; [reflexivity|]. do 2 eexists. split; [exact Y1|]. split; [exact Y1'|]. intros l. reflexivity.
Qed.
Print Assumptions C75_upside_down_groups.

(** *** searching upside down *)
Lemma values_map {N : Num} (f : D N -> D N) rows p : place_values (map (map f) rows) p = map f (place_values rows p).
Proof.
  unfold place_values, sub_values, row_of. destruct (fst (snd p) <? 0); [reflexivity|]. rewrite nth_error_map.
  destruct (nth_error rows _) as [row|]; cbn [option_map]; [|reflexivity]. apply slice_map.
Qed.
Lemma is_sub_map {N : Num} (f : D N -> D N) rows l c : is_sub (map (map f) rows) l c <-> is_sub rows l c.
Proof.
  unfold is_sub, row_of. destruct (fst c <? 0); [split; intros (? & E & _); discriminate E|]. rewrite nth_error_map.
  destruct (nth_error rows (Z.to_nat (fst c))) as [row|]; cbn [option_map]; [|split; intros (? & E & _); discriminate E].
  split; intros (r & [= <-] & H); eexists; (split; [reflexivity|]); rewrite ?map_length in *; exact H.
Qed.
Lemma dtw_map {N : Num} (f : D N -> D N) k (ratio : D N) xs ys : (forall fn, getDistanceFromName (dtw_name k) = Ret fn -> respects f fn) ->
  dtw_of k ratio (map f xs) (map f ys) = dtw_of k ratio xs ys.
Proof.
  intros H. unfold dtw_of. f_equal. apply (named_value f); [exact H| |].
  - split; [apply DtwPaths.ts_of_list_ok|]. split; [apply DtwPaths.ts_of_list_ok|]. rewrite !DtwPaths.ts_of_list_points. reflexivity.
  - split; [apply DtwPaths.ts_of_list_ok|]. split; [apply DtwPaths.ts_of_list_ok|]. rewrite !DtwPaths.ts_of_list_points. reflexivity.
Qed.
Lemma moderate_opp rows : moderate_data rows -> moderate_data (map (map opp64) rows).
Proof.
  intros H row Hrow. apply in_map_iff in Hrow as (r & <- & Hr). destruct (H r Hr) as [H1 H2]. split; [|rewrite map_length; exact H2].
  apply Forall_map. eapply Forall_impl; [|exact H1]. intros x Hx. unfold moderate_value in *.
  replace (nabs (n := B64) (opp64 x)) with (nabs (n := B64) x); [exact Hx|]. symmetry. unfold opp64. destruct x; reflexivity.
Qed.

(** The exhaustive search in the data set upside down for the query upside down finds as many matches, at
    the same distances.  In doubles; as in C26, no two different distances may be closer than 1e-9. *)
Theorem C75_upside_down_search : forall (r0 : b64) h (s : api B64) t t' g g' rows qn i st en qn' i' st' en' (xs : list (D B64)) (k : kind) K e,
  run (N := B64) r0 h s -> held s t = Some g -> held s t' = Some g' -> holds (gt_data g) rows ->
  holds (gt_data g') (map (map (fun x : b64 => Bopp x)) rows) -> moderate_data rows ->
  asks_for s qn i st en xs -> asks_for s qn' i' st' en' (map (fun x : b64 => Bopp x) xs) ->
  moderate_ratio (a_ratio s) -> std_ok (e_alg e) -> 1 <= K -> no_near_ties (N := B64) rows k (a_ratio s) xs (long_enough rows) ->
  exists best best',
    exec e (CBrute K t qn i st en (kind_name k)) s = (s, Ret (ACands best)) /\
    exec e (CBrute K t' qn' i' st' en' (kind_name k)) s = (s, Ret (ACands best')) /\
    Forall2 (fun c c' : cand B64 => @neqv B64 (c_dist c) (c_dist c')) best best'.
Proof.
  intros r0 h s t t' g g' rows qn i st en qn' i' st' en' xs k K e Hrun Hh Hh' Hd Hd' Hm Hq Hq' Hr Hok HK T.
  change (map (map (fun x : b64 => Bopp x)) rows) with (map (map opp64) rows) in Hd'. change (map (fun x : b64 => Bopp x) xs) with (map opp64 xs) in Hq'.
  set (rows' := map (map opp64) rows) in *. set (xs' := map opp64 xs) in *.
  assert (Hv : forall p, dtw_of (N := B64) k (a_ratio s) xs' (place_values rows' p) = dtw_of (N := B64) k (a_ratio s) xs (place_values rows p)).
  { intros p. unfold rows', xs'. rewrite (values_map (N := B64) opp64). apply (dtw_map (N := B64) opp64), opp_named. }
  assert (Hl : forall p, long_enough rows' p <-> long_enough rows p) by (intros p; unfold long_enough, rows'; rewrite (is_sub_map (N := B64) opp64); tauto).
  assert (Hm' : moderate_data rows') by (apply moderate_opp, Hm).
  assert (T' : no_near_ties (N := B64) rows' k (a_ratio s) xs' (long_enough rows')).
  { intros p p' v v' Hp Hp' E E'. apply (T p p'); [apply Hl, Hp|apply Hl, Hp'|rewrite <- Hv; exact E|rewrite <- Hv; exact E']. }
  destruct (C34_brute_force_partial r0 h s t g rows qn i st en xs k K e Hrun Hh Hd Hm Hq Hr Hok HK T) as (best & B1 & B2 & B3).
  destruct (C34_brute_force_partial r0 h s t' g' rows' qn' i' st' en' xs' k K e Hrun Hh' Hd' Hm' Hq' Hr Hok HK T') as (best' & B1' & B2' & B3').
  exists best, best'. split; [exact B1|]. split; [exact B1'|].
  destruct (asks_series s qn i st en xs (run_good (N := B64) _ _ _ Hrun) Hq) as (q & _ & Hmq & Eq & _).
  destruct (asks_series s qn' i' st' en' xs' (run_good (N := B64) _ _ _ Hrun) Hq') as (q' & _ & Hmq' & Eq' & _).
  assert (S : searchable (N := B64) rows k (a_ratio s) xs (long_enough rows)) by (rewrite <- Eq; apply searchable_moderate; auto).
  assert (S' : searchable (N := B64) rows' k (a_ratio s) xs' (long_enough rows')) by (rewrite <- Eq'; apply searchable_moderate; auto).
  destruct (best_more (N := B64) rows rows' k (a_ratio s) xs xs' (long_enough rows) (long_enough rows') (fun p => p)) with (K := K) (best := best) (best' := best') as [L1 R1]; auto.
  { intros p Hp. apply Hl, Hp. }
  { intros p v Hp Ev. rewrite Hv. exact Ev. }
  { intros p Hp. destruct (S' p Hp) as (r & Ok). destruct (dtw_values k _ _ _ r [] Ok) as (d & E & Hdd). exists d. split; [exact E|]. apply (nle_nn_r (N := B64) _ _ Hdd). }
  destruct (best_more (N := B64) rows' rows k (a_ratio s) xs' xs (long_enough rows') (long_enough rows) (fun p => p)) with (K := K) (best := best') (best' := best) as [L2 R2]; auto.
  { intros p Hp. apply Hl, Hp. }
  { intros p v Hp Ev. rewrite <- Hv. exact Ev. }
  { intros p Hp. destruct (S p Hp) as (r & Ok). destruct (dtw_values k _ _ _ r [] Ok) as (d & E & Hdd). exists d. split; [exact E|]. apply (nle_nn_r (N := B64) _ _ Hdd). }
  assert (El : length best = length best') by lia. clear - El R1 R2. revert best' El R1 R2.
  induction best as [|c best IH]; intros [|c' best'] El B4 X4; try discriminate El; constructor.
  - split; [exact (X4 0%nat c' c eq_refl eq_refl)|exact (B4 0%nat c c' eq_refl eq_refl)].
  - apply IH; [injection El as El; exact El|intros j x y; apply (B4 (S j))|intros j x y; apply (X4 (S j))].
Qed.
Print Assumptions C75_upside_down_search.

(** *** whole numbers in doubles *)
(** the doubles [xs] are the whole numbers [zs], none larger than [B] *)
Definition whole (xs : list (D B64)) (zs : list Z) (B : Z) : Prop :=
  Forall2 (fun (x : b64) z => is_finite x = true /\ B2R x = IZR z) xs zs /\ Forall (fun z => Z.abs z <= B) zs.

Section Whole.
Lemma gap_turned k t xs ys i j : 0 <= i < Z.of_nat (length xs) -> 0 <= j < Z.of_nat (length ys) ->
  let c := match t with Backwards => facing (Z.of_nat (length xs)) (Z.of_nat (length ys)) (i, j) | _ => (i, j) end in
  gap k (nth (Z.to_nat (fst c)) (turnedZ t xs) 0) (nth (Z.to_nat (snd c)) (turnedZ t ys) 0) = gap k (nth (Z.to_nat i) xs 0) (nth (Z.to_nat j) ys 0).
Proof.
  intros Hi Hj. unfold turnedZ. destruct t as [|c|]; cbn [turned facing fst snd].
  - rewrite (nth_indep (map Z.opp xs) 0 (- 0)), (nth_indep (map Z.opp ys) 0 (- 0)), !(map_nth Z.opp) by (rewrite map_length; lia). destruct k; cbn [gap]; [ring|lia|lia].
  - rewrite (nth_indep (map (Z.add c) xs) 0 (c + 0)), (nth_indep (map (Z.add c) ys) 0 (c + 0)), !(map_nth (Z.add c)) by (rewrite map_length; lia). destruct k; cbn [gap]; [ring|lia|lia].
  - rewrite !rev_nth_Z by assumption. reflexivity.
Qed.

Lemma zcost_turned k t xs ys p : Forall (fun c => 0 <= fst c < Z.of_nat (length xs) /\ 0 <= snd c < Z.of_nat (length ys)) p ->
  zcost k (turnedZ t xs) (turnedZ t ys) (turned_path t (Z.of_nat (length xs)) (Z.of_nat (length ys)) p) = zcost k xs ys p.
Proof.
  intros H.
  assert (G : zcost k (turnedZ t xs) (turnedZ t ys) (map (fun c => match t with Backwards => facing (Z.of_nat (length xs)) (Z.of_nat (length ys)) c | _ => c end) p) = zcost k xs ys p).
  { unfold zcost. generalize 0 at 3 6. induction H as [|[i j] p [Hi Hj] Hp IH]; intros z; [reflexivity|]. cbn [map fold_left]. rewrite IH. do 2 f_equal.
    pose proof (gap_turned k t xs ys i j Hi Hj) as E. destruct t; exact E. }
  destruct t; cbn [turned_path]; [rewrite map_id in G; exact G|rewrite map_id in G; exact G|]. rewrite <- G. unfold back, zcost.
  apply fold_left_rev'. intros x y s. destruct k; cbn [join]; lia.
Qed.
End Whole.

Lemma named_whole (t : TS B64) xs zs B : ts_ok t -> ts_points t = xs -> whole xs zs B -> whole_series t zs B.
Proof. intros Ho Hp [H1 H2]. split; [exact Ho|rewrite Hp; exact H1|exact H2]. Qed.

(** In doubles, for whole numbers that are not too large (C69): as in exact numbers. *)
Theorem C75_whole_numbers : forall (r0 : b64) h (s : api B64) e e' (k : kind) (t : turn Z) B
    n1 i1 s1 e1 xs zx n2 i2 s2 e2 ys zy m1 j1 u1 v1 xs' m2 j2 u2 v2 ys',
  run (N := B64) r0 h s -> stretch s n1 i1 s1 e1 xs -> stretch s n2 i2 s2 e2 ys -> stretch s m1 j1 u1 v1 xs' -> stretch s m2 j2 u2 v2 ys' ->
  whole xs zx B -> whole ys zy B -> whole xs' (turnedZ t zx) B -> whole ys' (turnedZ t zy) B ->
  let lx := Z.of_nat (length zx) in let ly := Z.of_nat (length zy) in
  (lx + ly) * largest k B <= 2 ^ 46 ->
  (lx = ly -> 1 <= lx <= 2 ^ 30 -> exists d d' : b64,
     exec e (CDistance n1 i1 s1 e1 n2 i2 s2 e2 (kind_name k)) s = (s, Ret (AValue (d : D B64))) /\
     exec e' (CDistance m1 j1 u1 v1 m2 j2 u2 v2 (kind_name k)) s = (s, Ret (AValue (d' : D B64))) /\ Beqb d d' = true) /\
  (forall r, band (N := B64) (ratio_after (N := B64) r0 h) (Z.max lx ly) = Ret r -> 2 <= lx <= 2 ^ 30 -> 2 <= ly <= 2 ^ 30 -> Z.abs (lx - ly) <= r ->
     t <> Backwards \/ lx = ly \/ r = Z.max lx ly - 1 -> exists d d' : b64,
     exec e (CDistance n1 i1 s1 e1 n2 i2 s2 e2 (dtw_name k)) s = (s, Ret (AValue (d : D B64))) /\
     exec e' (CDistance m1 j1 u1 v1 m2 j2 u2 v2 (dtw_name k)) s = (s, Ret (AValue (d' : D B64))) /\ Beqb d d' = true).
Proof.
  intros r0 h s e e' k t B n1 i1 s1 e1 xs zx n2 i2 s2 e2 ys zy m1 j1 u1 v1 xs' m2 j2 u2 v2 ys' Hrun H1 H2 H1' H2' W1 W2 W1' W2' lx ly Hlim.
  destruct (named_calls (N := B64) r0 h s e _ _ _ _ _ _ _ _ _ _ Hrun H1 H2) as (a & b & (Oa & Ob & Pa & Pb & _) & D1 & _).
  destruct (named_calls (N := B64) r0 h s e' _ _ _ _ _ _ _ _ _ _ Hrun H1' H2') as (a' & b' & (Oa' & Ob' & Pa' & Pb' & _) & D1' & _).
  pose proof (named_whole _ _ _ _ Oa Pa W1) as A. pose proof (named_whole _ _ _ _ Ob Pb W2) as A2.
  pose proof (named_whole _ _ _ _ Oa' Pa' W1') as A'. pose proof (named_whole _ _ _ _ Ob' Pb' W2') as A2'.
  pose proof (ws_length _ _ _ A) as La. pose proof (ws_length _ _ _ A2) as Lb. pose proof (ws_length _ _ _ A') as La'. pose proof (ws_length _ _ _ A2') as Lb'.
  unfold turnedZ in La', Lb'. rewrite turned_length in La', Lb'. fold lx in La, La'. fold ly in Lb, Lb'.
  assert (HL : forall z, 0 <= z -> 0 <= largest k z) by (intros z Hz; destruct k; cbn [largest]; [apply Z.mul_nonneg_nonneg|..]; lia).
  split.
  - intros El Hl.
    assert (HB : lx * largest k B <= 2 ^ 46).
    { destruct (Z_le_gt_dec 0 (largest k B)) as [Y|Y]; [|assert (lx * largest k B <= 0); [apply Z.mul_nonneg_nonpos; lia|lia]].
      assert (lx * largest k B <= (lx + ly) * largest k B); [apply Z.mul_le_mono_nonneg_r; lia|lia]. }
    destruct (C69_paired_whole_numbers k a b zx zy B [] A A2 ltac:(lia) ltac:(lia) ltac:(rewrite La; exact HB)) as (d & E & F & V).
    destruct (C69_paired_whole_numbers k a' b' _ _ B [] A' A2' ltac:(lia) ltac:(lia) ltac:(rewrite La'; exact HB)) as (d' & E' & F' & V').
    assert (I : forall (ratio : b64) x y, value (dist_call (N := B64) (kind_name k) ratio x y ninf []) = value (dist_call (N := B64) (kind_name k) (b64_ofZ 1) x y pinf [])).
    { clear. intros ratio x y. destruct k; reflexivity. }
    exists d, d'. split; [refine (eq_trans (D1 (kind_name k)) _); rewrite I, E; reflexivity|].
    split; [refine (eq_trans (D1' (kind_name k)) _); rewrite I, E'; reflexivity|].
    rewrite (Beqb_correct _ _ d d' F F'), V, V', La, La'. apply Req_bool_true. f_equal. symmetry.
    unfold turnedZ. rewrite turned_length. fold (turnedZ t zx) (turnedZ t zy). 
    assert (Enat : length zx = length zy) by lia.
    rewrite <- (zcost_turned k t zx zy (straight (length zx))).
    + f_equal. destruct t; cbn [turned_path]; try reflexivity. fold lx ly. rewrite <- El. symmetry. apply back_straight.
    + apply Forall_forall. intros c Hc. unfold straight in Hc. apply in_map_iff in Hc as (x & <- & Hx). apply in_seq in Hx. cbn [fst snd]. lia.
  - intros r Hb Hx Hy Hab Hc.
    destruct (C69_warped_whole_numbers k a b zx zy B (ratio_after (N := B64) r0 h) r [] A A2) as (p & d & P1 & P2 & P3 & P4 & P5 & P6);
      [lia|lia|rewrite La, Lb; exact Hlim|rewrite La, Lb; exact Hb|lia|].
    destruct (C69_warped_whole_numbers k a' b' _ _ B (ratio_after (N := B64) r0 h) r [] A' A2') as (q & d' & Q1 & Q2 & Q3 & Q4 & Q5 & Q6);
      [lia|lia|rewrite La', Lb'; exact Hlim|rewrite La', Lb'; exact Hb|lia|].
    rewrite La, Lb in P1, P3. rewrite La', Lb' in Q1, Q3.
    exists d, d'. split; [refine (eq_trans (D1 (dtw_name k)) _); change (@ninf B64) with pinf; rewrite P4; reflexivity|].
    split; [refine (eq_trans (D1' (dtw_name k)) _); change (@ninf B64) with pinf; rewrite Q4; reflexivity|].
    rewrite (Beqb_correct _ _ d d' P5 Q5), P6, Q6, La, Lb, La', Lb'. apply Req_bool_true. f_equal.
    assert (T : forall p, warping_path lx ly p -> in_band r p -> warping_path lx ly (turned_path t lx ly p) /\ in_band r (turned_path t lx ly p)).
    { intros p0 Hp Hbd. destruct t; cbn [turned_path]; auto. split; [apply back_path, Hp|]. apply back_band; auto.
      destruct Hc as [Hc|[Hc|Hc]]; [congruence|left; exact Hc|right; lia]. }
    assert (C : forall p, warping_path lx ly p -> zcost k (turnedZ t zx) (turnedZ t zy) (turned_path t lx ly p) = zcost k zx zy p).
    { intros p0 Hp. apply zcost_turned. apply path_inside in Hp. exact Hp. }
    apply Z.le_antisymm.
    + destruct (T q Q1 Q2) as [T1 T2]. apply (Z.le_trans _ _ _ (P3 _ T1 T2)). apply Z.eq_le_incl. rewrite <- (C _ T1). f_equal.
      destruct t; cbn [turned_path]; try reflexivity. apply back_back.
    + destruct (T p P1 P2) as [T1 T2]. rewrite <- (C p P1). apply Q3; assumption.
Qed.
Print Assumptions C75_whole_numbers.

(** ** refutations and examples *)

(** a file with a table of whole numbers, and what is seen of it when loaded *)
Definition table_env (lines : list string) : env B64 :=
  mkEnv (N := B64) stodZ putZ putZ (fun _ => None) (fun p => if String.eqb p "f" then Some (mkFile (String.concat nl1 lines) None) else None)
    (fun _ => true) (fun _ => None) (fun _ => false) simple_alg.
Definition table_seen (g : gset B64) :=
  (option_map (map PropsNorm.sf) (ds_data (gt_data g)), ds_lengths (gt_data g), ds_count (gt_data g), ds_maxcol (gt_data g)).

Lemma concat_nth {A} (m : nat) (rows : list (list A)) : Forall (fun r => length r = m) rows -> forall i row j v,
  nth_error rows i = Some row -> nth_error row j = Some v -> nth_error (concat rows) (i * m + j) = Some v.
Proof.
  induction 1 as [|r rows Hr _ IH]; intros [|i] row j v E1 E2; try discriminate.
  - injection E1 as ->. cbn [concat]. rewrite nth_error_app1; [exact E2|]. apply le_length in E2. cbn. lia.
  - cbn [nth_error] in E1. cbn [concat]. rewrite nth_error_app2; [|cbn; lia]. replace (S i * m + j - length r)%nat with (i * m + j)%nat by (cbn; lia). exact (IH i row j v E1 E2).
Qed.

Lemma concat_size {A} (m : nat) (rows : list (list A)) : Forall (fun r => length r = m) rows -> length (concat rows) = (length rows * m)%nat.
Proof. induction 1 as [|r rows Hr _ IH]; [reflexivity|]. cbn [concat]. rewrite app_length, IH. cbn. lia. Qed.

Lemma flat_holds {N : Num} (m : nat) (rows : list (list (D N))) (d : dataset N) : Forall (fun r => length r = m) rows -> Z.of_nat (length rows * m) <= int_max ->
  ds_data d = Some (concat rows) -> ds_lengths d = map (fun r => Z.of_nat (length r)) rows -> ds_count d = Z.of_nat (length rows) -> ds_maxcol d = Z.of_nat m -> holds d rows.
Proof.
  intros Hm Hs Eb E2 E3 E4. exists (concat rows). split; [exact Eb|]. split; [exact E3|]. split; [rewrite E4; lia|].
  split; [rewrite E3, E4, (concat_size m) by exact Hm; lia|]. intros i row Er.
  pose proof (proj1 (Forall_forall _ _) Hm row (nth_error_In _ _ Er)) as Hl. cbn beta in Hl.
  split; [rewrite E2, nth_error_map, Er; reflexivity|]. rewrite E4. split; [lia|]. intros j v Ej.
  unfold aget. replace (Z.of_nat i * Z.of_nat m + Z.of_nat j) with (Z.of_nat (i * m + j)) by lia.
  destruct (Z.leb_spec 0 (Z.of_nat (i * m + j))) as [Y|Y]; [|lia]. rewrite Nat2Z.id, (concat_nth m rows Hm i row j v Er Ej). reflexivity.
Qed.

Lemma table_holds (m : nat) (rows : list (list (D B64))) (g : gset B64) : Forall (fun r => length r = m) rows -> Z.of_nat (length rows * m) <= int_max ->
  table_seen g = (Some (map PropsNorm.sf (concat rows)), map (fun r => Z.of_nat (length r)) rows, Z.of_nat (length rows), Z.of_nat m) -> holds (gt_data g) rows.
Proof.
  intros Hm Hs E. unfold table_seen in E. injection E as E1 E2 E3 E4. apply (flat_holds (N := B64) m); auto.
  destruct (ds_data (gt_data g)) as [b|]; [|discriminate E1].
  cbn [option_map] in E1. injection E1 as E1. apply sf_inj in E1. subst b. reflexivity.
Qed.

(** such a file loaded, and the ratio set to [ratio] *)
Lemma table_loaded (lines : list string) (zrows : list (list Z)) (m : nat) (ratio : b64) :
  let e := table_env lines in let s := st_after e [st_load; CRatio (N := B64) ratio] ex_start in
  st_fine e [st_load; CRatio (N := B64) ratio] ex_start = true ->
  option_map table_seen (held s "x") = Some (Some (map PropsNorm.sf (map b64_ofZ (concat zrows))), map (fun r => Z.of_nat (length r)) zrows, Z.of_nat (length zrows), Z.of_nat m) ->
  Forall (fun r => length r = m) zrows -> Z.of_nat (length zrows * m) <= int_max ->
  exists h g, run (N := B64) (b64_ofZ 1) h s /\ map fst h = [st_load; CRatio (N := B64) ratio] /\ held s "x" = Some g /\ holds (gt_data g) (map (map b64_ofZ) zrows).
Proof.
  intros e s F E Hm Hs. destruct (st_run e _ [] ex_start (@run_start B64 (b64_ofZ 1)) F) as (h & Hrun & Hh).
  fold s in Hrun. destruct (held s "x") as [g|] eqn:Eh; [|discriminate E]. cbn [option_map] in E. apply some_inj in E.
  exists h, g. split; [exact Hrun|]. split; [exact Hh|]. split; [reflexivity|]. apply (table_holds m).
  - apply Forall_forall. intros r Hr. apply in_map_iff in Hr as (z & <- & Hz). rewrite map_length. exact (proj1 (Forall_forall _ _) Hm z Hz).
  - rewrite map_length. exact Hs.
  - refine (eq_trans E _). rewrite concat_map, map_length.
    assert (X : map (fun r => Z.of_nat (length r)) (map (map b64_ofZ) zrows) = map (fun r => Z.of_nat (length r)) zrows)
      by (rewrite map_map; apply map_ext; intros r; rewrite map_length; reflexivity).
    refine (f_equal (fun z => (_, z, _, _)) (eq_sym X)).
Qed.

(** both answers, as seen *)
Definition pair_seen (r r' : res (answer B64)) : option (SpecFloat.spec_float * SpecFloat.spec_float) :=
  match r, r' with Ret (AValue x), Ret (AValue y) => Some (PropsNorm.sf x, PropsNorm.sf y) | _, _ => None end.
Lemma pair_seen_inv r r' (x y : D B64) : pair_seen r r' = Some (PropsNorm.sf x, PropsNorm.sf y) -> r = Ret (AValue x) /\ r' = Ret (AValue y).
Proof.
  destruct r as [[]| | |]; try discriminate. destruct r' as [[]| | |]; try discriminate. cbn [pair_seen]. intros H. injection H as H1 H2.
  apply (B2SF_inj prec64 emax64) in H1. apply (B2SF_inj prec64 emax64) in H2. subst. auto.
Qed.
Definition half64 : b64 := ndiv (n := B64) (b64_ofZ 1) (b64_ofZ 2).

(** Series of different lengths and a narrow band: reversing time may change the distance.  The band is
    measured from the beginning of both series, and so it is not the same when both are read from the end. *)
Definition uneven_lines : list string := ["0,5,5,9,9"; "0,0,0,0,5"; "5,5,0,9,9"; "5,0,0,0,0"]%string.
Definition uneven_rows : list (list Z) := [[0; 5; 5; 9; 9]; [0; 0; 0; 0; 5]; [5; 5; 0; 9; 9]; [5; 0; 0; 0; 0]].
Theorem C75_backwards_refuted : forall k, exists e h (s : api B64) (xs ys : list (D B64)) (d : D B64),
  run (N := B64) (b64_ofZ 1) h s /\ map fst h = [st_load; CRatio (N := B64) half64] /\
  stretch s "x" 0 0 3 xs /\ stretch s "x" 1 0 5 ys /\ stretch s "x" 2 0 3 (rev xs) /\ stretch s "x" 3 0 5 (rev ys) /\
  snd (exec e (CDistance "x" 0 0 3 "x" 1 0 5 (dtw_name k)) s) = Ret (AValue d) /\ @nlt B64 n0 d /\
  snd (exec e (CDistance "x" 2 0 3 "x" 3 0 5 (dtw_name k)) s) = Ret (AValue n0).
Proof.
  intros k.
  destruct (table_loaded uneven_lines uneven_rows 5 half64) as (h & g & Hrun & Hh & Hg & Hd);
    [vm_compute; reflexivity|vm_compute; reflexivity|repeat constructor|vm_compute; discriminate|].
  set (e := table_env uneven_lines) in *. set (s := st_after e [st_load; CRatio (N := B64) half64] ex_start) in *.
  set (d := match k with KChebyshev => b64_ofZ 5 | _ => half64 end : D B64).
  exists e, h, s, (map b64_ofZ [0; 5; 5]), (map b64_ofZ [0; 0; 0; 0; 5]), d. split; [exact Hrun|]. split; [exact Hh|].
  assert (S : forall i en (zs row : list Z), nth_error uneven_rows i = Some row -> 0 < en <= Z.of_nat (length row) -> slice (N := B64) (map b64_ofZ row) 0 en = map b64_ofZ zs ->
    stretch s "x" (Z.of_nat i) 0 en (map b64_ofZ zs)).
  { intros i en zs row E L Z. exists g, (map (map b64_ofZ) uneven_rows), (map b64_ofZ row). split; [exact Hg|]. split; [exact Hd|].
    split; [unfold row_of; destruct (Z.ltb_spec (Z.of_nat i) 0); [lia|]; rewrite Nat2Z.id, nth_error_map, E; reflexivity|].
    right. split; [lia|]. split; [rewrite map_length; lia|]. symmetry. exact Z. }
  split; [apply (S 0%nat 3 [0; 5; 5] [0; 5; 5; 9; 9]); [reflexivity|cbn; lia|reflexivity]|].
  split; [apply (S 1%nat 5 [0; 0; 0; 0; 5] [0; 0; 0; 0; 5]); [reflexivity|cbn; lia|reflexivity]|].
  split; [apply (S 2%nat 3 [5; 5; 0] [5; 5; 0; 9; 9]); [reflexivity|cbn; lia|reflexivity]|].
  split; [apply (S 3%nat 5 [5; 0; 0; 0; 0] [5; 0; 0; 0; 0]); [reflexivity|cbn; lia|reflexivity]|].
  assert (E : pair_seen (snd (exec e (CDistance "x" 0 0 3 "x" 1 0 5 (dtw_name k)) s)) (snd (exec e (CDistance "x" 2 0 3 "x" 3 0 5 (dtw_name k)) s)) = Some (PropsNorm.sf d, PropsNorm.sf n0))
    by (clear; destruct k; vm_compute; reflexivity).
  apply pair_seen_inv in E as [E1 E2]. split; [exact E1|]. split; [|exact E2].
  change (SpecFloat.SFltb (PropsNorm.sf n0) (PropsNorm.sf d) = true). clear. destruct k; vm_compute; reflexivity.
Qed.
Print Assumptions C75_backwards_refuted.

(** Doubles: after adding 2^54 to the values, 0 and 1 have become equal, and so have the series. *)
Definition shifted_lines : list string := ["0,1"; "1,1"; "18014398509481984,18014398509481984"; "18014398509481984,18014398509481984"]%string.
Definition shifted_rows : list (list Z) := [[0; 1]; [1; 1]; [2 ^ 54; 2 ^ 54]; [2 ^ 54; 2 ^ 54]].
Lemma row_stretch (s : api B64) g (zrows : list (list Z)) i zs : held s "x" = Some g -> holds (gt_data g) (map (map b64_ofZ) zrows) -> nth_error zrows i = Some zs ->
  stretch s "x" (Z.of_nat i) (-1) (-1) (map b64_ofZ zs).
Proof.
  intros Hg Hd E. exists g, (map (map b64_ofZ) zrows), (map b64_ofZ zs). split; [exact Hg|]. split; [exact Hd|].
  split; [unfold row_of; destruct (Z.ltb_spec (Z.of_nat i) 0); [lia|]; rewrite Nat2Z.id, nth_error_map, E; reflexivity|]. left. split; [lia|]. split; [lia|reflexivity].
Qed.

Theorem C75_shift_ieee_refuted : forall k warped, exists e h (s : api B64) (xs ys : list (D B64)) (c d : D B64),
  let nm := if warped : bool then dtw_name k else kind_name k in
  run (N := B64) (b64_ofZ 1) h s /\ map fst h = [st_load; CRatio (N := B64) (b64_ofZ 1)] /\
  stretch s "x" 0 (-1) (-1) xs /\ stretch s "x" 1 (-1) (-1) ys /\
  stretch s "x" 2 (-1) (-1) (map (fun x => nadd (n := B64) c x) xs) /\ stretch s "x" 3 (-1) (-1) (map (fun x => nadd (n := B64) c x) ys) /\
  snd (exec e (CDistance "x" 0 (-1) (-1) "x" 1 (-1) (-1) nm) s) = Ret (AValue d) /\ @nlt B64 n0 d /\
  snd (exec e (CDistance "x" 2 (-1) (-1) "x" 3 (-1) (-1) nm) s) = Ret (AValue n0).
Proof.
  intros k warped.
  destruct (table_loaded shifted_lines shifted_rows 2 (b64_ofZ 1)) as (h & g & Hrun & Hh & Hg & Hd);
    [vm_compute; reflexivity|vm_compute; reflexivity|repeat constructor|vm_compute; discriminate|].
  set (e := table_env shifted_lines) in *. set (s := st_after e [st_load; CRatio (N := B64) (b64_ofZ 1)] ex_start) in *.
  set (nm := if warped then dtw_name k else kind_name k).
  set (d := match snd (exec e (CDistance "x" 0 (-1) (-1) "x" 1 (-1) (-1) nm) s) with Ret (AValue x) => x | _ => n0 end : D B64).
  exists e, h, s, (map b64_ofZ [0; 1]), (map b64_ofZ [1; 1]), (b64_ofZ (2 ^ 54)), d. cbv zeta. fold nm. split; [exact Hrun|]. split; [exact Hh|].
  split; [apply (row_stretch s g shifted_rows 0 [0; 1] Hg Hd eq_refl)|].
  split; [apply (row_stretch s g shifted_rows 1 [1; 1] Hg Hd eq_refl)|].
  assert (A : forall zs, map (fun x => nadd (n := B64) (b64_ofZ (2 ^ 54)) x) (map b64_ofZ zs) = map (fun z => nadd (n := B64) (b64_ofZ (2 ^ 54)) (b64_ofZ z)) zs)
    by (intros zs; rewrite map_map; reflexivity).
  assert (Y : forall z, z = 0 \/ z = 1 -> nadd (n := B64) (b64_ofZ (2 ^ 54)) (b64_ofZ z) = b64_ofZ (2 ^ 54)).
  { clear. intros z Hz. apply (B2SF_inj prec64 emax64). destruct Hz as [-> | ->]; vm_compute; reflexivity. }
  split; [|split].
  - rewrite A. cbn [map]. rewrite !Y by auto. apply (row_stretch s g shifted_rows 2 [2 ^ 54; 2 ^ 54] Hg Hd eq_refl).
  - rewrite A. cbn [map]. rewrite !Y by auto. apply (row_stretch s g shifted_rows 3 [2 ^ 54; 2 ^ 54] Hg Hd eq_refl).
  - assert (E : pair_seen (snd (exec e (CDistance "x" 0 (-1) (-1) "x" 1 (-1) (-1) nm) s)) (snd (exec e (CDistance "x" 2 (-1) (-1) "x" 3 (-1) (-1) nm) s)) = Some (PropsNorm.sf d, PropsNorm.sf n0))
      by (clear; destruct k, warped; vm_compute; reflexivity).
    apply pair_seen_inv in E as [E1 E2]. split; [exact E1|]. split; [|exact E2].
    change (SpecFloat.SFltb (PropsNorm.sf n0) (PropsNorm.sf d) = true). clear. destruct k, warped; vm_compute; reflexivity.
Qed.
Print Assumptions C75_shift_ieee_refuted.

(** Doubles: a sum depends on the order of its terms.  2^53 + 1 + 1 is 2^53, and 1 + 1 + 2^53 is not. *)
Definition order_lines : list string := ["9007199254740992,1,1"; "0,0,0"; "1,1,9007199254740992"]%string.
Definition order_rows : list (list Z) := [[2 ^ 53; 1; 1]; [0; 0; 0]; [1; 1; 2 ^ 53]].
Theorem C75_backwards_ieee_refuted : exists e h (s : api B64) (xs ys : list (D B64)) (d d' : D B64),
  run (N := B64) (b64_ofZ 1) h s /\ map fst h = [st_load; CRatio (N := B64) (b64_ofZ 1)] /\
  stretch s "x" 0 (-1) (-1) xs /\ stretch s "x" 1 (-1) (-1) ys /\ stretch s "x" 2 (-1) (-1) (rev xs) /\ stretch s "x" 1 (-1) (-1) (rev ys) /\
  snd (exec e (CDistance "x" 0 (-1) (-1) "x" 1 (-1) (-1) "manhattan") s) = Ret (AValue d) /\
  snd (exec e (CDistance "x" 2 (-1) (-1) "x" 1 (-1) (-1) "manhattan") s) = Ret (AValue d') /\ @nlt B64 d d'.
Proof.
  destruct (table_loaded order_lines order_rows 3 (b64_ofZ 1)) as (h & g & Hrun & Hh & Hg & Hd);
    [vm_compute; reflexivity|vm_compute; reflexivity|repeat constructor|vm_compute; discriminate|].
  set (e := table_env order_lines) in *. set (s := st_after e [st_load; CRatio (N := B64) (b64_ofZ 1)] ex_start) in *.
  assert (E : larger (snd (exec e (CDistance "x" 0 (-1) (-1) "x" 1 (-1) (-1) "manhattan") s)) (snd (exec e (CDistance "x" 2 (-1) (-1) "x" 1 (-1) (-1) "manhattan") s)) = true)
    by (clear; vm_compute; reflexivity).
  apply larger_inv in E as (d & d' & E1 & E2 & E3).
  exists e, h, s, (map b64_ofZ [2 ^ 53; 1; 1]), (map b64_ofZ [0; 0; 0]), d, d'. split; [exact Hrun|]. split; [exact Hh|].
  split; [apply (row_stretch s g order_rows 0 [2 ^ 53; 1; 1] Hg Hd eq_refl)|].
  split; [apply (row_stretch s g order_rows 1 [0; 0; 0] Hg Hd eq_refl)|].
  split; [apply (row_stretch s g order_rows 2 [1; 1; 2 ^ 53] Hg Hd eq_refl)|].
  split; [apply (row_stretch s g order_rows 1 [0; 0; 0] Hg Hd eq_refl)|].
  split; [exact E1|]. split; [exact E2|exact E3].
Qed.
Print Assumptions C75_backwards_ieee_refuted.

(** the hypotheses can be met: three series, and the same upside down, shifted and backwards *)
Definition turned_lines : list string := ["1,7,2,4"; "3,3,8,1"; "-1,-7,-2,-4"; "-3,-3,-8,-1"; "11,17,12,14"; "13,13,18,11"; "4,2,7,1"; "1,8,3,3"]%string.
Definition turned_rows : list (list Z) :=
  [[1; 7; 2; 4]; [3; 3; 8; 1]; [-1; -7; -2; -4]; [-3; -3; -8; -1]; [11; 17; 12; 14]; [13; 13; 18; 11]; [4; 2; 7; 1]; [1; 8; 3; 3]].
Example C75_turned_example : exists h (s : api B64), run (N := B64) (b64_ofZ 1) h s /\
  (forall zs i, nth_error turned_rows i = Some zs -> stretch s "x" (Z.of_nat i) (-1) (-1) (map b64_ofZ zs)) /\
  map (fun x : b64 => Bopp x) (map b64_ofZ [1; 7; 2; 4]) = map b64_ofZ [-1; -7; -2; -4] /\
  turnedZ Upside_down [1; 7; 2; 4] = [-1; -7; -2; -4] /\ turnedZ (Shifted 10) [3; 3; 8; 1] = [13; 13; 18; 11] /\ turnedZ Backwards [3; 3; 8; 1] = [1; 8; 3; 3] /\
  forall i, In i [0; 2; 4; 6] -> forall k, shown_distance (snd (exec (table_env turned_lines) (CDistance "x" i (-1) (-1) "x" (i + 1) (-1) (-1) (dtw_name k)) s)) =
    shown_distance (snd (exec (table_env turned_lines) (CDistance "x" 0 (-1) (-1) "x" 1 (-1) (-1) (dtw_name k)) s)) /\
    shown_distance (snd (exec (table_env turned_lines) (CDistance "x" 0 (-1) (-1) "x" 1 (-1) (-1) (dtw_name k)) s)) <> None.
Proof.
  destruct (table_loaded turned_lines turned_rows 4 (b64_ofZ 1)) as (h & g & Hrun & Hh & Hg & Hd);
    [vm_compute; reflexivity|vm_compute; reflexivity|repeat constructor|vm_compute; discriminate|].
  set (e := table_env turned_lines) in *. set (s := st_after e [st_load; CRatio (N := B64) (b64_ofZ 1)] ex_start) in *.
  exists h, s. split; [exact Hrun|]. split; [intros zs i; apply (row_stretch s g turned_rows i zs Hg Hd)|]. split.
  { clear. apply sf_inj. vm_compute. reflexivity. }
  split; [reflexivity|]. split; [reflexivity|]. split; [reflexivity|]. clear. intros i Hi k.
  destruct Hi as [<-|[<-|[<-|[<-|[]]]]]; (split; [destruct k; vm_compute; reflexivity|destruct k; vm_compute; discriminate]).
Qed.
