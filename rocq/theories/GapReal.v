(** How much a warping cost changes when one of the two sequences is replaced by
    one at a small point-to-point distance (real numbers). *)
From Coq Require Import Reals Lra Psatz Lia ZArith List.
From Verif Require Import Base DtwSpec DtwPaths DtwReal Pairwise DistSpec DistLink AccDtw AccPair.
Import ListNotations.
Local Open Scope R_scope.

Definition lsum {A} (f : A -> R) (l : list A) : R := fold_right (fun c s => f c + s) 0 l.

Lemma lsum_app {A} (f : A -> R) l l' : lsum f (l ++ l') = lsum f l + lsum f l'.
Proof. induction l as [|c l IH]; unfold lsum in *; simpl; [try ring; try lra|]. rewrite IH. lra. Qed.
Lemma lsum_pos {A} (f : A -> R) l : (forall c, 0 <= f c) -> 0 <= lsum f l.
Proof. intros H. induction l as [|c l IH]; unfold lsum in *; simpl; [try ring; try lra|]. pose proof (H c). lra. Qed.
Lemma lsum_le {A} (f g : A -> R) l : (forall c, In c l -> f c <= g c) -> lsum f l <= lsum g l.
Proof.
  induction l as [|c l IH]; intros H; unfold lsum in *; simpl; [try ring; try lra|]. pose proof (H c (or_introl eq_refl)).
  assert (lsum f l <= lsum g l) by (apply IH; intros; apply H; right; auto). unfold lsum in *. lra.
Qed.
Lemma lsum_add {A} (f g : A -> R) l : lsum (fun c => f c + g c) l = lsum f l + lsum g l.
Proof. induction l as [|c l IH]; unfold lsum in *; simpl; [try ring; try lra|]. unfold lsum in *. rewrite IH. lra. Qed.
Lemma lsum_scal {A} k (f : A -> R) l : lsum (fun c => k * f c) l = k * lsum f l.
Proof. induction l as [|c l IH]; unfold lsum in *; simpl; [try ring; try lra|]. unfold lsum in *. rewrite IH. lra. Qed.
Lemma lsum_map {A B} (h : A -> B) (f : B -> R) l : lsum f (map h l) = lsum (fun x => f (h x)) l.
Proof. induction l as [|c l IH]; unfold lsum in *; simpl; [try ring; try lra|]. unfold lsum in *. rewrite IH. lra. Qed.

Lemma lsum_incl {A} (f : A -> R) p G : (forall c, 0 <= f c) -> NoDup p -> incl p G -> lsum f p <= lsum f G.
Proof.
  intros Hf Hn. revert G. induction Hn as [|c p Hc Hn IH]; intros G Hi; [apply lsum_pos; auto|].
  destruct (in_split c G) as (G1 & G2 & ->); [apply Hi; left; auto|].
  assert (Hle : lsum f p <= lsum f (G1 ++ G2)).
  { apply IH. intros x Hx. assert (Hx' : In x (G1 ++ c :: G2)) by (apply Hi; right; auto).
    apply in_app_or in Hx' as [Hx'|[<-|Hx']]; [apply in_or_app; auto|contradiction|apply in_or_app; auto]. }
  rewrite lsum_app in *. cbn [lsum fold_right] in *. unfold lsum in *. lra.
Qed.

Lemma lsum_flat {A B} (f : B -> R) (h : A -> list B) l : lsum f (flat_map h l) = lsum (fun x => lsum f (h x)) l.
Proof. induction l as [|c l IH]; [reflexivity|]. cbn [flat_map]. rewrite lsum_app, IH. reflexivity. Qed.

Lemma lsum_const {A} k (l : list A) : lsum (fun _ => k) l = INR (length l) * k.
Proof.
  induction l as [|c l IH]; [cbn; lra|]. cbn [lsum fold_right length]. unfold lsum in IH. rewrite IH, S_INR. lra.
Qed.

(** ** a warping path visits no cell twice *)
Lemma bpath_nodup r i j p : bpath r i j p -> NoDup p.
Proof.
  induction 1 as [|i j i' j' p Hp IH Hw Habs]; [repeat constructor; auto|].
  apply NoDup_rev in IH. rewrite <- (rev_involutive (p ++ [(i', j')])). apply NoDup_rev. rewrite rev_app_distr. cbn.
  constructor; auto. intros Hin. rewrite <- in_rev in Hin. apply (bpath_in _ _ _ _ _ Hp) in Hin. cbn in Hin.
  pose proof (wstep_cases _ _ _ _ Hw). lia.
Qed.

(** each column is visited at most as often as it has cells in [w] *)
Lemma visits (M : nat) (w : Z -> list Z) (g : Z -> R) p J : (forall j, 0 <= g j) -> NoDup p ->
  (forall c, In c p -> In (snd c) J /\ In (fst c) (w (snd c))) -> (forall j, (length (w j) <= M)%nat) ->
  lsum (fun c => g (snd c)) p <= INR M * lsum g J.
Proof.
  intros Hg Hn Hp Hw. apply Rle_trans with (lsum (fun c => g (snd c)) (flat_map (fun j => map (fun i => (i, j)) (w j)) J)).
  - apply lsum_incl; auto. intros [i j] Hc. destruct (Hp _ Hc) as [H1 H2]. cbn in *. apply in_flat_map.
    exists j. split; auto. apply in_map_iff. eauto.
  - rewrite lsum_flat, <- lsum_scal. apply lsum_le. intros j _. rewrite lsum_map. cbn [snd]. rewrite lsum_const.
    apply Rmult_le_compat_r; auto. apply le_INR, Hw.
Qed.

(** how often a column is visited by a path of a query of [m] points inside the band [r] *)
Definition visits_at_most (m r : Z) : Z := Z.min m (2 * r + 1).

Section Gap.
Variables (qs xs ys : list R) (r : Z) (p : list (Z * Z)).
Hypothesis Hxy : length xs = length ys.
Hypothesis Hr : (0 <= r)%Z.
Hypothesis Hq : (1 <= Rlen qs)%Z.
Hypothesis Hx : (1 <= Rlen xs)%Z.
Hypothesis Hp : warping_path (Rlen qs) (Rlen xs) p.
Hypothesis Hb : in_band r p.
Notation M := (visits_at_most (Rlen qs) r).
Notation L := (maxlen qs xs).

Lemma gap_bpath : bpath r (Rlen qs - 1) (Rlen xs - 1) p.
Proof.
  apply path_bpath; auto. replace (Rlen qs - 1 + 1)%Z with (Rlen qs) by lia.
  replace (Rlen xs - 1 + 1)%Z with (Rlen xs) by lia. auto.
Qed.

Lemma gap_visits (f : R -> R -> R) : (forall x y, 0 <= f x y) ->
  lsum (fun c => f (Rpt xs (snd c)) (Rpt ys (snd c))) p <= IZR M * pair_sum f xs ys.
Proof.
  intros Hf. pose proof gap_bpath as Bp. pose proof (bpath_nodup _ _ _ _ Bp) as Hn.
  set (J := map Z.of_nat (seq 0 (length xs))).
  assert (EJ : lsum (fun j => f (Rpt xs j) (Rpt ys j)) J = pair_sum f xs ys).
  { rewrite <- path_sum_diag by auto. unfold J. rewrite lsum_map. unfold path_sum, diag.
    fold (lsum (fun c : Z * Z => f (Rpt xs (fst c)) (Rpt ys (snd c))) (map (fun i => (Z.of_nat i, Z.of_nat i)) (seq 0 (length xs)))).
    rewrite lsum_map. reflexivity. }
  assert (HJ : forall c, In c p -> In (snd c) J).
  { intros c Hc. apply (bpath_in _ _ _ _ _ Bp) in Hc. unfold J. apply in_map_iff. exists (Z.to_nat (snd c)).
    unfold Rlen in *. split; [lia|]. apply in_seq. lia. }
  assert (P : 0 <= pair_sum f xs ys) by (apply pair_sum_pos; auto).
  assert (A1 : lsum (fun c => f (Rpt xs (snd c)) (Rpt ys (snd c))) p <= INR (length qs) * pair_sum f xs ys).
  { rewrite <- EJ. apply (visits (length qs) (fun _ => map Z.of_nat (seq 0 (length qs)))
      (fun j => f (Rpt xs j) (Rpt ys j)) p J); auto; [|intros; rewrite map_length, seq_length; lia].
    intros c Hc. split; auto. apply (bpath_in _ _ _ _ _ Bp) in Hc. apply in_map_iff. exists (Z.to_nat (fst c)).
    unfold Rlen in *. split; [lia|]. apply in_seq. lia. }
  assert (A2 : lsum (fun c => f (Rpt xs (snd c)) (Rpt ys (snd c))) p <= INR (Z.to_nat (2 * r + 1)) * pair_sum f xs ys).
  { rewrite <- EJ. apply (visits (Z.to_nat (2 * r + 1)) (fun j => map (fun i => (j - r + Z.of_nat i)%Z) (seq 0 (Z.to_nat (2 * r + 1))))
      (fun j => f (Rpt xs j) (Rpt ys j)) p J); auto; [|intros; rewrite map_length, seq_length; lia].
    intros c Hc. split; auto. pose proof (proj1 (Forall_forall _ _) Hb c Hc) as Hbc. cbn beta in Hbc. apply in_map_iff. exists (Z.to_nat (fst c - snd c + r)).
    split; [lia|]. apply in_seq. lia. }
  rewrite INR_IZR_INZ in A1, A2. rewrite Z2Nat.id in A2 by lia.
  unfold visits_at_most. destruct (Z.min_spec (Rlen qs) (2 * r + 1)) as [[_ ->]|[_ ->]]; auto.
Qed.

Lemma L_pos : 1 <= L.
Proof. unfold maxlen. apply (IZR_le 1). lia. Qed.
Lemma M_range : (1 <= M <= Rlen qs)%Z.
Proof. unfold visits_at_most. lia. Qed.

Lemma gap_manhattan : manhattan_cost qs ys p <= manhattan_cost qs xs p + IZR M / 2 * mean_abs_distance xs ys.
Proof.
  unfold manhattan_cost. assert (EL : maxlen qs ys = L) by (unfold maxlen, Rlen; rewrite Hxy; reflexivity). rewrite EL.
  pose proof L_pos. set (f := fun x y => Rabs (x - y)).
  assert (P : forall x y, 0 <= f x y) by (intros; apply Rabs_pos).
  pose proof (gap_visits f P) as V. pose proof (pair_sum_pos f xs ys P) as PP.
  assert (S1 : path_sum f qs ys p <= path_sum f qs xs p + lsum (fun c => f (Rpt xs (snd c)) (Rpt ys (snd c))) p).
  { unfold path_sum. fold (lsum (fun c : Z * Z => f (Rpt qs (fst c)) (Rpt ys (snd c))) p).
    fold (lsum (fun c : Z * Z => f (Rpt qs (fst c)) (Rpt xs (snd c))) p). rewrite <- lsum_add. apply lsum_le.
    intros c _. unfold f. replace (Rpt qs (fst c) - Rpt ys (snd c))
      with ((Rpt qs (fst c) - Rpt xs (snd c)) + (Rpt xs (snd c) - Rpt ys (snd c))) by ring. apply Rabs_triang. }
  pose proof M_range as MR. assert (M1 : 1 <= IZR M) by (apply (IZR_le 1); lia).
  assert (N1 : 1 <= INR (length xs) <= L).
  { rewrite INR_IZR_INZ. split; [apply (IZR_le 1); unfold Rlen in *; lia|]. unfold maxlen. apply IZR_le. unfold Rlen. lia. }
  unfold mean_abs_distance. fold f. set (T := pair_sum f xs ys) in *. set (n := INR (length xs)) in *. set (l := L) in *. set (m := IZR M) in *.
  apply Rmult_le_reg_r with (2 * l); [lra|]. rewrite Rmult_plus_distr_r. unfold Rdiv.
  rewrite !Rmult_assoc, Rinv_l, !Rmult_1_r by lra. apply Rle_trans with (1 := S1), Rplus_le_compat_l, Rle_trans with (1 := V).
  replace (m * (/ 2 * (T * (/ n * (2 * l))))) with (m * (T * (l / n))) by (field; lra).
  apply Rmult_le_compat_l; [lra|]. rewrite <- (Rmult_1_r T) at 1. apply Rmult_le_compat_l; auto.
  apply Rmult_le_reg_r with n; [lra|]. unfold Rdiv. rewrite Rmult_assoc, Rinv_l by lra. lra.
Qed.

Lemma gap_chebyshev : chebyshev_cost qs ys p <= chebyshev_cost qs xs p + max_abs_distance xs ys.
Proof.
  unfold chebyshev_cost, max_abs_distance. set (f := fun x y => Rabs (x - y)). pose proof gap_bpath as Bp.
  rewrite <- path_max_diag by auto.
  assert (G : forall c, In c p -> f (Rpt xs (snd c)) (Rpt ys (snd c)) <= path_max f xs ys (diag (length xs))).
  { intros c Hc. apply (bpath_in _ _ _ _ _ Bp) in Hc.
    assert (Hd : In (snd c, snd c) (diag (length xs))).
    { unfold diag. apply in_map_iff. exists (Z.to_nat (snd c)). unfold Rlen in *. split; [f_equal; lia|apply in_seq; lia]. }
    clear Hc. unfold path_max. induction (diag (length xs)) as [|e l IH]; [destruct Hd|]. cbn [fold_right].
    destruct Hd as [->|Hd]; [apply Rmax_l|]. apply Rle_trans with (2 := Rmax_r _ _). auto. }
  set (B := path_max f xs ys (diag (length xs))) in *.
  assert (PB : 0 <= B). { unfold B, path_max. clear. induction (diag (length xs)) as [|e l IH]; cbn [fold_right]; [lra|]. apply Rle_trans with (1 := IH), Rmax_r. }
  clearbody B. clear Hp Hb Bp. unfold path_max. induction p as [|c l IH]; cbn [fold_right]; [lra|].
  assert (IH' : fold_right (fun c s => Rmax (f (Rpt qs (fst c)) (Rpt ys (snd c))) s) 0 l
     <= fold_right (fun c s => Rmax (f (Rpt qs (fst c)) (Rpt xs (snd c))) s) 0 l + B) by (apply IH; intros; apply G; right; auto).
  apply Rmax_lub.
  - apply Rle_trans with (f (Rpt qs (fst c)) (Rpt xs (snd c)) + B); [|apply Rplus_le_compat_r, Rmax_l].
    pose proof (G c (or_introl eq_refl)) as Gc. unfold f in *.
    replace (Rpt qs (fst c) - Rpt ys (snd c)) with ((Rpt qs (fst c) - Rpt xs (snd c)) + (Rpt xs (snd c) - Rpt ys (snd c))) by ring.
    apply Rle_trans with (1 := Rabs_triang _ _). lra.
  - apply Rle_trans with (1 := IH'). apply Rplus_le_compat_r, Rmax_r.
Qed.

Lemma gap_euclidean : euclidean_cost qs ys p <= euclidean_cost qs xs p + / 2 * rms_distance xs ys.
Proof.
  unfold euclidean_cost. assert (EL : maxlen qs ys = L) by (unfold maxlen, Rlen; rewrite Hxy; reflexivity). rewrite EL.
  pose proof L_pos. set (f := fun x y => (x - y) * (x - y)).
  assert (P : forall x y, 0 <= f x y) by (intros; apply Rle_0_sqr).
  pose proof (gap_visits f P) as V. pose proof (pair_sum_pos f xs ys P) as PP.
  set (W := lsum (fun c => f (Rpt xs (snd c)) (Rpt ys (snd c))) p) in *.
  assert (S1 : sqrt (path_sum f qs ys p) <= sqrt (path_sum f qs xs p) + sqrt W).
  { set (u := map (fun c => (Rpt qs (fst c) - Rpt xs (snd c), Rpt xs (snd c) - Rpt ys (snd c))) p).
    pose proof (minkowski u) as Hm.
    assert (E1 : fold_right (fun c s => (fst c + snd c) * (fst c + snd c) + s) 0 u = path_sum f qs ys p).
    { unfold u, path_sum, f. clear. induction p as [|c l IH]; cbn; [reflexivity|]. rewrite IH. ring. }
    assert (E2 : fold_right (fun c s => fst c * fst c + s) 0 u = path_sum f qs xs p).
    { unfold u, path_sum, f. clear. induction p as [|c l IH]; cbn; [reflexivity|]. rewrite IH. ring. }
    assert (E3 : fold_right (fun c s => snd c * snd c + s) 0 u = W).
    { unfold u, W, lsum, f. clear. induction p as [|c l IH]; cbn; [reflexivity|]. rewrite IH. ring. }
    rewrite E1, E2, E3 in Hm. exact Hm. }
  pose proof M_range as MR. assert (M1 : 1 <= IZR M) by (apply (IZR_le 1); lia).
  assert (M2 : IZR M <= L) by (unfold maxlen; apply IZR_le; lia).
  assert (N1 : 1 <= INR (length xs) <= L).
  { rewrite INR_IZR_INZ. split; [apply (IZR_le 1); unfold Rlen in *; lia|]. unfold maxlen. apply IZR_le. unfold Rlen. lia. }
  unfold rms_distance. fold f. set (T := pair_sum f xs ys) in *. set (n := INR (length xs)) in *. set (l := L) in *. set (m := IZR M) in *.
  assert (S2 : sqrt W <= l * sqrt (T / n)).
  { rewrite <- (sqrt_square l) at 1 by lra. rewrite <- sqrt_mult by (try apply Rle_mult_inv_pos; nra).
    apply sqrt_le_1_alt, Rle_trans with (1 := V). unfold Rdiv. rewrite (Rmult_comm T), <- Rmult_assoc.
    apply Rmult_le_compat_r; auto. apply Rmult_le_reg_r with n; [lra|]. rewrite Rmult_assoc, Rinv_l by lra.
    rewrite Rmult_1_r. apply Rmult_le_compat; lra. }
  set (D := sqrt (T / n)) in *. apply Rmult_le_reg_r with (2 * l); [lra|]. rewrite Rmult_plus_distr_r. unfold Rdiv.
  rewrite !Rmult_assoc, Rinv_l, !Rmult_1_r by lra. replace (/ 2 * (D * (2 * l))) with (l * D) by field. lra.
Qed.

(** the price of replacing, in units of the point-to-point distance *)
Definition price (k : kind) (m r : Z) : R :=
  match k with KEuclidean => / 2 | KManhattan => IZR (visits_at_most m r) / 2 | KChebyshev => 1 end.

Lemma gap k : real_cost k qs ys p <= real_cost k qs xs p + price k (Rlen qs) r * real_pair k xs ys.
Proof.
  destruct k; cbn [real_cost real_pair price]; [apply gap_euclidean|apply gap_manhattan|].
  pose proof gap_chebyshev. lra.
Qed.
End Gap.
