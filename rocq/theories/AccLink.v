(** From the error bounds of the dynamic program and of sums to statements
    about calls of the distances. *)
From Coq Require Import String Reals Lra Psatz Lia ZArith.
From Flocq Require Import Core BinarySingleNaN.
From Verif Require Import Base Num NumB64 NumLaws NumFacts NumXR NumXRLaws NumB64Laws LoopFacts TimeSeries Distance
  DtwSpec DtwPaths DtwProofs Metrics DtwMain DtwResults DtwReal Pairwise DistSpec DistFacts DistLink
  AccReal AccDtw AccEnd AccKinds.
Local Open Scope R_scope.

Lemma reals_len t : ts_ok t -> Rlen (reals t) = ts_length t.
Proof. intros H. unfold Rlen, reals. rewrite map_length. exact (ts_points_length (N := B64) t H). Qed.

Lemma band_le {N : Num} (ratio : D N) len r : band ratio len = Ret r -> (r <= len - 1)%Z.
Proof.
  unfold band. destruct (nfloor _) as [k|]; [|discriminate]. destruct (_ && _); [|discriminate]. intros [= <-]. lia.
Qed.

(** the best real path inside the band *)
Lemma real_best k xs ys r : (2 <= Rlen xs <= 2 ^ 30)%Z -> (2 <= Rlen ys <= 2 ^ 30)%Z ->
  (0 <= r <= Z.max (Rlen xs) (Rlen ys) - 1)%Z -> (Z.abs (Rlen xs - Rlen ys) <= r)%Z ->
  exists p, warping_path (Rlen xs) (Rlen ys) p /\ in_band r p /\
    forall q, warping_path (Rlen xs) (Rlen ys) q -> in_band r q -> real_cost k xs ys p <= real_cost k xs ys q.
Proof.
  intros Hm Hn Hr Hab. set (L := Z.max (Rlen xs) (Rlen ys)) in *.
  assert (PL : 2 <= IZR L) by (apply IZR_le; lia).
  set (ratio := IZR r / IZR L).
  assert (E1 : IZR L * ratio = IZR r) by (unfold ratio; field; lra).
  assert (Hq : 0 <= ratio) by (apply Rle_mult_inv_pos; [apply (IZR_le 0); lia|lra]).
  assert (Ew : band_width ratio L = r).
  { unfold band_width. rewrite E1, Zfloor_IZR. lia. }
  destruct (real_dtw_min _ (rm_of k) _ _ xs ys ratio (series_of_list xs) (series_of_list ys) Hm Hn Hq) with (mt := @nil (Z * Z))
    as (p & mt' & H1 & H2 & H3 & _).
  - fold L. rewrite E1. apply IZR_le. unfold int_max. lia.
  - fold L. rewrite Ew. exact Hab.
  - fold L in H2, H3. rewrite Ew in H2, H3. rewrite rm_cost_of in H3. exists p. auto.
Qed.

(** sums along a list of index pairs *)
Section Along.
Variables a b : TS B64.
Notation xs := (reals a).
Notation ys := (reals b).
Variable p : list (Z * Z).
Hypothesis Fa : forall i, In i (map fst p) -> bfinb (pt a i) = true.
Hypothesis Fb : forall i, In i (map snd p) -> bfinb (pt b i) = true.

Lemma man_along : bfinb (path_acc (@Manhattan B64) a b p) = true ->
  let v := bval (path_acc (@Manhattan B64) a b p) in
  0 <= v /\ v <= (path_sum absd xs ys p + INR (length p) * SS) * gg ^ length p /\
  path_sum absd xs ys p * hh ^ length p - INR (length p) * SS <= v.
Proof.
  induction p as [|[i j] q IH] using rev_ind.
  - intros _ v. assert (Ev : v = 0) by (destruct (val_Fin _ _ val_0) as [_ E]; exact E).
    rewrite Ev. cbn. splits; lra.
  - intros F v. rewrite map_app in Fa, Fb. unfold v in *. clear v. rewrite path_acc_snoc in *.
    change (bfinb (Bplus mode_NE (path_acc (@Manhattan B64) a b q) (Babs (Bminus mode_NE (pt a i) (pt b j)))) = true) in F.
    destruct (plus_fin _ _ F) as (F1 & F2 & _).
    destruct IH as (P & U & L); auto.
    { intros i' Hi. apply Fa, in_or_app. auto. } { intros i' Hi. apply Fb, in_or_app. auto. }
    change (bval (m_reduce (@Manhattan B64) (path_acc (@Manhattan B64) a b q) (pt a i) (pt b j)))
      with (bval (Bplus mode_NE (path_acc (@Manhattan B64) a b q) (Babs (Bminus mode_NE (pt a i) (pt b j))))).
    set (v' := path_acc (@Manhattan B64) a b q) in *. set (ct := Babs (Bminus mode_NE (pt a i) (pt b j))) in *.
    assert (Pc : 0 <= bval ct) by (unfold ct; rewrite B2R_Babs; apply Rabs_pos).
    pose proof (add_err v' ct F P Pc) as E.
    assert (Hc : Rabs (bval ct - absd (bval (pt a i)) (bval (pt b j))) <= 4 * uu * absd (bval (pt a i)) (bval (pt b j)) + TT).
    { pose proof (cost_abs (pt a i) (pt b j) (Fa i ltac:(apply in_or_app; simpl; auto)) (Fb j ltac:(apply in_or_app; simpl; auto)) F2) as H.
      apply Rle_trans with (1 := H). unfold absd. set (z := Rabs (bval (pt a i) - bval (pt b j))).
      assert (0 <= z) by apply Rabs_pos. pose proof uu_pos. pose proof TT_pos. assert (0 <= uu * z) by (apply Rmult_le_pos; lra). lra. }
    assert (Pd : 0 <= absd (bval (pt a i)) (bval (pt b j))) by apply Rabs_pos.
    pose proof (path_sum_pos absd xs ys q (fun x y => Rabs_pos _)) as PO.
    rewrite path_sum_snoc, !reals_pt, app_length, Nat.add_comm. cbn [length Nat.add].
    splits.
    + pose proof uu_pos. pose proof uu_small. apply Rabs_both in E.
      assert (uu * (bval v' + bval ct) <= 1 * (bval v' + bval ct)) by (apply Rmult_le_compat_r; lra). lra.
    + apply (step_up _ (bval v') (bval v') (bval ct)); auto. pose proof uu_pos. pose proof TT_pos.
      assert (0 <= bval v' * uu) by (apply Rmult_le_pos; lra). lra.
    + apply (step_low _ (bval v') (bval ct)); auto.
Qed.

Lemma euc_along : bfinb (path_acc (@Euclidean B64) a b p) = true ->
  let v := bval (path_acc (@Euclidean B64) a b p) in
  0 <= v /\ v <= (path_sum sqd xs ys p + INR (length p) * SS) * gg ^ length p /\
  path_sum sqd xs ys p * hh ^ length p - INR (length p) * SS <= v.
Proof.
  induction p as [|[i j] q IH] using rev_ind.
  - intros _ v. assert (Ev : v = 0) by (destruct (val_Fin _ _ val_0) as [_ E]; exact E).
    rewrite Ev. cbn. splits; lra.
  - intros F v. rewrite map_app in Fa, Fb. unfold v in *. clear v. rewrite path_acc_snoc in *.
    change (bfinb (Bplus mode_NE (path_acc (@Euclidean B64) a b q)
              (Bmult mode_NE (Bminus mode_NE (pt a i) (pt b j)) (Bminus mode_NE (pt a i) (pt b j)))) = true) in F.
    destruct (plus_fin _ _ F) as (F1 & F2 & _).
    destruct IH as (P & U & L); auto.
    { intros i' Hi. apply Fa, in_or_app. auto. } { intros i' Hi. apply Fb, in_or_app. auto. }
    change (bval (m_reduce (@Euclidean B64) (path_acc (@Euclidean B64) a b q) (pt a i) (pt b j)))
      with (bval (Bplus mode_NE (path_acc (@Euclidean B64) a b q)
              (Bmult mode_NE (Bminus mode_NE (pt a i) (pt b j)) (Bminus mode_NE (pt a i) (pt b j))))).
    destruct (cost_sq (pt a i) (pt b j) (Fa i ltac:(apply in_or_app; simpl; auto)) (Fb j ltac:(apply in_or_app; simpl; auto)) F2) as [Pc Hc].
    set (v' := path_acc (@Euclidean B64) a b q) in *.
    set (ct := Bmult mode_NE (Bminus mode_NE (pt a i) (pt b j)) (Bminus mode_NE (pt a i) (pt b j))) in *.
    pose proof (add_err v' ct F P Pc) as E.
    fold (sqd (bval (pt a i)) (bval (pt b j))) in Hc.
    assert (Pd : 0 <= sqd (bval (pt a i)) (bval (pt b j))) by apply Rle_0_sqr.
    pose proof (path_sum_pos sqd xs ys q (fun x y => Rle_0_sqr _)) as PO.
    rewrite path_sum_snoc, !reals_pt, app_length, Nat.add_comm. cbn [length Nat.add].
    splits.
    + pose proof uu_pos. pose proof uu_small. apply Rabs_both in E.
      assert (uu * (bval v' + bval ct) <= 1 * (bval v' + bval ct)) by (apply Rmult_le_compat_r; lra). lra.
    + apply (step_up _ (bval v') (bval v') (bval ct)); auto. pose proof uu_pos. pose proof TT_pos.
      assert (0 <= bval v' * uu) by (apply Rmult_le_pos; lra). lra.
    + apply (step_low _ (bval v') (bval ct)); auto.
Qed.
End Along.

(** maxima along a list of index pairs *)
Lemma path_max_snoc f xs ys p i j : (forall x y, 0 <= f x y) ->
  path_max f xs ys (p ++ [(i, j)]) = Rmax (path_max f xs ys p) (f (Rpt xs i) (Rpt ys j)).
Proof.
  intros Hf. unfold path_max. rewrite fold_right_app. cbn [fold_right fst snd].
  rewrite (Rmax_left _ 0) by apply Hf. induction p as [|c p IH]; cbn [fold_right].
  - rewrite Rmax_right; auto.
  - rewrite IH. apply Rmax_assoc.
Qed.

Section Cheb.
Variables a b : TS B64.
Notation xs := (reals a).
Notation ys := (reals b).

Lemma nmax_reals (x y : b64) : bfinb x = true -> bfinb y = true ->
  bval (@nmax B64 x y) = Rmax (bval x) (bval y).
Proof.
  intros Fx Fy. unfold nmax. change (@nltb B64 x y) with (Bltb x y). rewrite (Bltb_correct _ _ x y Fx Fy).
  destruct (Rlt_bool_spec (bval x) (bval y)) as [H|H]; [rewrite Rmax_right by lra|rewrite Rmax_left by lra]; reflexivity.
Qed.

Lemma nmax_fin_r (x y : b64) : @nn B64 x -> @nn B64 y -> bfinb (@nmax B64 x y) = true -> @nle B64 n0 y -> bfinb y = true.
Proof.
  intros Nx Ny F Hy. destruct (ok_val y Hy) as [E|(Fy & _)]; auto. exfalso.
  pose proof (nmax_r x y Nx Ny) as H. apply nleP_val in H. rewrite E, (val_finite _ F) in H. exact H.
Qed.

Lemma close_max u v c d : 0 <= c -> 0 <= d -> Rabs (u - c) <= uu * c -> Rabs (v - d) <= uu * d ->
  Rabs (Rmax u v - Rmax c d) <= uu * Rmax c d.
Proof.
  intros Hc Hd H1 H2. apply Rabs_both in H1. apply Rabs_both in H2. pose proof uu_pos. pose proof uu_small.
  apply Rabs_le. unfold Rmax. destruct (Rle_dec u v), (Rle_dec c d); nra.
Qed.

Lemma cheb_along p : p <> [] -> (forall i, In i (map fst p) -> bfinb (pt a i) = true) ->
  (forall i, In i (map snd p) -> bfinb (pt b i) = true) ->
  bfinb (path_acc (@Chebyshev B64) a b p) = true ->
  Rabs (bval (path_acc (@Chebyshev B64) a b p) - path_max absd xs ys p) <= uu * path_max absd xs ys p /\
  0 <= bval (path_acc (@Chebyshev B64) a b p).
Proof.
  intros _ Fa Fb.
  assert (G : bfinb (path_acc (@Chebyshev B64) a b p) = true \/ path_acc (@Chebyshev B64) a b p = @nninf B64 ->
    (p = [] /\ path_acc (@Chebyshev B64) a b p = @nninf B64) \/
    (p <> [] /\ bfinb (path_acc (@Chebyshev B64) a b p) = true /\
     Rabs (bval (path_acc (@Chebyshev B64) a b p) - path_max absd xs ys p) <= uu * path_max absd xs ys p /\
     0 <= bval (path_acc (@Chebyshev B64) a b p))).
  { induction p as [|[i j] q IH] using rev_ind; [left; auto|]. rewrite map_app in Fa, Fb.
    rewrite path_acc_snoc. rewrite path_max_snoc by (intros; apply Rabs_pos). rewrite !reals_pt.
    set (v' := path_acc (@Chebyshev B64) a b q) in *.
    change (m_reduce (@Chebyshev B64) v' (pt a i) (pt b j)) with (@nmax B64 v' (Babs (Bminus mode_NE (pt a i) (pt b j)))).
    set (ct := Babs (Bminus mode_NE (pt a i) (pt b j))).
    assert (Fi : bfinb (pt a i) = true) by (apply Fa, in_or_app; simpl; auto).
    assert (Fj : bfinb (pt b j) = true) by (apply Fb, in_or_app; simpl; auto).
    assert (Oct : @nle B64 n0 ct).
    { apply (abs_sub_pos (N := B64)); apply bfin_iff; auto. }
    intros F. right. split; [intros E; apply app_eq_nil in E as [_ E]; inversion E|].
    assert (Fm : bfinb (@nmax B64 v' ct) = true).
    { destruct F as [F|F]; auto. exfalso. unfold nmax in F. destruct (@nltb B64 v' ct) eqn:El.
      - rewrite F in Oct. apply nleP_val in Oct. rewrite val_0 in Oct. exact Oct.
      - rewrite F in El. change (Bltb (B754_infinity true) ct = false) in El. rewrite val_ltb in El.
        destruct (ok_val ct Oct) as [E|(_ & _ & E)]; rewrite E in El; discriminate. }
    assert (Hv : bfinb v' = true \/ v' = @nninf B64).
    { unfold nmax in Fm. destruct (@nltb B64 v' ct) eqn:El; [|auto]. change (Bltb v' ct = true) in El.
      destruct v' as [s|[]| |s m e H]; auto. rewrite val_ltb in El. simpl in El. destruct (val ct); discriminate. }
    destruct IH as [[-> Ev]|(Hq & F' & H' & P')]; auto.
    { intros i' Hi. apply Fa, in_or_app. auto. } { intros i' Hi. apply Fb, in_or_app. auto. }
    - assert (Em : @nmax B64 v' ct = ct).
      { rewrite Ev. unfold nmax. change (@nltb B64 (@nninf B64) ct) with (Bltb (B754_infinity true) ct).
        rewrite val_ltb. destruct (ok_val ct Oct) as [E|(_ & _ & E)]; rewrite E; reflexivity. }
      rewrite Em in *. split; auto. split; [|unfold ct; rewrite B2R_Babs; apply Rabs_pos].
      change (path_max absd xs ys []) with 0. rewrite Rmax_right by apply Rabs_pos.
      apply cost_abs; auto.
    - assert (Fc : bfinb ct = true).
      { apply (nmax_fin_r v'); auto; [apply nnP_val; rewrite (val_finite _ F'); apply xnn_Fin|apply (nle_nn_r _ _ Oct)]. }
      split; auto. rewrite nmax_reals by auto. split.
      + apply close_max; auto; [|apply Rabs_pos|apply cost_abs; auto].
        unfold path_max. clear. induction q as [|c q IH]; cbn [fold_right]; [lra|].
        apply Rle_trans with (1 := IH). apply Rmax_r.
      + apply Rle_trans with (1 := P'). apply Rmax_l. }
  intros F. destruct (G (or_introl F)) as [[-> E]|(_ & _ & H)]; auto.
  exfalso. rewrite E in F. change (bfinb (B754_infinity true) = true) in F. discriminate F.
Qed.
End Cheb.
