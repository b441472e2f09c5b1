(** Property C67: normalising a data set divides all distances inside of it by the same number, so it
    changes neither the nearest neighbours nor, with the threshold divided by this number, the groups.
    Specifications: NamedSpec.v ([stretch]), GroupSpec.v, GroupView.v, SearchSpec.v. *)
From Coq Require Import String Reals Lra Lia ZArith Sorting.Sorted.
From Flocq Require Import Core BinarySingleNaN.
From Verif Require Import Base Num NumB64 NumLaws NumFacts NumB64Laws NumXR NumXRLaws LoopFacts TimeSeries TSSet Distance DtwSpec DtwPaths DtwProofs Metrics DtwMain
  DtwResults DtwReal Pairwise Band DistSpec DistLink Group GroupSpec GroupView GroupDist GroupSpace DataSpec DataProofs StdAlg HeapFacts Candidate SearchSpec SearchCases
  BruteForce Loader Api ApiSpec ApiProofs ApiQuery NamedSpec PropsDistance PropsGroup PropsLoader PropsApi PropsNamed PropsSearch PropsMore PropsApiQuery PropsNorm
  KBest PropsCount PropsBand Members.
Local Open Scope Z_scope.
Local Open Scope list_scope.

(** ** what a data set holds is determined *)
Lemma holds_fun {N : Num} (d : dataset N) rows rows' : holds d rows -> holds d rows' -> rows = rows'.
Proof.
  intros (buf & E & C & _ & _ & H) (buf' & E' & C' & _ & _ & H'). rewrite E in E'. injection E' as <-.
  assert (L : length rows = length rows') by lia. clear C C'.
  assert (X : forall i, nth_error rows i = nth_error rows' i).
  { intros i. destruct (nth_error rows i) as [r|] eqn:Er.
    - destruct (nth_error rows' i) as [r'|] eqn:Er'.
      + f_equal. destruct (H _ _ Er) as (Ln & _ & V). destruct (H' _ _ Er') as (Ln' & _ & V'). rewrite Ln in Ln'. injection Ln' as Ln'. apply Nat2Z.inj in Ln'.
        assert (Y : forall j, nth_error r j = nth_error r' j).
        { intros j. destruct (nth_error r j) as [v|] eqn:Ev.
          - destruct (nth_error r' j) as [v'|] eqn:Ev'; [|apply nth_error_None in Ev'; assert (j < length r)%nat by (apply nth_error_Some; congruence); lia].
            pose proof (V _ _ Ev) as A. rewrite (V' _ _ Ev') in A. injection A as ->. reflexivity.
          - symmetry. apply nth_error_None. apply nth_error_None in Ev. lia. }
        clear - Y. revert r' Y. induction r as [|x r IH]; intros [|y r'] Y; auto; [discriminate (Y 0%nat)|discriminate (Y 0%nat)|].
        pose proof (Y 0%nat) as Y0. injection Y0 as ->. f_equal. apply IH. intros j. exact (Y (S j)).
      + exfalso. apply nth_error_None in Er'. assert (i < length rows)%nat by (apply nth_error_Some; congruence). lia.
    - symmetry. apply nth_error_None. apply nth_error_None in Er. lia. }
  clear - X. revert rows' X. induction rows as [|x r IH]; intros [|y r'] Y; auto; [discriminate (Y 0%nat)|discriminate (Y 0%nat)|].
  pose proof (Y 0%nat) as Y0. injection Y0 as ->. f_equal. apply IH. intros j. exact (Y (S j)).
Qed.

(** ** scaling *)
(** the values after normalising *)
Definition normal (mn mx : R) (v : R) : R := ((v - mn) / (mx - mn))%R.

Section Scaling.
Local Open Scope R_scope.
Variables (mn w : R).
Hypothesis Hw : 0 < w.
Let h (v : R) : R := (v - mn) / w.

Lemma h_diff x y : h x - h y = / w * (x - y).
Proof. unfold h. field. lra. Qed.
Lemma h_abs x y : Rabs (h x - h y) = / w * Rabs (x - y).
Proof. rewrite h_diff, Rabs_mult, (Rabs_pos_eq (/ w)); [reflexivity|]. left. apply Rinv_0_lt_compat, Hw. Qed.

Lemma Rpt_map xs i : (0 <= i < Rlen xs)%Z -> Rpt (map h xs) i = h (Rpt xs i).
Proof.
  intros Hi. unfold Rpt. rewrite (nth_indep (map h xs) 0 (h 0)) by (rewrite map_length; unfold Rlen in Hi; lia). apply map_nth.
Qed.

Lemma path_sum_scale (f : R -> R -> R) (a : R) xs ys p : (forall x y, f (h x) (h y) = a * f x y) ->
  Forall (fun c => (0 <= fst c < Rlen xs /\ 0 <= snd c < Rlen ys)%Z) p -> path_sum f (map h xs) (map h ys) p = a * path_sum f xs ys p.
Proof.
  intros Hf. induction 1 as [|c p [Hc Hc'] Hp IH]; unfold path_sum in *; cbn; [lra|]. rewrite IH, !Rpt_map by assumption. rewrite Hf. lra.
Qed.
Lemma path_max_scale (f : R -> R -> R) (a : R) xs ys p : 0 <= a -> (forall x y, f (h x) (h y) = a * f x y) ->
  Forall (fun c => (0 <= fst c < Rlen xs /\ 0 <= snd c < Rlen ys)%Z) p -> path_max f (map h xs) (map h ys) p = a * path_max f xs ys p.
Proof.
  intros Ha Hf. induction 1 as [|c p [Hc Hc'] Hp IH]; unfold path_max in *; cbn; [lra|]. rewrite IH, !Rpt_map by assumption. rewrite Hf, RmaxRmult; auto.
Qed.

Lemma maxlen_map xs ys : maxlen (map h xs) (map h ys) = maxlen xs ys.
Proof. unfold maxlen, Rlen. rewrite !map_length. reflexivity. Qed.

Lemma real_cost_scale k xs ys p : Forall (fun c => (0 <= fst c < Rlen xs /\ 0 <= snd c < Rlen ys)%Z) p ->
  real_cost k (map h xs) (map h ys) p = real_cost k xs ys p / w.
Proof.
  intros Hp. assert (Hi : 0 < / w) by (apply Rinv_0_lt_compat; exact Hw).
  destruct k; cbn [real_cost]; unfold euclidean_cost, manhattan_cost, chebyshev_cost; rewrite ?maxlen_map.
  - rewrite (path_sum_scale _ (/ w * / w)) by (assumption || (intros x y; rewrite h_diff; ring)).
    rewrite sqrt_mult_alt by nra. rewrite sqrt_square by lra. unfold Rdiv. ring.
  - rewrite (path_sum_scale _ (/ w)) by (assumption || exact h_abs). unfold Rdiv. ring.
  - rewrite (path_max_scale _ (/ w)) by (assumption || exact h_abs || lra). unfold Rdiv. ring.
Qed.
End Scaling.

Lemma path_inside m n p : warping_path m n p -> Forall (fun c => 0 <= fst c < m /\ 0 <= snd c < n) p.
Proof. intros H. apply Forall_forall. intros c Hc. apply (warping_path_bounds m n p c H Hc). Qed.

Lemma normal_cost k mn mx xs ys p : (mn < mx)%R -> warping_path (Rlen xs) (Rlen ys) p ->
  real_cost k (map (normal mn mx) xs) (map (normal mn mx) ys) p = (real_cost k xs ys p / (mx - mn))%R.
Proof. intros H Hp. apply (real_cost_scale mn (mx - mn)); [lra|]. apply path_inside, Hp. Qed.
Lemma normal_pair k mn mx xs ys : (mn < mx)%R ->
  real_pair k (map (normal mn mx) xs) (map (normal mn mx) ys) = (real_pair k xs ys / (mx - mn))%R.
Proof. intros H. apply (real_pair_scale k mn (mx - mn)). lra. Qed.
Lemma Rlen_map f xs : Rlen (map f xs) = Rlen xs.
Proof. unfold Rlen. rewrite map_length. reflexivity. Qed.

(** the distance divided by the difference of the largest and the smallest value *)
Definition divided (w : R) (d : D XR) : D XR := @ndiv XR d (Fin w).
Lemma divided_fin w x : (0 < w)%R -> divided w (Fin x) = Fin (x / w).
Proof. intros H. unfold divided. cbn. rewrite Req_bool_false by lra. reflexivity. Qed.
Lemma divided_inf w : (0 < w)%R -> divided w PInf = PInf.
Proof. intros H. unfold divided. cbn. rewrite Rlt_bool_false by lra. reflexivity. Qed.

(** the warped distances of two series before and after *)
Lemma dtw_normal k mn mx (xs ys : list R) (ratio : R) (a b a' b' : TS XR) mt mt' : (mn < mx)%R ->
  is_series a xs -> is_series b ys -> is_series a' (map (normal mn mx) xs) -> is_series b' (map (normal mn mx) ys) ->
  2 <= Rlen xs <= 2 ^ 30 -> 2 <= Rlen ys <= 2 ^ 30 -> (0 <= ratio)%R -> (IZR (Z.max (Rlen xs) (Rlen ys)) * ratio <= IZR int_max)%R ->
  exists d : D XR, value (dist_call (dtw_name k) (Fin ratio : D XR) a b ninf mt) = Ret d /\
    value (dist_call (dtw_name k) (Fin ratio : D XR) a' b' ninf mt') = Ret (divided (mx - mn) d) /\ nle n0 d.
Proof.
  intros Hlt Sa Sb Sa' Sb' Hx Hy Hr Hb.
  destruct (C01_dtw_is_the_optimum k a b xs ys ratio mt Sa Sb Hx Hy Hr Hb) as [A1 A2].
  destruct (C01_dtw_is_the_optimum k a' b' _ _ ratio mt' Sa' Sb') as [B1 B2]; rewrite ?Rlen_map; auto. rewrite !Rlen_map in B1, B2.
  set (r := band_width ratio (Z.max (Rlen xs) (Rlen ys))) in *.
  destruct (Z.le_gt_cases (Z.abs (Rlen xs - Rlen ys)) r) as [C|C].
  - destruct (A1 C) as (p & P1 & P2 & P3 & Ep). destruct (B1 C) as (q & Q1 & Q2 & Q3 & Eq). exists (Fin (real_cost k xs ys p)). split; [exact Ep|]. split.
    + refine (eq_trans Eq _). rewrite divided_fin by lra. apply (f_equal (fun x => Ret (Fin x : D XR))). specialize (Q3 p P1 P2). rewrite (normal_cost k mn mx xs ys p Hlt P1), (normal_cost k mn mx xs ys q Hlt Q1) in Q3. rewrite (normal_cost k mn mx xs ys q Hlt Q1).
      specialize (P3 q Q1 Q2). assert (0 < / (mx - mn))%R by (apply Rinv_0_lt_compat; lra). apply Rle_antisym; [exact Q3|]. apply Rmult_le_compat_r; lra.
    + apply XR_nle. cbn. unfold real_cost. destruct k; unfold euclidean_cost, manhattan_cost, chebyshev_cost.
      * apply Rmult_le_pos; [apply R_sqrt.sqrt_pos|]. left. apply Rinv_0_lt_compat. unfold maxlen. assert (0 < IZR (Z.max (Rlen xs) (Rlen ys)))%R by (apply (IZR_lt 0); lia). lra.
      * apply Rmult_le_pos.
        -- clear. unfold path_sum. induction p as [|c p IH]; cbn; [lra|]. pose proof (Rabs_pos (Rpt xs (fst c) - Rpt ys (snd c))). lra.
        -- left. apply Rinv_0_lt_compat. unfold maxlen. assert (0 < IZR (Z.max (Rlen xs) (Rlen ys)))%R by (apply (IZR_lt 0); lia). lra.
      * clear. unfold path_max. induction p as [|c p IH]; cbn; [lra|]. apply (Rle_trans _ _ _ IH), Rmax_r.
  - destruct (A2 ltac:(lia)) as [_ E]. destruct (B2 ltac:(lia)) as [_ E']. exists PInf. split; [exact E|]. split; [|apply XR_nle; exact I].
    refine (eq_trans E' _). rewrite divided_inf by lra. reflexivity.
Qed.

(** ** the state after normalising *)
Definition varied (rows : list (list R)) : Prop := exists u v, In u (concat rows) /\ In v (concat rows) /\ u <> v.

Lemma normal_rows mn mx rows : (mn < mx)%R ->
  map (map (norm_val (N := XR) (Fin mn) (Fin mx))) (real_rows rows) = real_rows (map (map (normal mn mx)) rows).
Proof.
  intros Hlt. unfold real_rows. rewrite !map_map. apply map_ext. intros row. rewrite !map_map. apply map_ext. intros v.
  unfold norm_val. cbn. rewrite !Req_bool_false by lra. reflexivity.
Qed.

Lemma normalise_state (r0 : D XR) h s t g rows e s' a : run r0 h s -> held s t = Some g -> holds (gt_data g) (real_rows rows) -> varied rows ->
  exec e (CNormalize t) s = (s', a) ->
  exists mn mx h' g', a = Ret (APair (Fin mn : D XR) (Fin mx)) /\ (mn < mx)%R /\ In mn (concat rows) /\ In mx (concat rows) /\
    (forall v, In v (concat rows) -> (mn <= v <= mx)%R) /\
    run r0 h' s' /\ ratio_after r0 h' = ratio_after r0 h /\ a_ratio s' = a_ratio s /\ held s' t = Some g' /\ gt_groups g' = gt_groups g /\
    holds (gt_data g') (real_rows (map (map (normal mn mx)) rows)) /\ ds_maxcol (gt_data g') = ds_maxcol (gt_data g) /\ ds_count (gt_data g') = ds_count (gt_data g).
Proof.
  intros Hrun Hh Hd (u & v & Hu & Hv & Huv) E. pose proof E as E0. cbn [exec] in E.
  destruct (on_set_spec _ _ _ _ _ (run_good _ _ _ Hrun) E) as [(X & _)|(g0 & g' & X & F & _ & Y & _ & _ & _ & _ & Hra)]; [congruence|].
  rewrite Hh in X. injection X as <-.
  assert (Ec : concat (real_rows rows) = map Fin (concat rows)) by (symmetry; apply concat_map).
  destruct (normalize_ok (N := XR) (gt_data g) (real_rows rows) Hd) as (buf & buf' & mn' & mx' & Ed & En & Imn & Imx & Hall & Hh' & _).
  { apply (eq_ind_r (fun l : list (D XR) => l <> [])) with (2 := Ec). destruct (concat rows); [contradiction|discriminate]. }
  { apply (eq_ind_r (fun l : list (D XR) => Forall (@nfin XR) l)) with (2 := Ec). apply Forall_forall. intros x Hx.
    apply in_map_iff in Hx as (y & <- & _). split; reflexivity. }
  apply (eq_ind _ (fun l : list (D XR) => In mn' l)) with (2 := Ec) in Imn. apply (eq_ind _ (fun l : list (D XR) => In mx' l)) with (2 := Ec) in Imx.
  apply (eq_ind _ (fun l : list (D XR) => Forall (fun v => nle (N := XR) mn' v /\ nle (N := XR) v mx') l)) with (2 := Ec) in Hall.
  apply in_map_iff in Imn as (mn & <- & Imn). apply in_map_iff in Imx as (mx & <- & Imx).
  assert (Hb : forall v, In v (concat rows) -> (mn <= v <= mx)%R).
  { intros z Hz. rewrite Forall_forall in Hall. destruct (Hall (Fin z)) as [A B]; [apply in_map; exact Hz|].
    apply XR_nle in A. apply XR_nle in B. exact (conj A B). }
  assert (Hlt : (mn < mx)%R) by (pose proof (Hb u Hu); pose proof (Hb v Hv); lra).
  rewrite En in F. cbn [bind or_same] in F. injection F as <- <-.
  exists mn, mx, (h ++ [(CNormalize t, Ret (APair (Fin mn : D XR) (Fin mx)))]). eexists. split; [reflexivity|]. split; [exact Hlt|]. split; [exact Imn|]. split; [exact Imx|].
  split; [exact Hb|]. split; [apply (run_call r0 h s e _ _ _ Hrun E0 I)|]. split.
  { unfold ratio_after. rewrite fold_left_app. reflexivity. }
  split; [exact Hra|]. split; [exact Y|]. cbn [gt_groups gt_data ds_maxcol ds_count]. split; [reflexivity|]. split; [|auto].
  rewrite (normal_rows mn mx rows Hlt) in Hh'. exact Hh'.
Qed.

(** stretches before and after *)
Lemma stretch_normal {s s' : api XR} {t g g' rows} {f : R -> R} i b e xs : held s t = Some g -> holds (gt_data g) (real_rows rows) ->
  held s' t = Some g' -> holds (gt_data g') (real_rows (map (map f) rows)) -> stretch s t i b e (map Fin xs) -> stretch s' t i b e (map Fin (map f xs)).
Proof.
  intros Hh Hd Hh' Hd' (g0 & rows0 & row & X & Y & Er & Hx). rewrite Hh in X. injection X as <-. rewrite (holds_fun _ _ _ Y Hd) in Er.
  apply row_of_Some in Er as [Hi Er]. unfold real_rows in Er. rewrite nth_error_map in Er. destruct (nth_error rows (Z.to_nat i)) as [row'|] eqn:En; [|discriminate Er].
  injection Er as <-. exists g', (real_rows (map (map f) rows)), (map Fin (map f row')). split; [exact Hh'|]. split; [exact Hd'|]. split.
  - unfold row_of, real_rows. destruct (Z.ltb_spec i 0); [lia|]. rewrite !nth_error_map, En. reflexivity.
  - assert (Hinj : forall l1 l2 : list R, map Fin l1 = map Fin l2 -> l1 = l2).
    { induction l1 as [|x l1 IH]; intros [|y l2] H; try discriminate H; [reflexivity|]. injection H as -> H. f_equal. apply IH, H. }
    destruct Hx as [(H1 & H2 & E)|(H1 & H2 & E)]; [left|right].
    + apply Hinj in E. subst xs. auto.
    + rewrite !map_length in *. split; [exact H1|]. split; [exact H2|]. unfold slice in *. rewrite skipn_map, firstn_map in E. apply Hinj in E. subst xs.
      rewrite !skipn_map, !firstn_map. reflexivity.
Qed.

(** ** distances *)

(** After any history a data set of real numbers that are not all equal is normalised.  Then there are
    its smallest and largest values such that every distance between two stretches of it, point-to-point
    or warped, is what it was before divided by their difference. *)
Theorem C67_distances_exact : forall (r0 : D XR) h (s s' : api XR) t g rows e a,
  run r0 h s -> held s t = Some g -> holds (gt_data g) (real_rows rows) -> varied rows -> exec e (CNormalize t) s = (s', a) ->
  exists mn mx, a = Ret (APair (Fin mn : D XR) (Fin mx)) /\ (mn < mx)%R /\ In mn (concat rows) /\ In mx (concat rows) /\
    forall e1 e2 (k : kind) i1 b1 f1 (xs : list R) i2 b2 f2 (ys : list R),
    stretch s t i1 b1 f1 (map Fin xs) -> stretch s t i2 b2 f2 (map Fin ys) ->
    (length xs = length ys -> 1 <= Rlen xs <= 2 ^ 30 -> exists d : R,
       exec e1 (CDistance t i1 b1 f1 t i2 b2 f2 (kind_name k)) s = (s, Ret (AValue (Fin d : D XR))) /\
       exec e2 (CDistance t i1 b1 f1 t i2 b2 f2 (kind_name k)) s' = (s', Ret (AValue (Fin (d / (mx - mn)) : D XR)))) /\
    (forall ratio, ratio_after r0 h = Fin ratio -> (0 <= ratio)%R -> 2 <= Rlen xs <= 2 ^ 30 -> 2 <= Rlen ys <= 2 ^ 30 ->
       (IZR (Z.max (Rlen xs) (Rlen ys)) * ratio <= IZR int_max)%R -> exists d : D XR,
       exec e1 (CDistance t i1 b1 f1 t i2 b2 f2 (dtw_name k)) s = (s, Ret (AValue d)) /\
       exec e2 (CDistance t i1 b1 f1 t i2 b2 f2 (dtw_name k)) s' = (s', Ret (AValue (divided (mx - mn) d)))).
Proof.
  intros r0 h s s' t g rows e a Hrun Hh Hd Hv E.
  destruct (normalise_state r0 h s t g rows e s' a Hrun Hh Hd Hv E) as (mn & mx & h' & g' & Ea & Hlt & I1 & I2 & _ & Hrun' & Er & _ & Hh' & _ & Hd' & _).
  exists mn, mx. split; [exact Ea|]. split; [exact Hlt|]. split; [exact I1|]. split; [exact I2|].
  intros e1 e2 k i1 b1 f1 xs i2 b2 f2 ys H1 H2.
  pose proof (stretch_normal _ _ _ _ Hh Hd Hh' Hd' H1) as H1'. pose proof (stretch_normal _ _ _ _ Hh Hd Hh' Hd' H2) as H2'.
  split.
  - intros Hl Hx. assert (Hne : xs <> []) by (intros ->; unfold Rlen in Hx; cbn in Hx; lia).
    destruct (C55_distance_exact r0 h s e1 k _ _ _ _ _ _ _ _ _ _ Hrun H1 H2) as [A _].
    destruct (C55_distance_exact r0 h' s' e2 k _ _ _ _ _ _ _ _ _ _ Hrun' H1' H2') as [B _].
    exists (real_pair k xs ys). split; [apply A; auto; apply Hx|]. rewrite <- normal_pair by exact Hlt. apply B.
    + rewrite !map_length. exact Hl.
    + destruct xs; [contradiction|discriminate].
    + rewrite map_length. apply Hx.
  - intros ratio Hra Hr Hx Hy Hb.
    destruct (named_calls r0 h s e1 _ _ _ _ _ _ _ _ _ _ Hrun H1 H2) as (x & y & (A1 & B1 & A2 & B2 & _) & D1 & _).
    destruct (named_calls r0 h' s' e2 _ _ _ _ _ _ _ _ _ _ Hrun' H1' H2') as (x' & y' & (A1' & B1' & A2' & B2' & _) & D2 & _).
    rewrite Er in D2. rewrite Hra in D1, D2.
    destruct (dtw_normal k mn mx xs ys ratio x y x' y' [] [] Hlt) as (d & Ed & Ed' & _); auto; try (split; assumption).
    exists d. rewrite D1, D2, Ed, Ed'. split; reflexivity.
Qed.
Print Assumptions C67_distances_exact.

(** ** groups *)
Lemma nle_fin x y : @nle XR (Fin x) (Fin y) <-> (x <= y)%R.
Proof. split; intros H; [apply XR_nle in H|apply XR_nle]; exact H. Qed.

(** leader clustering only depends on how distances compare with each other and with the threshold *)
Lemma runs_same (S : coord -> Prop) (dist dist' : coord -> coord -> D XR) (dr : coord -> coord -> R) (t w : R) : (0 < w)%R ->
  (forall c c', S c -> S c' -> dist c c' = Fin (dr c c') /\ dist' c c' = Fin (dr c c' / w)) ->
  forall cs gs gs', Forall S cs -> runs (leader_step (N := XR) dist (Fin t : D XR)) cs gs ->
    runs (leader_step (N := XR) dist' (Fin (t / w) : D XR)) cs gs' -> gs = gs'.
Proof.
  intros Hw Hdist cs. assert (Hi : (0 < / w)%R) by (apply Rinv_0_lt_compat, Hw).
  assert (Hsc : forall x y, (x / w <= y / w)%R -> (x <= y)%R) by (intros x y H; apply (Rmult_le_reg_r (/ w)); assumption).
  assert (Hsc' : forall x y, (x / w < y / w)%R -> (x < y)%R) by (intros x y H; apply (Rmult_lt_reg_r (/ w)); assumption).
  assert (Hh : (t / w / 2)%R = (t / 2 / w)%R) by (field; lra).
  induction cs as [|c cs IH] using rev_ind; intros gs gs' HS R R'.
  - inversion R as [E|? ? ? ? _ _ E]; [|destruct cs; discriminate E]. inversion R' as [E'|? ? ? ? _ _ E']; [|destruct cs; discriminate E']. reflexivity.
  - apply runs_inv in R as (g0 & R & St). apply runs_inv in R' as (g0' & R' & St'). apply Forall_app in HS as [HS Hx]. inversion Hx as [|? ? Sc _]. subst.
    rewrite <- (IH g0 g0' HS R R') in St'. clear IH R'.
    assert (Hg : forall g, In g g0 -> S (rep g)).
    { assert (Hm : (forall g, In g g0 -> g <> []) /\ forall x, In x (concat g0) -> In x cs).
      { clear - R. induction R as [|cs gs c gs' R [IH1 IH2] St]; [split; [intros g []|intros x []]|]. destruct St as [[_ ->]|(k & (g & Eg & _) & ->)].
        - split.
          + intros g Hg. apply in_app_or in Hg as [Hg|[<-|[]]]; [auto|discriminate].
          + intros x Hx. rewrite concat_app in Hx. apply in_app_or in Hx as [Hx|[<-|[]]]; apply in_or_app; [left; auto|right; left; auto].
        - unfold add_to. split.
          + intros g1 Hg1. apply In_nth_error in Hg1 as [j Ej]. rewrite nth_error_upd_eq in Ej. destruct (j =? k)%nat.
            * destruct (k <? length gs)%nat; [|discriminate]. injection Ej as <-. discriminate.
            * apply IH1. eapply nth_error_In; eauto.
          + intros x Hx. apply in_concat in Hx as (g1 & Hg1 & Hx). apply In_nth_error in Hg1 as [j Ej]. rewrite nth_error_upd_eq in Ej. destruct (j =? k)%nat.
            * destruct (k <? length gs)%nat; [|discriminate]. injection Ej as <-. destruct Hx as [<-|Hx]; [apply in_or_app; right; left; reflexivity|].
              rewrite (nth_error_nth _ _ _ Eg) in Hx. apply in_or_app. left. apply IH2, in_concat. exists g. split; [eapply nth_error_In; eauto|exact Hx].
            * apply in_or_app. left. apply IH2, in_concat. exists g1. split; [eapply nth_error_In; eauto|exact Hx]. }
      intros g Hg. rewrite Forall_forall in HS. apply HS, (proj2 Hm), in_concat. exists g. split; [exact Hg|]. apply GroupProofs.rep_in, (proj1 Hm), Hg. }
    assert (D1 : forall g, In g g0 -> dist (rep g) c = Fin (dr (rep g) c)) by (intros g H; apply Hdist; auto).
    assert (D2 : forall g, In g g0 -> dist' (rep g) c = Fin (dr (rep g) c / w)) by (intros g H; apply Hdist; auto).
    destruct St as [[F ->]|(k & (g & Eg & Hle & Hmin & Hfirst) & ->)], St' as [[F' ->]|(k' & (g' & Eg' & Hle' & Hmin' & Hfirst') & ->)].
    + reflexivity.
    + exfalso. pose proof (nth_error_In _ _ Eg') as Ig. specialize (F _ Ig). rewrite xr_half, (D1 _ Ig) in F. apply xr_nlt in F.
      rewrite xr_half, (D2 _ Ig) in Hle'. apply nle_fin in Hle'. rewrite Hh in Hle'. apply Hsc in Hle'. lra.
    + exfalso. pose proof (nth_error_In _ _ Eg) as Ig. specialize (F' _ Ig). rewrite xr_half, (D2 _ Ig) in F'. apply xr_nlt in F'.
      rewrite xr_half, (D1 _ Ig) in Hle. apply nle_fin in Hle. rewrite Hh in F'. apply Hsc' in F'. lra.
    + f_equal. pose proof (nth_error_In _ _ Eg) as Ig. pose proof (nth_error_In _ _ Eg') as Ig'. destruct (lt_eq_lt_dec k k') as [[Hk|Hk]|Hk]; [exfalso| exact Hk |exfalso].
      * specialize (Hfirst' k g Hk Eg). specialize (Hmin g' Ig'). rewrite (D2 _ Ig), (D2 _ Ig') in Hfirst'. rewrite (D1 _ Ig), (D1 _ Ig') in Hmin.
        apply xr_nlt, Hsc' in Hfirst'. apply nle_fin in Hmin. lra.
      * specialize (Hfirst k' g' Hk Eg'). specialize (Hmin' g Ig). rewrite (D1 _ Ig), (D1 _ Ig') in Hfirst. rewrite (D2 _ Ig), (D2 _ Ig') in Hmin'.
        apply xr_nlt in Hfirst. apply nle_fin, Hsc in Hmin'. lra.
Qed.

Lemma is_sub_normal rows f l c : is_sub (N := XR) (map (map Fin) (map (map f) rows)) l c <-> is_sub (N := XR) (map (map Fin) rows) l c.
Proof.
  unfold is_sub, row_of. destruct (fst c <? 0); [split; intros (? & E & _); discriminate E|]. rewrite !nth_error_map.
  destruct (nth_error rows (Z.to_nat (fst c))) as [row|]; cbn; [|split; intros (? & E & _); discriminate E].
  split; intros (r & [= <-] & H); eexists; (split; [reflexivity|]); rewrite !map_length in *; exact H.
Qed.

(** The same data before normalising with one threshold and afterwards with the threshold divided by
    the same number as the distances. *)
Lemma grouped_same (k : kind) (d d' : dataset XR) (rows : list (list R)) mn mx old old' clock clock' (ratio ratio' : D XR) (t : R) th th' whole : (mn < mx)%R ->
  holds d (map (map Fin) rows) -> holds d' (map (map Fin) (map (map (normal mn mx)) rows)) -> ds_maxcol d' = ds_maxcol d -> (0 <= t)%R ->
  1 <= ds_maxcol d <= 2 ^ 30 -> 1 <= th -> 1 <= th' -> log_safe d clock -> log_safe d' clock' ->
  exists g g' total,
    groupAllLengths clock ratio (mkGS d old) (kind_name k) (Fin t : D XR) th whole = (g, Ret total) /\
    groupAllLengths clock' ratio' (mkGS d' old') (kind_name k) (Fin (t / (mx - mn)) : D XR) th' whole = (g', Ret total) /\
    gt_data g = d /\ forall l, level_view g' l = level_view g l.
Proof.
  intros Hlt Hd Hd' Hm' Ht Hm Hth Hth' Hl Hl'. assert (Hw : (0 < mx - mn)%R) by lra.
  assert (Ht' : (0 <= t / (mx - mn))%R) by (apply Rle_mult_inv_pos; lra).
  destruct (grouping_real k d rows old clock ratio t th whole Hd Ht Hm Hth Hl) as (g & n & E & Eg & S1 & N1 & _).
  destruct (grouping_real k d' _ old' clock' ratio' (t / (mx - mn)) th' whole Hd' Ht' ltac:(lia) Hth' Hl') as (g' & n' & E' & Eg' & S2 & N2 & _).
  destruct (C18_leader_clustering_exact k d rows old clock ratio t th whole Hd Hm Hth Hl) as (g1 & n1 & X & G). rewrite E in X. injection X as <- <-.
  destruct (C18_leader_clustering_exact k d' _ old' clock' ratio' (t / (mx - mn)) th' whole Hd' ltac:(lia) Hth' Hl') as (g1 & n1 & X & G'). rewrite E' in X. injection X as <- <-.
  assert (Hgl : forall l, grouped_length d' whole l <-> grouped_length d whole l) by (intros l; unfold grouped_length; rewrite Hm'; tauto).
  assert (Hv : forall l, level_view g' l = level_view g l).
  { intros l. destruct (grouped_dec d whole l) as [Y|Y]; [|rewrite (N1 l Y), (N2 l) by (rewrite Hgl; exact Y); reflexivity].
    destruct (G l Y) as (Hdist & gs & cs & V & [O1 O2] & R & _). destruct (G' l (proj2 (Hgl l) Y)) as (Hdist' & gs' & cs' & V' & [O1' O2'] & R' & _).
    rewrite V, V'. do 3 f_equal. assert (Ecs : cs' = cs).
    { apply (sorted_unique before before_asym); auto. intros c. rewrite O2, O2'. apply is_sub_normal. }
    rewrite Ecs in R'. symmetry. refine (runs_same (is_sub (N := XR) (map (map Fin) rows) l) _ _ (fun c c' => real_pair k (real_sub rows l c) (real_sub rows l c')) t (mx - mn) Hw _ cs gs gs' _ R R').
    - intros c c' Sc Sc'. split; [apply Hdist; assumption|]. refine (eq_trans (Hdist' c c' _ _) _); [apply is_sub_normal, Sc|apply is_sub_normal, Sc'|].
      rewrite !real_sub_map, normal_pair by exact Hlt. reflexivity.
    - apply Forall_forall. intros c Hc. apply O2, Hc. }
  exists g, g', n. split; [exact E|]. split; [|split; [exact Eg|exact Hv]]. rewrite E'. do 2 f_equal. rewrite S1, S2, Hm'. f_equal. apply map_ext. intros l. unfold groups_at. rewrite Hv. reflexivity.
Qed.

(** Through the interface after any history: grouping, normalising and grouping again with the
    threshold divided by the difference of the largest and the smallest value. *)
Theorem C67_groups_exact : forall (r0 : D XR) h (s s1 s2 s3 : api XR) n g rows e1 e2 e3 a1 a2 a3 (k : kind) (t : R) th1 th3 whole,
  run r0 h s -> held s n = Some g -> holds (gt_data g) (real_rows rows) -> varied rows -> 1 <= ds_maxcol (gt_data g) <= 2 ^ 30 -> (0 <= t)%R ->
  1 <= th1 -> 1 <= th3 -> log_safe (gt_data g) (e_clock e1) -> log_safe (gt_data g) (e_clock e3) ->
  exec e1 (CGroup n (Fin t : D XR) (kind_name k) th1 whole) s = (s1, a1) -> exec e2 (CNormalize n) s1 = (s2, a2) ->
  exists mn mx, a2 = Ret (APair (Fin mn : D XR) (Fin mx)) /\ (mn < mx)%R /\
    (exec e3 (CGroup n (Fin (t / (mx - mn)) : D XR) (kind_name k) th3 whole) s2 = (s3, a3) ->
     exists total g1 g3, a1 = Ret (AInt total) /\ a3 = Ret (AInt total) /\ held s1 n = Some g1 /\ held s3 n = Some g3 /\
       forall l, level_view g3 l = level_view g1 l).
Proof.
  intros r0 h s s1 s2 s3 n [d old] rows e1 e2 e3 a1 a2 a3 k t th1 th3 whole Hrun Hh Hd Hv Hm Ht Hth1 Hth3 L1 L3 E1 E2. cbn [gt_data] in *.
  pose proof (run_good _ _ _ Hrun) as G.
  destruct (grouping_real k d rows old (e_clock e1) (a_ratio s) t th1 whole Hd Ht Hm Hth1 L1) as (g1 & n1 & B1 & Eg1 & _).
  pose proof E1 as E1'. cbn [exec] in E1'. destruct (on_set_spec _ _ _ _ _ G E1') as [(X & _)|(g0 & g0' & X & F & G1 & Y & _)]; [congruence|].
  rewrite Hh in X. injection X as <-. rewrite B1 in F. cbn [bind] in F. injection F as <- <-.
  assert (Hrun1 : run r0 (h ++ [(CGroup n (Fin t : D XR) (kind_name k) th1 whole, Ret (AInt n1))]) s1) by (apply (run_call r0 h s e1 _ _ _ Hrun E1 I)).
  assert (Hd1 : holds (gt_data g1) (real_rows rows)) by (rewrite Eg1; exact Hd).
  destruct (normalise_state r0 _ s1 n g1 rows e2 s2 a2 Hrun1 Y Hd1 Hv E2) as (mn & mx & h' & g2 & Ea & Hlt & _ & _ & _ & Hrun2 & _ & _ & Hh2 & _ & Hd2 & Em & Ec).
  exists mn, mx. split; [exact Ea|]. split; [exact Hlt|]. intros E3. rewrite Eg1 in Em, Ec. destruct g2 as [d2 old2]. cbn [gt_data] in *.
  assert (L3' : log_safe d2 (e_clock e3)) by (unfold log_safe; rewrite Em, Ec; exact L3).
  destruct (grouped_same k d d2 rows mn mx old old2 (e_clock e1) (e_clock e3) (a_ratio s) (a_ratio s2) t th1 th3 whole Hlt Hd Hd2 Em Ht Hm Hth1 Hth3 L1 L3')
    as (gx & g3 & total & C1 & C3 & _ & Hlv).
  rewrite B1 in C1. injection C1 as <- <-.
  cbn [exec] in E3. destruct (on_set_spec _ _ _ _ _ (run_good _ _ _ Hrun2) E3) as [(X & _)|(g0 & g0' & X & F & _ & Y3 & _)]; [congruence|].
  rewrite Hh2 in X. injection X as <-. rewrite C3 in F. cbn [bind] in F. injection F as <- <-.
  exists n1, g1, g3. splits; auto.
Qed.
Print Assumptions C67_groups_exact.

(** ** nearest neighbours *)

(** [b]: the places of [P] with the least values of [F], nearest first *)
Definition least_of (F : place -> D XR) (P : place -> Prop) (K : Z) (b : list place) : Prop :=
  (forall p, In p b -> P p) /\ NoDup b /\ (Z.of_nat (length b) = K \/ (Z.of_nat (length b) < K /\ forall p, P p -> In p b)) /\
  (forall p q, P p -> ~ In p b -> In q b -> nle (F q) (F p)) /\
  (forall i j p q, (i < j)%nat -> nth_error b i = Some p -> nth_error b j = Some q -> nle (F p) (F q)).

Lemma least_length F P K b b' : least_of F P K b -> least_of F P K b' -> length b = length b'.
Proof.
  intros (B1 & B2 & B3 & _) (B1' & B2' & B3' & _). destruct B3 as [B3|[B3 A3]], B3' as [B3'|[B3' A3']]; try lia.
  - pose proof (NoDup_incl_length B2 (fun p Hp => A3' p (B1 p Hp))). lia.
  - pose proof (NoDup_incl_length B2' (fun p Hp => A3 p (B1' p Hp))). lia.
  - pose proof (NoDup_incl_length B2 (fun p Hp => A3' p (B1 p Hp))). pose proof (NoDup_incl_length B2' (fun p Hp => A3 p (B1' p Hp))). lia.
Qed.

Lemma least_rank F (P : place -> Prop) K b b' : (forall p, P p -> nn (F p)) -> least_of F P K b -> least_of F P K b' ->
  forall i p p', nth_error b i = Some p -> nth_error b' i = Some p' -> nle (F p') (F p).
Proof.
  intros Hn (B1 & B2 & _ & B4 & B5) (B1' & B2' & _ & B4' & B5') i p p' Hi Hi'.
  pose proof (B1 _ (nth_error_In _ _ Hi)) as Pp. pose proof (B1' _ (nth_error_In _ _ Hi')) as Pp'.
  destruct (nltb (F p) (F p')) eqn:Elt; [exfalso|split; auto].
  set (A := firstn (S i) b). assert (Hlt : (i < length b)%nat) by (apply nth_error_Some; congruence).
  assert (LA : length A = S i) by (unfold A; rewrite firstn_length; lia).
  assert (NA : NoDup A) by (rewrite <- (firstn_skipn (S i) b) in B2; exact (SearchProofs.NoDup_app_l _ _ B2)).
  assert (Hincl : incl A (firstn i b')).
  { intros q Hq. apply In_nth_error in Hq as [j Hj]. assert (Hj2 : (j < S i)%nat) by (rewrite <- LA; apply nth_error_Some; congruence).
    unfold A in Hj. rewrite nth_error_firstn in Hj by exact Hj2. pose proof (B1 _ (nth_error_In _ _ Hj)) as Pq.
    assert (Hqp : nle (F q) (F p)).
    { destruct (Nat.eq_dec j i) as [->|Hne]; [rewrite Hi in Hj; injection Hj as <-; apply nle_refl, Hn, Pp|]. apply (B5 j i); auto. lia. }
    assert (Hno : nle (F p') (F q) -> False) by (intros H; destruct (nle_trans _ _ _ H Hqp) as (_ & _ & X); congruence).
    destruct (in_dec place_dec q b') as [Hr|Hr].
    - apply In_nth_error in Hr as [m Hm]. destruct (Nat.lt_ge_cases m i) as [Hmi|Hmi].
      + apply nth_error_In with m. rewrite nth_error_firstn by exact Hmi. exact Hm.
      + exfalso. apply Hno. destruct (Nat.eq_dec m i) as [->|Hne]; [rewrite Hi' in Hm; injection Hm as <-; apply nle_refl, Hn, Pp'|]. apply (B5' i m); auto. lia.
    - exfalso. apply Hno. apply (B4' q p'); auto. apply (nth_error_In _ _ Hi'). }
  pose proof (NoDup_incl_length NA Hincl) as X. rewrite firstn_length in X. lia.
Qed.

Lemma divided_le w (x y : D XR) : (0 < w)%R -> nle n0 x -> nle n0 y -> (nle (divided w x) (divided w y) <-> nle x y).
Proof.
  intros Hw Hx Hy. assert (Hi : (0 < / w)%R) by (apply Rinv_0_lt_compat, Hw). apply XR_nle in Hx. apply XR_nle in Hy.
  destruct x as [x| | |], y as [y| | |]; try contradiction; rewrite ?(divided_fin w _ Hw), ?(divided_inf w Hw); try tauto.
  - rewrite !nle_fin. split; intros H; [apply (Rmult_le_reg_r (/ w)); assumption|apply Rmult_le_compat_r; lra].
  - split; intros _; apply XR_nle; exact I.
  - split; intros H; apply XR_nle in H; destruct H.
Qed.

Lemma rs_list (xs : list R) : is_series (ts_of_list (N := XR) (map Fin xs)) xs.
Proof. split; [apply ts_of_list_ok|apply ts_of_list_points]. Qed.

Lemma place_dtw k mn mx (rows : list (list R)) (ratio : R) (xs : list R) p : (mn < mx)%R -> 2 <= Rlen xs <= 2 ^ 30 ->
  (forall row, In row rows -> Z.of_nat (length row) <= 2 ^ 30) -> (0 <= ratio <= 1)%R -> long_enough (real_rows rows) p ->
  exists d : D XR, dtw_of k (Fin ratio : D XR) (map Fin xs) (place_values (real_rows rows) p) = Ret d /\
    dtw_of k (Fin ratio : D XR) (map Fin (map (normal mn mx) xs)) (place_values (real_rows (map (map (normal mn mx)) rows)) p) = Ret (divided (mx - mn) d) /\ nle n0 d.
Proof.
  intros Hlt Hx Hrows Hr [Hp Hs]. pose proof Hs as Hs'. apply (is_sub_normal rows (normal mn mx)) in Hs'.
  unfold dtw_of, place_values, real_rows. rewrite (real_sub_values rows _ _ Hs), (real_sub_values _ _ _ Hs'), real_sub_map.
  pose proof (real_sub_len rows (fst p) (snd p) ltac:(lia) Hs) as Ll.
  destruct (place_row (real_rows rows) p Hs) as (row & Hrow & Hlr & _). unfold real_rows in Hrow. apply in_map_iff in Hrow as (row0 & <- & Hrow). rewrite map_length in Hlr.
  specialize (Hrows row0 Hrow).
  apply (dtw_normal k mn mx xs (real_sub rows (fst p) (snd p)) ratio); auto using rs_list; unfold Rlen in *; try lia; try lra.
  rewrite Ll. apply Rle_trans with (IZR (2 ^ 30) * 1)%R; [|rewrite Rmult_1_r; apply IZR_le; reflexivity || (unfold int_max; lia)].
  apply Rmult_le_compat; try lra; [apply (IZR_le 0); lia|apply IZR_le; lia].
Qed.

Lemma le_length {A} (l : list A) i x : nth_error l i = Some x -> (i < length l)%nat.
Proof. intros H. apply nth_error_Some. congruence. Qed.

(** The exhaustive search for a stretch of the data set itself, before and after normalising it: the
    distances at each rank are divided by the same number, and if no two places are at the same
    distance, the same places are found in the same order.  As in C26, no two different distances may
    be closer to each other than 1e-9, before and afterwards. *)
Theorem C67_nearest_exact : forall (r0 : D XR) h (s s' : api XR) e0 e1 e2 t g rows i st en (xs : list R) k K (ratio : R) a,
  run r0 h s -> held s t = Some g -> holds (gt_data g) (real_rows rows) -> varied rows -> (forall row, In row rows -> Z.of_nat (length row) <= 2 ^ 30) ->
  stretch s t i st en (map Fin xs) -> 2 <= Rlen xs <= 2 ^ 30 -> ratio_after r0 h = Fin ratio -> (0 <= ratio <= 1)%R ->
  std_ok (e_alg e1) -> std_ok (e_alg e2) -> 1 <= K -> exec e0 (CNormalize t) s = (s', a) ->
  exists mn mx, a = Ret (APair (Fin mn : D XR) (Fin mx)) /\ (mn < mx)%R /\
    let rows' := map (map (normal mn mx)) rows in
    (no_near_ties (N := XR) (real_rows rows) k (Fin ratio) (map Fin xs) (long_enough (real_rows rows)) ->
     no_near_ties (N := XR) (real_rows rows') k (Fin ratio) (map Fin (map (normal mn mx) xs)) (long_enough (real_rows rows')) ->
     exists best best',
       exec e1 (CBrute K t t i st en (kind_name k)) s = (s, Ret (ACands best)) /\
       exec e2 (CBrute K t t i st en (kind_name k)) s' = (s', Ret (ACands best')) /\
       length best' = length best /\
       (forall j c c', nth_error best j = Some c -> nth_error best' j = Some c' -> c_dist c' = divided (mx - mn) (c_dist c)) /\
       ((forall p p', long_enough (real_rows rows) p -> long_enough (real_rows rows) p' ->
           dtw_of k (Fin ratio : D XR) (map Fin xs) (place_values (real_rows rows) p) = dtw_of k (Fin ratio : D XR) (map Fin xs) (place_values (real_rows rows) p') -> p = p') ->
        map place_of best' = map place_of best)).
Proof.
  intros r0 h s s' e0 e1 e2 t g rows i st en xs k K ratio a Hrun Hh Hd Hv Hrows Hq Hx Hra Hr Hok1 Hok2 HK E.
  destruct (normalise_state r0 h s t g rows e0 s' a Hrun Hh Hd Hv E) as (mn & mx & h' & g' & Ea & Hlt & _ & _ & _ & Hrun' & Er & _ & Hh' & _ & Hd' & _).
  exists mn, mx. split; [exact Ea|]. split; [exact Hlt|]. intros rows' T T'. fold rows' in Hd'.
  pose proof (stretch_normal _ _ _ _ Hh Hd Hh' Hd' Hq) as Hq'.
  assert (Hrows' : forall row, In row rows' -> Z.of_nat (length row) <= 2 ^ 30).
  { intros row Hi. unfold rows' in Hi. apply in_map_iff in Hi as (row0 & <- & Hi). rewrite map_length. apply Hrows, Hi. }
  assert (Q : forall (e : env XR) h s g rows xs, run r0 h s -> held s t = Some g -> holds (gt_data g) (real_rows rows) -> stretch s t i st en (map Fin xs) ->
     2 <= Rlen xs <= 2 ^ 30 -> (forall row, In row rows -> Z.of_nat (length row) <= 2 ^ 30) -> std_ok (e_alg e) -> ratio_after r0 h = Fin ratio ->
     no_near_ties (N := XR) (real_rows rows) k (Fin ratio) (map Fin xs) (long_enough (real_rows rows)) ->
     exists best, exec e (CBrute K t t i st en (kind_name k)) s = (s, Ret (ACands best)) /\
       best_matches (N := XR) (real_rows rows) k (Fin ratio) (map Fin xs) (long_enough (real_rows rows)) K best /\ ascending best).
  { clear - Hr HK. intros e h s g rows xs Hrun Hh Hd Hq Hx Hrows Hok Hra T. pose proof (run_good r0 h s Hrun) as G.
    destruct (stretch_get s t i st en (map Fin xs) G Hq) as (idq & gq & q & Eid & Eg & Eq & Oq & Pq & _).
    destruct (held_find s t g G Hh) as (id & F1 & F2 & F3).
    assert (Fq : find_set s t = Ret gq) by (unfold find_set; rewrite Eid; exact Eg). rewrite F3 in Fq. injection Fq as <-.
    assert (Sq : is_series q xs) by (split; assumption).
    destruct (C26_brute_force_exact_reals (e_alg e) k (gt_data g) rows q xs ratio K Hok Hd Sq Hx Hrows Hr HK T) as (best & B1 & B2 & B3).
    exists best. split; [|auto]. cbn [exec]. unfold pure, query_series. rewrite F1, F3. cbn [bind]. rewrite Eq. cbn [bind].
    rewrite (run_ratio _ _ _ Hrun), Hra. rewrite B1. reflexivity. }
  assert (Hx' : 2 <= Rlen (map (normal mn mx) xs) <= 2 ^ 30) by (rewrite Rlen_map; exact Hx).
  destruct (Q e1 h s g rows xs Hrun Hh Hd Hq Hx Hrows Hok1 Hra T) as (best & X1 & B & A).
  destruct (Q e2 h' s' g' rows' _ Hrun' Hh' Hd' Hq' Hx' Hrows' Hok2 (eq_trans Er Hra) T') as (best' & X2 & B' & A').
  exists best, best'. split; [exact X1|]. split; [exact X2|]. clear Q X1 X2.
  set (P := long_enough (real_rows rows)) in *. set (P' := long_enough (real_rows rows')) in *.
  assert (HP : forall p, P' p <-> P p) by (intros p; pose proof (is_sub_normal rows (normal mn mx) (fst p) (snd p)) as X; unfold P, P', long_enough, rows', real_rows; tauto).
  set (F := fun p => match dtw_of k (Fin ratio : D XR) (map Fin xs) (place_values (real_rows rows) p) with Ret v => v | _ => n0 end : D XR).
  assert (HF : forall p, P p -> dtw_of k (Fin ratio : D XR) (map Fin xs) (place_values (real_rows rows) p) = Ret (F p) /\
     dtw_of k (Fin ratio : D XR) (map Fin (map (normal mn mx) xs)) (place_values (real_rows rows') p) = Ret (divided (mx - mn) (F p)) /\ nle n0 (F p)).
  { intros p Hp. destruct (place_dtw k mn mx rows ratio xs p Hlt Hx Hrows Hr Hp) as (d & E1 & E2 & E3). unfold F. rewrite E1. auto. }
  destruct B as (B1 & B2 & B3 & B4). destruct B' as (B1' & B2' & B3' & B4').
  assert (V : forall c, In c best -> P (place_of c) /\ c_dist c = F (place_of c)).
  { intros c Hc. destruct (B1 c Hc) as [X Y]. split; [exact X|]. apply match_value in Y. rewrite (proj1 (HF _ X)) in Y. injection Y as ->. reflexivity. }
  assert (V' : forall c, In c best' -> P (place_of c) /\ c_dist c = divided (mx - mn) (F (place_of c))).
  { intros c Hc. destruct (B1' c Hc) as [X Y]. apply HP in X. split; [exact X|]. apply match_value in Y. rewrite (proj1 (proj2 (HF _ X))) in Y. injection Y as ->. reflexivity. }
  assert (Hw : (0 < mx - mn)%R) by lra.
  assert (LO : least_of F P K (map place_of best)).
  { split; [|split; [exact B2|split; [|split]]].
    - intros p Hp. apply in_map_iff in Hp as (c & <- & Hc). apply V, Hc.
    - rewrite map_length. exact B3.
    - intros p q Hp Hn Hq0. apply in_map_iff in Hq0 as (c & <- & Hc). rewrite <- (proj2 (V c Hc)). apply (B4 p); auto. apply HF, Hp.
    - intros j1 j2 p q Hj E1 E2. rewrite nth_error_map in E1, E2. destruct (nth_error best j1) as [c1|] eqn:F1; [|discriminate]. destruct (nth_error best j2) as [c2|] eqn:F2; [|discriminate].
      injection E1 as <-. injection E2 as <-. rewrite <- (proj2 (V c1 (nth_error_In _ _ F1))), <- (proj2 (V c2 (nth_error_In _ _ F2))). apply (A j1 j2); auto. }
  assert (LO' : least_of F P K (map place_of best')).
  { split; [|split; [exact B2'|split; [|split]]].
    - intros p Hp. apply in_map_iff in Hp as (c & <- & Hc). apply V', Hc.
    - rewrite map_length. destruct B3' as [B3'|[B3' A3']]; [left; exact B3'|right; split; [exact B3'|]]. intros p Hp. apply A3', HP, Hp.
    - intros p q Hp Hn Hq0. apply in_map_iff in Hq0 as (c & <- & Hc). apply (divided_le (mx - mn) (F (place_of c)) (F p) Hw); [apply HF, V', Hc|apply HF, Hp|].
      rewrite <- (proj2 (V' c Hc)). apply (B4' p); auto; [apply HP, Hp|]. apply HF, Hp.
    - intros j1 j2 p q Hj E1 E2. rewrite nth_error_map in E1, E2. destruct (nth_error best' j1) as [c1|] eqn:F1; [|discriminate]. destruct (nth_error best' j2) as [c2|] eqn:F2; [|discriminate].
      injection E1 as <-. injection E2 as <-. pose proof (V' c1 (nth_error_In _ _ F1)) as [W1 W2]. pose proof (V' c2 (nth_error_In _ _ F2)) as [W3 W4].
      apply (divided_le (mx - mn) _ _ Hw); [apply HF, W1|apply HF, W3|]. rewrite <- W2, <- W4. apply (A' j1 j2); auto. }
  assert (Hnn : forall p, P p -> nn (F p)) by (intros p Hp; apply (nle_nn_r _ _ (proj2 (proj2 (HF p Hp))))).
  assert (Hrank : forall j c c', nth_error best j = Some c -> nth_error best' j = Some c' -> F (place_of c') = F (place_of c)).
  { intros j c c' E1 E2. assert (G1 : nth_error (map place_of best) j = Some (place_of c)) by (rewrite nth_error_map, E1; reflexivity).
    assert (G2 : nth_error (map place_of best') j = Some (place_of c')) by (rewrite nth_error_map, E2; reflexivity).
    pose proof (least_rank F P K _ _ Hnn LO LO' j _ _ G1 G2) as R1. pose proof (least_rank F P K _ _ Hnn LO' LO j _ _ G2 G1) as R2.
    pose proof (proj2 (proj2 (HF _ (proj1 (V c (nth_error_In _ _ E1)))))) as Z1. pose proof (proj2 (proj2 (HF _ (proj1 (V' c' (nth_error_In _ _ E2)))))) as Z2.
    apply XR_nle in R1. apply XR_nle in R2. apply XR_nle in Z1. apply XR_nle in Z2.
    destruct (F (place_of c)) as [x| | |], (F (place_of c')) as [y| | |]; try contradiction; [|reflexivity]. cbn in *. f_equal. apply Rle_antisym; assumption. }
  assert (Hlen : length best' = length best) by (pose proof (least_length F P K _ _ LO' LO) as X; rewrite !map_length in X; exact X).
  split; [exact Hlen|]. split.
  - intros j c c' E1 E2. rewrite (proj2 (V c (nth_error_In _ _ E1))), (proj2 (V' c' (nth_error_In _ _ E2))). f_equal. apply (Hrank j); assumption.
  - intros Huniq. assert (Hall : forall j, nth_error (map place_of best') j = nth_error (map place_of best) j).
    { intros j. rewrite !nth_error_map. destruct (nth_error best j) as [c|] eqn:E1.
      - destruct (nth_error best' j) as [c'|] eqn:E2; [|apply nth_error_None in E2; apply le_length in E1; lia]. cbn. f_equal.
        pose proof (proj1 (V c (nth_error_In _ _ E1))) as W1. pose proof (proj1 (V' c' (nth_error_In _ _ E2))) as W2.
        apply Huniq; auto. rewrite (proj1 (HF _ W1)), (proj1 (HF _ W2)). f_equal. apply (Hrank j); assumption.
      - apply nth_error_None in E1. destruct (nth_error best' j) eqn:E2; [apply le_length in E2; lia|]. reflexivity. }
    clear - Hall. revert Hall. generalize (map place_of best') (map place_of best). induction l as [|x l IH]; intros [|y l'] Y; auto; [discriminate (Y 0%nat)|discriminate (Y 0%nat)|].
    pose proof (Y 0%nat) as Y0. injection Y0 as ->. f_equal. apply IH. intros j. exact (Y (S j)).
Qed.
Print Assumptions C67_nearest_exact.

(** ** doubles: both consequences fail *)
Definition third_env : env B64 :=
  mkEnv (N := B64) stodZ putZ putZ (fun _ => None)
    (fun p => if String.eqb p "f" then Some (mkFile ("0,3" ++ nl1 ++ "2,2" ++ nl1 ++ "3,3") None)%string else None)
    (fun _ => true) (fun _ => None) (fun _ => false) simple_alg.
Definition count_pair (r r' : res (answer B64)) : option (Z * Z) :=
  match r, r' with Ret (AInt n), Ret (AInt m) => Some (n, m) | _, _ => None end.
Definition third_call (k : kind) (t : b64) : call B64 := CGroup (N := B64) "x" t (kind_name k) 1 true.
Definition third_t : b64 := ndiv (n := B64) (b64_ofZ 2) (nsub (n := B64) (b64_ofZ 3) (b64_ofZ 0)).
Lemma count_pair_inv r r' n m : count_pair r r' = Some (n, m) -> r = Ret (AInt n) /\ r' = Ret (AInt m).
Proof. destruct r as [[]| | |]; try discriminate. destruct r' as [[]| | |]; try discriminate. cbn. intros H. injection H as -> ->. auto. Qed.

(** Three series 0 3, 2 2 and 3 3: with threshold 2 there are two groups.  After normalising and with
    the threshold 2 / (3 - 0) there are three: 1 - 2/3 is rounded up, 2/3/2 is not. *)
Theorem C67_groups_ieee_refuted : forall k, exists e h (s : api B64), run (N := B64) (b64_ofZ 1) h s /\ map fst h = [st_load] /\
  snd (exec e (CGroup (N := B64) "x" (b64_ofZ 2) (kind_name k) 1 true) s) = Ret (AInt 2) /\
  snd (exec e (CGroup (N := B64) "x" third_t (kind_name k) 1 true) (st_after e [CGroup (N := B64) "x" (b64_ofZ 2) (kind_name k) 1 true; CNormalize "x"] s)) = Ret (AInt 3).
Proof.
  intros k. destruct (st_run third_env [st_load] [] ex_start (@run_start B64 (b64_ofZ 1))) as (h & Hrun & Hh); [vm_compute; reflexivity|].
  exists third_env, h, (st_after third_env [st_load] ex_start). split; [exact Hrun|]. split; [exact Hh|]. apply count_pair_inv. destruct k; vm_compute; reflexivity.
Qed.
Print Assumptions C67_groups_ieee_refuted.

Definition wide_env : env B64 :=
  mkEnv (N := B64) stodZ putZ putZ (fun _ => None)
    (fun p => if String.eqb p "f" then Some (mkFile ("0,2" ++ nl1 ++ "0,1" ++ nl1 ++ "0,1000000000000") None)%string else None)
    (fun _ => true) (fun _ => None) (fun _ => false) simple_alg.
Definition cands_seen (r : res (answer B64)) : option (list (place * SpecFloat.spec_float)) :=
  match r with Ret (ACands l) => Some (map (fun c => (place_of c, PropsNorm.sf (c_dist c))) l) | _ => None end.
Definition wide_query (k : kind) : call B64 := CBrute (N := B64) 1 "x" "x" 1 0 2 (kind_name k).
Definition wide_step (k : kind) : Z := match k with KChebyshev => -92 | _ => -94 end.
Lemma cands_seen_inv r p v : cands_seen r = Some [(p, v)] -> exists c : cand B64, r = Ret (ACands [c]) /\ place_of c = p /\ PropsNorm.sf (c_dist c) = v.
Proof. destruct r as [[| | | | | | | | |l| | | |]| | |]; try discriminate. destruct l as [|c [|]]; try discriminate. cbn. intros H. injection H as <- <-. eauto. Qed.

(** Three series 0 2, 0 1 and 0 10^12.  The exhaustive search for the second finds itself at distance 0;
    after normalising it finds the first at a distance above 0, because distances closer than 1e-9 to
    each other count as equal. *)
Theorem C67_nearest_refuted : forall k, exists e h (s : api B64) (c c' : cand B64), run (N := B64) (b64_ofZ 1) h s /\ map fst h = [st_load] /\
  snd (exec e (wide_query k) s) = Ret (ACands [c]) /\ snd (exec e (wide_query k) (st_after e [CNormalize "x"] s)) = Ret (ACands [c']) /\
  place_of c = (2, (1, 0)) /\ c_dist c = @n0 B64 /\ place_of c' = (2, (0, 0)) /\ @nlt B64 n0 (c_dist c').
Proof.
  intros k. destruct (st_run wide_env [st_load] [] ex_start (@run_start B64 (b64_ofZ 1))) as (h & Hrun & Hh); [vm_compute; reflexivity|].
  set (s := st_after wide_env [st_load] ex_start) in *.
  assert (E1 : cands_seen (snd (exec wide_env (wide_query k) s)) = Some [((2, (1, 0)), SpecFloat.S754_zero false)]) by (destruct k; vm_compute; reflexivity).
  assert (E2 : cands_seen (snd (exec wide_env (wide_query k) (st_after wide_env [CNormalize "x"] s))) = Some [((2, (0, 0)), SpecFloat.S754_finite false 4951760157141521 (wide_step k))])
    by (destruct k; vm_compute; reflexivity).
  apply cands_seen_inv in E1 as (c & C1 & C2 & C3). apply cands_seen_inv in E2 as (c' & C1' & C2' & C3').
  exists wide_env, h, s, c, c'. split; [exact Hrun|]. split; [exact Hh|]. split; [exact C1|]. split; [exact C1'|]. split; [exact C2|]. split.
  - apply (B2SF_inj prec64 emax64). refine (eq_trans C3 _). vm_compute. reflexivity.
  - split; [exact C2'|]. change (SpecFloat.SFltb (PropsNorm.sf n0) (PropsNorm.sf (c_dist c')) = true). rewrite C3'. destruct k; reflexivity.
Qed.
Print Assumptions C67_nearest_refuted.

(** ** example: two series 0 0 and 1 3 read from a file, the query is the first *)
Lemma two_varied : varied two_rows.
Proof. exists 0%R, 3%R. cbn. split; [auto|]. split; [auto 6|lra]. Qed.

Example C67_example : exists h g s', run (N := XR) (Fin 1) h real_state /\ ratio_after (N := XR) (Fin 1) h = Fin 1 /\ held real_state "x" = Some g /\ holds (gt_data g) (real_rows two_rows) /\ varied two_rows /\
  1 <= ds_maxcol (gt_data g) <= 2 ^ 30 /\ log_safe (gt_data g) (e_clock real_env) /\ (forall row, In row two_rows -> Z.of_nat (length row) <= 2 ^ 30) /\
  stretch real_state "x" 0 (-1) (-1) (map Fin [0; 0]%R) /\ stretch real_state "x" 1 0 2 (map Fin [1; 3]%R) /\
  exec real_env (CNormalize "x") real_state = (s', Ret (APair (Fin 0 : D XR) (Fin 3))) /\
  no_near_ties (N := XR) (real_rows two_rows) KChebyshev (Fin 1) (map Fin [0; 0]%R) (long_enough (real_rows two_rows)) /\
  no_near_ties (N := XR) (real_rows (map (map (normal 0 3)) two_rows)) KChebyshev (Fin 1) (map Fin (map (normal 0 3) [0; 0]%R)) (long_enough (real_rows (map (map (normal 0 3)) two_rows))).
Proof.
  destruct C66_exact_example as (h & g & Hrun & Hg & Hd & Hl & S1 & S2 & _ & _ & _ & _ & _ & T).
  destruct C65_regrouping_example as (_ & (g1 & Hg1 & _ & Hm & Hlog) & _). rewrite Hg in Hg1. injection Hg1 as <-.
  destruct (exec real_env (CNormalize "x") real_state) as [s' a] eqn:E.
  destruct (normalise_state (Fin 1) h real_state "x" g two_rows real_env s' a Hrun Hg Hd two_varied E) as (mn & mx & h' & g' & Ea & Hlt & I1 & I2 & Hb & _).
  assert (mn = 0 /\ mx = 3)%R as [-> ->].
  { pose proof (Hb 0%R ltac:(cbn; auto)). pose proof (Hb 3%R ltac:(cbn; auto 6)). cbn in I1, I2. split; lra. }
  exists h, g, s'. split; [exact Hrun|]. split; [rewrite <- (run_ratio _ _ _ Hrun); reflexivity|]. split; [exact Hg|]. split; [exact Hd|]. split; [exact two_varied|].
  split; [exact Hm|]. split; [exact Hlog|]. split; [exact Hl|]. split; [exact S1|]. split; [exact S2|]. split; [rewrite Ea; reflexivity|]. split; [exact T|].
  intros p p' v v' Hp Hp' Ev Ev'.
  assert (G : forall p v, long_enough (real_rows (map (map (normal 0 3)) two_rows)) p ->
    dtw_of KChebyshev (Fin 1 : D XR) (map Fin (map (normal 0 3) [0; 0]%R)) (place_values (real_rows (map (map (normal 0 3)) two_rows)) p) = Ret v ->
    exists x, v = Fin (x / 3) /\ (p = (2, (0, 0)) /\ x = 0%R \/ p = (2, (1, 0)) /\ (3 <= x)%R)).
  { clear - Hl. intros p v Hp E. assert (Hp0 : long_enough (real_rows two_rows) p).
    { destruct Hp as [A B]. split; [exact A|]. apply (is_sub_normal two_rows (normal 0 3)), B. }
    destruct (place_dtw KChebyshev 0 3 two_rows 1 [0; 0]%R p ltac:(lra) ltac:(cbn; lia) Hl ltac:(lra) Hp0) as (d & E1 & E2 & _).
    destruct (two_dist 1 p d ltac:(lra) Hp0 E1) as (x & -> & Hx). exists x. split; [|exact Hx].
    assert (X : v = divided (3 - 0) (Fin x)) by (apply ret_inj; exact (eq_trans (eq_sym E) E2)). rewrite X, divided_fin by lra. do 2 f_equal. lra. }
  destruct (G p v Hp Ev) as (x & -> & Hx). destruct (G p' v' Hp' Ev') as (x' & -> & Hx').
  assert (Far : forall y z : R, y = 0%R -> (3 <= z)%R -> nltb (n := XR) (nabs (nsub (Fin (y / 3) : D XR) (Fin (z / 3)))) neps = false /\ nltb (n := XR) (nabs (nsub (Fin (z / 3) : D XR) (Fin (y / 3)))) neps = false).
  { intros y z -> Hz. cbn. split.
    - destruct (Rlt_bool_spec (Rabs (0 / 3 - z / 3)) (1 / 1000000000)) as [H|H]; [|reflexivity]. rewrite Rabs_left in H; lra.
    - destruct (Rlt_bool_spec (Rabs (z / 3 - 0 / 3)) (1 / 1000000000)) as [H|H]; [|reflexivity]. rewrite Rabs_right in H; lra. }
  destruct Hx as [[-> ->]|[-> Hx]], Hx' as [[-> ->]|[-> Hx']].
  - left. split; apply XR_nle; cbn; lra.
  - right. apply (Far 0%R x' eq_refl Hx').
  - right. apply (Far 0%R x eq_refl Hx).
  - left. assert (X : Fin (x / 3) = Fin (x' / 3)) by (apply ret_inj; exact (eq_trans (eq_sym Ev) Ev')). rewrite X. split; apply XR_nle; cbn; lra.
Qed.
