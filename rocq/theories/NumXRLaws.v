(** Laws of rounded extended-real arithmetic for any monotone rounding, and
    the law instance for exact arithmetic. *)
From Coq Require Import Reals Lra.
From Flocq Require Import Core.Raux.
From Verif Require Import Base Num NumLaws NumXR.
Local Open Scope R_scope.

(** order on extended reals, in plain terms *)
Definition xleP (x y : xr) : Prop :=
  match x, y with
  | XNaN, _ | _, XNaN => False
  | NInf, _ | _, PInf => True
  | Fin a, Fin b => a <= b
  | _, _ => False
  end.

Definition xnn (x : xr) : Prop := x <> XNaN.

Lemma Req_bool_refl a : Req_bool a a = true.
Proof. apply Req_bool_true; reflexivity. Qed.

Lemma Rabs_sqr_eq a : Rabs a * Rabs a = a * a.
Proof. symmetry; apply (Rsqr_abs a). Qed.

Section Gen.
Variable rnd : R -> xr.
Variable fmt : R -> Prop.
Definition xfmt (x : xr) : Prop := match x with Fin r => fmt r | _ => True end.
Hypothesis rnd_mono : forall r s, r <= s -> xleP (rnd r) (rnd s).
Hypothesis rnd_fmt : forall r, fmt r -> rnd r = Fin r.
Hypothesis rnd_xfmt : forall r, xfmt (rnd r).
Hypothesis rnd_opp : forall r, rnd (- r) = xopp (rnd r).
Hypothesis fmt_Z : forall k, (Z.abs k <= 2 ^ 53)%Z -> fmt (IZR k).

Notation N := (XRN rnd).

Lemma nn_xnn (x : xr) : @nn N x <-> xnn x.
Proof.
  unfold nn, xnn; simpl; destruct x; simpl; try (split; congruence).
  rewrite Req_bool_refl; split; congruence.
Qed.

Lemma nle_xleP (x y : xr) : @nle N x y <-> xleP x y.
Proof.
  unfold nle; rewrite !nn_xnn; unfold xnn; simpl.
  destruct x, y; simpl; split; intros H; try tauto; try (destruct H as (?&?&?); congruence);
    try (repeat split; congruence).
  - destruct H as (_ & _ & H). destruct (Rlt_bool_spec r0 r); [discriminate|assumption].
  - repeat split; try congruence. apply Rlt_bool_false; assumption.
Qed.

Lemma nlt_fin a b : @nlt N (Fin a) (Fin b) <-> a < b.
Proof.
  unfold nlt; simpl; destruct (Rlt_bool_spec a b); split; intros; try congruence; lra.
Qed.

Lemma rnd_nn r : rnd r <> XNaN.
Proof. intros E. pose proof (rnd_mono r r (Rle_refl _)) as H. rewrite E in H. exact H. Qed.

Lemma fmt_0 : fmt 0.
Proof. apply (fmt_Z 0). simpl. lia. Qed.

Lemma rnd_0 : rnd 0 = Fin 0.
Proof. apply rnd_fmt, fmt_0. Qed.

Lemma rnd_ge0 r : 0 <= r -> xleP (Fin 0) (rnd r).
Proof. intros H. rewrite <- rnd_0. apply rnd_mono; assumption. Qed.

Lemma rnd_ge r s : fmt r -> r <= s -> xleP (Fin r) (rnd s).
Proof. intros F H. rewrite <- (rnd_fmt r F). apply rnd_mono; assumption. Qed.

Lemma rnd_le r s : fmt s -> r <= s -> xleP (rnd r) (Fin s).
Proof. intros F H. rewrite <- (rnd_fmt s F). apply rnd_mono; assumption. Qed.

Lemma xleP_refl x : xnn x -> xleP x x.
Proof. unfold xnn; destruct x; simpl; intros; try lra; auto; congruence. Qed.

Lemma xleP_trans x y z : xleP x y -> xleP y z -> xleP x z.
Proof. destruct x, y, z; simpl; intros; try tauto; lra. Qed.

Lemma x0 : @n0 N = Fin 0.
Proof. unfold n0; simpl; unfold xofZ. apply rnd_0. Qed.

Lemma xnn_rnd_le r s : r <= s -> xleP (rnd r) (rnd s).
Proof. apply rnd_mono. Qed.

Ltac mono := apply rnd_mono.

Lemma g_irrefl x : xltb x x = false.
Proof. destruct x; simpl; auto. apply Rlt_bool_false; lra. Qed.

Lemma g_trans x y z : xltb x y = true -> xltb y z = true -> xltb x z = true.
Proof.
  destruct x, y, z; simpl; intros H1 H2; try congruence.
  destruct (Rlt_bool_spec r r0); [|discriminate].
  destruct (Rlt_bool_spec r0 r1); [|discriminate].
  apply Rlt_bool_true; lra.
Qed.

Lemma g_lt_nn x y : xltb x y = true -> @nn N x /\ @nn N y.
Proof. rewrite !nn_xnn; unfold xnn; destruct x, y; simpl; intros; split; congruence. Qed.

Lemma g_cotrans x y z : @nn N x -> @nn N y -> @nn N z -> xltb x z = true ->
  xltb x y = true \/ xltb y z = true.
Proof.
  rewrite !nn_xnn; unfold xnn; destruct x, y, z; simpl; intros; try congruence; auto.
  destruct (Rlt_bool_spec r r1); [|discriminate].
  destruct (Rlt_bool_spec r r0); auto. right. apply Rlt_bool_true; lra.
Qed.

Lemma g_eqb x y : xeqb x y = true <->
  @nn N x /\ @nn N y /\ xltb x y = false /\ xltb y x = false.
Proof.
  rewrite !nn_xnn; unfold xnn; destruct x, y; simpl; split; intros H;
    try congruence; try (destruct H as (?&?&?&?); congruence);
    try (repeat split; congruence).
  - destruct (Req_bool_spec r r0); [|discriminate]. subst.
    repeat split; try congruence; apply Rlt_bool_false; lra.
  - destruct H as (_&_&H1&H2).
    destruct (Rlt_bool_spec r r0); [discriminate|].
    destruct (Rlt_bool_spec r0 r); [discriminate|].
    apply Req_bool_true; lra.
Qed.

Lemma g_ofZ_le k k' : (k <= k')%Z -> xleP (xofZ rnd k) (xofZ rnd k').
Proof. intros H; apply rnd_mono, IZR_le, H. Qed.

Lemma g_ofZ_fin k : (Z.abs k <= 2 ^ 53)%Z -> xofZ rnd k = Fin (IZR k).
Proof. intros H; apply rnd_fmt, fmt_Z, H. Qed.

Lemma g_floor_ofZ k : (Z.abs k <= 2 ^ 53)%Z -> xfloor (xofZ rnd k) = Some k.
Proof. intros H; rewrite g_ofZ_fin by assumption; simpl; f_equal; apply Zfloor_IZR. Qed.

Lemma g_floor_mono x y k k' : xleP x y -> xfloor x = Some k -> xfloor y = Some k' -> (k <= k')%Z.
Proof.
  destruct x, y; simpl; intros H E E'; try discriminate.
  injection E as <-. injection E' as <-. apply Zfloor_le, H.
Qed.

Lemma g_sub_nn a b : xnn (xsub rnd (Fin a) (Fin b)).
Proof. simpl; apply rnd_nn. Qed.

Lemma g_sub_mono a a' b b' : a <= a' -> b' <= b ->
  xleP (xsub rnd (Fin a) (Fin b)) (xsub rnd (Fin a') (Fin b')).
Proof. intros; simpl; mono; lra. Qed.

Lemma g_sub_self a : xsub rnd (Fin a) (Fin a) = Fin 0.
Proof. simpl. replace (a - a) with 0 by lra. apply rnd_0. Qed.

Lemma g_sub_opp a b : xabs (xsub rnd (Fin a) (Fin b)) = xabs (xsub rnd (Fin b) (Fin a)).
Proof.
  simpl. replace (b - a) with (- (a - b)) by lra. rewrite rnd_opp.
  destruct (rnd (a - b)); simpl; auto. rewrite Rabs_Ropp; reflexivity.
Qed.

Lemma g_sub_0 a : fmt a -> xsub rnd (Fin a) (Fin 0) = Fin a.
Proof. intros; simpl. rewrite Rminus_0_r. apply rnd_fmt; assumption. Qed.

Lemma g_abs_nn x : xnn x -> xleP (Fin 0) (xabs x).
Proof. unfold xnn; destruct x; simpl; intros; auto. apply Rabs_pos. Qed.

Lemma g_abs_pos x : xleP (Fin 0) x -> xabs x = x.
Proof. destruct x; simpl; intros; try tauto. rewrite Rabs_pos_eq; auto. Qed.

Lemma g_abs_neg_mono x y : xleP x y -> xleP y (Fin 0) -> xleP (xabs y) (xabs x).
Proof.
  destruct x, y; simpl; intros; try tauto.
  rewrite !Rabs_left1 by lra. lra.
Qed.

Lemma xsgn_pos a b : 0 < a -> xsgn_inf a b = if b then PInf else NInf.
Proof.
  intros H; unfold xsgn_inf. rewrite Req_bool_false by lra. rewrite Rlt_bool_true by lra.
  reflexivity.
Qed.

Lemma g_sq_mono x y : xnn x -> xnn y -> xleP (xabs x) (xabs y) ->
  xleP (xmul rnd x x) (xmul rnd y y).
Proof.
  unfold xnn; destruct x as [a| | |], y as [b| | |]; simpl; intros Hx Hy H; try tauto.
  - mono. rewrite <- (Rabs_sqr_eq a), <- (Rabs_sqr_eq b).
    apply Rmult_le_compat; auto using Rabs_pos.
  - pose proof (rnd_nn (a * a)). destruct (rnd (a * a)); auto; congruence.
  - pose proof (rnd_nn (a * a)). destruct (rnd (a * a)); auto; congruence.
Qed.

Lemma g_sq_pos x : xnn x -> xleP (Fin 0) (xmul rnd x x).
Proof.
  unfold xnn; destruct x as [a| | |]; simpl; intros Hx; try tauto.
  apply rnd_ge0. nra.
Qed.

Lemma g_mul_abs x y : xabs x = xabs y -> xmul rnd x x = xmul rnd y y.
Proof.
  destruct x as [a| | |], y as [b| | |]; simpl; intros H; try congruence.
  injection H as H. f_equal. rewrite <- (Rabs_sqr_eq a), <- (Rabs_sqr_eq b), H. reflexivity.
Qed.

Lemma g_mul_mono a a' b : 0 <= a -> a <= a' -> 0 <= b ->
  xleP (xmul rnd (Fin a) (Fin b)) (xmul rnd (Fin a') (Fin b)).
Proof. intros; simpl; mono; nra. Qed.

Lemma g_mul_mono_r a b b' : 0 <= a -> 0 <= b -> b <= b' ->
  xleP (xmul rnd (Fin a) (Fin b)) (xmul rnd (Fin a) (Fin b')).
Proof. intros; simpl; mono; nra. Qed.

Lemma g_mul_1 a : fmt a -> xmul rnd (Fin a) (Fin 1) = Fin a.
Proof. intros; simpl. rewrite Rmult_1_r. apply rnd_fmt; assumption. Qed.

Lemma g_add_mono x x' y y' : xleP (Fin 0) x -> xleP x x' -> xleP (Fin 0) y -> xleP y y' ->
  xleP (xadd rnd x y) (xadd rnd x' y').
Proof.
  destruct x as [a| | |], x' as [a'| | |], y as [b| | |], y' as [b'| | |]; simpl;
    intros; try tauto; try (mono; lra);
  pose proof (rnd_nn (a + b)); destruct (rnd (a + b)); auto; congruence.
Qed.

Lemma g_add_l x y : xfmt x -> xleP (Fin 0) x -> xleP (Fin 0) y -> xleP x (xadd rnd x y).
Proof.
  destruct x as [a| | |], y as [b| | |]; simpl; intros; try tauto.
  apply rnd_ge; auto; lra.
Qed.

Lemma g_add_r x y : xfmt y -> xleP (Fin 0) x -> xleP (Fin 0) y -> xleP y (xadd rnd x y).
Proof.
  destruct x as [a| | |], y as [b| | |]; simpl; intros; try tauto.
  apply rnd_ge; auto; lra.
Qed.

Lemma g_add_0 x : xfmt x -> xleP (Fin 0) x -> xadd rnd x (Fin 0) = x.
Proof.
  destruct x as [a| | |]; simpl; intros; try tauto.
  rewrite Rplus_0_r; apply rnd_fmt; auto.
Qed.

Lemma g_sqrt_mono x y : xleP (Fin 0) x -> xleP x y -> xleP (xsqrt rnd x) (xsqrt rnd y).
Proof.
  destruct x as [a| | |], y as [b| | |]; simpl; intros; try tauto.
  - rewrite !Rlt_bool_false by lra. mono. apply sqrt_le_1_alt; assumption.
  - rewrite Rlt_bool_false by lra. pose proof (rnd_nn (sqrt a)). destruct (rnd (sqrt a)); auto; congruence.
Qed.

Lemma g_sqrt_0 : xsqrt rnd (Fin 0) = Fin 0.
Proof. simpl. rewrite Rlt_bool_false by lra. rewrite sqrt_0. apply rnd_0. Qed.

Lemma g_quo_mono x y c : 0 < c -> xleP (Fin 0) x -> xleP x y ->
  xleP (xdiv rnd x (Fin c)) (xdiv rnd y (Fin c)).
Proof.
  intros Hc; destruct x as [a| | |], y as [b| | |]; simpl; intros; try tauto;
    rewrite ?(Req_bool_false c 0) by lra; rewrite ?(Rlt_bool_false c 0) by lra; simpl; auto.
  - mono. apply Rmult_le_compat_r; auto. left; apply Rinv_0_lt_compat; assumption.
  - pose proof (rnd_nn (a / c)). destruct (rnd (a / c)); auto; congruence.
Qed.

Lemma g_quo_0 c : 0 < c -> xdiv rnd (Fin 0) (Fin c) = Fin 0.
Proof.
  intros; simpl. rewrite Req_bool_false by lra. unfold Rdiv; rewrite Rmult_0_l. apply rnd_0.
Qed.

Lemma fmt_1 : fmt 1.
Proof. apply (fmt_Z 1). simpl. lia. Qed.

Lemma g_quo_self c : 0 < c -> xdiv rnd (Fin c) (Fin c) = Fin 1.
Proof.
  intros; simpl. rewrite Req_bool_false by lra. unfold Rdiv; rewrite Rinv_r by lra.
  apply rnd_fmt, fmt_1.
Qed.

Lemma g_quo_1 a : fmt a -> xdiv rnd (Fin a) (Fin 1) = Fin a.
Proof.
  intros; simpl. rewrite Req_bool_false by lra. unfold Rdiv; rewrite Rinv_1, Rmult_1_r.
  apply rnd_fmt; assumption.
Qed.

End Gen.

(** Exact arithmetic satisfies the laws. *)
Definition xfin (x : xr) : Prop := exists r, x = Fin r.

Lemma XR_nle x y : @nle XR x y <-> xleP x y.
Proof. apply nle_xleP. Qed.
Lemma XR_nn x : @nn XR x <-> xnn x.
Proof. apply nn_xnn. Qed.

Lemma XR_eqv_refl x : xnn x -> @neqv XR x x.
Proof. intros; split; apply XR_nle, xleP_refl; assumption. Qed.

Lemma XR_eqv_eq x y : xnn x -> x = y -> @neqv XR x y.
Proof. intros H <-. apply XR_eqv_refl, H. Qed.

Definition exfmt (r : R) : Prop := True.

Lemma ex_mono r s : r <= s -> xleP (Fin r) (Fin s). Proof. auto. Qed.
Lemma ex_fmt r : exfmt r -> Fin r = Fin r. Proof. auto. Qed.
Lemma ex_xfmt r : xfmt exfmt (Fin r). Proof. exact I. Qed.
Lemma ex_opp r : Fin (- r) = xopp (Fin r). Proof. auto. Qed.
Lemma ex_Z k : (Z.abs k <= 2 ^ 53)%Z -> exfmt (IZR k). Proof. exact (fun _ => I). Qed.

Lemma xfmt_ex x : xfmt exfmt x.
Proof. destruct x; exact I. Qed.

#[local] Ltac toX := rewrite ?XR_nle, ?XR_nn in *; change (@n0 XR) with (Fin 0) in *.

Lemma XR_fin x : @nfin XR x <-> xfin x.
Proof.
  unfold nfin, xfin; destruct x; simpl; split; intros H; try destruct H; try congruence; eauto.
Qed.

#[global] Instance XR_laws : NumLaws XR.
Proof.
  assert (fin_inv : forall x : xr, @nfin XR x -> xfin x) by (intros; apply XR_fin; assumption).
  assert (fin_intro : forall r, @nfin XR (Fin r)) by (intros; split; reflexivity).
  refine (mkLaws XR _ _ _ _ _ _ _ _ _ _ _ _ _ _ _ _ _ _ _ _ _ _ _ _ _ _ _ _ _ _ _ _ _ _ _ _ _ _ _ _ _ _ _).
  - exact (g_irrefl).
  - exact (g_trans).
  - exact (g_lt_nn Fin).
  - exact (g_cotrans Fin).
  - exact (g_eqb Fin).
  - toX; unfold xnn; simpl; congruence.
  - intros []; reflexivity.
  - toX; unfold xnn; simpl; congruence.
  - intros []; reflexivity.
  - intros k _. apply fin_intro.
  - intros k k' H. toX. simpl. apply IZR_le, H.
  - intros k k' H _ _. unfold nlt; simpl. apply Rlt_bool_true, IZR_lt, H.
  - intros k H. apply (g_floor_ofZ Fin exfmt ex_fmt ex_Z k H).
  - intros x [r ->]%fin_inv. eexists; reflexivity.
  - intros [r| | |] k; simpl; intros; try discriminate. apply fin_intro.
  - intros x y k k' H. toX. apply g_floor_mono, H.
  - intros x y [a ->]%fin_inv [b ->]%fin_inv. toX. unfold xnn; simpl; congruence.
  - intros x x' y y' [a ->]%fin_inv [a' ->]%fin_inv [b ->]%fin_inv [b' ->]%fin_inv H1 H2. toX. simpl in *; lra.
  - intros x [a ->]%fin_inv. apply XR_eqv_eq; simpl; [unfold xnn; congruence|].
    unfold n0; simpl; unfold xofZ; f_equal; lra.
  - intros x y [a ->]%fin_inv [b ->]%fin_inv. apply (g_sub_opp Fin ex_opp).
  - intros x [a ->]%fin_inv. apply XR_eqv_eq; simpl; [unfold xnn; congruence|]. f_equal; lra.
  - intros x H. toX. apply g_abs_nn, H.
  - intros x [a ->]%fin_inv. apply fin_intro.
  - intros x H. toX. apply XR_eqv_eq; [destruct x; simpl; unfold xnn; simpl in *; try tauto; congruence|].
    apply g_abs_pos, H.
  - intros x y H1 H2. toX. apply g_abs_neg_mono; assumption.
  - intros x y Hx Hy H. toX. apply (g_sq_mono Fin ex_mono); assumption.
  - intros x Hx. toX. apply (g_sq_pos Fin exfmt ex_mono ex_fmt ex_Z); assumption.
  - exact (g_mul_abs Fin).
  - intros x x' y [a' ->]%fin_inv [b ->]%fin_inv H1 H2 H3. toX. destruct x as [a| | |]; try (simpl in *; tauto).
    apply (g_mul_mono Fin ex_mono); assumption.
  - intros x [a ->]%fin_inv. apply XR_eqv_eq; simpl; [unfold xnn; congruence|]. f_equal; lra.
  - intros x y y' [a ->]%fin_inv [b' ->]%fin_inv H1 H2 H3. toX. destruct y as [b| | |]; try (simpl in *; tauto).
    apply (g_mul_mono_r Fin ex_mono); assumption.
  - intros x x' y y' H1 H2 H3 H4. toX. apply (g_add_mono Fin ex_mono); assumption.
  - intros x y H1 H2. toX. apply (g_add_l Fin exfmt ex_mono ex_fmt); auto using xfmt_ex.
  - intros x y H1 H2. toX. apply (g_add_r Fin exfmt ex_mono ex_fmt); auto using xfmt_ex.
  - intros x H. toX. apply XR_eqv_eq;
      [change (nadd x (Fin 0)) with (xadd Fin x (Fin 0));
       rewrite (g_add_0 Fin exfmt ex_fmt) by auto using xfmt_ex; destruct x; simpl in *; unfold xnn; try tauto; congruence|].
    apply (g_add_0 Fin exfmt ex_fmt); auto using xfmt_ex.
  - intros x y H1 H2. toX. apply (g_sqrt_mono Fin ex_mono); assumption.
  - apply XR_eqv_eq; change (nsqrt (@n0 XR)) with (xsqrt Fin (Fin 0));
      rewrite (g_sqrt_0 Fin exfmt ex_fmt ex_Z); [unfold xnn; congruence|reflexivity].
  - intros x y k Hk H1 H2. toX. apply (g_quo_mono Fin ex_mono); auto. apply (IZR_lt 0 k). lia.
  - intros k Hk. assert (Hk' : 0 < IZR k) by (apply (IZR_lt 0 k); lia).
    apply XR_eqv_eq; change (ndiv (@n0 XR) (nofZ k)) with (xdiv Fin (Fin 0) (Fin (IZR k)));
    rewrite (g_quo_0 Fin exfmt ex_fmt ex_Z) by assumption; [unfold xnn; congruence|reflexivity].
  - intros x y z [a ->]%fin_inv [b ->]%fin_inv [c ->]%fin_inv H1 H2 H3. toX. apply nlt_fin in H3.
    apply (g_quo_mono Fin ex_mono); auto.
  - intros x [a ->]%fin_inv H. apply nlt_fin in H.
    apply XR_eqv_eq; change (@ndiv XR (Fin a) (Fin a)) with (xdiv Fin (Fin a) (Fin a));
    rewrite (g_quo_self Fin exfmt ex_fmt ex_Z) by assumption; [unfold xnn; congruence|reflexivity].
  - intros x [a ->]%fin_inv H. apply nlt_fin in H.
    apply XR_eqv_eq; change (@ndiv XR n0 (Fin a)) with (xdiv Fin (Fin 0) (Fin a));
    rewrite (g_quo_0 Fin exfmt ex_fmt ex_Z) by assumption; [unfold xnn; congruence|reflexivity].
  - intros x [a ->]%fin_inv.
    apply XR_eqv_eq; change (@ndiv XR (Fin a) (nofZ 1)) with (xdiv Fin (Fin a) (Fin 1));
    rewrite (g_quo_1 Fin exfmt ex_fmt) by exact I; [unfold xnn; congruence|reflexivity].
Qed.
