(** Euclidean, Manhattan and Chebyshev are well-behaved metrics. *)
From Verif Require Import Base Num NumLaws NumFacts TimeSeries Distance DtwSpec DtwProofs LoopFacts.

Section Metrics.
Context {N : Num} {L : NumLaws N}.
Notation D := (D N).

Lemma ofZ_pos k : 1 <= k <= 2 ^ 53 -> nlt (@n0 N) (nofZ k).
Proof. intros H. apply lw_ofZ_lt; simpl; lia. Qed.

Lemma ofZ_0_1 : nle (@n0 N) (nofZ 1).
Proof. apply lw_ofZ_le. lia. Qed.

Lemma mul_0_0 : nle (nmul (@n0 N) n0) n0.
Proof.
  apply (nle_trans _ (nmul n0 (nofZ 1))).
  - apply lw_mul_mono_r; try apply n0_fin; try (apply nle_refl, n0_nn); try apply ofZ_0_1.
    apply lw_ofZ_fin; simpl; lia.
  - apply lw_mul_1, n0_fin.
Qed.

Lemma nabs_0 : nle (nabs (@n0 N)) n0.
Proof. apply lw_abs_pos. apply nle_refl, n0_nn. Qed.

Lemma sub_self_abs (x : D) : nfin x -> nle (nabs (nsub x x)) n0.
Proof.
  intros F. destruct (lw_sub_self x F) as [H1 H2].
  destruct (lw_abs_pos (nsub x x) H2) as [H3 _]. apply (nle_trans _ _ _ H3 H1).
Qed.

Lemma abs_sub_pos (x y : D) : nfin x -> nfin y -> nle n0 (nabs (nsub x y)).
Proof. intros; apply lw_abs_nn, lw_sub_nn; auto. Qed.

Lemma euc_dist_pos (x y : D) : nfin x -> nfin y -> nle n0 (euc_dist x y).
Proof. intros; apply lw_sq_pos, lw_sub_nn; auto. Qed.

Lemma euc_dist_self (x : D) : nfin x -> nle (euc_dist x x) n0.
Proof.
  intros F. unfold euc_dist. apply (nle_trans _ (nmul n0 n0)); [|apply mul_0_0].
  apply lw_sq_mono.
  - apply lw_sub_nn; auto.
  - apply n0_nn.
  - apply (nle_trans _ n0); [apply sub_self_abs; auto|]. apply lw_abs_nn, n0_nn.
Qed.

Lemma euc_dist_sym (x y : D) : nfin x -> nfin y -> euc_dist x y = euc_dist y x.
Proof. intros; unfold euc_dist. apply lw_mul_abs, lw_sub_opp; auto. Qed.

Lemma div_pos (x : D) k : 1 <= k <= 2 ^ 53 -> nle n0 x -> nle n0 (ndiv x (nofZ k)).
Proof.
  intros Hk Hx. apply (nle_trans _ (ndiv n0 (nofZ k))).
  - apply lw_div_0; auto.
  - apply lw_div_mono; auto. apply nle_refl, n0_nn.
Qed.

Lemma div_zero (x : D) k : 1 <= k <= 2 ^ 53 -> nle n0 x -> nle x n0 -> nle (ndiv x (nofZ k)) n0.
Proof.
  intros Hk Hx Hx0. apply (nle_trans _ (ndiv n0 (nofZ k))).
  - apply lw_div_mono; auto.
  - apply lw_div_0; auto.
Qed.

Lemma sqrt_pos (x : D) : nle n0 x -> nle n0 (nsqrt x).
Proof.
  intros Hx. apply (nle_trans _ (nsqrt n0)); [apply lw_sqrt_0|].
  apply lw_sqrt_mono; auto. apply nle_refl, n0_nn.
Qed.

Lemma add_zero (v d : D) : nle n0 v -> nle n0 d -> nle d n0 -> nle (nadd v d) v.
Proof.
  intros Hv Hd Hd0. apply (nle_trans _ (nadd v n0)).
  - apply lw_add_mono; auto. apply nle_refl; apply (nle_nn_r _ _ Hv).
  - apply lw_add_0; auto.
Qed.

Lemma add_0_0 (d : D) : nle n0 d -> nle d n0 -> nle (nadd n0 d) n0.
Proof. intros; apply add_zero; auto. apply nle_refl, n0_nn. Qed.

Lemma dbl_ok l : 1 <= l <= 2 ^ 30 -> 1 <= 2 * l <= 2 ^ 53.
Proof. lia. Qed.

Definition Euclidean_nice : Nice (@Euclidean N).
Proof.
  refine (mkNice N Euclidean (fun v => nle n0 v) (fun u v => nle u v) _ _ _ _ _ _ _ _ _ _ _ _ _); simpl.
  - eexists; reflexivity.
  - intros v H. apply nle_refl, (nle_nn_r _ _ H).
  - intros u v w; apply nle_trans.
  - apply nle_refl, n0_nn.
  - intros v x y Hv Hx Hy. apply nadd_pos; auto. apply euc_dist_pos; auto.
  - intros v x y Hv Hx Hy. apply lw_add_l; auto. apply euc_dist_pos; auto.
  - intros v v' x y Hv Hv' Hx Hy Hle. apply lw_add_mono; auto using euc_dist_pos.
    apply nle_refl, (nle_nn_r _ _ (euc_dist_pos x y Hx Hy)).
  - intros v v' l1 l2 Hl Hv Hv' Hle. apply lw_div_mono; [apply dbl_ok; auto|apply sqrt_pos; auto|].
    apply lw_sqrt_mono; auto.
  - intros v x y l1 l2 Hl Hv Hx Hy. apply div_pos; [apply dbl_ok; auto|]. apply sqrt_pos.
    apply nadd_pos; auto. apply euc_dist_pos; auto.
  - intros x l1 l2 Hl Hx.
    assert (H0 : nle n0 (nadd n0 (euc_dist x x))).
    { apply nadd_pos; [apply nle_refl, n0_nn|apply euc_dist_pos; auto]. }
    assert (H1 : nle (nadd n0 (euc_dist x x)) n0).
    { apply add_0_0; [apply euc_dist_pos; auto|apply euc_dist_self; auto]. }
    apply div_zero; [apply dbl_ok; auto|apply sqrt_pos; auto|].
    apply (nle_trans _ (nsqrt n0)); [apply lw_sqrt_mono; auto|apply lw_sqrt_0].
  - intros v x l1 l2 Hl Hv Hx H.
    apply (nle_trans _ (ndiv (nsqrt v) (nofZ (2 * Z.max l1 l2)))); auto.
    apply lw_div_mono; [apply dbl_ok; auto|apply sqrt_pos, nadd_pos; auto using euc_dist_pos|].
    apply lw_sqrt_mono; [apply nadd_pos; auto using euc_dist_pos|].
    apply add_zero; auto using euc_dist_pos, euc_dist_self.
  - intros v x y Hx Hy. f_equal. apply euc_dist_sym; auto.
  - intros v l1 l2. rewrite Z.max_comm. reflexivity.
Defined.

Definition Manhattan_nice : Nice (@Manhattan N).
Proof.
  refine (mkNice N Manhattan (fun v => nle n0 v) (fun u v => nle u v) _ _ _ _ _ _ _ _ _ _ _ _ _); simpl.
  - eexists; reflexivity.
  - intros v H. apply nle_refl, (nle_nn_r _ _ H).
  - intros u v w; apply nle_trans.
  - apply nle_refl, n0_nn.
  - intros v x y Hv Hx Hy. apply nadd_pos; auto. apply abs_sub_pos; auto.
  - intros v x y Hv Hx Hy. apply lw_add_l; auto. apply abs_sub_pos; auto.
  - intros v v' x y Hv Hv' Hx Hy Hle. apply lw_add_mono; auto using abs_sub_pos.
    apply nle_refl, (nle_nn_r _ _ (abs_sub_pos x y Hx Hy)).
  - intros v v' l1 l2 Hl Hv Hv' Hle. apply lw_div_mono; [apply dbl_ok; auto|auto|auto].
  - intros v x y l1 l2 Hl Hv Hx Hy. apply div_pos; [apply dbl_ok; auto|].
    apply nadd_pos; auto. apply abs_sub_pos; auto.
  - intros x l1 l2 Hl Hx.
    apply div_zero; [apply dbl_ok; auto| |].
    + apply nadd_pos; [apply nle_refl, n0_nn|apply abs_sub_pos; auto].
    + apply add_0_0; [apply abs_sub_pos; auto|apply sub_self_abs; auto].
  - intros v x l1 l2 Hl Hv Hx H.
    apply (nle_trans _ (ndiv v (nofZ (2 * Z.max l1 l2)))); auto.
    apply lw_div_mono; [apply dbl_ok; auto|apply nadd_pos; auto using abs_sub_pos|].
    apply add_zero; auto using abs_sub_pos, sub_self_abs.
  - intros v x y Hx Hy. f_equal. apply lw_sub_opp; auto.
  - intros v l1 l2. rewrite Z.max_comm. reflexivity.
Defined.

Definition Chebyshev_nice : Nice (@Chebyshev N).
Proof.
  refine (mkNice N Chebyshev (fun v => nn v) (fun u v => nle u v) _ _ _ _ _ _ _ _ _ _ _ _ _); simpl.
  - eexists; reflexivity.
  - intros v H. apply nle_refl, H.
  - intros u v w; apply nle_trans.
  - apply lw_ninf_nn.
  - intros v x y Hv Hx Hy. destruct (nmax_cases v (nabs (nsub x y))) as [-> | ->]; auto.
    apply (nle_nn_r _ _ (abs_sub_pos x y Hx Hy)).
  - intros v x y Hv Hx Hy. apply nmax_l; auto. apply (nle_nn_r _ _ (abs_sub_pos x y Hx Hy)).
  - intros v v' x y Hv Hv' Hx Hy Hle. apply nmax_mono; auto.
    apply nle_refl, (nle_nn_r _ _ (abs_sub_pos x y Hx Hy)).
  - intros v v' l1 l2 Hl Hv Hv' Hle. auto.
  - intros v x y l1 l2 Hl Hv Hx Hy. apply (nle_trans _ (nabs (nsub x y))); [apply abs_sub_pos; auto|].
    apply nmax_r; auto. apply (nle_nn_r _ _ (abs_sub_pos x y Hx Hy)).
  - intros x l1 l2 Hl Hx. apply nmax_lub; [apply ninf_le, n0_nn|apply sub_self_abs; auto].
  - intros v x l1 l2 Hl Hv Hx H. apply nmax_lub; auto. apply sub_self_abs; auto.
  - intros v x y Hx Hy. f_equal. apply lw_sub_opp; auto.
  - intros v l1 l2. reflexivity.
Defined.

(** The dynamic programme compares normalised costs; the optimum is exact when
    the normalisation reflects the order of accumulated costs. *)
Definition reflects {M : Metric N} (ng : Nice M) (l1 l2 : Z) : Prop :=
  forall u v, ng_ok ng u -> ng_ok ng v ->
    nle (m_normDTW M u l1 l2) (m_normDTW M v l1 l2) -> ng_le ng u v.

Lemma Chebyshev_reflects l1 l2 : reflects Chebyshev_nice l1 l2.
Proof. intros u v Hu Hv H. exact H. Qed.

End Metrics.
