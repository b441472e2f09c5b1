(** Further laws of the two arithmetics: differences of distinct finite values
    do not vanish (gradual underflow), and the comparison with EPS = 1e-9. *)
From Coq Require Import Reals Lra SpecFloat.
From Flocq Require Import Core BinarySingleNaN Plus_error.
From Verif Require Import Base Num NumB64 NumLaws NumFacts NumXR NumXRLaws NumB64Laws.

Record EpsLaws (N : Num) := mkEps {
  lw_sub_pos : forall x y : D N, nfin x -> nfin y -> nlt x y -> nlt n0 (nsub y x);
  lw_eqv_pos : forall x y : D N, nlt n0 x -> neqv x y -> x = y;
  lw_eps_eq : forall x y : D N, nfin x -> nfin y -> neqv x y -> nltb (nabs (nsub x y)) neps = true;
  lw_eps_inf : nltb (nabs (nsub (@ninf N) ninf)) neps = false;
  lw_eps_inf_l : forall x : D N, nfin x -> nltb (nabs (nsub ninf x)) neps = false;
  lw_eps_inf_r : forall x : D N, nfin x -> nltb (nabs (nsub x ninf)) neps = false
}.
Existing Class EpsLaws.
Arguments lw_sub_pos {N _}. Arguments lw_eqv_pos {N _}. Arguments lw_eps_eq {N _}. Arguments lw_eps_inf {N _}.
Arguments lw_eps_inf_l {N _}. Arguments lw_eps_inf_r {N _}.

Local Open Scope R_scope.

Lemma Fin_lt a b : @nlt XR (Fin a) (Fin b) <-> a < b.
Proof. unfold nlt; simpl. destruct (Rlt_bool_spec a b); split; intros; auto; try discriminate; lra. Qed.

#[global] Instance XR_eps : EpsLaws XR.
Proof.
  constructor.
  - intros x y [a ->]%XR_fin [b ->]%XR_fin H. apply Fin_lt in H. apply Fin_lt. simpl. lra.
  - intros [a| | |] [b| | |] H [H1 H2]; rewrite XR_nle in H1, H2; simpl in *; try tauto; try discriminate.
    f_equal. lra.
  - intros x y [a ->]%XR_fin [b ->]%XR_fin [H1 H2]. rewrite XR_nle in H1, H2. simpl in *.
    apply Rlt_bool_true. replace (a - b) with 0 by lra. rewrite Rabs_R0. lra.
  - reflexivity.
  - intros x [a ->]%XR_fin. reflexivity.
  - intros x [a ->]%XR_fin. reflexivity.
Qed.

Lemma rne_minus_pos a b : generic_format radix2 fexp64 a -> generic_format radix2 fexp64 b ->
  a < b -> 0 < rne (b - a).
Proof.
  intros Fa Fb H.
  assert (H0 : 0 <= rne (b - a)) by (apply rne_pos; lra).
  assert (H1 : rne (b - a) <> 0); [|lra].
  assert (V : Valid_exp fexp64) by (apply FLT_exp_valid; exact prec64_gt_0).
  assert (M : Monotone_exp fexp64) by apply FLT_exp_monotone.
  assert (P : Prec_gt_0 prec64) by exact prec64_gt_0.
  unfold Rminus. apply round_plus_neq_0; auto with typeclass_instances.
  - apply generic_format_opp; auto.
  - lra.
Qed.

Lemma eps_pos : @nlt B64 n0 neps.
Proof. vm_compute. reflexivity. Qed.

#[global] Instance B64_eps : EpsLaws B64.
Proof.
  constructor.
  - intros x y Fx%bfin_iff Fy%bfin_iff H. unfold nlt in *. change (Bltb x y = true) in H.
    change (Bltb (@n0 B64) (Bminus mode_NE y x) = true).
    rewrite val_ltb in *. rewrite val_minus. change (val (@n0 B64)) with (Fin 0).
    pose proof (val_fmt x) as Hx. pose proof (val_fmt y) as Hy.
    rewrite (fin_val x), (fin_val y) in * by auto. simpl in *.
    destruct (Rlt_bool_spec (B2R x) (B2R y)) as [Hlt|]; [|discriminate].
    pose proof (rne_minus_pos _ _ (proj1 Hx) (proj1 Hy) Hlt) as Hp.
    unfold R64. destruct (Rlt_bool (Rabs (rne (B2R y - B2R x))) big).
    + simpl. apply Rlt_bool_true. exact Hp.
    + rewrite Rlt_bool_false by lra. reflexivity.
  - intros x y H [H1%nleP_val H2%nleP_val]. unfold nlt in H. change (Bltb (@n0 B64) x = true) in H.
    rewrite val_ltb in H. change (val (@n0 B64)) with (Fin 0) in H.
    assert (Ev : val x = val y).
    { destruct (val x), (val y); simpl in *; try tauto; try discriminate. f_equal; lra. }
    assert (Hs : forall z, xltb (Fin 0) (val z) = true -> Bsign z = false).
    { intros z Hz. destruct z as [s|s| |s m e Hb]; simpl in Hz; try discriminate.
      - rewrite Rlt_bool_false in Hz by lra. discriminate.
      - destruct s; [discriminate|reflexivity].
      - destruct s; [|reflexivity]. exfalso. change (Rlt_bool 0 (F2R (Float radix2 (Z.neg m) e)) = true) in Hz.
        assert (F2R (Float radix2 (Z.neg m) e) < 0) by (apply Float_prop.F2R_lt_0; reflexivity).
        rewrite Rlt_bool_false in Hz by lra. discriminate. }
    apply val_inj_pos; auto. rewrite !Hs; auto. rewrite <- Ev. exact H.
  - intros x y Fx Fy [H1 H2].
    assert (E : neqv (nsub x y) (@n0 B64)).
    { assert (E1 := lw_sub_self x Fx). assert (E2 := lw_sub_self y Fy). split.
      - apply nle_trans with (nsub x x); [|apply E1].
        apply lw_sub_mono; auto. apply nle_refl, nfin_nn, Fx.
      - apply nle_trans with (nsub y y); [apply E2|].
        apply lw_sub_mono; auto. apply nle_refl, nfin_nn, Fy. }
    assert (E0 : neqv (nabs (nsub x y)) (@n0 B64)).
    { destruct E as [E1 E2]. apply neqv_trans with (nsub x y); [apply lw_abs_pos; auto|split; auto]. }
    rewrite (nltb_eqv _ n0 neps neps E0); [exact eps_pos|]. apply neqv_refl. reflexivity.
  - reflexivity.
  - intros x F%bfin_iff. destruct x; try discriminate; reflexivity.
  - intros x F%bfin_iff. destruct x; try discriminate; reflexivity.
Qed.
