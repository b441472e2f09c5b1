(** IEEE-754 binary64 arithmetic is extended-real arithmetic with the rounding
    [R64], and satisfies the laws of NumLaws.v. *)
From Coq Require Import Reals Lra SpecFloat.
From Flocq Require Import Core BinarySingleNaN.
From Verif Require Import Base Num NumB64 NumLaws NumXR NumXRLaws.
Local Open Scope R_scope.

Notation fexp64 := (FLT_exp (3 - emax64 - prec64) prec64).
Notation rne := (round radix2 fexp64 (round_mode mode_NE)).
Notation big := (bpow radix2 emax64).

#[local] Instance fexp64_valid : Valid_exp fexp64.
Proof. apply FLT_exp_valid. exact prec64_gt_0. Qed.
#[local] Instance fexp64_mono : Monotone_exp fexp64.
Proof. apply FLT_exp_monotone. Qed.

(** the value of a double *)
Definition val (x : b64) : xr :=
  match x with
  | B754_zero _ => Fin 0
  | B754_infinity s => if s then NInf else PInf
  | B754_nan => XNaN
  | B754_finite _ _ _ _ => Fin (B2R x)
  end.

(** rounding to nearest, ties to even, with overflow to infinity *)
Definition R64 (r : R) : xr :=
  if Rlt_bool (Rabs (rne r)) big then Fin (rne r)
  else if Rlt_bool r 0 then NInf else PInf.

Definition fmt64 (r : R) : Prop := generic_format radix2 fexp64 r /\ Rabs r < big.

Lemma rne_mono r s : r <= s -> rne r <= rne s.
Proof. intros H; apply round_le; auto with typeclass_instances. Qed.

Lemma rne_0 : rne 0 = 0.
Proof. apply round_0; auto with typeclass_instances. Qed.

Lemma rne_opp r : rne (- r) = - rne r.
Proof. apply round_NE_opp. Qed.

Lemma rne_fmt r : generic_format radix2 fexp64 r -> rne r = r.
Proof. intros H; apply round_generic; auto with typeclass_instances. Qed.

Lemma rne_format r : generic_format radix2 fexp64 (rne r).
Proof. apply generic_format_round; auto with typeclass_instances. Qed.

Lemma big_pos : 0 < big.
Proof. apply bpow_gt_0. Qed.

Lemma rne_neg r : r < 0 -> rne r <= 0.
Proof. intros; rewrite <- rne_0; apply rne_mono; lra. Qed.
Lemma rne_pos r : 0 <= r -> 0 <= rne r.
Proof. intros; rewrite <- rne_0; apply rne_mono; lra. Qed.

Lemma R64_mono r s : r <= s -> xleP (R64 r) (R64 s).
Proof.
  intros H. unfold R64. pose proof (rne_mono _ _ H) as Hm. pose proof big_pos as Hb.
  destruct (Rlt_bool_spec (Rabs (rne r)) big) as [H1|H1];
  destruct (Rlt_bool_spec (Rabs (rne s)) big) as [H2|H2]; simpl; auto.
  - destruct (Rlt_bool_spec s 0) as [H3|H3]; simpl; auto.
    pose proof (rne_neg s H3). rewrite Rabs_left1 in H2 by assumption.
    rewrite Rabs_left1 in H1 by lra. lra.
  - destruct (Rlt_bool_spec r 0) as [H3|H3]; simpl; auto.
    pose proof (rne_pos r H3).
    rewrite Rabs_pos_eq in H1 by assumption. rewrite Rabs_pos_eq in H2 by lra. lra.
  - destruct (Rlt_bool_spec r 0) as [H3|H3]; destruct (Rlt_bool_spec s 0) as [H4|H4]; simpl; auto; lra.
Qed.

Lemma R64_fmt r : fmt64 r -> R64 r = Fin r.
Proof. intros [F B]. unfold R64. rewrite rne_fmt by assumption. rewrite Rlt_bool_true by assumption. reflexivity. Qed.

Lemma R64_xfmt r : xfmt fmt64 (R64 r).
Proof.
  unfold R64. destruct (Rlt_bool_spec (Rabs (rne r)) big) as [H1|H1]; simpl.
  - split; [apply rne_format|assumption].
  - destruct (Rlt_bool r 0); exact I.
Qed.

Lemma R64_opp r : R64 (- r) = xopp (R64 r).
Proof.
  unfold R64. rewrite rne_opp, Rabs_Ropp. pose proof big_pos.
  destruct (Rlt_bool_spec (Rabs (rne r)) big) as [H1|H1]; simpl; auto.
  destruct (Rlt_bool_spec (-r) 0), (Rlt_bool_spec r 0); simpl; auto; try lra.
  assert (r = 0) by lra. subst. rewrite rne_0, Rabs_R0 in H1. lra.
Qed.

Lemma fmt64_Z k : (Z.abs k <= 2 ^ 53)%Z -> fmt64 (IZR k).
Proof.
  intros H. split.
  - destruct (Z.eq_dec (Z.abs k) (2 ^ 53)) as [E|E].
    + assert (Hp : generic_format radix2 fexp64 (bpow radix2 53)).
      { apply generic_format_bpow. vm_compute. discriminate. }
      assert (Eb : bpow radix2 53 = IZR (2 ^ 53)) by (simpl; reflexivity).
      destruct (Z.abs_eq_or_opp k) as [E2|E2].
      * rewrite <- E2, E, <- Eb. exact Hp.
      * replace k with (- (2 ^ 53))%Z by lia. rewrite opp_IZR.
        apply generic_format_opp. rewrite <- Eb. exact Hp.
    + apply generic_format_FLT. apply (FLT_spec _ _ _ _ (Float radix2 k 0)).
      * unfold F2R; simpl. lra.
      * simpl. change (Z.abs k < 2 ^ 53)%Z. lia.
      * simpl. vm_compute. discriminate.
  - rewrite <- abs_IZR. apply Rle_lt_trans with (IZR (2 ^ 53)).
    + apply IZR_le, H.
    + change (IZR (2 ^ 53)) with (bpow radix2 53). apply bpow_lt. reflexivity.
Qed.

Lemma val_finite x : is_finite x = true -> val x = Fin (B2R x).
Proof. destruct x; simpl; intros; try discriminate; reflexivity. Qed.

Lemma val_Fin x r : val x = Fin r -> is_finite x = true /\ B2R x = r.
Proof.
  destruct x as [s|s| |s m e H]; simpl; intros E; try discriminate.
  - split; congruence.
  - destruct s; discriminate.
  - split; congruence.
Qed.

Lemma val_fmt x : xfmt fmt64 (val x).
Proof.
  destruct x as [s|s| |s m e H]; try exact I.
  - simpl. apply (fmt64_Z 0). simpl; lia.
  - simpl. destruct s; exact I.
  - split.
    + apply (generic_format_B2R prec64 emax64 (B754_finite s m e H)).
    + apply (abs_B2R_lt_emax prec64 emax64 (B754_finite s m e H)).
Qed.

Lemma val_overflow (z : b64) s : B2SF z = binary_overflow prec64 emax64 mode_NE s ->
  z = B754_infinity s.
Proof.
  intros H. change (B2SF z = S754_infinity s) in H.
  destruct z; simpl in H; try discriminate. congruence.
Qed.

Lemma val_round (z : b64) r s (P : Prop) :
  (if Rlt_bool (Rabs (rne r)) big then B2R z = rne r /\ is_finite z = true /\ P
   else B2SF z = binary_overflow prec64 emax64 mode_NE s) ->
  (big <= Rabs (rne r) -> s = Rlt_bool r 0) ->
  val z = R64 r.
Proof.
  unfold R64. destruct (Rlt_bool_spec (Rabs (rne r)) big) as [H|H]; intros H1 H2.
  - destruct H1 as (E & F & _). rewrite val_finite, E; auto.
  - rewrite (val_overflow _ _ H1). rewrite <- (H2 H). reflexivity.
Qed.

Lemma sign_neg (x : b64) : Bsign x = true -> B2R x <= 0.
Proof.
  destruct x as [s|s| |s m e H]; simpl; intros E; try lra. subst.
  apply F2R_le_0. simpl. lia.
Qed.
Lemma sign_pos (x : b64) : Bsign x = false -> 0 <= B2R x.
Proof.
  destruct x as [s|s| |s m e H]; simpl; intros E; try lra. subst.
  apply F2R_ge_0. simpl. lia.
Qed.

Lemma overflow_nz r : big <= Rabs (rne r) -> r <> 0.
Proof. intros H E. subst. rewrite rne_0, Rabs_R0 in H. pose proof big_pos. lra. Qed.

Lemma sign_is s r : (s = true -> r <= 0) -> (s = false -> 0 <= r) -> r <> 0 -> s = Rlt_bool r 0.
Proof.
  intros H1 H2 H3. destruct s.
  - specialize (H1 eq_refl). symmetry; apply Rlt_bool_true; lra.
  - specialize (H2 eq_refl). symmetry; apply Rlt_bool_false; lra.
Qed.

Lemma val_plus_fin x y : is_finite x = true -> is_finite y = true ->
  val (Bplus mode_NE x y) = R64 (B2R x + B2R y).
Proof.
  intros Fx Fy. pose proof (Bplus_correct prec64 emax64 _ _ mode_NE x y Fx Fy) as H.
  change (SpecFloat.fexp prec64 emax64) with fexp64 in H.
  destruct (Rlt_bool_spec (Rabs (rne (B2R x + B2R y))) big) as [Hb|Hb].
  - apply (val_round _ _ false (Bsign (Bplus mode_NE x y) = match Rcompare (B2R x + B2R y) 0 with
       | Eq => Bsign x && Bsign y | Lt => true | Gt => false end)).
    + rewrite Rlt_bool_true by assumption. exact H.
    + intros; lra.
  - destruct H as [H Hs]. apply (val_round _ _ (Bsign x) True).
    + rewrite Rlt_bool_false by assumption. exact H.
    + intros _. apply sign_is; [| |apply overflow_nz, Hb]; intros E.
      * pose proof (sign_neg x E). rewrite Hs in E. pose proof (sign_neg y E). lra.
      * pose proof (sign_pos x E). rewrite Hs in E. pose proof (sign_pos y E). lra.
Qed.

Lemma val_minus_fin x y : is_finite x = true -> is_finite y = true ->
  val (Bminus mode_NE x y) = R64 (B2R x - B2R y).
Proof.
  intros Fx Fy. pose proof (Bminus_correct prec64 emax64 _ _ mode_NE x y Fx Fy) as H.
  change (SpecFloat.fexp prec64 emax64) with fexp64 in H.
  destruct (Rlt_bool_spec (Rabs (rne (B2R x - B2R y))) big) as [Hb|Hb].
  - apply (val_round _ _ false (Bsign (Bminus mode_NE x y) = match Rcompare (B2R x - B2R y) 0 with
       | Eq => Bsign x && negb (Bsign y) | Lt => true | Gt => false end)).
    + rewrite Rlt_bool_true by assumption. exact H.
    + intros; lra.
  - destruct H as [H Hs]. apply (val_round _ _ (Bsign x) True).
    + rewrite Rlt_bool_false by assumption. exact H.
    + intros _. apply sign_is; [| |apply overflow_nz, Hb]; intros E.
      * pose proof (sign_neg x E). rewrite E in Hs.
        assert (E' : Bsign y = false) by (destruct (Bsign y); auto; discriminate).
        pose proof (sign_pos y E'). lra.
      * pose proof (sign_pos x E). rewrite E in Hs.
        assert (E' : Bsign y = true) by (destruct (Bsign y); auto; discriminate).
        pose proof (sign_neg y E'). lra.
Qed.

Lemma val_mult_fin x y : is_finite x = true -> is_finite y = true ->
  val (Bmult mode_NE x y) = R64 (B2R x * B2R y).
Proof.
  intros Fx Fy. pose proof (Bmult_correct prec64 emax64 _ _ mode_NE x y) as H.
  change (SpecFloat.fexp prec64 emax64) with fexp64 in H.
  rewrite Fx, Fy in H.
  eapply val_round; [exact H|].
  intros Hb. apply sign_is; [| |apply overflow_nz, Hb]; intros E;
    destruct (Bsign x) eqn:Ex, (Bsign y) eqn:Ey; try discriminate E;
    try apply sign_neg in Ex; try apply sign_neg in Ey;
    try apply sign_pos in Ex; try apply sign_pos in Ey; nra.
Qed.

Lemma val_div_fin x y : is_finite x = true -> is_finite y = true -> B2R y <> 0 ->
  val (Bdiv mode_NE x y) = R64 (B2R x / B2R y).
Proof.
  intros Fx Fy Hy. pose proof (Bdiv_correct prec64 emax64 _ _ mode_NE x y Hy) as H.
  change (SpecFloat.fexp prec64 emax64) with fexp64 in H.
  rewrite Fx in H.
  eapply val_round; [exact H|].
  assert (Hi : (0 < B2R y -> 0 < / B2R y) /\ (B2R y < 0 -> / B2R y < 0)).
  { split; intros; [apply Rinv_0_lt_compat|apply Rinv_lt_0_compat]; assumption. }
  intros Hb. unfold Rdiv. apply sign_is; [| |apply overflow_nz, Hb]; intros E;
    destruct (Bsign x) eqn:Ex, (Bsign y) eqn:Ey; try discriminate E;
    try apply sign_neg in Ex; try apply sign_neg in Ey;
    try apply sign_pos in Ex; try apply sign_pos in Ey;
    destruct Hi as [Hi1 Hi2];
    (assert (0 < / B2R y) by (apply Hi1; lra)) || (assert (/ B2R y < 0) by (apply Hi2; lra)); nra.
Qed.

Lemma val_sqrt_fin x : is_finite x = true -> 0 <= B2R x ->
  val (Bsqrt mode_NE x) = R64 (sqrt (B2R x)).
Proof.
  intros Fx Hp. destruct (Bsqrt_correct prec64 emax64 _ _ mode_NE x) as (H1 & H2 & _).
  change (SpecFloat.fexp prec64 emax64) with fexp64 in H1.
  assert (F : is_finite (Bsqrt mode_NE x) = true).
  { rewrite H2. destruct x as [s|s| |s m e H]; try discriminate; auto.
    destruct s; auto. exfalso. simpl in Hp.
    assert (F2R (Float radix2 (Z.neg m) e) < 0) by (apply F2R_lt_0; simpl; lia).
    unfold F2R in *; simpl in *. lra. }
  rewrite (val_finite _ F), H1. unfold R64. rewrite Rlt_bool_true; [reflexivity|].
  rewrite <- H1. apply abs_B2R_lt_emax.
Qed.

Lemma val_ofZ k : val (b64_ofZ k) = xofZ R64 k.
Proof.
  unfold xofZ, b64_ofZ.
  pose proof (binary_normalize_correct prec64 emax64 _ _ mode_NE k 0 false) as H.
  change (SpecFloat.fexp prec64 emax64) with fexp64 in H.
  cbv zeta in H.
  assert (E : F2R (Float radix2 k 0) = IZR k) by (unfold F2R; simpl; lra).
  rewrite E in H. eapply val_round; [exact H|]. reflexivity.
Qed.

Lemma val_ltb (x y : b64) : Bltb x y = xltb (val x) (val y).
Proof.
  destruct (is_finite x) eqn:Fx, (is_finite y) eqn:Fy.
  - rewrite Bltb_correct by assumption. rewrite !val_finite by assumption. reflexivity.
  - rewrite val_finite by assumption.
    destruct x as [s|s| |[] m e H], y as [s'|[]| |s' m' e' H']; try discriminate; reflexivity.
  - rewrite (val_finite y) by assumption.
    destruct x as [s|[]| |s m e H], y as [s'|s'| |[] m' e' H']; try discriminate; reflexivity.
  - destruct x as [s|[]| |s m e H], y as [s'|[]| |s' m' e' H']; try discriminate; reflexivity.
Qed.

Lemma val_eqb (x y : b64) : Beqb x y = xeqb (val x) (val y).
Proof.
  destruct (is_finite x) eqn:Fx, (is_finite y) eqn:Fy.
  - rewrite Beqb_correct by assumption. rewrite !val_finite by assumption. reflexivity.
  - rewrite val_finite by assumption.
    destruct x as [s|s| |[] m e H], y as [s'|[]| |s' m' e' H']; try discriminate; reflexivity.
  - rewrite (val_finite y) by assumption.
    destruct x as [s|[]| |s m e H], y as [s'|s'| |[] m' e' H']; try discriminate; reflexivity.
  - destruct x as [s|[]| |s m e H], y as [s'|[]| |s' m' e' H']; try discriminate; reflexivity.
Qed.

Lemma val_abs (x : b64) : val (Babs x) = xabs (val x).
Proof.
  destruct x as [s|s| |s m e H]; try reflexivity.
  - simpl. rewrite Rabs_R0; reflexivity.
  - destruct s; reflexivity.
  - rewrite val_finite by reflexivity. rewrite B2R_Babs. reflexivity.
Qed.

Lemma val_minus (x y : b64) : val (Bminus mode_NE x y) = xsub R64 (val x) (val y).
Proof.
  destruct (is_finite x) eqn:Fx, (is_finite y) eqn:Fy.
  - rewrite val_minus_fin, (val_finite x), (val_finite y) by assumption. reflexivity.
  - rewrite (val_finite x) by assumption.
    destruct x as [s|s| |s m e H], y as [s'|[]| |s' m' e' H']; try discriminate; reflexivity.
  - rewrite (val_finite y) by assumption.
    destruct x as [s|[]| |s m e H], y as [s'|s'| |s' m' e' H']; try discriminate; reflexivity.
  - destruct x as [s|[]| |s m e H], y as [s'|[]| |s' m' e' H']; try discriminate; reflexivity.
Qed.

Lemma val_plus (x y : b64) : val (Bplus mode_NE x y) = xadd R64 (val x) (val y).
Proof.
  destruct (is_finite x) eqn:Fx, (is_finite y) eqn:Fy.
  - rewrite val_plus_fin, (val_finite x), (val_finite y) by assumption. reflexivity.
  - rewrite (val_finite x) by assumption.
    destruct x as [s|s| |s m e H], y as [s'|[]| |s' m' e' H']; try discriminate; reflexivity.
  - rewrite (val_finite y) by assumption.
    destruct x as [s|[]| |s m e H], y as [s'|s'| |s' m' e' H']; try discriminate; reflexivity.
  - destruct x as [s|[]| |s m e H], y as [s'|[]| |s' m' e' H']; try discriminate; reflexivity.
Qed.

Lemma F2R_sgn s m e : F2R (Float radix2 (cond_Zopp s (Z.pos m)) e) <> 0 /\
  Rlt_bool 0 (F2R (Float radix2 (cond_Zopp s (Z.pos m)) e)) = negb s /\
  Rlt_bool (F2R (Float radix2 (cond_Zopp s (Z.pos m)) e)) 0 = s.
Proof.
  destruct s; simpl.
  - assert (F2R (Float radix2 (Z.neg m) e) < 0) by (apply F2R_lt_0; simpl; lia).
    repeat split; [lra|apply Rlt_bool_false; lra|apply Rlt_bool_true; lra].
  - assert (0 < F2R (Float radix2 (Z.pos m) e)) by (apply F2R_gt_0; simpl; lia).
    repeat split; [lra|apply Rlt_bool_true; lra|apply Rlt_bool_false; lra].
Qed.

Lemma xsgn_F2R s m e p : xsgn_inf (F2R (Float radix2 (cond_Zopp s (Z.pos m)) e)) p =
  if xorb s p then PInf else NInf.
Proof.
  unfold xsgn_inf. destruct (F2R_sgn s m e) as (H1 & H2 & _).
  rewrite Req_bool_false by assumption. rewrite H2. destruct s, p; reflexivity.
Qed.

Lemma xsgn_0 p : xsgn_inf 0 p = XNaN.
Proof. unfold xsgn_inf. rewrite Req_bool_true; reflexivity. Qed.

Lemma val_mult (x y : b64) : val (Bmult mode_NE x y) = xmul R64 (val x) (val y).
Proof.
  destruct (is_finite x) eqn:Fx, (is_finite y) eqn:Fy.
  - rewrite val_mult_fin, (val_finite x), (val_finite y) by assumption. reflexivity.
  - destruct x as [s|s| |s m e H], y as [s'|[]| |s' m' e' H']; try discriminate;
      simpl; rewrite ?xsgn_0; try reflexivity; rewrite xsgn_F2R; destruct s; reflexivity.
  - destruct x as [s|[]| |s m e H], y as [s'|s'| |s' m' e' H']; try discriminate;
      simpl; rewrite ?xsgn_0; try reflexivity; rewrite xsgn_F2R; destruct s'; reflexivity.
  - destruct x as [s|[]| |s m e H], y as [s'|[]| |s' m' e' H']; try discriminate; reflexivity.
Qed.

(** division, except by zero (the sign of a zero is not represented) *)
Lemma val_div (x y : b64) : B2R y <> 0 \/ is_finite y = false ->
  val (Bdiv mode_NE x y) = xdiv R64 (val x) (val y).
Proof.
  intros Hy. destruct (is_finite x) eqn:Fx, (is_finite y) eqn:Fy.
  - destruct Hy as [Hy|?]; [|discriminate].
    rewrite val_div_fin, (val_finite x), (val_finite y) by assumption. simpl.
    rewrite Req_bool_false by assumption. reflexivity.
  - destruct x as [s|s| |s m e H], y as [s'|[]| |s' m' e' H']; try discriminate;
      simpl; try reflexivity;  destruct s; simpl; rewrite ?F2R_0; try reflexivity.
  - destruct x as [s|[]| |s m e H], y as [s'|s'| |s' m' e' H']; try discriminate;
      simpl; try reflexivity; destruct Hy as [Hy|?]; try discriminate; simpl in Hy; try lra;
      destruct (F2R_sgn s' m' e') as (_ & _ & E); rewrite E; destruct s'; reflexivity.
  - destruct x as [s|[]| |s m e H], y as [s'|[]| |s' m' e' H']; try discriminate; reflexivity.
Qed.

Lemma val_sqrt (x : b64) : val (Bsqrt mode_NE x) = xsqrt R64 (val x).
Proof.
  destruct (is_finite x) eqn:Fx.
  - rewrite (val_finite x) by assumption. simpl.
    destruct (Rlt_bool_spec (B2R x) 0) as [H|H].
    + destruct x as [s|s| |[] m e Hb]; try discriminate; simpl in *; try lra; try reflexivity.
      exfalso. assert (0 < F2R (Float radix2 (Z.pos m) e)) by (apply F2R_gt_0; simpl; lia). lra.
    + apply val_sqrt_fin; assumption.
  - destruct x as [s|[]| |s m e H]; try discriminate; reflexivity.
Qed.

Lemma Zfloor_F2R v e : (if 0 <=? e then v * 2 ^ e else v / 2 ^ (- e))%Z =
  Zfloor (F2R (Float radix2 v e)).
Proof.
  unfold F2R; simpl Fnum; simpl Fexp.
  destruct (Z.leb_spec 0 e).
  - rewrite <- IZR_Zpower by assumption. rewrite <- mult_IZR, Zfloor_IZR. reflexivity.
  - replace e with (- (- e))%Z at 2 by lia. rewrite bpow_opp.
    rewrite <- IZR_Zpower by lia. change (IZR v * / IZR (radix2 ^ (- e))) with (IZR v / IZR (radix2 ^ (- e))).
    rewrite Zfloor_div. reflexivity.
    apply Z.pow_nonzero; [discriminate|lia].
Qed.

Lemma val_floor (x : b64) : b64_floor x = xfloor (val x).
Proof.
  destruct x as [s|s| |s m e H]; try reflexivity.
  - simpl. f_equal. symmetry. apply (Zfloor_IZR 0).
  - destruct s; reflexivity.
  - change (b64_floor (B754_finite s m e H)) with
      (Some (if 0 <=? e then (if s then Z.neg m else Z.pos m) * 2 ^ e
             else (if s then Z.neg m else Z.pos m) / 2 ^ (- e))%Z).
    rewrite Zfloor_F2R. destruct s; reflexivity.
Qed.

(** equality of doubles without sign *)
Lemma val_inj_pos (x y : b64) : Bsign x = Bsign y -> val x = val y -> x = y.
Proof.
  intros Hs Hv. destruct (is_finite x) eqn:Fx.
  - rewrite val_finite in Hv by assumption. symmetry in Hv. apply val_Fin in Hv as [Fy E].
    apply B2R_Bsign_inj; auto.
  - destruct x as [s|s| |s m e H]; try discriminate;
    destruct y as [s'|s'| |s' m' e' H']; simpl in *; try destruct s; try destruct s'; try discriminate; auto.
Qed.

Lemma Babs_val_inj (x y : b64) : val (Babs x) = val (Babs y) -> Babs x = Babs y.
Proof.
  intros H. apply val_inj_pos; [|exact H].
  destruct x, y; reflexivity.
Qed.

Lemma Bmult_sq_sign (x : b64) : Bsign (Bmult mode_NE x x) = false.
Proof.
  pose proof (Bmult_correct prec64 emax64 _ _ mode_NE x x) as H.
  change (SpecFloat.fexp prec64 emax64) with fexp64 in H.
  destruct (Rlt_bool _ _).
  - destruct H as (_ & _ & H).
    destruct (Bmult mode_NE x x) eqn:E; try reflexivity;
      rewrite H by reflexivity; apply xorb_nilpotent.
  - apply val_overflow in H. rewrite H, xorb_nilpotent. reflexivity.
Qed.

Notation N64 := (XRN R64).

Lemma nn_val (x : b64) : @nn B64 x <-> @nn N64 (val x).
Proof. unfold nn; simpl. rewrite val_eqb. reflexivity. Qed.
Lemma nle_val (x y : b64) : @nle B64 x y <-> @nle N64 (val x) (val y).
Proof. unfold nle. rewrite !nn_val. simpl. rewrite val_ltb. reflexivity. Qed.
Lemma nleP_val (x y : b64) : @nle B64 x y <-> xleP (val x) (val y).
Proof. rewrite nle_val. apply nle_xleP. Qed.
Lemma nnP_val (x : b64) : @nn B64 x <-> xnn (val x).
Proof. rewrite nn_val. apply nn_xnn. Qed.

Lemma val_0 : val (@n0 B64) = Fin 0.
Proof. reflexivity. Qed.

Lemma eqv_val (x y : b64) : xnn (val x) -> val x = val y -> @neqv B64 x y.
Proof.
  intros Hn E. split; apply nleP_val; rewrite <- E; apply xleP_refl; assumption.
Qed.

Definition bfin (x : b64) : Prop := is_finite x = true.

Lemma fin_val x : bfin x -> val x = Fin (B2R x).
Proof. apply val_finite. Qed.

Lemma xnn_Fin r : xnn (Fin r).
Proof. unfold xnn; congruence. Qed.

Lemma nlt0_val (x : b64) : is_finite x = true -> @nlt B64 n0 x -> 0 < B2R x.
Proof.
  intros F. unfold nlt. change (@nltb B64 n0 x) with (Bltb (@n0 B64) x). rewrite val_ltb, val_0.
  rewrite (val_finite x) by assumption. unfold xltb. destruct (Rlt_bool_spec 0 (B2R x)); [auto|discriminate].
Qed.

Lemma ofZ_small k : (Z.abs k <= 2 ^ 53)%Z -> val (b64_ofZ k) = Fin (IZR k).
Proof. intros; rewrite val_ofZ. apply (g_ofZ_fin R64 fmt64 R64_fmt fmt64_Z); assumption. Qed.

#[local] Ltac toX := rewrite ?nleP_val, ?nnP_val in *; change (val (@n0 B64)) with (Fin 0) in *.

#[local] Arguments b64_ofZ : simpl never.
#[local] Arguments n0 : simpl never.
#[local] Arguments Bdiv : simpl never.

Lemma bfin_iff (x : b64) : @nfin B64 x <-> bfin x.
Proof.
  unfold nfin, bfin; simpl. rewrite !val_ltb.
  destruct x as [s|[]| |s m e H]; simpl; split; intros H1; try destruct H1; try congruence; auto.
Qed.

#[global] Instance B64_laws : NumLaws B64.
Proof.
  assert (fin_inv : forall x : b64, @nfin B64 x -> bfin x) by (intros; apply bfin_iff; assumption).
  refine (mkLaws B64 _ _ _ _ _ _ _ _ _ _ _ _ _ _ _ _ _ _ _ _ _ _ _ _ _ _ _ _ _ _ _ _ _ _ _ _ _ _ _ _ _ _ _).
  - intros x; simpl; rewrite val_ltb; apply g_irrefl.
  - intros x y z; simpl; rewrite !val_ltb; apply g_trans.
  - intros x y; simpl; rewrite val_ltb; rewrite !nn_val; apply g_lt_nn.
  - intros x y z; rewrite !nn_val; simpl; rewrite !val_ltb; apply g_cotrans.
  - intros x y; rewrite !nn_val; simpl; rewrite val_eqb, !val_ltb; apply g_eqb.
  - reflexivity.
  - intros x; simpl; rewrite val_ltb; destruct (val x); reflexivity.
  - reflexivity.
  - intros x; simpl; rewrite val_ltb; destruct (val x); reflexivity.
  - intros k H; apply bfin_iff; simpl. apply ofZ_small, val_Fin in H; apply H.
  - intros k k' H; toX; simpl; rewrite !val_ofZ. apply (g_ofZ_le R64 R64_mono); assumption.
  - intros k k' H H1 H2; unfold nlt; simpl; rewrite val_ltb, !ofZ_small by auto; simpl.
    apply Rlt_bool_true, IZR_lt, H.
  - intros k H; simpl; rewrite val_floor, val_ofZ. apply (g_floor_ofZ R64 fmt64 R64_fmt fmt64_Z); assumption.
  - intros x H; simpl; rewrite val_floor, (fin_val x) by auto; eexists; reflexivity.
  - intros x k; simpl; rewrite val_floor; destruct (val x) eqn:E; simpl; intros; try discriminate.
    apply bfin_iff. apply val_Fin in E; apply E.
  - intros x y k k' H; toX; simpl; rewrite !val_floor; apply g_floor_mono, H.
  - intros x y Hx Hy; toX; simpl; rewrite val_minus, !fin_val by auto.
    apply (g_sub_nn R64 R64_mono).
  - intros x x' y y' Fx Fx' Fy Fy' H1 H2; toX; simpl; rewrite !val_minus.
    rewrite !fin_val in * by auto. apply (g_sub_mono R64 R64_mono); assumption.
  - intros x F. apply eqv_val; simpl; rewrite val_minus, (fin_val x) by auto;
      rewrite (g_sub_self R64 fmt64 R64_fmt fmt64_Z); [apply xnn_Fin|reflexivity].
  - intros x y Fx Fy; simpl. apply Babs_val_inj. rewrite !val_abs, !val_minus, !fin_val by auto.
    apply (g_sub_opp R64 R64_opp).
  - intros x F. pose proof (val_fmt x) as Hf.
    apply eqv_val; simpl; rewrite val_minus; change (val (@n0 B64)) with (Fin 0);
      rewrite (fin_val x) in * by auto; rewrite (g_sub_0 R64 fmt64 R64_fmt) by auto;
      [apply xnn_Fin|reflexivity].
  - intros x H; toX; simpl; rewrite val_abs; apply g_abs_nn, H.
  - intros x H. apply bfin_iff. apply fin_inv in H. unfold bfin in *; simpl; rewrite is_finite_Babs; assumption.
  - intros x H; toX. apply eqv_val; simpl; rewrite val_abs, g_abs_pos by auto; [|reflexivity].
    destruct (val x); simpl in H; unfold xnn; try tauto; congruence.
  - intros x y H1 H2; toX; simpl; rewrite !val_abs; apply g_abs_neg_mono; assumption.
  - intros x y Hx Hy H; toX; simpl in *; rewrite !val_abs in H; rewrite !val_mult.
    apply (g_sq_mono R64 R64_mono); assumption.
  - intros x H; toX; simpl; rewrite val_mult. apply (g_sq_pos R64 fmt64 R64_mono R64_fmt fmt64_Z); assumption.
  - intros x y H; simpl in *. apply val_inj_pos; [rewrite !Bmult_sq_sign; reflexivity|].
    rewrite !val_mult. apply (g_mul_abs R64). rewrite <- !val_abs, H. reflexivity.
  - intros x x' y Fx' Fy H1 H2 H3; toX; simpl; rewrite !val_mult.
    rewrite (fin_val x'), (fin_val y) in * by auto.
    destruct (val x) as [a| | |]; try (simpl in *; tauto).
    apply (g_mul_mono R64 R64_mono); assumption.
  - intros x F. pose proof (val_fmt x) as Hf.
    apply eqv_val; simpl; rewrite val_mult, (ofZ_small 1) by (simpl; lia);
      rewrite (fin_val x) in * by auto; rewrite (g_mul_1 R64 fmt64 R64_fmt) by auto;
      [apply xnn_Fin|reflexivity].
  - intros x y y' Fx Fy' H1 H2 H3; toX; simpl; rewrite !val_mult.
    rewrite (fin_val y'), (fin_val x) in * by auto.
    destruct (val y) as [a| | |]; try (simpl in *; tauto).
    apply (g_mul_mono_r R64 R64_mono); assumption.
  - intros x x' y y' H1 H2 H3 H4; toX; simpl; rewrite !val_plus.
    apply (g_add_mono R64 R64_mono); assumption.
  - intros x y H1 H2; toX; simpl; rewrite val_plus.
    apply (g_add_l R64 fmt64 R64_mono R64_fmt); auto using val_fmt.
  - intros x y H1 H2; toX; simpl; rewrite val_plus.
    apply (g_add_r R64 fmt64 R64_mono R64_fmt); auto using val_fmt.
  - intros x H; toX. apply eqv_val; simpl; rewrite val_plus; change (val (@n0 B64)) with (Fin 0);
      rewrite (g_add_0 R64 fmt64 R64_fmt) by auto using val_fmt; [|reflexivity].
    destruct (val x); simpl in H; unfold xnn; try tauto; congruence.
  - intros x y H1 H2; toX; simpl; rewrite !val_sqrt. apply (g_sqrt_mono R64 R64_mono); assumption.
  - apply eqv_val; simpl; [apply xnn_Fin|reflexivity].
  - intros x y k Hk H1 H2; toX; simpl.
    assert (Hk' : 0 < IZR k) by (apply (IZR_lt 0 k); lia).
    destruct (val_Fin _ _ (ofZ_small k ltac:(lia))) as [Fk Ek].
    rewrite !val_div by (left; rewrite Ek; lra). rewrite ofZ_small by lia.
    apply (g_quo_mono R64 R64_mono); assumption.
  - intros k Hk.
    assert (Hk' : 0 < IZR k) by (apply (IZR_lt 0 k); lia).
    destruct (val_Fin _ _ (ofZ_small k ltac:(lia))) as [Fk Ek].
    apply eqv_val; simpl; rewrite val_div by (left; rewrite Ek; lra); rewrite ofZ_small by lia;
      change (val (@n0 B64)) with (Fin 0); rewrite (g_quo_0 R64 fmt64 R64_fmt fmt64_Z) by auto;
      [apply xnn_Fin|reflexivity].
  - intros x y z Fx Fy Fz H1 H2 H3; toX; simpl. apply nlt0_val in H3; [|apply fin_inv; assumption].
    rewrite !val_div by (left; lra). rewrite (fin_val z) by auto.
    apply (g_quo_mono R64 R64_mono); assumption.
  - intros x F H. apply nlt0_val in H; [|apply fin_inv; assumption].
    apply eqv_val; simpl; rewrite val_div by (left; lra); rewrite (fin_val x) by auto;
      rewrite (g_quo_self R64 fmt64 R64_fmt fmt64_Z) by auto; [apply xnn_Fin|].
    symmetry; apply (ofZ_small 1); simpl; lia.
  - intros x F H. apply nlt0_val in H; [|apply fin_inv; assumption].
    apply eqv_val; simpl; rewrite val_div by (left; lra); rewrite (fin_val x) by auto;
      change (val (@n0 B64)) with (Fin 0);
      rewrite (g_quo_0 R64 fmt64 R64_fmt fmt64_Z) by auto; [apply xnn_Fin|reflexivity].
  - intros x F. pose proof (val_fmt x) as Hf.
    destruct (val_Fin _ _ (ofZ_small 1 ltac:(lia))) as [Fk Ek].
    apply eqv_val; simpl; rewrite val_div by (left; rewrite Ek; lra); rewrite (ofZ_small 1) by (simpl; lia);
      rewrite (fin_val x) in * by auto; rewrite (g_quo_1 R64 fmt64 R64_fmt) by auto;
      [apply xnn_Fin|reflexivity].
Qed.
