(** The extents of the search, in doubles. *)
From Coq Require Import Reals Lra Lia.
From Flocq Require Import Core BinarySingleNaN Relative.
From Verif Require Import Base Num NumB64 NumXR NumB64Laws Extent ExtentSpec DecReal DecRound.
Local Open Scope Z_scope.
Local Open Scope list_scope.

(** a hundredth of the [i]-th percentage is [i + 1] thousandths, nearly *)
Definition close_enough (p : nat * b64) : bool :=
  match B2SF (Bdiv mode_NE (snd p) (b64_ofZ 100)) with
  | SpecFloat.S754_finite false m e =>
      (e <? 0) && (Z.abs (1000 * Zpos m - (Z.of_nat (fst p) + 1) * 2 ^ (- e)) * 2 ^ 51 <=? (Z.of_nat (fst p) + 1) * 2 ^ (- e))
  | _ => false
  end.

Lemma percents_close : length percents = 1000%nat /\ forallb close_enough (combine (seq 0 1000) percents) = true.
Proof. split; vm_compute; reflexivity. Qed.

Lemma percents_nth i x : nth_error percents i = Some x -> (i < 1000)%nat /\ close_enough (i, x) = true.
Proof.
  intros Hi. destruct percents_close as [L C].
  assert (Hlt : (i < 1000)%nat) by (rewrite <- L; apply nth_error_Some; congruence). split; [exact Hlt|].
  rewrite forallb_forall in C. apply C.
  assert (Hs : nth_error (seq 0 1000) i = Some i).
  { rewrite (nth_error_nth' (seq 0 1000) 0%nat) by (rewrite seq_length; lia). rewrite seq_nth by lia. reflexivity. }
  assert (J : forall (s : list nat) (l : list b64) j i x, nth_error l j = Some x -> nth_error s j = Some i -> In (i, x) (combine s l)).
  { clear. induction s as [|a s IH]; intros [|b l] [|j] i x H1 H2; try discriminate H1; try discriminate H2.
    - left. injection H1 as <-. injection H2 as <-. reflexivity.
    - right. eapply IH; eauto. }
  exact (J _ _ _ _ _ Hi Hs).
Qed.

(** rounding to an integer *)
Lemma round_away_near (x : b64) : is_finite x = true -> (0 <= B2R x)%R -> (Rabs (IZR (round_away x) - B2R x) <= / 2)%R.
Proof.
  destruct x as [s|s| |s m e H]; intros Hf Hx; try discriminate Hf.
  - unfold round_away. cbn [B2SF BinarySingleNaN.B2R]. rewrite Rminus_0_r, Rabs_R0. lra.
  - destruct s.
    { exfalso. revert Hx. apply Rlt_not_le. apply F2R_lt_0. reflexivity. }
    unfold round_away. cbn [B2SF BinarySingleNaN.B2R cond_Zopp]. clear Hx Hf H.
    destruct (Z.leb_spec 0 e) as [He|He].
    + unfold F2R. cbn [Fnum Fexp]. rewrite mult_IZR, <- IZR_2 by exact He. rewrite Rminus_diag_eq by reflexivity. rewrite Rabs_R0. lra.
    + assert (P : 0 < 2 ^ (- e)) by (apply Z.pow_pos_nonneg; lia).
      set (dd := 2 ^ (- e)) in *. set (v := (2 * Z.pos m + dd) / (2 * dd)).
      pose proof (Z.mul_div_le (2 * Z.pos m + dd) (2 * dd) ltac:(lia)) as L1.
      pose proof (Z.mul_succ_div_gt (2 * Z.pos m + dd) (2 * dd) ltac:(lia)) as L2. fold v in L1, L2.
      assert (Eb : (IZR dd * b2 e = 1)%R).
      { unfold dd. rewrite IZR_2 by lia. rewrite <- bpow_plus. replace (- e + e) with 0 by lia. reflexivity. }
      unfold F2R. cbn [Fnum Fexp]. pose proof (b2_pos e) as Pe. 
      assert (PD : (0 < IZR dd)%R) by (apply IZR_lt; exact P).
      assert (R1 : (2 * IZR dd * IZR v <= 2 * IZR (Z.pos m) + IZR dd)%R) by (rewrite <- !mult_IZR, <- plus_IZR; apply IZR_le; lia).
      assert (R2 : (2 * IZR (Z.pos m) + IZR dd <= 2 * IZR dd * (IZR v + 1))%R) by (rewrite <- (plus_IZR v 1), <- !mult_IZR, <- plus_IZR; apply IZR_le; lia).
      replace (IZR (Z.pos m) * b2 e)%R with (IZR (Z.pos m) / IZR dd)%R.
      2:{ apply Rmult_eq_reg_r with (IZR dd); [|lra]. unfold Rdiv. rewrite Rmult_assoc, Rinv_l by lra. rewrite Rmult_assoc, (Rmult_comm (b2 e)), Eb. reflexivity. }
      apply Rabs_le. split.
      * apply Rmult_le_reg_r with (IZR dd); [exact PD|]. unfold Rdiv. rewrite Rmult_minus_distr_r, Rmult_assoc, Rinv_l by lra. lra.
      * apply Rmult_le_reg_r with (IZR dd); [exact PD|]. unfold Rdiv. rewrite Rmult_minus_distr_r, Rmult_assoc, Rinv_l by lra. lra.
Qed.

(** a hundredth of a percentage *)
Lemma share i x : nth_error percents i = Some x -> let c := Bdiv mode_NE x (b64_ofZ 100) in
  is_finite c = true /\ (Rabs (1000 * B2R c - (INR i + 1)) <= (INR i + 1) * b2 (-51))%R.
Proof.
  intros Hi. destruct (percents_nth i x Hi) as [_ Hc]. cbv zeta. revert Hc. unfold close_enough. cbn [fst snd].
  generalize (Bdiv mode_NE x (b64_ofZ 100)). clear. intros [s|s| |s m e H]; cbn [B2SF]; try discriminate.
  destruct s; [discriminate|]. intros Hc. apply andb_prop in Hc. destruct Hc as [He Hc]. apply Z.ltb_lt in He. apply Z.leb_le in Hc.
  split; [reflexivity|]. unfold BinarySingleNaN.B2R. cbn [cond_Zopp]. unfold F2R. cbn [Fnum Fexp]. clear H.
  assert (P : 0 < 2 ^ (- e)) by (apply Z.pow_pos_nonneg; lia).
  assert (Eb : (IZR (2 ^ (- e)) * b2 e = 1)%R).
  { rewrite IZR_2 by lia. rewrite <- bpow_plus. replace (- e + e) with 0 by lia. reflexivity. }
  set (dd := 2 ^ (- e)) in *. pose proof (b2_pos e) as Pe. apply IZR_lt in P.
  apply IZR_le in Hc. rewrite !mult_IZR, abs_IZR, minus_IZR, !mult_IZR, !plus_IZR, <- INR_IZR_INZ in Hc.
  rewrite (IZR_2 51) in Hc by lia.
  assert (E51 : (b2 51 * b2 (-51) = 1)%R) by (rewrite <- bpow_plus; reflexivity). pose proof (b2_pos (-51)) as P51.
  replace (1000 * (IZR (Z.pos m) * b2 e) - (INR i + 1))%R with ((1000 * IZR (Z.pos m) - (INR i + 1) * IZR dd) * b2 e)%R.
  2:{ rewrite Rmult_minus_distr_r, (Rmult_assoc (INR i + 1)), Eb. ring. }
  rewrite Rabs_mult, (Rabs_pos_eq (b2 e)) by lra.
  set (w := Rabs (1000 * IZR (Z.pos m) - (INR i + 1) * IZR dd)) in *.
  assert (Hw : (w <= (INR i + 1) * IZR dd * b2 (-51))%R).
  { apply Rle_trans with (w * b2 51 * b2 (-51))%R; [rewrite Rmult_assoc, E51; lra|]. apply Rmult_le_compat_r; lra. }
  apply Rle_trans with ((INR i + 1) * IZR dd * b2 (-51) * b2 e)%R; [apply Rmult_le_compat_r; lra|].
  replace ((INR i + 1) * IZR dd * b2 (-51) * b2 e)%R with ((INR i + 1) * b2 (-51) * (IZR dd * b2 e))%R by ring. rewrite Eb. lra.
Qed.

Lemma extent_near n i x : 0 <= n <= 2 ^ 39 -> nth_error percents i = Some x -> thousandths n i (extent n x).
Proof.
  intros Hn Hi. destruct (percents_nth i x Hi) as [Hlt _]. destruct (share i x Hi) as [Fc Hc]. revert Fc Hc.
  unfold extent. generalize (Bdiv mode_NE x (b64_ofZ 100)). clear Hi x. intros c Fc Hc.
  assert (Hz : is_finite (b64_ofZ n) = true /\ B2R (b64_ofZ n) = IZR n).
  { apply val_Fin. apply ofZ_small. lia. }
  destruct Hz as [Fn Vn].
  assert (Hi0 : (0 <= INR i)%R) by apply pos_INR.
  assert (Hi1 : (INR i + 1 <= 1000)%R).
  { rewrite <- S_INR. replace 1000%R with (IZR 1000) by reflexivity. rewrite INR_IZR_INZ. apply IZR_le. lia. }
  assert (Q : (b2 (-51) <= / 1024)%R).
  { replace (/ 1024)%R with (b2 (-10)) by (cbn; lra). apply bpow_le. lia. }
  pose proof (b2_pos (-51)) as P51.
  assert (Pc : (0 < B2R c <= 2)%R).
  { apply Rabs_le_inv in Hc. split; nra. }
  assert (Hn0 : (0 <= IZR n)%R) by (apply IZR_le; lia).
  assert (Hn1 : (IZR n <= b2 39)%R) by (rewrite <- IZR_2 by lia; apply IZR_le; lia).
  set (r := (B2R c * IZR n)%R).
  assert (Pr : (0 <= r)%R) by (apply Rmult_le_pos; lra).
  assert (Hr : (r <= b2 40)%R).
  { replace (b2 40) with (2 * b2 39)%R by (cbn; lra). apply Rmult_le_compat; lra. }
  assert (Hnear : (Rabs (near r - r) <= b2 (-53) * r)%R).
  { destruct (Z.eq_dec n 0) as [->|Hnz].
    - unfold r. rewrite Rmult_0_r, near_0, Rminus_0_r, Rabs_R0. lra.
    - apply near_err. apply Rle_trans with (b2 (-10) / 2)%R.
      + replace (b2 (-10) / 2)%R with (b2 (-11)) by (cbn; lra). apply bpow_le. lia.
      + assert (1 <= IZR n)%R by (apply IZR_le; lia). unfold r.
        replace (b2 (-10)) with (/ 1024)%R by (cbn; lra). apply Rabs_le_inv in Hc. nra. }
  assert (Hv : is_finite (Bmult mode_NE c (b64_ofZ n)) = true /\ B2R (Bmult mode_NE c (b64_ofZ n)) = near r).
  { apply val_Fin. rewrite val_mult_fin by assumption. rewrite Vn. fold r. unfold R64.
    change (rne r) with (near r). rewrite Rlt_bool_true; [reflexivity|].
    apply Rle_lt_trans with (b2 41).
    - apply Rabs_le_inv in Hnear. assert (b2 (-53) <= 1)%R by (replace 1%R with (b2 0) by reflexivity; apply bpow_le; lia).
      replace (b2 41) with (2 * b2 40)%R by (cbn; lra). pose proof (b2_pos (-53)). apply Rabs_le. split; nra.
    - apply bpow_lt. reflexivity. }
  destruct Hv as [Fv Vv].
  assert (Hpos : (0 <= near r)%R) by (rewrite <- near_0; apply near_mono; exact Pr).
  pose proof (round_away_near (Bmult mode_NE c (b64_ofZ n)) Fv) as K. rewrite Vv in K. specialize (K Hpos).
  set (ke := round_away (Bmult mode_NE c (b64_ofZ n))) in *. clearbody ke.
  unfold thousandths.
  assert (Rabs (1000 * IZR ke - (INR i + 1) * IZR n) < 501)%R.
  { apply Rabs_le_inv in K. apply Rabs_le_inv in Hnear. apply Rabs_le_inv in Hc.
    assert (D1 : (b2 (-53) * r <= b2 (-13))%R).
    { apply Rle_trans with (b2 (-53) * b2 40)%R; [apply Rmult_le_compat_l; [apply Rlt_le, b2_pos|exact Hr]|]. rewrite <- bpow_plus. apply Rle_refl. }
    assert (D2 : (Rabs (1000 * r - (INR i + 1) * IZR n) <= 1000 * b2 (-12))%R).
    { unfold r. replace (1000 * (B2R c * IZR n) - (INR i + 1) * IZR n)%R with ((1000 * B2R c - (INR i + 1)) * IZR n)%R by ring.
      rewrite Rabs_mult, (Rabs_pos_eq (IZR n)) by lra.
      apply Rle_trans with (1000 * b2 (-51) * b2 39)%R.
      - apply Rmult_le_compat; [apply Rabs_pos|lra| |lra]. apply Rabs_le. split; nra.
      - rewrite Rmult_assoc, <- bpow_plus. apply Rle_refl. }
    apply Rabs_le_inv in D2.
    assert (S1 : (b2 (-13) = / 8192)%R) by (cbn; lra). assert (S2 : (b2 (-12) = / 4096)%R) by (cbn; lra).
    rewrite S1 in D1. rewrite S2 in D2. apply Rabs_lt. split; lra. }
  rewrite INR_IZR_INZ in H. rewrite <- (plus_IZR _ 1), <- !mult_IZR, <- minus_IZR, <- abs_IZR in H. apply lt_IZR in H. lia.
Qed.

Lemma extents_length n : length (extents n) = 1000%nat.
Proof. unfold extents. rewrite map_length. apply percents_close. Qed.

Lemma extents_nth n i ke : 0 <= n <= 2 ^ 39 -> nth_error (extents n) i = Some ke -> thousandths n i ke.
Proof.
  intros Hn Hi. unfold extents in Hi. destruct (nth_error percents i) as [x|] eqn:Ex.
  - rewrite (map_nth_error _ _ _ Ex) in Hi. injection Hi as <-. apply extent_near; assumption.
  - apply nth_error_None in Ex. assert (nth_error (map (extent n) percents) i <> None) as C by congruence.
    apply nth_error_Some in C. rewrite map_length in C. lia.
Qed.
