(** Facts about the warping band size (calculateWarpingBandSize,
    genex/distance/Distance.cpp:89-93) and about DTW with a negative band. *)
From Coq Require Import Reals Lra.
From Flocq Require Import Core.Raux IEEE754.BinarySingleNaN.
From Verif Require Import Base Num NumB64 NumLaws NumXR NumXRLaws NumB64Laws NumFacts LoopFacts
  TimeSeries Distance DtwSpec DtwPaths DtwProofs DtwMain DtwLen1.
Local Open Scope Z_scope.

Section Band.
Context {N : Num} {L : NumLaws N}.
Notation D := (D N).

Lemma ofZ_pos k : 0 <= k -> nle n0 (@nofZ N k).
Proof. intros H. apply lw_ofZ_le. exact H. Qed.

Lemma mul_nonneg (x y : D) : nfin x -> nfin y -> nle n0 x -> nle n0 y -> nle n0 (nmul x y).
Proof.
  intros Fx Fy Hx Hy. assert (F0 : nfin (@n0 N)) by (apply (lw_ofZ_fin 0); simpl; lia).
  apply (nle_trans _ (nmul n0 n0)); [apply lw_sq_pos, n0_nn|].
  apply (nle_trans _ (nmul x n0)).
  - apply lw_mul_mono; auto; apply nle_refl, n0_nn.
  - apply lw_mul_mono_r; auto; apply nle_refl, n0_nn.
Qed.

Lemma band_range (ratio : D) len r : 1 <= len <= 2 ^ 53 -> nfin ratio -> nle n0 ratio ->
  band ratio len = Ret r -> 0 <= r <= len - 1.
Proof.
  intros Hl Fq Hq. unfold band. destruct (nfloor _) as [k|] eqn:Ek; [|discriminate].
  destruct ((int_min <=? k) && (k <=? int_max)); [|discriminate]. intros E. injection E as <-.
  assert (0 <= k).
  { apply (lw_floor_mono n0 (nmul (nofZ len) ratio) 0 k); auto.
    - apply mul_nonneg; auto; [apply lw_ofZ_fin; lia|apply ofZ_pos; lia].
    - apply (lw_floor_ofZ 0). simpl; lia. }
  lia.
Qed.

Lemma band_defined (ratio : D) len : 1 <= len <= 2 ^ 53 -> nfin ratio -> nle n0 ratio ->
  nle (nmul (nofZ len) ratio) (nofZ int_max) -> exists r, band ratio len = Ret r.
Proof.
  intros Hl Fq Hq Hp. unfold band.
  assert (Hm : Z.abs int_max <= 2 ^ 53) by (unfold int_max; lia).
  assert (H0 : nle n0 (nmul (nofZ len) ratio)).
  { apply mul_nonneg; auto; [apply lw_ofZ_fin; lia|apply ofZ_pos; lia]. }
  assert (Fp : nfin (nmul (nofZ len) ratio)).
  { pose proof (lw_ofZ_fin (N:=N) int_max Hm) as [_ Hi].
    assert (F0 : nfin (@n0 N)) by (apply (lw_ofZ_fin 0); simpl; lia).
    split; [apply (nlt_le_trans _ n0); [apply F0|exact H0]|apply (nle_lt_trans _ (nofZ int_max)); auto]. }
  destruct (lw_floor_fin _ Fp) as (k & Ek). rewrite Ek.
  assert (k <= int_max) by (apply (lw_floor_mono _ _ _ _ Hp Ek), lw_floor_ofZ, Hm).
  assert (0 <= k) by (apply (lw_floor_mono _ _ 0 _ H0); auto; apply (lw_floor_ofZ 0); simpl; lia).
  destruct (Z.leb_spec int_min k); [|unfold int_min in *; lia]. destruct (Z.leb_spec k int_max); [|lia].
  simpl. eauto.
Qed.

Lemma band_defined_1 (ratio : D) len : 1 <= len <= int_max -> nfin ratio -> nle n0 ratio -> nle ratio (nofZ 1) ->
  exists r, band ratio len = Ret r.
Proof.
  intros Hl Fq Hq H1. unfold int_max in *. apply band_defined; auto; [lia|].
  assert (Fl : nfin (@nofZ N len)) by (apply lw_ofZ_fin; lia).
  apply (nle_trans _ (nmul (nofZ len) (nofZ 1))).
  - apply lw_mul_mono_r; auto; [apply (lw_ofZ_fin 1); simpl; lia|apply ofZ_pos; lia].
  - apply (nle_trans _ (nofZ len)); [apply lw_mul_1, Fl|apply lw_ofZ_le; unfold int_max; lia].
Qed.

Lemma band_mono (ratio : D) len len' r r' : 1 <= len <= len' -> len' <= 2 ^ 53 -> nfin ratio -> nle n0 ratio ->
  band ratio len = Ret r -> band ratio len' = Ret r' -> r <= r'.
Proof.
  intros Hl Hl' Fq Hq. unfold band.
  destruct (nfloor (nmul (nofZ len) ratio)) as [k|] eqn:Ek; [|discriminate].
  destruct (nfloor (nmul (nofZ len') ratio)) as [k'|] eqn:Ek'; [|discriminate].
  destruct ((int_min <=? k) && (k <=? int_max)); [|discriminate].
  destruct ((int_min <=? k') && (k' <=? int_max)); [|discriminate].
  intros E E'. injection E as <-. injection E' as <-.
  assert (k <= k').
  { apply (lw_floor_mono (nmul (nofZ len) ratio) (nmul (nofZ len') ratio) k k'); auto.
    apply lw_mul_mono; auto; [apply lw_ofZ_fin; lia|apply ofZ_pos; lia|apply lw_ofZ_le; lia]. }
  lia.
Qed.

Lemma band_mono_ratio (ratio ratio' : D) len r r' : 1 <= len <= 2 ^ 53 -> nfin ratio' -> nle n0 ratio -> nle ratio ratio' ->
  band ratio len = Ret r -> band ratio' len = Ret r' -> r <= r'.
Proof.
  intros Hl Fq' Hq Hqq. unfold band.
  destruct (nfloor (nmul (nofZ len) ratio)) as [k|] eqn:Ek; [|discriminate].
  destruct (nfloor (nmul (nofZ len) ratio')) as [k'|] eqn:Ek'; [|discriminate].
  destruct ((int_min <=? k) && (k <=? int_max)); [|discriminate].
  destruct ((int_min <=? k') && (k' <=? int_max)); [|discriminate].
  intros E E'. injection E as <-. injection E' as <-.
  assert (k <= k').
  { apply (lw_floor_mono (nmul (nofZ len) ratio) (nmul (nofZ len) ratio') k k'); auto.
    apply lw_mul_mono_r; auto; [apply lw_ofZ_fin; lia|apply ofZ_pos; lia]. }
  lia.
Qed.

Lemma band_full (ratio : D) len r : 1 <= len <= 2 ^ 53 -> nfin ratio -> nle (nofZ 1) ratio ->
  band ratio len = Ret r -> r = len - 1.
Proof.
  intros Hl Fq Hq. unfold band. destruct (nfloor _) as [k|] eqn:Ek; [|discriminate].
  destruct ((int_min <=? k) && (k <=? int_max)); [|discriminate]. intros E. injection E as <-.
  assert (Fl : nfin (@nofZ N len)) by (apply lw_ofZ_fin; lia).
  assert (len <= k).
  { apply (lw_floor_mono (nofZ len) (nmul (nofZ len) ratio) len k); auto.
    - apply (nle_trans _ (nmul (nofZ len) (nofZ 1))); [apply lw_mul_1, Fl|].
      apply lw_mul_mono_r; auto; apply ofZ_pos; lia.
    - apply lw_floor_ofZ. lia. }
  lia.
Qed.

(** a ratio that is infinite or NaN: converting the product to int is undefined *)
Lemma band_not_finite (ratio : D) len : (forall k, nfloor (nmul (nofZ len) ratio) <> Some k) ->
  band ratio len = UB BadConversion.
Proof. unfold band. intros H. destruct (nfloor _) as [k|]; [|auto]. exfalso. apply (H k); auto. Qed.

(** ** A negative band: nothing can be aligned, every warped distance is infinite *)
Section Neg.
Variable M : Metric N.
Variable ng : Nice M.
Variables a b : TS N.
Notation m := (ts_length a).
Notation n := (ts_length b).
Hypothesis Ha : ts_ok a.
Hypothesis Hb : ts_ok b.
Hypothesis Hm : 1 <= m <= 2 ^ 30.
Hypothesis Hn : 1 <= n <= 2 ^ 30.
Hypothesis Fa : Forall nfin (ts_points a).
Hypothesis Fb : Forall nfin (ts_points b).

Lemma neg_row_loop r (dropout : D) i c : r < 0 -> 1 <= i < m -> 
  row_loop M a b r dropout i c = Ret (c, nltb dropout ninf).
Proof.
  intros Hr Hi. unfold row_loop. rewrite for_empty by lia. reflexivity.
Qed.

Lemma neg_run (ratio : D) r (dropout : D) mt : band ratio (Z.max m n) = Ret r -> r < 0 -> 2 <= m \/ 2 <= n ->
  exists p, warpedDistance M a b ratio dropout mt = Ret (ninf, p).
Proof.
  intros Hband Hr H2. unfold warpedDistance. rewrite Hband. cbn [bind].
  assert (E11 : (m =? 1) && (n =? 1) = false).
  { destruct (Z.eqb_spec m 1) as [E|E]; [|reflexivity]. destruct (Z.eqb_spec n 1) as [E'|E']; [|reflexivity].
    exfalso. lia. }
  rewrite E11.
  rewrite (fill_border M a b Hm Hn).
  destruct (start_ok M ng a b Ha Hb Hm Hn Fa Fb) as (c & E & HS & _ & HL).
  assert (EB : border M a b r = Ret c).
  { unfold border. apply bind_Ret in E as (nc & E1 & E). rewrite E1. cbn [bind]. rewrite E. cbn [bind].
    rewrite for_empty by lia. cbn [bind]. rewrite for_empty by lia. reflexivity. }
  rewrite EB. cbn [bind].
  assert (EL : exists d, forb_ 1 m (row_loop M a b r dropout) c = Ret (c, d)).
  { unfold forb_. remember (Z.to_nat (m - 1)) as k eqn:Ek. assert (Hk : 1 + Z.of_nat k <= m) by lia.
    clear Ek EB. revert Hk. assert (H1 : 1 <= 1) by lia. revert H1. generalize 1 at 2 3 4 as lo.
    induction k as [|k IH]; intros lo Hlo Hk; [exists false; reflexivity|].
    cbn [forb_n]. rewrite neg_row_loop by lia. cbn [bind]. destruct (nltb dropout ninf); [eauto|].
    apply IH; lia. }
  destruct EL as (d & EL). rewrite EL. cbn [bind].
  rewrite (HL H2). replace (if d then Ret ninf else Ret ninf) with (Ret (@ninf N)) by (destruct d; auto). cbn [bind].
  destruct HS as (_ & Hs & Hnn).
  destruct (backtrack_ok (snd c) m n Hs Hnn (Z.to_nat (m + n)) (m - 1) (n - 1) mt) as (q & Eq & Hq); [lia|lia|lia|].
  rewrite Eq. cbn [bind]. eauto.
Qed.
End Neg.
End Band.

(** ** A negative ratio gives a negative band *)
Lemma band_neg_b64 (ratio : b64) len r : 1 <= len <= 2 ^ 53 ->
  @nltb B64 ratio (@n0 B64) = true -> band (N:=B64) ratio len = Ret r -> r < 0.
Proof.
  intros Hl Hq. unfold band.
  change (@nfloor B64 (@nmul B64 (@nofZ B64 len) ratio)) with (b64_floor (Bmult mode_NE (b64_ofZ len) ratio)).
  change (@nltb B64 ratio n0) with (Bltb ratio (b64_ofZ 0)) in Hq.
  rewrite val_ltb, !ofZ_small in Hq by (simpl; lia).
  rewrite val_floor, val_mult, ofZ_small by lia.
  pose proof (val_fmt ratio) as Hf.
  destruct (val ratio) as [x| | |] eqn:Ev; simpl in Hq; try discriminate.
  - simpl. assert (Hx : (x < 0)%R). { revert Hq. destruct (Rlt_bool_spec x 0); [auto|discriminate]. }
    assert (Hle : (IZR len * x <= x)%R).
    { assert (1 <= IZR len)%R by (apply IZR_le; lia). nra. }
    pose proof (R64_mono _ _ Hle) as Hm. simpl in Hf. rewrite (R64_fmt x Hf) in Hm.
    destruct (R64 (IZR len * x)) as [y| | |] eqn:Ey; simpl; try discriminate.
    destruct ((int_min <=? Zfloor y) && (Zfloor y <=? int_max)); [|discriminate].
    intros E. injection E as <-. simpl in Hm.
    assert (Zfloor y < 0). { apply lt_IZR. apply (Rle_lt_trans _ y); [apply Zfloor_lb|lra]. }
    lia.
  - assert (0 < IZR len)%R by (apply IZR_lt; lia). cbn [xmul]. unfold xsgn_inf.
    repeat (destruct (Rlt_bool _ _) || destruct (Req_bool _ _) || destruct (Rcompare _ _)); cbn; discriminate.
Qed.
