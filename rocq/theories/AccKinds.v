(** Rounding errors of the Euclidean, Manhattan and Chebyshev distances. *)
From Coq Require Import Reals Lra Psatz Lia ZArith.
From Flocq Require Import Core BinarySingleNaN.
From Verif Require Import Base Num NumB64 NumLaws NumFacts NumXR NumXRLaws NumB64Laws LoopFacts TimeSeries Distance
  DtwSpec DtwPaths DtwProofs Metrics DtwMain DtwResults DtwReal Pairwise AccReal AccDtw AccEnd.
Local Open Scope R_scope.

Notation bval := (@B2R prec64 emax64).
Notation bfinb := (@is_finite prec64 emax64).

Lemma R64_Fin x y : R64 x = Fin y -> y = rne x.
Proof. unfold R64. destruct (Rlt_bool _ _); [intros [= <-]; reflexivity|]. destruct (Rlt_bool _ _); discriminate. Qed.
Lemma R64_cases x : 0 <= x -> R64 x = Fin (rne x) \/ R64 x = PInf.
Proof. intros H. unfold R64. destruct (Rlt_bool (Rabs (rne x)) big); auto. rewrite Rlt_bool_false by auto. auto. Qed.

Lemma fmt_bval (x : b64) : generic_format radix2 fexp64 (bval x).
Proof. apply (generic_format_B2R prec64 emax64). Qed.

Lemma plus_fin (x y : b64) : bfinb (Bplus mode_NE x y) = true ->
  bfinb x = true /\ bfinb y = true /\ bval (Bplus mode_NE x y) = rne (bval x + bval y).
Proof.
  intros F. assert (Fx : bfinb x = true).
  { destruct x as [s|s| |s m e H], y as [s'|s'| |s' m' e' H']; try reflexivity; try discriminate F; destruct s, s'; discriminate F. }
  assert (Fy : bfinb y = true).
  { destruct x as [s|s| |s m e H], y as [s'|s'| |s' m' e' H']; try reflexivity; try discriminate F; destruct s, s'; discriminate F. }
  splits; auto. pose proof (val_plus_fin x y Fx Fy) as E. rewrite (val_finite _ F) in E. symmetry in E.
  apply R64_Fin in E. exact E.
Qed.

Lemma minus_fin (x y : b64) : bfinb x = true -> bfinb y = true -> bfinb (Bminus mode_NE x y) = true ->
  bval (Bminus mode_NE x y) = rne (bval x - bval y).
Proof.
  intros Fx Fy F. pose proof (val_minus_fin x y Fx Fy) as E. rewrite (val_finite _ F) in E. symmetry in E.
  apply R64_Fin in E. exact E.
Qed.

Lemma sq_fin (x : b64) : bfinb (Bmult mode_NE x x) = true ->
  bfinb x = true /\ bval (Bmult mode_NE x x) = rne (bval x * bval x).
Proof.
  intros F. assert (Fx : bfinb x = true).
  { destruct x as [s|s| |s m e H]; try reflexivity; try discriminate F; destruct s; discriminate F. }
  split; auto. pose proof (val_mult_fin x x Fx Fx) as E. rewrite (val_finite _ F) in E. symmetry in E.
  apply R64_Fin in E. exact E.
Qed.

Lemma abs_fin (x : b64) : bfinb (Babs x) = bfinb x.
Proof. destruct x; reflexivity. Qed.

(** pointwise costs *)
Lemma cost_abs (x y : b64) : bfinb x = true -> bfinb y = true -> bfinb (Babs (Bminus mode_NE x y)) = true ->
  Rabs (bval (Babs (Bminus mode_NE x y)) - Rabs (bval x - bval y)) <= uu * Rabs (bval x - bval y).
Proof.
  intros Fx Fy F. rewrite abs_fin in F. rewrite B2R_Babs, (minus_fin x y Fx Fy F).
  pose proof (rnd_sub _ _ (fmt_bval x) (fmt_bval y)) as E. apply Rle_trans with (2 := E).
  apply Rabs_triang_inv2.
Qed.

Lemma cost_sq (x y : b64) : bfinb x = true -> bfinb y = true ->
  bfinb (Bmult mode_NE (Bminus mode_NE x y) (Bminus mode_NE x y)) = true ->
  let c := (bval x - bval y) * (bval x - bval y) in
  let ct := bval (Bmult mode_NE (Bminus mode_NE x y) (Bminus mode_NE x y)) in
  0 <= ct /\ Rabs (ct - c) <= 4 * uu * c + TT.
Proof.
  intros Fx Fy F c ct. destruct (sq_fin _ F) as [F1 E1]. unfold ct. rewrite E1.
  pose proof (minus_fin x y Fx Fy F1) as E2. rewrite E2.
  pose proof (rnd_sub _ _ (fmt_bval x) (fmt_bval y)) as E. unfold c.
  set (d := bval x - bval y) in *. set (d' := rne d) in *.
  assert (P : 0 <= d' * d') by apply Rle_0_sqr. split; [apply rne_pos; auto|].
  pose proof (rnd_err (d' * d')) as E3. rewrite (Rabs_pos_eq (d' * d')) in E3 by auto.
  assert (E4 : Rabs (d' * d' - d * d) <= (2 * uu + uu * uu) * (d * d)).
  { replace (d' * d' - d * d) with ((d' - d) * (d' - d) + 2 * d * (d' - d)) by ring.
    apply Rle_trans with (1 := Rabs_triang _ _). rewrite !Rabs_mult, (Rabs_pos_eq 2) by lra.
    pose proof (Rabs_pos (d' - d)). pose proof (Rabs_pos d). pose proof uu_pos.
    assert (Ed : d * d = Rabs d * Rabs d) by (rewrite <- Rabs_mult, Rabs_pos_eq; [reflexivity|apply Rle_0_sqr]).
    rewrite Ed. set (D := Rabs d) in *. set (X := Rabs (d' - d)) in *.
    assert (X * X <= uu * D * (uu * D)) by (apply Rmult_le_compat; auto).
    assert (D * X <= D * (uu * D)) by (apply Rmult_le_compat_l; auto). lra. }
  pose proof uu_pos as Pu. pose proof uu_small as Su. pose proof TT_pos. pose proof e0_pos.
  pose proof e1_TT. pose proof e0_e1.
  assert (Pd : 0 <= d * d) by apply Rle_0_sqr. apply Rabs_both in E3. apply Rabs_both in E4.
  set (A := d' * d') in *. set (C := d * d) in *. set (B := rne A) in *. apply Rabs_le.
  assert (uu * uu <= uu * / 1000000) by (apply Rmult_le_compat_l; lra).
  assert (uu * A <= uu * (C * 2)).
  { apply Rmult_le_compat_l; [lra|]. assert ((2 * uu + uu * uu) * C <= 1 * C) by (apply Rmult_le_compat_r; lra). lra. }
  assert (A <= C + (2 * uu + uu * uu) * C) by lra.
  assert (uu * A <= uu * (C * (1 + / 1000))).
  { apply Rmult_le_compat_l; [lra|]. assert ((2 * uu + uu * uu) * C <= / 1000 * C) by (apply Rmult_le_compat_r; lra). lra. }
  assert (uu * uu * C <= uu * / 1000000 * C) by (apply Rmult_le_compat_r; lra).
  assert (0 <= uu * C) by (apply Rmult_le_pos; lra). split; lra.
Qed.

Lemma add_err (v c : b64) : bfinb (Bplus mode_NE v c) = true -> 0 <= bval v -> 0 <= bval c ->
  Rabs (bval (Bplus mode_NE v c) - (bval v + bval c)) <= uu * (bval v + bval c).
Proof.
  intros F Pv Pc. destruct (plus_fin v c F) as (F1 & F2 & E). rewrite E.
  pose proof (rnd_sum _ _ (fmt_bval v) (fmt_bval c)) as H. rewrite (Rabs_pos_eq (bval v + bval c)) in H by lra. exact H.
Qed.

(** normalised values below infinity *)
Lemma below_inf (x : b64) : @nlt B64 x ninf -> val x <> PInf /\ val x <> XNaN.
Proof.
  intros H. change (Bltb x (B754_infinity false) = true) in H. rewrite val_ltb in H.
  split; intros E; rewrite E in H; discriminate.
Qed.

Lemma ok_val (v : b64) : @nle B64 n0 v -> val v = PInf \/ (bfinb v = true /\ 0 <= bval v /\ val v = Fin (bval v)).
Proof.
  intros H. apply nleP_val in H. rewrite val_0 in H. destruct (val v) as [x| | |] eqn:E; simpl in H; try tauto.
  destruct (val_Fin v x E) as [F <-]. right. auto.
Qed.

Lemma ofZ_facts z : (1 <= z <= 2 ^ 53)%Z -> bfinb (b64_ofZ z) = true /\ bval (b64_ofZ z) = IZR z /\ val (b64_ofZ z) = Fin (IZR z).
Proof.
  intros Hz. pose proof (ofZ_small z ltac:(lia)) as E. destruct (val_Fin _ _ E) as [F Ev]. auto.
Qed.

Lemma div_below (q : b64) z : (1 <= z <= 2 ^ 53)%Z -> (val q = PInf \/ exists x, val q = Fin x /\ 0 <= x) ->
  @nlt B64 (Bdiv mode_NE q (b64_ofZ z) : D B64) ninf ->
  exists x, val q = Fin x /\ bfinb (Bdiv mode_NE q (b64_ofZ z)) = true /\
    bval (Bdiv mode_NE q (b64_ofZ z)) = rne (x / IZR z).
Proof.
  intros Hz Hq Hlt. destruct (ofZ_facts z Hz) as (F & Ev & Ez). apply below_inf in Hlt as [N1 N2].
  assert (Pz : 1 <= IZR z) by (apply (IZR_le 1); lia).
  assert (Hd : val (Bdiv mode_NE q (b64_ofZ z)) = xdiv R64 (val q) (val (b64_ofZ z))).
  { apply val_div. left. rewrite Ev. lra. }
  rewrite Hd in N1, N2. rewrite Ez in *. destruct Hq as [Hq|(x & Hq & Px)].
  - rewrite Hq in N1. cbn [xdiv] in N1. rewrite Rlt_bool_false in N1 by lra. contradiction.
  - exists x. rewrite Hq in *. cbn [xdiv] in *. rewrite Req_bool_false in * by lra.
    destruct (R64_cases (x / IZR z)) as [E|E]; [apply Rle_mult_inv_pos; lra| |contradiction].
    rewrite E in Hd. destruct (val_Fin _ _ Hd) as [F2 E2]. auto.
Qed.

Lemma sqrt_val (v : b64) : @nle B64 n0 v ->
  (val (Bsqrt mode_NE v) = PInf \/ exists x, val (Bsqrt mode_NE v) = Fin x /\ 0 <= x) /\
  (forall x, val (Bsqrt mode_NE v) = Fin x -> bfinb v = true /\ 0 <= bval v /\ x = rne (sqrt (bval v))).
Proof.
  intros H. rewrite val_sqrt. destruct (ok_val v H) as [E|(F & P & E)]; rewrite E; cbn [xsqrt].
  - split; [auto|]. intros x Ex. discriminate.
  - rewrite Rlt_bool_false by auto. destruct (R64_cases (sqrt (bval v)) (R_sqrt.sqrt_pos _)) as [E2|E2]; rewrite E2.
    + split; [right; exists (rne (sqrt (bval v))); split; auto; apply rne_pos, R_sqrt.sqrt_pos|]. intros x [= <-]. auto.
    + split; [auto|]. intros x Ex. discriminate.
Qed.

Lemma nle_reals (x y : b64) : bfinb x = true -> bfinb y = true -> @nle B64 x y -> bval x <= bval y.
Proof. intros Fx Fy H. apply nleP_val in H. rewrite (val_finite x Fx), (val_finite y Fy) in H. exact H. Qed.

Lemma nfin_b (x : b64) : @nfin B64 x -> bfinb x = true.
Proof. intros H. apply bfin_iff in H. exact H. Qed.

Section Warped.
Variables a b : TS B64.
Variable ratio : b64.
Variable r : Z.
Notation m := (ts_length a).
Notation n := (ts_length b).
Notation len := (Z.max m n).
Notation xs := (reals a).
Notation ys := (reals b).

(** Manhattan *)
Lemma man_nrm (v : b64) : (1 <= len <= 2 ^ 30)%Z -> @nle B64 n0 v -> @nlt B64 (nrm (@Manhattan B64) a b v) ninf ->
  bfinb v = true /\ 0 <= bval v /\ bfinb (nrm (@Manhattan B64) a b v) = true /\
  bval (nrm (@Manhattan B64) a b v) = rne (bval v / IZR (2 * len)).
Proof.
  intros Hl Hv Hlt. change (nrm (@Manhattan B64) a b v) with (Bdiv mode_NE v (b64_ofZ (2 * len))) in *.
  destruct (div_below v (2 * len) ltac:(lia)) as (x & Ex & F & E); auto.
  { destruct (ok_val v Hv) as [E|(F & P & E)]; auto. right. eauto. }
  destruct (ok_val v Hv) as [E'|(F' & P' & E')]; [rewrite E' in Ex; discriminate|].
  rewrite E' in Ex. injection Ex as <-. auto.
Qed.

Lemma euc_nrm (v : b64) : (1 <= len <= 2 ^ 30)%Z -> @nle B64 n0 v -> @nlt B64 (nrm (@Euclidean B64) a b v) ninf ->
  bfinb v = true /\ 0 <= bval v /\ bfinb (nrm (@Euclidean B64) a b v) = true /\
  bval (nrm (@Euclidean B64) a b v) = rne (rne (sqrt (bval v)) / IZR (2 * len)).
Proof.
  intros Hl Hv Hlt. change (nrm (@Euclidean B64) a b v) with (Bdiv mode_NE (Bsqrt mode_NE v) (b64_ofZ (2 * len))) in *.
  destruct (sqrt_val v Hv) as [S1 S2].
  destruct (div_below (Bsqrt mode_NE v) (2 * len) ltac:(lia) S1 Hlt) as (x & Ex & F & E).
  destruct (S2 x Ex) as (F1 & P1 & ->). auto.
Qed.

Lemma K_range : (1 <= len <= 2 ^ 30)%Z -> 1 <= IZR (2 * len) <= KK.
Proof.
  intros H. split; [apply (IZR_le 1); lia|]. rewrite KK_val. apply IZR_le. lia.
Qed.

Definition sqd (x y : R) : R := (x - y) * (x - y).
Definition absd (x y : R) : R := Rabs (x - y).

Lemma man_close mt : dtw_pre (@Manhattan B64) a b ratio r -> (Z.abs (m - n) <= r)%Z ->
  exists v mt', bfinb v = true /\ 0 <= bval v /\
    bfinb (nrm (@Manhattan B64) a b v) = true /\
    bval (nrm (@Manhattan B64) a b v) = rne (bval v / IZR (2 * len)) /\
    Psi (@Manhattan B64) a b r bval absd (m - 1) (n - 1) v /\
    warpedDistance (@Manhattan B64) a b ratio (@ninf B64) mt = Ret (nrm (@Manhattan B64) a b v, mt').
Proof.
  intros Hpre Hab. assert (Hl : (1 <= len <= 2 ^ 30)%Z).
  { pose proof (dp_m _ _ _ _ _ Hpre). pose proof (dp_n _ _ _ _ _ Hpre). lia. }
  destruct (sum_close (@Manhattan B64) Manhattan_nice a b ratio r Hpre bval absd (fun x y => Rabs_pos _)
              (fun v => bfinb v = true)) with (mt := mt) as (v & mt' & F & P & Hlt & HP & E).
  - intros v Hok Hlt. destruct (man_nrm v Hl Hok Hlt) as (F & P & _). auto.
  - split; [reflexivity|]. destruct (val_Fin _ _ val_0) as [_ E]. exact E.
  - intros v x y Fv Pv Fx Fy F. change (bfinb (Bplus mode_NE v (Babs (Bminus mode_NE x y))) = true) in F.
    destruct (plus_fin _ _ F) as (_ & Fc & _). exists (bval (Babs (Bminus mode_NE x y))).
    assert (Pc : 0 <= bval (Babs (Bminus mode_NE x y))) by (rewrite B2R_Babs; apply Rabs_pos).
    splits; auto.
    + pose proof (cost_abs x y (nfin_b _ Fx) (nfin_b _ Fy) Fc) as H. apply Rle_trans with (1 := H). unfold absd.
      pose proof (Rabs_pos (bval x - bval y)). pose proof uu_pos. pose proof TT_pos.
      assert (0 <= uu * Rabs (bval x - bval y)) by (apply Rmult_le_pos; lra). lra.
    + exact (add_err v _ F Pv Pc).
  - intros v w Fv Fw Pv Pw Lv Lw Hle.
    assert (Ov : forall z : b64, bfinb z = true -> 0 <= bval z -> @nle B64 n0 z).
    { intros z Fz Pz. apply nleP_val. rewrite val_0, (val_finite z Fz). exact Pz. }
    destruct (man_nrm v Hl (Ov v Fv Pv) Lv) as (_ & _ & F1 & E1).
    destruct (man_nrm w Hl (Ov w Fw Pw) Lw) as (_ & _ & F2 & E2).
    apply nle_reals in Hle; auto. rewrite E1, E2 in Hle.
    apply (cmp_linear (IZR (2 * len)) (K_range Hl)); auto.
  - exact Hab.
  - assert (Ov : @nle B64 n0 v) by (apply nleP_val; rewrite val_0, (val_finite v F); exact P).
    destruct (man_nrm v Hl Ov Hlt) as (_ & _ & F1 & E1). exists v, mt'. splits; auto.
Qed.

Lemma euc_close mt : dtw_pre (@Euclidean B64) a b ratio r -> (Z.abs (m - n) <= r)%Z ->
  exists v mt', bfinb v = true /\ 0 <= bval v /\
    bfinb (nrm (@Euclidean B64) a b v) = true /\
    bval (nrm (@Euclidean B64) a b v) = rne (rne (sqrt (bval v)) / IZR (2 * len)) /\
    Psi (@Euclidean B64) a b r bval sqd (m - 1) (n - 1) v /\
    warpedDistance (@Euclidean B64) a b ratio (@ninf B64) mt = Ret (nrm (@Euclidean B64) a b v, mt').
Proof.
  intros Hpre Hab. assert (Hl : (1 <= len <= 2 ^ 30)%Z).
  { pose proof (dp_m _ _ _ _ _ Hpre). pose proof (dp_n _ _ _ _ _ Hpre). lia. }
  destruct (sum_close (@Euclidean B64) Euclidean_nice a b ratio r Hpre bval sqd (fun x y => Rle_0_sqr _)
              (fun v => bfinb v = true)) with (mt := mt) as (v & mt' & F & P & Hlt & HP & E).
  - intros v Hok Hlt. destruct (euc_nrm v Hl Hok Hlt) as (F & P & _). auto.
  - split; [reflexivity|]. destruct (val_Fin _ _ val_0) as [_ E]. exact E.
  - intros v x y Fv Pv Fx Fy F.
    change (bfinb (Bplus mode_NE v (Bmult mode_NE (Bminus mode_NE x y) (Bminus mode_NE x y))) = true) in F.
    destruct (plus_fin _ _ F) as (_ & Fc & _).
    destruct (cost_sq x y (nfin_b _ Fx) (nfin_b _ Fy) Fc) as [Pc Hc].
    exists (bval (Bmult mode_NE (Bminus mode_NE x y) (Bminus mode_NE x y))).
    splits; auto. exact (add_err v _ F Pv Pc).
  - intros v w Fv Fw Pv Pw Lv Lw Hle.
    assert (Ov : forall z : b64, bfinb z = true -> 0 <= bval z -> @nle B64 n0 z).
    { intros z Fz Pz. apply nleP_val. rewrite val_0, (val_finite z Fz). exact Pz. }
    destruct (euc_nrm v Hl (Ov v Fv Pv) Lv) as (_ & _ & F1 & E1).
    destruct (euc_nrm w Hl (Ov w Fw Pw) Lw) as (_ & _ & F2 & E2).
    apply nle_reals in Hle; auto. rewrite E1, E2 in Hle.
    apply (cmp_sqrt (IZR (2 * len)) (K_range Hl)); auto.
  - exact Hab.
  - assert (Ov : @nle B64 n0 v) by (apply nleP_val; rewrite val_0, (val_finite v F); exact P).
    destruct (euc_nrm v Hl Ov Hlt) as (_ & _ & F1 & E1). exists v, mt'. splits; auto.
Qed.
End Warped.
