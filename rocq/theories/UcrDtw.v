(** dtw of genex/lib/trillionDTW.cpp in exact arithmetic: the optimal cost of the
    in-band warping paths, or an early end that is justified. *)
From Coq Require Import Reals Lra.
From Flocq Require Import Core.Raux.
From Verif Require Import Base Num NumXR Lemire Ucr DtwSpec DtwPaths LoopFacts DtwReal UcrReal.
Local Open Scope R_scope.

(** the operations on finite numbers *)
Lemma sqd_fin a b : sqd (N := XR) (Fin a) (Fin b) = Fin ((a - b) * (a - b)).
Proof. reflexivity. Qed.

Lemma nadd_fin a b : @nadd XR (Fin a) (Fin b) = Fin (a + b).
Proof. reflexivity. Qed.

Lemma nltb_fin a b : @nltb XR (Fin a) (Fin b) = Rlt_bool a b.
Proof. reflexivity. Qed.

Lemma cmin_fin a b : cmin (N := XR) (Fin a) (Fin b) = Fin (Rmin a b).
Proof.
  unfold cmin. rewrite nltb_fin. destruct (Rlt_bool_spec a b).
  - rewrite Rmin_left by lra. reflexivity.
  - rewrite Rmin_right by lra. reflexivity.
Qed.

Lemma nge_fin a b : nge (N := XR) (Fin a) (Fin b) = Rle_bool b a.
Proof.
  unfold nge. rewrite nltb_fin. cbn [neqb XR XRN xeqb].
  destruct (Rlt_bool_spec b a), (Req_bool_spec a b), (Rle_bool_spec b a); simpl; auto; lra.
Qed.

Definition INFR : R := IZR (10 ^ 20).
Lemma inf_fin : inf_t (N := XR) = Fin INFR.
Proof. reflexivity. Qed.
Global Opaque inf_t.

Lemma aget_fin (xs : list R) i : (0 <= i < Rlen xs)%Z -> @aget (D XR) (map Fin xs) i = Ret (Fin (Rpt xs i)).
Proof.
  intros H. unfold Rlen in H. rewrite (aget_nth _ _ (Fin 0)) by (rewrite map_length; auto).
  unfold Rpt. rewrite (map_nth Fin). reflexivity.
Qed.

Section Dtw.
Variables xs ys cs : list R.
Variables m r : Z.
Hypothesis Hm : (1 <= m)%Z.
Hypothesis Hr : (0 <= r)%Z.
Hypothesis Lx : (m <= Rlen xs)%Z.
Hypothesis Ly : (m <= Rlen ys)%Z.
Hypothesis Lc : (m <= Rlen cs)%Z.
Definition cst (i j : Z) : R := (Rpt xs i - Rpt ys j) * (Rpt xs i - Rpt ys j).
Variable B : R.
Hypothesis HB : forall i j, (0 <= i < m)%Z -> (0 <= j < m)%Z -> cst i j <= B.
Hypothesis HBI : IZR (2 * m) * B < INFR.

Local Notation opt := (opt r cst).

Lemma cst_pos i j : 0 <= cst i j.
Proof. unfold cst. apply Rle_0_sqr. Qed.

Lemma opt_lt_inf i j v : (0 <= i < m)%Z -> (0 <= j < m)%Z -> opt i j v -> v < INFR.
Proof.
  intros Hi Hj Hv.
  assert (0 <= B) by (eapply Rle_trans; [apply (cst_pos 0 0)|apply HB; lia]).
  pose proof (opt_bound r cst B i j v ltac:(auto) ltac:(intros; apply HB; lia) Hv).
  assert (IZR (i + j + 1) * B <= IZR (2 * m) * B).
  { apply Rmult_le_compat_r; auto. apply IZR_le. lia. }
  lra.
Qed.

(** a predecessor: its optimal cost, or the number that stands for infinity *)
Definition pred (ok : Prop) (i j : Z) (v : R) : Prop := (ok /\ opt i j v) \/ (~ ok /\ v = INFR).

Lemma cell_opt i j X Y Zv : (0 <= i < m)%Z -> (0 <= j < m)%Z -> (Z.abs (i - j) <= r)%Z -> (0 < i \/ 0 < j)%Z ->
  pred (1 <= i /\ Z.abs (i - 1 - j) <= r)%Z (i - 1) j X ->
  pred (1 <= j /\ Z.abs (i - (j - 1)) <= r)%Z i (j - 1) Y ->
  pred (1 <= i /\ 1 <= j)%Z (i - 1) (j - 1) Zv ->
  opt i j (Rmin (Rmin X Y) Zv + cst i j).
Proof.
  intros Hi Hj Hb Hij HX HY HZ.
  assert (IX : X <= INFR). { destruct HX as [(H1 & H2)|(_ & ->)]; [|lra]. apply opt_lt_inf in H2; try lia. lra. }
  assert (IY : Y <= INFR). { destruct HY as [(H1 & H2)|(_ & ->)]; [|lra]. apply opt_lt_inf in H2; try lia. lra. }
  assert (IZ : Zv <= INFR). { destruct HZ as [(H1 & H2)|(_ & ->)]; [|lra]. apply opt_lt_inf in H2; try lia. lra. }
  assert (Hlt : Rmin (Rmin X Y) Zv < INFR).
  { destruct (Z.eq_dec i 0) as [->|Hi0].
    - destruct HY as [(H1 & H2)|(H1 & _)]; [|exfalso; apply H1; lia]. apply opt_lt_inf in H2; try lia.
      pose proof (Rmin_l (Rmin X Y) Zv). pose proof (Rmin_r X Y). lra.
    - destruct (Z.eq_dec j 0) as [->|Hj0].
      + destruct HX as [(H1 & H2)|(H1 & _)]; [|exfalso; apply H1; lia]. apply opt_lt_inf in H2; try lia.
        pose proof (Rmin_l (Rmin X Y) Zv). pose proof (Rmin_l X Y). lra.
      + destruct HZ as [(H1 & H2)|(H1 & _)]; [|exfalso; apply H1; lia]. apply opt_lt_inf in H2; try lia.
        pose proof (Rmin_r (Rmin X Y) Zv). lra. }
  apply opt_step; auto.
  - unfold pred_ok.
    assert (Hc : Rmin (Rmin X Y) Zv = X \/ Rmin (Rmin X Y) Zv = Y \/ Rmin (Rmin X Y) Zv = Zv).
    { unfold Rmin. repeat destruct (Rle_dec _ _); auto. }
    destruct Hc as [E|[E|E]]; rewrite E in *.
    + destruct HX as [(H1 & H2)|(_ & H2)]; [|lra]. exists (i - 1)%Z, j. split; auto.
      left. simpl. f_equal; lia.
    + destruct HY as [(H1 & H2)|(_ & H2)]; [|lra]. exists i, (j - 1)%Z. split; auto.
      right. left. simpl. f_equal; lia.
    + destruct HZ as [(H1 & H2)|(_ & H2)]; [|lra]. exists (i - 1)%Z, (j - 1)%Z. split; auto.
      right. right. simpl. f_equal; lia.
  - intros i0 j0 v0 Hs Ho.
    pose proof (Rmin_l (Rmin X Y) Zv). pose proof (Rmin_r (Rmin X Y) Zv).
    pose proof (Rmin_l X Y). pose proof (Rmin_r X Y).
    assert (Hb0 : (0 <= i0)%Z /\ (0 <= j0)%Z /\ (Z.abs (i0 - j0) <= r)%Z).
    { destruct Ho as ((p & Hp & _) & _). pose proof (bpath_nonneg _ _ _ _ Hp). pose proof (bpath_band _ _ _ _ Hr Hp). tauto. }
    apply wstep_cases in Hs as [(-> & ->)|[(-> & ->)|(-> & ->)]].
    + destruct HX as [(_ & H4)|(H4 & _)]; [|exfalso; apply H4; lia].
      replace (i0 + 1 - 1)%Z with i0 in H4 by lia. pose proof (opt_unique _ _ _ _ _ _ Ho H4). lra.
    + destruct HY as [(_ & H4)|(H4 & _)]; [|exfalso; apply H4; lia].
      replace (j0 + 1 - 1)%Z with j0 in H4 by lia. pose proof (opt_unique _ _ _ _ _ _ Ho H4). lra.
    + destruct HZ as [(_ & H4)|(H4 & _)]; [|exfalso; apply H4; lia].
      replace (j0 + 1 - 1)%Z with j0 in H4 by lia. replace (i0 + 1 - 1)%Z with i0 in H4 by lia.
      pose proof (opt_unique _ _ _ _ _ _ Ho H4). lra.
  - intros i0 j0 p Hs Hp.
    pose proof (bpath_nonneg _ _ _ _ Hp). pose proof (bpath_band _ _ _ _ Hr Hp).
    apply wstep_cases in Hs as [(-> & ->)|[(-> & ->)|(-> & ->)]].
    + destruct HX as [(_ & H4)|(H4 & _)]; [|exfalso; apply H4; lia].
      replace (i0 + 1 - 1)%Z with i0 in H4 by lia. eauto.
    + destruct HY as [(_ & H4)|(H4 & _)]; [|exfalso; apply H4; lia].
      replace (j0 + 1 - 1)%Z with j0 in H4 by lia. eauto.
    + destruct HZ as [(_ & H4)|(H4 & _)]; [|exfalso; apply H4; lia].
      replace (j0 + 1 - 1)%Z with j0 in H4 by lia. replace (i0 + 1 - 1)%Z with i0 in H4 by lia. eauto.
Qed.

(** the columns of row i *)
Definition lo (i : Z) : Z := Z.max 0 (i - r).
Definition hi (i : Z) : Z := Z.min (m - 1) (i + r).

(** the array holds the optimal costs of row i up to column j *)
Definition row_ok (i j : Z) (cost : list (D XR)) : Prop :=
  Z.of_nat (length cost) = (2 * r + 1)%Z /\
  forall j', (lo i <= j' < j)%Z -> exists v, aget cost (j' - i + r) = Ret (Fin v) /\ opt i j' v.

Definition cell_inv (i : Z) (j : Z) (s : list (D XR) * Z * D XR) : Prop :=
  let '(cost, k, mc) := s in
  k = (j - i + r)%Z /\ row_ok i j cost /\
  exists mcr, mc = Fin mcr /\ forall j' v, (lo i <= j' < j)%Z -> opt i j' v -> mcr <= v.

Lemma cell_ok i j prev s : (0 <= i < m)%Z -> (lo i <= j < hi i + 1)%Z ->
  (Z.of_nat (length prev) = 2 * r + 1)%Z -> (1 <= i -> row_ok (i - 1) (hi (i - 1) + 1) prev)%Z ->
  cell_inv i j s ->
  exists s', dtw_cell (N := XR) (map Fin xs) (map Fin ys) prev r i j s = Ret s' /\ cell_inv i (j + 1) s'.
Proof.
  intros Hi Hj Lp Hprev. destruct s as [[cost k] mc]. intros (-> & (Lcost & Hrow) & mcr & -> & Hmc).
  unfold lo, hi in *. unfold dtw_cell.
  assert (Hrow_ext : forall v c', opt i j v -> c' = upd cost (Z.to_nat (j - i + r)) (Fin v) -> row_ok i (j + 1) c').
  { intros v c' Ho ->. split; [rewrite upd_length; auto|]. intros j' Hj'. unfold lo in Hj'.
    destruct (Z.eq_dec j' j) as [->|Hne].
    - exists v. split; auto. apply aget_upd_same. lia.
    - rewrite aget_upd_other by lia. apply Hrow. lia. }
  destruct (Z.eqb_spec i 0) as [Ei|Ei]; destruct (Z.eqb_spec j 0) as [Ej|Ej]; cbn [andb].
  1:{ rewrite !aget_fin by lia. cbn [bind]. rewrite sqd_fin.
      rewrite aset_in by (rewrite Lcost; lia). cbn [bind].
      eexists. split; [reflexivity|]. unfold cell_inv.
      assert (Ho : opt i j ((Rpt xs 0 - Rpt ys 0) * (Rpt xs 0 - Rpt ys 0))) by (rewrite Ei, Ej; apply (opt_00 r cst)).
      splits; [lia|apply (Hrow_ext _ _ Ho eq_refl)|].
      eexists. split; [reflexivity|]. intros j' v Hj' Hv. assert (j' = j) as -> by (unfold lo in *; lia).
      rewrite (opt_unique _ _ _ _ _ _ Ho Hv). lra. }
  all: assert (HYv : exists Y, (if (j - 1 <? 0)%Z || (j - i + r - 1 <? 0)%Z then Ret (inf_t (N := XR)) else aget cost (j - i + r - 1)) = Ret (Fin Y) /\
    pred (1 <= j /\ Z.abs (i - (j - 1)) <= r)%Z i (j - 1) Y).
  1,3,5: destruct (Z.ltb_spec (j - 1) 0); [exists INFR; split; [reflexivity|right; split; [lia|auto]]|];
    destruct (Z.ltb_spec (j - i + r - 1) 0); [exists INFR; split; [reflexivity|right; split; [lia|auto]]|];
    destruct (Hrow (j - 1)%Z ltac:(lia)) as (v & E1 & E2); exists v; split;
    [cbn [orb]; replace (j - i + r - 1)%Z with (j - 1 - i + r)%Z by lia; exact E1|left; split; [lia|exact E2]].
  all: assert (HXv : exists X, (if (i - 1 <? 0)%Z || (2 * r <? j - i + r + 1)%Z then Ret (inf_t (N := XR)) else aget prev (j - i + r + 1)) = Ret (Fin X) /\
    pred (1 <= i /\ Z.abs (i - 1 - j) <= r)%Z (i - 1) j X).
  1,3,5: destruct (Z.ltb_spec (i - 1) 0); [exists INFR; split; [reflexivity|right; split; [lia|auto]]|];
    destruct (Z.ltb_spec (2 * r) (j - i + r + 1)); [exists INFR; split; [reflexivity|right; split; [lia|auto]]|];
    destruct (Hprev ltac:(lia)) as (_ & Hp); destruct (Hp j ltac:(unfold lo, hi; lia)) as (v & E1 & E2); exists v; split;
    [cbn [orb]; replace (j - i + r + 1)%Z with (j - (i - 1) + r)%Z by lia; exact E1|left; split; [lia|exact E2]].
  all: assert (HZv : exists Zv, (if (i - 1 <? 0)%Z || (j - 1 <? 0)%Z then Ret (inf_t (N := XR)) else aget prev (j - i + r)) = Ret (Fin Zv) /\
    pred (1 <= i /\ 1 <= j)%Z (i - 1) (j - 1) Zv).
  1,3,5: destruct (Z.ltb_spec (i - 1) 0); [exists INFR; split; [reflexivity|right; split; [lia|auto]]|];
    destruct (Z.ltb_spec (j - 1) 0); [exists INFR; split; [reflexivity|right; split; [lia|auto]]|];
    destruct (Hprev ltac:(lia)) as (_ & Hp); destruct (Hp (j - 1)%Z ltac:(unfold lo, hi; lia)) as (v & E1 & E2); exists v; split;
    [cbn [orb]; replace (j - i + r)%Z with (j - 1 - (i - 1) + r)%Z by lia; exact E1|left; split; [lia|exact E2]].
  all: destruct HYv as (Y & EY & PY); destruct HXv as (X & EX & PX); destruct HZv as (Zv & EZ & PZ).
  all: rewrite EY; cbn [bind]; rewrite EX; cbn [bind]; rewrite EZ; cbn [bind].
  all: rewrite !aget_fin by lia; cbn [bind].
  all: rewrite sqd_fin, !cmin_fin, nadd_fin, nltb_fin.
  all: rewrite aset_in by (rewrite Lcost; lia); cbn [bind].
  all: eexists; split; [reflexivity|].
  all: assert (Ho : opt i j (Rmin (Rmin X Y) Zv + cst i j)) by (apply cell_opt; auto; lia).
  all: unfold cell_inv; splits; [lia|apply (Hrow_ext _ _ Ho eq_refl)|].
  all: fold (cst i j).
  all: destruct (Rlt_bool_spec (Rmin (Rmin X Y) Zv + cst i j) mcr).
  all: eexists; split; [reflexivity|].
  all: intros j' v Hj' Hv; destruct (Z.eq_dec j' j) as [->|Hne];
    [rewrite <- (opt_unique _ _ _ _ _ _ Ho Hv); lra|].
  all: pose proof (Hmc j' v ltac:(unfold lo in *; lia) Hv); lra.
Qed.

(** the cumulative bound: from weights that every in-band cell of a row (or of a
    column) costs at least *)
Variable w : Z -> R.
Hypothesis Hw : forall k, 0 <= w k.
Hypothesis Hcs : forall k, (0 <= k < m)%Z -> Rpt cs k = pre w m - pre w k.
Hypothesis Hlb :
  (forall i j, (0 <= i < m)%Z -> (0 <= j < m)%Z -> (Z.abs (i - j) <= r)%Z -> w i <= cst i j) \/
  (forall i j, (0 <= i < m)%Z -> (0 <= j < m)%Z -> (Z.abs (i - j) <= r)%Z -> w j <= cst i j).

Lemma bpath_cells i j p x : bpath r i j p -> In x p -> (Z.abs (fst x - snd x) <= r)%Z.
Proof.
  intros Hp Hx. apply (bpath_path r) in Hp as (_ & Hb); auto.
  unfold in_band in Hb. rewrite Forall_forall in Hb. auto.
Qed.

(** the rest of a path after row i costs at least the bound *)
Lemma abandon_ok i mcr p : (0 <= i)%Z -> (i + r < m - 1)%Z ->
  (forall j v, (lo i <= j < hi i + 1)%Z -> opt i j v -> mcr <= v) ->
  (forall j, (lo i <= j < hi i + 1)%Z -> exists v, opt i j v) ->
  bpath r (m - 1) (m - 1) p -> mcr + Rpt cs (i + r + 1) <= psum cst p.
Proof.
  intros Hi Hir Hmc Hex Hp. rewrite Hcs by lia.
  assert (Hcut : exists j0 p0 k, bpath r i j0 p0 /\ (k <= i + r + 1)%Z /\
     psum cst p0 + (pre w m - pre w k) <= psum cst p).
  { destruct Hlb as [HL|HL].
    - destruct (cut_row r cst (fun i _ => i) w i _ _ p slow_row ltac:(auto) Hw Hp ltac:(lia)) as (j0 & p0 & Q1 & Q2 & Q3).
      { intros x Hx. pose proof (bpath_in _ _ _ _ _ Hp Hx). pose proof (bpath_cells _ _ _ _ Hp Hx). apply HL; lia. }
      exists j0, p0, (i + 1)%Z. splits; auto; [lia|]. replace (m - 1 + 1)%Z with m in Q3 by lia. exact Q3.
    - destruct (cut_row r cst (fun _ j => j) w i _ _ p slow_col ltac:(auto) Hw Hp ltac:(lia)) as (j0 & p0 & Q1 & Q2 & Q3).
      { intros x Hx. pose proof (bpath_in _ _ _ _ _ Hp Hx). pose proof (bpath_cells _ _ _ _ Hp Hx). apply HL; lia. }
      exists j0, p0, (j0 + 1)%Z. splits; auto.
      + pose proof (bpath_band _ _ _ _ Hr Q1). lia.
      + replace (m - 1 + 1)%Z with m in Q3 by lia. exact Q3. }
  destruct Hcut as (j0 & p0 & k & Q1 & Q2 & Q3).
  pose proof (bpath_nonneg _ _ _ _ Q1). pose proof (bpath_band _ _ _ _ Hr Q1).
  assert (Hj0 : (lo i <= j0 < hi i + 1)%Z) by (unfold lo, hi; lia).
  destruct (Hex _ Hj0) as (v & Hv). pose proof (Hmc _ _ Hj0 Hv).
  destruct Hv as (_ & Hv). specialize (Hv _ Q1).
  pose proof (pre_mono w k (i + r + 1) Hw ltac:(lia)). lra.
Qed.

Variable b : R.

Definition row_inv (i : Z) (s : list (D XR) * list (D XR) * Z * option (D XR)) : Prop :=
  let '(cost, prev, k, early) := s in
  early = None /\ Z.of_nat (length cost) = (2 * r + 1)%Z /\ Z.of_nat (length prev) = (2 * r + 1)%Z /\
  ((1 <= i)%Z -> row_ok (i - 1) (hi (i - 1) + 1) prev /\ k = (hi (i - 1) + 1 - (i - 1) + r)%Z).

Definition left_early (s : list (D XR) * list (D XR) * Z * option (D XR)) : Prop :=
  exists d, snd s = Some (Fin d) /\ b <= d /\ forall p, bpath r (m - 1) (m - 1) p -> b <= psum cst p.

Lemma row_step i s : (0 <= i < m)%Z -> row_inv i s ->
  exists s' e, dtw_row (N := XR) (map Fin xs) (map Fin ys) (map Fin cs) m r (Fin b) i s = Ret (s', e) /\
    if e then left_early s' else row_inv (i + 1) s'.
Proof.
  intros Hi. destruct s as [[[cost prev] k] early]. intros (-> & Lcost & Lprev & Hprev).
  unfold dtw_row.
  destruct (for_inv (cell_inv i) (dtw_cell (N := XR) (map Fin xs) (map Fin ys) prev r i) (lo i) (hi i + 1)
              (cost, Z.max 0 (r - i), inf_t (N := XR))) as (s1 & E1 & H1).
  - unfold lo, hi. lia.
  - unfold cell_inv, row_ok. splits; [unfold lo; lia|auto|intros; lia|].
    exists INFR. split; [reflexivity|intros; lia].
  - intros j s Hj Hs. apply cell_ok; auto. intros H. apply Hprev. exact H.
  - fold (lo i) (hi i). rewrite E1. cbn [bind]. destruct s1 as [[cost1 k1] mc].
    destruct H1 as (-> & Hrow & mcr & -> & Hmc).
    assert (Hnext : row_inv (i + 1) (prev, cost1, (hi i + 1 - i + r)%Z, None)).
    { unfold row_inv. replace (i + 1 - 1)%Z with i by lia. splits; auto; try apply Hrow. }
    destruct (Z.ltb_spec (i + r) (m - 1)).
    + rewrite aget_fin by lia. cbn [bind]. rewrite nadd_fin, nge_fin.
      destruct (Rle_bool_spec b (mcr + Rpt cs (i + r + 1))).
      * eexists _, true. split; [reflexivity|]. eexists. split; [reflexivity|]. split; [auto|].
        intros p Hp. pose proof (abandon_ok i mcr p ltac:(lia) ltac:(lia) Hmc) as Ha.
        assert (Hex : forall j, (lo i <= j < hi i + 1)%Z -> exists v, opt i j v).
        { intros j Hj. destruct (proj2 Hrow j Hj) as (v & _ & Hv). eauto. }
        specialize (Ha Hex Hp). lra.
      * eexists _, false. split; [reflexivity|]. exact Hnext.
    + eexists _, false. split; [reflexivity|]. exact Hnext.
Qed.

Lemma dtw_ok : exists d, dtw (N := XR) (map Fin xs) (map Fin ys) (map Fin cs) m r (Fin b) = Ret (Fin d) /\
  (opt (m - 1) (m - 1) d \/ (b <= d /\ forall p, bpath r (m - 1) (m - 1) p -> b <= psum cst p)).
Proof.
  unfold dtw. cbv zeta.
  destruct (forb_inv row_inv (fun _ => left_early)
     (dtw_row (N := XR) (map Fin xs) (map Fin ys) (map Fin cs) m r (Fin b)) 0 m
     (repeat (inf_t (N := XR)) (Z.to_nat (2 * r + 1)), repeat (inf_t (N := XR)) (Z.to_nat (2 * r + 1)), Z.max 0 (2 * r + 1), None))
    as (s & e & E & H); [lia| |intros; apply row_step; auto|].
  - unfold row_inv. rewrite repeat_length. splits; auto; lia.
  - rewrite E. cbn [bind]. destruct s as [[[cost prev] k] early]. destruct e.
    + destruct H as (_ & _ & d & Ed & Hd). cbn [snd] in Ed. rewrite Ed. exists d. split; auto.
    + destruct H as (-> & _ & _ & Hp). destruct (Hp ltac:(lia)) as (Hrow & ->).
      destruct (proj2 Hrow (m - 1)%Z) as (v & Ev & Hv); [unfold lo, hi; lia|].
      exists v. split; [|left; replace (m - 1)%Z with (m - 1)%Z by lia; exact Hv].
      replace (hi (m - 1) + 1 - (m - 1) + r - 1)%Z with (m - 1 - (m - 1) + r)%Z by (unfold hi; lia). exact Ev.
Qed.
End Dtw.
