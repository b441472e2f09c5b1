(** The computed (double) warped distances are close to the exact optimum:
    error propagation through the dynamic program. *)
From Coq Require Import Reals Lra Psatz Lia ZArith.
From Flocq Require Import Core BinarySingleNaN.
From Verif Require Import Base Num NumB64 NumLaws NumFacts NumXR NumXRLaws NumB64Laws LoopFacts TimeSeries Distance
  DtwSpec DtwPaths DtwProofs Metrics DtwMain DtwResults DtwReal AccReal.
Local Open Scope R_scope.

Definition SS : R := 2 * TT.
Definition gg : R := 1 + 32 * uu.
Definition hh : R := 1 - 8 * uu.

Lemma gg_pow k : 1 <= gg ^ k.
Proof. apply pow_R1_Rle. unfold gg. pose proof uu_pos. lra. Qed.
Lemma hh_pow k : 0 <= hh ^ k <= 1.
Proof.
  unfold hh. pose proof uu_pos. pose proof uu_small. split; [apply pow_le; lra|].
  replace (1 - 8 * uu) with (1 - (8 * uu)) by ring. apply pow_one. lra.
Qed.

Lemma step_up v v' vq ct c O k : 0 <= v' -> 0 <= ct -> 0 <= c -> 0 <= O ->
  Rabs (v - (v' + ct)) <= uu * (v' + ct) -> Rabs (ct - c) <= 4 * uu * c + TT ->
  v' <= vq * (1 + 20 * uu) + TT -> vq <= (O + INR k * SS) * gg ^ k ->
  v <= (O + c + INR (S k) * SS) * gg ^ S k.
Proof.
  intros Pv Pt Pc PO H1 H2 H3 H4. apply Rabs_both in H1 as [_ H1]. apply Rabs_both in H2 as [_ H2].
  pose proof uu_pos as Pu. pose proof uu_small as Su. pose proof TT_pos as Tp. pose proof (gg_pow k) as Gk.
  assert (Pk : 0 <= INR k) by apply pos_INR. rewrite S_INR.
  change (gg ^ S k) with (gg * gg ^ k). set (G := gg ^ k) in *. unfold SS, gg in *.
  set (B := O + INR k * (2 * TT)) in *.
  assert (PB : 0 <= B) by (unfold B; assert (0 <= INR k * (2 * TT)) by (apply Rmult_le_pos; lra); lra).
  assert (G1 : v <= (v' + ct) * (1 + uu)) by lra.
  assert (G2 : v' <= B * G * (1 + 20 * uu) + TT).
  { apply Rle_trans with (1 := H3). apply Rplus_le_compat_r, Rmult_le_compat_r; lra. }
  assert (PBG : 0 <= B * G) by (apply Rmult_le_pos; lra).
  assert (G3 : v' + ct <= (B + c + 2 * TT) * G * (1 + 20 * uu)).
  { apply Rle_trans with (B * G * (1 + 20 * uu) + (c + 2 * TT) * (1 + 20 * uu)).
    - assert (0 <= c * uu) by (apply Rmult_le_pos; lra). assert (0 <= TT * uu) by (apply Rmult_le_pos; lra). lra.
    - assert ((c + 2 * TT) * 1 <= (c + 2 * TT) * G) by (apply Rmult_le_compat_l; lra).
      assert ((c + 2 * TT) * (1 + 20 * uu) <= (c + 2 * TT) * G * (1 + 20 * uu)) by (apply Rmult_le_compat_r; lra). lra. }
  replace (O + c + (INR k + 1) * (2 * TT)) with (B + c + 2 * TT) by (unfold B; ring).
  set (X := (B + c + 2 * TT) * G) in *. assert (PX : 0 <= X) by (apply Rmult_le_pos; lra).
  replace ((B + c + 2 * TT) * ((1 + 32 * uu) * G)) with (X * (1 + 32 * uu)) by (unfold X; ring).
  apply Rle_trans with (1 := G1). apply Rle_trans with (X * (1 + 20 * uu) * (1 + uu)).
  - apply Rmult_le_compat_r; lra.
  - rewrite Rmult_assoc. apply Rmult_le_compat_l; auto. nra.
Qed.

Lemma step_low v v' ct c O k : 0 <= v' -> 0 <= ct -> 0 <= c -> 0 <= O ->
  Rabs (v - (v' + ct)) <= uu * (v' + ct) -> Rabs (ct - c) <= 4 * uu * c + TT ->
  O * hh ^ k - INR k * SS <= v' -> (O + c) * hh ^ S k - INR (S k) * SS <= v.
Proof.
  intros Pv Pt Pc PO H1 H2 H3. apply Rabs_both in H1 as [H1 _]. apply Rabs_both in H2 as [H2 _].
  pose proof uu_pos as Pu. pose proof uu_small as Su. pose proof TT_pos as Tp. pose proof (hh_pow k) as [Hk0 Hk1].
  assert (Pk : 0 <= INR k) by apply pos_INR. rewrite S_INR.
  change (hh ^ S k) with (hh * hh ^ k). set (G := hh ^ k) in *. unfold SS, hh in *.
  assert (G1 : (v' + ct) * (1 - uu) <= v) by lra.
  set (B := INR k * (2 * TT)) in *. assert (PB : 0 <= B) by (apply Rmult_le_pos; lra).
  assert (G2 : (O * G - B + c * (1 - 4 * uu) - TT) * (1 - uu) <= v).
  { apply Rle_trans with (2 := G1). apply Rmult_le_compat_r; lra. }
  apply Rle_trans with (2 := G2).
  replace ((INR k + 1) * (2 * TT)) with (B + 2 * TT) by (unfold B; ring).
  assert (POG : 0 <= O * G) by (apply Rmult_le_pos; lra).
  assert (PcG : 0 <= c * G <= c) by (split; [apply Rmult_le_pos; lra|nra]).
  replace ((O + c) * ((1 - 8 * uu) * G)) with (O * G * (1 - 8 * uu) + c * G * (1 - 8 * uu)) by ring.
  assert (E1 : O * G * (1 - 8 * uu) <= O * G * (1 - uu)) by (apply Rmult_le_compat_l; lra).
  assert (E2 : c * G * (1 - 8 * uu) <= c * (1 - 4 * uu) * (1 - uu)).
  { apply Rle_trans with (c * (1 - 8 * uu)); [apply Rmult_le_compat_r; lra|]. rewrite Rmult_assoc. apply Rmult_le_compat_l; nra. }
  assert (E3 : (B + TT) * (1 - uu) <= B + 2 * TT) by nra. lra.
Qed.

Lemma up_mono O k k' : 0 <= O -> (k <= k')%nat -> (O + INR k * SS) * gg ^ k <= (O + INR k' * SS) * gg ^ k'.
Proof.
  intros PO Hk. pose proof TT_pos. assert (0 <= SS) by (unfold SS; lra).
  apply le_INR in Hk as Hi. pose proof (pos_INR k). pose proof (gg_pow k). apply Rmult_le_compat; try lra.
  - assert (0 <= INR k * SS) by (apply Rmult_le_pos; lra). lra.
  - assert (INR k * SS <= INR k' * SS) by (apply Rmult_le_compat_r; lra). lra.
  - apply Rle_pow; auto. unfold gg. pose proof uu_pos. lra.
Qed.

Lemma low_mono O k k' : 0 <= O -> (k <= k')%nat -> O * hh ^ k' - INR k' * SS <= O * hh ^ k - INR k * SS.
Proof.
  intros PO Hk. pose proof TT_pos. assert (0 <= SS) by (unfold SS; lra).
  apply le_INR in Hk as Hi. assert (INR k * SS <= INR k' * SS) by (apply Rmult_le_compat_r; lra).
  replace k' with (k + (k' - k))%nat by lia. rewrite pow_add.
  pose proof (hh_pow k) as [A1 A2]. pose proof (hh_pow (k' - k)) as [B1 B2].
  assert (hh ^ k * hh ^ (k' - k) <= hh ^ k * 1) by (apply Rmult_le_compat_l; lra).
  assert (O * (hh ^ k * hh ^ (k' - k)) <= O * hh ^ k) by (apply Rmult_le_compat_l; lra).
  replace (k + (k' - k))%nat with k' by lia. lra.
Qed.

Lemma path_sum_snoc f xs ys p i j : path_sum f xs ys (p ++ [(i, j)]) = path_sum f xs ys p + f (Rpt xs i) (Rpt ys j).
Proof. unfold path_sum. rewrite fold_right_app. cbn [fold_right fst snd]. induction p as [|c p IH]; cbn [fold_right]; lra. Qed.

Lemma path_sum_pos f xs ys p : (forall x y, 0 <= f x y) -> 0 <= path_sum f xs ys p.
Proof. intros H. unfold path_sum. induction p as [|c p IH]; cbn [fold_right]; [lra|]. specialize (H (Rpt xs (fst c)) (Rpt ys (snd c))). lra. Qed.

(** the real values of the points *)
Definition reals (t : TS B64) : list R := map (B2R (prec := prec64) (emax := emax64)) (ts_points t).

Lemma reals_pt t i : Rpt (reals t) i = B2R (pt t i : b64).
Proof.
  unfold Rpt, reals, pt. change 0 with (B2R (@n0 B64 : b64)) at 1. apply map_nth.
Qed.

Section Sum.
Variable M : Metric B64.
Variable ng : Nice M.
Variables a b : TS B64.
Variable ratio : b64.
Variable r : Z.
Hypothesis Hpre : dtw_pre M a b ratio r.
Variable rv : acc M -> R.
Variable f : R -> R -> R.
Hypothesis Hf : forall x y, 0 <= f x y.
Notation m := (ts_length a).
Notation n := (ts_length b).
Notation xs := (reals a).
Notation ys := (reals b).
(** the accumulated value is finite and its real value is [rv] *)
Variable fin : acc M -> Prop.
Hypothesis Hfin : forall v, ng_ok ng v -> @nlt B64 (nrm M a b v) ninf -> fin v /\ 0 <= rv v.
Hypothesis Hinit : fin (m_init M) /\ rv (m_init M) = 0.
Hypothesis Hred : forall v (x y : b64), fin v -> 0 <= rv v -> @nfin B64 x -> @nfin B64 y -> fin (m_reduce M v x y) ->
  exists ct, 0 <= ct /\ Rabs (ct - f (B2R x) (B2R y)) <= 4 * uu * f (B2R x) (B2R y) + TT /\
    Rabs (rv (m_reduce M v x y) - (rv v + ct)) <= uu * (rv v + ct).
Hypothesis Hcmp : forall v w, fin v -> fin w -> 0 <= rv v -> 0 <= rv w ->
  @nlt B64 (nrm M a b v) ninf -> @nlt B64 (nrm M a b w) ninf ->
  @nle B64 (nrm M a b v) (nrm M a b w) -> rv v <= rv w * (1 + 20 * uu) + TT.

Notation kk i j := (Z.to_nat (i + j + 1)).

Definition Psi (i j : Z) (v : acc M) : Prop :=
  (forall q, bpath r i j q -> rv v <= (path_sum f xs ys q + INR (kk i j) * SS) * gg ^ kk i j) /\
  (exists p, bpath r i j p /\ path_sum f xs ys p * hh ^ kk i j - INR (kk i j) * SS <= rv v).

Let Ha := dp_a _ _ _ _ _ Hpre.
Let Hb := dp_b _ _ _ _ _ Hpre.
Let Hm := dp_m _ _ _ _ _ Hpre.
Let Hn := dp_n _ _ _ _ _ Hpre.
Let Hr := dp_r _ _ _ _ _ Hpre.
Let Fa := dp_fa _ _ _ _ _ Hpre.
Let Fb := dp_fb _ _ _ _ _ Hpre.
Let Hno := dp_fin _ _ _ _ _ Hpre.

Lemma acc_ok_path i j p : (0 <= i < m)%Z -> (0 <= j < n)%Z -> bpath r i j p -> ng_ok ng (path_acc M a b p).
Proof. intros Hi Hj Hp. apply (path_acc_ok M ng a b ratio r Hpre i j p); auto; lia. Qed.

Lemma fin_path i j p : inb a b r i j -> bpath r i j p ->
  fin (path_acc M a b p) /\ 0 <= rv (path_acc M a b p) /\ @nlt B64 (nrm M a b (path_acc M a b p)) ninf.
Proof.
  intros Hij Hp. assert (Hlt : @nlt B64 (nrm M a b (path_acc M a b p)) ninf).
  { apply (Phi1_fin M a b r Hr Hno i j). split; auto. exists p; auto. }
  destruct (Hfin (path_acc M a b p)) as [H1 H2]; auto.
  unfold inb in Hij. apply (acc_ok_path i j); auto; lia.
Qed.

Lemma fpt_a i : (0 <= i < m)%Z -> @nfin B64 (pt a i).
Proof. intros Hi. rewrite Forall_forall in Fa. apply Fa, pt_in; auto. Qed.
Lemma fpt_b i : (0 <= i < n)%Z -> @nfin B64 (pt b i).
Proof. intros Hi. rewrite Forall_forall in Fb. apply Fb, pt_in; auto. Qed.

Lemma only00 q : bpath r 0 0 q -> q = [(0, 0)%Z].
Proof.
  intros Hq. inversion Hq as [E|i j i' j' p Hp Hw Habs E1 E2 E3]; subst; auto.
  exfalso. apply wstep_cases in Hw. apply bpath_nonneg in Hp. lia.
Qed.

Lemma Psi_0 : Psi 0 0 (m_reduce M (m_init M) (pt a 0) (pt b 0)).
Proof.
  assert (Hi0 : inb a b r 0 0) by (unfold inb; lia).
  destruct (fin_path 0 0 [(0, 0)%Z] Hi0 ltac:(constructor)) as (F1 & F2 & _).
  change (path_acc M a b [(0, 0)%Z]) with (m_reduce M (m_init M) (pt a 0) (pt b 0)) in *.
  destruct Hinit as [I1 I2].
  destruct (Hred (m_init M) (pt a 0) (pt b 0)) as (ct & C1 & C2 & C3); auto; [lra|apply fpt_a; lia|apply fpt_b; lia|].
  rewrite I2 in C3. set (c := f (B2R (pt a 0 : b64)) (B2R (pt b 0 : b64))) in *.
  assert (Ec : path_sum f xs ys [(0, 0)%Z] = 0 + c).
  { unfold path_sum. cbn [fold_right fst snd]. rewrite !reals_pt. unfold c. ring. }
  pose proof (Hf (B2R (pt a 0 : b64)) (B2R (pt b 0 : b64))) as Pc. fold c in Pc.
  change (Z.to_nat (0 + 0 + 1)) with 1%nat. pose proof TT_pos. split.
  - intros q Hq. apply only00 in Hq. subst q. rewrite Ec.
    apply (step_up _ 0 0 ct c 0 0); auto; simpl; unfold SS; lra.
  - exists [(0, 0)%Z]. split; [constructor|]. rewrite Ec.
    apply (step_low _ 0 ct c 0 0); auto; simpl; unfold SS; lra.
Qed.

Lemma Psi_S : forall i j ip jp v',
  inb a b r i j -> wstep (ip, jp) (i, j) -> inb a b r ip jp -> ng_ok ng v' -> Phi1 M a b r ip jp v' -> Psi ip jp v' ->
  (forall iq jq, wstep (iq, jq) (i, j) -> inb a b r iq jq ->
     exists vq, ng_ok ng vq /\ Phi1 M a b r iq jq vq /\ Psi iq jq vq /\ @nle B64 (nrm M a b v') (nrm M a b vq)) ->
  Psi i j (m_reduce M v' (pt a i) (pt b j)).
Proof.
  intros i j ip jp v' Hij Hw Hp Hok HPhi [_ (p & Hpp & Hlow)] Hmin.
  pose proof (Phi1_S M a b r i j ip jp v' Hij Hw HPhi) as (_ & pv & Hpv & Epv).
  destruct (fin_path i j pv Hij Hpv) as (F1 & F2 & _). rewrite <- Epv in F1, F2.
  destruct HPhi as (_ & p' & Hp' & Ep').
  destruct (fin_path ip jp p' Hp Hp') as (F1' & F2' & F3'). rewrite <- Ep' in F1', F2', F3'.
  assert (Hij' := Hij). unfold inb in Hij', Hp.
  destruct (Hred v' (pt a i) (pt b j)) as (ct & C1 & C2 & C3); auto; [apply fpt_a; lia|apply fpt_b; lia|].
  set (c := f (B2R (pt a i : b64)) (B2R (pt b j : b64))) in *.
  pose proof (Hf (B2R (pt a i : b64)) (B2R (pt b j : b64))) as Pc. fold c in Pc. split.
  - intros q Hq. inversion Hq as [E|iq jq i' j' q' Hq' Hw' Habs E1 E2 E3]; subst.
    { exfalso. apply wstep_cases in Hw. lia. }
    pose proof (wstep_cases _ _ _ _ Hw') as Hc. pose proof (bpath_nonneg _ _ _ _ Hq').
    assert (Hiq : inb a b r iq jq) by (unfold inb; apply bpath_band in Hq'; auto; lia).
    destruct (Hmin iq jq Hw' Hiq) as (vq & Hokq & (_ & pq & Hpq & Epq) & [Hup _] & Hle).
    destruct (fin_path iq jq pq Hiq Hpq) as (G1 & G2 & G3). rewrite <- Epq in G1, G2, G3.
    rewrite path_sum_snoc, !reals_pt. fold c.
    pose proof (path_sum_pos f xs ys q' Hf) as PO.
    apply Rle_trans with ((path_sum f xs ys q' + c + INR (S (kk iq jq)) * SS) * gg ^ S (kk iq jq)).
    + apply (step_up _ (rv (path_acc M a b p')) (rv vq) ct c); auto.
    + apply up_mono; [lra|lia].
  - exists (p ++ [(i, j)]). split; [apply (bpS r ip jp); auto; lia|].
    rewrite path_sum_snoc, !reals_pt. fold c. pose proof (path_sum_pos f xs ys p Hf) as PO.
    pose proof (wstep_cases _ _ _ _ Hw) as Hc.
    apply Rle_trans with ((path_sum f xs ys p + c) * hh ^ S (kk ip jp) - INR (S (kk ip jp)) * SS).
    + apply low_mono; [lra|lia].
    + apply (step_low _ (rv v') ct c); auto.
Qed.

(** the value returned without a cut-off *)
Lemma sum_close mt : (Z.abs (m - n) <= r)%Z -> exists v mt',
  fin v /\ 0 <= rv v /\ @nlt B64 (nrm M a b v) ninf /\ Psi (m - 1) (n - 1) v /\
  warpedDistance M a b ratio (@ninf B64) mt = Ret (nrm M a b v, mt').
Proof.
  intros Hab.
  destruct (warped_gen M ng a b r Ha Hb Hm Hn Hr Fa Fb Hno Psi Psi_0 Psi_S ratio (dp_band _ _ _ _ _ Hpre))
    as (cF & dF & _ & HdF & Hrun).
  destruct HdF as [(_ & v & Hok & [(Hi & p & Hp & Ev) H2] & EdF)|(H1 & _)]; [|lia].
  destruct (Hrun ninf mt lw_inf_nn) as (d & mt' & nc & E & _ & Hc).
  exists v, (mt' ++ rev mt). destruct (fin_path (m - 1) (n - 1) p Hi Hp) as (F1 & F2 & F3).
  rewrite <- Ev in F1, F2, F3. splits; auto. rewrite E.
  destruct Hc as [[-> _]|[_ Hlt]]; [rewrite EdF; reflexivity|]. exfalso.
  apply (nle_not_lt _ _ (nle_inf _ (nlt_nn_r _ _ Hlt)) Hlt).
Qed.
End Sum.
