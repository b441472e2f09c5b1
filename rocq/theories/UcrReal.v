(** Warping paths in real arithmetic: optimal costs and lower bounds. *)
From Coq Require Import Reals Lra Permutation.
From Verif Require Import Base DtwSpec DtwPaths LoopFacts.
Local Open Scope R_scope.

(** cost of a path for a pointwise cost *)
Definition psum (c : Z -> Z -> R) (p : list (Z * Z)) : R :=
  fold_right (fun x s => c (fst x) (snd x) + s) 0 p.

Lemma psum_app c p p' : psum c (p ++ p') = psum c p + psum c p'.
Proof. unfold psum. induction p as [|x p IH]; simpl; [lra|]. rewrite IH. lra. Qed.

Lemma psum_snoc c p i j : psum c (p ++ [(i, j)]) = psum c p + c i j.
Proof. rewrite psum_app. simpl. lra. Qed.

(** [W 0 + ... + W (z - 1)] *)
Definition pre (W : Z -> R) (z : Z) : R :=
  fold_right (fun k s => W (Z.of_nat k) + s) 0 (seq 0 (Z.to_nat z)).

Lemma pre_0 W z : (z <= 0)%Z -> pre W z = 0.
Proof. intros H. unfold pre. replace (Z.to_nat z) with O by lia. reflexivity. Qed.

Lemma fold_seq_snoc (f : nat -> R) a n :
  fold_right (fun k s => f k + s) 0 (seq a (S n)) = fold_right (fun k s => f k + s) 0 (seq a n) + f (a + n)%nat.
Proof.
  rewrite seq_S, fold_right_app. simpl. generalize (seq a n) as l. intros l.
  induction l as [|x l IH]; simpl; [lra|]. rewrite IH. lra.
Qed.

Lemma pre_S W z : (0 <= z)%Z -> pre W (z + 1) = pre W z + W z.
Proof.
  intros H. unfold pre. replace (Z.to_nat (z + 1)) with (S (Z.to_nat z)) by lia.
  rewrite (fold_seq_snoc (fun k => W (Z.of_nat k))). do 2 f_equal. lia.
Qed.

Lemma pre_mono W a b : (forall k, 0 <= W k) -> (a <= b)%Z -> pre W a <= pre W b.
Proof.
  intros HW Hab. replace b with (a + Z.of_nat (Z.to_nat (b - a)))%Z by lia.
  induction (Z.to_nat (b - a)) as [|n IH].
  - replace (a + Z.of_nat 0)%Z with a by lia. lra.
  - replace (a + Z.of_nat (S n))%Z with (a + Z.of_nat n + 1)%Z by lia.
    destruct (Z_lt_le_dec (a + Z.of_nat n) 0).
    + rewrite (pre_0 W (a + Z.of_nat n + 1)) by lia. rewrite (pre_0 W (a + Z.of_nat n)) in IH by lia. lra.
    + rewrite pre_S by lia. specialize (HW (a + Z.of_nat n)%Z). lra.
Qed.

Lemma pre_ext W W' z : (forall k, (0 <= k < z)%Z -> W k = W' k) -> pre W z = pre W' z.
Proof.
  intros H. destruct (Z_lt_le_dec z 0); [rewrite !pre_0 by lia; auto|].
  assert (Hz : forall n, (Z.of_nat n <= z)%Z -> pre W (Z.of_nat n) = pre W' (Z.of_nat n)).
  { induction n as [|n IH]; intros Hn; [rewrite !pre_0 by lia; auto|].
    replace (Z.of_nat (S n)) with (Z.of_nat n + 1)%Z by lia. rewrite !pre_S by lia.
    rewrite IH, H by lia. reflexivity. }
  rewrite <- (Z2Nat.id z) by lia. apply Hz. lia.
Qed.

Lemma pre_le W W' z : (forall k, (0 <= k < z)%Z -> W k <= W' k) -> pre W z <= pre W' z.
Proof.
  intros H. destruct (Z_lt_le_dec z 0); [rewrite !pre_0 by lia; lra|].
  assert (Hz : forall n, (Z.of_nat n <= z)%Z -> pre W (Z.of_nat n) <= pre W' (Z.of_nat n)).
  { induction n as [|n IH]; intros Hn; [rewrite !pre_0 by lia; lra|].
    replace (Z.of_nat (S n)) with (Z.of_nat n + 1)%Z by lia. rewrite !pre_S by lia.
    pose proof (H (Z.of_nat n) ltac:(lia)). specialize (IH ltac:(lia)). lra. }
  rewrite <- (Z2Nat.id z) by lia. apply Hz. lia.
Qed.

Section Paths.
Variable r : Z.
Hypothesis Hr : (0 <= r)%Z.
Variable c : Z -> Z -> R.

(** [h] grows by at most one in every step *)
Definition slow (h : Z -> Z -> Z) : Prop :=
  forall i j i' j', wstep (i, j) (i', j') -> (h i j <= h i' j' <= h i j + 1)%Z.

(** every level of [h] is visited: the cheapest costs per level add up to a lower bound *)
Lemma layers h W i j p : slow h -> (0 <= h 0%Z 0%Z)%Z -> (forall k, 0 <= W k) ->
  bpath r i j p -> (forall x, In x p -> W (h (fst x) (snd x)) <= c (fst x) (snd x)) ->
  (h 0 0 <= h i j)%Z /\ pre W (h i j + 1) - pre W (h 0%Z 0%Z) <= psum c p.
Proof.
  intros Hh H0 HW Hp. induction Hp as [|i j i' j' p Hp IH Hs Hb]; intros Hc.
  - split; [lia|]. rewrite pre_S by lia. pose proof (Hc (0, 0)%Z (or_introl eq_refl)). simpl in *. lra.
  - destruct IH as (IH1 & IH2). { intros x Hx. apply Hc, in_or_app; auto. }
    pose proof (Hh _ _ _ _ Hs) as Hk.
    pose proof (Hc (i', j') ltac:(apply in_or_app; right; simpl; auto)) as Hx. cbn [fst snd] in Hx.
    rewrite psum_snoc. split; [lia|].
    assert (Hcase : h i' j' = h i j \/ h i' j' = (h i j + 1)%Z) by lia. destruct Hcase as [E|E].
    + rewrite E in *. pose proof (HW (h i j)). lra.
    + rewrite E in *. rewrite (pre_S W (h i j + 1)) by lia. lra.
Qed.

Lemma slow_row : slow (fun i _ => i).
Proof. intros i j i' j' H. apply wstep_cases in H. lia. Qed.
Lemma slow_col : slow (fun _ j => j).
Proof. intros i j i' j' H. apply wstep_cases in H. lia. Qed.
Lemma slow_max : slow Z.max.
Proof. intros i j i' j' H. apply wstep_cases in H. lia. Qed.
Lemma slow_min : slow Z.min.
Proof. intros i j i' j' H. apply wstep_cases in H. lia. Qed.

(** cutting a path at a row: what follows visits every later level of [h] *)
Lemma cut_row h W i0 i j p : slow h -> (forall i j, (0 <= i)%Z -> (0 <= j)%Z -> (0 <= h i j)%Z) -> (forall k, 0 <= W k) ->
  bpath r i j p -> (0 <= i0 <= i)%Z -> (forall x, In x p -> W (h (fst x) (snd x)) <= c (fst x) (snd x)) ->
  exists j0 p0, bpath r i0 j0 p0 /\ (h i0 j0 <= h i j)%Z /\
    psum c p0 + (pre W (h i j + 1) - pre W (h i0 j0 + 1)) <= psum c p.
Proof.
  intros Hh H0 HW Hp. induction Hp as [|i j i' j' p Hp IH Hs Hb]; intros Hi Hc.
  - exists 0%Z, [(0, 0)%Z]. assert (i0 = 0%Z) as -> by lia. splits; [constructor|lia|lra].
  - destruct (Z.eq_dec i0 i') as [->|Hne].
    + exists j', (p ++ [(i', j')]). splits; [econstructor; eauto|lia|lra].
    + pose proof (wstep_cases _ _ _ _ Hs) as Hs'.
      destruct IH as (j0 & p0 & P1 & P2 & P3); [lia|intros x Hx; apply Hc, in_or_app; auto|].
      exists j0, p0. splits; auto.
      * pose proof (Hh _ _ _ _ Hs). lia.
      * rewrite psum_snoc. pose proof (Hh _ _ _ _ Hs) as Hk.
        pose proof (Hc (i', j') ltac:(apply in_or_app; right; simpl; auto)) as Hx. cbn [fst snd] in Hx.
        pose proof (bpath_nonneg _ _ _ _ Hp) as [N1 N2]. pose proof (H0 i j N1 N2).
        assert (Hcase : h i' j' = h i j \/ h i' j' = (h i j + 1)%Z) by lia. destruct Hcase as [E|E].
        -- rewrite E in *. pose proof (HW (h i j)). lra.
        -- rewrite E in *. rewrite (pre_S W (h i j + 1)) by lia. lra.
Qed.

(** optimal cost of the in-band paths to a cell *)
Definition opt (i j : Z) (v : R) : Prop :=
  (exists p, bpath r i j p /\ psum c p = v) /\ (forall p, bpath r i j p -> v <= psum c p).

Lemma opt_unique i j v v' : opt i j v -> opt i j v' -> v = v'.
Proof.
  intros ((p & P1 & <-) & P2) ((q & Q1 & <-) & Q2). apply Rle_antisym; auto.
Qed.

Lemma opt_00 : opt 0 0 (c 0 0).
Proof.
  split.
  - exists [(0, 0)%Z]. split; [constructor|simpl; lra].
  - intros p Hp. inversion Hp; subst.
    + simpl. lra.
    + pose proof (bpath_nonneg _ _ _ _ H). apply wstep_cases in H0. lia.
Qed.

(** one cell from its predecessors *)
Definition pred_ok (i j : Z) (v : R) : Prop :=
  (exists i0 j0, wstep (i0, j0) (i, j) /\ opt i0 j0 v).

Lemma opt_step i j v : (0 < i \/ 0 < j)%Z -> (Z.abs (i - j) <= r)%Z ->
  pred_ok i j v -> (forall i0 j0 v0, wstep (i0, j0) (i, j) -> opt i0 j0 v0 -> v <= v0) ->
  (forall i0 j0 p, wstep (i0, j0) (i, j) -> bpath r i0 j0 p -> exists v0, opt i0 j0 v0) ->
  opt i j (v + c i j).
Proof.
  intros Hij Hb (i0 & j0 & Hs & ((p & Hp & E) & Hv)) Hmin Hex. split.
  - exists (p ++ [(i, j)]). split; [econstructor; eauto|]. rewrite psum_snoc, E. reflexivity.
  - intros q Hq. inversion Hq as [E1 E2 E3|i1 j1 i2 j2 q0 Hq0 Hs0 Hb0 E1 E2 E3]; subst; [lia|].
    rewrite psum_snoc. destruct (Hex _ _ _ Hs0 Hq0) as (v0 & Hv0).
    pose proof (Hmin _ _ _ Hs0 Hv0). destruct Hv0 as (_ & Hv0). specialize (Hv0 _ Hq0). lra.
Qed.

Lemma opt_nonneg i j v : (forall i j, 0 <= c i j) -> opt i j v -> 0 <= v.
Proof.
  intros Hc ((p & _ & <-) & _). induction p as [|x p IH]; simpl; [lra|].
  pose proof (Hc (fst x) (snd x)). lra.
Qed.

Lemma bpath_length i j p : bpath r i j p -> (Z.of_nat (length p) <= i + j + 1)%Z.
Proof.
  induction 1 as [|i j i' j' p Hp IH Hs Hb]; [simpl; lia|]. rewrite app_length. simpl.
  apply wstep_cases in Hs. lia.
Qed.

Lemma psum_bound B i j p : 0 <= B -> (forall i' j', (0 <= i' <= i)%Z -> (0 <= j' <= j)%Z -> c i' j' <= B) ->
  bpath r i j p -> psum c p <= IZR (i + j + 1) * B.
Proof.
  intros HB Hc Hp. pose proof (bpath_length _ _ _ Hp) as Hl.
  assert (H : psum c p <= IZR (Z.of_nat (length p)) * B).
  { assert (Hin : forall x, In x p -> c (fst x) (snd x) <= B).
    { intros x Hx. pose proof (bpath_in _ _ _ _ _ Hp Hx). apply Hc; lia. }
    clear - Hin HB. induction p as [|x p IH]; [simpl; lra|].
    change (psum c (x :: p)) with (c (fst x) (snd x) + psum c p).
    replace (Z.of_nat (length (x :: p))) with (Z.of_nat (length p) + 1)%Z by (cbn [length]; lia).
    rewrite plus_IZR. pose proof (Hin x (or_introl eq_refl)).
    assert (psum c p <= IZR (Z.of_nat (length p)) * B) by (apply IH; intros; apply Hin; simpl; auto). lra. }
  eapply Rle_trans; [exact H|]. apply Rmult_le_compat_r; auto. apply IZR_le. auto.
Qed.

Lemma opt_bound B i j v : 0 <= B -> (forall i' j', (0 <= i' <= i)%Z -> (0 <= j' <= j)%Z -> c i' j' <= B) ->
  opt i j v -> v <= IZR (i + j + 1) * B.
Proof.
  intros HB Hc ((p & Hp & <-) & _). apply psum_bound; auto.
Qed.
End Paths.

(** the lower bound from the first and last points (LB_Kim) *)
Lemma kim_bound r c m w0 w1 w2 e0 e1 e2 p v : (6 <= m)%Z -> (forall i j, 0 <= c i j) ->
  0 <= w0 -> 0 <= w1 -> 0 <= w2 -> 0 <= e0 -> 0 <= e1 -> 0 <= e2 ->
  (forall i j, (0 <= i)%Z -> (0 <= j)%Z -> Z.max i j = 0%Z -> w0 <= c i j) ->
  (forall i j, (0 <= i)%Z -> (0 <= j)%Z -> Z.max i j = 1%Z -> w1 <= c i j) ->
  (forall i j, (0 <= i)%Z -> (0 <= j)%Z -> Z.max i j = 2%Z -> w2 <= c i j) ->
  (forall i j, (i < m)%Z -> (j < m)%Z -> Z.min i j = (m - 1)%Z -> e0 <= c i j) ->
  (forall i j, (i < m)%Z -> (j < m)%Z -> Z.min i j = (m - 2)%Z -> e1 <= c i j) ->
  (forall i j, (i < m)%Z -> (j < m)%Z -> Z.min i j = (m - 3)%Z -> e2 <= c i j) ->
  v = w0 + w1 + w2 + e0 + e1 + e2 ->
  bpath r (m - 1) (m - 1) p -> v <= psum c p.
Proof.
  intros Hm Hc P0 P1 P2 P3 P4 P5 H0 H1 H2 H3 H4 H5 -> Hp.
  set (Wf := fun k : Z => if (k =? 0)%Z then w0 else if (k =? 1)%Z then w1 else if (k =? 2)%Z then w2 else 0).
  set (We := fun k : Z => if (k =? m - 1)%Z then e0 else if (k =? m - 2)%Z then e1 else if (k =? m - 3)%Z then e2 else 0).
  assert (HWf : forall k, 0 <= Wf k) by (intros k; unfold Wf; repeat destruct (_ =? _)%Z; lra).
  assert (HWe : forall k, 0 <= We k) by (intros k; unfold We; repeat destruct (_ =? _)%Z; lra).
  set (cf := fun i j : Z => Wf (Z.max i j)). set (ce := fun i j : Z => We (Z.min i j)).
  assert (Hsum : psum cf p + psum ce p <= psum c p).
  { assert (Hin : forall x, In x p -> cf (fst x) (snd x) + ce (fst x) (snd x) <= c (fst x) (snd x)).
    { intros [i j] Hx. pose proof (bpath_in _ _ _ _ _ Hp Hx) as Hb. cbn [fst snd] in *.
      unfold cf, ce, Wf, We.
      destruct (Z.eqb_spec (Z.max i j) 0) as [e|].
      { repeat match goal with |- context [(?a =? ?b)%Z] => destruct (Z.eqb_spec a b); [lia|] end.
        pose proof (H0 i j ltac:(lia) ltac:(lia) e). lra. }
      destruct (Z.eqb_spec (Z.max i j) 1) as [e|].
      { repeat match goal with |- context [(?a =? ?b)%Z] => destruct (Z.eqb_spec a b); [lia|] end.
        pose proof (H1 i j ltac:(lia) ltac:(lia) e). lra. }
      destruct (Z.eqb_spec (Z.max i j) 2) as [e|].
      { repeat match goal with |- context [(?a =? ?b)%Z] => destruct (Z.eqb_spec a b); [lia|] end.
        pose proof (H2 i j ltac:(lia) ltac:(lia) e). lra. }
      destruct (Z.eqb_spec (Z.min i j) (m - 1)) as [E|E]; [pose proof (H3 i j ltac:(lia) ltac:(lia) E); lra|].
      destruct (Z.eqb_spec (Z.min i j) (m - 2)) as [E'|E']; [pose proof (H4 i j ltac:(lia) ltac:(lia) E'); lra|].
      destruct (Z.eqb_spec (Z.min i j) (m - 3)) as [E''|E'']; [pose proof (H5 i j ltac:(lia) ltac:(lia) E''); lra|].
      pose proof (Hc i j). lra. }
    clear - Hin. induction p as [|x p IH]; [simpl; lra|].
    pose proof (Hin x (or_introl eq_refl)). cbn [psum fold_right]. fold (psum cf p) (psum ce p) (psum c p).
    assert (psum cf p + psum ce p <= psum c p) by (apply IH; intros; apply Hin; simpl; auto). lra. }
  destruct (layers r cf Z.max Wf _ _ p slow_max ltac:(lia) HWf Hp ltac:(intros; unfold cf; lra)) as (_ & Lf).
  destruct (layers r ce Z.min We _ _ p slow_min ltac:(lia) HWe Hp ltac:(intros; unfold ce; lra)) as (_ & Le).
  rewrite Z.max_id in Lf. rewrite Z.min_id in Le.
  change (Z.max 0 0) with 0%Z in Lf. change (Z.min 0 0) with 0%Z in Le.
  rewrite (pre_0 _ 0) in Lf by lia. rewrite (pre_0 _ 0) in Le by lia.
  assert (F : pre Wf 3 <= pre Wf (m - 1 + 1)) by (apply pre_mono; auto; lia).
  assert (EF : pre Wf 3 = w0 + w1 + w2) by (unfold pre, Wf; simpl; lra).
  assert (E : e0 + e1 + e2 <= pre We (m - 1 + 1)).
  { rewrite (pre_S We (m - 1)) by lia. replace (m - 1)%Z with (m - 2 + 1)%Z at 1 by lia.
    rewrite (pre_S We (m - 2)) by lia. replace (m - 2)%Z with (m - 3 + 1)%Z at 1 by lia.
    rewrite (pre_S We (m - 3)) by lia.
    assert (0 <= pre We (m - 3)) by (rewrite <- (pre_0 We 0) by lia; apply pre_mono; auto; lia).
    assert (We (m - 1)%Z = e0) by (unfold We; rewrite Z.eqb_refl; auto).
    assert (We (m - 2)%Z = e1). { unfold We. destruct (Z.eqb_spec (m - 2) (m - 1)); [lia|]. rewrite Z.eqb_refl. auto. }
    assert (We (m - 3)%Z = e2).
    { unfold We. destruct (Z.eqb_spec (m - 3) (m - 1)); [lia|]. destruct (Z.eqb_spec (m - 3) (m - 2)); [lia|]. rewrite Z.eqb_refl. auto. }
    lra. }
  lra.
Qed.
