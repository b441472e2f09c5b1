(** Consequences: the returned value is the cost of an in-band path, the cut-off
    is sound, self distance, non-negativity, optimality, symmetry, matchings. *)
From Verif Require Import Base Num NumLaws NumFacts TimeSeries Distance DtwSpec DtwPaths LoopFacts
  DtwProofs Metrics DtwMain.

(** Hypotheses shared by the theorems on two series of at least two points. *)
Record dtw_pre {N : Num} (M : Metric N) (a b : TS N) (ratio : D N) (r : Z) : Prop := {
  dp_a : ts_ok a; dp_b : ts_ok b;
  dp_m : 2 <= ts_length a <= 2 ^ 30;
  dp_n : 2 <= ts_length b <= 2 ^ 30;
  dp_fa : Forall nfin (ts_points a);
  dp_fb : Forall nfin (ts_points b);
  dp_band : band ratio (Z.max (ts_length a) (ts_length b)) = Ret r;
  dp_r : 0 <= r;
  dp_fin : no_overflow M a b r
}.

Definition best_path {N : Num} (M : Metric N) (a b : TS N) (r : Z) (p : list (Z * Z)) : Prop :=
  warping_path (ts_length a) (ts_length b) p /\ in_band r p /\
  forall q, warping_path (ts_length a) (ts_length b) q -> in_band r q ->
    nle (path_cost M a b p) (path_cost M a b q).

Section Results.
Context {N : Num} {L : NumLaws N}.
Variable M : Metric N.
Variable ng : Nice M.
Variables a b : TS N.
Variables (ratio : D N) (r : Z).
Hypothesis H : dtw_pre M a b ratio r.
Notation m := (ts_length a).
Notation n := (ts_length b).

Ltac pre :=
  pose proof (dp_a _ _ _ _ _ H) as Ha; pose proof (dp_b _ _ _ _ _ H) as Hb;
  pose proof (dp_m _ _ _ _ _ H) as Hm; pose proof (dp_n _ _ _ _ _ H) as Hn;
  pose proof (dp_fa _ _ _ _ _ H) as Fa; pose proof (dp_fb _ _ _ _ _ H) as Fb;
  pose proof (dp_band _ _ _ _ _ H) as Hband; pose proof (dp_r _ _ _ _ _ H) as Hr;
  pose proof (dp_fin _ _ _ _ _ H) as Hfin.

Lemma last_bpath p : bpath r (m - 1) (n - 1) p <-> warping_path m n p /\ in_band r p.
Proof.
  pre.
  rewrite bpath_iff by exact Hr. replace (m - 1 + 1) with m by lia. replace (n - 1 + 1) with n by lia. tauto.
Qed.

Lemma max_ok' : 1 <= Z.max m n <= 2 ^ 30.
Proof.
  pre. lia. Qed.

Lemma Fpa i : 0 <= i < m -> nfin (pt a i).
Proof.
  pre. intros Hi. rewrite Forall_forall in Fa. apply Fa, pt_in; auto. Qed.
Lemma Fpb i : 0 <= i < n -> nfin (pt b i).
Proof.
  pre. intros Hi. rewrite Forall_forall in Fb. apply Fb, pt_in; auto. Qed.

Lemma path_acc_ok i j p : bpath r i j p -> i < m -> j < n -> ng_ok ng (path_acc M a b p).
Proof.
  pre.
  intros Hp Hi Hj. induction Hp as [|i j i' j' p Hp IH Hw Habs].
  - apply ng_red_ok; [apply ng_init|apply (Fpa 0); lia|apply (Fpb 0); lia].
  - rewrite path_acc_snoc. pose proof (wstep_cases _ _ _ _ Hw). pose proof (bpath_nonneg _ _ _ _ Hp).
    apply ng_red_ok; [apply IH; lia|apply Fpa; lia|apply Fpb; lia].
Qed.

(** the value of the unbounded computation and what any cut-off does to it *)
Lemma dtw_run : exists dF,
  ((Z.abs (m - n) <= r /\ exists p, warping_path m n p /\ in_band r p /\ dF = path_cost M a b p) \/
   (r < Z.abs (m - n) /\ dF = ninf)) /\
  (forall dropout mt, nn dropout -> exists d p, warping_path m n p /\
     warpedDistance M a b ratio dropout mt = Ret (d, p ++ rev mt) /\
     (d = dF \/ (d = ninf /\ nlt dropout dF))).
Proof.
  pre.
  destruct (warped_gen M ng a b r Ha Hb Hm Hn Hr Fa Fb Hfin (fun _ _ _ => True) I ltac:(auto) ratio Hband)
    as (cF & dF & _ & HdF & Hrun).
  exists dF. split.
  - destruct HdF as [(H1 & v & _ & [(_ & p & Hp & ->) _] & ->)|H1]; [left|right; exact H1].
    split; auto. exists p. apply last_bpath in Hp as [Hp1 Hp2]. splits; auto.
  - intros dropout mt Hd. destruct (Hrun dropout mt Hd) as (d & p & nc & E & Hp & Hd').
    exists d, p. apply btpath_path in Hp. replace (m - 1 + 1) with m in Hp by lia.
    replace (n - 1 + 1) with n in Hp by lia. splits; auto. destruct Hd' as [[? _]|?]; auto.
Qed.

Lemma dtw_inf mt : exists dF p, warping_path m n p /\
  warpedDistance M a b ratio ninf mt = Ret (dF, p ++ rev mt) /\
  ((Z.abs (m - n) <= r /\ exists p, warping_path m n p /\ in_band r p /\ dF = path_cost M a b p) \/
   (r < Z.abs (m - n) /\ dF = ninf)).
Proof.
  pre.
  destruct dtw_run as (dF & HdF & Hrun). destruct (Hrun ninf mt lw_inf_nn) as (d & p & Hp & E & Hd).
  exists d, p. splits; auto. destruct Hd as [->|[_ Hlt]]; auto. exfalso.
  destruct HdF as [(_ & q & _ & _ & ->)|(_ & ->)].
  - apply (nle_not_lt (path_cost M a b q) ninf); auto. apply nle_inf. apply (nlt_nn_r _ _ Hlt).
  - apply (nlt_irrefl _ Hlt).
Qed.

(** C02: the value is the cost of an in-band warping path *)
Lemma dtw_is_path_cost mt : Z.abs (m - n) <= r -> exists p mt',
  warping_path m n p /\ in_band r p /\
  warpedDistance M a b ratio ninf mt = Ret (path_cost M a b p, mt').
Proof.
  pre.
  intros Hab. destruct (dtw_inf mt) as (dF & p & _ & E & [(_ & q & H1 & H2 & ->)|(H1 & _)]); [|lia].
  exists q; eauto.
Qed.

Lemma dtw_no_path mt : r < Z.abs (m - n) ->
  (forall p, warping_path m n p -> ~ in_band r p) /\
  exists mt', warpedDistance M a b ratio ninf mt = Ret (ninf, mt').
Proof.
  pre.
  intros Hab. split.
  - intros p Hp Hband'. assert (Hp' : bpath r (m - 1) (n - 1) p) by (apply last_bpath; auto).
    apply bpath_band in Hp'; auto. lia.
  - destruct (dtw_inf mt) as (dF & p & _ & E & [(H1 & _)|(_ & ->)]); [lia|]. eauto.
Qed.

(** C03: cut-off soundness *)
Lemma dtw_cutoff dropout mt dF mtF : nn dropout ->
  warpedDistance M a b ratio ninf mt = Ret (dF, mtF) ->
  exists d mt', warpedDistance M a b ratio dropout mt = Ret (d, mt') /\
    (nltb dropout dF = false -> d = dF) /\
    (nltb dropout dF = true -> (d = dF \/ d = ninf) /\ nltb dropout d = true).
Proof.
  pre.
  intros Hd E. destruct dtw_run as (d0 & Hd0 & Hrun).
  assert (dF = d0) as ->.
  { destruct (Hrun ninf mt lw_inf_nn) as (d & p & Hp & E' & Hc). rewrite E in E'. injection E' as -> _.
    destruct Hc as [->|[_ Hlt]]; auto. exfalso. apply (nle_not_lt d0 ninf); auto.
    apply nle_inf, (nlt_nn_r _ _ Hlt). }
  destruct (Hrun dropout mt Hd) as (d & p & Hp & E' & Hc). exists d, (p ++ rev mt). splits; auto.
  - intros Hf. destruct Hc as [->|[_ Hlt]]; auto. exfalso. unfold nlt in Hlt. congruence.
  - intros Ht. destruct Hc as [->|[-> _]]; auto. split; auto.
    apply nlt_le_trans with d0; auto. apply nle_inf. apply (nlt_nn_r dropout). exact Ht.
Qed.

(** the distance is never negative *)
Lemma path_cost_pos p : warping_path m n p -> in_band r p -> nle n0 (path_cost M a b p).
Proof.
  pre.
  intros H1 H2. assert (Hp : bpath r (m - 1) (n - 1) p) by (apply last_bpath; auto).
  assert (Hgen : forall i j, bpath r i j p -> i < m -> j < n -> nle n0 (path_cost M a b p)).
  { intros i j Hp' Hi Hj. unfold path_cost. destruct Hp' as [|i j i' j' p Hp' Hw Habs].
    - apply (ng_norm_pos _ ng); [apply max_ok'|apply ng_init|apply (Fpa 0); lia|apply (Fpb 0); lia].
    - rewrite path_acc_snoc. pose proof (wstep_cases _ _ _ _ Hw). pose proof (bpath_nonneg _ _ _ _ Hp').
      apply (ng_norm_pos _ ng); [apply max_ok'| |apply Fpa; lia|apply Fpb; lia].
      apply (path_acc_ok i j); auto; lia. }
  apply (Hgen (m - 1) (n - 1)); auto; lia.
Qed.

Lemma dtw_nonneg dropout mt d mt' : nn dropout ->
  warpedDistance M a b ratio dropout mt = Ret (d, mt') -> nle n0 d.
Proof.
  pre.
  intros Hd E. destruct dtw_run as (d0 & Hd0 & Hrun). destruct (Hrun dropout mt Hd) as (d1 & p & Hp & E' & Hc).
  rewrite E in E'. injection E' as <- _.
  assert (nle n0 d0). { destruct Hd0 as [(_ & q & H1 & H2 & ->)|(_ & ->)]; [apply path_cost_pos; auto|apply nle_inf, n0_nn]. }
  destruct Hc as [->|[-> _]]; auto. apply nle_inf, n0_nn.
Qed.

(** the returned matching is a warping path (appended to the reversal of the
    previous contents of the matching vector) *)
Lemma dtw_matching_legal dropout d mt' : nn dropout ->
  warpedDistance M a b ratio dropout [] = Ret (d, mt') -> warping_path m n mt'.
Proof.
  pre.
  intros Hd E. destruct dtw_run as (d0 & Hd0 & Hrun). destruct (Hrun dropout [] Hd) as (d1 & p & Hp & E' & Hc).
  rewrite E in E'. injection E' as _ E2. simpl in E2. rewrite app_nil_r in E2. subst mt'. exact Hp.
Qed.

(** distance of a series to itself *)
Lemma dtw_self mt : ts_points a = ts_points b -> exists d mt',
  warpedDistance M a b ratio ninf mt = Ret (d, mt') /\ nle d n0 /\ nle n0 d.
Proof.
  pre.
  intros Hab.
  assert (Hpt : forall i, pt b i = pt a i) by (intros; unfold pt; rewrite Hab; auto).
  assert (Hlen : m = n).
  { rewrite <- (ts_points_length a), <- (ts_points_length b), Hab by auto. reflexivity. }
  destruct (warped_gen M ng a b r Ha Hb Hm Hn Hr Fa Fb Hfin
     (fun i j v => i = j -> nle (nrm M a b v) n0)) with (ratio := ratio)
    as (cF & dF & _ & HdF & Hrun); auto.
  { intros _. rewrite Hpt. apply (ng_self0 _ ng); [apply max_ok'|apply Fpa; lia]. }
  { intros i j ip jp v' Hij Hw Hinp Hok Hp1 _ Hmin ->. rewrite Hpt.
    unfold inb in Hij.
    assert (Hpos : 0 < j).
    { apply wstep_cases in Hw. unfold inb in Hinp. lia. }
    destruct (Hmin (j - 1) (j - 1)) as (vq & Hokq & _ & Hz & Hle).
    { right; right; simpl; f_equal; lia. }
    { unfold inb; lia. }
    apply (ng_selfS _ ng); auto; [apply max_ok'|apply Fpa; lia|].
    apply (nle_trans _ _ _ Hle). apply Hz. reflexivity. }
  destruct (Hrun ninf mt lw_inf_nn) as (d & p & nc & E & Hp & Hc).
  exists d, (p ++ rev mt). split; [exact E|]. split; [|apply (dtw_nonneg _ _ _ _ lw_inf_nn E)].
  destruct HdF as [(_ & v & Hok & [_ Hz] & ->)|(H1 & _)]; [|lia].
  destruct Hc as [[-> _]|[_ Hlt]].
  - apply Hz. lia.
  - exfalso. apply (nle_not_lt _ _ (nle_inf _ (nlt_nn_r _ _ Hlt)) Hlt).
Qed.

Section Exact.
(** normalised costs are ordered like accumulated costs *)
Hypothesis Hrefl : reflects ng m n.

Definition Phi2 (i j : Z) (v : acc M) : Prop :=
  forall q, bpath r i j q -> ng_le ng v (path_acc M a b q).

Lemma Phi2_0 : Phi2 0 0 (m_reduce M (m_init M) (pt a 0) (pt b 0)).
Proof.
  pre.
  intros q Hq. assert (q = [(0, 0)]) as ->.
  { inversion Hq as [E|i j i' j' p Hp Hw Habs E1 E2 E3]; subst; auto.
    exfalso. apply wstep_cases in Hw. apply bpath_nonneg in Hp. lia. }
  apply ng_le_refl. apply (path_acc_ok 0 0); try constructor; lia.
Qed.

Lemma Phi2_S : forall i j ip jp v',
  inb a b r i j -> wstep (ip, jp) (i, j) -> inb a b r ip jp -> ng_ok ng v' -> Phi1 M a b r ip jp v' -> Phi2 ip jp v' ->
  (forall iq jq, wstep (iq, jq) (i, j) -> inb a b r iq jq ->
     exists vq, ng_ok ng vq /\ Phi1 M a b r iq jq vq /\ Phi2 iq jq vq /\ nle (nrm M a b v') (nrm M a b vq)) ->
  Phi2 i j (m_reduce M v' (pt a i) (pt b j)).
Proof.
  pre.
  intros i j ip jp v' Hij Hw Hp Hok _ H2 Hmin q Hq. unfold inb in Hij.
  inversion Hq as [E|iq jq i' j' p Hp' Hw' Habs E1 E2 E3]; subst.
  - exfalso. apply wstep_cases in Hw. unfold inb in Hp. lia.
  - rewrite path_acc_snoc. pose proof (wstep_cases _ _ _ _ Hw') as Hc. pose proof (bpath_nonneg _ _ _ _ Hp').
    destruct (Hmin iq jq Hw') as (vq & Hokq & _ & H2q & Hle).
    { unfold inb. apply bpath_band in Hp'; auto. lia. }
    assert (Hokp : ng_ok ng (path_acc M a b p)) by (apply (path_acc_ok iq jq); auto; lia).
    apply ng_red_mono; auto; [apply Fpa; lia|apply Fpb; lia|].
    apply (ng_le_trans _ _ _ vq); [apply Hrefl; auto|]. apply H2q; auto.
Qed.

(** C01: the value is the minimum over in-band warping paths *)
Lemma dtw_optimal mt : Z.abs (m - n) <= r -> exists p mt',
  best_path M a b r p /\ warpedDistance M a b ratio ninf mt = Ret (path_cost M a b p, mt').
Proof.
  pre.
  intros Hab.
  destruct (warped_gen M ng a b r Ha Hb Hm Hn Hr Fa Fb Hfin Phi2 Phi2_0 Phi2_S ratio Hband)
    as (cF & dF & _ & HdF & Hrun).
  destruct HdF as [(_ & v & Hok & [(_ & p & Hp & ->) H2] & ->)|(H1 & _)]; [|lia].
  exists p. destruct (Hrun ninf mt lw_inf_nn) as (d & mt' & nc & E & _ & Hc).
  exists (mt' ++ rev mt). assert (Hp' := Hp). apply last_bpath in Hp' as [Hp1 Hp2]. split.
  - split; [exact Hp1|]. split; [exact Hp2|]. intros q Hq1 Hq2.
    assert (Hq : bpath r (m - 1) (n - 1) q) by (apply last_bpath; auto).
    apply (ng_norm_mono _ ng); [apply max_ok'| | |apply H2; auto].
    + exact Hok.
    + apply (path_acc_ok (m - 1) (n - 1)); auto; lia.
  - rewrite E. destruct Hc as [[-> _]|[_ Hlt]]; auto. exfalso.
    apply (nle_not_lt _ _ (nle_inf _ (nlt_nn_r _ _ Hlt)) Hlt).
Qed.

(** C11: with a full band the returned matching is an optimal warping path *)
Lemma dtw_matching_optimal mt : Z.max m n - 1 <= r -> exists d p,
  warpedDistance M a b ratio ninf mt = Ret (d, p ++ rev mt) /\
  best_path M a b r p /\ neqv (path_cost M a b p) d.
Proof.
  pre.
  intros Hfull.
  destruct (warped_gen M ng a b r Ha Hb Hm Hn Hr Fa Fb Hfin Phi2 Phi2_0 Phi2_S ratio Hband)
    as (cF & dF & HINV & HdF & Hrun).
  destruct HdF as [(_ & v & Hok & [(_ & p0 & Hp0 & Ev) H2] & EdF)|(H1 & _)]; [|lia].
  destruct (Hrun ninf mt lw_inf_nn) as (d & p & nc & E & Hp & Hc).
  destruct Hc as [[-> Enc]|[_ Hlt]].
  2:{ exfalso. apply (nle_not_lt _ _ (nle_inf _ (nlt_nn_r _ _ Hlt)) Hlt). }
  destruct HINV as (_ & Hcell & _).
  assert (Hall : forall i j, 0 <= i < m -> 0 <= j < n -> inb a b r i j) by (unfold inb; lia).
  (* every traced path is at most the cell value *)
  assert (Hbt : forall i j q, btpath (snd cF) i j q -> i < m -> j < n ->
      forall w, ng_ok ng w -> Phi2 i j w -> Phi1 M a b r i j w -> ng_le ng (path_acc M a b q) w).
  { intros i j q Hq. induction Hq as [|i j ip jp q Hq IH Hch]; intros Hi Hj w Hokw H2w H1w.
    - destruct H1w as (_ & q' & Hq' & ->).
      inversion Hq' as [E'|i j i' j' p' Hp' Hw Habs E1 E2 E3]; subst.
      + apply ng_le_refl. apply (path_acc_ok 0 0); try constructor; lia.
      + exfalso. apply wstep_cases in Hw. apply bpath_nonneg in Hp'. lia.
    - destruct Hch as (Hw & Hip & Hjp & Hch). pose proof (wstep_cases _ _ _ _ Hw) as Hwc.
      destruct H1w as (_ & q' & Hq' & ->).
      inversion Hq' as [E'|iq jq i' j' p' Hp' Hw' Habs E1 E2 E3]; subst; [lia|].
      pose proof (wstep_cases _ _ _ _ Hw') as Hwc'. pose proof (bpath_nonneg _ _ _ _ Hp') as [? ?].
      destruct (Hcell ip jp) as (vp & Hokp & Hwp & [HP1p HP2p] & _); [apply Hall; lia|exact I|].
      destruct (Hcell iq jq) as (vq & Hokq & Hwq & [HP1q HP2q] & _); [apply Hall; lia|exact I|].
      assert (Hle : ng_le ng vp vq).
      { apply Hrefl; auto. apply (Hch iq jq); auto; [apply Hwp|apply Hwq]. }
      rewrite !path_acc_snoc.
      assert (Hokpq : ng_ok ng (path_acc M a b q)).
      { apply (path_acc_ok ip jp); [|lia|lia]. apply (btpath_bpath (snd cF)); auto; lia. }
      assert (Hokp' : ng_ok ng (path_acc M a b p')) by (apply (path_acc_ok iq jq); auto; lia).
      apply ng_red_mono; auto; [apply Fpa; lia|apply Fpb; lia|].
      apply (ng_le_trans _ _ _ vp); [apply IH; auto; lia|].
      apply (ng_le_trans _ _ _ vq); auto. }
  assert (Hpb : bpath r (m - 1) (n - 1) p) by (apply (btpath_bpath nc); auto; lia).
  assert (Hokp : ng_ok ng (path_acc M a b p)) by (apply (path_acc_ok (m - 1) (n - 1)); auto; lia).
  assert (Hle : ng_le ng (path_acc M a b p) v).
  { subst nc. apply (Hbt (m - 1) (n - 1)); auto; try lia. split; [apply Hall; lia|]. exists p0; auto. }
  exists dF, p. split; [exact E|]. split.
  - apply last_bpath in Hpb as [Hp1 Hp2]. split; [exact Hp1|]. split; [exact Hp2|].
    intros q Hq1 Hq2. assert (Hq : bpath r (m - 1) (n - 1) q) by (apply last_bpath; auto).
    assert (ng_ok ng (path_acc M a b q)) by (apply (path_acc_ok (m - 1) (n - 1)); auto; lia).
    apply (ng_norm_mono _ ng); auto; [apply max_ok'|].
    apply (ng_le_trans _ _ _ v); auto.
  - subst dF. split; apply (ng_norm_mono _ ng); auto; try apply max_ok'.
Qed.
End Exact.
End Results.

(** symmetry *)
Definition flip (p : list (Z * Z)) : list (Z * Z) := map (fun c => (snd c, fst c)) p.

Lemma flip_flip p : flip (flip p) = p.
Proof. unfold flip. rewrite map_map. rewrite <- (map_id p) at 2. apply map_ext. intros [x y]; auto. Qed.

Lemma flip_bpath r i j p : bpath r i j p -> bpath r j i (flip p).
Proof.
  induction 1 as [|i j i' j' p Hp IH Hw Habs].
  - simpl. constructor.
  - unfold flip. rewrite map_app. simpl. apply (bpS r j i); auto; [|lia].
    destruct Hw as [E|[E|E]]; simpl in E; injection E as -> ->; unfold wstep; simpl; auto.
Qed.

Lemma flip_path r m n p : 0 <= r -> warping_path m n p -> in_band r p ->
  warping_path n m (flip p) /\ in_band r (flip p).
Proof.
  intros Hr H1 H2. assert (Hp : bpath r (m - 1) (n - 1) p).
  { apply path_bpath; auto. replace (m - 1 + 1) with m by lia. replace (n - 1 + 1) with n by lia. auto. }
  apply flip_bpath in Hp. apply bpath_path in Hp; auto.
  replace (m - 1 + 1) with m in Hp by lia. replace (n - 1 + 1) with n in Hp by lia. exact Hp.
Qed.

Section Sym.
Context {N : Num} {L : NumLaws N}.
Variable M : Metric N.
Variable ng : Nice M.
Variables a b : TS N.
Variables (ratio : D N) (r : Z).
Hypothesis H : dtw_pre M a b ratio r.

Lemma flip_acc i j p : bpath r i j p -> i < ts_length a -> j < ts_length b ->
  path_acc M b a (flip p) = path_acc M a b p.
Proof.
  induction 1 as [|i j i' j' p Hp IH Hw Habs]; intros Hi Hj.
  - unfold path_acc; simpl. apply (ng_sym _ ng); [apply (Fpb M a b ratio r H)|apply (Fpa M a b ratio r H)]; lia.
  - unfold flip. rewrite map_app. simpl. rewrite !path_acc_snoc.
    pose proof (wstep_cases _ _ _ _ Hw). pose proof (bpath_nonneg _ _ _ _ Hp).
    fold (flip p). rewrite IH by lia.
    apply (ng_sym _ ng); [apply (Fpb M a b ratio r H)|apply (Fpa M a b ratio r H)]; lia.
Qed.

Lemma flip_cost i j p : 0 <= r -> 1 <= i <= ts_length a -> 1 <= j <= ts_length b ->
  warping_path i j p -> in_band r p -> path_cost M b a (flip p) = path_cost M a b p.
Proof.
  intros Hr Hi Hj H1 H2. assert (Hp : bpath r (i - 1) (j - 1) p).
  { apply path_bpath; auto. replace (i - 1 + 1) with i by lia. replace (j - 1 + 1) with j by lia. auto. }
  unfold path_cost. rewrite (flip_acc (i - 1) (j - 1)); auto; [|lia|lia]. apply (ng_norm_sym _ ng).
Qed.

Lemma dtw_pre_sym : dtw_pre M b a ratio r.
Proof.
  constructor; try apply H.
  - rewrite Z.max_comm. apply H.
  - intros i j p Hi Hj H1 H2.
    destruct (flip_path r i j p (dp_r _ _ _ _ _ H) H1 H2) as [H3 H4].
    pose proof (flip_cost j i (flip p) (dp_r _ _ _ _ _ H) Hj Hi H3 H4) as E.
    rewrite flip_flip in E. rewrite E. apply (dp_fin _ _ _ _ _ H j i); auto.
Qed.

Lemma dtw_sym mt1 mt2 : reflects ng (ts_length a) (ts_length b) -> reflects ng (ts_length b) (ts_length a) ->
  exists d1 d2 mt1' mt2', warpedDistance M a b ratio ninf mt1 = Ret (d1, mt1') /\
    warpedDistance M b a ratio ninf mt2 = Ret (d2, mt2') /\ neqv d1 d2.
Proof.
  intros R1 R2. pose proof dtw_pre_sym as H'.
  destruct (Z_le_gt_dec (Z.abs (ts_length a - ts_length b)) r) as [Hb|Hb].
  - destruct (dtw_optimal M ng a b ratio r H R1 mt1 Hb) as (p & mt1' & (Hp1 & Hp2 & Hp3) & E1).
    destruct (dtw_optimal M ng b a ratio r H' R2 mt2 ltac:(lia)) as (q & mt2' & (Hq1 & Hq2 & Hq3) & E2).
    exists (path_cost M a b p), (path_cost M b a q), mt1', mt2'. splits; auto.
    pose proof (dp_m _ _ _ _ _ H). pose proof (dp_n _ _ _ _ _ H).
    destruct (flip_path r _ _ p (dp_r _ _ _ _ _ H) Hp1 Hp2) as [Hfp1 Hfp2].
    destruct (flip_path r _ _ q (dp_r _ _ _ _ _ H) Hq1 Hq2) as [Hfq1 Hfq2].
    pose proof (flip_cost (ts_length a) (ts_length b) p (dp_r _ _ _ _ _ H) ltac:(lia) ltac:(lia) Hp1 Hp2) as Ep.
    pose proof (flip_cost (ts_length a) (ts_length b) (flip q) (dp_r _ _ _ _ _ H) ltac:(lia) ltac:(lia) Hfq1 Hfq2) as Eq.
    rewrite flip_flip in Eq.
    split; [rewrite Eq; auto|rewrite <- Ep; auto].
  - destruct (dtw_no_path M ng a b ratio r H mt1 ltac:(lia)) as (_ & mt1' & E1).
    destruct (dtw_no_path M ng b a ratio r H' mt2 ltac:(lia)) as (_ & mt2' & E2).
    exists ninf, ninf, mt1', mt2'. splits; auto. apply neqv_refl, lw_inf_nn.
Qed.
End Sym.
