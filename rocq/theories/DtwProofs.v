(** The dynamic programme of warpedDistance, for any well-behaved metric. *)
From Verif Require Import Base Num NumLaws NumFacts TimeSeries Distance DtwSpec DtwPaths LoopFacts.

(** What the proofs need from a metric.  Euclidean, Manhattan and Chebyshev
    satisfy it (Metrics.v); Cosine and Sorensen do not. *)
Record Nice {N : Num} (M : Metric N) := mkNice {
  ng_ok : acc M -> Prop;
  ng_le : acc M -> acc M -> Prop;
  ng_dflt : exists z, m_dflt M = Some z;
  ng_le_refl : forall v, ng_ok v -> ng_le v v;
  ng_le_trans : forall u v w, ng_le u v -> ng_le v w -> ng_le u w;
  ng_init : ng_ok (m_init M);
  ng_red_ok : forall v x y, ng_ok v -> nfin x -> nfin y -> ng_ok (m_reduce M v x y);
  ng_red_ge : forall v x y, ng_ok v -> nfin x -> nfin y -> ng_le v (m_reduce M v x y);
  ng_red_mono : forall v v' x y, ng_ok v -> ng_ok v' -> nfin x -> nfin y -> ng_le v v' ->
      ng_le (m_reduce M v x y) (m_reduce M v' x y);
  ng_norm_mono : forall v v' l1 l2, 1 <= Z.max l1 l2 <= 2 ^ 30 -> ng_ok v -> ng_ok v' -> ng_le v v' ->
      nle (m_normDTW M v l1 l2) (m_normDTW M v' l1 l2);
  ng_norm_pos : forall v x y l1 l2, 1 <= Z.max l1 l2 <= 2 ^ 30 -> ng_ok v -> nfin x -> nfin y ->
      nle n0 (m_normDTW M (m_reduce M v x y) l1 l2);
  ng_self0 : forall x l1 l2, 1 <= Z.max l1 l2 <= 2 ^ 30 -> nfin x ->
      nle (m_normDTW M (m_reduce M (m_init M) x x) l1 l2) n0;
  ng_selfS : forall v x l1 l2, 1 <= Z.max l1 l2 <= 2 ^ 30 -> ng_ok v -> nfin x ->
      nle (m_normDTW M v l1 l2) n0 -> nle (m_normDTW M (m_reduce M v x x) l1 l2) n0;
  ng_sym : forall v x y, nfin x -> nfin y -> m_reduce M v x y = m_reduce M v y x;
  ng_norm_sym : forall v l1 l2, m_normDTW M v l1 l2 = m_normDTW M v l2 l1
}.
Arguments ng_ok {N M}. Arguments ng_le {N M}.

Section DP.
Context {N : Num} {L : NumLaws N}.
Variable M : Metric N.
Variable ng : Nice M.
Variables a b : TS N.
Variable r : Z.
Notation m := (ts_length a).
Notation n := (ts_length b).
Hypothesis Ha : ts_ok a.
Hypothesis Hb : ts_ok b.
Hypothesis Hm : 1 <= m <= 2 ^ 30.
Hypothesis Hn : 1 <= n <= 2 ^ 30.
Hypothesis Hr : 0 <= r.
Hypothesis Fa : Forall nfin (ts_points a).
Hypothesis Fb : Forall nfin (ts_points b).

Definition nrm (v : acc M) : D N := m_normDTW M v m n.

(** in-band cell of the matrix *)
Definition inb (i j : Z) : Prop := 0 <= i < m /\ 0 <= j < n /\ Z.abs (i - j) <= r.

(** what a cell's accumulated value satisfies, in terms of its predecessors *)
Variable Phi : Z -> Z -> acc M -> Prop.
Hypothesis Phi0 : Phi 0 0 (m_reduce M (m_init M) (pt a 0) (pt b 0)).
Hypothesis PhiS : forall i j ip jp v',
  inb i j -> wstep (ip, jp) (i, j) -> inb ip jp -> ng_ok ng v' -> Phi ip jp v' ->
  (forall iq jq, wstep (iq, jq) (i, j) -> inb iq jq ->
     exists vq, ng_ok ng vq /\ Phi iq jq vq /\ nle (nrm v') (nrm vq)) ->
  Phi i j (m_reduce M v' (pt a i) (pt b j)).
Hypothesis Phi_fin : forall i j v, Phi i j v -> nlt (nrm v) ninf.

Definition St (c : cells M) : Prop := shape m n (fst c) /\ shape m n (snd c) /\
  (forall i j d, mget (snd c) i j = Ret d -> nn d).

Definition wr (c : cells M) (i j : Z) (v : acc M) : Prop :=
  mget (fst c) i j = Ret (Some v) /\ mget (snd c) i j = Ret (nrm v).

Definition same (c c' : cells M) (i j : Z) : Prop :=
  mget (fst c') i j = mget (fst c) i j /\ mget (snd c') i j = mget (snd c) i j.

Definition INV (S : Z -> Z -> Prop) (c : cells M) : Prop :=
  St c /\
  (forall i j, inb i j -> S i j -> exists v, ng_ok ng v /\ wr c i j v /\ Phi i j v /\
     (forall i', 0 <= i' <= i -> exists j' d', inb i' j' /\ S i' j' /\
        mget (snd c) i' j' = Ret d' /\ nle d' (nrm v))) /\
  (2 <= m -> 2 <= n -> ~ inb (m - 1) (n - 1) -> mget (snd c) (m - 1) (n - 1) = Ret ninf).

Lemma INV_ext (S S' : Z -> Z -> Prop) c :
  (forall i j, inb i j -> (S i j <-> S' i j)) -> INV S c -> INV S' c.
Proof.
  intros HS (H1 & H2 & H3). split; [exact H1|]. split; [|exact H3].
  intros i j Hi Hs. apply HS in Hs; [|exact Hi].
  destruct (H2 i j Hi Hs) as (v & Hok & Hw & HP & HR). exists v. splits; auto; try apply Hw.
  intros i' Hi'. destruct (HR i' Hi') as (j' & d' & Hb' & HS' & E & Hle).
  exists j', d'. splits; auto; try apply Hb'. apply HS; auto.
Qed.

Lemma fin_a i : 0 <= i < m -> nfin (pt a i).
Proof. intros Hi. rewrite Forall_forall in Fa. apply Fa, pt_in; auto. Qed.
Lemma fin_b i : 0 <= i < n -> nfin (pt b i).
Proof. intros Hi. rewrite Forall_forall in Fb. apply Fb, pt_in; auto. Qed.

Lemma max_ok : 1 <= Z.max m n <= 2 ^ 30.
Proof. lia. Qed.

Lemma nrm_nn v : ng_ok ng v -> nn (nrm v).
Proof.
  intros H. apply (nle_nn_l (nrm v) (nrm v)).
  apply (ng_norm_mono _ ng); auto using max_ok. apply ng_le_refl; auto.
Qed.

Lemma put_cell_ok c i j prev : St c -> ng_ok ng prev -> 0 <= i < m -> 0 <= j < n ->
  exists c', put_cell M a b i j prev c = Ret c' /\ St c' /\
    wr c' i j (m_reduce M prev (pt a i) (pt b j)) /\
    (forall i' j', (i', j') <> (i, j) -> same c c' i' j').
Proof.
  intros (S1 & S2 & Snn) Hprev Hi Hj. unfold put_cell.
  rewrite (ts_get_pt a i Ha Hi), (ts_get_pt b j Hb Hj). simpl.
  destruct (mset_ok m n (fst c) i j (Some (m_reduce M prev (pt a i) (pt b j))) S1 Hi Hj)
    as (M1 & E1 & Sh1 & G1 & O1).
  rewrite E1. simpl.
  destruct (mset_ok m n (snd c) i j (nrm (m_reduce M prev (pt a i) (pt b j))) S2 Hi Hj)
    as (M2 & E2 & Sh2 & G2 & O2).
  unfold nrm in E2. rewrite E2. simpl.
  exists (M1, M2). splits; auto; try (split; simpl; auto).
  split; [exact Sh2|]. intros i' j' d Ed. simpl in Ed.
  destruct (Z.eq_dec i' i) as [Ei|Ei]; [destruct (Z.eq_dec j' j) as [Ej|Ej]|].
  - subst. rewrite G2 in Ed. injection Ed as <-. apply nrm_nn. apply ng_red_ok; auto using fin_a, fin_b.
  - rewrite O2 in Ed by congruence. eauto.
  - rewrite O2 in Ed by congruence. eauto.
Qed.

(** writing a new in-band cell *)
Lemma INV_write S c c' i j ip jp v v' :
  INV S c -> inb i j -> ~ S i j -> St c' -> wr c' i j v ->
  (forall i' j', (i', j') <> (i, j) -> same c c' i' j') ->
  ng_ok ng v -> Phi i j v ->
  inb ip jp -> S ip jp -> wr c ip jp v' -> ng_ok ng v' -> ng_le ng v' v -> i - 1 <= ip <= i ->
  INV (fun i' j' => S i' j' \/ (i', j') = (i, j)) c'.
Proof.
  intros (H1 & H2 & H3) Hij HnS Hst Hw Hsame Hok HPhi Hp HSp Hwp Hokp Hle Hip.
  split; [exact Hst|]. split.
  - intros i1 j1 Hi1 Hs1.
    assert (Hcase : (i1, j1) = (i, j) \/ ((i1, j1) <> (i, j) /\ S i1 j1)).
    { destruct Hs1 as [Hs1|Hs1]; auto. right. split; auto. intros E. injection E as -> ->. contradiction. }
    assert (Hold : forall i' j' d', S i' j' -> mget (snd c) i' j' = Ret d' -> mget (snd c') i' j' = Ret d').
    { intros i' j' d' HS' E. rewrite <- E. apply Hsame. intros E'. injection E' as -> ->. contradiction. }
    destruct Hcase as [E|[Hne HS1]].
    + injection E as -> ->. exists v. splits; auto; try apply Hw.
      intros i' Hi'. destruct (Z.eq_dec i' i) as [->|Hni].
      * exists j, (nrm v). split; [exact Hij|]. split; [auto|]. split; [apply Hw|].
        apply nle_refl, nrm_nn, Hok.
      * destruct (H2 ip jp Hp HSp) as (v1 & Hok1 & Hw1 & _ & HR).
        destruct (HR i' ltac:(lia)) as (j' & d' & Hb' & HS' & E & Hd).
        exists j', d'. split; [exact Hb'|]. split; [auto|]. split; [apply Hold; auto|].
        apply (nle_trans _ _ _ Hd). destruct Hwp as [Ewp _], Hw1 as [Ew1 _].
        rewrite Ewp in Ew1. injection Ew1 as <-.
        apply (ng_norm_mono _ ng); auto using max_ok.
    + destruct (H2 i1 j1 Hi1 HS1) as (v1 & Hok1 & Hw1 & HP1 & HR). exists v1.
      destruct (Hsame i1 j1 Hne) as [Hs1a Hs1b].
      split; [exact Hok1|]. split; [split; [rewrite Hs1a|rewrite Hs1b]; apply Hw1|].
      split; [exact HP1|].
      intros i' Hi'. destruct (HR i' Hi') as (j' & d' & Hb' & HS' & E & Hd).
      exists j', d'. split; [exact Hb'|]. split; [auto|]. split; [apply Hold; auto|exact Hd].
  - intros Hm2 Hn2 Hnl. destruct (Hsame (m - 1) (n - 1)) as [_ Es].
    + intros E. injection E as <- <-. contradiction.
    + rewrite Es. auto.
Qed.

(** writing a cell outside the band (not the last one) *)
Lemma INV_write_out S c c' i j :
  INV S c -> ~ inb i j -> St c' -> (2 <= m -> 2 <= n -> (i, j) <> (m - 1, n - 1)) ->
  (forall i' j', (i', j') <> (i, j) -> same c c' i' j') ->
  INV (fun i' j' => S i' j' \/ (i', j') = (i, j)) c'.
Proof.
  intros (H1 & H2 & H3) Hij Hst Hlast Hsame.
  assert (Hne : forall i' j', inb i' j' -> (i', j') <> (i, j)).
  { intros i' j' H E. injection E as -> ->. contradiction. }
  split; [exact Hst|]. split.
  - intros i1 j1 Hi1 Hs1. destruct Hs1 as [Hs1|Hs1]; [|apply Hne in Hs1; tauto].
    destruct (H2 i1 j1 Hi1 Hs1) as (v1 & Hok1 & Hw1 & HP1 & HR). exists v1.
    destruct (Hsame i1 j1 (Hne _ _ Hi1)) as [Hs1a Hs1b].
    split; [exact Hok1|]. split; [split; [rewrite Hs1a|rewrite Hs1b]; apply Hw1|].
    split; [exact HP1|].
    intros i' Hi'. destruct (HR i' Hi') as (j' & d' & Hb' & HS' & E & Hd).
    exists j', d'. split; [exact Hb'|]. split; [auto|]. split; [|exact Hd].
    rewrite <- E. apply Hsame. apply Hne. exact Hb'.
  - intros Hm2 Hn2 Hnl. destruct (Hsame (m - 1) (n - 1)) as [_ Es].
    + intros E. symmetry in E. apply Hlast in E; auto.
    + rewrite Es. auto.
Qed.

(** cells done before row k, column l of the main loop *)
Definition proc (k l : Z) (i j : Z) : Prop := i = 0 \/ j = 0 \/ i < k \/ (i = k /\ j < l).

Lemma inb_00 : inb 0 0.
Proof. unfold inb; lia. Qed.

(** ** initialisation: first cell, first column, first row *)
Lemma init_cell z ncost0 :
  shape m n ncost0 -> (forall i j d, mget ncost0 i j = Ret d -> nn d) ->
  (forall c, mget ncost0 (m - 1) (n - 1) = Ret c -> 2 <= m \/ 2 <= n -> c = ninf) ->
  exists c, put_cell M a b 0 0 (m_init M) (mat m n z, ncost0) = Ret c /\
    INV (fun i j => i = 0 /\ j = 0) c.
Proof.
  intros Hs Hnn0 Hl.
  assert (Hst : St (mat m n z, ncost0)) by (split; simpl; [apply shape_mat; lia|split; [exact Hs|exact Hnn0]]).
  destruct (put_cell_ok _ 0 0 (m_init M) Hst (ng_init _ ng) ltac:(lia) ltac:(lia)) as (c & E & Hst' & Hw & Ho).
  exists c. split; [exact E|]. split; [exact Hst'|]. split.
  - intros i j _ [-> ->]. eexists. split; [|split; [exact Hw|split; [exact Phi0|]]].
    + apply ng_red_ok; [apply ng_init|apply fin_a; lia|apply fin_b; lia].
    + intros i' Hi'. replace i' with 0 by lia. eexists 0, _. split; [apply inb_00|]. split; [lia|].
      split; [apply Hw|]. apply nle_refl, nrm_nn.
      apply ng_red_ok; [apply ng_init|apply fin_a; lia|apply fin_b; lia].
  - intros Hm2 Hn2 _. destruct (Ho (m - 1) (n - 1)) as [_ Es]; [intros E'; injection E'; lia|].
    rewrite Es. simpl. destruct (mget_in m n ncost0 (m - 1) (n - 1) Hs) as [v Ev]; try lia.
    rewrite Ev. f_equal. apply Hl; auto.
Qed.

Lemma col_step_ok c i : INV (fun i' j' => j' = 0 /\ i' < i) c -> 1 <= i < m ->
  (forall i', 0 <= i' < i -> exists v, ng_ok ng v /\ mget (fst c) i' 0 = Ret (Some v)) ->
  exists c', col_step M a b i c = Ret c' /\ INV (fun i' j' => j' = 0 /\ i' < i + 1) c' /\
    (forall i', 0 <= i' < i + 1 -> exists v, ng_ok ng v /\ mget (fst c') i' 0 = Ret (Some v)).
Proof.
  intros HI Hi Hdef. pose proof HI as (Hst & HC & _).
  unfold col_step. destruct (Hdef (i - 1) ltac:(lia)) as (v & Hv & Ev). rewrite Ev. simpl.
  destruct (put_cell_ok c i 0 v Hst Hv ltac:(lia) ltac:(lia)) as (c' & E & Hst' & Hw & Ho).
  exists c'. split; [exact E|]. split.
  - destruct (Z_le_gt_dec i r) as [Hir|Hir].
    + assert (Hij : inb i 0) by (unfold inb; lia).
      assert (Hp : inb (i - 1) 0) by (unfold inb; lia).
      destruct (HC (i - 1) 0 Hp ltac:(lia)) as (v1 & Hok1 & Hw1 & HP1 & _).
      assert (v1 = v) by (destruct Hw1 as [Ew _]; congruence). subst v1.
      apply (INV_ext (fun i' j' => (j' = 0 /\ i' < i) \/ (i', j') = (i, 0))).
      * intros i' j' _. split; [intros [?|E1]; [lia|injection E1; lia]|].
        intros [-> H]. destruct (Z.eq_dec i' i) as [->|]; [right; auto|left; lia].
      * apply (INV_write _ c c' i 0 (i - 1) 0 (m_reduce M v (pt a i) (pt b 0)) v); auto; try lia.
        -- apply ng_red_ok; auto; [apply fin_a; lia|apply fin_b; lia].
        -- apply (PhiS i 0 (i - 1) 0); auto.
           ++ unfold wstep; simpl. left. f_equal; lia.
           ++ intros iq jq Hs Hq. apply wstep_cases in Hs. unfold inb in Hq.
              assert (iq = i - 1 /\ jq = 0) as [-> ->] by lia.
              exists v. splits; auto. apply nle_refl, nrm_nn; auto.
        -- apply ng_red_ge; auto; [apply fin_a; lia|apply fin_b; lia].
    + assert (Hij : ~ inb i 0) by (unfold inb; lia).
      apply (INV_ext (fun i' j' => (j' = 0 /\ i' < i) \/ (i', j') = (i, 0))).
      * intros i' j' _. split; [intros [?|E1]; [lia|injection E1; lia]|].
        intros [-> H]. destruct (Z.eq_dec i' i) as [->|]; [right; auto|left; lia].
      * apply (INV_write_out _ c c'); auto. intros _ H2 E1. injection E1. lia.
  - intros i' Hi'. destruct (Z.eq_dec i' i) as [->|Hne].
    + eexists; split; [|apply Hw]. apply ng_red_ok; auto; [apply fin_a; lia|apply fin_b; lia].
    + destruct (Ho i' 0) as [Es _]; [congruence|]. rewrite Es. apply Hdef. lia.
Qed.

Lemma row_step_ok c j : INV (fun i' j' => j' = 0 \/ (i' = 0 /\ j' < j)) c -> 1 <= j < n ->
  (forall j', 0 <= j' < j -> exists v, ng_ok ng v /\ mget (fst c) 0 j' = Ret (Some v)) ->
  exists c', row_step M a b j c = Ret c' /\ INV (fun i' j' => j' = 0 \/ (i' = 0 /\ j' < j + 1)) c' /\
    (forall j', 0 <= j' < j + 1 -> exists v, ng_ok ng v /\ mget (fst c') 0 j' = Ret (Some v)).
Proof.
  intros HI Hj Hdef. pose proof HI as (Hst & HC & _).
  unfold row_step. destruct (Hdef (j - 1) ltac:(lia)) as (v & Hv & Ev). rewrite Ev. simpl.
  destruct (put_cell_ok c 0 j v Hst Hv ltac:(lia) ltac:(lia)) as (c' & E & Hst' & Hw & Ho).
  exists c'. split; [exact E|]. split.
  - destruct (Z_le_gt_dec j r) as [Hir|Hir].
    + assert (Hij : inb 0 j) by (unfold inb; lia).
      assert (Hp : inb 0 (j - 1)) by (unfold inb; lia).
      destruct (HC 0 (j - 1) Hp ltac:(lia)) as (v1 & Hok1 & Hw1 & HP1 & _).
      assert (v1 = v) by (destruct Hw1 as [Ew _]; congruence). subst v1.
      apply (INV_ext (fun i' j' => (j' = 0 \/ (i' = 0 /\ j' < j)) \/ (i', j') = (0, j))).
      * intros i' j' _. split; [intros [?|E1]; [lia|injection E1; lia]|].
        intros [H|[-> H]]; auto. destruct (Z.eq_dec j' j) as [->|]; [right; auto|left; lia].
      * apply (INV_write _ c c' 0 j 0 (j - 1) (m_reduce M v (pt a 0) (pt b j)) v); auto; try lia.
        -- apply ng_red_ok; auto; [apply fin_a; lia|apply fin_b; lia].
        -- apply (PhiS 0 j 0 (j - 1)); auto.
           ++ unfold wstep; simpl. right; left. f_equal; lia.
           ++ intros iq jq Hs Hq. apply wstep_cases in Hs. unfold inb in Hq.
              assert (iq = 0 /\ jq = j - 1) as [-> ->] by lia.
              exists v. splits; auto. apply nle_refl, nrm_nn; auto.
        -- apply ng_red_ge; auto; [apply fin_a; lia|apply fin_b; lia].
    + assert (Hij : ~ inb 0 j) by (unfold inb; lia).
      apply (INV_ext (fun i' j' => (j' = 0 \/ (i' = 0 /\ j' < j)) \/ (i', j') = (0, j))).
      * intros i' j' _. split; [intros [?|E1]; [lia|injection E1; lia]|].
        intros [H|[-> H]]; auto. destruct (Z.eq_dec j' j) as [->|]; [right; auto|left; lia].
      * apply (INV_write_out _ c c'); auto. intros H2 _ E1. injection E1. lia.
  - intros j' Hj'. destruct (Z.eq_dec j' j) as [->|Hne].
    + eexists; split; [|apply Hw]. apply ng_red_ok; auto; [apply fin_a; lia|apply fin_b; lia].
    + destruct (Ho 0 j') as [Es _]; [congruence|]. rewrite Es. apply Hdef. lia.
Qed.

(** ** one cell of the main loop *)
Lemma cell_step_ok c best i j :
  INV (proc i j) c -> inb i j -> 1 <= i -> nn best ->
  exists c' d, cell_step M a b r i j (c, best) = Ret (c', nmin best d) /\
    INV (proc i (j + 1)) c' /\ mget (snd c') i j = Ret d /\ nn d /\
    (forall i' j', (i', j') <> (i, j) -> same c c' i' j').
Proof.
  intros HI Hij Hi Hbest. pose proof HI as (Hst & HC & _).
  unfold cell_step. destruct (Z.eqb_spec j 0) as [->|Hj0].
  - destruct (HC i 0 Hij ltac:(unfold proc; auto)) as (v & Hok & [_ Ev] & _).
    rewrite Ev. simpl. exists c, (nrm v). split; [reflexivity|]. split.
    + apply (INV_ext (proc i 0)); auto. unfold proc, inb. intros i' j' H. lia.
    + split; [exact Ev|]. split; [apply nrm_nn; auto|]. intros; split; auto.
  - assert (Hj : 1 <= j) by (unfold inb in Hij; lia).
    (* diagonal *)
    assert (Hd : inb (i - 1) (j - 1)) by (unfold inb in *; lia).
    destruct (HC _ _ Hd ltac:(unfold proc; lia)) as (vd & Hokd & [Ed1 Ed2] & HPd & _).
    pose proof (Phi_fin _ _ _ HPd) as Hfind.
    (* left *)
    assert (HL : exists xl, (if (i - r <=? j - 1) && (j - 1 <=? i + r)
                   then mget (snd c) i (j - 1) else Ret ninf) = Ret xl /\ nn xl /\
              ((exists vl, inb i (j - 1) /\ ng_ok ng vl /\ wr c i (j - 1) vl /\ Phi i (j - 1) vl /\ xl = nrm vl)
               \/ (~ inb i (j - 1) /\ xl = ninf))).
    { destruct ((i - r <=? j - 1) && (j - 1 <=? i + r)) eqn:Eb.
      - apply andb_true_iff in Eb as [E1 E2]. apply Z.leb_le in E1, E2.
        assert (Hb1 : inb i (j - 1)) by (unfold inb in *; lia).
        destruct (HC _ _ Hb1 ltac:(unfold proc; lia)) as (vl & Hokl & Hwl & HPl & _).
        exists (nrm vl). split; [apply Hwl|]. split; [apply nrm_nn; auto|]. left. exists vl. auto.
      - exists ninf. split; [reflexivity|]. split; [apply lw_inf_nn|]. right. split; auto.
        intros Hb1. apply andb_false_iff in Eb as [E1|E1]; apply Z.leb_gt in E1; unfold inb in *; lia. }
    destruct HL as (xl & El & Hnl & HL). rewrite El. cbn [bind].
    rewrite Ed2. cbn [bind].
    (* up *)
    assert (HU : exists xu, (if (j - r <=? i - 1) && (i - 1 <=? j + r)
                   then mget (snd c) (i - 1) j else Ret ninf) = Ret xu /\ nn xu /\
              ((exists vu, inb (i - 1) j /\ ng_ok ng vu /\ wr c (i - 1) j vu /\ Phi (i - 1) j vu /\ xu = nrm vu)
               \/ (~ inb (i - 1) j /\ xu = ninf))).
    { destruct ((j - r <=? i - 1) && (i - 1 <=? j + r)) eqn:Eb.
      - apply andb_true_iff in Eb as [E1 E2]. apply Z.leb_le in E1, E2.
        assert (Hb1 : inb (i - 1) j) by (unfold inb in *; lia).
        destruct (HC _ _ Hb1 ltac:(unfold proc; lia)) as (vl & Hokl & Hwl & HPl & _).
        exists (nrm vl). split; [apply Hwl|]. split; [apply nrm_nn; auto|]. left. exists vl. auto.
      - exists ninf. split; [reflexivity|]. split; [apply lw_inf_nn|]. right. split; auto.
        intros Hb1. apply andb_false_iff in Eb as [E1|E1]; apply Z.leb_gt in E1; unfold inb in *; lia. }
    destruct HU as (xu & Eu & Hnu & HU). rewrite Eu. cbn [bind].
    destruct (mget_in m n (fst c) (i - 1) j) as [pu Epu]; [apply Hst|unfold inb in *; lia|unfold inb in *; lia|].
    rewrite Epu. cbn [bind].
    (* the chosen predecessor *)
    pose proof (nrm_nn vd Hokd) as Hnd.
    assert (HP : exists ip jp v', wstep (ip, jp) (i, j) /\ inb ip jp /\ proc i j ip jp /\ ng_ok ng v' /\ wr c ip jp v' /\ Phi ip jp v' /\
       (if nltb (nrm vd) xl && nltb (nrm vd) xu then mget (fst c) (i - 1) (j - 1)
        else if nltb xl xu then mget (fst c) i (j - 1) else Ret pu) = Ret (Some v') /\
       nle (nrm v') (nrm vd) /\ nle (nrm v') xl /\ nle (nrm v') xu).
    { destruct (nltb (nrm vd) xl && nltb (nrm vd) xu) eqn:E1.
      - apply andb_true_iff in E1 as [E1 E2].
        exists (i - 1), (j - 1), vd. splits; auto; try (apply nlt_le; assumption); try (unfold inb, proc in *; lia).
        + unfold wstep; simpl; right; right; f_equal; lia.
        + split; auto.
        + apply nle_refl; auto.
      - destruct (nltb xl xu) eqn:E2.
        + destruct HL as [(vl & Hb1 & Hokl & Hwl & HPl & ->)|[_ ->]];
            [|rewrite lw_inf_top in E2; discriminate].
          exists i, (j - 1), vl. split; [unfold wstep; simpl; right; left; f_equal; lia|].
          split; [exact Hb1|]. split; [unfold proc; lia|]. split; [exact Hokl|]. split; [exact Hwl|].
          split; [exact HPl|]. split; [apply Hwl|]. split; [|split].
          * apply andb_false_iff in E1 as [E1|E1].
            -- apply nltb_false_le; auto.
            -- apply nltb_false_le in E1; auto. apply (nle_trans _ xu); auto. apply nlt_le; auto.
          * apply nle_refl; auto.
          * apply nlt_le; auto.
        + assert (Hul : nle xu xl) by (apply nltb_false_le; auto).
          assert (Hud : nle xu (nrm vd)).
          { apply andb_false_iff in E1 as [E1|E1]; apply nltb_false_le in E1; auto.
            apply (nle_trans _ xl); auto. }
          destruct HU as [(vu & Hb1 & Hoku & Hwu & HPu & ->)|[_ ->]].
          * exists (i - 1), j, vu. split; [unfold wstep; simpl; left; f_equal; lia|].
            split; [exact Hb1|]. split; [unfold proc; lia|]. split; [exact Hoku|]. split; [exact Hwu|].
            split; [exact HPu|]. split; [destruct Hwu as [Hwu _]; congruence|].
            split; [exact Hud|]. split; [exact Hul|]. apply nle_refl; auto.
          * exfalso. apply (nle_not_lt _ _ Hud). exact Hfind. }
    destruct HP as (ip & jp & v' & Hstep & Hbp & HSp & Hok' & Hw' & HP' & Ech & Hle1 & Hle2 & Hle3).
    rewrite Ech. cbn [bind deref].
    destruct (put_cell_ok c i j v' Hst Hok') as (c' & Ec & Hst' & Hw & Ho); [unfold inb in *; lia|unfold inb in *; lia|].
    rewrite Ec. cbn [bind]. destruct Hw as [Hw1 Hw2]. rewrite Hw2. cbn [bind].
    assert (Hokn : ng_ok ng (m_reduce M v' (pt a i) (pt b j))).
    { apply ng_red_ok; auto; [apply fin_a|apply fin_b]; unfold inb in *; lia. }
    exists c', (nrm (m_reduce M v' (pt a i) (pt b j))). split; [reflexivity|]. split.
    + apply (INV_ext (fun i' j' => proc i j i' j' \/ (i', j') = (i, j))).
      * intros i' j' _. unfold proc. split; [intros [?|E1]; [lia|injection E1; lia]|].
        intros [H|[H|[H|[-> H]]]]; auto. destruct (Z.eq_dec j' j) as [->|]; [right; auto|left; lia].
      * apply (INV_write _ c c' i j ip jp (m_reduce M v' (pt a i) (pt b j)) v'); auto.
        -- unfold proc. lia.
        -- split; auto.
        -- apply (PhiS i j ip jp); auto.
           intros iq jq Hsq Hq. apply wstep_cases in Hsq.
           destruct Hsq as [[E1 E2]|[[E1 E2]|[E1 E2]]].
           ++ replace iq with (i - 1) in * by lia. replace jq with j in * by lia.
              destruct HU as [(vu & Hb1 & Hoku & Hwu & HPu & ->)|[Hno _]]; [|contradiction].
              exists vu. auto.
           ++ replace iq with i in * by lia. replace jq with (j - 1) in * by lia.
              destruct HL as [(vu & Hb1 & Hoku & Hwu & HPu & ->)|[Hno _]]; [|contradiction].
              exists vu. auto.
           ++ replace iq with (i - 1) in * by lia. replace jq with (j - 1) in * by lia.
              exists vd. auto.
        -- apply ng_red_ge; auto; [apply fin_a|apply fin_b]; unfold inb in *; lia.
        -- apply wstep_cases in Hstep. lia.
    + split; [exact Hw2|]. split; [apply nrm_nn; auto|exact Ho].
Qed.

(** ** one row; the new matrices and the row minimum do not depend on the cut-off *)
Lemma row_loop_ok c i : INV (proc i 0) c -> 1 <= i < m ->
  exists c' best, (forall dropout, row_loop M a b r dropout i c = Ret (c', nltb dropout best)) /\
    INV (proc (i + 1) 0) c' /\ nn best /\
    (forall j d, inb i j -> mget (snd c') i j = Ret d -> nle best d) /\
    (forall i' j', i' <> i -> same c c' i' j').
Proof.
  intros HI Hi.
  set (lo := Z.max (i - r) 0). set (hi := Z.min (i + r) (n - 1) + 1).
  assert (HL : exists c' best, for_ lo hi (cell_step M a b r i) (c, ninf) = Ret (c', best) /\
    INV (proc (i + 1) 0) c' /\ nn best /\
    (forall j d, inb i j -> mget (snd c') i j = Ret d -> nle best d) /\
    (forall i' j', i' <> i -> same c c' i' j')).
  { destruct (Z_le_gt_dec lo hi) as [Hle|Hgt].
    - pose (P := fun j (s : cells M * D N) =>
        INV (proc i j) (fst s) /\ nn (snd s) /\
        (forall j' d, lo <= j' < j -> mget (snd (fst s)) i j' = Ret d -> nle (snd s) d) /\
        (forall i' j', i' <> i -> same c (fst s) i' j')).
      destruct (for_inv P (cell_step M a b r i) lo hi (c, ninf) Hle) as ([c' best] & E & HI' & Hnn & Hmin & Hsame).
      + split; [|split; [|split]]; simpl.
        * apply (INV_ext (proc i 0)); auto. unfold proc, inb. intros i' j' H. subst lo. lia.
        * apply lw_inf_nn.
        * intros; lia.
        * intros; split; auto.
      + intros j [c1 best1] Hj (HI1 & Hnn1 & Hmin1 & Hsame1). simpl in *.
        assert (Hij : inb i j) by (unfold inb; subst lo hi; lia).
        destruct (cell_step_ok c1 best1 i j HI1 Hij ltac:(lia) Hnn1) as (c2 & d & E & HI2 & Ed & Hnd & Ho).
        exists (c2, nmin best1 d). split; [exact E|]. split; [exact HI2|]. simpl.
        split; [destruct (nmin_cases best1 d) as [-> | ->]; auto|]. split.
        * intros j' d' Hj' Ed'. destruct (Z.eq_dec j' j) as [->|Hne].
          -- rewrite Ed in Ed'. injection Ed' as <-. apply nmin_r; auto.
          -- destruct (Ho i j') as [_ Es]; [congruence|]. rewrite Es in Ed'.
             apply (nle_trans _ best1); [apply nmin_l; auto|]. apply (Hmin1 j'); auto. lia.
        * intros i' j' Hne. destruct (Hsame1 i' j' Hne) as [S1 S2].
          destruct (Ho i' j') as [S3 S4]; [congruence|]. split; congruence.
      + simpl in *. exists c', best. split; [exact E|]. split; [|split; [exact Hnn|split]].
        * apply (INV_ext (proc i hi)); auto. unfold proc, inb. intros i' j' H. subst lo hi. lia.
        * intros j d Hij Ed. apply (Hmin j); auto. unfold inb in Hij. subst lo hi. lia.
        * exact Hsame.
    - exists c, ninf. split; [apply for_empty; lia|]. split; [|split; [apply lw_inf_nn|split]].
      + apply (INV_ext (proc i 0)); auto. unfold proc, inb. intros i' j' H. subst lo hi. lia.
      + intros j d Hij _. unfold inb in Hij. subst lo hi. lia.
      + intros; split; auto. }
  destruct HL as (c' & best & E & H1 & H2 & H3 & H4).
  exists c', best. split; [|auto]. intros dropout. unfold row_loop. fold lo hi. rewrite E. reflexivity.
Qed.

(** ** all rows *)
Lemma rows_ok k : forall i c, INV (proc i 0) c -> 1 <= i -> i + Z.of_nat k = m ->
  exists cF, INV (proc m 0) cF /\
    (forall i' j', i' < i -> same c cF i' j') /\
    forall dropout,
      forb_n k i (row_loop M a b r dropout) c = Ret (cF, false) \/
      exists c' i0 best, forb_n k i (row_loop M a b r dropout) c = Ret (c', true) /\ St c' /\
        i <= i0 < m /\ nlt dropout best /\
        (forall j d, inb i0 j -> mget (snd cF) i0 j = Ret d -> nle best d).
Proof.
  induction k as [|k IH]; intros i c HI Hi Hk.
  - exists c. split; [|split].
    + replace m with i by lia. exact HI.
    + intros; split; auto.
    + intros dropout. left. reflexivity.
  - destruct (row_loop_ok c i HI ltac:(lia)) as (c1 & best & E & HI1 & Hnn & Hmin & Hsame).
    destruct (IH (i + 1) c1 HI1 ltac:(lia) ltac:(lia)) as (cF & HF & HsF & Hd).
    exists cF. split; [exact HF|]. split.
    + intros i' j' Hi'. destruct (Hsame i' j') as [S1 S2]; [lia|].
      destruct (HsF i' j') as [S3 S4]; [lia|]. split; congruence.
    + intros dropout. simpl. rewrite E. simpl. destruct (nltb dropout best) eqn:Eb.
      * right. exists c1, i, best. split; [reflexivity|]. split; [apply HI1|]. split; [lia|].
        split; [exact Eb|]. intros j d Hij Ed. apply (Hmin j); auto.
        destruct (HsF i j) as [_ S4]; [lia|]. congruence.
      * destruct (Hd dropout) as [H|(c' & i0 & best' & H1 & H2 & H3 & H4 & H5)]; [left; exact H|].
        right. exists c', i0, best'. splits; auto; try lia; try apply H2.
Qed.

(** Result of filling the matrices: the matrices without cut-off, and how a
    cut-off changes the outcome. *)
Lemma fill_ok : 2 <= m -> 2 <= n ->
  exists cF, INV (fun _ _ => True) cF /\
    forall dropout, nn dropout ->
     (exists d, warped_fill M a b r dropout = Ret (cF, d) /\
         ((inb (m - 1) (n - 1) /\ exists v, ng_ok ng v /\ Phi (m - 1) (n - 1) v /\ wr cF (m - 1) (n - 1) v /\ d = nrm v)
          \/ (~ inb (m - 1) (n - 1) /\ d = ninf))) \/
     (exists c', warped_fill M a b r dropout = Ret (c', ninf) /\ St c' /\ nlt dropout ninf /\
        (inb (m - 1) (n - 1) -> forall d, mget (snd cF) (m - 1) (n - 1) = Ret d -> nlt dropout d)).
Proof.
  intros Hm2 Hn2. unfold warped_fill.
  destruct (Z.ltb_spec m 0); [lia|]. destruct (Z.ltb_spec n 0); [lia|]. cbn [orb].
  destruct (ng_dflt _ ng) as [z Ez]. rewrite Ez.
  destruct (mset_ok m n (mat m n (@n0 N)) (m - 1) (n - 1) ninf) as (nc & E1 & S1 & G1 & O1);
    [apply shape_mat; lia|lia|lia|].
  rewrite E1. cbn [bind].
  assert (Hnn0 : forall i j d, mget nc i j = Ret d -> nn d).
  { intros i j d Ed. destruct (Z.eq_dec i (m - 1)) as [Ei|Ei]; [destruct (Z.eq_dec j (n - 1)) as [Ej|Ej]|].
    - subst. rewrite G1 in Ed. injection Ed as <-. apply lw_inf_nn.
    - pose proof (mget_bound _ _ _ _ _ _ S1 Ed) as [? ?].
      rewrite O1, mget_mat in Ed by (congruence || lia). injection Ed as <-. apply n0_nn.
    - pose proof (mget_bound _ _ _ _ _ _ S1 Ed) as [? ?].
      rewrite O1, mget_mat in Ed by (congruence || lia). injection Ed as <-. apply n0_nn. }
  destruct (init_cell (Some z) nc S1 Hnn0) as (c0 & E2 & HI0); [intros c Hc _; congruence|].
  rewrite E2. cbn [bind].
  (* first column *)
  pose (P1 := fun i c => INV (fun i' j' => j' = 0 /\ i' < i) c /\
     (forall i', 0 <= i' < i -> exists v, ng_ok ng v /\ mget (fst c) i' 0 = Ret (Some v))).
  destruct (for_inv P1 (col_step M a b) 1 (Z.min (2 * r + 1) m) c0) as (c1 & E3 & HI1 & _); [lia| | |].
  { split.
    - apply (INV_ext (fun i j => i = 0 /\ j = 0)); auto. unfold inb. intros; lia.
    - intros i' Hi'. replace i' with 0 by lia.
      destruct HI0 as (_ & HC & _). destruct (HC 0 0 inb_00 ltac:(lia)) as (v & Hok & Hw & _).
      exists v. split; [exact Hok|apply Hw]. }
  { intros i c Hi [HI Hdef]. destruct (col_step_ok c i HI ltac:(lia) Hdef) as (c' & E & HI' & Hd').
    exists c'. split; [exact E|]. split; auto. }
  rewrite E3. cbn [bind].
  (* first row *)
  pose (P2 := fun j c => INV (fun i' j' => j' = 0 \/ (i' = 0 /\ j' < j)) c /\
     (forall j', 0 <= j' < j -> exists v, ng_ok ng v /\ mget (fst c) 0 j' = Ret (Some v))).
  destruct (for_inv P2 (row_step M a b) 1 (Z.min (2 * r + 1) n) c1) as (c2 & E4 & HI2 & _); [lia| | |].
  { assert (HI : INV (fun i' j' => j' = 0 \/ (i' = 0 /\ j' < 1)) c1).
    { apply (INV_ext (fun i' j' => j' = 0 /\ i' < Z.min (2 * r + 1) m)); auto. unfold inb. intros; lia. }
    split; [exact HI|].
    intros j' Hj'. replace j' with 0 by lia.
    destruct HI as (_ & HC & _). destruct (HC 0 0 inb_00 ltac:(lia)) as (v & Hok & Hw & _).
    exists v. split; [exact Hok|apply Hw]. }
  { intros j c Hj [HI Hdef]. destruct (row_step_ok c j HI ltac:(lia) Hdef) as (c' & E & HI' & Hd').
    exists c'. split; [exact E|]. split; auto. }
  rewrite E4. cbn [bind].
  (* main loop *)
  destruct (rows_ok (Z.to_nat (m - 1)) 1 c2) as (cF & HF & _ & Hd); [|lia|lia|].
  { apply (INV_ext (fun i' j' => j' = 0 \/ (i' = 0 /\ j' < Z.min (2 * r + 1) n))); auto.
    unfold inb, proc. intros; lia. }
  assert (HF' : INV (fun _ _ => True) cF).
  { apply (INV_ext (proc m 0)); auto. unfold inb, proc. intros; lia. }
  exists cF. split; [exact HF'|]. intros dropout Hdn.
  unfold forb_. destruct (Hd dropout) as [E5|(c' & i0 & best & E5 & Hst & Hi0 & Hlt & Hmin)].
  - left. rewrite E5. cbn [bind].
    destruct HF' as (Hst & HC & Hlast).
    destruct (Z_le_gt_dec (Z.abs ((m - 1) - (n - 1))) r) as [Hin|Hout].
    + assert (Hij : inb (m - 1) (n - 1)) by (unfold inb; lia).
      destruct (HC _ _ Hij I) as (v & Hok & Hw & HP & _).
      exists (nrm v). destruct Hw as [Hw1 Hw2]. rewrite Hw2. cbn [bind]. split; [reflexivity|].
      left. split; [exact Hij|]. exists v. splits; auto. split; auto.
    + assert (Hij : ~ inb (m - 1) (n - 1)) by (unfold inb; lia).
      exists ninf. rewrite (Hlast Hm2 Hn2 Hij). cbn [bind]. split; [reflexivity|]. right. auto.
  - right. rewrite E5. cbn [bind]. exists c'. split; [reflexivity|]. split; [exact Hst|]. split.
    + apply (nlt_le_trans _ _ _ Hlt). apply nle_inf. apply (nlt_nn_r _ _ Hlt).
    + intros Hij d Ed. destruct HF' as (_ & HC & _).
      destruct (HC _ _ Hij I) as (v & Hok & [_ Hw] & HP & HR).
      destruct (HR i0 ltac:(lia)) as (j' & d' & Hb' & _ & Ed' & Hle).
      assert (d = nrm v) by congruence. subst d.
      apply (nlt_le_trans _ _ _ Hlt). apply (nle_trans _ d'); auto. apply (Hmin j'); auto.
Qed.

End DP.
