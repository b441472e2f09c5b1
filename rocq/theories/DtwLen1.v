(** DTW when one of the series has a single point: there is only one warping
    path, and the border of the matrix is filled up to 2r (not r). *)
From Verif Require Import Base Num NumLaws NumFacts TimeSeries Distance DtwSpec DtwPaths LoopFacts
  DtwProofs Metrics DtwMain DtwResults.

(** (0,0), (0,1), ..., (0,k) *)
Definition row_path (k : Z) : list (Z * Z) := map (fun j => (0, Z.of_nat j)) (seq 0 (Z.to_nat k + 1)).
Definition col_path (k : Z) : list (Z * Z) := map (fun j => (Z.of_nat j, 0)) (seq 0 (Z.to_nat k + 1)).

Lemma row_path_S k : 0 <= k -> row_path (k + 1) = row_path k ++ [(0, k + 1)].
Proof.
  intros Hk. unfold row_path. replace (Z.to_nat (k + 1) + 1)%nat with (S (Z.to_nat k + 1)) by lia.
  rewrite seq_S, map_app. simpl. do 3 f_equal. lia.
Qed.
Lemma col_path_S k : 0 <= k -> col_path (k + 1) = col_path k ++ [(k + 1, 0)].
Proof.
  intros Hk. unfold col_path. replace (Z.to_nat (k + 1) + 1)%nat with (S (Z.to_nat k + 1)) by lia.
  rewrite seq_S, map_app. simpl. do 3 f_equal. lia.
Qed.

Lemma row_path_only r n p : bpath r 0 n p -> p = row_path n.
Proof.
  intros H. remember 0 as i eqn:Ei. induction H as [|i j i' j' p Hp IH Hw Habs]; [reflexivity|].
  pose proof (wstep_cases _ _ _ _ Hw). pose proof (bpath_nonneg _ _ _ _ Hp).
  assert (i = 0) by lia. assert (j' = j + 1) by lia. subst. rewrite IH by auto. rewrite row_path_S by lia. reflexivity.
Qed.
Lemma col_path_only r m p : bpath r m 0 p -> p = col_path m.
Proof.
  intros H. remember 0 as j eqn:Ej. induction H as [|i j i' j' p Hp IH Hw Habs]; [reflexivity|].
  pose proof (wstep_cases _ _ _ _ Hw). pose proof (bpath_nonneg _ _ _ _ Hp).
  assert (j = 0) by lia. assert (i' = i + 1) by lia. subst. rewrite IH by auto. rewrite col_path_S by lia. reflexivity.
Qed.

Lemma row_bpath r n : 0 <= n -> n <= r -> bpath r 0 n (row_path n).
Proof.
  intros Hn Hr. assert (H : forall k, Z.of_nat k <= n -> bpath r 0 (Z.of_nat k) (row_path (Z.of_nat k))).
  { induction k as [|k IH]; intros Hk; [constructor|].
    replace (Z.of_nat (S k)) with (Z.of_nat k + 1) by lia. rewrite row_path_S by lia.
    apply (bpS r 0 (Z.of_nat k)); [apply IH; lia|right; left; reflexivity|lia]. }
  specialize (H (Z.to_nat n)). rewrite Z2Nat.id in H by lia. apply H. lia.
Qed.
Lemma col_bpath r m : 0 <= m -> m <= r -> bpath r m 0 (col_path m).
Proof.
  intros Hm Hr. assert (H : forall k, Z.of_nat k <= m -> bpath r (Z.of_nat k) 0 (col_path (Z.of_nat k))).
  { induction k as [|k IH]; intros Hk; [constructor|].
    replace (Z.of_nat (S k)) with (Z.of_nat k + 1) by lia. rewrite col_path_S by lia.
    apply (bpS r (Z.of_nat k) 0); [apply IH; lia|left; reflexivity|lia]. }
  specialize (H (Z.to_nat m)). rewrite Z2Nat.id in H by lia. apply H. lia.
Qed.

Section Len1.
Context {N : Num} {L : NumLaws N}.
Variable M : Metric N.
Variable ng : Nice M.
Variables a b : TS N.
Notation m := (ts_length a).
Notation n := (ts_length b).
Hypothesis Ha : ts_ok a.
Hypothesis Hb : ts_ok b.
Hypothesis Hm : 1 <= m <= 2 ^ 30.
Hypothesis Hn : 1 <= n <= 2 ^ 30.
Hypothesis Fa : Forall nfin (ts_points a).
Hypothesis Fb : Forall nfin (ts_points b).

Let nr := nrm M a b.
Definition racc (k : Z) := path_acc M a b (row_path k).
Definition cacc (k : Z) := path_acc M a b (col_path k).

Lemma racc_S k : 0 <= k -> racc (k + 1) = m_reduce M (racc k) (pt a 0) (pt b (k + 1)).
Proof. intros Hk. unfold racc. rewrite row_path_S by auto. apply path_acc_snoc. Qed.
Lemma cacc_S k : 0 <= k -> cacc (k + 1) = m_reduce M (cacc k) (pt a (k + 1)) (pt b 0).
Proof. intros Hk. unfold cacc. rewrite col_path_S by auto. apply path_acc_snoc. Qed.

Lemma Ffa i : 0 <= i < m -> nfin (pt a i).
Proof. intros Hi. rewrite Forall_forall in Fa. apply Fa, pt_in; auto. Qed.
Lemma Ffb i : 0 <= i < n -> nfin (pt b i).
Proof. intros Hi. rewrite Forall_forall in Fb. apply Fb, pt_in; auto. Qed.

Lemma racc_ok k : 0 <= k < n -> ng_ok ng (racc k).
Proof.
  intros Hk. assert (H : forall j : nat, Z.of_nat j < n -> ng_ok ng (racc (Z.of_nat j))).
  { induction j as [|j IH]; intros Hj.
    - apply ng_red_ok; [apply ng_init|apply (Ffa 0); lia|apply (Ffb 0); lia].
    - replace (Z.of_nat (S j)) with (Z.of_nat j + 1) by lia. rewrite racc_S by lia.
      apply ng_red_ok; [apply IH; lia|apply Ffa; lia|apply Ffb; lia]. }
  specialize (H (Z.to_nat k)). rewrite Z2Nat.id in H by lia. apply H; lia.
Qed.
Lemma cacc_ok k : 0 <= k < m -> ng_ok ng (cacc k).
Proof.
  intros Hk. assert (H : forall j : nat, Z.of_nat j < m -> ng_ok ng (cacc (Z.of_nat j))).
  { induction j as [|j IH]; intros Hj.
    - apply ng_red_ok; [apply ng_init|apply (Ffa 0); lia|apply (Ffb 0); lia].
    - replace (Z.of_nat (S j)) with (Z.of_nat j + 1) by lia. rewrite cacc_S by lia.
      apply ng_red_ok; [apply IH; lia|apply Ffa; lia|apply Ffb; lia]. }
  specialize (H (Z.to_nat k)). rewrite Z2Nat.id in H by lia. apply H; lia.
Qed.
Lemma cacc_mono k k' : 0 <= k -> k <= k' -> k' < m -> nle (nr (cacc k)) (nr (cacc k')).
Proof.
  intros H0 Hle Hk'. assert (H : forall j : nat, k + Z.of_nat j < m -> ng_le ng (cacc k) (cacc (k + Z.of_nat j))).
  { induction j as [|j IH]; intros Hj.
    - rewrite Z.add_0_r. apply ng_le_refl, cacc_ok. lia.
    - replace (k + Z.of_nat (S j)) with (k + Z.of_nat j + 1) by lia. rewrite cacc_S by lia.
      apply (ng_le_trans _ _ _ (cacc (k + Z.of_nat j))); [apply IH; lia|].
      apply ng_red_ge; [apply cacc_ok; lia|apply Ffa; lia|apply Ffb; lia]. }
  specialize (H (Z.to_nat (k' - k))). rewrite Z2Nat.id in H by lia. replace (k + (k' - k)) with k' in H by lia.
  apply (ng_norm_mono _ ng); [lia|apply cacc_ok; lia|apply cacc_ok; lia|apply H; lia].
Qed.

(** the prefix of the computation before the main loop *)
Definition border (r : Z) : res (cells M) :=
  ncost <- mset (mat m n n0) (m - 1) (n - 1) ninf ;;
  c <- put_cell M a b 0 0 (m_init M) (mat m n (m_dflt M), ncost) ;;
  c <- for_ 1 (Z.min (2 * r + 1) m) (col_step M a b) c ;;
  for_ 1 (Z.min (2 * r + 1) n) (row_step M a b) c.

Lemma fill_border r dropout : warped_fill M a b r dropout =
  (c <- border r ;;
   '(c, dropped) <- forb_ 1 m (row_loop M a b r dropout) c ;;
   result <- (if dropped then Ret ninf else mget (snd c) (m - 1) (n - 1)) ;;
   Ret (c, result)).
Proof.
  unfold warped_fill, border. destruct (Z.ltb_spec m 0); [lia|]. destruct (Z.ltb_spec n 0); [lia|]. simpl orb. cbv iota.
  destruct (mset (mat m n n0) (m - 1) (n - 1) ninf); simpl; auto.
  destruct (put_cell _ _ _ _ _ _ _); simpl; auto.
  destruct (for_ _ _ (col_step M a b) _); simpl; auto.
Qed.

Lemma start_ok : exists c,
  (ncost <- mset (mat m n n0) (m - 1) (n - 1) ninf ;;
   put_cell M a b 0 0 (m_init M) (mat m n (m_dflt M), ncost)) = Ret c /\
  St M a b c /\ wr M a b c 0 0 (m_reduce M (m_init M) (pt a 0) (pt b 0)) /\
  (2 <= m \/ 2 <= n -> mget (snd c) (m - 1) (n - 1) = Ret ninf).
Proof.
  destruct (mset_ok m n (mat m n (@n0 N)) (m - 1) (n - 1) ninf) as (nc & E1 & S1 & G1 & O1);
    [apply shape_mat; lia|lia|lia|].
  rewrite E1. cbn [bind].
  assert (HS : St M a b (mat m n (m_dflt M), nc)).
  { split; [apply shape_mat; lia|]. split; [exact S1|]. simpl. intros i j d Ed.
    pose proof (mget_bound _ _ _ _ _ _ S1 Ed) as [? ?].
    assert (Hc : (i, j) = (m - 1, n - 1) \/ (i, j) <> (m - 1, n - 1)).
    { destruct (Z.eq_dec i (m - 1)) as [Ei|Ei]; [destruct (Z.eq_dec j (n - 1)) as [Ej|Ej]|]; subst; auto; right; congruence. }
    destruct Hc as [Hc|Hc].
    - injection Hc as -> ->. rewrite G1 in Ed. injection Ed as <-. apply lw_inf_nn.
    - rewrite O1, mget_mat in Ed by (auto || lia). injection Ed as <-. apply n0_nn. }
  destruct (put_cell_ok M ng a b Ha Hb Hm Hn Fa Fb _ 0 0 (m_init M) HS (ng_init _ ng) ltac:(lia) ltac:(lia))
    as (c & E & HSc & Hw & Hsame).
  exists c. splits; auto; try apply Hw. intros H2.
  destruct (Hsame (m - 1) (n - 1)) as [_ Hs]; [intros E'; injection E'; lia|]. rewrite Hs. simpl. exact G1.
Qed.

Section Row.
Hypothesis Hm1 : m = 1.
Hypothesis Hn2 : 2 <= n.
Variable r : Z.
Hypothesis Hr : 0 <= r.

Lemma row_border : exists c, border r = Ret c /\ St M a b c /\
  mget (snd c) 0 (n - 1) = Ret (if n - 1 <=? 2 * r then nr (racc (n - 1)) else ninf).
Proof.
  unfold border. destruct start_ok as (c0 & E0 & HS0 & Hw0 & Hl0).
  apply bind_Ret in E0 as (nc & E1 & E0). rewrite E1. cbn [bind]. rewrite E0. cbn [bind].
  rewrite for_empty by lia. cbn [bind].
  pose (P := fun k c => St M a b c /\ (forall j, 0 <= j < k -> wr M a b c 0 j (racc j)) /\
                        (k <= n - 1 -> mget (snd c) 0 (n - 1) = Ret ninf)).
  destruct (for_inv P (row_step M a b) 1 (Z.min (2 * r + 1) n) c0) as (c & E & HS & HP & HL).
  - lia.
  - split; [exact HS0|split].
    + intros j Hj. replace j with 0 by lia. apply Hw0.
    + intros _. rewrite <- (Hl0 ltac:(lia)). do 2 f_equal; lia.
  - intros k c Hk (HS & HP & HL). unfold row_step.
    destruct (HP (k - 1)) as [Hc1 Hc2]; [lia|]. rewrite Hc1. cbn [bind deref].
    destruct (put_cell_ok M ng a b Ha Hb Hm Hn Fa Fb c 0 k (racc (k - 1)) HS) as (c' & E & HSc & Hw & Hsame);
      [apply racc_ok; lia|lia|lia|].
    exists c'. split; [exact E|]. split; [exact HSc|split].
    + intros j Hj. destruct (Z.eq_dec j k) as [->|Hne].
      * pose proof (racc_S (k - 1) ltac:(lia)) as Er. replace (k - 1 + 1) with k in Er by lia. rewrite Er. exact Hw.
      * destruct (Hsame 0 j) as [Hs1 Hs2]; [congruence|]. destruct (HP j) as [H1 H2]; [lia|].
        split; congruence.
    + intros Hk1. destruct (Hsame 0 (n - 1)) as [_ Hs2]; [intros E'; injection E'; lia|]. rewrite Hs2. apply HL. lia.
  - exists c. split; [exact E|]. split; [exact HS|].
    destruct (Z.leb_spec (n - 1) (2 * r)).
    + apply HP. lia.
    + apply HL. lia.
Qed.

Lemma row_run ratio dropout mt : band ratio (Z.max m n) = Ret r ->
  warpedDistance M a b ratio dropout mt =
    Ret (if n - 1 <=? 2 * r then nr (racc (n - 1)) else ninf, row_path (n - 1) ++ rev mt).
Proof.
  intros Hband. unfold warpedDistance. rewrite Hband. cbn [bind].
  replace ((m =? 1) && (n =? 1)) with false by (destruct (Z.eqb_spec n 1); [lia|]; destruct (m =? 1); auto).
  rewrite fill_border. destruct row_border as (c & E & HS & HL). rewrite E. cbn [bind].
  replace (forb_ 1 m (row_loop M a b r dropout) c) with (Ret (c, false)).
  2:{ unfold forb_. replace (Z.to_nat (m - 1)) with O by lia. reflexivity. }
  cbn [bind]. replace (m - 1) with 0 by lia. rewrite HL. cbn [bind].
  destruct HS as (_ & Hs & Hnn).
  destruct (backtrack_ok (snd c) m n Hs Hnn (Z.to_nat (m + n)) 0 (n - 1) mt) as (q & Eq & Hq); [lia|lia|lia|].
  rewrite Eq. cbn [bind]. rewrite <- app_assoc, rev_app_distr.
  apply (btpath_bpath _ _ _ _) with (r := n) in Hq; [|lia|lia]. apply row_path_only in Hq. rewrite Hq. reflexivity.
Qed.
End Row.

Section Col.
Hypothesis Hn1 : n = 1.
Hypothesis Hm2 : 2 <= m.
Variable r : Z.
Hypothesis Hr : 0 <= r.

Lemma col_border : exists c, border r = Ret c /\ St M a b c /\
  (forall i, 0 <= i <= Z.min (2 * r) (m - 1) -> mget (snd c) i 0 = Ret (nr (cacc i))) /\
  mget (snd c) (m - 1) 0 = Ret (if m - 1 <=? 2 * r then nr (cacc (m - 1)) else ninf).
Proof.
  unfold border. destruct start_ok as (c0 & E0 & HS0 & Hw0 & Hl0).
  apply bind_Ret in E0 as (nc & E1 & E0). rewrite E1. cbn [bind]. rewrite E0. cbn [bind].
  pose (P := fun k c => St M a b c /\ (forall j, 0 <= j < k -> wr M a b c j 0 (cacc j)) /\
                        (k <= m - 1 -> mget (snd c) (m - 1) 0 = Ret ninf)).
  destruct (for_inv P (col_step M a b) 1 (Z.min (2 * r + 1) m) c0) as (c & E & HS & HP & HL).
  - lia.
  - split; [exact HS0|split].
    + intros j Hj. replace j with 0 by lia. apply Hw0.
    + intros _. rewrite <- (Hl0 ltac:(lia)). do 2 f_equal; lia.
  - intros k c Hk (HS & HP & HL). unfold col_step.
    destruct (HP (k - 1)) as [Hc1 Hc2]; [lia|]. rewrite Hc1. cbn [bind deref].
    destruct (put_cell_ok M ng a b Ha Hb Hm Hn Fa Fb c k 0 (cacc (k - 1)) HS) as (c' & E & HSc & Hw & Hsame);
      [apply cacc_ok; lia|lia|lia|].
    exists c'. split; [exact E|]. split; [exact HSc|split].
    + intros j Hj. destruct (Z.eq_dec j k) as [->|Hne].
      * pose proof (cacc_S (k - 1) ltac:(lia)) as Er. replace (k - 1 + 1) with k in Er by lia. rewrite Er. exact Hw.
      * destruct (Hsame j 0) as [Hs1 Hs2]; [congruence|]. destruct (HP j) as [H1 H2]; [lia|].
        split; congruence.
    + intros Hk1. destruct (Hsame (m - 1) 0) as [_ Hs2]; [intros E'; injection E'; lia|]. rewrite Hs2. apply HL. lia.
  - exists c. rewrite E. cbn [bind]. rewrite for_empty by lia. split; [reflexivity|]. split; [exact HS|]. split.
    + intros i Hi. apply HP. lia.
    + destruct (Z.leb_spec (m - 1) (2 * r)).
      * apply HP. lia.
      * apply HL. lia.
Qed.

(** one row of the main loop *)
Lemma col_row c i dropout : 1 <= i < m ->
  (forall i, 0 <= i <= Z.min (2 * r) (m - 1) -> mget (snd c) i 0 = Ret (nr (cacc i))) ->
  exists drop, row_loop M a b r dropout i c = Ret (c, drop) /\
    (drop = true -> nn dropout -> nlt dropout (if i <=? r then nr (cacc i) else ninf)).
Proof.
  intros Hi Hc. unfold row_loop. destruct (Z.leb_spec i r) as [Hir|Hir].
  - replace (Z.max (i - r) 0) with 0 by lia. replace (Z.min (i + r) (n - 1) + 1) with 1 by lia.
    unfold for_. change (Z.to_nat (1 - 0)) with 1%nat. cbn [for_n].
    unfold cell_step. change (0 =? 0) with true. cbv iota. rewrite Hc by lia. cbn [bind].
    eexists. split; [reflexivity|]. intros Hd Hnd. apply (nlt_le_trans _ _ _ Hd).
    assert (Hnn' : nn (nr (cacc i))) by (apply (nrm_nn M ng a b Hm Hn), cacc_ok; lia).
    apply nmin_r; auto. apply lw_inf_nn.
  - rewrite for_empty by lia. cbn [bind]. eexists. split; [reflexivity|]. auto.
Qed.

Lemma col_run ratio dropout mt : band ratio (Z.max m n) = Ret r -> nn dropout ->
  let dF := if m - 1 <=? 2 * r then nr (cacc (m - 1)) else ninf in
  exists d, warpedDistance M a b ratio dropout mt = Ret (d, col_path (m - 1) ++ rev mt) /\
    (d = dF \/ (d = ninf /\ nlt dropout ninf /\ (m - 1 <= r -> nlt dropout dF))).
Proof.
  intros Hband Hd dF. unfold warpedDistance. rewrite Hband. cbn [bind].
  replace ((m =? 1) && (n =? 1)) with false by (destruct (Z.eqb_spec m 1); [lia|]; auto).
  rewrite fill_border. destruct col_border as (c & E & HS & HC & HL). rewrite E. cbn [bind].
  assert (Hbt : exists q, backtrack (snd c) (Z.to_nat (m + n)) (m - 1) 0 mt = Ret (mt ++ q) /\
                 rev (q ++ [(0, 0)]) = col_path (m - 1)).
  { destruct HS as (_ & Hs & Hnn).
    destruct (backtrack_ok (snd c) m n Hs Hnn (Z.to_nat (m + n)) (m - 1) 0 mt) as (q & Eq & Hq); [lia|lia|lia|].
    exists q. split; auto. apply (btpath_bpath _ _ _ _) with (r := m) in Hq; [|lia|lia].
    apply (col_path_only _ _ _ Hq). }
  destruct Hbt as (q & Eq & Erev).
  destruct (forb_inv (fun k c' => c' = c)
     (fun k c' => c' = c /\ nlt dropout ninf /\ (m - 1 <= r -> nlt dropout dF)) (row_loop M a b r dropout) 1 m c)
    as (c' & drop & E' & Hdrop); [lia|auto| |].
  - intros k s Hk ->. destruct (col_row c k dropout Hk HC) as (drop & Er & Hdr). exists c, drop. split; auto.
    destruct drop; auto. split; auto. specialize (Hdr eq_refl Hd). split.
    + destruct (k <=? r); auto. apply (nlt_le_trans _ _ _ Hdr). apply nle_inf, (nlt_nn_r _ _ Hdr).
    + intros Hfull. destruct (Z.leb_spec k r); [|lia]. apply (nlt_le_trans _ _ _ Hdr). unfold dF.
      destruct (Z.leb_spec (m - 1) (2 * r)); [|lia]. apply cacc_mono; lia.
  - rewrite E'. cbn [bind]. assert (Hc' : c' = c) by (destruct drop; [destruct Hdrop as (? & ? & ?)|]; tauto).
    replace (n - 1) with 0 by lia.
    destruct drop.
    + destruct Hdrop as (k & Hk & -> & H1 & H2). exists ninf. cbn [bind]. rewrite Eq. cbn [bind].
      rewrite <- app_assoc, rev_app_distr, Erev. auto.
    + subst c'. rewrite HL. cbn [bind]. rewrite Eq. cbn [bind]. exists dF.
      rewrite <- app_assoc, rev_app_distr, Erev. auto.
Qed.
End Col.

(** both series have one point *)
Lemma single_run ratio r dropout mt : m = 1 -> n = 1 -> band ratio 1 = Ret r ->
  warpedDistance M a b ratio dropout mt = Ret (path_cost M a b [(0, 0)], mt).
Proof.
  intros H1 H2 Hband. unfold warpedDistance. rewrite H1, H2. change (Z.max 1 1) with 1. rewrite Hband. cbn [bind].
  change ((1 =? 1) && (1 =? 1)) with true. cbv iota.
  rewrite !ts_get_pt by (auto || lia). cbn [bind]. unfold path_cost. rewrite H1, H2. reflexivity.
Qed.
End Len1.
