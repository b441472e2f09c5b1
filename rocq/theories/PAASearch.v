(** The search with PAA: block size 1 and block sizes above. *)
From Coq Require Import Arith.
From Verif Require Import Base Num LoopFacts TimeSeries Lemire Distance DistSpec DistLink TSSet StdAlg Candidate BruteForce DataSpec DataProofs Members
  DtwExt PAA PAASpec PAAProofs.
Local Open Scope Z_scope.

Lemma fold_res_ext_in {A S} (b1 b2 : A -> S -> res S) l : (forall x s, In x l -> b1 x s = b2 x s) ->
  forall s, fold_res b1 l s = fold_res b2 l s.
Proof. intros H s. apply fold_res_ext. intros x s' Hx. apply H; auto. Qed.

Lemma for_ext {S} (b1 b2 : Z -> S -> res S) lo hi : (forall x s, lo <= x < hi -> b1 x s = b2 x s) ->
  forall s, for_ lo hi b1 s = for_ lo hi b2 s.
Proof. intros H s. rewrite !for_fold. apply fold_res_ext_in. intros x s' Hx. apply zseq_In in Hx. apply H. lia. Qed.

(** a loop one of whose iterations never succeeds does not succeed *)
Lemma fold_res_fails {A S} (body : A -> S -> res S) l x : In x l -> (forall s s', body x s <> Ret s') ->
  forall s s', fold_res body l s <> Ret s'.
Proof.
  intros Hin Hx. induction l as [|y l IH]; [contradiction|]. intros s s'. simpl.
  destruct Hin as [->|Hin].
  - destruct (body x s) as [s1| | |] eqn:E; try discriminate. exfalso. eapply Hx; eauto.
  - destruct (body y s) as [s1| | |]; try discriminate. apply IH; auto.
Qed.
Lemma for_fails {S} (body : Z -> S -> res S) lo hi x : lo <= x < hi -> (forall s s', body x s <> Ret s') ->
  forall s s', for_ lo hi body s <> Ret s'.
Proof. intros Hx Hb s s'. rewrite for_fold. apply (fold_res_fails _ _ x); auto. apply zseq_In. lia. Qed.

Section Search.
Context {N : Num}.
Notation D := (D N).
Variable d : dataset N.
Variable rows : list (list D).
Hypothesis Hd : holds d rows.
Variable H : std_alg.
Variable L : nat.
Hypothesis EL : getItemLength d (ds_maxcol d) = Ret (Z.of_nat L).

Lemma mean_one_map (xs : list D) : block_means 1 xs = map (fun x => mean [x]) xs.
Proof.
  apply list_ext. intros j. rewrite nth_error_map. destruct (Nat.lt_ge_cases j (length xs)) as [Hj|Hj].
  - assert (E : (j < (length xs + 1 - 1) / 1)%nat) by (rewrite Nat.div_1_r; lia).
    rewrite block_means_nth by exact E. destruct (nth_error xs j) as [x|] eqn:Ex; [|apply nth_error_None in Ex; lia].
    simpl. do 2 f_equal. unfold block. rewrite Nat.mul_1_r. clear E. revert xs Hj Ex.
    induction j as [|j IH]; intros [|y xs] Hj Ex; simpl in *; try discriminate; [congruence|]. apply IH; auto. lia.
  - rewrite (proj2 (nth_error_None xs j)) by lia. apply nth_error_None. rewrite block_means_length, Nat.div_1_r. lia.
Qed.

Lemma slice_In (row : list D) s e v : In v (slice row s e) -> In v row.
Proof.
  unfold slice. intros Hv. rewrite <- (firstn_skipn (Z.to_nat s) row). apply in_or_app. right.
  rewrite <- (firstn_skipn (Z.to_nat (e - s)) (skipn (Z.to_nat s) row)). apply in_or_app. auto.
Qed.

Theorem paa_one (ratio : D) w query K k :
  prepared rows L 1 w -> (forall row, In row rows -> length row = L) ->
  ts_ok query -> 1 <= ts_length query ->
  (forall v, In v (ts_points query) \/ (exists row, In row rows /\ In v row) -> mean [v] = v) ->
  getKBestMatchesPAA H ratio w d query K (kind_name k) = getKBestMatchesBruteForce H ratio d query K (kind_name k).
Proof.
  intros Hw HL Hq Hql Hv. pose proof Hd as (buf & _ & Ec & _). pose proof Hw as (Hb & Eb & _).
  unfold getKBestMatchesPAA, getKBestMatchesBruteForce. destruct (K <=? 0); [reflexivity|].
  assert (Ef : @getDistanceFromName N (kind_name k ++ "_dtw") =
    Ret (fun ratio a b d mt => warpedDistance (metric_of k) a b ratio d mt)) by (destruct k; reflexivity).
  rewrite Ef, EL, Eb. cbn [bind init_get]. rewrite (tsPAA_ok query 1 Hq ltac:(lia) Hql). cbn [bind].
  rewrite mean_one_map. replace (map (fun x => mean [x]) (ts_points query)) with (ts_points query).
  2:{ rewrite <- (map_id (ts_points query)) at 1. apply map_ext_in. intros v Hin. symmetry. apply Hv. auto. }
  f_equal. apply for_ext. intros idx st Hidx.
  destruct (row_of_in rows idx ltac:(lia)) as [row Er]. apply row_of_Some in Er as Hi. destruct Hi as [_ Ei].
  apply nth_error_In in Ei as Hin. pose proof (HL row Hin) as El.
  destruct (holds_row d rows idx row Hd Er) as (_ & _ & _ & Elen & _). rewrite Elen, El. cbn [bind].
  apply for_ext. intros len st' Hlen. apply for_ext. intros start [best k'] Hstart.
  unfold paa_search_step, bf_step.
  destruct (getTimeSeries_ok d rows idx start (start + len) row Hd Er ltac:(lia) ltac:(lia)) as (t & Et & Ep & Hok & _).
  rewrite Et. cbn [bind].
  assert (Eg : getPAA w d idx start (start + len) = Ret (ts_of_list (ts_points t))).
  { pose proof (getPAA_ok d rows Hd L 1 w Hw) as G. assert (HL' : forall row0, In row0 rows -> (L <= length row0)%nat).
    { intros r0 Hr0. rewrite (HL r0 Hr0). lia. }
    specialize (G HL' idx row (Z.to_nat start) (Z.to_nat (start + len)) Er ltac:(lia)).
    rewrite !Z2Nat.id in G by lia. rewrite G by apply Nat.mod_1_r. rewrite mean_one_map, Ep. do 2 f_equal.
    rewrite <- (map_id (slice row start (start + len))) at 2. apply map_ext_in. intros v Hin'. apply Hv. right.
    exists row. split; auto. eapply slice_In; eauto. }
  rewrite Eg. cbn [bind].
  assert (Ew : forall cut, warpedDistance (metric_of k) (ts_of_list (ts_points query)) (ts_of_list (ts_points t)) ratio cut [] =
    warpedDistance (metric_of k) query t ratio cut []).
  { intros cut. symmetry. apply warped_ext; apply ts_of_list_same; auto. }
  rewrite Ew. destruct (k' >? 0).
  - reflexivity.
  - destruct (front best) as [top| | |]; cbn [bind]; auto. rewrite Ew. reflexivity.
Qed.

(** with larger blocks some subsequence has an incomplete last block *)
Theorem paa_more_fails (ratio : D) w b query K name l :
  prepared rows L b w -> (2 <= b)%nat -> (3 <= L)%nat -> rows <> [] -> (forall row, In row rows -> (L <= length row)%nat) ->
  getKBestMatchesPAA H ratio w d query K name <> Ret l.
Proof.
  intros Hw Hb HL Hne Hrows. pose proof Hd as (buf & _ & Ec & _). pose proof Hw as (Hb' & Eb & _).
  unfold getKBestMatchesPAA. destruct (K <=? 0); [discriminate|].
  destruct (getDistanceFromName _) as [f| | |]; try discriminate. cbn [bind]. rewrite EL, Eb. cbn [bind init_get].
  destruct (tsPAA query (Z.of_nat b)) as [p| | |]; try discriminate. cbn [bind].
  destruct (for_ 0 (ds_count d) _ _) as [[best k']| | |] eqn:E; try discriminate. exfalso. revert E.
  assert (Hc : 0 < ds_count d) by (destruct rows; [contradiction|simpl in Ec; lia]).
  set (len := if (b =? 2)%nat then 3 else 2).
  assert (Hlen : 2 <= len <= 3 /\ ((Z.to_nat len - 0) mod b <> 0)%nat).
  { unfold len. destruct (Nat.eqb_spec b 2) as [->|Hb2]; [split; [lia|discriminate]|].
    split; [lia|]. rewrite Nat.mod_small by (simpl; lia). discriminate. }
  apply (for_fails _ 0 (ds_count d) 0); [lia|]. intros s1 s1'.
  apply (for_fails _ 2 (Z.of_nat L + 1) len); [lia|]. intros s2 s2'.
  apply (for_fails _ 0 (Z.of_nat L - len + 1) 0); [lia|]. intros [best0 k0] s3'.
  unfold paa_search_step. destruct (row_of_in rows 0 ltac:(lia)) as [row Er]. apply row_of_Some in Er as Hi. destruct Hi as [_ Ei].
  pose proof (Hrows row (nth_error_In _ _ Ei)) as HLr.
  destruct (getTimeSeries_ok d rows 0 0 (0 + len) row Hd Er ltac:(lia) ltac:(lia)) as (t & Et & _).
  rewrite Et. cbn [bind].
  pose proof (getPAA_uninit d rows Hd L b w Hw Hrows 0 row 0 (Z.to_nat len) Er ltac:(lia) (proj2 Hlen)) as G.
  rewrite Z2Nat.id in G by lia. change (Z.of_nat 0) with 0 in G. rewrite Z.add_0_l, G. discriminate.
Qed.
End Search.
