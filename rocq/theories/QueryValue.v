(** What a search computes from a query depends only on the points of the query. *)
From Coq Require Import String FunctionalExtensionality.
From Verif Require Import Base Num LoopFacts TimeSeries Lemire Distance TSSet StdAlg Candidate Group GroupSpace BruteForce PAA DtwExt.
Local Open Scope Z_scope.
Local Open Scope list_scope.

(** ** the envelope *)
Section Envelope.
Context {N : Num}.
Variables (t t' : list (D N)) (len : Z).
Hypothesis Hlen : 1 <= len.
Hypothesis Ht : forall i, 0 <= i < len -> aget t i = aget t' i.

(** a queue of positions of the series *)
Definition positions (d : deque) : Prop := forall v, In (Some v) (dq_data d) -> 0 <= v < len.

Lemma aget_in {A} (l : list A) i x : aget l i = Ret x -> In x l.
Proof.
  unfold aget. destruct (0 <=? i); [|discriminate]. destruct (nth_error l (Z.to_nat i)) eqn:E; [|discriminate].
  intros [= <-]. eapply nth_error_In; eauto.
Qed.
Lemma upd_in {A} (l : list A) : forall k x y, In y (upd l k x) -> y = x \/ In y l.
Proof.
  induction l as [|a l IH]; intros [|k] x y; cbn; auto.
  - intros [->|H]; auto.
  - intros [->|H]; auto. destruct (IH _ _ _ H); auto.
Qed.
Lemma aset_in {A} (l l' : list A) i x y : aset l i x = Ret l' -> In y l' -> y = x \/ In y l.
Proof.
  unfold aset. destruct (_ && _); [|discriminate]. intros [= <-]. apply upd_in.
Qed.
Lemma init_get_in {A} (o : option A) x : init_get o = Ret x -> o = Some x.
Proof. destruct o; cbn; congruence. Qed.

Lemma front_pos d v : positions d -> dq_front d = Ret v -> 0 <= v < len.
Proof.
  intros P E. unfold dq_front in E. cbv zeta in E. apply bind_Ret in E as (o & Eo & E). apply init_get_in in E. subst o.
  apply P. eapply aget_in; eauto.
Qed.
Lemma back_pos d v : positions d -> dq_back d = Ret v -> 0 <= v < len.
Proof.
  intros P E. unfold dq_back in E. apply bind_Ret in E as (k & _ & E). apply bind_Ret in E as (o & Eo & E). apply init_get_in in E. subst o.
  apply P. eapply aget_in; eauto.
Qed.
Lemma push_pos d v d' : positions d -> 0 <= v < len -> dq_push_back d v = Ret d' -> positions d'.
Proof.
  intros P Hv E. unfold dq_push_back in E. apply bind_Ret in E as (data & Ed & E). cbv zeta in E. injection E as <-.
  intros x Hx. cbn in Hx. destruct (aset_in _ _ _ _ _ Ed Hx) as [[= ->]|H]; auto.
Qed.
Lemma pop_front_pos d : positions d -> positions (dq_pop_front d).
Proof. intros P v. exact (P v). Qed.
Lemma pop_back_pos d d' : positions d -> dq_pop_back d = Ret d' -> positions d'.
Proof. intros P E. unfold dq_pop_back in E. apply bind_Ret in E as (k & _ & E). injection E as <-. intros v. exact (P v). Qed.

Lemma popwhile_same better x : forall fuel d, positions d ->
  lem_popwhile better t x fuel d = lem_popwhile better t' x fuel d /\
  forall d', lem_popwhile better t x fuel d = Ret d' -> positions d'.
Proof.
  induction fuel as [|fuel IH]; intros d P; cbn [lem_popwhile]; (destruct (dq_empty d); [split; [reflexivity|intros d' [= <-]; exact P]|]).
  - split; [reflexivity|discriminate].
  - destruct (dq_back d) as [b| | |] eqn:Eb; cbn [bind]; try (split; [reflexivity|discriminate]).
    rewrite <- (Ht b (back_pos d b P Eb)). destruct (aget t b) as [y| | |]; cbn [bind]; try (split; [reflexivity|discriminate]).
    destruct (better x y); [|split; [reflexivity|intros d' [= <-]; exact P]].
    destruct (dq_pop_back d) as [d1| | |] eqn:E1; cbn [bind]; try (split; [reflexivity|discriminate]).
    apply IH. eapply pop_back_pos; eauto.
Qed.

Definition both (s : @lem_state N) : Prop := positions (le_du s) /\ positions (le_dl s).

Lemma emit_same r i s : both s -> lem_emit t r i s = lem_emit t' r i s /\
  forall s', lem_emit t r i s = Ret s' -> both s'.
Proof.
  intros [Pu Pl]. unfold lem_emit.
  destruct (dq_front (le_du s)) as [fu| | |] eqn:Eu; cbn [bind]; try (split; [reflexivity|discriminate]).
  rewrite <- (Ht fu (front_pos _ _ Pu Eu)). destruct (aget t fu) as [vu| | |]; cbn [bind]; try (split; [reflexivity|discriminate]).
  destruct (aset (le_u s) _ _) as [u'| | |]; cbn [bind]; try (split; [reflexivity|discriminate]).
  destruct (dq_front (le_dl s)) as [fl| | |] eqn:El; cbn [bind]; try (split; [reflexivity|discriminate]).
  rewrite <- (Ht fl (front_pos _ _ Pl El)). destruct (aget t fl) as [vl| | |]; cbn [bind]; try (split; [reflexivity|discriminate]).
  destruct (aset (le_l s) _ _) as [l'| | |]; cbn [bind]; try (split; [reflexivity|discriminate]).
  split; [reflexivity|]. intros s' [= <-]. split; assumption.
Qed.

Lemma step1_same r i s : 1 <= i < len -> both s -> lem_step1 t r i s = lem_step1 t' r i s /\
  forall s', lem_step1 t r i s = Ret s' -> both s'.
Proof.
  intros Hi P. unfold lem_step1.
  assert (A : (if i >? r then lem_emit t r i s else Ret s) = (if i >? r then lem_emit t' r i s else Ret s) /\
    forall s', (if i >? r then lem_emit t r i s else Ret s) = Ret s' -> both s').
  { destruct (i >? r); [apply emit_same, P|]. split; [reflexivity|]. intros s' [= <-]. exact P. }
  destruct A as [<- A]. destruct (if i >? r then _ else _) as [s1| | |]; cbn [bind]; try (split; [reflexivity|discriminate]).
  specialize (A s1 eq_refl). clear s P. rewrite <- (Ht i), <- (Ht (i - 1)) by lia.
  destruct (aget t i) as [ti| | |]; cbn [bind]; try (split; [reflexivity|discriminate]).
  destruct (aget t (i - 1)) as [tp| | |]; cbn [bind]; try (split; [reflexivity|discriminate]).
  destruct A as [Pu Pl].
  match goal with |- (bind ?x ?f = bind ?y ?f) /\ _ => assert (B : x = y /\ forall s', x = Ret s' -> both s') end.
  { destruct (nltb tp ti).
    - destruct (dq_pop_back (le_du s1)) as [du| | |] eqn:E; cbn [bind]; try (split; [reflexivity|discriminate]).
      destruct (popwhile_same (fun x y => nltb y x) ti (Z.to_nat (dq_size du)) du (pop_back_pos _ _ Pu E)) as [<- Q].
      destruct (lem_popwhile _ _ _ _ _) as [d| | |]; cbn [bind]; try (split; [reflexivity|discriminate]).
      split; [reflexivity|]. intros s' [= <-]. split; [exact (Q d eq_refl)|exact Pl].
    - destruct (dq_pop_back (le_dl s1)) as [dl| | |] eqn:E; cbn [bind]; try (split; [reflexivity|discriminate]).
      destruct (popwhile_same (fun x y => nltb x y) ti (Z.to_nat (dq_size dl)) dl (pop_back_pos _ _ Pl E)) as [<- Q].
      destruct (lem_popwhile _ _ _ _ _) as [d| | |]; cbn [bind]; try (split; [reflexivity|discriminate]).
      split; [reflexivity|]. intros s' [= <-]. split; [exact Pu|exact (Q d eq_refl)]. }
  destruct B as [<- B]. split; [reflexivity|]. intros s' E. apply bind_Ret in E as (s2 & E2 & E). specialize (B s2 E2) as [Qu Ql].
  apply bind_Ret in E as (du & Eu & E). apply bind_Ret in E as (dl & El & E).
  apply (push_pos _ i _ Qu ltac:(lia)) in Eu. apply (push_pos _ i _ Ql ltac:(lia)) in El.
  apply bind_Ret in E as (fu & _ & E). destruct (i =? 2 * r + 1 + fu).
  { injection E as <-. split; cbn; auto. }
  apply bind_Ret in E as (fl & _ & E). destruct (i =? 2 * r + 1 + fl); injection E as <-; split; cbn; auto.
Qed.

Lemma step2_same r i s : both s -> lem_step2 t r i s = lem_step2 t' r i s /\
  forall s', lem_step2 t r i s = Ret s' -> both s'.
Proof.
  intros P. unfold lem_step2. destruct (emit_same r i s P) as [<- Q]. split; [reflexivity|]. intros s' E.
  apply bind_Ret in E as (s1 & E1 & E). specialize (Q s1 E1) as [Qu Ql]. apply bind_Ret in E as (fu & _ & E). cbv zeta in E.
  apply bind_Ret in E as (fl & _ & E). injection E as <-. split; cbn.
  - destruct (_ <=? _); [apply pop_front_pos|]; assumption.
  - destruct (_ <=? _); [apply pop_front_pos|]; assumption.
Qed.

Lemma lemire_same r : lower_upper_lemire t len r = lower_upper_lemire t' len r.
Proof.
  unfold lower_upper_lemire. destruct (2 * r + 2 <? 0); [reflexivity|]. cbv zeta.
  assert (P0 : positions (dq_new (2 * r + 2))).
  { intros v Hv. cbn in Hv. apply repeat_spec in Hv. discriminate. }
  destruct (dq_push_back (dq_new (2 * r + 2)) 0) as [du| | |] eqn:Eu; cbn [bind]; try reflexivity.
  pose proof (push_pos _ 0 _ P0 ltac:(lia) Eu) as P.
  destruct (for_ext_inv (fun _ s => both s) (lem_step1 t r) (lem_step1 t' r) 1 len
    (mkLem du du (repeat None (Z.to_nat len)) (repeat None (Z.to_nat len)))) as [<- A].
  { split; exact P. }
  { intros k s Hk Hs. apply step1_same; auto. }
  destruct (for_ 1 len _ _) as [s1| | |]; cbn [bind]; try reflexivity.
  destruct (for_ext_inv (fun _ s => both s) (lem_step2 t r) (lem_step2 t' r) len (len + r + 1) s1) as [<- _].
  { exact (A s1 eq_refl). }
  { intros k s _ Hs. apply step2_same; auto. }
  reflexivity.
Qed.
End Envelope.

Section Query.
Context {N : Num}.
Notation D := (D N).
Variables q q' : TS N.
Hypothesis Hq : same q q'.

Lemma keoghLU_same w : keoghLU q w = keoghLU q' w.
Proof.
  destruct Hq as (O & O' & E). unfold keoghLU. rewrite <- (ts_len_ext q q' O O' E).
  destruct (Z.ltb_spec (ts_length q) 0) as [|H0]; [reflexivity|]. destruct (Z.eq_dec (ts_length q) 0) as [Z0|Hn].
  { rewrite Z0. unfold lower_upper_lemire. destruct (Z.ltb_spec (2 * Z.min w (0 - 1) + 2) 0) as [|Hb]; [reflexivity|].
    replace (2 * Z.min w (0 - 1) + 2) with 0 by lia. reflexivity. }
  apply lemire_same; [lia|]. intros i Hi. pose proof (ts_get_ext q q' O O' E) as G.
  apply (f_equal (fun f => f i)) in G. unfold ts_get in G. rewrite <- (ts_len_ext q q' O O' E) in G.
  destruct (Z.ltb_spec i 0); [lia|]. destruct (Z.leb_spec (ts_length q) i); [lia|]. cbn [orb] in G.
  destruct O as (A1 & _), O' as (B1 & _). unfold aget in *. destruct (Z.leb_spec 0 i); [|lia].
  destruct (Z.leb_spec 0 (ts_start q + i)); [|lia]. destruct (Z.leb_spec 0 (ts_start q' + i)); [|lia].
  rewrite !nth_error_skipn. replace (Z.to_nat (ts_start q) + Z.to_nat i)%nat with (Z.to_nat (ts_start q + i)) by lia.
  replace (Z.to_nat (ts_start q') + Z.to_nat i)%nat with (Z.to_nat (ts_start q' + i)) by lia. exact G.
Qed.

Lemma get_same : ts_get q = ts_get q'.
Proof. destruct Hq as (O & O' & E). apply ts_get_ext; auto. Qed.
Lemma len_same : ts_length q = ts_length q'.
Proof. destruct Hq as (O & O' & E). apply ts_len_ext; auto. Qed.

(** *** each of the computations, with the query first or second *)
Lemma warped_first (M : Metric N) (b : TS N) ratio cut mt : warpedDistance M q b ratio cut mt = warpedDistance M q' b ratio cut mt.
Proof.
  unfold warpedDistance, warped_fill, row_loop, cell_step, row_step, col_step, put_cell, cells. rewrite get_same, len_same. reflexivity.
Qed.
Lemma warped_second (M : Metric N) (a : TS N) ratio cut mt : warpedDistance M a q ratio cut mt = warpedDistance M a q' ratio cut mt.
Proof.
  unfold warpedDistance, warped_fill, row_loop, cell_step, row_step, col_step, put_cell, cells. rewrite get_same, len_same. reflexivity.
Qed.
Lemma pairwise_first (M : Metric N) (b : TS N) cut mt : pairwiseDistance M q b cut mt = pairwiseDistance M q' b cut mt.
Proof. unfold pairwiseDistance, pairwise_step. rewrite get_same, len_same. reflexivity. Qed.
Lemma pairwise_second (M : Metric N) (a : TS N) cut mt : pairwiseDistance M a q cut mt = pairwiseDistance M a q' cut mt.
Proof. unfold pairwiseDistance, pairwise_step. rewrite get_same, len_same. reflexivity. Qed.

Lemma kim_first (b : TS N) : kimLowerBound q b = kimLowerBound q' b.
Proof. unfold kimLowerBound, euc_normDTW. rewrite get_same, len_same. reflexivity. Qed.
Lemma kim_second (a : TS N) : kimLowerBound a q = kimLowerBound a q'.
Proof. unfold kimLowerBound, euc_normDTW. rewrite get_same, len_same. reflexivity. Qed.
Lemma keogh_first ratio (b : TS N) cut : keoghLowerBound ratio q b cut = keoghLowerBound ratio q' b cut.
Proof.
  unfold keoghLowerBound, euc_normDTW. rewrite len_same. destruct (band _ _); cbn [bind]; try reflexivity. rewrite keoghLU_same. reflexivity.
Qed.
Lemma keogh_second ratio (a : TS N) cut : keoghLowerBound ratio a q cut = keoghLowerBound ratio a q' cut.
Proof. unfold keoghLowerBound, keogh_step, euc_normDTW. rewrite get_same, len_same. reflexivity. Qed.
Lemma keoghC_second ratio c (a : TS N) cut : keoghLowerBoundC ratio c a q cut = keoghLowerBoundC ratio c a q' cut.
Proof. unfold keoghLowerBoundC, keogh_step, euc_normDTW. rewrite get_same, len_same. reflexivity. Qed.
Lemma cascade_first ratio (b : TS N) cut mt : cascadeDistance ratio q b cut mt = cascadeDistance ratio q' b cut mt.
Proof.
  unfold cascadeDistance, crossKeoghLowerBound. rewrite kim_first, keogh_first, keogh_second, warped_first. reflexivity.
Qed.
Lemma cascadeC_second ratio c (a : TS N) cut : cascadeDistanceC ratio c a q cut = cascadeDistanceC ratio c a q' cut.
Proof.
  unfold cascadeDistanceC, crossKeoghLowerBoundC. rewrite kim_second, keoghC_second, keogh_first, warped_second. reflexivity.
Qed.

(** *** the distances one can ask for by name *)
Definition alike (f : dist_fn N) : Prop :=
  (forall ratio b cut mt, f ratio q b cut mt = f ratio q' b cut mt) /\
  (forall ratio a cut mt, f ratio a q cut mt = f ratio a q' cut mt).

Lemma named_alike name f : getDistanceFromName name = Ret f -> alike f.
Proof.
  unfold getDistanceFromName. cbn [allDistances app assoc].
  repeat match goal with |- context [String.eqb name ?b] => destruct (String.eqb name b) end; intros [= <-]; split; intros;
    first [apply warped_first | apply warped_second | apply pairwise_first | apply pairwise_second].
Qed.

(** the distance of a group space *)
Definition usual (w : warped N) : Prop :=
  match w with WCascade => True | WPlain f => exists name, getDistanceFromName name = Ret f end.

Lemma call_same w ratio : usual w -> warp_call w ratio q = warp_call w ratio q'.
Proof.
  intros Hw. apply functional_extensionality. intros t. apply functional_extensionality. intros cut. unfold warp_call.
  destruct w as [|f]; [rewrite cascade_first; reflexivity|]. destruct Hw as [name Hf]. apply named_alike in Hf as [Hf _].
  rewrite Hf. reflexivity.
Qed.

Lemma centroid_same d len w ratio g cut : usual w ->
  distanceFromCentroid d len w ratio g q cut = distanceFromCentroid d len w ratio g q' cut.
Proof.
  intros Hw. unfold distanceFromCentroid. destruct (cent_ts _ _ _) as [t| | |]; cbn [bind]; try reflexivity.
  destruct w as [|f]; [rewrite cascadeC_second; reflexivity|]. destruct Hw as [name Hf]. apply named_alike in Hf as [_ Hf].
  rewrite Hf. reflexivity.
Qed.

(** *** searches *)
Lemma bestGroup_same d len w ratio : usual w -> bestGroup_step d len w ratio q = bestGroup_step d len w ratio q'.
Proof.
  intros Hw. apply functional_extensionality. intros i. apply functional_extensionality. intros [groups [bd bg]]. unfold bestGroup_step.
  destruct (aget groups i) as [g| | |]; cbn [bind]; try reflexivity. rewrite centroid_same by exact Hw. reflexivity.
Qed.
Lemma bestMember_same d len w ratio : usual w -> bestMember_step d len w ratio q = bestMember_step d len w ratio q'.
Proof. intros Hw. unfold bestMember_step. rewrite (call_same w ratio Hw). reflexivity. Qed.
Lemma intra_same H d len w ratio : usual w -> intra_step H d len w ratio q = intra_step H d len w ratio q'.
Proof. intros Hw. unfold intra_step. rewrite (call_same w ratio Hw). reflexivity. Qed.
Lemma inter_same H d len w ratio : usual w -> inter_step H d len w ratio q = inter_step H d len w ratio q'.
Proof.
  intros Hw. apply functional_extensionality. intros i. apply functional_extensionality. intros [[groups best] k]. unfold inter_step.
  destruct (aget groups i) as [g| | |]; cbn [bind]; try reflexivity. destruct (k <=? 0).
  - destruct (front best) as [top| | |]; cbn [bind]; try reflexivity. rewrite centroid_same by exact Hw. reflexivity.
  - rewrite centroid_same by exact Hw. reflexivity.
Qed.
Lemma bestLevel_same d w ratio : usual w -> bestLevel_step d w ratio q = bestLevel_step d w ratio q'.
Proof.
  intros Hw. apply functional_extensionality. intros L. unfold bestLevel_step, getBestGroup. rewrite bestGroup_same by exact Hw. reflexivity.
Qed.
Lemma interLevel_same H d w ratio : usual w -> interLevel_step H d w ratio q = interLevel_step H d w ratio q'.
Proof.
  intros Hw. apply functional_extensionality. intros L. unfold interLevel_step, interLevelKSim. rewrite inter_same by exact Hw. reflexivity.
Qed.
Lemma recompute_same w ratio best : usual w -> recompute w ratio q best = recompute w ratio q' best.
Proof.
  intros Hw. induction best as [|c best IH]; cbn [recompute]; [reflexivity|]. rewrite (call_same w ratio Hw), IH. reflexivity.
Qed.

Definition usual_space (g : gset N) : Prop :=
  forall gs w, gt_groups g = Some gs -> gg_warp gs = Some w -> usual w.

Lemma best_same ratio g : usual_space g -> getBestMatch ratio g q = getBestMatch ratio g q'.
Proof.
  intros Hg. unfold getBestMatch, gg_getBestMatch. destruct (gt_groups g) as [gs|] eqn:Eg; [|reflexivity]. rewrite len_same.
  destruct (gg_warp gs) as [w|] eqn:Ew; [|reflexivity]. specialize (Hg gs w Eg Ew).
  destruct (ts_length q' <=? 1); [reflexivity|].
  destruct (generateTraverseOrder _ _ _) as [order| | |]; cbn [bind]; try reflexivity. rewrite bestLevel_same by exact Hg.
  destruct (each_level _ _ _ _) as [[levels [bd bg]]| | |]; cbn [bind]; try reflexivity.
  destruct (deref bg) as [[len i]| | |]; cbn [bind]; try reflexivity. unfold groupBestMatch. rewrite bestMember_same by exact Hg. reflexivity.
Qed.

Lemma kbest_same H ratio g k ke : usual_space g -> getKBestMatches H ratio g q k ke = getKBestMatches H ratio g q' k ke.
Proof.
  intros Hg. unfold getKBestMatches, gg_getKBestMatches. destruct (gt_groups g) as [gs|] eqn:Eg; [|reflexivity]. rewrite len_same.
  destruct (gg_warp gs) as [w|] eqn:Ew; [|reflexivity]. specialize (Hg gs w Eg Ew).
  assert (R : recompute w ratio q = recompute w ratio q').
  { apply functional_extensionality. intros best. apply recompute_same, Hg. }
  rewrite R, interLevel_same by exact Hg. clear R. destruct (ke <? k); [reflexivity|].
  destruct (generateTraverseOrder _ _ _) as [order| | |]; cbn [bind]; try reflexivity.
  destruct (each_level _ _ _ _) as [[levels [best k']]| | |]; cbn [bind]; try reflexivity.
  destruct best as [|top rest]; [reflexivity|]. destruct (find_group levels top) as [[L gr]| | |]; cbn [bind]; try reflexivity.
  unfold intraGroupKSim. rewrite intra_same by exact Hg. reflexivity.
Qed.

Lemma brute_same H ratio d k name : getKBestMatchesBruteForce H ratio d q k name = getKBestMatchesBruteForce H ratio d q' k name.
Proof.
  unfold getKBestMatchesBruteForce. destruct (k <=? 0); [reflexivity|].
  destruct (getDistanceFromName _) as [f| | |] eqn:Ef; cbn [bind]; try reflexivity. apply named_alike in Ef as [Hf _].
  assert (R : bf_step H f ratio d q = bf_step H f ratio d q').
  { unfold bf_step. assert (F : f ratio q = f ratio q').
    { apply functional_extensionality. intros t. apply functional_extensionality. intros cut. apply functional_extensionality. intros mt. apply Hf. }
    rewrite F. reflexivity. }
  rewrite R. reflexivity.
Qed.

Lemma paa_same H ratio w d k name : getKBestMatchesPAA H ratio w d q k name = getKBestMatchesPAA H ratio w d q' k name.
Proof.
  unfold getKBestMatchesPAA, tsPAA, paa_step. rewrite get_same, len_same. reflexivity.
Qed.

End Query.
