(** The state queries work on: groups whose cached envelopes are up to date. *)
From Coq Require Import String Permutation.
From Verif Require Import Base Num NumLaws NumFacts LoopFacts TimeSeries Lemire Distance TSSet StdAlg Candidate Group GroupSpace
  DistSpec DistLink DataSpec DataProofs GroupSpec Members GroupProofs GroupAll TopK SearchSpec SearchProofs.
Local Open Scope Z_scope.
Local Open Scope list_scope.

(** the warped distance used for queries after grouping with metric [k] *)
Definition warp_of {N : Num} (k : kind) : warped N :=
  match k with
  | KEuclidean => WCascade
  | _ => WPlain (fun ratio a b dr mt => warpedDistance (metric_of k) a b ratio dr mt)
  end.

(** The representative of a group is one of its members: the last of the list
    after grouping, the first after reading the groups from a file (which reverses
    the lists of members).  [rp_text]: the groups were read from a text file; their
    representatives hold copies of the values and the threshold is not set. *)
Class Rep := { rp : list (Z * Z) -> Z * Z; rp_text : bool; rp_in : forall ms, ms <> [] -> In (rp ms) ms }.
Arguments rp : simpl never.

Section Cache.
Context {N : Num}.
Notation D := (D N).

Lemma warp_of_name k : warpedFor (N := N) (kind_name k) = Ret (warp_of k).
Proof. destruct k; reflexivity. Qed.

(** the cached envelope of [t] is what would be computed now *)
Definition coherent (c : option (cache N)) (t : TS N) : Prop :=
  match c with
  | None => True
  | Some c0 => keoghLU t (ca_band c0) = Ret (ca_lo c0, ca_up c0)
  end.

Lemma cachedLU_eq c t w : coherent c t ->
  cachedLU c t w = ('(lo, up) <- keoghLU t w ;; Ret (mkCache w lo up)).
Proof.
  destruct c as [[w0 lo up]|]; simpl; intros Hc; auto.
  destruct (Z.eqb_spec w w0) as [->|]; auto. rewrite Hc. reflexivity.
Qed.

(** results that agree in the first component *)
Definition fst_res {A B} (r : res (A * B)) : res A :=
  match r with Ret (a, _) => Ret a | Throw e => Throw e | UB u => UB u | Hang => Hang end.

Lemma keoghC_eq ratio c a b cut : coherent c a ->
  fst_res (keoghLowerBoundC ratio c a b cut) = keoghLowerBound ratio a b cut /\
  forall v c', keoghLowerBoundC ratio c a b cut = Ret (v, c') -> coherent c' a.
Proof.
  intros Hc. unfold keoghLowerBoundC, keoghLowerBound.
  destruct (band ratio _) as [w| | |]; simpl; try (split; [reflexivity|discriminate]).
  rewrite cachedLU_eq by auto. destruct (keoghLU a w) as [[lo up]| | |] eqn:E; simpl; try (split; [reflexivity|discriminate]).
  destruct (forb_ _ _ _ _) as [[lb b0]| | |]; simpl; try (split; [reflexivity|discriminate]).
  split; auto. intros v c' Ev. injection Ev as _ <-. exact E.
Qed.

Lemma crossC_eq ratio c a b cut : coherent c a ->
  fst_res (crossKeoghLowerBoundC ratio c a b cut) = crossKeoghLowerBound ratio a b cut /\
  forall v c', crossKeoghLowerBoundC ratio c a b cut = Ret (v, c') -> coherent c' a.
Proof.
  intros Hc. unfold crossKeoghLowerBoundC, crossKeoghLowerBound.
  destruct (keoghC_eq ratio c a b cut Hc) as [E1 E2]. rewrite <- E1.
  destruct (keoghLowerBoundC ratio c a b cut) as [[lb c1]| | |]; simpl; try (split; [reflexivity|discriminate]).
  specialize (E2 _ _ eq_refl).
  destruct (nltb cut lb); simpl; [split; auto; intros v c' E; injection E as _ <-; auto|].
  destruct (keoghLowerBound ratio b a cut); simpl; try (split; [reflexivity|discriminate]).
  split; auto. intros v c' E; injection E as _ <-; auto.
Qed.

(** using the cache makes no difference, and it stays up to date *)
Lemma cascadeC_eq ratio c a b cut : coherent c a ->
  fst_res (cascadeDistanceC ratio c a b cut) = value (cascadeDistance ratio a b cut []) /\
  forall v c', cascadeDistanceC ratio c a b cut = Ret (v, c') -> coherent c' a.
Proof.
  intros Hc. unfold cascadeDistanceC, cascadeDistance.
  destruct (kimLowerBound a b) as [lb| | |]; simpl; try (split; [reflexivity|discriminate]).
  destruct (nltb cut lb); simpl; [split; auto; intros v c' E; injection E as _ <-; auto|].
  destruct (crossC_eq ratio c a b cut Hc) as [E1 E2]. rewrite <- E1.
  destruct (crossKeoghLowerBoundC ratio c a b cut) as [[lb1 c1]| | |]; simpl; try (split; [reflexivity|discriminate]).
  specialize (E2 _ _ eq_refl).
  destruct (nltb cut lb1); simpl; [split; auto; intros v c' E; injection E as _ <-; auto|].
  destruct (warpedDistance _ a b ratio cut []) as [[v mt]| | |]; simpl; try (split; [reflexivity|discriminate]).
  split; auto. intros v' c' E; injection E as _ <-; auto.
Qed.

(** ** levels *)
Context {RP : Rep}.
Variable d : dataset N.
Variable rows : list (list D).

Definition cent_q (len : Z) (g : group N) (ms : list coord) : Prop :=
  ms <> [] /\ g_cent g = (if rp_text then COwn (sub_values rows len (rp ms)) else CView (fst (rp ms)) (snd (rp ms))) /\
  forall t, cent_ts d len (g_cent g) = Ret t -> coherent (g_cache g) t.

Record level_q (len : Z) (L : llgs N) (gs : list (list coord)) : Prop := {
  lq_len : ll_length L = len;
  lq_sub : ll_sub L = ds_maxcol d - len + 1;
  lq_are : groups_are (ds_count d) (ll_sub L) (ll_map L) (ll_groups L) gs;
  lq_cent : Forall2 (cent_q len) (ll_groups L) gs;
  lq_subs : Forall (is_sub rows len) (concat gs)
}.

(** [levels.(l)] holds the groups [gss l]; None: not grouped *)
Definition levels_q (levels : list (option (llgs N))) (gss : Z -> option (list (list coord))) : Prop :=
  Z.of_nat (length levels) = ds_maxcol d + 1 /\
  forall l, 0 <= l <= ds_maxcol d ->
    match gss l with
    | None => nth_error levels (Z.to_nat l) = Some None
    | Some gs => 1 <= l /\ exists L, nth_error levels (Z.to_nat l) = Some (Some L) /\ level_q l L gs
    end.

Definition set_q (k : kind) (g : gset N) (gss : Z -> option (list (list coord))) : Prop :=
  gt_data g = d /\ exists gs, gt_groups g = Some gs /\ gg_warp gs = Some (warp_of k) /\
    (rp_text = false -> gg_threshold gs <> None) /\ levels_q (gg_levels gs) gss.

(** replacing a group by one with another cache *)
Lemma level_recache len L gs i g ms c : level_q len L gs ->
  nth_error (ll_groups L) i = Some g -> nth_error gs i = Some ms ->
  (forall t, cent_ts d len (g_cent g) = Ret t -> coherent c t) ->
  level_q len (mkLL (ll_length L) (ll_sub L) (upd (ll_groups L) i (mkGroup (g_cent g) c (g_last g) (g_count g))) (ll_map L)) gs.
Proof.
  intros [A1 A2 (B1 & B2) A4 A5] Eg Em Hc. constructor; cbn [ll_length ll_sub ll_map ll_groups]; auto.
  - split; auto. clear - B1 Eg Em. revert i gs B1 Eg Em.
    induction (ll_groups L) as [|g0 gr IH]; intros [|i] [|m0 gl] B1 Eg Em; try discriminate; simpl in *; inversion B1; subst.
    + constructor; auto. injection Eg as ->. injection Em as ->. destruct H2. split; auto.
    + constructor; eauto.
  - clear - A4 Eg Em Hc. revert i gs A4 Eg Em.
    induction (ll_groups L) as [|g0 gr IH]; intros [|i] [|m0 gl] B1 Eg Em; try discriminate; simpl in *; inversion B1; subst.
    + constructor; auto. injection Eg as ->. injection Em as ->. destruct H2 as (C1 & C2 & C3). unfold cent_q. splits; auto.
    + constructor; eauto.
Qed.

Lemma levels_set levels gss l gs L : levels_q levels gss -> 0 <= l <= ds_maxcol d -> gss l = Some gs ->
  level_q l L gs -> levels_q (upd levels (Z.to_nat l) (Some L)) gss.
Proof.
  intros [H1 H2] Hl Eg HL. split; [rewrite upd_length; auto|].
  intros l' Hl'. specialize (H2 l' Hl'). rewrite nth_error_upd_eq.
  destruct (Nat.eqb_spec (Z.to_nat l') (Z.to_nat l)) as [E|E]; auto.
  assert (l' = l) by lia. subst l'. rewrite Eg in *. destruct H2 as [H2 _]. split; auto. exists L. split; auto.
  destruct (Nat.ltb_spec (Z.to_nat l) (length levels)); auto. lia.
Qed.

(** ** queries only change caches *)
Definition lev (L : llgs N) (groups : list (group N)) : llgs N := mkLL (ll_length L) (ll_sub L) groups (ll_map L).

Lemma centroid_ret len L gs i g w (ratio : D) query cut v g' : level_q len L gs ->
  nth_error (ll_groups L) i = Some g ->
  distanceFromCentroid d len w ratio g query cut = Ret (v, g') ->
  level_q len (lev L (upd (ll_groups L) i g')) gs /\ g_count g' = g_count g.
Proof.
  intros HL Eg. destruct (Forall2_nth_ex _ _ _ _ _ (lq_cent _ _ _ HL) Eg) as (ms & Em & B1 & B2 & B3).
  unfold distanceFromCentroid. destruct (cent_ts d len (g_cent g)) as [t| | |] eqn:Et; simpl; try discriminate.
  specialize (B3 t eq_refl). destruct w as [|f].
  - destruct (cascadeC_eq ratio (g_cache g) t query cut B3) as [_ H2].
    destruct (cascadeDistanceC ratio (g_cache g) t query cut) as [[v0 c']| | |]; simpl; try discriminate.
    intros E. injection E as <- <-. split; auto. apply (level_recache len L gs i g ms c'); auto.
    intros t' E. rewrite Et in E. injection E as <-. eauto.
  - destruct (f ratio t query cut []) as [[v0 c']| | |]; simpl; try discriminate.
    intros E. injection E as <- <-. split; auto. apply (level_recache len L gs i g ms (g_cache g)); auto.
    intros t' E. rewrite Et in E. injection E as <-. auto.
Qed.

Lemma fold_ret {A S} (P : S -> Prop) (body : A -> S -> res S) l : forall s s',
  P s -> (forall x s s', In x l -> P s -> body x s = Ret s' -> P s') -> fold_res body l s = Ret s' -> P s'.
Proof.
  induction l as [|x l IH]; intros s s' H0 Hs E; simpl in E; [injection E as <-; auto|].
  destruct (body x s) as [s1| | |] eqn:E1; simpl in E; try discriminate.
  apply (IH s1 s'); auto; [apply (Hs x s); simpl; auto|]. intros y u u' Hy. apply Hs; simpl; auto.
Qed.

Lemma aget_nth {A} (l : list A) i x : aget l i = Ret x -> 0 <= i /\ nth_error l (Z.to_nat i) = Some x.
Proof.
  intros E. apply aget_Ret in E. tauto.
Qed.

Lemma getBestGroup_ret len L gs w (ratio : D) query cut L' r : level_q len L gs ->
  getBestGroup d w ratio L query cut = Ret (L', r) -> level_q len L' gs.
Proof.
  intros HL. unfold getBestGroup. rewrite (lq_len _ _ _ HL). rewrite for_fold.
  destruct (fold_res _ _ _) as [[groups r0]| | |] eqn:E; simpl; try discriminate.
  intros E'. injection E' as <- _.
  replace (mkLL len (ll_sub L) groups (ll_map L)) with (lev L (fst (groups, r0)))
    by (unfold lev; rewrite (lq_len _ _ _ HL); reflexivity).
  revert E.
  apply (fold_ret (fun st => level_q len (lev L (fst st)) gs)).
  - destruct L; exact HL.
  - intros i [gr [bd bg]] s' _ HI. unfold bestGroup_step. destruct (aget gr i) as [g| | |] eqn:Eg; simpl; try discriminate.
    apply aget_nth in Eg as [Hi Eg].
    destruct (distanceFromCentroid d len w ratio g query bd) as [[v g']| | |] eqn:Ed; simpl; try discriminate.
    destruct (centroid_ret len (lev L gr) gs _ g w ratio query bd v g' HI Eg Ed) as [HI' _].
    rewrite aset_in by (split; auto; apply nth_error_Some_lt in Eg; lia). simpl.
    destruct (nltb v bd); intros E; injection E as <-; exact HI'.
Qed.

Lemma interLevel_ret H len L gs w (ratio : D) query best k L' best' k' : level_q len L gs ->
  interLevelKSim H d w ratio L query best k = Ret (L', best', k') -> level_q len L' gs.
Proof.
  intros HL. unfold interLevelKSim. rewrite (lq_len _ _ _ HL). rewrite for_fold.
  destruct (fold_res _ _ _) as [[[groups b0] k0]| | |] eqn:E; simpl; try discriminate.
  intros E'. injection E' as <- _ _.
  replace (mkLL len (ll_sub L) groups (ll_map L)) with (lev L (fst (fst (groups, b0, k0))))
    by (unfold lev; rewrite (lq_len _ _ _ HL); reflexivity).
  revert E.
  apply (fold_ret (fun st => level_q len (lev L (fst (fst st))) gs)).
  - destruct L; exact HL.
  - intros i [[gr b1] k1] s' _ HI. unfold inter_step. destruct (aget gr i) as [g| | |] eqn:Eg; simpl; try discriminate.
    apply aget_nth in Eg as [Hi Eg].
    assert (G : forall cut v g', distanceFromCentroid d len w ratio g query cut = Ret (v, g') ->
      aset gr i g' = Ret (upd gr (Z.to_nat i) g') /\ level_q len (lev L (upd gr (Z.to_nat i) g')) gs).
    { intros cut v g' Ed. split; [apply aset_in; split; auto; apply nth_error_Some_lt in Eg; lia|].
      apply (centroid_ret len (lev L gr) gs _ g w ratio query cut v g' HI Eg Ed). }
    destruct (k1 <=? 0).
    + destruct (front b1) as [top| | |]; simpl; try discriminate.
      destruct (distanceFromCentroid d len w ratio g query (gi_dist top)) as [[v g']| | |] eqn:Ed; simpl; try discriminate.
      destruct (G _ _ _ Ed) as [-> HI']. simpl. destruct (nltb v (gi_dist top)); [|intros E; injection E as <-; exact HI'].
      destruct (push_heap H gi_lt _) as [b2| | |]; simpl; try discriminate.
      destruct (trim H _ b2 _) as [[b3 k3]| | |]; simpl; try discriminate. intros E; injection E as <-; exact HI'.
    + destruct (distanceFromCentroid d len w ratio g query ninf) as [[v g']| | |] eqn:Ed; simpl; try discriminate.
      destruct (G _ _ _ Ed) as [-> HI']. simpl. destruct (k1 - g_count g <=? 0); [|intros E; injection E as <-; exact HI'].
      destruct (make_heap H gi_lt _) as [b2| | |]; simpl; try discriminate.
      destruct (trim H _ b2 _) as [[b3 k3]| | |]; simpl; try discriminate. intros E; injection E as <-; exact HI'.
Qed.

Lemma each_level_ret {S} (body : llgs N -> S -> res (llgs N * S)) gss :
  (forall l L s L' s' gs, level_q l L gs -> body L s = Ret (L', s') -> level_q l L' gs) ->
  forall order levels s levels' s', levels_q levels gss ->
  each_level order levels body s = Ret (levels', s') -> levels_q levels' gss.
Proof.
  intros Hb. induction order as [|l order IH]; intros levels s levels' s' HL; simpl.
  - intros E. injection E as <- _. exact HL.
  - destruct (aget levels l) as [o| | |] eqn:Eo; simpl; try discriminate. apply aget_nth in Eo as [Hl Eo].
    destruct o as [L|]; [|apply IH; auto].
    destruct (body L s) as [[L' s1]| | |] eqn:Eb; simpl; try discriminate.
    pose proof (nth_error_Some_lt _ _ _ Eo) as Hlt. destruct HL as [H1 H2].
    assert (Hr : 0 <= l <= ds_maxcol d) by lia. pose proof (H2 l Hr) as H3.
    destruct (gss l) as [gs|] eqn:Eg; [|congruence]. destruct H3 as [H3 (L0 & E0 & HL0)].
    assert (L0 = L) by congruence. subst L0.
    rewrite aset_in by lia. simpl. apply IH. apply (levels_set levels gss l gs L'); auto; [split; auto|].
    eapply Hb; eauto.
Qed.

Lemma bestLevel_ret l w (ratio : D) query L s L' s' gs : level_q l L gs ->
  bestLevel_step d w ratio query L s = Ret (L', s') -> level_q l L' gs.
Proof.
  intros HL. unfold bestLevel_step. destruct (getBestGroup _ _ _ _ _ _) as [[L1 [v bg]]| | |] eqn:E; simpl; try discriminate.
  apply (getBestGroup_ret l L gs) in E; auto. destruct (nltb v (fst s)); intros E'; injection E' as <- _; auto.
Qed.

Lemma interStep_ret H l w (ratio : D) query L s L' s' gs : level_q l L gs ->
  interLevel_step H d w ratio query L s = Ret (L', s') -> level_q l L' gs.
Proof.
  intros HL. unfold interLevel_step. destruct (interLevelKSim _ _ _ _ _ _ _ _) as [[[L1 b] k]| | |] eqn:E; simpl; try discriminate.
  apply (interLevel_ret H l L gs) in E; auto. intros E'; injection E' as <- _; auto.
Qed.

Lemma best_ret k g gss (ratio : D) query g' c : set_q k g gss ->
  getBestMatch ratio g query = Ret (g', c) -> set_q k g' gss.
Proof.
  intros (Ed & gs & Eg & Ew & Et & HL). unfold getBestMatch. rewrite Eg, Ed. unfold gg_getBestMatch.
  destruct (_ <=? 1); [discriminate|]. destruct (generateTraverseOrder _ _ _) as [order| | |]; simpl; try discriminate.
  rewrite Ew. destruct (each_level _ _ _ _) as [[levels [bd bg]]| | |] eqn:E; simpl; try discriminate.
  apply (each_level_ret _ gss) in E; auto; [|intros; eapply bestLevel_ret; eauto].
  destruct (deref bg) as [[len i]| | |]; simpl; try discriminate.
  destruct (aget levels len) as [oL| | |]; simpl; try discriminate.
  destruct (deref oL) as [L| | |]; simpl; try discriminate.
  destruct (aget (ll_groups L) i) as [gr| | |]; simpl; try discriminate.
  destruct (groupBestMatch _ _ _ _ _ _ _ _) as [c0| | |]; simpl; try discriminate.
  intros E'. injection E' as <- _. split; [reflexivity|]. eexists. split; [reflexivity|]. auto.
Qed.

Lemma kbest_ret H k g gss (ratio : D) query K h g' cs : set_q k g gss ->
  getKBestMatches H ratio g query K h = Ret (g', cs) -> set_q k g' gss.
Proof.
  intros (Ed & gs & Eg & Ew & Et & HL). unfold getKBestMatches. rewrite Eg, Ed. destruct (h <? K); [discriminate|].
  unfold gg_getKBestMatches.
  destruct (generateTraverseOrder _ _ _) as [order| | |]; simpl; try discriminate.
  rewrite Ew. destruct (each_level _ _ _ _) as [[levels [best k']]| | |] eqn:E; simpl; try discriminate.
  apply (each_level_ret _ gss) in E; auto; [|intros; eapply interStep_ret; eauto].
  match goal with |- (_ <- (_ <- (res1 <- ?m ;; _) ;; _) ;; _) = _ -> _ => destruct m as [r1| | |]; simpl; try discriminate
                | |- context [bind (bind (bind ?m _) _) _] => destruct m as [r1| | |]; simpl; try discriminate
                | |- context [bind (bind ?m _) _] => destruct m as [r1| | |]; simpl; try discriminate end.
  destruct (recompute _ _ _ _) as [r2| | |]; simpl; try discriminate.
  destruct (sort H cand_lt r2) as [r3| | |]; simpl; try discriminate.
  destruct (resize r3 K _) as [r4| | |]; simpl; try discriminate.
  intros E'. injection E' as <- _. split; [reflexivity|]. eexists. split; [reflexivity|]. auto.
Qed.
End Cache.

(** after grouping *)
Definition founder : Rep := {| rp := rep; rp_text := false; rp_in := rep_in |}.

Lemma level_q_of {N : Num} (d : dataset N) rows len L gs : state_ok d rows len L gs -> level_q (RP := founder) d rows len L gs.
Proof.
  intros [A1 A2 A3 A4 A5]. constructor; auto; [rewrite A2; exact A3|].
  clear - A4. induction A4 as [|g ms l l' (B1 & B2 & B3) A4 IH]; constructor; auto.
  unfold cent_q. splits; auto. intros t _. rewrite B3. exact I.
Qed.
