(** New groups have no cached envelopes; which calls keep the caches of a data set valid. *)
From Coq Require Import String SpecFloat.
From Verif Require Import Base Num NumB64 NumLaws LoopFacts TimeSeries Lemire Distance TSSet StdAlg Candidate Group GroupSpace PAA PAAProofs Archive OldFormat Loader
  BruteForce DistSpec DistLink QueryState Api ApiSpec ApiProofs ApiQuery ApiPaa ApartSpec Quiet QuietApi QuietSpec.
Local Open Scope Z_scope.
Local Open Scope list_scope.

(** ** new groups have no cached envelopes *)
Section Fresh.
Context {N : Num}.

Definition post {A} (P : A -> Prop) (r : res A) : Prop := match r with Ret a => P a | _ => True end.
Lemma post_bind {A B} (P : A -> Prop) (Q : B -> Prop) r f : post P r -> (forall a, P a -> post Q (f a)) -> post Q (bind r f).
Proof. destruct r; cbn; auto. Qed.
Lemma post_any {A} (r : res A) : post (fun _ => True) r.
Proof. destruct r; exact I. Qed.
Lemma post_for {S} (P : S -> Prop) lo hi f : forall s, P s -> (forall i a, P a -> post P (f i a)) -> post P (for_ lo hi f s).
Proof.
  unfold for_. generalize (Z.to_nat (hi - lo)). intros n. revert lo. induction n as [|n IH]; intros lo s H Hf; cbn; [exact H|].
  eapply post_bind; [apply Hf, H|]. intros a Ha. apply IH; auto.
Qed.

Definition bare (g : group N) : Prop := g_cache g = None.
Definition bareL (L : llgs N) : Prop := Forall bare (ll_groups L).
Definition bareO (o : option (llgs N)) : Prop := match o with Some L => bareL L | None => True end.
Definition bareS (gs : ggs N) : Prop := Forall bareO (gg_levels gs).

Lemma Forall_upd {A} (P : A -> Prop) l n x : Forall P l -> P x -> Forall P (upd l n x).
Proof. intros H. revert n. induction H; intros [|n] Hx; cbn; constructor; auto. Qed.
Lemma post_aset {A} (P : A -> Prop) l i x : Forall P l -> P x -> post (Forall P) (aset l i x).
Proof. intros H Hx. unfold aset. destruct (_ && _); cbn; auto. apply Forall_upd; auto. Qed.
Lemma post_aget {A} (P : A -> Prop) l i : Forall P l -> post P (aget l i).
Proof.
  intros H. unfold aget. destruct (0 <=? i); cbn; auto. destruct (nth_error l _) as [x|] eqn:E; cbn; auto.
  rewrite Forall_forall in H. apply H. eapply nth_error_In, E.
Qed.

Lemma bare_coh d len g : bare g -> ag d len g g.
Proof. intros E. unfold ag, cohg. rewrite E. splits; auto; intros t _; exact I. Qed.
Lemma bareS_coh d gs : bareS gs -> coh (mkGS (N := N) d (Some gs)).
Proof.
  intros H. split; [reflexivity|]. cbn. split; [reflexivity|]. unfold bareS in H. induction H as [|o l Ho H IH]; constructor; auto.
  destruct o as [L|]; [|exact I]. cbn in Ho. unfold aO, aL. splits; auto. unfold bareL in Ho. induction Ho; constructor; auto using bare_coh.
Qed.

Lemma addMember_bare sub g mm i s : bare g -> post (fun p => bare (fst p)) (addMember sub g mm i s).
Proof.
  intros H. unfold addMember. eapply post_bind; [apply post_any|]. intros p _. eapply post_bind; [apply post_any|].
  intros a _. exact H.
Qed.
Lemma setCentroid_bare d len g i s : bare g -> post bare (setCentroid d len g i s).
Proof. intros H. unfold setCentroid. eapply post_bind; [apply post_any|]. intros a _. exact H. Qed.

Lemma place_bare d pw ratio thr idx start L : bareL L -> post bareL (place d pw ratio thr idx start L).
Proof.
  intros H. unfold place. eapply post_bind; [apply post_any|]. intros q _. eapply post_bind; [apply post_any|]. intros [best bi] _.
  eapply post_bind with (P := fun p => Forall bare (fst p)).
  - destruct (_ || _).
    + eapply post_bind; [apply setCentroid_bare; reflexivity|]. intros g Hg. cbn. apply Forall_app. split; [exact H|]. constructor; auto.
    + eapply post_bind; [apply post_any|]. intros b _. exact H.
  - intros [groups bi'] Hg. cbn [fst] in Hg. eapply post_bind; [apply post_aget, Hg|]. intros g Hb.
    eapply post_bind; [apply addMember_bare, Hb|]. intros [g' mm'] Hg'. cbn [fst] in Hg'.
    eapply post_bind; [apply post_aset; [exact Hg|exact Hg']|]. intros l Hl. exact Hl.
Qed.

Lemma generate_bare dl d pw ratio thr L : bareL L -> post bareL (generateGroups dl d pw ratio thr L).
Proof.
  intros H. unfold generateGroups. eapply post_bind; [apply post_any|]. intros total _. eapply post_bind with (P := fun p => bareL (snd p)).
  - apply post_for; [exact H|]. intros i st Hst. apply post_for; [exact Hst|]. intros j [cnt L0] HL. cbn [fst snd] in *.
    eapply post_bind; [apply post_any|]. intros _ _. eapply post_bind; [apply post_any|]. intros len _.
    destruct (len <? _); [exact HL|]. eapply post_bind; [apply place_bare, HL|]. intros L' HL'. exact HL'.
  - intros [c L'] HL. exact HL.
Qed.

Lemma new_bare d len : post bareL (ll_new (N := N) d len).
Proof. unfold ll_new. destruct (imul _ _); cbn [bind]; try exact I. destruct (_ <? 0); cbn; auto. constructor. Qed.

Lemma group_loop_bare clock d pw ratio thr : forall n i gs, bareS gs -> bareS (fst (group_loop clock d pw ratio thr n i gs)).
Proof.
  induction n as [|n IH]; intros i gs H; cbn [group_loop]; [exact H|].
  assert (P : post bareL (group_level clock d pw ratio thr i)).
  { unfold group_level. eapply post_bind; [apply new_bare|]. intros L HL. apply generate_bare, HL. }
  destruct (group_level clock d pw ratio thr i) as [L| | |]; try exact H; cbn in P.
  - pose proof (post_aset bareO (gg_levels gs) i (Some L) H P) as Q. destruct (aset _ _ _) as [l| | |]; try exact H. apply IH. exact Q.
  - pose proof (new_bare d i) as Q. destruct (ll_new d i) as [L0| | |]; try exact H.
    pose proof (post_aset bareO (gg_levels gs) i (Some L0) H Q) as Q'. destruct (aset _ _ _) as [l| | |]; try exact H. exact Q'.
Qed.

Lemma repeat_bare n : Forall bareO (repeat None n).
Proof. induction n; cbn; constructor; auto. exact I. Qed.

Lemma loadDistance_levels (gs : ggs N) name : gg_levels (fst (gg_loadDistance gs name)) = gg_levels gs.
Proof. unfold gg_loadDistance. destruct (getDistanceFromName name); auto. destruct (warpedFor name); auto. Qed.

Lemma gg_group_bare clock d ratio gs name thr whole : bareS (fst (gg_group (N := N) clock d ratio gs name thr whole)).
Proof.
  unfold gg_group. pose proof (loadDistance_levels (with_levels gs []) name) as El.
  destruct (gg_loadDistance (with_levels gs []) name) as [gs1 r]. cbn [fst] in El.
  assert (B : bareS gs1) by (unfold bareS; rewrite El; constructor).
  destruct r as [u| | |]; try exact B. destruct (_ <? 0); [exact B|]. cbn [gg_pw]. destruct (gg_pw gs1) as [pw|].
  - apply group_loop_bare. apply repeat_bare.
  - apply repeat_bare.
Qed.

Definition ok {A} (r : res A) : Prop := exists a, r = Ret a.
Lemma not_ok {A} (g : gset N) (r : res A) : ~ ok r -> coh g \/ ok r -> coh g.
Proof. tauto. Qed.
Lemma throw_ok {A} x : ~ ok (Throw x : res A).
Proof. intros [a E]. discriminate E. Qed.
Lemma ub_ok {A} x : ~ ok (UB x : res A).
Proof. intros [a E]. discriminate E. Qed.
Lemma hang_ok {A} : ~ ok (Hang : res A).
Proof. intros [a E]. discriminate E. Qed.
Local Hint Resolve throw_ok ub_ok hang_ok : core.

Lemma group_coh clock ratio g name thr threads whole : let p := groupAllLengths (N := N) clock ratio g name thr threads whole in
  coh g \/ ok (snd p) -> coh (fst p).
Proof.
  cbv zeta. unfold groupAllLengths. destruct (negb _); [cbn; apply not_ok; auto|]. intros _. destruct (1 <=? threads).
  - pose proof (gg_group_bare clock (gt_data g) ratio gg_new name thr whole) as B. destruct (gg_group _ _ _ _ _ _ _) as [gs r]. apply bareS_coh, B.
  - apply bareS_coh. constructor.
Qed.

(** groups that were read *)
Lemma load_level_bare d L ts : bareL L -> post (fun p => bareL (fst p)) (load_level (N := N) d L ts).
Proof.
  intros H. unfold load_level. eapply post_bind; [apply post_any|]. intros [n ts'] _. apply post_for; [exact H|].
  intros i [L0 ts0] HL. cbn [fst] in HL. unfold load_level_step. eapply post_bind with (P := fun p => bare (fst (fst p))).
  - unfold load_group. eapply post_bind; [apply post_any|]. intros [ci t1] _. eapply post_bind; [apply post_any|]. intros [cs t2] _.
    eapply post_bind; [apply setCentroid_bare; reflexivity|]. intros g Hg. eapply post_bind; [apply post_any|]. intros [cnt t3] _.
    apply post_for; [exact Hg|]. intros j [[g0 mm] t4] Hg0. cbn [fst] in Hg0. unfold load_member.
    eapply post_bind; [apply post_any|]. intros [ix t5] _. eapply post_bind; [apply post_any|]. intros [st t6] _.
    eapply post_bind; [apply addMember_bare, Hg0|]. intros [g' mm'] Hg'. exact Hg'.
  - intros [[g mm] t7] Hg. cbn [fst] in Hg. cbn. unfold bareL. cbn. apply Forall_app. split; [exact HL|]. constructor; auto.
Qed.

Lemma load_levels_bare d : forall n i gs ts, bareS gs -> bareS (fst (load_levels (N := N) d n i gs ts)).
Proof.
  induction n as [|n IH]; intros i gs ts H; cbn [load_levels]; [exact H|].
  assert (P : post (fun r => Forall bareO (snd (fst r))) (L <- ll_new d i ;; '(L', ts') <- load_level d L ts ;;
     levels <- aset (gg_levels gs) i (Some L') ;; Ret (L', levels, ts'))).
  { eapply post_bind; [apply new_bare|]. intros L HL. eapply post_bind; [apply load_level_bare, HL|]. intros [L' ts'] HL'. cbn [fst] in HL'.
    eapply post_bind; [apply post_aset; [exact H|exact HL']|]. intros l Hl. exact Hl. }
  destruct (L <- ll_new d i ;; _) as [[[L' levels] ts']| | |]; cbn [and_then]; try exact H. cbn in P. apply IH. exact P.
Qed.

Lemma load_space_bare d gs ts : gg_levels gs = [] -> bareS (fst (load_space (N := N) d gs ts)).
Proof.
  intros E. unfold load_space. match goal with |- context [and_then (_, bind ?x ?f)] => destruct (bind x f) as [[[[minLen maxLen] name] ts1]| | |] end; cbn [and_then]; try (unfold bareS; cbn; rewrite E; constructor).
  destruct (get_dbl ts1) as [[th ts2]| | |]; cbn [and_then]; try (unfold bareS; cbn; rewrite E; constructor).
  pose proof (loadDistance_levels (mkGG name (gg_levels gs) (gg_pw gs) (gg_warp gs) (Some th) (gg_total gs) (gg_whole gs)) name) as El.
  destruct (gg_loadDistance _ name) as [gs1 r]. cbn [fst gg_levels] in El. rewrite E in El.
  destruct r; cbn [and_then]; try (unfold bareS; cbn [fst]; rewrite El; constructor). destruct (_ <? 0); [unfold bareS; cbn; rewrite El; constructor|].
  apply load_levels_bare. unfold bareS. cbn. rewrite El. rewrite firstn_nil. apply repeat_bare.
Qed.

Lemma load_coh file g : let p := loadFromFile (N := N) file g in coh g \/ ok (snd p) -> coh (fst p).
Proof.
  cbv zeta. unfold loadFromFile. destruct file as [ts|]; [|cbn; apply not_ok; auto]. unfold load.
  match goal with |- context [and_then (_, bind ?x ?f)] => destruct (bind x f) as [[[cnt len] ts1]| | |] end; cbn [and_then]; try (cbn; apply not_ok; solve [auto]).
  destruct (negb _); [cbn; apply not_ok; auto|]. destruct (negb _); [cbn; apply not_ok; auto|].
  pose proof (load_space_bare (gt_data g) gg_new ts1 eq_refl) as B. destruct (load_space _ _ _) as [gs r]. intros _. apply bareS_coh, B.
Qed.

Lemma load_level_old_bare scan L s : bareL L -> post (fun p => bareL (fst (fst p))) (load_level_old (N := N) scan L s).
Proof.
  intros H. unfold load_level_old. destruct (read_int None s) as [cnt s1]. eapply post_bind; [apply post_any|]. intros n _.
  eapply post_bind with (P := fun p => bareL (fst p)); [|intros [L' s'] HL; exact HL]. apply post_for; [exact H|].
  intros i [L0 s0] HL. cbn [fst] in HL. unfold load_level_old_step. eapply post_bind with (P := fun p => bare (fst (fst p))).
  - unfold load_group_old. destruct (read_values _ _ s0) as [vals s2]. destruct (read_int None s2) as [c s3]. eapply post_bind; [apply post_any|]. intros m _.
    eapply post_bind with (P := fun p => bare (fst (fst (fst (fst p))))); [|intros [[[[g mm] a] b] s4] Hg; exact Hg].
    apply post_for; [reflexivity|]. intros j [[[[g mm] a] b] s4] Hg. cbn [fst] in Hg. unfold load_member_old.
    destruct (read_int a s4) as [a' s5]. destruct (read_int b s5) as [b' s6]. eapply post_bind; [apply post_any|]. intros x _. eapply post_bind; [apply post_any|]. intros y _.
    eapply post_bind; [apply addMember_bare, Hg|]. intros [g' mm'] Hg'. exact Hg'.
  - intros [[g mm] t7] Hg. cbn [fst] in Hg. cbn. unfold bareL. cbn. apply Forall_app. split; [exact HL|]. constructor; auto.
Qed.

Lemma load_levels_old_bare scan d : forall n i gs s, bareS gs -> bareS (fst (load_levels_old (N := N) scan d n i gs s)).
Proof.
  induction n as [|n IH]; intros i gs s H; cbn [load_levels_old]; [exact H|].
  assert (P : post (fun r => bareL (fst (fst r))) (L <- ll_new d i ;; load_level_old scan L s)).
  { eapply post_bind; [apply new_bare|]. intros L HL. apply load_level_old_bare, HL. }
  destruct (L <- ll_new d i ;; load_level_old scan L s) as [[[L m] s']| | |]; cbn [and_then]; try exact H. cbn in P. cbn [gg_levels].
  pose proof (post_aset bareO (gg_levels gs) i (Some L) H P) as Q. destruct (aset (gg_levels gs) i (Some L)) as [l| | |]; cbn [and_then]; try exact H.
  apply IH. exact Q.
Qed.

Lemma load_old_coh scan file (g : gset N) : let p := loadGroupsOld scan file g in coh g \/ ok (snd p) -> coh (fst p).
Proof.
  cbv zeta. unfold loadGroupsOld. destruct file as [ts|]; [|cbn; apply not_ok; auto].
  destruct (read_int None _) as [version s1]. destruct (read_dbl _ _ s1) as [x s2]. destruct (read_int None s2) as [cnt s3]. destruct (read_int None s3) as [y s4].
  destruct (init_get version) as [v| | |]; cbn [and_then]; try (cbn; apply not_ok; solve [auto]). destruct (negb _); [cbn; apply not_ok; auto|].
  destruct (init_get cnt) as [c| | |]; cbn [and_then]; try (cbn; apply not_ok; solve [auto]). destruct (negb _); [cbn; apply not_ok; auto|].
  assert (B : bareS (fst (load_space_old scan (gt_data g) s4))).
  { unfold load_space_old. destruct (read_int None s4) as [a s5]. destruct (read_int None s5) as [b s6]. destruct (read_str _ s6) as [name s7].
    pose proof (loadDistance_levels gg_new name) as El. destruct (gg_loadDistance gg_new name) as [gs1 r]. cbn [fst gg_levels gg_new] in El.
    destruct r; cbn [and_then]; try (unfold bareS; cbn [fst]; rewrite El; constructor). destruct (_ <? 0); [unfold bareS; cbn; rewrite El; constructor|].
    cbv zeta. match goal with |- context [bind ?x ?f] => destruct (bind x f) as [[lo hi]| | |] end; cbn [and_then]; try apply repeat_bare. apply load_levels_old_bare, repeat_bare. }
  destruct (load_space_old _ _ _) as [gs r]. intros _. apply bareS_coh, B.
Qed.
End Fresh.

(** ** along histories *)
Section Steps.
Context {N : Num}.
Implicit Types s : api N.

Definition fine s (t : string) : Prop := forall g, held s t = Some g -> coh g.

Lemma best_coh ratio (g : gset N) q g' c : coh g -> getBestMatch ratio g q = Ret (g', c) -> alike g g'.
Proof. intros H E. pose proof (best_sim ratio g g q H) as X. rewrite E in X. cbn in X. apply X. Qed.
Lemma kbest_coh alg ratio (g : gset N) q k ke g' c : coh g -> getKBestMatches alg ratio g q k ke = Ret (g', c) -> alike g g'.
Proof. intros H E. pose proof (kbest_sim alg ratio g g q k ke H) as X. rewrite E in X. cbn in X. apply X. Qed.

Definition keeps (f : gset N -> gset N * res (answer N)) : Prop := forall g, coh g -> alike g (fst (f g)).

Lemma or_same_keeps (f : gset N -> res (gset N * answer N)) : (forall g g' a, coh g -> f g = Ret (g', a) -> alike g g') -> keeps (fun g => or_same g (f g)).
Proof. intros H g Hg. specialize (H g). destruct (f g) as [[g' a]| | |]; cbn; try exact Hg. eauto. Qed.

Lemma query_keeps e c t s : searches c t -> (forall s' r, exec e c s = (s', r) -> s' = s) \/
  exists f, keeps f /\ exec e c s = on_set s t f.
Proof.
  intros Hs. destruct c; try contradiction; cbn in Hs; subst t; cbn [exec]; unfold search_groups.
  all: match goal with |- context [match ?x with Ret _ => _ | _ => _ end] => destruct x as [q| | |] end;
       try (left; intros ? ? [= <- _]; reflexivity).
  - right. eexists. split; [|reflexivity]. apply or_same_keeps. intros g g' a Hg E.
    destruct (getBestMatch (a_ratio s) g q) as [[g1 c]| | |] eqn:Eb; try discriminate E. cbn in E. injection E as <- _. eapply best_coh; eauto.
  - right. eexists. split; [|reflexivity]. apply or_same_keeps. intros g g' a Hg E.
    destruct (getKBestMatches (e_alg e) (a_ratio s) g q k ke) as [[g1 c]| | |] eqn:Eb; try discriminate E. cbn in E. injection E as <- _. eapply kbest_coh; eauto.
Qed.

Lemma fine_same s s' t : held s' t = held s t -> fine s t -> fine s' t.
Proof. unfold fine. intros ->. auto. Qed.
Lemma fine_none s t : held s t = None -> fine s t.
Proof. unfold fine. intros -> g E. discriminate E. Qed.

Lemma on_set_fine s t f s' r : good s -> on_set s t f = (s', r) ->
  (forall g, coh g \/ ok (snd (f g)) -> coh (fst (f g))) -> fine s t \/ ok r -> fine s' t.
Proof.
  intros G E Hf H. destruct (on_set_spec _ _ _ _ _ G E) as [(E1 & -> & ->)|(g & g' & E1 & E2 & _ & E3 & _)].
  - apply fine_none, E1.
  - intros g0 E0. rewrite E3 in E0. injection E0 as <-. specialize (Hf g). rewrite E2 in Hf. cbn [fst snd] in Hf. apply Hf.
    destruct H as [H|H]; [left; apply H, E1|right; exact H].
Qed.

Lemma ok_bind {A B} (r : res A) (f : A -> res B) : ok (bind r f) -> ok r.
Proof. intros [a E]. destruct r; try discriminate E. eexists. reflexivity. Qed.

Lemma fine_step e c s s' r t : good s -> exec e c s = (s', r) -> ends r -> c <> CNormalize t ->
  fine s t \/ (makes c t /\ ok r) -> fine s' t.
Proof.
  intros G E En Hc H.
  assert (Out : ~ concerns c t -> ~ makes c t -> fine s' t).
  { intros X Y. destruct (exec_good _ _ _ _ _ G E En) as [_ Z]. apply (fine_same s); [apply Z, X|]. tauto. }
  assert (Qry : searches c t -> fine s' t).
  { intros X. assert (Y : ~ makes c t) by (destruct c; cbn in X |- *; tauto). destruct H as [H|[H _]]; [|contradiction].
    destruct (query_keeps e c t s X) as [Z|(f & K & Z)]; [rewrite (Z _ _ E); exact H|]. rewrite Z in E.
    destruct (on_set_spec _ _ _ _ _ G E) as [(E1 & -> & _)|(g & g' & E1 & E2 & _ & E3 & _)]; [exact H|].
    intros g0 E0. rewrite E3 in E0. injection E0 as <-. specialize (K g (H _ E1)). rewrite E2 in K. apply (alike_coh _ _ K). }
  destruct c; try (apply Out; cbn; tauto).
  - destruct (string_dec name t) as [->|X]; [|apply Out; cbn; tauto].
    destruct (load_spec _ _ _ _ _ _ _ _ _ _ G E En) as [(X & -> & ->)|(X & _ & d & o & _ & [(x & _ & _ & Z & _)|(i & _ & _ & _ & Z & _)])].
    + destruct H as [H|[_ H]]; [exact H|exfalso; revert H; apply throw_ok].
    + apply fine_none. rewrite Z. exact X.
    + intros g Eg. rewrite Z in Eg. injection Eg as <-. split; [reflexivity|exact I].
  - destruct (string_dec name t) as [->|X]; [|apply Out; cbn; tauto].
    destruct (unload_spec _ _ _ _ _ G E) as [(X & -> & _)|(_ & _ & _ & X & _)]; apply fine_none, X.
  - destruct (unload_all_spec _ _ _ _ G E) as (_ & _ & X & _). apply fine_none, X.
  - destruct (string_dec name t) as [->|X]; [congruence|apply Out; cbn; tauto].
  - destruct (string_dec name t) as [->|X]; [|apply Out; cbn; tauto]. cbn [exec] in E. refine (on_set_fine _ _ _ _ _ G E _ _); [|tauto].
    intros g Hg. pose proof (group_coh (e_clock e) (a_ratio s) g distance threshold numThreads whole) as P. cbv zeta in P.
    destruct (groupAllLengths _ _ _ _ _ _ _) as [g' r']. cbn [fst snd] in *. apply P. destruct Hg as [Hg|Hg]; [left; exact Hg|right; eapply ok_bind, Hg].
  - destruct (string_dec name t) as [->|X]; [|apply Out; cbn; tauto]. cbn [exec] in E. refine (on_set_fine _ _ _ _ _ G E _ _); [|tauto].
    intros g Hg. pose proof (load_coh (e_groups e path) g) as P. cbv zeta in P.
    destruct (loadFromFile _ _) as [g' r']. cbn [fst snd] in *. apply P. destruct Hg as [Hg|Hg]; [left; exact Hg|right; eapply ok_bind, Hg].
  - destruct (string_dec name t) as [->|X]; [|apply Out; cbn; tauto]. cbn [exec] in E. refine (on_set_fine _ _ _ _ _ G E _ _); [|tauto].
    intros g Hg. pose proof (load_old_coh (e_scan e) (option_map tf_text (e_files e path)) g) as P. cbv zeta in P.
    destruct (loadGroupsOld _ _ _) as [g' r']. cbn [fst snd] in *. apply P. destruct Hg as [Hg|Hg]; [left; exact Hg|right; eapply ok_bind, Hg].
  - destruct (string_dec target t) as [->|X]; [apply Qry; reflexivity|apply Out; cbn; tauto].
  - destruct (string_dec target t) as [->|X]; [apply Qry; reflexivity|apply Out; cbn; tauto].
Qed.

Lemma settled_fine r0 h s t : run r0 h s -> settled h t -> fine s t.
Proof.
  induction 1 as [|h s e c s' r Hrun IH E En]; intros (h1 & c1 & a & h2 & Eh & Hm & Hn).
  - destruct h1; discriminate Eh.
  - destruct h2 as [|x h2] using rev_ind.
    + apply app_inj_tail in Eh as [_ [= -> ->]]. refine (fine_step _ _ _ _ _ _ (run_good _ _ _ Hrun) E En _ _).
      * intros ->. exact Hm.
      * right. split; [exact Hm|]. exists a. reflexivity.
    + clear IHh2. rewrite app_comm_cons, app_assoc in Eh. apply app_inj_tail in Eh as [Eh <-].
      refine (fine_step _ _ _ _ _ _ (run_good _ _ _ Hrun) E En _ _).
      * intros ->. apply (Hn r). apply in_or_app. right. left. reflexivity.
      * left. apply IH. exists h1, c1, a, h2. splits; auto. intros r1 Hr. apply (Hn r1). apply in_or_app. left. exact Hr.
Qed.

Lemma play_sim k t : forall cs s1 s2, good s1 -> rel k t s1 s2 -> (forall e, ~ In (e, CNormalize t) cs) -> play cs s1 = play cs s2.
Proof.
  induction cs as [|[e c] cs IH]; intros s1 s2 G R H; cbn [play]; [reflexivity|].
  destruct (exec e c s1) as [s1' r1] eqn:E1. destruct (exec e c s2) as [s2' r2] eqn:E2.
  assert (Hc : c <> CNormalize t) by (intros ->; apply (H e); left; reflexivity).
  destruct (step_sim _ _ _ _ _ _ _ _ _ _ G R Hc E1 E2) as [<- R']. f_equal.
  assert (Ht : forall e0, ~ In (e0, CNormalize t) cs) by (intros e0 X; apply (H e0); right; exact X).
  destruct r1; auto; apply IH; auto; refine (proj1 (exec_good _ _ _ _ _ G E1 _)); exact I.
Qed.

Lemma asks_same e c s s' r : asks c -> (forall t, ~ searches c t) -> exec e c s = (s', r) -> s' = s.
Proof.
  intros H Hs. destruct c; try contradiction; cbn [exec]; unfold pure; try (intros [= <- _]; reflexivity).
  - exfalso. apply (Hs target). reflexivity.
  - exfalso. apply (Hs target). reflexivity.
Qed.

Lemma query_rel e c s s' r t : good s -> fine s t -> searches c t -> exec e c s = (s', r) -> s' = s \/ exists k, rel k t s s'.
Proof.
  intros G H Hs E. destruct (query_keeps e c t s Hs) as [X|(f & K & X)]; [left; apply (X _ _ E)|]. rewrite X in E. unfold on_set in E.
  destruct (find_alive s t G) as [(id & g & F1 & F2 & F3 & F4 & F5 & _ & F7)|(_ & F2 & _)].
  - right. exists id. rewrite F4, F5 in E. destruct (f g) as [g' a] eqn:Ef. injection E as <- _. specialize (K g (H _ F7)). rewrite Ef in K. cbn [fst] in K.
    assert (Hid : (id < length (a_objs s))%nat) by (apply nth_error_Some; rewrite F3; discriminate).
    constructor; cbn; auto.
    + rewrite upd_length. reflexivity.
    + intros i Hi. rewrite nth_error_upd_neq; auto.
    + rewrite F3, nth_error_upd_same by exact Hid. right. exists g, g'. auto.
    + intros n En. eapply (g_apart _ G); [apply assoc_some_in, En|exact F2].
  - left. rewrite F2 in E. injection E as <- _. reflexivity.
Qed.
End Steps.
