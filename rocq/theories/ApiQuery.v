(** Queries through the interface. *)
From Verif Require Import Base Num NumLaws TimeSeries Distance TSSet StdAlg Candidate Group GroupSpace Loader Archive OldFormat BruteForce PAA
  DataSpec DataProofs LoopFacts QuerySpec Api ApiSpec ApiProofs.
Local Open Scope Z_scope.
Local Open Scope list_scope.

Section Q.
Context {N : Num}.
Implicit Types s : api N.

Lemma held_find s n g : good s -> held s n = Some g -> exists id, find_id s n = Ret id /\ deref_set s id = Ret g /\ find_set s n = Ret g.
Proof.
  intros G Hh. destruct (find_alive s n G) as [(id & g' & _ & _ & _ & Hf & Hd & Hs & Hh')|(_ & _ & _ & Hh')]; [|congruence].
  assert (g' = g) by congruence. subst g'. eauto.
Qed.

(** what a search does to the target *)
Lemma search_spec s t q f s' r g : good s -> held s t = Some g -> search_groups s t (Ret q) f = (s', r) ->
  good s' /\ (forall m, m <> t -> held s' m = held s m) /\ a_ratio s' = a_ratio s /\
  match f g q with
  | Ret (g', a) => r = Ret a /\ held s' t = Some g'
  | Throw x => r = Throw x /\ held s' t = Some g
  | UB u => r = UB u
  | Hang => r = Hang
  end.
Proof.
  intros G Hh E. cbn in E. destruct (on_set_spec s t _ s' r G E) as [(Hn & _)|(g0 & g' & Hg0 & Ef & G' & Hg' & Ho & _ & _ & _ & Hr)]; [congruence|].
  assert (g0 = g) by congruence. subst g0. unfold or_same in Ef.
  split; [exact G'|]. split; [exact Ho|]. split; [exact Hr|].
  destruct (f g q) as [[g1 a]| | |]; injection Ef as <- <-; auto.
Qed.

Lemma query_series_ok s t qn i st en gt gq : good s -> held s t = Some gt -> held s qn = Some gq ->
  query_series s t qn i st en = getTimeSeries (gt_data gq) i st en.
Proof.
  intros G H1 H2. destruct (held_find s t gt G H1) as (id & F1 & _). destruct (held_find s qn gq G H2) as (id2 & _ & _ & F2).
  unfold query_series. rewrite F1, F2. reflexivity.
Qed.

Lemma spares_asked H t e c s s' r g : good s -> held s t = Some g -> e_alg e = H -> spares c t -> exec e c s = (s', r) -> ends r ->
  exists g', held s' t = Some g' /\ asked H g g'.
Proof.
  intros G Hh EH Hs E Hr.
  assert (Keep : held s' t = held s t -> exists g', held s' t = Some g' /\ asked H g g').
  { intros ->. exists g. split; [exact Hh|constructor]. }
  pose proof (proj2 (exec_good e c s s' r G E Hr)) as Hc.
  destruct c; cbn [spares] in Hs; try (apply Keep, Hc; cbn; tauto); try contradiction.
  - (* load *)
    destruct (string_dec name t) as [->|Hne]; [|apply Keep, Hc; cbn; congruence].
    rewrite used_name in E by (auto; congruence). injection E as <- <-. apply Keep. reflexivity.
  - (* best match *)
    cbn [exec] in E. destruct (string_dec target t) as [->|Hne]; [|apply Keep, Hc; cbn; congruence].
    destruct (query_series s t query index start end_) as [q| | |] eqn:Eq; cbn in E; try (injection E as <- <-; apply Keep; reflexivity).
    destruct (search_spec s t q (fun g t0 => '(g', c) <- getBestMatch (a_ratio s) g t0 ;; Ret (g', ACand c)) s' r g G Hh E) as (_ & _ & _ & Hf).
    destruct (getBestMatch (a_ratio s) g q) as [[g' c]| | |] eqn:Em; cbn in Hf.
    + destruct Hf as [_ Hg']. exists g'. split; [exact Hg'|]. eapply asked_best; [constructor|exact Em].
    + destruct Hf as [_ Hg']. apply Keep. congruence.
    + subst r. destruct Hr.
    + subst r. destruct Hr.
  - cbn [exec] in E. destruct (string_dec target t) as [->|Hne]; [|apply Keep, Hc; cbn; congruence].
    destruct (query_series s t query index start end_) as [q| | |] eqn:Eq; cbn in E; try (injection E as <- <-; apply Keep; reflexivity).
    destruct (search_spec s t q (fun g t0 => '(g', cs) <- getKBestMatches (e_alg e) (a_ratio s) g t0 k ke ;; Ret (g', ACands cs)) s' r g G Hh E) as (_ & _ & _ & Hf).
    rewrite EH in Hf. destruct (getKBestMatches H (a_ratio s) g q k ke) as [[g' c]| | |] eqn:Em; cbn in Hf.
    + destruct Hf as [_ Hg']. exists g'. split; [exact Hg'|]. eapply asked_k; [constructor|exact Em].
    + destruct Hf as [_ Hg']. apply Keep. congruence.
    + subst r. destruct Hr.
    + subst r. destruct Hr.
Qed.

Lemma asked_trans H (a b c : gset N) : asked H a b -> asked H b c -> asked H a c.
Proof.
  intros Ha. induction 1 as [|g1 g2 ratio query x _ IH E|g1 g2 ratio query k h cs _ IH E]; [exact Ha| |].
  - eapply asked_best; eauto.
  - eapply asked_k; eauto.
Qed.

Lemma later_asked H t s s' g : good s -> held s t = Some g -> later H t s s' ->
  good s' /\ exists g', held s' t = Some g' /\ asked H g g'.
Proof.
  intros G Hh. induction 1 as [|s1 e c s2 r _ IH EH Hs E Hr]; [split; [exact G|exists g; split; [exact Hh|constructor]]|].
  destruct IH as (G1 & g1 & Hh1 & Ha). split; [exact (proj1 (exec_good e c s1 s2 r G1 E Hr))|].
  destruct (spares_asked H t e c s1 s2 r g1 G1 Hh1 EH Hs E Hr) as (g2 & Hh2 & Ha2).
  exists g2. split; [exact Hh2|]. eapply asked_trans; eauto.
Qed.

Lemma group_spec e s t thr dist threads whole s' r g : good s -> held s t = Some g ->
  exec e (CGroup t thr dist threads whole) s = (s', r) ->
  good s' /\ a_ratio s' = a_ratio s /\ exists g', groupAllLengths (e_clock e) (a_ratio s) g dist thr threads whole = (g', match r with
     | Ret (AInt n) => Ret n | Ret _ => Ret 0 | Throw x => Throw x | UB u => UB u | Hang => Hang end) /\ held s' t = Some g' /\
     (forall x, r = Ret x -> exists n, x = AInt n) /\ (forall m, m <> t -> held s' m = held s m).
Proof.
  intros G Hh E. cbn [exec] in E.
  destruct (on_set_spec s t _ s' r G E) as [(Hn & _)|(g0 & g' & Hg0 & Ef & G' & Hg' & Ho & _ & _ & _ & Hr)]; [congruence|].
  assert (g0 = g) by congruence. subst g0. split; [exact G'|]. split; [exact Hr|]. exists g'.
  destruct (groupAllLengths _ _ _ _ _ _ _) as [g1 r1] eqn:Eg. injection Ef as <- <-.
  destruct r1; cbn; repeat split; auto; try discriminate. intros x [= <-]. eauto.
Qed.
End Q.

(** ** the values stay *)
Lemma gg_group_data {N : Num} clock ratio (g : gset N) name thr threads whole g' r :
  groupAllLengths clock ratio g name thr threads whole = (g', r) -> gt_data g' = gt_data g.
Proof.
  unfold groupAllLengths. destruct (negb _); [intros [= <- _]; reflexivity|].
  destruct (1 <=? threads); [|intros [= <- _]; reflexivity].
  destruct (gg_group _ _ _ _ _ _ _) as [gs r']. intros [= <- _]. reflexivity.
Qed.

Lemma load_data_same {N : Num} file (g g' : gset N) r : loadFromFile file g = (g', r) -> gt_data g' = gt_data g.
Proof.
  unfold loadFromFile, load. destruct file as [ts|]; [|intros [= <- _]; reflexivity]. unfold and_then.
  destruct ('(cnt, ts) <- get_int ts ;; '(len, ts) <- get_int ts ;; Ret (cnt, len, ts)) as [[[cnt len] ts']| | |];
    try (intros [= <- _]; reflexivity).
  destruct (negb _); [intros [= <- _]; reflexivity|]. destruct (negb _); [intros [= <- _]; reflexivity|].
  destruct (load_space _ _ _) as [gs r']. intros [= <- _]. reflexivity.
Qed.

Lemma load_text_data_same {N : Num} scan file (g g' : gset N) r : loadGroupsOld scan file g = (g', r) -> gt_data g' = gt_data g.
Proof.
  unfold loadGroupsOld. destruct file as [text|]; [|intros [= <- _]; reflexivity].
  destruct (read_int _ _) as [v s1]. destruct (read_dbl _ _ _) as [x s2]. destruct (read_int _ s2) as [c s3]. destruct (read_int _ s3) as [m s4].
  unfold and_then. destruct (init_get v) as [v'| | |]; try (intros [= <- _]; reflexivity).
  destruct (negb _); [intros [= <- _]; reflexivity|]. destruct (init_get c) as [c'| | |]; try (intros [= <- _]; reflexivity).
  destruct (negb _); [intros [= <- _]; reflexivity|]. destruct (load_space_old _ _ _) as [gs r']. intros [= <- _]. reflexivity.
Qed.

Lemma best_data {N : Num} ratio (g : gset N) q g' c : getBestMatch ratio g q = Ret (g', c) -> gt_data g' = gt_data g.
Proof.
  unfold getBestMatch. destruct (gt_groups g); [|discriminate]. destruct (gg_getBestMatch _ _ _ _) as [[gs c']| | |]; cbn; try discriminate.
  intros [= <- _]. reflexivity.
Qed.

Lemma kbest_data {N : Num} H ratio (g : gset N) q k h g' c : getKBestMatches H ratio g q k h = Ret (g', c) -> gt_data g' = gt_data g.
Proof.
  unfold getKBestMatches. destruct (gt_groups g); [|discriminate]. destruct (h <? k); [discriminate|].
  destruct (gg_getKBestMatches _ _ _ _ _ _) as [[gs c']| | |]; cbn; try discriminate.
  destruct (sort _ _ _) as [c1| | |]; cbn; try discriminate. destruct (resize _ _ _) as [c2| | |]; cbn; try discriminate.
  intros [= <- _]. reflexivity.
Qed.
