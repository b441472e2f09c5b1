(** Property C87: what a search, a distance or a matching is depends only on the values asked
    for, not on the data set, number and positions they are named by.
    Specification: NamedSpec.v ([stretch]). *)
From Coq Require Import String Lia ZArith.
From Flocq Require Import Core BinarySingleNaN.
From Verif Require Import Base Num NumB64 LoopFacts TimeSeries Distance TSSet StdAlg Candidate Group GroupSpace Loader Archive OldFormat BruteForce PAA
  DtwExt PAAProofs DataSpec DataProofs Api ApiSpec ApiProofs ApiQuery ApiPaa NamedSpec PropsNamed QueryValue PropsApi.
Local Open Scope string_scope.
Local Open Scope Z_scope.
Local Open Scope list_scope.

(** ** every group space uses one of the library's distances *)
Section Usual.
Context {N : Num}.

Definition usual_warp (gs : ggs N) : Prop := forall w, gg_warp gs = Some w -> usual w.

Lemma new_usual : usual_warp gg_new.
Proof. intros w. discriminate. Qed.

Lemma distance_usual (gs : ggs N) name gs' r : usual_warp gs -> gg_loadDistance gs name = (gs', r) -> usual_warp gs'.
Proof.
  intros H. unfold gg_loadDistance. cbv zeta.
  destruct (getDistanceFromName name) as [pw| | |]; try (intros [= <- _]; exact H).
  destruct (warpedFor name) as [w| | |] eqn:Ew; intros [= <- _]; try exact H.
  intros w' [= <-]. unfold warpedFor in Ew. destruct (String.eqb name "euclidean"); [injection Ew as <-; exact I|].
  apply bind_Ret in Ew as (f & Ef & Ew). injection Ew as <-. exists (name ++ "_dtw")%string. exact Ef.
Qed.

Lemma loop_usual clock (d : dataset N) pw ratio thr : forall n i gs gs' r, usual_warp gs ->
  group_loop clock d pw ratio thr n i gs = (gs', r) -> usual_warp gs'.
Proof.
  induction n as [|n IH]; intros i gs gs' r H; cbn [group_loop]; [intros [= <- _]; exact H|].
  destruct (group_level _ _ _ _ _ _) as [L| | |].
  - destruct (aset _ _ _) as [levels| | |]; try (intros [= <- _]; exact H). apply IH. exact H.
  - destruct (ll_new _ _) as [L0| | |]; try (intros [= <- _]; exact H).
    destruct (aset _ _ _); intros [= <- _]; exact H.
  - intros [= <- _]; exact H.
  - intros [= <- _]; exact H.
Qed.

Lemma group_usual clock ratio (g : gset N) name thr threads whole g' r : usual_space g ->
  groupAllLengths clock ratio g name thr threads whole = (g', r) -> usual_space g'.
Proof.
  intros H. unfold groupAllLengths. destruct (negb _); [intros [= <- _]; exact H|].
  destruct (1 <=? threads); [|intros [= <- _]; intros gs w [= <-]; discriminate].
  destruct (gg_group _ _ _ _ _ _ _) as [gs1 r1] eqn:E. intros [= <- _]. intros gs w [= <-]. revert w. fold (usual_warp gs1).
  unfold gg_group in E. cbv zeta in E. destruct (gg_loadDistance _ _) as [gs2 r2] eqn:E2.
  assert (U2 : usual_warp gs2) by (eapply distance_usual; [|exact E2]; exact new_usual).
  destruct r2; try (injection E as <- _; exact U2).
  destruct (_ <? 0); [injection E as <- _; exact U2|]. destruct (gg_pw _); [|injection E as <- _; exact U2].
  eapply loop_usual; [|exact E]. exact U2.
Qed.

Lemma load_levels_usual (d : dataset N) : forall n i gs ts gs' r, usual_warp gs ->
  load_levels d n i gs ts = (gs', r) -> usual_warp gs'.
Proof.
  induction n as [|n IH]; intros i gs ts gs' r H; cbn [load_levels]; [intros [= <- _]; exact H|].
  destruct (bind (ll_new d i) _) as [[[L levels] ts']| | |]; cbn [and_then]; try (intros [= <- _]; exact H). apply IH. exact H.
Qed.

Lemma load_usual file (g : gset N) g' r : usual_space g -> loadFromFile file g = (g', r) -> usual_space g'.
Proof.
  intros H. unfold loadFromFile, load. destruct file as [ts|]; [|intros [= <- _]; exact H].
  destruct (bind _ _) as [[[cnt len] ts1]| | |]; cbn [and_then]; try (intros [= <- _]; exact H).
  destruct (negb _); [intros [= <- _]; exact H|]. destruct (negb _); [intros [= <- _]; exact H|].
  destruct (load_space _ _ _) as [gs1 r1] eqn:E. intros [= <- _]. intros gs w [= <-]. revert w. fold (usual_warp gs1).
  unfold load_space in E. destruct (bind _ _) as [[[[mn mx] name] ts2]| | |]; cbn [and_then] in E; try (injection E as <- _; exact new_usual).
  destruct (get_dbl ts2) as [[th ts3]| | |]; cbn [and_then] in E; try (injection E as <- _; exact new_usual).
  destruct (gg_loadDistance _ _) as [gs2 r2] eqn:E2.
  assert (U2 : usual_warp gs2) by (eapply distance_usual; [|exact E2]; exact new_usual).
  destruct r2; cbn [and_then] in E; try (injection E as <- _; exact U2).
  destruct (_ <? 0); [injection E as <- _; exact U2|]. eapply load_levels_usual; [|exact E]. exact U2.
Qed.

Lemma load_levels_old_usual scan (d : dataset N) : forall n i gs s gs' r, usual_warp gs ->
  load_levels_old scan d n i gs s = (gs', r) -> usual_warp gs'.
Proof.
  induction n as [|n IH]; intros i gs s gs' r H; cbn [load_levels_old]; [intros [= <- _]; exact H|].
  destruct (bind (ll_new d i) _) as [[[L m] s']| | |]; cbn [and_then]; try (intros [= <- _]; exact H).
  destruct (aset _ _ _) as [levels| | |]; cbn [and_then]; try (intros [= <- _]; exact H). apply IH. exact H.
Qed.

Lemma load_old_usual scan file (g : gset N) g' r : usual_space g -> loadGroupsOld scan file g = (g', r) -> usual_space g'.
Proof.
  intros H. unfold loadGroupsOld. destruct file as [text|]; [|intros [= <- _]; exact H].
  destruct (read_int _ _) as [version s1]. destruct (read_dbl _ _) as [v s2]. destruct (read_int _ s2) as [cnt s3].
  destruct (read_int _ s3) as [x s4].
  destruct (init_get version) as [v'| | |]; cbn [and_then]; try (intros [= <- _]; exact H).
  destruct (negb _); [intros [= <- _]; exact H|].
  destruct (init_get cnt) as [c| | |]; cbn [and_then]; try (intros [= <- _]; exact H).
  destruct (negb _); [intros [= <- _]; exact H|].
  destruct (load_space_old _ _ _) as [gs1 r1] eqn:E. intros [= <- _]. intros gs w [= <-]. revert w. fold (usual_warp gs1).
  unfold load_space_old in E. destruct (read_int _ _) as [lo t1] in E. destruct (read_int _ _) as [hi t2] in E.
  destruct (read_str _ _) as [name t3] in E. destruct (gg_loadDistance _ _) as [gs2 r2] eqn:E2.
  assert (U2 : usual_warp gs2) by (eapply distance_usual; [|exact E2]; exact new_usual).
  destruct r2; cbn [and_then] in E; try (injection E as <- _; exact U2).
  destruct (_ <? 0); [injection E as <- _; exact U2|].
  destruct (bind _ _) as [[la lb]| | |]; cbn [and_then] in E; try (injection E as <- _; exact U2).
  eapply load_levels_old_usual; [|exact E]. exact U2.
Qed.

Lemma best_usual ratio (g : gset N) q g' c : usual_space g -> getBestMatch ratio g q = Ret (g', c) -> usual_space g'.
Proof.
  intros H E. unfold getBestMatch in E. destruct (gt_groups g) as [gs|] eqn:Eg; [|discriminate].
  apply bind_Ret in E as ([gs' c'] & E & E1). injection E1 as <- _. intros gs0 w [= <-] Hw. apply (H gs w Eg). clear H.
  unfold gg_getBestMatch in E. destruct (_ <=? 1); [discriminate|]. apply bind_Ret in E as (order & _ & E).
  destruct (gg_warp gs) as [w0|] eqn:Ew; [|apply bind_Ret in E as (? & _ & E); discriminate].
  apply bind_Ret in E as ([levels [bd bg]] & _ & E). apply bind_Ret in E as ([len i] & _ & E). apply bind_Ret in E as (oL & _ & E).
  apply bind_Ret in E as (L & _ & E). apply bind_Ret in E as (g0 & _ & E). apply bind_Ret in E as (c0 & _ & E). injection E as <- _.
  cbn in Hw. congruence.
Qed.

Lemma kbest_usual A ratio (g : gset N) q k ke g' c : usual_space g -> getKBestMatches A ratio g q k ke = Ret (g', c) -> usual_space g'.
Proof.
  intros H E. unfold getKBestMatches in E. destruct (gt_groups g) as [gs|] eqn:Eg; [|discriminate]. destruct (ke <? k); [discriminate|].
  apply bind_Ret in E as ([gs' c'] & E & E1). apply bind_Ret in E1 as (c1 & _ & E1). apply bind_Ret in E1 as (c2 & _ & E1).
  injection E1 as <- _. intros gs0 w [= <-] Hw. apply (H gs w Eg). clear H.
  unfold gg_getKBestMatches in E. apply bind_Ret in E as (order & _ & E).
  destruct (gg_warp gs) as [w0|] eqn:Ew; [|apply bind_Ret in E as (? & _ & E); injection E as <- _; congruence].
  apply bind_Ret in E as ([levels [best k']] & _ & E). apply bind_Ret in E as (r1 & _ & E). apply bind_Ret in E as (r2 & _ & E). injection E as <- _.
  cbn in Hw. congruence.
Qed.

Definition all_usual (s : api N) : Prop := forall id g, nth_error (a_objs s) id = Some (Some g) -> usual_space g.

Lemma put_usual (s : api N) id g : all_usual s -> usual_space g -> all_usual (put_obj s id (Some g)).
Proof.
  intros H Hg k g' Hk. cbn in Hk. destruct (Nat.eq_dec k id) as [->|Hne].
  - destruct (Nat.lt_ge_cases id (length (a_objs s))) as [Hl|Hl].
    + rewrite nth_error_upd_same in Hk by exact Hl. injection Hk as <-. exact Hg.
    + assert (X : nth_error (upd (a_objs s) id (Some g)) id = None) by (apply nth_error_None; rewrite upd_length; exact Hl). congruence.
  - rewrite nth_error_upd_neq in Hk by exact Hne. eapply H; exact Hk.
Qed.

Lemma on_set_usual (s : api N) n f s' r : all_usual s -> (forall g g' x, usual_space g -> f g = (g', x) -> usual_space g') ->
  on_set s n f = (s', r) -> all_usual s'.
Proof.
  intros H Hf. unfold on_set. destruct (find_id s n) as [id| | |]; try (intros [= <- _]; exact H).
  destruct (deref_set s id) as [g| | |] eqn:Ed; try (intros [= <- _]; exact H). destruct (f g) as [g' x] eqn:Ef. intros [= <- _].
  apply put_usual; [exact H|]. eapply Hf; [|exact Ef]. eapply (H id). unfold deref_set in Ed.
  destruct (nth_error (a_objs s) id) as [[g0|]|]; try discriminate. congruence.
Qed.

Lemma step_usual e c (s s' : api N) r : all_usual s -> exec e c s = (s', r) -> all_usual s'.
Proof.
  intros H E.
  assert (Q : forall t q f, search_groups s t q f = (s', r) -> (forall g q g' a, usual_space g -> f g q = Ret (g', a) -> usual_space g') -> all_usual s').
  { intros t q f Eq Hf. unfold search_groups in Eq. destruct q as [q| | |]; try (injection Eq as <- _; exact H).
    eapply on_set_usual; [exact H| |exact Eq]. intros g g' x Hg Ex. cbn beta in Ex.
    destruct (f g q) as [[g1 a]| | |] eqn:Ef; cbn in Ex; injection Ex as <- _; eauto. }
  assert (App : forall sets paa cnt o, (forall g, o = Some g -> usual_space g) -> all_usual (mkApi sets (a_objs s ++ [o]) paa cnt (a_ratio s))).
  { intros sets paa cnt o Ho id g Hg. cbn in Hg. destruct (Nat.lt_ge_cases id (length (a_objs s))) as [Hl|Hl].
    - rewrite nth_error_app1 in Hg by exact Hl. exact (H id g Hg).
    - rewrite nth_error_app2 in Hg by exact Hl. destruct (id - length (a_objs s))%nat as [|k]; cbn in Hg; [|destruct k; discriminate].
      injection Hg as Hg. exact (Ho g Hg). }
  assert (Plain : forall d g, Some (mkGS d None) = Some g -> usual_space (N := N) g) by (intros d g [= <-] gs w; discriminate).
  destruct c; cbn [exec] in E; try (unfold pure in E; injection E as <- _; exact H).
  - destruct (assoc name (a_sets s)); [injection E as <- _; exact H|].
    destruct (loadData _ _ _ _ _ _ _ _) as [d o]. destruct o as [u|x|u|]; try (injection E as <- _; exact H).
    + unfold pure in E. injection E as <- _. apply App, Plain.
    + destruct x; injection E as <- _; apply App; try apply Plain; discriminate.
  - destruct (find_id s name) as [id| | |]; try (injection E as <- _; exact H).
    destruct (deref_set s id); try (injection E as <- _; exact H). injection E as <- _. intros k g Hk. cbn in Hk.
    destruct (Nat.eq_dec k id) as [->|Hne].
    + destruct (Nat.lt_ge_cases id (length (a_objs s))) as [Hl|Hl]; [rewrite nth_error_upd_same in Hk by exact Hl; discriminate|].
      assert (X : nth_error (upd (a_objs s) id None) id = None) by (apply nth_error_None; rewrite upd_length; exact Hl). congruence.
    + rewrite nth_error_upd_neq in Hk by exact Hne. eapply H; exact Hk.
  - injection E as <- _. intros k g Hk. cbn in Hk. apply unload_all_objs in Hk as [Hk _]. eapply H; exact Hk.
  - eapply on_set_usual; [exact H| |exact E]. intros g g' x Hg Ex. cbn beta in Ex.
    destruct (normalize (gt_data g)) as [[d [a b]]| | |]; cbn in Ex; injection Ex as <- _; exact Hg.
  - eapply on_set_usual; [exact H| |exact E]. intros g g' x Hg Ex. cbn beta in Ex.
    destruct (groupAllLengths _ _ g _ _ _ _) as [g2 r2] eqn:Eg. injection Ex as <- _. eapply group_usual; eauto.
  - eapply on_set_usual; [exact H| |exact E]. intros g g' x Hg Ex. cbn beta in Ex.
    destruct (loadFromFile _ g) as [g2 r2] eqn:Eg. injection Ex as <- _. eapply load_usual; eauto.
  - eapply on_set_usual; [exact H| |exact E]. intros g g' x Hg Ex. cbn beta in Ex.
    destruct (loadGroupsOld _ _ g) as [g2 r2] eqn:Eg. injection Ex as <- _. eapply load_old_usual; eauto.
  - eapply Q; [exact E|]. intros g q g' a Hg Ef. cbn beta in Ef. apply bind_Ret in Ef as ([g1 c] & Eb & Ef). injection Ef as <- _.
    eapply best_usual; eauto.
  - eapply Q; [exact E|]. intros g q g' a Hg Ef. cbn beta in Ef. apply bind_Ret in Ef as ([g1 c] & Eb & Ef). injection Ef as <- _.
    eapply kbest_usual; eauto.
  - destruct (find_id s name) as [id| | |]; try (injection E as <- _; exact H).
    destruct (match assoc name (a_paa s) with Some w => _ | None => _ end) as [w| | |] in E; try (injection E as <- _; exact H).
    destruct (wrapper_generate s w _) as [w' r']. injection E as <- _. exact H.
Qed.

Lemma run_usual r0 h (s : api N) : run r0 h s -> all_usual s.
Proof.
  induction 1 as [|h s e c s' r Hrun IH E Hr]; [intros [|id] g; discriminate|]. eapply step_usual; eauto.
Qed.

Lemma query_named (s : api N) t n i st en id g q : find_id s n = Ret id -> deref_set s id = Ret g ->
  getTimeSeries (gt_data g) i st en = Ret q ->
  query_series s t n i st en = (_ <- find_id s t ;; Ret q).
Proof.
  intros E1 E2 E3. unfold query_series, find_set. destruct (find_id s t); cbn [bind]; try reflexivity.
  rewrite E1. cbn [bind]. rewrite E2. cbn [bind]. exact E3.
Qed.
End Usual.

(** ** C87 *)

(** The four searches: for every reachable state, two ways to name the same values give the same
    outcome (the same matches, the same exception, or the same undefined behaviour) and leave the
    same state behind. *)
Theorem C87_searches : forall (N : Num) (r0 : D N) h (s : api N) qn i st en qn' i' st' en' xs,
  run r0 h s -> stretch s qn i st en xs -> stretch s qn' i' st' en' xs ->
  forall e target,
    exec e (CBest target qn i st en) s = exec e (CBest target qn' i' st' en') s /\
    (forall k ke, exec e (CKBest k ke target qn i st en) s = exec e (CKBest k ke target qn' i' st' en') s) /\
    (forall k dist, exec e (CBrute k target qn i st en dist) s = exec e (CBrute k target qn' i' st' en' dist) s) /\
    (forall k dist, exec e (CPAA k target qn i st en dist) s = exec e (CPAA k target qn' i' st' en' dist) s).
Proof.
  intros N r0 h s qn i st en qn' i' st' en' xs Hrun H H' e target. pose proof (run_good _ _ _ Hrun) as G. pose proof (run_usual _ _ _ Hrun) as U.
  destruct (stretch_get s _ _ _ _ _ G H) as (id & g & q & A1 & A2 & A3 & A4 & A5 & _).
  destruct (stretch_get s _ _ _ _ _ G H') as (id' & g' & q' & B1 & B2 & B3 & B4 & B5 & _).
  assert (Hq : same q q') by (split; [exact A4|split; [exact B4|congruence]]). clear A4 B4 A5 B5 H H'.
  pose proof (query_named s target _ _ _ _ _ _ _ A1 A2 A3) as Q. pose proof (query_named s target _ _ _ _ _ _ _ B1 B2 B3) as Q'.
  assert (S : forall f, (forall g, usual_space g -> f g q = f g q') ->
    search_groups s target (query_series s target qn i st en) f = search_groups s target (query_series s target qn' i' st' en') f).
  { intros f Hf. rewrite Q, Q'. unfold search_groups, on_set. destruct (find_id s target) as [it| | |]; cbn [bind]; try reflexivity.
    destruct (deref_set s it) as [gt| | |] eqn:Ed; try reflexivity. rewrite Hf; [reflexivity|]. apply (U it).
    unfold deref_set in Ed. destruct (nth_error (a_objs s) it) as [[g0|]|]; try discriminate. congruence. }
  split; [|split; [|split]].
  - cbn [exec]. apply S. intros gt Hg. rewrite (best_same q q' Hq) by exact Hg. reflexivity.
  - intros k ke. cbn [exec]. apply S. intros gt Hg. rewrite (kbest_same q q' Hq) by exact Hg. reflexivity.
  - intros k dist. cbn [exec]. rewrite Q, Q'. destruct (find_id s target) as [it| | |]; cbn [bind]; try reflexivity.
    destruct (find_set s target) as [gt| | |]; cbn [bind]; try reflexivity. rewrite (brute_same q q' Hq). reflexivity.
  - intros k dist. cbn [exec]. rewrite A1, B1. cbn [bind]. rewrite A2, B2. cbn [bind]. rewrite A3, B3. cbn [bind].
    destruct (find_id s target) as [it| | |]; cbn [bind]; try reflexivity. destruct (assoc target (a_paa s)) as [w|]; [|reflexivity].
    unfold wrapper_search. destruct (nth_error (a_objs s) (fst w)) as [[g0|]|]; try reflexivity. rewrite (paa_same q q' Hq). reflexivity.
Qed.
Print Assumptions C87_searches.

(** Distances and matchings, for either of the two series. *)
Theorem C87_distances : forall (N : Num) (r0 : D N) h (s : api N) n1 i1 s1 e1 n2 i2 s2 e2 m1 j1 t1 f1 m2 j2 t2 f2 xs ys,
  run r0 h s -> stretch s n1 i1 s1 e1 xs -> stretch s m1 j1 t1 f1 xs -> stretch s n2 i2 s2 e2 ys -> stretch s m2 j2 t2 f2 ys ->
  forall e dist,
    exec e (CDistance n1 i1 s1 e1 n2 i2 s2 e2 dist) s = exec e (CDistance m1 j1 t1 f1 m2 j2 t2 f2 dist) s /\
    exec e (CMatching n1 i1 s1 e1 n2 i2 s2 e2 dist) s = exec e (CMatching m1 j1 t1 f1 m2 j2 t2 f2 dist) s.
Proof.
  intros N r0 h s n1 i1 s1 e1 n2 i2 s2 e2 m1 j1 t1 f1 m2 j2 t2 f2 xs ys Hrun H1 H1' H2 H2' e dist. pose proof (run_good _ _ _ Hrun) as G.
  destruct (two_get s _ _ _ _ _ _ _ _ _ _ G H1 H2) as (a & b & E & Oa & Ob & Pa & Pb & _).
  destruct (two_get s _ _ _ _ _ _ _ _ _ _ G H1' H2') as (a' & b' & E' & Oa' & Ob' & Pa' & Pb' & _).
  assert (Ha : same a a') by (split; [exact Oa|split; [exact Oa'|congruence]]).
  assert (Hb : same b b') by (split; [exact Ob|split; [exact Ob'|congruence]]).
  cbn [exec]. rewrite E, E'. cbn [bind].
  assert (F : forall f ratio cut mt, getDistanceFromName dist = Ret f -> f ratio a b cut mt = f ratio a' b' cut mt).
  { intros f ratio cut mt Ef. destruct (named_alike a a' Ha dist f Ef) as [X _]. destruct (named_alike b b' Hb dist f Ef) as [_ Y].
    rewrite X. apply Y. }
  split; f_equal.
  - destruct (getDistanceFromName dist) as [f| | |] eqn:Ef; cbn [bind]; try reflexivity. rewrite (F f) by reflexivity. reflexivity.
  - destruct (ends_in_dtw dist) as [ok| | |]; cbn [bind]; try reflexivity. destruct (negb ok); [reflexivity|].
    destruct (getDistanceFromName dist) as [f| | |] eqn:Ef; cbn [bind]; try reflexivity. rewrite (F f) by reflexivity. reflexivity.
Qed.
Print Assumptions C87_distances.

(** ** Example: the same file loaded twice, the second data set grouped *)
Definition qv_1 := fst (exec ex_env (ex_load "y") ex_s1).
Definition qv_2 := fst (exec ex_env (CGroup (N := B64) "y" (b64_ofZ 1) "euclidean" 1 false) qv_1).

Example C87_example : exists h, run (N := B64) (b64_ofZ 1) h qv_2 /\
  stretch qv_2 "x" 1 (-1) (-1) (map b64_ofZ [3; 4]) /\ stretch qv_2 "y" 1 0 2 (map b64_ofZ [3; 4]).
Proof.
  destruct ex_history as (a1 & _ & _ & _ & H1 & _).
  destruct (run_ret _ _ _ ex_env (ex_load "y") H1) as [a2 H2]; [vm_compute; reflexivity|]. fold qv_1 in H2.
  destruct (run_ret _ _ _ ex_env (CGroup (N := B64) "y" (b64_ofZ 1) "euclidean" 1 false) H2) as [a3 H3]; [vm_compute; reflexivity|]. fold qv_2 in H3.
  eexists. split; [exact H3|]. destruct ex_held as (d & Hx & Hd & _).
  pose proof (run_good _ _ _ H1) as G1. pose proof (run_good _ _ _ H2) as G2.
  assert (L : exists a, exec ex_env (ex_load "y") ex_s1 = (qv_1, Ret a)).
  { unfold qv_1. assert (Hr : is_ret (snd (exec ex_env (ex_load "y") ex_s1)) = true) by (vm_compute; reflexivity).
    destruct (exec ex_env (ex_load "y") ex_s1) as [s1 [a| | |]]; try discriminate Hr. exists a. reflexivity. }
  assert (M : exists a, exec ex_env (CGroup (N := B64) "y" (b64_ofZ 1) "euclidean" 1 false) qv_1 = (qv_2, Ret a)).
  { unfold qv_2. assert (Hr : is_ret (snd (exec ex_env (CGroup (N := B64) "y" (b64_ofZ 1) "euclidean" 1 false) qv_1)) = true) by (vm_compute; reflexivity).
    destruct (exec ex_env (CGroup (N := B64) "y" (b64_ofZ 1) "euclidean" 1 false) qv_1) as [s1 [a| | |]]; try discriminate Hr. exists a. reflexivity. }
  destruct L as [b1 L]. destruct M as [b2 M].
  generalize dependent qv_2. generalize dependent qv_1. intros s1 H2 G2 L s2 H3 M.
  destruct (exec_good ex_env _ _ _ _ G1 L I) as [_ K1]. destruct (exec_good ex_env _ _ _ _ G2 M I) as [_ K2].
  assert (Hx2 : held s2 "x" = Some (mkGS d None)).
  { rewrite K2, K1; [exact Hx| |]; cbn; intros C; discriminate C || exact C. }
  destruct (C32_load B64 _ _ ex_s1 ex_env "y" "f" "," 0 0 false s1 (Ret b1) H1 L I) as [_ Hl].
  destruct (Hl b1 eq_refl) as (dy & iy & El & Hy & _). clear Hl.
  destruct ex_loaded as (dl & E & Hdl & _). rewrite E in El. injection El as ->.
  assert (Hy2 : held s2 "y" <> None).
  { cbn [exec] in M. intros Hn. apply (on_set_held _ _ _ _ _ "y" G2 M) in Hn. congruence. }
  destruct (held s2 "y") as [gy|] eqn:Ey; [|contradiction].
  pose proof (C32_values B64 _ _ s1 ex_env _ s2 _ "y" _ gy H2 M I Hy Ey) as Ed. cbn [gt_data] in Ed.
  assert (Ed' : gt_data gy = dy) by (apply Ed; discriminate). clear Ed. split.
  - exists (mkGS d None), ex_rows, (map b64_ofZ [3; 4]). split; [exact Hx2|]. split; [exact Hd|]. split; [reflexivity|]. left. lia || auto with zarith.
  - exists gy, ex_rows, (map b64_ofZ [3; 4]). split; [exact Ey|]. split; [rewrite Ed'; exact Hdl|]. split; [reflexivity|]. right.
    split; [lia|]. split; [vm_compute; discriminate|reflexivity].
Qed.

(** the match found: its data are the query's, and the search does tell queries apart *)
Definition found (r : res (answer B64)) : option (Z * Z * Z * SpecFloat.spec_float) :=
  match r with Ret (ACand c) => Some (ts_index (c_data c), ts_start (c_data c), ts_end (c_data c), B2SF (c_dist c : b64)) | _ => None end.
Example C87_example_answers :
  found (snd (exec ex_env (CBest "y" "x" 1 (-1) (-1)) qv_2)) = Some (1, 0, 2, B2SF (b64_ofZ 0)) /\
  found (snd (exec ex_env (CBest "y" "y" 1 0 2) qv_2)) = Some (1, 0, 2, B2SF (b64_ofZ 0)) /\
  found (snd (exec ex_env (CBest "y" "x" 2 (-1) (-1)) qv_2)) = Some (2, 0, 2, B2SF (b64_ofZ 0)).
Proof. vm_compute. repeat split. Qed.
