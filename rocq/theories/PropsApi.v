(** Properties C32, C33 and C37: the interface over all histories of calls.
    Specification: ApiSpec.v. *)
From Coq Require Import String Ascii.
From Verif Require Import Base Num NumB64 LoopFacts TimeSeries Distance TSSet StdAlg Candidate Group GroupSpace Loader Archive OldFormat BruteForce PAA
  DataSpec DataProofs GroupDist LoaderSpec LoaderProofs PAAProofs PropsPAA QuerySpec QueryUB Api ApiSpec ApiProofs ApiQuery ApiPaa HeapFacts PropsLoader.
Local Open Scope Z_scope.
Local Open Scope list_scope.

(** ** C32 *)

(** The names in use are those of the specification, the count is their number, and the
    list of all data sets names each of them once, in ascending order. *)
Theorem C32_registry : forall (N : Num) (r0 : D N) (h : list event) (s : api N), run r0 h s ->
  exists names, ascending_names names /\ NoDup names /\
    (forall n, In n names <-> in_use h n = true) /\
    (forall n, (exists g, held s n = Some g) <-> in_use h n = true) /\
    (forall e, exec e CCount s = (s, Ret (AInt (Z.of_nat (length names))))) /\
    (forall e s' a, exec e CAllInfo s = (s', Ret a) -> s' = s /\ exists l, a = AInfos l /\ map i_name l = names).
Proof.
  intros N r0 h s Hrun. pose proof (run_good r0 h s Hrun) as G. exists (keys (a_sets s)).
  split; [apply G|]. split; [apply good_nodup, G|]. split; [|split; [|split]].
  - intros n. rewrite <- (held_name s n G). symmetry. apply (run_in_use r0 h s Hrun).
  - intros n. rewrite (run_in_use r0 h s Hrun n). destruct (held s n); split; try discriminate; eauto.
    + intros [g Hg]. discriminate.
    + intros H. contradiction.
  - intros e. cbn [exec]. rewrite (g_count s G). unfold keys. rewrite map_length. reflexivity.
  - intros e s' a E. cbn [exec] in E. unfold pure in E. injection E as <- E. split; [reflexivity|].
    destruct (each_info s (map fst (a_sets s))) as [l| | |] eqn:El; cbn in E; try discriminate. injection E as <-.
    exists l. split; [reflexivity|]. exact (each_info_names s _ l El).
Qed.
Print Assumptions C32_registry.

(** A call that needs a name that is not in use raises the library's exception and changes
    nothing. *)
Theorem C32_unknown : forall (N : Num) (r0 : D N) (h : list event) (s : api N) e c n, run r0 h s ->
  In n (needs c) -> in_use h n = false ->
  exec e c s = (s, Throw (GenexExc "There is no dataset with the given name")).
Proof.
  intros N r0 h s e c n Hrun Hn Hu. apply (unknown_name e c s n); auto; [eapply run_good; eauto|].
  pose proof (run_in_use r0 h s Hrun n) as H. rewrite Hu in H. destruct (held s n); [|reflexivity].
  exfalso. assert (false = true) by (apply H; discriminate). discriminate.
Qed.
Print Assumptions C32_unknown.

(** So does loading under a name in use. *)
Theorem C32_duplicate : forall (N : Num) (r0 : D N) (h : list event) (s : api N) e n path seps maxNumRow startCol hasName, run r0 h s ->
  in_use h n = true ->
  exec e (CLoad n path seps maxNumRow startCol hasName) s = (s, Throw (GenexExc "Name has already been used")).
Proof.
  intros N r0 h s e n path seps mr sc hn Hrun Hu. apply used_name; [eapply run_good; eauto|].
  apply (run_in_use r0 h s Hrun n). exact Hu.
Qed.
Print Assumptions C32_duplicate.

(** A load that fails changes no data set; one that succeeds adds what was read from the
    file, ungrouped, and tells so. *)
Theorem C32_load : forall (N : Num) (r0 : D N) (h : list event) (s : api N) e n path seps maxNumRow startCol hasName s' r, run r0 h s ->
  exec e (CLoad n path seps maxNumRow startCol hasName) s = (s', r) -> ends r ->
  (forall x, r = Throw x -> forall m, held s' m = held s m) /\
  (forall a, r = Ret a -> exists d i, loadData (e_stod e) (e_files e) ds_new path maxNumRow startCol seps hasName = (d, Ret tt) /\
     held s' n = Some (mkGS d None) /\ a = AInfo i /\ i_name i = n /\ i_count i = ds_count d /\ i_length i = ds_maxcol d /\
     i_grouped i = false).
Proof.
  intros N r0 h s e n path seps mr sc hn s' r Hrun E Hr. pose proof (run_good r0 h s Hrun) as G.
  destruct (load_spec e s n path seps mr sc hn s' r G E Hr) as
    [(_ & -> & ->)|(Hn & G' & d & o & El & [(x & _ & -> & Hh & _)|(i & -> & -> & Hi & Hh & _ & _ & _ & _)])].
  - split; [reflexivity|discriminate].
  - split; [intros _ _ m; apply Hh|discriminate].
  - split; [discriminate|]. intros a [= <-]. exists d.
    assert (Ei : getDatasetInfo s' n = Ret i).
    { cbn [exec] in E. assert (Ha : assoc n (a_sets s) = None).
      { destruct (find_alive s n G) as [(k & g & _ & _ & _ & _ & _ & _ & Hh')|(Ha & _)]; [congruence|exact Ha]. }
      rewrite Ha, El in E. unfold pure in E. destruct (getDatasetInfo _ n) as [i'| | |] eqn:Ei in E; cbn in E; try discriminate.
      injection E as <- <-. exact Ei. }
    exists i. destruct (held_find s' n _ G' Hh) as (id & _ & _ & F). unfold getDatasetInfo in Ei. rewrite F in Ei. cbn in Ei.
    injection Ei as <-. cbn. auto 8.
Qed.
Print Assumptions C32_load.

(** No call changes a data set other than the one it is about ([concerns]): its values,
    groups and everything else are the same. *)
Theorem C32_others : forall (N : Num) (r0 : D N) (h : list event) (s : api N) e c s' r n, run r0 h s ->
  exec e c s = (s', r) -> ends r -> ~ concerns c n -> held s' n = held s n.
Proof.
  intros N r0 h s e c s' r n Hrun E Hr Hc. exact (proj2 (exec_good e c s s' r (run_good r0 h s Hrun) E Hr) n Hc).
Qed.
Print Assumptions C32_others.

(** The values of a data set are changed by normalising it and by nothing else. *)
Theorem C32_values : forall (N : Num) (r0 : D N) (h : list event) (s : api N) e c s' r n g g', run r0 h s ->
  exec e c s = (s', r) -> ends r -> held s n = Some g -> held s' n = Some g' -> c <> CNormalize n -> gt_data g' = gt_data g.
Proof.
  intros N r0 h s e c s' r n g g' Hrun E Hr Hg Hg' Hc. pose proof (run_good r0 h s Hrun) as G.
  assert (Same : held s' n = held s n -> gt_data g' = gt_data g) by congruence.
  pose proof (proj2 (exec_good e c s s' r G E Hr) n) as Ho.
  assert (Onset : forall m f, on_set s m f = (s', r) -> (forall g0 g1, f g0 = (g1, r) -> gt_data g1 = gt_data g0) -> gt_data g' = gt_data g).
  { intros m f Eo Hf. destruct (on_set_spec s m f s' r G Eo) as [(_ & -> & _)|(g0 & g1 & Hg0 & Ef & _ & Hg1 & Hm & _)]; [congruence|].
    destruct (string_dec n m) as [->|Hne]; [|apply Same, Hm, Hne].
    assert (g0 = g) by congruence. assert (g1 = g') by congruence. subst. apply Hf, Ef. }
  destruct c; try (apply Same, Ho; cbn; tauto).
  - destruct (load_spec e s _ _ _ _ _ _ s' r G E Hr) as [(_ & -> & _)|(Hn & _ & d & o & _ & [(x & _ & _ & Hh & _)|(i & _ & _ & _ & _ & Hh & _)])];
      [congruence|apply Same, Hh|apply Same, Hh; congruence].
  - destruct (unload_spec e s _ s' r G E) as [(_ & -> & _)|(_ & _ & _ & Hnone & Hh & _)]; [congruence|apply Same, Hh; congruence].
  - destruct (unload_all_spec e s s' r G E) as (_ & _ & Hh & _). rewrite Hh in Hg'. discriminate.
  - destruct (string_dec name n) as [->|Hne]; [contradiction|apply Same, Ho; cbn; congruence].
  - cbn [exec] in E. eapply Onset; [exact E|]. intros g0 g1 Ef. cbn beta in Ef.
    destruct (groupAllLengths _ _ g0 _ _ _ _) as [g2 r2] eqn:Eg. injection Ef as <- _. exact (gg_group_data _ _ _ _ _ _ _ _ _ Eg).
  - cbn [exec] in E. eapply Onset; [exact E|]. intros g0 g1 Ef. cbn beta in Ef.
    destruct (loadFromFile _ g0) as [g2 r2] eqn:Eg. injection Ef as <- _. exact (load_data_same _ _ _ _ Eg).
  - cbn [exec] in E. eapply Onset; [exact E|]. intros g0 g1 Ef. cbn beta in Ef.
    destruct (loadGroupsOld _ _ g0) as [g2 r2] eqn:Eg. injection Ef as <- _. exact (load_text_data_same _ _ _ _ _ Eg).
  - cbn [exec] in E. destruct (query_series _ _ _ _ _ _) as [q| | |]; cbn in E; try (injection E as <- <-; apply Same; reflexivity).
    eapply Onset; [exact E|]. intros g0 g1 Ef. cbn beta in Ef.
    destruct (getBestMatch (a_ratio s) g0 q) as [[g2 c]| | |] eqn:Eb; cbn in Ef; injection Ef as <- _; auto. exact (best_data _ _ _ _ _ Eb).
  - cbn [exec] in E. destruct (query_series _ _ _ _ _ _) as [q| | |]; cbn in E; try (injection E as <- <-; apply Same; reflexivity).
    eapply Onset; [exact E|]. intros g0 g1 Ef. cbn beta in Ef.
    destruct (getKBestMatches (e_alg e) (a_ratio s) g0 q _ _) as [[g2 c]| | |] eqn:Eb; cbn in Ef; injection Ef as <- _; auto.
    exact (kbest_data _ _ _ _ _ _ _ _ Eb).
Qed.
Print Assumptions C32_values.

(** every data set has one length for each of its series *)
Lemma load_rows_lengths {N : Num} stod seps sc mc hn : forall n row ls lens names buf L cnt nm b,
  @load_rows N stod seps sc mc hn n row ls lens names buf = (L, Ret (cnt, nm, b)) ->
  Z.of_nat (length L) = Z.of_nat (length lens) + (cnt - row).
Proof.
  induction n as [|n IH]; intros row ls lens names buf L cnt nm b; cbn [load_rows].
  - intros [= <- <- _ _]. lia.
  - destruct ls as [|line ls]; [intros [= <- <- _ _]; lia|].
    destruct (load_tokens _ _ _ _ _ _ _ _ _) as [[names' buf']| | |]; try discriminate.
    intros E. apply IH in E. rewrite app_length in E. cbn in E. lia.
Qed.

Lemma load_lengths {N : Num} stod fs path mr sc seps hn (d : dataset N) :
  loadData stod fs ds_new path mr sc seps hn = (d, Ret tt) ->
  Z.of_nat (length (ds_lengths d)) = ds_count d /\ isLoaded d = true.
Proof.
  unfold loadData. destruct (fs path) as [f|]; [|discriminate]. destruct (imul _ _) as [size| | |]; try discriminate.
  match goal with |- context [load_rows ?a ?b ?c ?d0 ?e ?f0 ?g ?h ?i ?j ?k] => destruct (load_rows a b c d0 e f0 g h i j k) as [L [[[cnt nm] b1]| | |]] eqn:E end;
    try discriminate. destruct (match tf_fail f with None => false | Some _ => _ end); [discriminate|].
  destruct (less _ _ _) as [w| | |]; try discriminate. intros [= <-]. cbn.
  apply load_rows_lengths in E. cbn in E. split; [lia|reflexivity].
Qed.

Lemma run_lengths {N : Num} (r0 : D N) h s : run r0 h s -> forall n g, held s n = Some g ->
  Z.of_nat (length (ds_lengths (gt_data g))) = ds_count (gt_data g) /\ isLoaded (gt_data g) = true.
Proof.
  induction 1 as [|h s e c s' r Hrun IH E Hr]; intros n g' Hg'; [discriminate|]. pose proof (run_good _ _ _ Hrun) as G.
  assert (G' : good s') by (eapply exec_good; eauto).
  destruct (held s n) as [g|] eqn:Hg.
  - specialize (IH n g Hg).
    assert (D : c = CNormalize n \/ c <> CNormalize n).
    { destruct c; try (right; discriminate). destruct (string_dec name n) as [->|Hne]; [auto|right; congruence]. }
    destruct D as [->|D].
    + cbn [exec] in E. destruct (on_set_spec s n _ s' r G E) as [(Hn & _)|(g0 & g1 & Hg0 & Ef & _ & Hg1 & _)]; [congruence|].
      assert (g0 = g) by congruence. assert (g1 = g') by congruence. subst g0 g1.
      destruct (normalize (gt_data g)) as [[d [a b]]| | |] eqn:En; cbn in Ef; injection Ef as <- _; try exact IH. cbn.
      revert En. unfold normalize. destruct (ds_count (gt_data g) =? 0); [discriminate|]. intros En. apply bind_Ret in En as (buf & _ & En).
      apply bind_Ret in En as ([mn mx] & _ & En). cbv zeta in En. apply bind_Ret in En as (buf' & _ & En). injection En as <- _ _. split; [apply IH|reflexivity].
    + rewrite (C32_values N r0 h s e c s' r n g g' Hrun E Hr Hg Hg' D). exact IH.
  - assert (Hu : in_use h n = false).
    { destruct (in_use h n) eqn:E0; [|reflexivity]. apply (run_in_use _ _ _ Hrun) in E0. contradiction. }
    assert (Hu' : in_use (h ++ [(c, r)]) n = true).
    { eapply (run_in_use r0 (h ++ [(c, r)]) s'); [eapply run_call; eauto|congruence]. }
    unfold in_use in Hu, Hu'. rewrite fold_left_app in Hu'. cbn [fold_left] in Hu'. rewrite Hu in Hu'.
    destruct c; cbn in Hu'; try discriminate; destruct r as [a| | |]; try discriminate;
      destruct (String.eqb_spec name n) as [->|Hne]; try discriminate.
    destruct (load_spec e s _ _ _ _ _ _ s' _ G E Hr) as [(_ & _ & Hx)|(_ & _ & d & o & El & [(x & _ & Hx & _)|(i & -> & _ & _ & Hh & _)])];
      try discriminate. assert (g' = mkGS d None) by congruence. subst g'. cbn. eapply load_lengths. exact El.
Qed.

(** ** C33 *)

(** C33 is false: a call of groupDataset that fails because of its distance or number of
    threads throws the groups away.  The data set then counts as grouped, has no groups,
    asking for its description reads a value that was never set, and every search with a
    series of at least two points leaves defined behaviour. *)
Lemma no_such_pw {N : Num} name : ~ In name groupable -> (exists x, @getDistanceFromName N name = Throw x) \/
  ((exists f, @getDistanceFromName N name = Ret f) /\ exists x, @warpedFor N name = Throw x).
Proof.
  intros Hn. unfold warpedFor, getDistanceFromName at 1 2. cbn [allDistances app assoc].
  repeat match goal with
  | |- context [String.eqb name ?b] =>
      lazymatch b with
      | _ => destruct (String.eqb_spec name b) as [->|?]; [first [exfalso; apply Hn; cbn; tauto | right; split; [eexists; reflexivity|eexists; reflexivity]]|]
      end
  end.
  left. eexists. reflexivity.
Qed.

Lemma failing_group {N : Num} clock ratio (g : gset N) name thr threads whole : isLoaded (gt_data g) = true ->
  threads < 1 \/ ~ In name groupable ->
  exists gs x, groupAllLengths clock ratio g name thr threads whole = (mkGS (gt_data g) (Some gs), Throw x) /\
    gg_levels gs = [] /\ gg_threshold gs = None /\ gg_total gs = 0.
Proof.
  intros Hl Hbad. unfold groupAllLengths. rewrite Hl. cbn [negb]. destruct (Z.leb_spec 1 threads) as [Ht|Ht].
  - destruct Hbad as [Hbad|Hbad]; [lia|]. unfold gg_group, gg_loadDistance. cbn [with_levels gg_new gg_levels gg_pw gg_warp gg_threshold gg_total gg_whole gg_name].
    destruct (no_such_pw (N := N) name Hbad) as [[x ->]|[[f ->] [x ->]]]; eexists _, x; (split; [reflexivity|]); cbn; auto.
  - eexists _, _. split; [reflexivity|]. cbn. auto.
Qed.

Theorem C33_failed_grouping_refuted : forall (N : Num) (r0 : D N) (h : list event) (s : api N) e t thr dist threads whole g, run r0 h s ->
  held s t = Some g -> threads < 1 \/ ~ In dist groupable ->
  exists s' x g', exec e (CGroup t thr dist threads whole) s = (s', Throw x) /\
    held s' t = Some g' /\ gt_data g' = gt_data g /\ isGrouped g' = true /\ getTotalNumberOfGroups g' = 0 /\
    (forall e', snd (exec e' (CInfo t) s') = UB Uninit) /\
    (forall e' qn i a b gq q, held s' qn = Some gq -> getTimeSeries (gt_data gq) i a b = Ret q -> 2 <= ts_length q ->
       ~ ends (snd (exec e' (CBest t qn i a b) s')) /\
       forall k ke, k <= ke -> ~ ends (snd (exec e' (CKBest k ke t qn i a b) s'))).
Proof.
  intros N r0 h s e t thr dist threads whole g Hrun Hh Hbad. pose proof (run_good r0 h s Hrun) as G. pose proof (proj2 (run_lengths r0 h s Hrun t g Hh)) as Hl.
  destruct (failing_group (e_clock e) (a_ratio s) g dist thr threads whole Hl Hbad) as (gs & x & Eg & E1 & E2 & E3).
  destruct (exec e (CGroup t thr dist threads whole) s) as [s' r] eqn:E.
  destruct (group_spec e s t thr dist threads whole s' r g G Hh E) as (G' & Hr & g' & Eg' & Hh' & Hn & Ho).
  rewrite Eg in Eg'. injection Eg' as <- Er.
  assert (r = Throw x). { destruct r as [a| | |]; try discriminate; try congruence. destruct (Hn a eq_refl) as [n ->]. discriminate. }
  subst r. exists s', x, (mkGS (gt_data g) (Some gs)).
  split; [reflexivity|]. split; [exact Hh'|]. split; [reflexivity|]. split; [reflexivity|]. split; [exact E3|].
  destruct (held_find s' t _ G' Hh') as (id & Fi & Fd & Fs). split.
  - intros e'. cbn [exec]. unfold pure, getDatasetInfo. rewrite Fs. cbn. rewrite E2. reflexivity.
  - intros e' qn i a b gq q Hq Eq H2.
    assert (Q : query_series s' t qn i a b = Ret q) by (rewrite (query_series_ok s' t qn i a b _ gq G' Hh' Hq); exact Eq).
    split.
    + destruct (exec e' (CBest t qn i a b) s') as [s2 r2] eqn:E'. cbn [exec] in E'. rewrite Q in E'.
      destruct (search_spec s' t q (fun g t0 => '(g', c) <- getBestMatch (a_ratio s') g t0 ;; Ret (g', ACand c)) s2 r2 _ G' Hh' E') as (_ & _ & _ & Hf).
      pose proof (best_beyond (a_ratio s') (mkGS (gt_data g) (Some gs)) gs q eq_refl H2 ltac:(rewrite E1; cbn; lia)) as Hb.
      destruct (getBestMatch (a_ratio s') _ q) as [[? ?]| | |]; cbn in Hf, Hb; try (exfalso; exact (Hb I)); subst r2; exact Hb.
    + intros k ke Hk. destruct (exec e' (CKBest k ke t qn i a b) s') as [s2 r2] eqn:E'. cbn [exec] in E'. rewrite Q in E'.
      destruct (search_spec s' t q (fun g t0 => '(g', cs) <- getKBestMatches (e_alg e') (a_ratio s') g t0 k ke ;; Ret (g', ACands cs)) s2 r2 _ G' Hh' E') as (_ & _ & _ & Hf).
      pose proof (kbest_beyond (e_alg e') (a_ratio s') (mkGS (gt_data g) (Some gs)) gs q k ke eq_refl Hk ltac:(rewrite E1; cbn; lia)) as Hb.
      destruct (getKBestMatches (e_alg e') (a_ratio s') _ q k ke) as [[? ?]| | |]; cbn in Hf, Hb; try (exfalso; exact (Hb I)); subst r2; exact Hb.
Qed.
Print Assumptions C33_failed_grouping_refuted.

(** What holds: a failing loadGroups changes nothing if the file cannot be opened or is that
    of a data set of another size.  Missing: files that are cut off (C42), and groupDataset. *)
Theorem C33_failed_loading_partial : forall (N : Num) (r0 : D N) (h : list event) (s : api N) e t path g, run r0 h s ->
  held s t = Some g ->
  e_groups e path = None \/
  (exists cnt len ts, e_groups e path = Some (TI cnt :: TI len :: ts) /\
     (cnt <> ds_count (gt_data g) \/ len <> ds_maxcol (gt_data g))) ->
  exists s' m, exec e (CLoadGroups t path) s = (s', Throw (GenexExc m)) /\ forall n, held s' n = held s n.
Proof.
  intros N r0 h s e t path g Hrun Hh Hbad. pose proof (run_good r0 h s Hrun) as G.
  assert (El : exists m, loadFromFile (e_groups e path) g = (g, Throw (GenexExc m))).
  { destruct Hbad as [->|(cnt & len & ts & -> & Hne)]; [eexists; reflexivity|]. cbn.
    destruct (Z.eqb_spec cnt (ds_count (gt_data g))); cbn; [|eauto].
    destruct (Z.eqb_spec len (ds_maxcol (gt_data g))); cbn; [|eauto]. exfalso. tauto. }
  destruct El as [m El]. destruct (exec e (CLoadGroups t path) s) as [s' r] eqn:E.
  cbn [exec] in E. destruct (on_set_spec s t _ s' r G E) as [(Hn & _)|(g0 & g1 & Hg0 & Ef & _ & Hg1 & Ho & _)]; [congruence|].
  assert (g0 = g) by congruence. subst g0. rewrite El in Ef. cbn in Ef. injection Ef as <- <-.
  exists s', m. split; [reflexivity|]. intros n. destruct (string_dec n t) as [->|Hne]; [congruence|auto].
Qed.
Print Assumptions C33_failed_loading_partial.

(** Grouping again after a failure gives what grouping would have given without it. *)
Theorem C33_retry_partial : forall (N : Num) (r0 : D N) (h : list event) (s : api N) e t thr dist threads whole s1 x
    e' thr' dist' threads' whole' s2 r, run r0 h s ->
  exec e (CGroup t thr dist threads whole) s = (s1, Throw x) ->
  exec e' (CGroup t thr' dist' threads' whole') s1 = (s2, r) ->
  exists s3, exec e' (CGroup t thr' dist' threads' whole') s = (s3, r) /\ forall n, held s3 n = held s2 n.
Proof.
  intros N r0 h s e t thr dist threads whole s1 x e' thr' dist' threads' whole' s2 r Hrun E1 E2.
  pose proof (run_good r0 h s Hrun) as G.
  destruct (held s t) as [g|] eqn:Hh.
  2:{ cbn [exec] in E1. destruct (on_set_spec s t _ s1 _ G E1) as [(_ & -> & _)|(g0 & _ & Hg0 & _)]; [|congruence]. eauto. }
  destruct (group_spec e s t thr dist threads whole s1 _ g G Hh E1) as (G1 & Hr1 & g1 & Eg1 & Hh1 & _ & Ho1).
  destruct (group_spec e' s1 t thr' dist' threads' whole' s2 r g1 G1 Hh1 E2) as (G2 & Hr2 & g2 & Eg2 & Hh2 & Hn2 & Ho2).
  destruct (exec e' (CGroup t thr' dist' threads' whole') s) as [s3 r3] eqn:E3.
  destruct (group_spec e' s t thr' dist' threads' whole' s3 r3 g G Hh E3) as (G3 & Hr3 & g3 & Eg3 & Hh3 & Hn3 & Ho3).
  pose proof (gg_group_data _ _ _ _ _ _ _ _ _ Eg1) as Hd.
  assert (Same : (g2, r) = (g3, r3)).
  { rewrite Hr1 in Eg2. unfold groupAllLengths in Eg1, Eg2, Eg3. rewrite Hd in Eg2.
    assert (Ans : forall ra rb : res (answer N), (forall y, ra = Ret y -> exists n, y = AInt n) -> (forall y, rb = Ret y -> exists n, y = AInt n) ->
       match ra with Ret (AInt n) => Ret n | Ret _ => Ret 0 | Throw x => Throw x | UB u => UB u | Hang => Hang end =
       match rb with Ret (AInt n) => Ret n | Ret _ => Ret 0 | Throw x => Throw x | UB u => UB u | Hang => Hang end -> ra = rb).
    { intros ra rb Ha Hb. destruct ra as [a| | |], rb as [b| | |]; try congruence;
        try (destruct (Ha _ eq_refl) as [n ->]); try (destruct (Hb _ eq_refl) as [n' ->]); congruence. }
    destruct (negb (isLoaded (gt_data g))).
    - injection Eg1 as <- _. injection Eg2 as <- Ea. injection Eg3 as <- Eb. f_equal. apply Ans; [exact Hn2|exact Hn3|congruence].
    - clear Eg1. destruct (1 <=? threads').
      + destruct (gg_group _ _ _ _ _ _ _) as [gs rr]. injection Eg2 as <- Ea. injection Eg3 as <- Eb. f_equal. apply Ans; [exact Hn2|exact Hn3|congruence].
      + injection Eg2 as <- Ea. injection Eg3 as <- Eb. f_equal. apply Ans; [exact Hn2|exact Hn3|congruence]. }
  exists s3. injection Same as <- <-.
  split; [reflexivity|]. intros n. destruct (string_dec n t) as [->|Hne]; [congruence|].
  rewrite Ho3, Ho2, Ho1 by exact Hne. reflexivity.
Qed.
Print Assumptions C33_retry_partial.

(** ** C37 *)

(** C37 is false: once a data set that was prepared is unloaded, its preparation stays.
    When the name is used again, every search with PAA and every new preparation works on
    the deleted data set. *)
Theorem C37_stale_preparation_refuted : forall (N : Num) (r0 : D N) (h : list event) (s : api N) n c g, run r0 h s ->
  c = CUnload n \/ c = CUnloadAll -> prepared_then_unloaded h n c -> held s n = Some g ->
  (forall e B, 1 <= B -> snd (exec e (CPrepare n B) s) = UB UseAfterFree) /\
  (forall e k qn i st en dist f gq q, 1 <= k -> @getDistanceFromName N (dist ++ "_dtw") = Ret f ->
     held s qn = Some gq -> getTimeSeries (gt_data gq) i st en = Ret q ->
     snd (exec e (CPAA k n qn i st en dist) s) = UB UseAfterFree).
Proof.
  intros N r0 h s n c g Hrun Hc Hp Hh. pose proof (run_good _ _ _ Hrun) as G.
  destruct (unloaded_stale r0 h s n c Hrun Hc Hp) as (w & Ew & Hl & Hd). destruct (held_find s n g G Hh) as (id & Fi & _).
  split.
  - intros e B HB. cbn [exec]. rewrite Fi, Ew. unfold wrapper_generate. rewrite Hd. destruct (Z.ltb_spec B 1); [lia|]. reflexivity.
  - intros e k qn i st en dist f gq q Hk Hf Hq Eq. destruct (held_find s qn gq G Hq) as (idq & Fq & Dq & _).
    cbn [exec]. rewrite Fi, Fq. cbn [pure bind snd]. rewrite Ew, Dq. cbn [bind]. rewrite Eq. cbn [bind]. unfold wrapper_search. rewrite Hd.
    destruct (Z.leb_spec k 0); [lia|]. rewrite Hf. reflexivity.
Qed.
Print Assumptions C37_stale_preparation_refuted.

(** What holds: a data set whose name was never prepared is not prepared. *)
Theorem C37_not_prepared_partial : forall (N : Num) (r0 : D N) (h : list event) (s : api N) t qn, run r0 h s ->
  in_use h t = true -> in_use h qn = true -> (forall b r, ~ In (CPrepare t b, r) h) ->
  forall e k i st en dist, exec e (CPAA k t qn i st en dist) s = (s, Throw (GenexExc "Dataset is not prepared for PAA")).
Proof.
  intros N r0 h s t qn Hrun Ht Hq Hn e k i st en dist. pose proof (run_good _ _ _ Hrun) as G.
  apply (run_in_use _ _ _ Hrun) in Ht, Hq. destruct (held s t) as [gt|] eqn:Et; [|contradiction]. destruct (held s qn) as [gq|] eqn:Eq; [|contradiction].
  destruct (held_find s t gt G Et) as (id & Fi & _). destruct (held_find s qn gq G Eq) as (idq & Fq & _).
  assert (Ep : assoc t (a_paa s) = None).
  { destruct (assoc t (a_paa s)) as [w|] eqn:E; [|reflexivity]. destruct (has_origin r0 h s t Hrun) as (b & r & Hi); [eauto|]. destruct (Hn b r Hi). }
  cbn [exec]. rewrite Fi, Fq. unfold pure. cbn [bind]. rewrite Ep. reflexivity.
Qed.
Print Assumptions C37_not_prepared_partial.

(** Preparing works, if the data set has more series than points in each of them and was
    not unloaded since it was prepared for the first time. *)
Theorem C37_prepare_partial : forall (N : Num) (r0 : D N) (h : list event) (s : api N) n g rows, run r0 h s ->
  held s n = Some g -> holds (gt_data g) rows -> wide_enough (gt_data g) rows ->
  (forall h1 b r h2 c a h3, h = h1 ++ (CPrepare n b, r) :: h2 ++ (c, Ret a) :: h3 -> c <> CUnload n /\ c <> CUnloadAll) ->
  forall e B, 1 <= B -> exists s', exec e (CPrepare n B) s = (s', Ret AUnit) /\ forall m, held s' m = held s m.
Proof.
  intros N r0 h s n g rows Hrun Hh Hrows Hwide Hnot e B HB. pose proof (run_good _ _ _ Hrun) as G. pose proof (run_paas _ _ _ Hrun) as P.
  destruct (exec e (CPrepare n B) s) as [s' r] eqn:E.
  destruct (prepare_spec e s n B s' r G E) as (_ & Hheld & _). exists s'. split; [|exact Hheld]. f_equal.
  cbn [exec] in E. destruct (find_alive s n G) as [(id & g' & Ha & Hi & Hg & Hf & Hd & _ & Hh')|(_ & _ & _ & Hh')]; [|congruence].
  assert (g' = g) by congruence. subst g'. rewrite Hf in E.
  pose proof Hrows as (buf & _ & Ec & _). pose proof Hwide as [Hcnt Hlen].
  assert (Gen : forall w : paa N, Z.of_nat (length (paa_mat w)) = Z.max 0 (ds_count (gt_data g)) -> exists w', generatePAAMatrix w (gt_data g) B = (w', Ret tt)).
  { intros w Hw. destruct (generate_ok (gt_data g) rows Hrows w (Z.to_nat (ds_maxcol (gt_data g))) B (wide_item _ _ Hrows Hwide)) as (w' & E' & _).
    - lia.
    - intros row Hin. specialize (Hlen row Hin). lia.
    - lia.
    - exact HB.
    - exists w'. exact E'. }
  destruct (assoc n (a_paa s)) as [w|] eqn:Ew.
  - destruct (P n w Ew) as [Hl Halive].
    assert (Hw : fst w = id).
    { destruct (nth_error (a_objs s) (fst w)) as [[g0|]|] eqn:Eo.
      - destruct (Halive g0 eq_refl) as [Hx _]. congruence.
      - exfalso. destruct (stale_origin r0 h s n Hrun) as (h1 & b & r1 & h2 & c & a & h3 & -> & Hc); [exists w; auto|].
        destruct (Hnot _ _ _ _ _ _ _ eq_refl). destruct Hc; contradiction.
      - apply nth_error_None in Eo. lia. }
    unfold wrapper_generate in E. rewrite Hw, Hg in E. rewrite Hw in Halive. destruct (Halive g Hg) as [_ Hm].
    destruct (Gen (snd w) Hm) as (w' & Eg). rewrite Eg in E. injection E as <- <-. reflexivity.
  - rewrite Hd in E. cbn [bind] in E. destruct (paa_new_ok (gt_data g) rows Hrows) as (w & Enew & _ & Hwl). rewrite Enew in E. cbn [bind] in E.
    unfold wrapper_generate in E. cbn [fst snd] in E. rewrite Hg in E. destruct (Gen w ltac:(lia)) as (w' & Eg). rewrite Eg in E. injection E as <- <-. reflexivity.
Qed.
Print Assumptions C37_prepare_partial.

(** Otherwise preparing reads outside a vector: with as many series as points or less. *)
Theorem C37_prepare_refuted : forall (N : Num) (r0 : D N) (h : list event) (s : api N) n g rows, run r0 h s ->
  held s n = Some g -> holds (gt_data g) rows -> ds_count (gt_data g) <= ds_maxcol (gt_data g) -> (forall b r, ~ In (CPrepare n b, r) h) ->
  forall e B, 1 <= B -> snd (exec e (CPrepare n B) s) = UB OutOfBounds.
Proof.
  intros N r0 h s n g rows Hrun Hh Hrows Hc Hn e B HB. pose proof (run_good _ _ _ Hrun) as G.
  destruct (held_find s n g G Hh) as (id & Fi & Di & _).
  assert (Ep : assoc n (a_paa s) = None).
  { destruct (assoc n (a_paa s)) as [w|] eqn:E; [|reflexivity]. destruct (has_origin r0 h s n Hrun) as (b & r & Hi); [eauto|]. destruct (Hn b r Hi). }
  cbn [exec]. rewrite Fi, Ep, Di. cbn [bind]. destruct (paa_new_ok (gt_data g) rows Hrows) as (w & Enew & _). rewrite Enew. cbn [bind].
  unfold wrapper_generate. cbn [fst snd]. unfold deref_set in Di. destruct (nth_error (a_objs s) id) as [[g0|]|]; try discriminate. injection Di as ->.
  pose proof Hrows as (buf & _ & Ec & El & _ & _).
  pose proof (proj1 (run_lengths r0 h s Hrun n g Hh)) as Hlens. rewrite (C36_prepare_refuted N (gt_data g) w B); [reflexivity| | |exact HB]; lia.
Qed.
Print Assumptions C37_prepare_refuted.

(** ** Examples: histories with actual data *)
Definition ex_file : string := ("1,2" ++ nl1 ++ "3,4" ++ nl1 ++ "5,6")%string.
Definition ex_env : env B64 :=
  mkEnv (N := B64) stodZ putZ putZ (fun _ => None) (fun p => if String.eqb p "f" then Some (mkFile ex_file None) else if String.eqb p "g" then Some (mkFile "1,2,3,4" None) else None) (fun _ => true) (fun _ => None) (fun _ => false) simple_alg.
Definition ex_start : api B64 := api_new (N := B64) (b64_ofZ 1).
Definition ex_load n : call B64 := CLoad n "f" "," 0 0 false.
Definition ex_s1 := fst (exec ex_env (ex_load "x") ex_start).
Definition ex_s2 := fst (exec ex_env (CPrepare "x" 1) ex_s1).
Definition ex_s3 := fst (exec ex_env (CUnload "x") ex_s2).
Definition ex_s4 := fst (exec ex_env (ex_load "x") ex_s3).

Example ex_history : exists a1 a2 a3 a4,
  @run B64 (b64_ofZ 1) [(ex_load "x", Ret a1)] ex_s1 /\
  @run B64 (b64_ofZ 1) [(ex_load "x", Ret a1); (CPrepare "x" 1, Ret a2)] ex_s2 /\
  @run B64 (b64_ofZ 1) [(ex_load "x", Ret a1); (CPrepare "x" 1, Ret a2); (CUnload "x", Ret a3)] ex_s3 /\
  @run B64 (b64_ofZ 1) [(ex_load "x", Ret a1); (CPrepare "x" 1, Ret a2); (CUnload "x", Ret a3); (ex_load "x", Ret a4)] ex_s4.
Proof.
  destruct (run_ret _ _ _ ex_env (ex_load "x") (@run_start B64 (b64_ofZ 1))) as [a1 H1]; [vm_compute; reflexivity|].
  destruct (run_ret _ _ _ ex_env (CPrepare "x" 1) H1) as [a2 H2]; [vm_compute; reflexivity|].
  destruct (run_ret _ _ _ ex_env (CUnload "x") H2) as [a3 H3]; [vm_compute; reflexivity|].
  destruct (run_ret _ _ _ ex_env (ex_load "x") H3) as [a4 H4]; [vm_compute; reflexivity|].
  exists a1, a2, a3, a4. split; [exact H1|]. split; [exact H2|]. split; [exact H3|exact H4].
Qed.

(** what a call did: the texts of the messages, or the kind of undefined behaviour *)
Inductive seen := Done | Raised (m : string) | Undefined (u : ub) | Endless.
Definition sight {A} (r : res A) : seen :=
  match r with Ret _ => Done | Throw (GenexExc m) => Raised m | Throw (StdExc m) => Raised m | UB u => Undefined u | Hang => Endless end.
Definition after (s : api B64) (c : call B64) : seen := sight (snd (exec ex_env c s)).

(** C32 *)
Example C32_example :
  after ex_s1 (ex_load "x") = Raised "Name has already been used" /\
  after ex_s1 (CInfo "y") = Raised "There is no dataset with the given name" /\
  after ex_s3 (CUnload "x") = Raised "There is no dataset with the given name" /\
  after ex_s1 (CLoad "y" "missing" "," 0 0 false) = Raised "Cannot open missing".
Proof. vm_compute. auto. Qed.

(** C33: after the failed grouping the description of the data set is undefined, and so is
    a search *)
Definition ex_failed := fst (exec ex_env (CGroup (N := B64) "x" (b64_ofZ 1) "no such" 1 false) ex_s1).
Example C33_example :
  after ex_s1 (CGroup (N := B64) "x" (b64_ofZ 1) "no such" 1 false) = Raised "Cannot find distance with name: no such" /\
  after ex_s1 (CGroup (N := B64) "x" (b64_ofZ 1) "euclidean" 0 false) = Raised "Number of threads must be positive" /\
  after ex_failed (CInfo "x") = Undefined Uninit /\
  after ex_failed (CBest "x" "x" 0 (-1) (-1)) = Undefined OutOfBounds /\
  after ex_failed (CGroup (N := B64) "x" (b64_ofZ 1) "euclidean" 1 false) = Done /\
  after ex_s1 (CLoadGroups "x" "missing") = Raised "Cannot open file".
Proof. vm_compute. auto 7. Qed.

(** C37 *)
Example C37_example :
  after ex_s1 (CPAA 1 "x" "x" 0 (-1) (-1) "euclidean") = Raised "Dataset is not prepared for PAA" /\
  after ex_s2 (CPAA 1 "x" "x" 0 (-1) (-1) "euclidean") = Done /\
  after ex_s4 (CPAA 1 "x" "x" 0 (-1) (-1) "euclidean") = Undefined UseAfterFree /\
  after ex_s4 (CPrepare "x" 1) = Undefined UseAfterFree.
Proof. vm_compute. auto. Qed.

Example C37_history : exists h, @run B64 (b64_ofZ 1) h ex_s4 /\ prepared_then_unloaded h "x" (CUnload "x") /\ in_use h "x" = true.
Proof.
  destruct ex_history as (a1 & a2 & a3 & a4 & _ & _ & _ & H). eexists. split; [exact H|]. split; [|reflexivity].
  exists [(ex_load "x", Ret a1)], 1, a2, [], a3, [(ex_load "x", Ret a4)]. reflexivity.
Qed.

(** the data of these histories *)
Definition ex_rows : list (list (D B64)) := map (map b64_ofZ) [[1; 2]; [3; 4]; [5; 6]].
Lemma ex_loaded : exists d, @loadData B64 (e_stod ex_env) (e_files ex_env) ds_new "f" 0 0 "," false = (d, Ret tt) /\
  holds (N := B64) d ex_rows /\ ds_maxcol d = 2 /\ ds_count d = 3.
Proof.
  pose proof (C29_load_table B64 stodZ (e_files ex_env) "f" ex_file "," 0 0 false (file_lines ex_file) (map (tokenize ",") (file_lines ex_file)) 2) as C.
  assert (Et : table (N := B64) stodZ (map (skipn (Z.to_nat (0 + 0))) (wanted 0 (map (tokenize ",") (file_lines ex_file)))) = Ret ex_rows) by reflexivity.
  destruct C as (d & E & Hd & Hc & _).
  - reflexivity.
  - apply has_lines_file.
  - generalize (file_lines ex_file). induction l as [|x l IH]; [constructor|]. cbn [map]. constructor; auto.
    destruct (has_fields_ex (c_str ",") x) as [ts H]. rewrite (tokenize_ok _ _ _ H). exact H.
  - discriminate.
  - lia.
  - split; [intros r [<-|[<-|[<-|[]]]]; vm_compute; discriminate|]. exists ["1"; "2"]%string. split; [left; reflexivity|reflexivity].
  - intros r [<-|[<-|[<-|[]]]]; vm_compute; discriminate.
  - vm_compute. discriminate.
  - exists d. split; [exact E|]. split; [exact Hd|]. split; [exact Hc|]. destruct Hd as (buf & _ & Ec & _). exact Ec.
Qed.

Lemma ex_held : exists d, held ex_s1 "x" = Some (mkGS d None) /\ holds (N := B64) d ex_rows /\ ds_maxcol d = 2 /\ ds_count d = 3.
Proof.
  destruct ex_loaded as (d & E & Hd). exists d. split; [|exact Hd].
  destruct ex_history as (a1 & _ & _ & _ & H1 & _). apply (run_last _ [] _ _ _) in H1 as (s0 & e & H0 & _ & _).
  destruct (exec ex_env (ex_load "x") ex_start) as [s1 r1] eqn:E1.
  assert (Hr : is_ret r1 = true) by (replace r1 with (snd (exec ex_env (ex_load "x") ex_start)) by (rewrite E1; reflexivity); vm_compute; reflexivity).
  destruct r1 as [a| | |]; try discriminate Hr.
  destruct (C32_load B64 (b64_ofZ 1) [] ex_start ex_env "x" "f" "," 0 0 false s1 (Ret a) (@run_start B64 (b64_ofZ 1)) E1 I) as [_ Hl].
  destruct (Hl a eq_refl) as (d' & i & El & Hh & _). rewrite E in El. injection El as <-.
  unfold ex_s1. rewrite E1. exact Hh.
Qed.

(** the hypotheses of C37_prepare_partial *)
Example C37_prepare_example : exists h g, run (N := B64) (b64_ofZ 1) h ex_s1 /\ held ex_s1 "x" = Some g /\
  holds (gt_data g) ex_rows /\ wide_enough (gt_data g) ex_rows /\ forall b r, ~ In (CPrepare "x" b, r) h.
Proof.
  destruct ex_history as (a1 & _ & _ & _ & H1 & _). destruct ex_held as (d & Hh & Hd & Hm & Hc).
  exists [(ex_load "x", Ret a1)], (mkGS d None). split; [exact H1|]. split; [exact Hh|]. split; [exact Hd|]. split.
  - cbn. split; [lia|]. rewrite Hm. intros row [<-|[<-|[<-|[]]]]; reflexivity.
  - intros b r [Hx|[]]. discriminate.
Qed.
