(** Properties C30, C35 and C43 once more, through the interface: saving and loading data sets
    and groups by name, in one session or in two.
    Specification: ArchiveSpec.v, ApiSpec.v, DataSpec.v. *)
From Coq Require Import String Ascii.
From Verif Require Import Base Num NumB64 NumLaws NumFacts LoopFacts TimeSeries Distance DistSpec TSSet StdAlg HeapFacts Candidate Group GroupSpace
  Loader LoaderSpec LoaderProofs Archive DataSpec DataProofs GroupSpec GroupView QuerySpec PropsDistance PropsGroup ArchiveSpec PropsArchive PropsLoader Api ApiSpec ApiProofs ApiQuery PropsApi PropsApiQuery.
Local Open Scope Z_scope.
Local Open Scope list_scope.

(** The calls saveGroups, in a session [s], and loadGroups of that file, in any session [s2],
    for a data set with the same values: the call answers with the number of groups saved, the
    data set has the groups saved, and no other data set changes. *)
Theorem C35_calls : forall (N : Num) (LW : NumLaws N) (H : std_alg) (rows : list (list (D N))) (k : kind) (thr : D N) whole maxcol b
    (r0 : D N) h (s : api N) e n path g,
  1 <= maxcol -> nltb (ndiv thr (nofZ 2)) ninf = true -> run r0 h s -> held s n = Some g ->
  history H rows k thr whole maxcol b g -> (whole = true -> b = false) -> e_writable e path = true ->
  exists ts, exec e (CSaveGroups n path) s = (s, Ret (AArchive ts)) /\
  forall (r2 : D N) h2 (s2 : api N) e2 n2 path2 g2, run r2 h2 s2 -> held s2 n2 = Some g2 ->
    holds (gt_data g2) rows -> ds_maxcol (gt_data g2) = maxcol -> e_groups e2 path2 = Some ts ->
    exists s3 g3, exec e2 (CLoadGroups n2 path2) s2 = (s3, Ret (AInt (getTotalNumberOfGroups g))) /\
      held s3 n2 = Some g3 /\ gt_data g3 = gt_data g2 /\ same_groups g g3 /\
      forall m, m <> n2 -> held s3 m = held s2 m.
Proof.
  intros N LW H rows k thr whole maxcol b r0 h s e n path g Hm Hthr Hrun Hh Hist Hb Hw.
  assert (Es : exists ts, saveToFile true (e_groups e path) g = (Some ts, Ret tt)).
  { destruct (history_kept H rows k thr whole maxcol b g Hm Hthr Hist) as (Hd & Hmax & _).
    destruct (C35_save_load H rows k thr whole maxcol b g (e_groups e path) (gt_data g) None Hm Hthr Hist Hb Hd Hmax) as (f' & g' & E1 & E2 & _).
    destruct f' as [ts|]; [exists ts; exact E1|]. unfold saveToFile in E1. destruct (save g); discriminate E1. }
  destruct Es as [ts Es]. exists ts. split.
  - cbn [exec]. assert (Hf : find_set s n = Ret g) by (revert Hh; unfold held; destruct (find_set s n); [intros [= ->]; reflexivity|discriminate..]).
    unfold pure. rewrite Hf. cbn [bind]. rewrite Hw, Es. reflexivity.
  - intros r2 h2 s2 e2 n2 path2 g2 Hrun2 Hh2 Hd2 Hm2 Hf. pose proof (run_good _ _ _ Hrun2) as G2.
    destruct (exec e2 (CLoadGroups n2 path2) s2) as [s3 r] eqn:E. cbn [exec] in E.
    destruct (on_set_spec s2 n2 _ s3 r G2 E) as [(Hn & _)|(g0 & g3 & Hg0 & Ef & _ & Hg3 & Ho & _)]; [congruence|].
    assert (g0 = g2) by congruence. subst g0. rewrite Hf in Ef. destruct g2 as [d2 old]. cbn [gt_data] in *.
    destruct (C35_save_load H rows k thr whole maxcol b g (e_groups e path) d2 old Hm Hthr Hist Hb Hd2 Hm2) as (f' & g' & E1 & E2 & Ed & Hs).
    rewrite Es in E1. injection E1 as <-. rewrite E2 in Ef. cbn in Ef. injection Ef as <- <-.
    exists s3, g'. split; [f_equal; f_equal; f_equal; exact (proj1 (proj2 (proj2 (proj2 Hs))))|]. auto.
Qed.
Print Assumptions C35_calls.

(** A file that cannot be opened for writing: the library's exception, nothing of the session
    changes and the file keeps its contents. *)
Theorem C43_not_writable_partial : forall (N : Num) (r0 : D N) h (s : api N) e n path, run r0 h s -> in_use h n = true ->
  e_writable e path = false -> exists m, exec e (CSaveGroups n path) s = (s, Throw (GenexExc m)) /\
  forall old (g : gset N), saveToFile (e_writable e path) old g = (old, Throw (GenexExc m)).
Proof.
  intros N r0 h s e n path Hrun Hu Hw. exists "Cannot open file"%string.
  pose proof (run_good _ _ _ Hrun) as G.
  destruct (find_alive s n G) as [(id & g & Ha & Hi & Hg & Hf & Hde & Hs & Hh)|(Ha & Hf & Hx & Hh)].
  - rewrite Hw. split; [|intros old g'; reflexivity]. cbn [exec]. unfold pure. rewrite Hs, Hw. reflexivity.
  - exfalso. exact (proj1 (run_in_use r0 h s Hrun n) Hu Hh).
Qed.
Print Assumptions C43_not_writable_partial.

(** the hypotheses of C35_calls: the example of PropsApi.v, grouped *)
Example C35_calls_example : exists h g, run (N := B64) (b64_ofZ 1) h ex_group /\ held ex_group "x" = Some g /\
  history (N := B64) simple_alg ex_rows KEuclidean (b64_ofZ 1) false 2 false g /\ e_writable ex_env "p" = true /\
  nltb (n := B64) (ndiv (n := B64) (b64_ofZ 1) (nofZ 2)) ninf = true.
Proof.
  destruct ex_history as (a1 & _ & _ & _ & H1 & _). destruct ex_held as (d & Hh & Hd & Hm & Hc).
  destruct (exec ex_env (CGroup (N := B64) "x" (b64_ofZ 1) "euclidean" 1 false) ex_s1) as [s1 r] eqn:E.
  assert (Hr : is_ret r = true) by (replace r with (snd (exec ex_env (CGroup (N := B64) "x" (b64_ofZ 1) "euclidean" 1 false) ex_s1)) by (rewrite E; reflexivity);
    vm_compute; reflexivity).
  destruct r as [n| | |]; try discriminate Hr.
  assert (Eg : ex_group = s1) by (unfold ex_group; rewrite E; reflexivity).
  destruct (group_spec ex_env ex_s1 "x" (b64_ofZ 1) "euclidean" 1 false s1 (Ret n) _ (run_good _ _ _ H1) Hh E) as (_ & _ & g1 & Eg1 & Hg1 & Hn & _).
  destruct (Hn n eq_refl) as [tot ->].
  eexists. exists g1. rewrite Eg. split; [eapply run_call; [exact H1|exact E|exact I]|]. split; [exact Hg1|]. split; [|split; [reflexivity|vm_compute; reflexivity]].
  eapply by_grouping with (d := d) (clock := fun _ => false); [exact Hd|exact Hm| | |exact Eg1]; [lia|intros l Hl; left; reflexivity].
Qed.

(** ** data sets *)

(** loading a file under a free name ends as reading the file does *)
Lemma load_ends {N : Num} (s : api N) e n path seps mr sc hn d o : good s -> held s n = None ->
  loadData (e_stod e) (e_files e) ds_new path mr sc seps hn = (d, o) -> ends o ->
  ends (snd (exec e (CLoad n path seps mr sc hn) s)).
Proof.
  intros G Hn El Ho. cbn [exec]. destruct (find_alive s n G) as [(id & g & Ha & Hi & Hg & Hf & Hd & _ & Hh)|(Ha & Hf & _ & Hh)]; [congruence|].
  rewrite Ha, El. destruct o as [[]|[m|w]| |]; try exact I; try (destruct Ho).
  set (s1 := mkApi _ _ _ _ _).
  assert (Hn1 : held s1 n = Some (mkGS d None)).
  { eapply held_of with (id := length (a_objs s)).
    - unfold s1. cbn. rewrite assoc_put; [rewrite String.eqb_refl; reflexivity|apply G].
    - unfold s1. cbn. rewrite nth_error_app2 by lia. rewrite Nat.sub_diag. reflexivity. }
  destruct (info_fresh s1 n _ Hn1 eq_refl) as (i & Ei & _). unfold pure. rewrite Ei. exact I.
Qed.

(** The calls saveDataset, in a session [s], and loadDataset of that file with the same
    separator, in any session [s2], under a name that is not in use there: the new data set has
    the names of the old one and the values that parsing the printed values gives; if one of
    these is no number, the load fails like parsing it.  No other data set changes. *)
Theorem C30_calls : forall (N : Num) (r0 : D N) h (s : api N) e n path sep g rows,
  run r0 h s -> held s n = Some g -> holds (gt_data g) rows ->
  ds_names (gt_data g) = [] \/ length (ds_names (gt_data g)) = length rows ->
  sep <> newline -> sep <> zero ->
  Forall (clean sep) (ds_names (gt_data g)) -> Forall (Forall (fun v => clean sep (e_put e v))) rows ->
  ds_count (gt_data g) * (ds_maxcol (gt_data g) + 1) <= int_max -> e_writable e path = true ->
  exists text, exec e (CSave n path sep) s = (s, Ret (AText text)) /\
  forall (r2 : D N) h2 (s2 : api N) e2 n2 path2, run r2 h2 s2 -> in_use h2 n2 = false -> e_files e2 path2 = Some (mkFile text None) ->
    let load := CLoad n2 path2 (String sep "") 0 0 (match ds_names (gt_data g) with [] => false | _ => true end) in
    match table (e_stod e2) (map (map (e_put e)) rows) with
    | Ret rows' => exists s3 i g3, exec e2 load s2 = (s3, Ret (AInfo i)) /\ held s3 n2 = Some g3 /\ holds (gt_data g3) rows' /\
        ds_names (gt_data g3) = ds_names (gt_data g) /\ isGrouped g3 = false /\ forall m, m <> n2 -> held s3 m = held s2 m
    | Throw x => exists s3, exec e2 load s2 = (s3, Throw x) /\ forall m, held s3 m = held s2 m
    | _ => False
    end.
Proof.
  intros N r0 h s e n path sep g rows Hrun Hh Hd Hn Hnl Hz HN HR Hsz Hw.
  destruct (C30_save_reload N (e_stod e) (e_put e) sep (gt_data g) rows path Hd Hn Hnl Hz HN HR Hsz) as (text & E1 & _).
  exists text. split.
  - cbn [exec]. assert (Hf : find_set s n = Ret g) by (revert Hh; unfold held; destruct (find_set s n); [intros [= ->]; reflexivity|discriminate..]).
    unfold pure. rewrite Hf. cbn [bind]. rewrite Hw, E1. reflexivity.
  - intros r2 h2 s2 e2 n2 path2 Hrun2 Hu Hf load. pose proof (run_good _ _ _ Hrun2) as G2.
    assert (Hnone : held s2 n2 = None).
    { destruct (held s2 n2) eqn:Eh; [|reflexivity]. assert (in_use h2 n2 = true) by (apply (run_in_use r2 h2 s2 Hrun2); congruence). congruence. }
    destruct (C30_save_reload N (e_stod e2) (e_put e) sep (gt_data g) rows path Hd Hn Hnl Hz HN HR Hsz) as (text' & E1' & E2).
    rewrite E1 in E1'. injection E1' as <-. specialize (E2 (e_files e2) path2 Hf). cbv zeta in E2.
    destruct (table (e_stod e2) (map (map (e_put e)) rows)) as [rows'|x| |]; try exact E2.
    + destruct E2 as (d' & El & Hd' & Hn' & _). pose proof (load_ends s2 e2 n2 _ _ _ _ _ d' _ G2 Hnone El I) as He.
      destruct (exec e2 load s2) as [s3 r] eqn:Ex. unfold load in Ex. rewrite Ex in He.
      destruct (load_spec e2 s2 n2 _ _ _ _ _ s3 r G2 Ex He) as [(Hc & _)|(_ & _ & d1 & o & El' & [(x & -> & _)|(i & -> & -> & _ & Hg3 & Ho & _)])];
        [contradiction|rewrite El in El'; discriminate El'|].
      rewrite El in El'. injection El' as <-. exists s3, i, (mkGS d' None). splits; auto.
    + destruct E2 as (d' & El & _). pose proof (load_ends s2 e2 n2 _ _ _ _ _ d' _ G2 Hnone El I) as He.
      destruct (exec e2 load s2) as [s3 r] eqn:Ex. unfold load in Ex. rewrite Ex in He.
      destruct (load_spec e2 s2 n2 _ _ _ _ _ s3 r G2 Ex He) as [(Hc & _)|(_ & _ & d1 & o & El' & [(y & -> & -> & Ho & _)|(i & -> & _)])];
        [contradiction| |rewrite El in El'; discriminate El'].
      rewrite El in El'. injection El' as _ ->. exists s3. auto.
Qed.
Print Assumptions C30_calls.

Definition names_of (o : option (gset B64)) : option (list string) := match o with Some g => Some (ds_names (gt_data g)) | None => None end.

Example C30_calls_example : exists h g, run (N := B64) (b64_ofZ 1) h ex_s1 /\ held ex_s1 "x" = Some g /\ holds (N := B64) (gt_data g) ex_rows /\
  ds_names (gt_data g) = [] /\ Forall (Forall (fun v => clean ";" (e_put ex_env v))) ex_rows /\
  ds_count (gt_data g) * (ds_maxcol (gt_data g) + 1) <= int_max /\ e_writable ex_env "p" = true.
Proof.
  destruct ex_history as (a1 & _ & _ & _ & H1 & _). destruct ex_held as (d & Hh & Hd & Hm & Hc).
  eexists. exists (mkGS d None). split; [exact H1|]. split; [exact Hh|]. split; [exact Hd|].
  split; [|split; [|split; [cbn [gt_data]; rewrite Hm, Hc; unfold int_max; lia|reflexivity]]].
  - assert (En : names_of (held ex_s1 "x") = Some []) by (vm_compute; reflexivity). rewrite Hh in En. injection En as En. exact En.
  - repeat (apply Forall_cons || apply Forall_nil); (eapply putZ_ok; [vm_compute; reflexivity|repeat constructor; discriminate|reflexivity]).
Qed.
