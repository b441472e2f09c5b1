(** Property C91: grouping again, or loading groups, makes all earlier groups forgotten.
    Specification: ApiSpec.v and the following two definitions. *)
From Coq Require Import String Ascii Lia.
From Verif Require Import Base Num NumB64 LoopFacts TimeSeries Distance TSSet StdAlg Candidate Group GroupSpace Loader Archive OldFormat BruteForce PAA
  DataSpec DataProofs GroupDist QuerySpec PAAProofs PAAProofs Api ApiSpec ApiProofs ApiQuery HeapFacts PropsLoader PropsApi.
Local Open Scope Z_scope.
Local Open Scope list_scope.

Section Spec.
Context {N : Num}.
(** calls that make, load or search the groups of the data set [n], and calls that only ask for something *)
Definition about_groups (c : call N) (n : string) : Prop :=
  match c with
  | CGroup m _ _ _ _ | CLoadGroups m _ | CLoadText m _ => m = n
  | CBest t _ _ _ _ | CKBest _ _ t _ _ _ _ => t = n
  | CLoad _ _ _ _ _ _ | CUnload _ | CUnloadAll | CNormalize _ | CRatio _ | CPrepare _ _ => False
  | _ => True
  end.
(** [s'] comes after [s] by such calls, each of which returned or raised an exception *)
Inductive meddled (n : string) (s : api N) : api N -> Prop :=
| meddled_not : meddled n s s
| meddled_call s1 e c s2 r : meddled n s s1 -> about_groups c n -> exec e c s1 = (s2, r) -> ends r -> meddled n s s2.
End Spec.

(** ** from here on proofs *)
Lemma upd_upd {A} (l : list A) : forall k x y, upd (upd l k x) k y = upd l k y.
Proof. induction l as [|a l IH]; intros [|k] x y; cbn; auto. f_equal. apply IH. Qed.
Lemma upd_same {A} (l : list A) : forall k x, nth_error l k = Some x -> upd l k x = l.
Proof. induction l as [|a l IH]; intros [|k] x E; cbn in *; try congruence. f_equal. apply IH. exact E. Qed.

Section Proofs.
Context {N : Num}.
Variables (n : string) (s : api N) (id : nat) (g : gset N).
Hypothesis Ha : assoc n (a_sets s) = Some id.
Hypothesis Hg : nth_error (a_objs s) id = Some (Some g).

Lemma alive_put g1 : nth_error (a_objs (put_obj s id (Some g1))) id = Some (Some g1).
Proof. cbn. apply nth_error_upd_same. apply nth_error_Some. rewrite Hg. discriminate. Qed.
Lemma put_put g1 g2 : put_obj (put_obj s id (Some g1)) id (Some g2) = put_obj s id (Some g2).
Proof. unfold put_obj. cbn. rewrite upd_upd. reflexivity. Qed.
Lemma put_nothing : put_obj s id (Some g) = s.
Proof. unfold put_obj. rewrite (upd_same _ _ _ Hg). destruct s; reflexivity. Qed.
Lemma on_put g1 f : on_set (put_obj s id (Some g1)) n f = (put_obj s id (Some (fst (f g1))), snd (f g1)).
Proof.
  unfold on_set, find_id. cbn [a_sets put_obj]. rewrite Ha. unfold deref_set. change (a_objs (put_obj s id (Some g1))) with (a_objs (put_obj s id (Some g1))).
  rewrite alive_put. destruct (f g1) as [g2 r]. cbn [fst snd]. rewrite put_put. reflexivity.
Qed.

Lemma meddled_put s1 : meddled n s s1 -> exists g1, s1 = put_obj s id (Some g1) /\ gt_data g1 = gt_data g.
Proof.
  induction 1 as [|s1 e c s2 r _ (g1 & -> & Hd) Hc E Hr]; [exists g; split; [symmetry; apply put_nothing|reflexivity]|].
  assert (Same : put_obj s id (Some g1) = s2 -> exists g2, s2 = put_obj s id (Some g2) /\ gt_data g2 = gt_data g) by (intros <-; eauto).
  assert (Onset : forall f, on_set (put_obj s id (Some g1)) n f = (s2, r) -> gt_data (fst (f g1)) = gt_data g1 -> exists g2, s2 = put_obj s id (Some g2) /\ gt_data g2 = gt_data g).
  { intros f Eo Hf. rewrite on_put in Eo. injection Eo as <- _. eexists. split; [reflexivity|]. congruence. }
  destruct c; cbn [about_groups] in Hc; try contradiction; try (unfold exec, pure in E; injection E as E _; apply Same; exact E); subst.
  - cbn [exec] in E. apply (Onset _ E). destruct (groupAllLengths _ _ g1 _ _ _ _) as [g2 r2] eqn:Eg. exact (gg_group_data _ _ _ _ _ _ _ _ _ Eg).
  - cbn [exec] in E. apply (Onset _ E). destruct (loadFromFile _ g1) as [g2 r2] eqn:Eg. exact (load_data_same _ _ _ _ Eg).
  - cbn [exec] in E. apply (Onset _ E). destruct (loadGroupsOld _ _ g1) as [g2 r2] eqn:Eg. exact (load_text_data_same _ _ _ _ _ Eg).
  - cbn [exec] in E. destruct (query_series _ _ _ _ _ _) as [q| | |]; cbn [search_groups] in E; try (injection E as E _; apply Same; exact E).
    apply (Onset _ E). destruct (getBestMatch _ g1 q) as [[g2 c]| | |] eqn:Eb; try reflexivity. exact (best_data _ _ _ _ _ Eb).
  - cbn [exec] in E. destruct (query_series _ _ _ _ _ _) as [q| | |]; cbn [search_groups] in E; try (injection E as E _; apply Same; exact E).
    apply (Onset _ E). destruct (getKBestMatches _ _ g1 q _ _) as [[g2 c]| | |] eqn:Eb; try reflexivity. exact (kbest_data _ _ _ _ _ _ _ _ Eb).
Qed.
End Proofs.

Lemma meddled_none {N : Num} n (s s1 : api N) : assoc n (a_sets s) = None -> meddled n s s1 -> s1 = s.
Proof.
  intros Ha. induction 1 as [|s1 e c s2 r _ -> Hc E Hr]; [reflexivity|].
  assert (Onset : forall f, on_set s n f = (s2, r) -> s2 = s) by (intros f Eo; unfold on_set, find_id in Eo; rewrite Ha in Eo; injection Eo as <- _; reflexivity).
  destruct c; cbn [about_groups] in Hc; try contradiction; try (unfold exec, pure in E; injection E as E _; symmetry; exact E); subst;
    try (cbn [exec] in E; exact (Onset _ E)).
  - cbn [exec] in E. destruct (query_series _ _ _ _ _ _) as [q| | |]; cbn [search_groups] in E; try (injection E as E _; symmetry; exact E). exact (Onset _ E).
  - cbn [exec] in E. destruct (query_series _ _ _ _ _ _) as [q| | |]; cbn [search_groups] in E; try (injection E as E _; symmetry; exact E). exact (Onset _ E).
Qed.

Lemma load_forgets {N : Num} ts (g1 g : gset N) g' u : gt_data g1 = gt_data g -> load g ts = (g', Ret u) -> load g1 ts = (g', Ret u).
Proof.
  intros Hd. unfold load, and_then. destruct ('(cnt, ts) <- get_int ts ;; '(len, ts) <- get_int ts ;; Ret (cnt, len, ts)) as [[[cnt len] ts']| | |]; try discriminate.
  rewrite Hd. destruct (negb _); [discriminate|]. destruct (negb _); [discriminate|]. auto.
Qed.
Lemma load_text_forgets {N : Num} scan text (g1 g : gset N) g' z : gt_data g1 = gt_data g ->
  loadGroupsOld scan text g = (g', Ret z) -> loadGroupsOld scan text g1 = (g', Ret z).
Proof.
  intros Hd. unfold loadGroupsOld. destruct text as [text|]; [|discriminate].
  destruct (read_int _ _) as [v s1]. destruct (read_dbl _ _ _) as [x s2]. destruct (read_int _ s2) as [c s3]. destruct (read_int _ s3) as [m s4].
  unfold and_then. destruct (init_get v); try discriminate. destruct (negb _); [discriminate|]. destruct (init_get c); try discriminate.
  rewrite Hd. destruct (negb _); [discriminate|]. auto.
Qed.

(** The state after grouping and the outcome are the same whatever was done with the groups before; this holds for
    groupings that fail as well. *)
Theorem C91_grouping : forall (N : Num) (r0 : D N) (h : list event) (s s1 : api N) n e thr dist threads whole, run r0 h s ->
  meddled n s s1 -> exec e (CGroup n thr dist threads whole) s1 = exec e (CGroup n thr dist threads whole) s.
Proof.
  intros N r0 h s s1 n e thr dist threads whole Hrun Hm. pose proof (run_good _ _ _ Hrun) as G.
  destruct (find_alive s n G) as [(id & g & Ha & _ & Hg & _ & _ & _ & Hh)|(Ha & _)]; [|rewrite (meddled_none n s s1 Ha Hm); reflexivity].
  destruct (meddled_put n s id g Ha Hg s1 Hm) as (g1 & -> & Hd). destruct (run_lengths r0 h s Hrun n g Hh) as [_ Hl].
  replace (exec e (CGroup n thr dist threads whole) s) with (exec e (CGroup n thr dist threads whole) (put_obj s id (Some g))) by (rewrite (put_nothing n s id g Ha Hg); reflexivity).
  cbn [exec]. rewrite !(on_put n s id g Ha Hg). cbn [a_ratio put_obj].
  unfold groupAllLengths. rewrite Hd, Hl. cbn [negb]. destruct (1 <=? threads); [|reflexivity]. destruct (gg_group _ _ _ _ _ _ _). reflexivity.
Qed.
Print Assumptions C91_grouping.

(** The same for loading groups, if it succeeds. *)
Theorem C91_loading : forall (N : Num) (r0 : D N) (h : list event) (s s1 s2 : api N) n e path c a, run r0 h s ->
  meddled n s s1 -> c = CLoadGroups n path \/ c = CLoadText n path ->
  exec e c s = (s2, Ret a) -> exec e c s1 = (s2, Ret a).
Proof.
  intros N r0 h s s1 s2 n e path c a Hrun Hm Hc E. pose proof (run_good _ _ _ Hrun) as G.
  destruct (find_alive s n G) as [(id & g & Ha & _ & Hg & _ & _ & _ & Hh)|(Ha & _)]; [|rewrite (meddled_none n s s1 Ha Hm); exact E].
  destruct (meddled_put n s id g Ha Hg s1 Hm) as (g1 & -> & Hd). rewrite <- (put_nothing n s id g Ha Hg) in E.
  destruct Hc as [-> | ->]; cbn [exec] in *; rewrite (on_put n s id g Ha Hg) in E |- *.
  - destruct (loadFromFile (e_groups e path) g) as [g' r] eqn:El. cbn [fst snd] in E. destruct r as [u| | |]; cbn [bind] in E; try discriminate.
    assert (El' : loadFromFile (e_groups e path) g1 = (g', Ret u)).
    { unfold loadFromFile in *. destruct (e_groups e path); [|discriminate]. exact (load_forgets _ g1 g _ _ Hd El). }
    rewrite El'. exact E.
  - destruct (loadGroupsOld (e_scan e) (option_map tf_text (e_files e path)) g) as [g' r] eqn:El. cbn [fst snd] in E. destruct r as [u| | |]; cbn [bind] in E; try discriminate.
    rewrite (load_text_forgets _ _ g1 g _ _ Hd El). exact E.
Qed.
Print Assumptions C91_loading.

(** The data set of the examples of C32 is grouped, searched, and grouped again without success: no threads. *)
Definition med_1 : api B64 := fst (exec ex_env (CGroup (N := B64) "x" (b64_ofZ 1) "euclidean" 1 false) ex_s1).
Definition med_2 : api B64 := fst (exec ex_env (CBest "x" "x" 0 (-1) (-1)) med_1).
Definition med_3 : api B64 := fst (exec ex_env (CGroup (N := B64) "x" (b64_ofZ 1) "euclidean" 0 false) med_2).
Definition counted (r : res (answer B64)) : option Z := match r with Ret (AInt z) => Some z | _ => None end.
Definition endsb {A} (r : res A) : bool := match r with Ret _ | Throw _ => true | _ => false end.
Lemma meddled_fst n (s s1 : api B64) e c : meddled n s s1 -> about_groups c n -> endsb (snd (exec e c s1)) = true -> meddled n s (fst (exec e c s1)).
Proof.
  intros H Hc Hr. destruct (exec e c s1) as [s2 r] eqn:E. cbn [fst snd] in *. apply (meddled_call n s s1 e c s2 r); auto. destruct r; try discriminate Hr; exact I.
Qed.
Example C91_example : (exists h, run (N := B64) (b64_ofZ 1) h ex_s1) /\ meddled "x" ex_s1 med_3 /\
  counted (snd (exec ex_env (CGroup (N := B64) "x" (b64_ofZ 1) "euclidean" 1 false) ex_s1)) = Some 3 /\
  counted (snd (exec ex_env (CGroup (N := B64) "x" (b64_ofZ 9) "euclidean" 1 false) med_3)) = Some 1.
Proof.
  split; [destruct ex_history as (a1 & _ & _ & _ & H1 & _); eexists; exact H1|]. split.
  - apply (meddled_fst "x" ex_s1 med_2); [|reflexivity|vm_compute; reflexivity].
    apply (meddled_fst "x" ex_s1 med_1); [|reflexivity|vm_compute; reflexivity].
    apply (meddled_fst "x" ex_s1 ex_s1); [constructor|reflexivity|vm_compute; reflexivity].
  - vm_compute. auto.
Qed.
