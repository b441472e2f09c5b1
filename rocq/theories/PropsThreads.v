(** Property C20: grouping with several threads.  The threads are the transition
    system of ThreadPool.v; specification: [groupAllLengths] with one thread, and
    [grouped_length] (GroupView.v). *)
From Coq Require Import String Permutation Arith.
From Flocq Require Import IEEE754.BinarySingleNaN.
From Verif Require Import Base Num NumB64 NumB64Laws NumLaws LoopFacts TimeSeries Lemire Distance TSSet StdAlg Candidate Group GroupSpace
  DataSpec DataProofs GroupSpec GroupView Members GroupProofs GroupAll GroupDist PropsGroup ThreadPool PoolProofs PoolGroup.
Local Open Scope Z_scope.
Local Open Scope list_scope.

(** the lengths grouped are [first_length] to the longest *)
Definition first_length {N} (d : dataset N) (whole : bool) : Z := Z.max 0 (if whole then ds_maxcol d else 2).
Definition lengths_count {N} (d : dataset N) (whole : bool) : nat := Z.to_nat (ds_maxcol d + 1 - first_length d whole).

(** the grouping of no length ends in undefined behaviour or in an endless loop *)
Definition no_ub {N : Num} clock (d : dataset N) pw ratio thr whole : Prop :=
  forall l, first_length d whole <= l <= ds_maxcol d ->
    (exists L, group_level clock d pw ratio thr l = Ret L) \/ (exists e, group_level clock d pw ratio thr l = Throw e).

(** a reachable state of the pool that groups [d] *)
Definition grouping_pool {N : Num} clock (d : dataset N) pw ratio thr whole threads steps spurious s : Prop :=
  pool_of_grouping clock d pw ratio thr (first_length d whole) (lengths_count d whole) threads steps spurious s.

(** the lengths whose grouping was started on the way to state [s], latest first *)
Definition lengths_started {N : Num} clock (d : dataset N) pw ratio thr whole threads (ls : list Z) s : Prop :=
  exists l, ls = map (fun t => first_length d whole + Z.of_nat t) l /\
  started (fun t => ll_new d (first_length d whole + Z.of_nat t))
      (fun t L => generateGroups (clock (first_length d whole + Z.of_nat t)) d pw ratio thr L)
      (fun L => Z.of_nat (length (ll_groups L))) (lengths_count d whole) threads l s.

Section Th.
Context {N : Num}.
Notation D := (D N).

Lemma safe_tasks clock (d : dataset N) pw ratio thr whole : no_ub clock d pw ratio thr whole ->
  forall t, (t < lengths_count d whole)%nat ->
  let r := tres (fun t => ll_new d (first_length d whole + Z.of_nat t))
      (fun t L => generateGroups (clock (first_length d whole + Z.of_nat t)) d pw ratio thr L)
      (fun L : llgs N => Z.of_nat (length (ll_groups L))) t in
  (exists c, r = Ret c) \/ (exists e, r = Throw e).
Proof.
  intros H t Ht. cbn zeta. rewrite tres_level. unfold lengths_count in Ht.
  destruct (H (first_length d whole + Z.of_nat t)) as [[L ->]|[e ->]]; [lia| |]; cbn; eauto.
Qed.

(** every length of [grouped_length] is between these bounds *)
Lemma in_lengths (d : dataset N) whole l : 1 <= ds_maxcol d ->
  grouped_length d whole l <-> In l (map (fun t => first_length d whole + Z.of_nat t) (seq 0 (lengths_count d whole))).
Proof.
  intros H. rewrite in_map_iff. unfold grouped_length, lengths_count, first_length. split.
  - intros Hl. exists (Z.to_nat (l - Z.max 0 (if whole then ds_maxcol d else 2))). rewrite in_seq. destruct whole; lia.
  - intros (t & <- & Ht). apply in_seq in Ht. destruct whole; lia.
Qed.

Lemma can_finish clock (d : dataset N) pw ratio thr whole threads steps spurious s :
  no_ub clock d pw ratio thr whole -> (1 <= threads)%nat ->
  grouping_pool clock d pw ratio thr whole threads steps spurious s ->
  exists steps' s' total r, grouping_pool clock d pw ratio thr whole threads steps' spurious s' /\ p_main s' = MDone total r.
Proof.
  intros Hn Ht. set (B := (11 * lengths_count d whole + 5 * threads + 5 + 3 * spurious)%nat).
  assert (G : forall m steps s, (B <= steps + m)%nat -> grouping_pool clock d pw ratio thr whole threads steps spurious s ->
    exists steps' s' total r, grouping_pool clock d pw ratio thr whole threads steps' spurious s' /\ p_main s' = MDone total r).
  2: { apply (G B). lia. }
  induction m as [|m IH]; intros st s0 Hm Hr;
    pose proof (run_bound _ _ _ _ _ (safe_tasks clock d pw ratio thr whole Hn) Ht _ _ _ Hr) as Hb;
    destruct (progress _ _ _ _ _ (safe_tasks clock d pw ratio thr whole Hn) Ht _ _ _ Hr) as [(total & r & E)|[s' Hs']].
  - exists st, s0, total, r. auto.
  - exfalso. pose proof (run_step _ _ _ _ _ _ _ _ _ _ Hr Hs') as Hr'.
    pose proof (run_bound _ _ _ _ _ (safe_tasks clock d pw ratio thr whole Hn) Ht _ _ _ Hr') as Hb'. subst B. lia.
  - exists st, s0, total, r. auto.
  - apply (IH (S st) s'); [lia|]. exact (run_step _ _ _ _ _ _ _ _ _ _ Hr Hs').
Qed.

(** several threads against one, any data set object *)
Lemma mt_result clock (d : dataset N) ratio gs0 name thr threads whole gs' r : (1 <= threads)%nat ->
  (forall pw, getDistanceFromName name = Ret pw -> no_ub clock d pw ratio thr whole) ->
  gg_groupMT clock d ratio gs0 name thr threads whole gs' r ->
  exists levels, gg_group clock d ratio gs0 name thr whole
    = (mkGG (gg_name gs') levels (gg_pw gs') (gg_warp gs') (gg_threshold gs') (gg_total gs') (gg_whole gs'), r) /\
    ((exists c, r = Ret c) -> levels = gg_levels gs').
Proof.
  intros Ht Hn H. unfold gg_group. destruct H as [gs' e E|gs' E Hneg|gs' pw lo steps spurious s total r E Hpos Epw Elo Hpool Em]; rewrite E.
  - destruct gs'. eexists. split; [reflexivity|]. intros [c Hc]. discriminate.
  - destruct (Z.ltb_spec (ds_maxcol d + 1) 0); [|lia]. destruct gs'. eexists. split; [reflexivity|]. intros [c Hc]. discriminate.
  - destruct (Z.ltb_spec (ds_maxcol d + 1) 0); [lia|]. cbn [gg_pw gg_name gg_warp gg_threshold gg_total gg_whole gg_levels]. rewrite Epw.
    assert (Ename : getDistanceFromName name = Ret pw).
    { unfold gg_loadDistance in E. cbn in E. destruct (getDistanceFromName name) as [pw'| | |]; try discriminate.
      destruct (warpedFor name); try discriminate. injection E as <-. cbn in Epw. congruence. }
    assert (Emin : Z.max 0 (gg_minLength (mkGG (gg_name gs') (repeat None (Z.to_nat (ds_maxcol d + 1))) (Some pw) (gg_warp gs') (Some thr) 0 whole)) = lo).
    { unfold gg_minLength. cbn [gg_whole gg_levels]. rewrite repeat_length. subst lo. destruct whole; lia. }
    rewrite Emin. change (lo = first_length d whole) in Elo.
    set (n := Z.to_nat (ds_maxcol d + 1 - lo)) in *.
    assert (Hsafe := safe_tasks clock d pw ratio thr whole (Hn pw Ename)). rewrite <- Elo in Hsafe.
    assert (Hc : lengths_count d whole = n) by (unfold n; rewrite Elo; reflexivity). rewrite Hc in Hsafe.
    assert (Hlo : 0 <= lo) by (rewrite Elo; unfold first_length; lia).
    destruct (pool_slots clock d pw ratio thr lo n threads steps spurious (ds_maxcol d + 1) s total r Hsafe Ht Hlo Hpos eq_refl Hpool Em) as (Ho & El).
    destruct (Nat.eq_dec n 0) as [Hz|Hz].
    + (* no length to group *)
      rewrite El, Hz in *. destruct Ho as (t & Ht0 & _ & Etot & Hr).
      assert (t = O) by lia. subst t. cbn in Etot. subst total. destruct Hr as [[_ ->]|[Hr _]]; [|lia].
      cbn [group_loop gg_total]. eexists. split; [reflexivity|]. intros _. rewrite (slots_0 clock d pw ratio thr lo). reflexivity.
    + destruct (loop_result clock d pw ratio thr lo (Z.to_nat (ds_maxcol d + 1)) (gg_name gs') (Some pw) (gg_warp gs') (Some thr) whole n total r Hlo) as (levels & EL & Hlev);
        [unfold n in *; lia|exact Ho|].
      rewrite EL, El. eexists. split; [reflexivity|]. exact Hlev.
Qed.

Lemma generate_safe b b' (d : dataset N) pw ratio thr L :
  (b = false \/ ds_count d = 0 \/ 5 <= ll_sub L * ds_count d < 21474840) -> (b' = false \/ ds_count d = 0 \/ 5 <= ll_sub L * ds_count d < 21474840) ->
  generateGroups b d pw ratio thr L = generateGroups b' d pw ratio thr L.
Proof.
  intros H H'. destruct b, b'; auto; apply generate_clock; destruct H as [H|H], H' as [H'|H']; try discriminate; auto.
Qed.
End Th.

Section Th2.
Context {N : Num} {LW : NumLaws N}.
Notation D := (D N).

Lemma level_safe (d : dataset N) rows clock (ratio : D) name pw thr whole : holds d rows -> In name groupable ->
  getDistanceFromName name = Ret pw -> nltb (ndiv thr (nofZ 2)) ninf = true -> 1 <= ds_maxcol d -> log_safe d clock ->
  no_ub clock d pw ratio thr whole.
Proof.
  intros Hd Hn Epw Hthr Hm Hlog l Hl. left.
  destruct (groupable_pw (N := N) name Hn) as (M & w & Epw' & _). rewrite Epw in Epw'. injection Epw' as ->.
  destruct (level_ok d rows Hd clock _ ratio thr (fun _ _ _ => n0) Hthr (fun l c c' cut Hl => P0_all d rows Hd M ratio l c c' cut Hl) Hlog l) as (L & gs & E & _); [|eauto].
  unfold first_length in Hl. destruct whole; lia.
Qed.

Lemma group_clock (d : dataset N) clock clock' (ratio : D) gs name thr whole : 1 <= ds_maxcol d -> log_safe d clock -> log_safe d clock' ->
  gg_group clock d ratio gs name thr whole = gg_group clock' d ratio gs name thr whole.
Proof.
  intros Hm Hc Hc'. unfold gg_group. destruct (gg_loadDistance _ name) as [gs0 [u| | |]]; auto.
  destruct (Z.ltb_spec (ds_maxcol d + 1) 0); auto. cbn [gg_pw]. destruct (gg_pw gs0) as [pw|]; auto.
  assert (G : forall n i g, 1 <= i -> i + Z.of_nat n <= Z.max i (ds_maxcol d + 1) ->
    group_loop clock d pw ratio thr n i g = group_loop clock' d pw ratio thr n i g).
  { induction n as [|n IH]; intros i g Hi Hn; simpl; auto.
    assert (El : group_level clock d pw ratio thr i = group_level clock' d pw ratio thr i).
    { unfold group_level, ll_new. destruct (imul _ _); cbn [bind]; auto. destruct (_ <? 0); auto. cbn [bind].
      assert (Hr : 1 <= i <= ds_maxcol d) by lia. destruct (Hc i Hr) as [H1|[H1|H1]], (Hc' i Hr) as [H2|[H2|H2]];
        apply generate_safe; cbn [ll_sub]; auto; right; try (left; nia); right; lia. }
    rewrite El. destruct (group_level clock' d pw ratio thr i); auto. destruct (aset _ _ _); auto. apply IH; lia. }
  apply G; unfold gg_minLength; cbn [gg_whole gg_levels]; rewrite ?repeat_length; destruct whole; lia.
Qed.
End Th2.

(** ** C20: grouping with several threads. *)

(** It finishes: with one or more threads, whatever the schedule, the number of steps
    is bounded (spurious wake-ups apart, which the C++ standard does not bound), and
    some thread can go on as long as the call has not returned. *)
Theorem C20_finishes : forall (N : Num) (LW : NumLaws N) (d : dataset N) (rows : list (list (D N))) clock (ratio : D N)
    name pw (thr : D N) threads whole steps spurious s,
  holds d rows -> In name groupable -> getDistanceFromName name = Ret pw -> nltb (ndiv thr (nofZ 2)) ninf = true ->
  1 <= ds_maxcol d -> log_safe d clock -> (1 <= threads)%nat ->
  grouping_pool clock d pw ratio thr whole threads steps spurious s ->
  (steps <= 11 * lengths_count d whole + 5 * threads + 5 + 3 * spurious)%nat /\
  ((exists total r, p_main s = MDone total r) \/
   (exists s', grouping_pool clock d pw ratio thr whole threads (S steps) spurious s')).
Proof.
  intros N LW d rows clock ratio name pw thr threads whole steps spurious s Hd Hn Epw Hthr Hm Hlog Ht Hr.
  pose proof (safe_tasks clock d pw ratio thr whole (level_safe d rows clock ratio name pw thr whole Hd Hn Epw Hthr Hm Hlog)) as Hs.
  pose proof (run_bound _ _ _ _ _ Hs Ht _ _ _ Hr) as Hb. split; [lia|].
  destruct (progress _ _ _ _ _ Hs Ht _ _ _ Hr) as [H|[s' Hs']]; auto.
  right. exists s'. exact (run_step _ _ _ _ _ _ _ _ _ _ Hr Hs').
Qed.
Print Assumptions C20_finishes.

(** The result is that of one thread: the same groups, the same count.  Any two
    behaviours of the clock that do not run into C21. *)
Theorem C20_same_result : forall (N : Num) (LW : NumLaws N) (d : dataset N) (rows : list (list (D N))) clock clock' (ratio : D N)
    name (thr : D N) threads whole old gs' r,
  holds d rows -> In name groupable -> nltb (ndiv thr (nofZ 2)) ninf = true ->
  1 <= ds_maxcol d -> log_safe d clock -> log_safe d clock' -> (1 <= threads)%nat ->
  gg_groupMT clock d ratio gg_new name thr threads whole gs' r ->
  groupAllLengths clock' ratio (mkGS d old) name thr 1 whole = (mkGS d (Some gs'), r) /\ exists total, r = Ret total.
Proof.
  intros N LW d rows clock clock' ratio name thr threads whole old gs' r Hd Hn Hthr Hm Hlog Hlog' Ht Hmt.
  destruct (mt_result clock d ratio gg_new name thr threads whole gs' r Ht) as (levels & E & Hl); auto.
  { intros pw Epw. exact (level_safe d rows clock ratio name pw thr whole Hd Hn Epw Hthr Hm Hlog). }
  destruct (C16_grouping_partitions N LW d rows old clock ratio name thr 1 whole Hd Hn Hthr Hm (Z.le_refl 1) Hlog) as (g & total & Eg & _).
  assert (El : isLoaded d = true) by (destruct Hd as (buf & E0 & _); unfold isLoaded; rewrite E0; reflexivity).
  unfold groupAllLengths in *. cbn [gt_data] in *. rewrite El in *. cbn [negb] in *. change (1 <=? 1) with true in *. cbn iota in *.
  rewrite <- (group_clock d clock clock' ratio gg_new name thr whole Hm Hlog Hlog').
  rewrite E in *. injection Eg as _ ->. split; eauto. rewrite Hl by eauto. destruct gs'. reflexivity.
Qed.
Print Assumptions C20_same_result.

(** Every length is grouped exactly once: at any time no length was started twice,
    and at the end exactly the lengths to group were. *)
Theorem C20_every_length_once : forall (N : Num) (LW : NumLaws N) (d : dataset N) (rows : list (list (D N))) clock (ratio : D N)
    name pw (thr : D N) threads whole,
  holds d rows -> In name groupable -> getDistanceFromName name = Ret pw -> nltb (ndiv thr (nofZ 2)) ninf = true ->
  1 <= ds_maxcol d -> log_safe d clock -> (1 <= threads)%nat ->
  (forall steps spurious s, grouping_pool clock d pw ratio thr whole threads steps spurious s ->
     exists ls, lengths_started clock d pw ratio thr whole threads ls s) /\
  (forall ls s, lengths_started clock d pw ratio thr whole threads ls s ->
     NoDup ls /\
     (forall total r, p_main s = MDone total r -> forall l, In l ls <-> grouped_length d whole l)).
Proof.
  intros N LW d rows clock ratio name pw thr threads whole Hd Hn Epw Hthr Hm Hlog Ht.
  pose proof (safe_tasks clock d pw ratio thr whole (level_safe d rows clock ratio name pw thr whole Hd Hn Epw Hthr Hm Hlog)) as Hs.
  split.
  - intros steps spurious s Hr. assert (Hx : exists l, started (fun t => ll_new d (first_length d whole + Z.of_nat t))
      (fun t L => generateGroups (clock (first_length d whole + Z.of_nat t)) d pw ratio thr L)
      (fun L => Z.of_nat (length (ll_groups L))) (lengths_count d whole) threads l s) by (eapply run_started; [exact Hs|try exact Ht; exact Hr..]).
    destruct Hx as [l Hl]. eexists. exists l. split; [reflexivity|exact Hl].
  - intros ls s (l & -> & Hl). split.
    + apply FinFun.Injective_map_NoDup; [intros a b; lia|]. exact (started_once _ _ _ _ _ Hs Ht _ _ Hl).
    + intros total r Em i. pose proof (started_all _ _ _ _ _ Hs Ht _ _ _ _ Hl Em) as Hp.
      rewrite in_lengths by auto. split; apply Permutation_in; apply Permutation_map; [exact Hp|symmetry; exact Hp].
Qed.
Print Assumptions C20_every_length_once.

(** From every reachable state the call can return; so [gg_groupMT] has outcomes. *)
Theorem C20_can_finish : forall (N : Num) (LW : NumLaws N) (d : dataset N) (rows : list (list (D N))) clock (ratio : D N)
    name pw (thr : D N) threads whole steps spurious s,
  holds d rows -> In name groupable -> getDistanceFromName name = Ret pw -> nltb (ndiv thr (nofZ 2)) ninf = true ->
  1 <= ds_maxcol d -> log_safe d clock -> (1 <= threads)%nat ->
  grouping_pool clock d pw ratio thr whole threads steps spurious s ->
  exists steps' s' total r, grouping_pool clock d pw ratio thr whole threads steps' spurious s' /\ p_main s' = MDone total r.
Proof.
  intros N LW d rows clock ratio name pw thr threads whole steps spurious s Hd Hn Epw Hthr Hm Hlog Ht Hr.
  eapply can_finish; eauto. eapply level_safe; eauto.
Qed.
Print Assumptions C20_can_finish.

(** Errors: for any data set object, name and threshold, as long as the grouping of no
    length is undefined behaviour, several threads give the exception and the count
    that one thread gives.  (The slots of later lengths may differ: one thread
    stops at the first exception.) *)
Theorem C20_same_exception : forall (N : Num) (d : dataset N) clock (ratio : D N) gs name (thr : D N) threads whole gs' r,
  (1 <= threads)%nat -> (forall pw, getDistanceFromName name = Ret pw -> no_ub clock d pw ratio thr whole) ->
  gg_groupMT clock d ratio gs name thr threads whole gs' r ->
  snd (gg_group clock d ratio gs name thr whole) = r /\
  gg_total (fst (gg_group clock d ratio gs name thr whole)) = gg_total gs' /\
  gg_name (fst (gg_group clock d ratio gs name thr whole)) = gg_name gs' /\
  gg_threshold (fst (gg_group clock d ratio gs name thr whole)) = gg_threshold gs' /\
  gg_whole (fst (gg_group clock d ratio gs name thr whole)) = gg_whole gs'.
Proof.
  intros N d clock ratio gs name thr threads whole gs' r Ht Hn Hmt.
  destruct (mt_result clock d ratio gs name thr threads whole gs' r Ht Hn Hmt) as (levels & E & _). rewrite E. splits; reflexivity.
Qed.
Print Assumptions C20_same_exception.

(** two threads on a concrete data set *)
Example C20_example : holds ex2_data ex2_rows /\ In "manhattan"%string groupable /\
  nltb (n := B64) (ndiv (n := B64) (b64_ofZ 6) (nofZ (n := B64) 2)) (ninf (n := B64)) = true /\
  1 <= ds_maxcol ex2_data /\ log_safe ex2_data (fun _ => false) /\
  exists gs' r, gg_groupMT (N := B64) (fun _ => false) ex2_data (b64_ofZ 1) gg_new "manhattan" (b64_ofZ 6) 2 false gs' r.
Proof.
  assert (Hm : 1 <= ds_maxcol ex2_data) by (vm_compute; discriminate).
  assert (Ht : nltb (n := B64) (ndiv (n := B64) (b64_ofZ 6) (nofZ (n := B64) 2)) (ninf (n := B64)) = true) by (vm_compute; reflexivity).
  assert (Hl : log_safe ex2_data (fun _ => false)) by (intros l _; left; reflexivity).
  assert (Hi : In "manhattan"%string groupable) by (right; left; reflexivity).
  splits; auto; [apply ex2_holds|].
  destruct (groupable_pw (N := B64) "manhattan" Hi) as (M & w & Epw & Ew).
  destruct (C20_can_finish B64 _ ex2_data ex2_rows (fun _ => false) (b64_ofZ 1) "manhattan" _ (b64_ofZ 6) 2 false 0 0 _
    ex2_holds Hi Epw Ht Hm Hl ltac:(auto) (run_start _ _ _ _ _)) as (steps & s & total & r & Hr & Em).
  assert (EL : gg_loadDistance (N := B64) (with_levels gg_new []) "manhattan"
    = (mkGG "manhattan" [] (Some (fun _ a b dr mt => pairwiseDistance (N := B64) M a b dr mt)) (Some w) (gg_threshold (N := B64) gg_new) (gg_total (N := B64) gg_new) (gg_whole (N := B64) gg_new), Ret tt)).
  { unfold gg_loadDistance. rewrite Epw, Ew. reflexivity. }
  eexists. exists r. eapply (mt_pool (N := B64)); [exact EL| |reflexivity|reflexivity|exact Hr|exact Em]. vm_compute. discriminate.
Qed.
