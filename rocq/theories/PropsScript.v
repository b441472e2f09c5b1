(** C79: runs of the grouping script that are interrupted and started again. *)
From Coq Require Import String Ascii Permutation Sorting.
From Verif Require Import Base Num OldFormat Script ScriptSpec ScriptProofs ScriptRuns.
Local Open Scope string_scope.
Local Open Scope Z_scope.
Local Open Scope list_scope.

(** A grouping that the records say is done has both its files complete and right, whatever
    runs came before and wherever they were killed. *)
Theorem C79_recorded_is_saved l k k' r ds d t : trusty l k -> history l k k' ->
  readable k' r -> plain d -> 0 <= t -> recorded r ds d t -> saved l k' ds d t.
Proof. intros Ht H. exact (history_trusty l k k' H Ht r ds d t). Qed.

Lemma order_wanted a r ds d t : tidy r ->
  ((exists n, In (n, ds) (order r) /\ ranged a (n, ds)) /\ In (d, t) (jobs a)) <-> wanted a r ds d t.
Proof.
  intros [_ Hc]. rewrite Forall_forall in Hc. rewrite in_jobs. unfold wanted, ranged. simpl. split.
  - intros [(n & Hn & Hr) [Hd Ht]]. apply in_order in Hn as (i & Hi & <- & Ho).
    apply range_within in Hr; [|exact (Hc _ Hi)]. split; [exists i; auto|auto].
  - intros [(i & Hi & Hw) (Ho & Hd & Ht)]. split; [|auto]. exists (i_subseq i).
    split; [apply in_order; exists i; auto|]. apply range_within; [exact (Hc _ Hi)|exact Hw].
Qed.

Lemma shape_names r r' : shape r = shape r' -> map fst r = map fst r'.
Proof. intros E. apply (f_equal (map fst)) in E. unfold shape in E. rewrite !map_map in E. exact E. Qed.

Lemma wanted_shape a r r' ds d t : shape r = shape r' -> wanted a r ds d t -> wanted a r' ds d t.
Proof.
  intros E [(i & Hi & Hw) H]. split; [|exact H].
  assert (G : In (ds, i_subseq i) (shape r)) by (unfold shape; apply in_map_iff; exists (ds, i); auto).
  rewrite E in G. unfold shape in G. apply in_map_iff in G as ([n j] & Ej & Hj). simpl in Ej. injection Ej as -> Ej.
  exists j. split; [exact Hj|]. rewrite Ej. exact Hw.
Qed.

Lemma tidy_shape r r' : shape r = shape r' -> tidy r -> tidy r'.
Proof.
  intros E [H1 H2]. split; [rewrite <- (shape_names _ _ E); exact H1|]. rewrite Forall_forall in *. intros [n i] H. simpl.
  assert (G : In (n, i_subseq i) (shape r')) by (unfold shape; apply in_map_iff; exists (n, i); auto).
  rewrite <- E in G. unfold shape in G. apply in_map_iff in G as ([m j] & Ej & Hj). injection Ej as <- <-. exact (H2 _ Hj).
Qed.

Lemma plain_wanted a r ds d t : proper a -> wanted a r ds d t -> plain d /\ 0 <= t.
Proof. intros (H1 & H2 & _) (_ & _ & H3 & H4). rewrite Forall_forall in *. auto. Qed.

(** After any interrupted runs that left the records readable, a run that is not interrupted
    makes exactly the groupings that are asked for and not recorded, each once, and then
    everything asked for is saved and recorded. *)
Theorem C79_resumes a l k0 r0 k1 r1 : tidy r0 -> readable k0 r0 -> trusty l k0 ->
  history l k0 k1 -> readable k1 r1 -> resuming a -> working a l r0 -> (exists ds d t, wanted a r0 ds d t) ->
  let es := fst (script a l k1) in
  NoDup (groupings es) /\
  (forall ds d t, In (ds, d, t) (groupings es) <-> wanted a r0 ds d t /\ ~ recorded r1 ds d t) /\
  (exists r2, readable (finished es k1) r2 /\
     forall ds d t, wanted a r0 ds d t -> recorded r2 ds d t /\ saved l (finished es k1) ds d t).
Proof.
  intros Hti R0 T0 Hh R1 Ha Hw (dsw & dw & tw & Hex). pose proof (history_records _ _ _ _ _ Hh R0 R1) as G1.
  pose proof (history_trusty _ _ _ Hh T0) as T1. destruct Ha as (Hp & Ho & Hd).
  assert (S : shape r0 = shape r1) by (symmetry; apply (proj1 G1)).
  assert (Ti1 : tidy r1) by (exact (tidy_shape _ _ S Hti)).
  destruct (script_run a l k1 r1 (conj Hp (conj Ho Hd)) R1) as (A1 & A2 & A3 & A4 & A5).
  destruct (script_inv a l k1 r1 (conj Hp (conj Ho Hd)) R1 T1) as [B1 B2].
  assert (N : snd (script a l k1) <> None).
  { apply A5.
    - apply (wanted_shape a r0 r1) in Hex; [|exact S]. apply (order_wanted a r1 _ _ _ Ti1) in Hex as [(n & Hn & _) _].
      destruct (order r1); [destruct Hn|discriminate].
    - intros n ds Hn Hr. split.
      + destruct Hex as (_ & _ & Hdw & Htw). refine (proj1 (Hw ds dw tw _)).
        apply (wanted_shape a r1 r0); [symmetry; exact S|]. apply (order_wanted a r1 _ _ _ Ti1). split; [exists n; auto|apply in_jobs; auto].
      + intros d t Hj. refine (proj2 (Hw ds d t _)). apply (wanted_shape a r1 r0); [symmetry; exact S|].
        apply (order_wanted a r1 _ _ _ Ti1). split; [exists n; auto|exact Hj]. }
  simpl. destruct (snd (script a l k1)) as [r2|] eqn:E2; [|contradiction N; reflexivity].
  destruct (A4 r2 eq_refl) as (C1 & C2 & C3). destruct (B2 r2 eq_refl) as (D1 & D2 & D3).
  assert (W : forall ds d t, wanted a r0 ds d t -> recorded r2 ds d t).
  { intros ds d t H. apply (wanted_shape a r0 r1) in H; [|exact S]. apply (order_wanted a r1 _ _ _ Ti1) in H as [(n & Hn & Hr) Hj].
    exact (D3 n ds d t Hn Hr Hj). }
  split; [exact A2|split].
  - intros ds d t. rewrite in_groupings. split.
    + intros (ds' & d' & t' & E & H). injection E as <- <- <-. split.
      * apply (wanted_shape a r1 r0); [symmetry; exact S|]. apply (order_wanted a r1 _ _ _ Ti1). exact (A3 _ _ _ H).
      * rewrite Forall_forall in A1. exact (A1 _ H).
    + intros [H Hn]. exists ds, d, t. split; [reflexivity|]. destruct (plain_wanted _ _ _ _ _ Hp H) as [Pd _].
      destruct (C3 _ _ _ Pd (W _ _ _ H)) as [H'|H']; [contradiction|exact H'].
  - exists r2. split; [exact D1|]. intros ds d t H. split; [exact (W _ _ _ H)|]. destruct (plain_wanted _ _ _ _ _ Hp H) as [Pd Pt].
    exact (B1 _ (left_finished _ _) _ _ _ _ D1 Pd Pt (W _ _ _ H)).
Qed.

(** The group files are then the same as after one run without interruption. *)
Theorem C79_same_files a l k0 r0 k1 r1 : tidy r0 -> readable k0 r0 -> trusty l k0 ->
  history l k0 k1 -> readable k1 r1 -> resuming a -> working a l r0 ->
  forall ds d t, wanted a r0 ds d t ->
  finished (fst (script a l k1)) k1 (PGroups ds d t) = finished (fst (script a l k0)) k0 (PGroups ds d t) /\
  finished (fst (script a l k1)) k1 (PSizes ds d t) = finished (fst (script a l k0)) k0 (PSizes ds d t).
Proof.
  intros Hti R0 T0 Hh R1 Ha Hw ds d t H.
  assert (X : exists ds d t, wanted a r0 ds d t) by eauto.
  destruct (C79_resumes a l k0 r0 k1 r1 Hti R0 T0 Hh R1 Ha Hw X) as (_ & _ & r2 & _ & S1).
  destruct (C79_resumes a l k0 r0 k0 r0 Hti R0 T0 (h_none l k0) R0 Ha Hw X) as (_ & _ & r3 & _ & S2).
  destruct (S1 _ _ _ H) as [_ (g & z & E & A & B)]. destruct (S2 _ _ _ H) as [_ (g' & z' & E' & A' & B')].
  rewrite E in E'. injection E' as <- <-. split; congruence.
Qed.

(** Not true in general: a kill can leave the records unreadable.  For every run that gets as far as recording a grouping there is a point where
    killing it makes every later run, with whatever command line, end at once. *)
Theorem C79_killed_refuted a l k c : In (EWrite PRecords c) (fst (script a l k)) ->
  exists k', left_by (fst (script a l k)) k k' /\
    (forall a', script a' l k' = ([], None)) /\ (forall k'', history l k' k'' -> k'' = k').
Proof.
  intros H. assert (G : forall es k, In (EWrite PRecords c) es -> exists k', left_by es k k' /\ k' PRecords = Some (Cut c)).
  { induction es as [|e es IH]; intros k0 E; [destruct E|]. destruct E as [E|E].
    - subst e. exists (put_file PRecords (Cut c) k0). split; [constructor|apply put_file_same].
    - destruct (IH (after e k0) E) as (k' & A & B). exists k'. split; [constructor; exact A|exact B]. }
  destruct (G _ k H) as (k' & A & B). exists k'.
  assert (N : forall r, ~ readable k' r) by (intros r Hr; unfold readable in Hr; rewrite B in Hr; discriminate Hr).
  split; [exact A|split]; [intros a'; apply script_blank; exact N|intros k''; apply history_stuck; exact N].
Qed.

(** A data set that cannot be loaded keeps all larger ones from being grouped, in every run
    whose bounds it is within. *)
Lemma insert_sorted x l : StronglySorted (fun p q => fst p <= fst q) l -> StronglySorted (fun p q => fst p <= fst q) (insert x l).
Proof.
  induction l as [|y l IH]; intros H; [repeat constructor|]. simpl. inversion H as [|y' l' Hs Hf]; subst.
  destruct (pair_leb x y) eqn:E; unfold pair_leb in E.
  - assert (L : fst x <= fst y) by (apply orb_true_iff in E; rewrite andb_true_iff, Z.ltb_lt, Z.eqb_eq in E; lia).
    constructor; [exact H|]. constructor; [exact L|]. eapply Forall_impl; [|exact Hf]. intros z. simpl. lia.
  - assert (L : fst y <= fst x) by (apply orb_false_iff in E; rewrite Z.ltb_ge in E; lia).
    constructor; [apply IH; exact Hs|]. apply Forall_forall. intros z Hz. apply (Permutation_in _ (insert_perm x l)) in Hz.
    destruct Hz as [<-|Hz]; [exact L|]. rewrite Forall_forall in Hf. exact (Hf z Hz).
Qed.
Lemma order_sorted r : StronglySorted (fun p q => fst p <= fst q) (order r).
Proof. unfold order, sorted. induction (map _ _) as [|x l IH]; simpl; [constructor|apply insert_sorted; exact IH]. Qed.

Lemma sorted_before {A} (R : A -> A -> Prop) l1 x l2 y : StronglySorted R (l1 ++ x :: l2) -> In y l1 -> R y x.
Proof.
  induction l1 as [|z l1 IH]; intros H Hy; [destruct Hy|]. simpl in H. inversion H as [|z' l' Hs Hf]; subst.
  destruct Hy as [->|Hy]; [|exact (IH Hs Hy)]. rewrite Forall_forall in Hf. apply Hf. apply in_app_iff. right; left; reflexivity.
Qed.

Theorem C79_blocked_refuted a l k r ds i ds' i' : tidy r -> readable k r ->
  In (ds, i) r -> is_out ds = false -> within (i_subseq i) (a_min a) (a_max a) -> l_load l ds = false ->
  In (ds', i') r -> i_subseq i < i_subseq i' ->
  forall d t, ~ In (ds', d, t) (groupings (fst (script a l k))).
Proof.
  intros [Hnd Hc] Hr Hi Ho Hw Hl Hi' Hlt d t H. apply in_groupings in H as (ds1 & d1 & t1 & E & H). injection E as <- <- <-.
  unfold script in H. unfold readable in Hr. rewrite Hr in H. rewrite Forall_forall in Hc.
  assert (Hin : In (i_subseq i, ds) (order r)) by (apply in_order; exists i; auto).
  apply in_split in Hin as (l1 & l2 & E). pose proof (order_sorted r) as Hs. rewrite E in H, Hs.
  assert (X : In (EGroup ds' d t) (fst (each_set a l (l1 ++ (i_subseq i, ds) :: l2) r))) by (destruct l1; exact H).
  apply sets_blocked in X; [|exact Hl|apply range_within; [exact (Hc _ Hi)|exact Hw]].
  apply in_map_iff in X as ([n m] & Em & Hm). simpl in Em. subst m.
  pose proof (sorted_before _ _ _ _ _ Hs Hm) as Hle. simpl in Hle.
  assert (Hn : In (n, ds') (order r)) by (rewrite E; apply in_app_iff; left; exact Hm).
  apply in_order in Hn as (j & Hj & <- & _).
  assert (j = i'); [|subst; lia].
  clear - Hnd Hj Hi'. induction r as [|[n k] r IH]; [destruct Hj|]. simpl in Hnd. inversion Hnd as [|x y Hx Hy E]; subst.
  assert (Q : forall q, In (ds', q) r -> In ds' (map fst r)) by (intros q Hq; apply in_map_iff; exists (ds', q); auto).
  destruct Hj as [Hj|Hj], Hi' as [Hi'|Hi'].
  - congruence.
  - injection Hj as -> ->. contradiction (Hx (Q _ Hi')).
  - injection Hi' as -> ->. contradiction (Hx (Q _ Hj)).
  - exact (IH Hy Hi' Hj).
Qed.

(** A dry run changes no file. *)
Theorem C79_dry a l k k' : a_dry a = true -> left_by (fst (script a l k)) k k' -> k' = k.
Proof.
  intros Hd H.
  assert (J : forall ds js r rows, fst (each_job a l ds js r rows) = []).
  { intros ds js. induction js as [|[d t] js IH]; intros r rows; [reflexivity|]. cbn [each_job]. rewrite Hd. destruct (exclude a r ds d t); apply IH. }
  assert (S : forall ord r, Forall (fun e => match e with EWrite _ _ => False | _ => True end) (fst (each_set a l ord r))).
  { induction ord as [|[n ds] ord IH]; intros r; [constructor|]. cbn [each_set]. destruct (check_range n (a_min a) (a_max a)); [|apply IH].
    unfold group_dataset. destruct (l_load l ds); [|repeat constructor]. specialize (J ds (jobs a) r []).
    destruct (each_job a l ds (jobs a) r []) as [es [r'|]]; simpl in J; subst es; simpl; [|repeat constructor].
    specialize (IH r'). destruct (each_set a l ord r') as [es' o']. simpl in *. repeat constructor; assumption. }
  assert (N : Forall (fun e => match e with EWrite _ _ => False | _ => True end) (fst (script a l k))).
  { unfold script. destruct (k PRecords) as [[[s|rows|r]|c]|]; try constructor. destruct (order r); [constructor|apply S]. }
  induction H as [es k|p c es k|e es k k' H IH].
  - reflexivity.
  - inversion N as [|x y Hx Hy E]; subst. destruct Hx.
  - inversion N as [|x y Hx Hy E]; subst. rewrite (IH Hy). destruct e; try reflexivity. destruct Hx.
Qed.

(** ** examples *)
Definition ex_lib : lib := mkLib (fun ds => negb (String.eqb ds "bad")) (fun ds d t => Some ((ds ++ d ++ tenths t)%string, "sizes")).
Definition ex_infos : infos := [("a", mkInfo 2 3 6 None); ("a_out", mkInfo 1 3 3 None); ("b", mkInfo 1 3 3 None)].
Definition ex_disk : disk := put_file PRecords (Whole (DRecords ex_infos)) (fun _ => None).
Definition ex_args : args := mkArgs (-1) (-1) [1; 2] ["euclidean"] false false "now".

Example C79_example_start : tidy ex_infos /\ readable ex_disk ex_infos /\ trusty ex_lib ex_disk /\ resuming ex_args /\
  working ex_args ex_lib ex_infos /\ wanted ex_args ex_infos "b" "euclidean" 2.
Proof.
  split; [|split; [|split; [|split; [|split]]]].
  - split; [|repeat constructor; vm_compute; discriminate]. repeat constructor; simpl; intuition congruence.
  - apply put_file_same.
  - intros r ds d t Hr _ _ (i & l & E & Ei & _). unfold readable in Hr. change (Some (Whole (DRecords ex_infos)) = Some (Whole (DRecords r))) in Hr.
    injection Hr as <-. unfold ex_infos, lookup in E.
    destruct (String.eqb "a" ds); [injection E as <-; discriminate Ei|]. destruct (String.eqb "a_out" ds); [injection E as <-; discriminate Ei|].
    destruct (String.eqb "b" ds); [injection E as <-; discriminate Ei|discriminate E].
  - split; [|split; reflexivity]. split; [|split; [|split]].
    + repeat constructor; discriminate.
    + repeat constructor; discriminate.
    + repeat constructor; simpl; intuition congruence.
    + repeat constructor; simpl; intuition congruence.
  - intros ds d t [(i & Hi & _) _]. simpl. split; [|discriminate]. destruct Hi as [H|[H|[H|[]]]]; injection H as <- _; reflexivity.
  - split; [exists (mkInfo 1 3 3 None); split; [simpl; auto|split; left; reflexivity]|]. simpl. auto.
Qed.

(** a run in order of size; killed after the first grouping, the next run does the rest *)
Example C79_example_groupings :
  groupings (fst (script ex_args ex_lib ex_disk)) = [("b", "euclidean", 1); ("b", "euclidean", 2); ("a", "euclidean", 1); ("a", "euclidean", 2)].
Proof. reflexivity. Qed.
Example C79_example_next : let es := firstn 6 (fst (script ex_args ex_lib ex_disk)) in
  left_by (fst (script ex_args ex_lib ex_disk)) ex_disk (finished es ex_disk) /\
  groupings (fst (script ex_args ex_lib (finished es ex_disk))) = [("b", "euclidean", 2); ("a", "euclidean", 1); ("a", "euclidean", 2)].
Proof. split; [repeat constructor|reflexivity]. Qed.

(** With --start-over a kill can leave a grouping that is recorded as done with a broken
    file, and no later run repairs it unless it starts over again. *)
Definition over_args : args := mkArgs (-1) (-1) [1] ["euclidean"] true false "later".
Definition over_disk : disk := finished (fst (script ex_args ex_lib ex_disk)) ex_disk.
Theorem C79_start_over_refuted : trusty ex_lib over_disk /\ proper over_args /\
  exists k r, left_by (fst (script over_args ex_lib over_disk)) over_disk k /\
    readable k r /\ recorded r "b" "euclidean" 1 /\
    forall k', history ex_lib k k' -> exists c, k' (PGroups "b" "euclidean" 1) = Some (Cut c).
Proof.
  destruct C79_example_start as (Hti & R0 & T0 & Ha & Hw & Hx). split; [|split].
  - destruct (script_inv ex_args ex_lib ex_disk ex_infos Ha R0 T0) as [H _]. apply H. apply left_finished.
  - split; [|split; [|split]]; repeat constructor; simpl; try discriminate; intuition congruence.
  - exists (put_file (PGroups "b" "euclidean" 1) (Cut (DBytes "beuclidean0.1")) over_disk).
    exists (match over_disk PRecords with Some (Whole (DRecords r)) => r | _ => [] end).
    assert (Rb : readable (put_file (PGroups "b" "euclidean" 1) (Cut (DBytes "beuclidean0.1")) over_disk)
      (match over_disk PRecords with Some (Whole (DRecords r)) => r | _ => [] end)) by reflexivity.
    assert (Rc : recorded (match over_disk PRecords with Some (Whole (DRecords r)) => r | _ => [] end) "b" "euclidean" 1).
    { eexists _, _. split; [reflexivity|]. split; [reflexivity|]. left. reflexivity. }
    split; [|split; [exact Rb|split; [exact Rc|]]].
    + apply l_step. apply l_step. apply l_cut.
    + intros k' H. destruct (history_kept _ _ _ _ _ _ _ H Rb Rc) as [E _]. rewrite E. eexists. apply put_file_same.
Qed.

Example C79_example_killed : In (EWrite PRecords (DRecords (progress ex_infos "b" "euclidean" 1))) (fst (script ex_args ex_lib ex_disk)).
Proof. simpl. auto 10. Qed.
Example C79_example_blocked :
  groupings (fst (script ex_args ex_lib (put_file PRecords (Whole (DRecords (("bad", mkInfo 1 3 3 None) :: ex_infos))) (fun _ => None))))
  = [("b", "euclidean", 1); ("b", "euclidean", 2)].
Proof. reflexivity. Qed.

Print Assumptions C79_recorded_is_saved.
Print Assumptions C79_resumes.
Print Assumptions C79_same_files.
Print Assumptions C79_killed_refuted.
Print Assumptions C79_blocked_refuted.
Print Assumptions C79_dry.
Print Assumptions C79_start_over_refuted.
