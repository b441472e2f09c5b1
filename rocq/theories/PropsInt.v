(** Property C68: the progress log of grouping and the range of int.  The data set
    is described by DataSpec.v. *)
From Coq Require Import String Permutation.
From Verif Require Import Base Num NumB64 NumB64Laws NumLaws NumFacts LoopFacts TimeSeries Lemire Distance
  DistSpec DistLink Pairwise TSSet StdAlg Candidate Group GroupSpace
  DataSpec DataProofs GroupSpec GroupView Members GroupProofs GroupAll GroupDist PropsDistance PropsData PropsGroup.
Local Open Scope Z_scope.
Local Open Scope list_scope.

(** a loop that goes on or ends with [e] *)
Lemma fold_res_or {A S} (P : list A -> S -> Prop) (body : A -> S -> res S) (e : res S) l s :
  (forall f : S -> res S, bind e f = e) ->
  P [] s ->
  (forall pre x post s, l = pre ++ x :: post -> P pre s ->
     body x s = e \/ exists s', body x s = Ret s' /\ P (pre ++ [x]) s') ->
  fold_res body l s = e \/ exists s', fold_res body l s = Ret s' /\ P l s'.
Proof.
  intros He H0 Hs.
  assert (G : forall post pre s, l = pre ++ post -> P pre s ->
     fold_res body post s = e \/ exists s', fold_res body post s = Ret s' /\ P l s').
  { induction post as [|x post IH]; intros pre s1 El Hp; simpl.
    - rewrite app_nil_r in El. subst. eauto.
    - destruct (Hs pre x post s1 El Hp) as [E|(s2 & E & Hp2)]; rewrite E.
      + left. apply He.
      + simpl. apply (IH (pre ++ [x])); auto. rewrite <- app_assoc. exact El. }
  apply (G l []); auto.
Qed.

Lemma fold_res_app {A S} (body : A -> S -> res S) l1 l2 s :
  fold_res body (l1 ++ l2) s = bind (fold_res body l1 s) (fold_res body l2).
Proof.
  revert s. induction l1 as [|x l1 IH]; intros s; simpl; [reflexivity|].
  destruct (body x s); simpl; auto.
Qed.

Lemma log_either total counter : 5 <= total -> 0 < counter ->
  log_step true total counter = Ret tt \/ log_step true total counter = UB IntOverflow.
Proof.
  intros Ht Hc. unfold log_step, cmod. rewrite Z.quot_div_nonneg by lia.
  assert (1 <= total / 5) by (apply Z.div_le_lower_bound; lia).
  destruct (Z.eqb_spec (total / 5) 0); [lia|]. cbn [bind].
  destruct (_ =? 0); auto. unfold imul, icheck. destruct (_ && _); cbn [bind]; auto.
  destruct (Z.eqb_spec total 0); [lia|auto].
Qed.

Lemma log_over total : 21474840 <= total -> log_step true total (5 * (total / 5)) = UB IntOverflow.
Proof.
  intros Ht. unfold log_step, cmod. rewrite Z.quot_div_nonneg by lia.
  assert (4294968 <= total / 5) by (apply Z.div_le_lower_bound; lia).
  destruct (Z.eqb_spec (total / 5) 0); [lia|]. cbn [bind].
  rewrite Z.rem_mul by lia. cbn [Z.eqb bind].
  unfold imul, icheck. destruct (Z.leb_spec (5 * (total / 5) * 100) int_max) as [H1|H1]; [unfold int_max in H1; lia|].
  rewrite andb_false_r. reflexivity.
Qed.

Section Level.
Context {N : Num} {LW : NumLaws N}.
Notation D := (D N).
Variable d : dataset N.
Variable rows : list (list D).
Hypothesis Hd : holds d rows.
Variable pw : dist_fn N.
Variables ratio thr : D.
Variable len : Z.
Hypothesis Hlen : 1 <= len <= ds_maxcol d.
Hypothesis Hthr : nltb (ndiv thr (nofZ 2)) ninf = true.
Hypothesis P0 : forall c c' cut, is_sub rows len c -> is_sub rows len c' ->
  exists v, pwc d pw ratio len c c' cut = Ret v.
Notation sub := (ds_maxcol d - len + 1).
Notation count := (ds_count d).
Notation gstep0 := (gstep d rows pw ratio thr len (fun _ _ => n0)).

Lemma generate_over L : 21474840 <= sub * count -> state_ok d rows len L [] ->
  generateGroups true d pw ratio thr L = UB IntOverflow.
Proof.
  intros Hbig HS0. unfold generateGroups. rewrite (so_sub _ _ _ _ _ HS0).
  pose proof (count_sub d rows Hd len Hlen) as Hcs. rewrite imul_ok by (unfold int_min; lia). cbn [bind].
  set (total := sub * count) in *.
  rewrite for_fold. replace (sub - 0) with sub by lia.
  set (body := fun (c : coord) (st : Z * llgs N) =>
      let counter := fst st + 1 in
      _ <- log_step true total counter ;;
      ln <- getItemLength d (fst c) ;;
      if ln <? snd c + ll_length (snd st) then Ret (counter, snd st)
      else L' <- place d pw ratio thr (fst c) (snd c) (snd st) ;; Ret (counter, L')).
  assert (E : forall st, fold_res (fun start st => for_ 0 count (fun idx (st : Z * llgs N) =>
      let counter := fst st + 1 in
      _ <- log_step true total counter ;;
      ln <- getItemLength d idx ;;
      if ln <? start + ll_length (snd st) then Ret (counter, snd st)
      else L' <- place d pw ratio thr idx start (snd st) ;; Ret (counter, L')) st) (zseq 0 (Z.to_nat sub)) st
     = fold_res body (all_pos d rows len) st).
  { intros st. unfold all_pos. rewrite fold_res_flat. apply fold_res_ext. intros s st' _.
    rewrite for_fold, fold_res_map. replace (Z.to_nat (count - 0)) with (length rows) by (rewrite (count_rows d rows Hd); lia).
    reflexivity. }
  rewrite E. clear E.
  pose proof (all_pos_length d rows Hd len Hlen) as Hal. fold total in Hal.
  set (k := Z.to_nat (5 * (total / 5) - 1)).
  pose proof (Z.div_mod total 5 ltac:(lia)) as Hq. pose proof (Z.mod_pos_bound total 5 ltac:(lia)) as Hr.
  assert (Hk : (k < length (all_pos d rows len))%nat) by (unfold k; lia).
  destruct (nth_error (all_pos d rows len) k) as [c0|] eqn:Ec; [|apply nth_error_None in Ec; lia].
  destruct (nth_error_split _ _ Ec) as (pre0 & post0 & Ep0 & Hp0).
  assert (Hpre : fold_res body pre0 (0, L) = UB IntOverflow \/
    exists st, fold_res body pre0 (0, L) = Ret st /\ fst st = Z.of_nat (length pre0) /\
      exists gs, state_ok d rows len (snd st) gs /\ runs gstep0 (filter (fitb rows len) pre0) gs).
  { apply (fold_res_or (fun pre (st : Z * llgs N) => fst st = Z.of_nat (length pre) /\
     exists gs, state_ok d rows len (snd st) gs /\ runs gstep0 (filter (fitb rows len) pre) gs)).
    - reflexivity.
    - split; simpl; [reflexivity|]. exists []. split; auto. constructor.
    - intros pre c post [cnt L1] Ep (Hcnt & gs & HS & HR). simpl in Hcnt, HS.
      assert (Ea : all_pos d rows len = pre ++ c :: (post ++ c0 :: post0)).
      { rewrite Ep0, Ep, <- app_assoc. reflexivity. }
      assert (Hc : In c (all_pos d rows len)) by (rewrite Ea; apply in_or_app; right; left; auto).
      pose proof Hc as Hc'. apply (all_pos_In d rows len Hlen) in Hc' as [Hi Hs].
      unfold body. cbn [fst snd].
      destruct (log_either total (cnt + 1) ltac:(lia) ltac:(lia)) as [El|El]; rewrite El; cbn [bind]; [right|left; reflexivity].
      destruct (row_of_in rows (fst c) Hi) as [row Er].
      destruct (holds_row _ _ _ _ Hd Er) as (buf & _ & _ & Eil & _). rewrite Eil. cbn [bind].
      rewrite (so_len _ _ _ _ _ HS).
      assert (Hfe : fitb rows len c = negb (Z.of_nat (length row) <? snd c + len)).
      { unfold fitb. rewrite Er. destruct (Z.leb_spec (snd c + len) (Z.of_nat (length row))),
          (Z.ltb_spec (Z.of_nat (length row)) (snd c + len)); auto; lia. }
      rewrite filter_app. simpl. rewrite Hfe.
      destruct (Z.of_nat (length row) <? snd c + len).
      + simpl. eexists. split; [reflexivity|]. simpl. split; [rewrite app_length; simpl; lia|]. exists gs. rewrite app_nil_r. auto.
      + simpl in *. assert (Hsub : is_sub rows len c) by (apply (fitb_iff d rows len Hlen); auto).
        assert (Hni : ~ In c (concat gs)).
        { intros Hx. apply (Permutation_in c (Permutation_sym (runs_perm d rows pw ratio thr len (fun _ _ => n0) _ _ HR))) in Hx.
          apply filter_In in Hx as [Hx _]. pose proof (all_pos_NoDup d rows len) as Hnd. rewrite Ea in Hnd.
          apply NoDup_remove_2 in Hnd. apply Hnd. apply in_or_app. auto. }
        destruct (place_ok d rows Hd pw ratio thr len Hlen Hthr P0 (fun _ _ => n0) L1 gs c HS Hsub Hni) as (L2 & gs' & Epl & HS' & Hst).
        rewrite Epl. simpl. eexists. split; [reflexivity|]. simpl. split; [rewrite app_length; simpl; lia|]. exists gs'. split; auto.
        econstructor; eauto. }
  rewrite Ep0, fold_res_app. destruct Hpre as [E|(st & E & Hf & _)]; rewrite E; cbn [bind]; [reflexivity|].
  cbn [fold_res]. replace (body c0 st) with (@UB (Z * llgs N) IntOverflow); [reflexivity|].
  unfold body. replace (fst st + 1) with (5 * (total / 5)) by (rewrite Hf, Hp0; unfold k; lia).
  rewrite log_over by lia. reflexivity.
Qed.
End Level.

(** ** C68.  The percentage in the progress log is computed as counter*100/total in
    int.  If the log is due while grouping the first length and this length has
    21474840 or more slots (series x start positions), the product leaves the range of
    int: the behaviour of the call is undefined.  When the log is not due the same call
    ends well (C16). *)
Theorem C68_log_overflow_refuted : forall (N : Num) (LW : NumLaws N) (d : dataset N) (rows : list (list (D N)))
    old clock (ratio : D N) name (thr : D N) threads (whole : bool),
  holds d rows -> In name groupable -> nltb (ndiv thr (nofZ 2)) ninf = true ->
  2 <= ds_maxcol d -> 1 <= threads ->
  let first := if whole then ds_maxcol d else 2 in
  clock first = true -> 21474840 <= (ds_maxcol d - first + 1) * ds_count d ->
  snd (groupAllLengths clock ratio (mkGS d old) name thr threads whole) = UB IntOverflow.
Proof.
  intros N LW d rows old clock ratio name thr threads whole Hd Hn Hthr Hm Ht first Hc Hbig.
  destruct (groupable_pw (N := N) name Hn) as (M & w & Epw & Ew).
  assert (Hf : 1 <= first <= ds_maxcol d) by (unfold first; destruct whole; lia).
  unfold groupAllLengths. cbn [gt_data].
  assert (El : isLoaded d = true) by (destruct Hd as (buf & E0 & _); unfold isLoaded; rewrite E0; reflexivity).
  rewrite El. cbn [negb]. destruct (Z.leb_spec 1 threads); [|lia].
  assert (E : snd (gg_group clock d ratio gg_new name thr whole) = UB IntOverflow).
  { unfold gg_group, gg_loadDistance. rewrite Epw, Ew.
    destruct (Z.ltb_spec (ds_maxcol d + 1) 0); [lia|].
    cbn [gg_name gg_pw gg_warp gg_levels gg_whole with_levels].
    unfold gg_minLength. cbn [gg_whole gg_levels]. rewrite repeat_length.
    replace (Z.max 0 (if whole then Z.of_nat (Z.to_nat (ds_maxcol d + 1)) - 1 else 2)) with first
      by (unfold first; destruct whole; lia).
    replace (Z.to_nat (ds_maxcol d + 1 - first)) with (S (Z.to_nat (ds_maxcol d - first))) by lia.
    cbn [group_loop]. unfold group_level. destruct (ll_new_ok d rows Hd first Hf) as (L0 & E0 & HL0). rewrite E0. cbn [bind].
    rewrite Hc, (generate_over d rows Hd _ ratio thr first Hf Hthr
      (fun c c' cut => P0_all d rows Hd M ratio first c c' cut Hf) L0 Hbig HL0). reflexivity. }
  destruct (gg_group clock d ratio gg_new name thr whole) as [g r]. cbn [snd] in E. rewrite E. reflexivity.
Qed.
Print Assumptions C68_log_overflow_refuted.

(** a data set of [n] series (0, 0) *)
Definition flat (n : nat) : dataset B64 :=
  mkDS (N := B64) (Some (repeat (b64_ofZ 0) (n * 2))) (repeat ""%string n) (repeat 2 n) (Z.of_nat n) 2 "f"%string false.
Definition flat_rows (n : nat) : list (list b64) := repeat [b64_ofZ 0; b64_ofZ 0] n.

Lemma flat_holds n : Z.of_nat n * 2 <= int_max -> holds (flat n) (flat_rows n).
Proof.
  intros Hn. exists (repeat (b64_ofZ 0) (n * 2)).
  assert (Hl : length (repeat (b64_ofZ 0) (n * 2)) = (n * 2)%nat) by apply repeat_length.
  unfold flat, flat_rows; cbn [ds_data ds_count ds_maxcol ds_lengths].
  split; [reflexivity|]. split; [rewrite repeat_length; reflexivity|]. split; [lia|].
  split; [change (D B64) with b64; rewrite Hl; lia|].
  intros i row E. assert (Hi : (i < n)%nat).
  { apply nth_error_Some_lt in E. rewrite repeat_length in E. exact E. }
  rewrite nth_error_repeat in E by exact Hi. injection E as <-.
  split; [apply nth_error_repeat; exact Hi|]. split; [simpl; lia|].
  intros j v Ej. assert (Hj : (j < 2)%nat) by (apply nth_error_Some_lt in Ej; exact Ej).
  assert (Ev : v = b64_ofZ 0) by (destruct j as [|[|j]]; [injection Ej as <-; reflexivity|injection Ej as <-; reflexivity|lia]).
  subst v. unfold aget. rewrite nth_error_repeat by lia.
  destruct (Z.leb_spec 0 (Z.of_nat i * 2 + Z.of_nat j)); [reflexivity|lia].
Qed.

(** both branches of the theorem are met by a data set of 21474840 series (0, 0), a
    buffer of 42949680 values *)
Example C68_example : exists (d : dataset B64) rows, holds d rows /\ 2 <= ds_maxcol d /\
  In "euclidean"%string groupable /\ nltb (ndiv (b64_ofZ 1 : D B64) (nofZ 2)) ninf = true /\
  21474840 <= (ds_maxcol d - 2 + 1) * ds_count d /\
  snd (groupAllLengths (N := B64) (fun _ => true) (b64_ofZ 1) (mkGS d None) "euclidean" (b64_ofZ 1) 1 false) = UB IntOverflow /\
  exists total, snd (groupAllLengths (N := B64) (fun _ => false) (b64_ofZ 1) (mkGS d None) "euclidean" (b64_ofZ 1) 1 false) = Ret total.
Proof.
  assert (Hn : Z.of_nat (Z.to_nat 21474840) = 21474840) by (apply Z2Nat.id; lia).
  remember (Z.to_nat 21474840) as n eqn:En. clear En.
  assert (Hd : holds (flat n) (flat_rows n)) by (apply flat_holds; rewrite Hn; unfold int_max; lia).
  assert (Hg : In "euclidean"%string groupable) by (left; reflexivity).
  assert (Ht : nltb (ndiv (b64_ofZ 1 : D B64) (nofZ 2)) ninf = true) by (vm_compute; reflexivity).
  exists (flat n), (flat_rows n). split; [exact Hd|]. split; [simpl; lia|]. split; [exact Hg|]. split; [exact Ht|].
  split; [simpl ds_maxcol; simpl ds_count; rewrite Hn; lia|]. split.
  - apply (C68_log_overflow_refuted B64 _ (flat n) (flat_rows n) None (fun _ => true) (b64_ofZ 1) "euclidean"%string (b64_ofZ 1) 1 false Hd Hg Ht);
      [simpl; lia|lia|reflexivity|]. simpl ds_maxcol; simpl ds_count; rewrite Hn; lia.
  - destruct (C16_grouping_partitions B64 _ (flat n) (flat_rows n) None (fun _ => false) (b64_ofZ 1) "euclidean"%string (b64_ofZ 1) 1 false Hd Hg Ht)
      as (g & total & E & _); [simpl; lia|lia|intros l Hl; left; reflexivity|].
    exists total. rewrite E. reflexivity.
Qed.
