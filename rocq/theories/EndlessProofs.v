(** Grouping with a threshold that bounds nothing: no distance is found to exceed half
    of it (C85). *)
From Coq Require Import Permutation String.
From Verif Require Import Base Num NumLaws NumFacts LoopFacts TimeSeries Lemire Distance TSSet StdAlg Candidate Group GroupSpace
  DataSpec DataProofs GroupSpec Members GroupProofs GroupAll.
Local Open Scope Z_scope.
Local Open Scope list_scope.

(** one group with the given members, in the order in which they came; none if there are none *)
Definition together (cs : list coord) : list (list coord) :=
  match cs with [] => [] | _ => [rev cs] end.

Lemma rep_rev (c : coord) (cs : list coord) : rep (rev (c :: cs)) = c.
Proof. unfold rep. cbn [rev]. apply last_last. Qed.

Section Endless.
Context {N : Num} {LW : NumLaws N}.
Notation D := (D N).
Variable d : dataset N.
Variable rows : list (list D).
Hypothesis Hd : holds d rows.
Variable pw : dist_fn N.
Variables ratio thr : D.
Notation half := (ndiv thr (nofZ 2)).
Hypothesis Hthr : forall x : D, nltb half x = false.
Variable full : Z -> coord -> coord -> D.
Hypothesis Puncut : forall l c c', 1 <= l <= ds_maxcol d -> is_sub rows l c -> is_sub rows l c' ->
  pwc d pw ratio l c c' ninf = Ret (full l c c').
Notation count := (ds_count d).

Section Level.
Variable len : Z.
Hypothesis Hlen : 1 <= len <= ds_maxcol d.
Notation sub := (ds_maxcol d - len + 1).

Lemma place_first L c : state_ok d rows len L [] -> is_sub rows len c ->
  exists L', place d pw ratio thr (fst c) (snd c) L = Ret L' /\ state_ok d rows len L' [[c]].
Proof.
  intros HS Hsub. pose proof HS as [El Es Ha Hc Hs].
  assert (Eg : ll_groups L = []) by (inversion Hc; reflexivity).
  destruct (sub_ts d rows Hd len Hlen c Hsub) as (query & Eq & _).
  unfold place. rewrite El, Eq in *. cbn [bind]. rewrite Eg in *. cbn [length Z.of_nat].
  unfold for_. change (Z.to_nat (0 - 0)) with O. cbn [for_n bind]. change (0 =? 0) with true. rewrite orb_true_r.
  unfold setCentroid. rewrite Eq. cbn [bind group_new g_cache g_last g_count app].
  set (g0 := mkGroup (CView (fst c) (snd c)) None (-1, -1) 0).
  assert (Hs1 : groups_are count sub (ll_map L) [g0] [[]]).
  { apply (groups_snoc count sub (ll_map L) [] []); [exact Ha| |]; reflexivity. }
  rewrite Es.
  destruct (addMember_ok count sub (ll_map L) [g0] [[]] 0%nat g0 [] c Hs1 eq_refl eq_refl (sub_inb d rows Hd len c Hsub)) as (mm' & Eadd & Hare).
  { intros []. }
  unfold aget. cbn [Z.leb Z.compare Z.to_nat nth_error bind]. rewrite Eadd. cbn [bind].
  rewrite aset_in by (simpl; lia). cbn [bind Z.to_nat upd].
  eexists. split; [reflexivity|]. constructor; cbn [ll_length ll_sub ll_groups ll_map]; auto.
  - constructor; [|constructor]. unfold cent_is. splits; try reflexivity. discriminate.
  - cbn. constructor; [exact Hsub|constructor].
Qed.

Lemma place_again L ms c : state_ok d rows len L [ms] -> is_sub rows len c -> ~ In c ms ->
  if nltb (full len (rep ms) c) ninf
  then exists L', place d pw ratio thr (fst c) (snd c) L = Ret L' /\ state_ok d rows len L' [c :: ms]
  else place d pw ratio thr (fst c) (snd c) L = UB Uninit.
Proof.
  intros HS Hsub Hni. pose proof HS as [El Es Ha Hc Hs].
  inversion Hc as [|g ms0 gl msl Hg Hn E1 E2]. subst ms0 msl. inversion Hn. subst gl.
  destruct Hg as (Hne & Ecent & Ecache). symmetry in E1.
  assert (Hr : is_sub rows len (rep ms)).
  { rewrite Forall_forall in Hs. apply Hs. cbn. rewrite app_nil_r. apply rep_in, Hne. }
  destruct (sub_ts d rows Hd len Hlen c Hsub) as (query & Eq & _).
  destruct (sub_ts d rows Hd len Hlen _ Hr) as (t & Et & _).
  pose proof (Puncut len (rep ms) c Hlen Hr Hsub) as Ev. unfold pwc in Ev. rewrite Et, Eq in Ev. cbn [bind] in Ev.
  rewrite E1 in *.
  assert (En : for_ 0 1 (nearest_step d len pw ratio [g] query) (ninf, None) =
    Ret (if nltb (full len (rep ms) c) ninf then (full len (rep ms) c, Some 0) else (ninf, None))).
  { unfold for_. change (Z.to_nat (1 - 0)) with 1%nat. cbn [for_n]. unfold nearest_step, aget. cbn [Z.leb Z.compare Z.to_nat nth_error bind].
    rewrite Ecent, (cent_view d rows Hd len Hlen _ t Hr Et). cbn [bind fst].
    destruct (pw ratio t query ninf []) as [[v mt]| | |]; try discriminate. cbn [bind] in *.
    injection Ev as ->. destruct (nltb (full len (rep ms) c) ninf); reflexivity. }
  assert (Epl : place d pw ratio thr (fst c) (snd c) L = if nltb (full len (rep ms) c) ninf
    then '(g', mm') <- addMember sub g (ll_map L) (fst c) (snd c) ;; groups' <- aset [g] 0 g' ;; Ret (mkLL len sub groups' mm')
    else UB Uninit).
  { unfold place. rewrite El, Es, E1, Eq. cbn [bind length]. change (Z.of_nat 1) with 1. rewrite En. cbn [bind].
    destruct (nltb (full len (rep ms) c) ninf); rewrite Hthr; change (1 =? 0) with false; cbn [orb init_get bind]; reflexivity. }
  rewrite Epl. clear Epl En.
  destruct (nltb (full len (rep ms) c) ninf) eqn:Evb.
  - destruct (addMember_ok count sub (ll_map L) [g] [ms] 0%nat g ms c Ha eq_refl eq_refl (sub_inb d rows Hd len c Hsub)) as (mm' & Eadd & Hare).
    { cbn. rewrite app_nil_r. exact Hni. }
    rewrite Eadd. cbn [bind]. rewrite aset_in by (simpl; lia). cbn [bind Z.to_nat upd].
    eexists. split; [reflexivity|]. constructor; cbn [ll_length ll_sub ll_groups ll_map]; auto.
    + constructor; [|constructor]. unfold cent_is. splits; simpl; auto; [discriminate|]. destruct ms; [contradiction|]. exact Ecent.
    + cbn in Hs |- *. rewrite app_nil_r in *. constructor; auto.
  - reflexivity.
Qed.

(** the subsequence of this length that comes first is near the given one *)
Definition good (c : coord) : Prop :=
  match all_subs d rows len with
  | [] => True
  | c0 :: _ => c = c0 \/ nltb (full len c0 c) ninf = true
  end.

Lemma good_dec c : {good c} + {~ good c}.
Proof.
  unfold good. destruct (all_subs d rows len) as [|c0 l]; [left; exact I|].
  destruct (nltb (full len c0 c) ninf); [left; auto|].
  assert (E : {c = c0} + {c <> c0}) by (decide equality; apply Z.eq_dec).
  destruct E as [E|E]; [left; auto|right]. intros [X|X]; [auto|discriminate].
Qed.

Definition body (doLog : bool) (total : Z) (c : coord) (st : Z * llgs N) : res (Z * llgs N) :=
  let counter := fst st + 1 in
  _ <- log_step doLog total counter ;;
  ln <- getItemLength d (fst c) ;;
  if ln <? snd c + ll_length (snd st) then Ret (counter, snd st)
  else L' <- place d pw ratio thr (fst c) (snd c) (snd st) ;; Ret (counter, L').

Lemma run_endless doLog : doLog = false \/ sub * count = 0 \/ 5 <= sub * count < 21474840 ->
  forall post pre L, all_pos d rows len = pre ++ post ->
  state_ok d rows len L (together (filter (fitb rows len) pre)) ->
  if Forall_dec good good_dec (filter (fitb rows len) post)
  then exists cnt L', fold_res (body doLog (sub * count)) post (Z.of_nat (length pre), L) = Ret (cnt, L') /\
         state_ok d rows len L' (together (all_subs d rows len))
  else fold_res (body doLog (sub * count)) post (Z.of_nat (length pre), L) = UB Uninit.
Proof.
  intros Hlog. induction post as [|c post IH]; intros pre L Ep HS.
  - cbn [filter]. destruct (Forall_dec good good_dec []) as [_|F]; [|exfalso; apply F; constructor].
    cbn [fold_res]. eexists _, _. split; [reflexivity|]. unfold all_subs. rewrite Ep, app_nil_r. exact HS.
  - assert (Hc : In c (all_pos d rows len)) by (rewrite Ep; apply in_or_app; right; left; auto).
    pose proof Hc as Hc'. apply (all_pos_In d rows len Hlen) in Hc' as [Hi Hs].
    assert (Hcl : Z.of_nat (length pre) + 1 <= sub * count).
    { pose proof (all_pos_length d rows Hd len Hlen) as Hal. rewrite Ep, app_length in Hal. cbn [length] in Hal. lia. }
    assert (Ht : doLog = false \/ 5 <= sub * count < 21474840).
    { destruct Hlog as [?|[?|?]]; auto. exfalso. lia. }
    cbn [fold_res]. unfold body at 1 3. cbn [fst snd]. rewrite log_ok by (auto; lia). cbn [bind].
    destruct (row_of_in rows (fst c) Hi) as [row Er].
    destruct (holds_row _ _ _ _ Hd Er) as (buf & _ & _ & Eil & _). rewrite Eil. cbn [bind].
    rewrite (so_len _ _ _ _ _ HS).
    assert (Hfe : fitb rows len c = negb (Z.of_nat (length row) <? snd c + len)).
    { unfold fitb. rewrite Er. destruct (Z.leb_spec (snd c + len) (Z.of_nat (length row))),
        (Z.ltb_spec (Z.of_nat (length row)) (snd c + len)); auto; lia. }
    assert (Ecnt : Z.of_nat (length pre) + 1 = Z.of_nat (length (pre ++ [c]))) by (rewrite app_length; simpl; lia).
    assert (Ep' : all_pos d rows len = (pre ++ [c]) ++ post) by (rewrite <- app_assoc; exact Ep).
    assert (Efc : filter (fitb rows len) (c :: post) = if fitb rows len c then c :: filter (fitb rows len) post else filter (fitb rows len) post) by reflexivity.
    rewrite Efc. specialize (IH (pre ++ [c])).
    assert (Efp : filter (fitb rows len) (pre ++ [c]) = filter (fitb rows len) pre ++ (if fitb rows len c then [c] else [])).
    { rewrite filter_app. cbn [filter]. destruct (fitb rows len c); reflexivity. }
    rewrite Efp in IH.
    destruct (fitb rows len c) eqn:Ef.
    + destruct (Z.of_nat (length row) <? snd c + len); [discriminate|].
      assert (Hsub : is_sub rows len c) by (apply (fitb_iff d rows len Hlen); auto).
      assert (Eall : all_subs d rows len = filter (fitb rows len) pre ++ c :: filter (fitb rows len) post).
      { unfold all_subs. rewrite Ep, filter_app. cbn [filter]. rewrite Ef. reflexivity. }
      assert (Hni : ~ In c (filter (fitb rows len) pre)).
      { pose proof (all_subs_NoDup d rows len) as Hnd. rewrite Eall in Hnd. apply NoDup_remove_2 in Hnd. intros X. apply Hnd, in_or_app. auto. }
      destruct (filter (fitb rows len) pre) as [|c0 cs] eqn:Epre.
      * cbn [together] in HS. destruct (place_first L c HS Hsub) as (L' & E & HS'). rewrite E. cbn [bind].
        rewrite Ecnt. specialize (IH L' Ep' HS').
        assert (Gc : good c) by (unfold good; rewrite Eall; left; reflexivity).
        destruct (Forall_dec good good_dec (filter (fitb rows len) post)) as [F|F],
          (Forall_dec good good_dec (c :: filter (fitb rows len) post)) as [F'|F']; try exact IH.
        -- exfalso. apply F'. constructor; auto.
        -- exfalso. apply F. inversion F'. auto.
      * cbn [together] in HS. pose proof (place_again L (rev (c0 :: cs)) c HS Hsub) as P. rewrite rep_rev in P.
        rewrite <- in_rev in P. specialize (P Hni).
        destruct (nltb (full len c0 c) ninf) eqn:Ev.
        -- destruct P as (L' & E & HS'). rewrite E. cbn [bind]. rewrite Ecnt.
           assert (HS2 : state_ok d rows len L' (together ((c0 :: cs) ++ [c]))).
           { unfold together. cbn [app]. change (c0 :: cs ++ [c]) with ((c0 :: cs) ++ [c]). rewrite rev_app_distr. exact HS'. }
           specialize (IH L' Ep' HS2).
           assert (Gc : good c) by (unfold good; rewrite Eall; right; exact Ev).
           destruct (Forall_dec good good_dec (filter (fitb rows len) post)) as [F|F],
             (Forall_dec good good_dec (c :: filter (fitb rows len) post)) as [F'|F']; try exact IH.
           ++ exfalso. apply F'. constructor; auto.
           ++ exfalso. apply F. inversion F'. auto.
        -- rewrite P. cbn [bind].
           destruct (Forall_dec good good_dec (c :: filter (fitb rows len) post)) as [F'|F']; [|reflexivity].
           exfalso. inversion F' as [|? ? Gc _]. unfold good in Gc. rewrite Eall in Gc. cbn [app] in Gc.
           destruct Gc as [->|Gc]; [apply Hni; left; reflexivity|congruence].
    + destruct (Z.of_nat (length row) <? snd c + len); [|discriminate]. cbn [bind]. rewrite Ecnt.
      rewrite app_nil_r in IH. exact (IH L Ep' HS).
Qed.

Lemma level_endless (clock : Z -> bool) : clock len = false \/ sub * count = 0 \/ 5 <= sub * count < 21474840 ->
  if Forall_dec good good_dec (all_subs d rows len)
  then exists L, group_level clock d pw ratio thr len = Ret L /\ state_ok d rows len L (together (all_subs d rows len))
  else group_level clock d pw ratio thr len = UB Uninit.
Proof.
  intros Hlog. unfold group_level. destruct (ll_new_ok d rows Hd len Hlen) as (L0 & E0 & HS0). rewrite E0. cbn [bind].
  unfold generateGroups. rewrite (so_sub _ _ _ _ _ HS0).
  pose proof (count_sub d rows Hd len Hlen) as Hcs. rewrite imul_ok by (unfold int_min; lia). cbn [bind].
  rewrite for_fold. replace (sub - 0) with sub by lia.
  assert (E : forall st, fold_res (fun start st => for_ 0 count (fun idx (st : Z * llgs N) =>
      let counter := fst st + 1 in
      _ <- log_step (clock len) (sub * count) counter ;;
      ln <- getItemLength d idx ;;
      if ln <? start + ll_length (snd st) then Ret (counter, snd st)
      else L' <- place d pw ratio thr idx start (snd st) ;; Ret (counter, L')) st) (zseq 0 (Z.to_nat sub)) st
     = fold_res (body (clock len) (sub * count)) (all_pos d rows len) st).
  { intros st. unfold all_pos. rewrite fold_res_flat. apply fold_res_ext. intros s st' _.
    rewrite for_fold, fold_res_map. replace (Z.to_nat (count - 0)) with (length rows) by (rewrite (count_rows d rows Hd); lia).
    reflexivity. }
  rewrite E. clear E.
  pose proof (run_endless (clock len) Hlog (all_pos d rows len) [] L0 eq_refl HS0) as R. cbn [length Z.of_nat] in R.
  change (filter (fitb rows len) (all_pos d rows len)) with (all_subs d rows len) in R.
  destruct (Forall_dec good good_dec (all_subs d rows len)).
  - destruct R as (cnt & L' & E & HS). rewrite E. cbn [bind]. eauto.
  - rewrite R. reflexivity.
Qed.
End Level.

(** all lengths from [i] on *)
Variable clock : Z -> bool.
Hypothesis Hclock : forall l, 1 <= l <= ds_maxcol d ->
  clock l = false \/ (ds_maxcol d - l + 1) * ds_count d = 0 \/ 5 <= (ds_maxcol d - l + 1) * ds_count d < 21474840.
Definition fine (l : Z) : Prop := Forall (good l) (all_subs d rows l).
Definition level_one (l : Z) (L : llgs N) : Prop := state_ok d rows l L (together (all_subs d rows l)).

Lemma loop_fine : forall n i gs, 1 <= i -> i + Z.of_nat n = ds_maxcol d + 1 ->
  Z.of_nat (length (gg_levels gs)) = ds_maxcol d + 1 ->
  (forall l, i <= l <= ds_maxcol d -> nth_error (gg_levels gs) (Z.to_nat l) = Some None) ->
  (forall l, i <= l <= ds_maxcol d -> fine l) ->
  exists levels total, group_loop clock d pw ratio thr n i gs =
      (mkGG (gg_name gs) levels (gg_pw gs) (gg_warp gs) (gg_threshold gs) total (gg_whole gs), Ret total) /\
    Z.of_nat (length levels) = ds_maxcol d + 1 /\
    (forall l, 0 <= l < i -> nth_error levels (Z.to_nat l) = nth_error (gg_levels gs) (Z.to_nat l)) /\
    (forall l, i <= l <= ds_maxcol d -> exists L, nth_error levels (Z.to_nat l) = Some (Some L) /\ level_one l L) /\
    total - count_groups levels = gg_total gs - count_groups (gg_levels gs).
Proof.
  induction n as [|n IH]; intros i gs Hi Hn Hlen Hnone Hf.
  - simpl. exists (gg_levels gs), (gg_total gs). splits; auto; [destruct gs; reflexivity|]. intros l Hl. lia.
  - simpl. pose proof (level_endless i ltac:(lia) clock (Hclock i ltac:(lia))) as Hle.
    destruct (Forall_dec (good i) (good_dec i) (all_subs d rows i)) as [_|F]; [|exfalso; apply F, Hf; lia].
    destruct Hle as (L & EL & HL). rewrite EL.
    rewrite aset_in by lia.
    destruct (IH (i + 1) (mkGG (gg_name gs) (upd (gg_levels gs) (Z.to_nat i) (Some L)) (gg_pw gs) (gg_warp gs) (gg_threshold gs)
                      (gg_total gs + Z.of_nat (length (ll_groups L))) (gg_whole gs)))
      as (levels & total & E & H1 & H2 & H3 & H4); simpl; try lia.
    + rewrite upd_length. exact Hlen.
    + intros l Hl. rewrite nth_error_upd_eq. destruct (Nat.eqb_spec (Z.to_nat l) (Z.to_nat i)); [lia|].
      apply Hnone. lia.
    + intros l Hl. apply Hf. lia.
    + exists levels, total. rewrite E. simpl in *. splits; auto.
      * intros l Hl. rewrite H2 by lia. rewrite nth_error_upd_eq.
        destruct (Nat.eqb_spec (Z.to_nat l) (Z.to_nat i)); [lia|reflexivity].
      * intros l Hl. destruct (Z.eq_dec l i) as [->|Hne]; [|apply H3; lia].
        exists L. split; auto. rewrite H2 by lia. rewrite nth_error_upd_eq, Nat.eqb_refl.
        destruct (Nat.ltb_spec (Z.to_nat i) (length (gg_levels gs))); [reflexivity|lia].
      * rewrite H4. rewrite count_upd by (apply Hnone; lia). lia.
Qed.

Lemma loop_bad : forall n i gs, 1 <= i -> i + Z.of_nat n = ds_maxcol d + 1 ->
  Z.of_nat (length (gg_levels gs)) = ds_maxcol d + 1 ->
  (exists l, i <= l <= ds_maxcol d /\ ~ fine l) ->
  snd (group_loop clock d pw ratio thr n i gs) = UB Uninit.
Proof.
  induction n as [|n IH]; intros i gs Hi Hn Hlen (l & Hl & Hb); [lia|].
  simpl. pose proof (level_endless i ltac:(lia) clock (Hclock i ltac:(lia))) as Hle.
  destruct (Forall_dec (good i) (good_dec i) (all_subs d rows i)) as [F|F].
  - destruct Hle as (L & EL & HL). rewrite EL. rewrite aset_in by lia. apply IH; try lia.
    + cbn [gg_levels]. rewrite upd_length. exact Hlen.
    + exists l. split; [|exact Hb]. assert (l <> i) by (intros ->; apply Hb, F). lia.
  - rewrite Hle. reflexivity.
Qed.

Lemma fine_dec l : {fine l} + {~ fine l}.
Proof. apply Forall_dec, good_dec. Qed.

Lemma group_endless gs0 name w whole : getDistanceFromName name = Ret pw -> warpedFor name = Ret w -> 1 <= ds_maxcol d ->
  ((forall l, min_length d whole <= l <= ds_maxcol d -> fine l) ->
   exists levels total,
    gg_group clock d ratio gs0 name thr whole
      = (mkGG name levels (Some pw) (Some w) (Some thr) total whole, Ret total) /\
    Z.of_nat (length levels) = ds_maxcol d + 1 /\ total = count_groups levels /\
    (forall l, 0 <= l < min_length d whole -> l <= ds_maxcol d -> nth_error levels (Z.to_nat l) = Some None) /\
    (forall l, min_length d whole <= l <= ds_maxcol d ->
       exists L, nth_error levels (Z.to_nat l) = Some (Some L) /\ level_one l L)) /\
  ((exists l, min_length d whole <= l <= ds_maxcol d /\ ~ fine l) ->
   snd (gg_group clock d ratio gs0 name thr whole) = UB Uninit).
Proof.
  intros Epw Ew Hm. unfold gg_group, gg_loadDistance. rewrite Epw, Ew.
  destruct (Z.ltb_spec (ds_maxcol d + 1) 0); [lia|].
  cbn [gg_name gg_pw gg_warp gg_levels gg_whole with_levels].
  set (levels0 := repeat None (Z.to_nat (ds_maxcol d + 1))).
  assert (Hl0 : length levels0 = Z.to_nat (ds_maxcol d + 1)) by apply repeat_length.
  assert (Hmin : Z.max 0 (gg_minLength (mkGG name levels0 (Some pw) (Some w) (Some thr) 0 whole)) = min_length d whole).
  { unfold gg_minLength, min_length. cbn [gg_whole gg_levels]. rewrite Hl0. destruct whole; lia. }
  rewrite Hmin. assert (Hml : 1 <= min_length d whole) by (unfold min_length; destruct whole; lia).
  assert (Hn0 : forall l, 0 <= l <= ds_maxcol d -> nth_error levels0 (Z.to_nat l) = Some None).
  { intros l Hl. unfold levels0. apply nth_error_repeat. lia. }
  split.
  - intros Hf. destruct (Z_le_gt_dec (min_length d whole) (ds_maxcol d)) as [Hle|Hgt].
    + destruct (loop_fine (Z.to_nat (ds_maxcol d + 1 - min_length d whole)) (min_length d whole)
        (mkGG name levels0 (Some pw) (Some w) (Some thr) 0 whole)) as (levels & total & E & H1 & H2 & H3 & H4);
        cbn [gg_levels gg_total gg_name gg_pw gg_warp gg_threshold gg_whole] in *; try lia.
      * intros l Hl. apply Hn0. lia.
      * exact Hf.
      * exists levels, total. rewrite E. splits; auto.
        -- unfold levels0 in H4. rewrite count_none in H4. lia.
        -- intros l Hl Hl'. rewrite H2 by lia. apply Hn0. lia.
    + replace (Z.to_nat (ds_maxcol d + 1 - min_length d whole)) with O by lia. simpl.
      exists levels0, 0. splits; auto; try lia.
      * unfold levels0. rewrite count_none. reflexivity.
      * intros l Hl Hl2. apply Hn0. lia.
  - intros Hb. apply loop_bad; auto; cbn [gg_levels]; try lia.
    destruct Hb as (l & Hl & _). lia.
Qed.
End Endless.
