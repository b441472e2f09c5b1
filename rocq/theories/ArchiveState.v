(** Saving and loading all groups of a data set. *)
From Coq Require Import String Permutation.
From Verif Require Import Base Num NumLaws NumFacts LoopFacts TimeSeries Lemire Distance TSSet StdAlg Candidate Group GroupSpace
  DistSpec DistLink DataSpec DataProofs GroupSpec GroupView Members GroupProofs GroupAll GroupDist QueryState QuerySpec QueryProofs PropsGroup
  Archive ArchiveProofs.
Local Open Scope Z_scope.
Local Open Scope list_scope.

Definition n_groups (o : option (list (list coord))) : Z :=
  match o with Some gs => Z.of_nat (length gs) | None => 0 end.
Definition sum_groups (gss : Z -> option (list (list coord))) (lo : Z) (n : nat) : Z :=
  fold_right Z.add 0 (map (fun l => n_groups (gss l)) (zseq lo n)).

(** the groups with their lists of members reversed *)
Definition rev_gss (gss : Z -> option (list (list coord))) (l : Z) : option (list (list coord)) :=
  option_map (map (@rev coord)) (gss l).

Lemma sum_rev gss lo n : sum_groups (rev_gss gss) lo n = sum_groups gss lo n.
Proof.
  unfold sum_groups. f_equal. apply map_ext. intros l. unfold rev_gss. destruct (gss l); simpl; auto. rewrite map_length. reflexivity.
Qed.

Lemma sum_none gss lo n : (forall l, lo <= l < lo + Z.of_nat n -> gss l = None) -> sum_groups gss lo n = 0.
Proof.
  revert lo. induction n as [|n IH]; intros lo H; simpl; auto. unfold sum_groups in *. simpl. rewrite H by lia. simpl.
  apply IH. intros l Hl. apply H. lia.
Qed.

Lemma zseq_app lo n m : zseq lo (n + m) = zseq lo n ++ zseq (lo + Z.of_nat n) m.
Proof.
  revert lo. induction n as [|n IH]; intros lo; simpl; [f_equal; lia|]. rewrite IH. do 3 f_equal. lia.
Qed.

Lemma sum_app gss lo n m : sum_groups gss lo (n + m) = sum_groups gss lo n + sum_groups gss (lo + Z.of_nat n) m.
Proof.
  unfold sum_groups. rewrite zseq_app, map_app, fold_right_app.
  generalize (fold_right Z.add 0 (map (fun l => n_groups (gss l)) (zseq (lo + Z.of_nat n) m))) as z.
  induction (map (fun l => n_groups (gss l)) (zseq lo n)) as [|x xs IH]; intros z; simpl; [lia|]. rewrite IH. lia.
Qed.

Section State.
Context {N : Num} {RP : Rep}.
Notation D := (D N).

Record kept (d : dataset N) (rows : list (list D)) (k : kind) (thr : D) (whole wflag : bool) (g : gset N)
  (gss : Z -> option (list (list coord))) : Prop := {
  kp_set : set_q d rows k g gss;
  kp_gs : exists gs, gt_groups g = Some gs /\ gg_name gs = kind_name k /\ gg_threshold gs = Some thr /\
    gg_total gs = sum_groups gss 0 (Z.to_nat (ds_maxcol d + 1)) /\ gg_whole gs = wflag;
  kp_len : forall l, 0 <= l <= ds_maxcol d -> (gss l <> None <-> grouped_length d whole l);
  kp_cov : forall l gs c, 0 <= l <= ds_maxcol d -> gss l = Some gs -> is_sub rows l c -> In c (concat gs);
  kp_view : rp_text = false
}.

Lemma kept_ready_at d rows k thr whole wflag g gss : kept d rows k thr whole wflag g gss -> ready_at d rows k whole g gss.
Proof. intros [H1 _ H3 H4 _]. split; auto. Qed.

Lemma level_gs (d : dataset N) rows l L gs : level_q d rows l L gs ->
  Forall (fun ms => ms <> []) gs /\ Forall (is_sub rows l) (concat gs) /\ NoDup (concat gs).
Proof.
  intros [A1 A2 A3 A4 A5]. splits; auto; [|apply A3].
  clear - A4. induction A4 as [|g ms l0 l' (B1 & _) A4 IH]; constructor; auto.
Qed.

(** queries only touch cached envelopes *)
Lemma asked_keeps H (g g' : gset N) gs : asked H g g' -> gt_groups g = Some gs ->
  exists levels, gt_groups g' = Some (with_levels gs levels).
Proof.
  intros Ha Eg. induction Ha as [|g1 g2 ratio query c Ha IH E|g1 g2 ratio query K h cs Ha IH E].
  - exists (gg_levels gs). rewrite Eg. destruct gs; reflexivity.
  - destruct IH as (lv & E1). unfold getBestMatch in E. rewrite E1 in E. unfold gg_getBestMatch in E.
    destruct (_ <=? 1); [discriminate|]. destruct (generateTraverseOrder _ _ _) as [order| | |]; simpl in E; try discriminate.
    destruct (gg_warp gs) as [w|].
    + destruct (each_level _ _ _ _) as [[levels [bd bg]]| | |]; simpl in E; try discriminate.
      destruct bg as [[len i]|]; simpl in E; try discriminate.
      destruct (aget levels len) as [oL| | |]; simpl in E; try discriminate.
      destruct oL as [L|]; simpl in E; try discriminate.
      destruct (aget (ll_groups L) i) as [gr| | |]; simpl in E; try discriminate.
      destruct (groupBestMatch _ _ _ _ _ _ _ _) as [c0| | |]; simpl in E; try discriminate.
      injection E as <- _. exists levels. reflexivity.
    + destruct (each_level _ _ _ _) as [[levels u]| | |]; simpl in E; discriminate.
  - destruct IH as (lv & E1). unfold getKBestMatches in E. rewrite E1 in E. destruct (h <? K); [discriminate|].
    unfold gg_getKBestMatches in E.
    destruct (generateTraverseOrder _ _ _) as [order| | |]; simpl in E; try discriminate.
    cbn [gg_warp with_levels] in E. destruct (gg_warp gs) as [w|].
    + destruct (each_level _ _ _ _) as [[levels [best k']]| | |]; simpl in E; try discriminate.
      match type of E with context [bind (bind (bind ?m _) _) _] => destruct m as [r1| | |]; simpl in E; try discriminate
                | context [bind (bind ?m _) _] => destruct m as [r1| | |]; simpl in E; try discriminate end.
      destruct (recompute _ _ _ _) as [r2| | |]; simpl in E; try discriminate.
      destruct (sort H (@cand_lt N) r2) as [r3| | |]; simpl in E; try discriminate.
      destruct (resize r3 K (@cand_default N)) as [r4| | |]; simpl in E; try discriminate.
      injection E as <- _. exists levels. reflexivity.
    + destruct (each_level _ _ _ _) as [[levels u]| | |]; simpl in E; try discriminate.
      match type of E with context [resize ?r3 ?K0 ?c0] => destruct (resize r3 K0 c0) as [r4| | |]; simpl in E; try discriminate end.
      injection E as <- _. exists lv. reflexivity.
Qed.

Lemma kept_asked H d rows k thr whole wflag g g' gss : kept d rows k thr whole wflag g gss -> asked H g g' ->
  kept d rows k thr whole wflag g' gss.
Proof.
  intros [H1 (gs & Eg & E1 & E2 & E3 & E4) H3 H4 Htx] Ha. constructor; auto.
  - eapply asked_state; eauto.
  - destruct (asked_keeps H g g' gs Ha Eg) as (lv & E). exists (with_levels gs lv). splits; auto.
Qed.

Lemma count_levels d rows levels gss : levels_q (N := N) d rows levels gss ->
  count_groups levels = sum_groups gss 0 (Z.to_nat (ds_maxcol d + 1)).
Proof.
  intros [Hlen HL]. replace (Z.to_nat (ds_maxcol d + 1)) with (length levels) by lia.
  assert (G : forall post pre, levels = pre ++ post ->
    count_groups post = sum_groups gss (Z.of_nat (length pre)) (length post)).
  { induction post as [|o post IH]; intros pre E; [reflexivity|].
    assert (En : nth_error levels (length pre) = Some o) by (rewrite E, nth_error_app2, Nat.sub_diag by lia; reflexivity).
    assert (Hp : Z.of_nat (length pre) <= ds_maxcol d) by (apply nth_error_Some_lt in En; lia).
    specialize (HL (Z.of_nat (length pre)) ltac:(lia)). rewrite Nat2Z.id, En in HL.
    specialize (IH (pre ++ [o])). rewrite app_length in IH. cbn [length] in IH.
    replace (Z.of_nat (length pre + 1)) with (Z.of_nat (length pre) + 1) in IH by lia.
    unfold sum_groups in *. cbn [length zseq map fold_right]. rewrite <- IH by (rewrite <- app_assoc; exact E).
    destruct (gss (Z.of_nat (length pre))) as [gs|].
    - destruct HL as (_ & L & EL & HLq). injection EL as ->. cbn [count_groups n_groups].
      rewrite (Forall2_length _ _ _ (lq_cent _ _ _ _ _ HLq)). lia.
    - injection HL as ->. reflexivity. }
  apply (G levels []). reflexivity.
Qed.

(** ** saving *)
Definition enc_at (gss : Z -> option (list (list coord))) (l : Z) : list (tok N) :=
  match gss l with Some gs => enc_level gs | None => [] end.
Definition enc_from (gss : Z -> option (list (list coord))) (lo : Z) (n : nat) : list (tok N) := flat_map (enc_at gss) (zseq lo n).

Lemma save_space_ok d rows gs gss thr m : rp_text = false -> levels_q d rows (gg_levels gs) gss -> gg_threshold gs = Some thr ->
  0 <= m -> gg_minLength gs = m -> (forall l, m <= l <= ds_maxcol d -> gss l <> None) ->
  save_space gs = Ret (TI m :: TI (ds_maxcol d + 1) :: TStr (gg_name gs) :: TD thr ::
                       enc_from gss m (Z.to_nat (ds_maxcol d + 1 - m))).
Proof.
  intros Htx [Hlen HL] Et Hm Em Hall. unfold save_space. rewrite Et, Em, Hlen. cbn [init_get bind]. rewrite for_fold.
  set (n := Z.to_nat (ds_maxcol d + 1 - m)).
  assert (G : forall n lo acc, m <= lo -> Z.of_nat n <= Z.max 0 (ds_maxcol d + 1 - lo) ->
    fold_res (fun i acc => o <- aget (gg_levels gs) i ;; L <- deref o ;; t <- save_level L ;; Ret (acc ++ t)) (zseq lo n) acc
    = Ret (acc ++ enc_from gss lo n)).
  { clear n. induction n as [|n IH]; intros lo acc H1 H2; [simpl; rewrite app_nil_r; reflexivity|].
    cbn [zseq fold_res]. specialize (HL lo ltac:(lia)). pose proof (Hall lo ltac:(lia)) as Hne.
    unfold enc_from. cbn [zseq flat_map]. unfold enc_at at 1. destruct (gss lo) as [gl|]; [|contradiction].
    destruct HL as (_ & L & EL & HLq). unfold aget. destruct (Z.leb_spec 0 lo); [|lia]. rewrite EL. cbn [bind deref].
    rewrite (save_level_ok _ _ _ _ _ Htx HLq). cbn [bind]. rewrite IH by lia. unfold enc_from. rewrite <- app_assoc. reflexivity. }
  rewrite G by (unfold n; lia). reflexivity.
Qed.

Lemma grouped_min (d : dataset N) whole gs : Z.of_nat (length (gg_levels (N := N) gs)) = ds_maxcol d + 1 ->
  gg_whole gs = whole -> gg_minLength gs = (if whole then ds_maxcol d else 2).
Proof. intros H E. unfold gg_minLength. rewrite E. destruct whole; auto. lia. Qed.

Definition file_of (d : dataset N) (k : kind) (thr : D) (whole : bool) gss : list (tok N) :=
  let m := if whole then ds_maxcol d else 2 in
  TI (ds_count d) :: TI (ds_maxcol d) :: TI m :: TI (ds_maxcol d + 1) :: TStr (kind_name k) :: TD thr ::
  enc_from gss m (Z.to_nat (ds_maxcol d + 1 - m)).

Lemma save_ok d rows k thr whole g gss : 0 <= ds_maxcol d -> kept d rows k thr whole whole g gss ->
  save g = Ret (file_of d k thr whole gss).
Proof.
  intros Hm [(Ed & gs0 & Eg0 & _ & _ & HL) (gs & Eg & E1 & E2 & E3 & E4) H3 H4 Htx].
  rewrite Eg in Eg0. injection Eg0 as <-. unfold save. rewrite Eg, Ed.
  rewrite (save_space_ok d rows gs gss thr (if whole then ds_maxcol d else 2)); auto.
  - cbn [bind]. rewrite E1. reflexivity.
  - destruct whole; lia.
  - apply grouped_min; auto. apply HL.
  - intros l Hl. apply H3; [destruct whole; lia|]. unfold grouped_length. destruct whole; lia.
Qed.
End State.

(** ** loading *)
Section Load.
Context {N : Num} {RP : Rep}.
Notation D := (D N).
Variable d : dataset N.
Variable rows : list (list D).
Hypothesis Hd : holds d rows.
Variable gss : Z -> option (list (list coord)).
Hypothesis Hgss : forall l gl, 1 <= l <= ds_maxcol d -> gss l = Some gl ->
  Forall (fun ms => ms <> []) gl /\ Forall (is_sub rows l) (concat gl) /\ NoDup (concat gl).

Lemma load_levels_ok rest : forall n i gs, 1 <= i -> i + Z.of_nat n <= ds_maxcol d + 1 ->
  (forall l, i <= l < i + Z.of_nat n -> gss l <> None) ->
  Z.of_nat (length (gg_levels gs)) = ds_maxcol d + 1 ->
  exists levels, load_levels d n i gs (enc_from gss i n ++ rest)
      = (mkGG (gg_name gs) levels (gg_pw gs) (gg_warp gs) (gg_threshold gs) (gg_total gs + sum_groups gss i n) (gg_whole gs), Ret rest) /\
    Z.of_nat (length levels) = ds_maxcol d + 1 /\
    (forall l, 0 <= l -> ~ i <= l < i + Z.of_nat n -> nth_error levels (Z.to_nat l) = nth_error (gg_levels gs) (Z.to_nat l)) /\
    (forall l gl, i <= l < i + Z.of_nat n -> gss l = Some gl -> exists L, nth_error levels (Z.to_nat l) = Some (Some L) /\
       level_q (RP := rev_rep RP) d rows l L (map (@rev coord) gl)).
Proof.
  induction n as [|n IH]; intros i gs Hi Hn Hall Hlen.
  - exists (gg_levels gs). simpl. unfold sum_groups. simpl. rewrite Z.add_0_r. splits; auto; [destruct gs; reflexivity|]. intros; lia.
  - cbn [load_levels]. unfold enc_from. cbn [zseq flat_map]. unfold enc_at at 1.
    pose proof (Hall i ltac:(lia)) as Hne. destruct (gss i) as [gl|] eqn:Egl; [|contradiction].
    destruct (Hgss i gl ltac:(lia) Egl) as (G1 & G2 & G3).
    destruct (ll_new_ok d rows Hd i ltac:(lia)) as (L0 & E0 & _). rewrite E0. cbn [bind]. rewrite <- app_assoc.
    destruct (load_level_ok d rows Hd i ltac:(lia) (flat_map (enc_at gss) (zseq (i + 1) n) ++ rest) gl L0 E0 G1 G2 G3) as (L' & E' & HL').
    rewrite E'. cbn [bind]. rewrite aset_in by lia. cbn [bind and_then].
    set (gs1 := mkGG (gg_name gs) (upd (gg_levels gs) (Z.to_nat i) (Some L')) (gg_pw gs) (gg_warp gs) (gg_threshold gs)
                 (gg_total gs + Z.of_nat (length (ll_groups L'))) (gg_whole gs)).
    destruct (IH (i + 1) gs1) as (levels & E & I1 & I2 & I3); try lia.
    { intros l Hl. apply Hall. lia. }
    { unfold gs1. cbn [gg_levels]. rewrite upd_length. exact Hlen. }
    exists levels. fold (enc_from (N := N) gss (i + 1) n). rewrite E. splits; auto.
    + unfold gs1. cbn [gg_name gg_pw gg_warp gg_threshold gg_total gg_whole]. do 2 f_equal.
      unfold sum_groups. cbn [zseq map fold_right]. rewrite Egl. cbn [n_groups].
      rewrite (Forall2_length _ _ _ (lq_cent _ _ _ _ _ HL')), map_length. lia.
    + intros l Hl0 Hl. rewrite I2 by lia. unfold gs1. cbn [gg_levels]. rewrite nth_error_upd_eq.
      destruct (Nat.eqb_spec (Z.to_nat l) (Z.to_nat i)); auto. lia.
    + intros l gl' Hl Egl'. destruct (Z.eq_dec l i) as [->|Hli].
      * rewrite Egl in Egl'. injection Egl' as <-. exists L'. split; auto. rewrite I2 by lia.
        unfold gs1. cbn [gg_levels]. rewrite nth_error_upd_eq, Nat.eqb_refl.
        destruct (Nat.ltb_spec (Z.to_nat i) (length (gg_levels gs))); auto. lia.
      * apply I3; auto. lia.
Qed.
End Load.

Lemma load_ok {N : Num} {RP : Rep} (d d' : dataset N) rows k thr whole wflag g gss old :
  1 <= ds_maxcol d ->
  kept d rows k thr whole wflag g gss -> holds d' rows -> ds_maxcol d' = ds_maxcol d -> ds_count d' = ds_count d ->
  exists g', load (mkGS d' old) (file_of d k thr whole gss) = (g', Ret tt) /\ gt_data g' = d' /\
    kept (RP := rev_rep RP) d' rows k thr whole false g' (rev_gss gss).
Proof.
  intros Hm [(Ed & gs0 & Eg0 & _ & _ & [Hlev HL]) (gs & Eg & E1 & E2 & E3 & E4) H3 H4 Htx] Hd' Emax Ecnt.
  unfold load, file_of. cbn [get_int bind and_then gt_data]. rewrite Emax, Ecnt, !Z.eqb_refl. cbn [negb].
  set (m := if whole then ds_maxcol d else 2). set (n := Z.to_nat (ds_maxcol d + 1 - m)).
  unfold load_space. cbn [get_int get_str get_dbl bind and_then].
  unfold gg_loadDistance. rewrite (kind_pw k), (warp_of_name k). cbn [and_then].
  rewrite Emax. destruct (Z.ltb_spec (ds_maxcol d + 1) 0); [lia|].
  cbn [gg_name gg_levels gg_pw gg_warp gg_threshold gg_total gg_whole gg_new length]. rewrite firstn_nil, Nat.sub_0_r. cbn [app].
  fold n.
  set (gs1 := mkGG (kind_name k) (repeat None (Z.to_nat (ds_maxcol d + 1))) _ _ (Some thr) 0 false).
  assert (Hm1 : 1 <= m) by (unfold m; destruct whole; lia).
  destruct (load_levels_ok d' rows Hd' gss) with (rest := @nil (tok N)) (n := n) (i := m) (gs := gs1)
    as (levels & E & L1 & L2 & L3); auto.
  - intros l gl Hl Egl. rewrite Emax in Hl. specialize (HL l ltac:(lia)). rewrite Egl in HL.
    destruct HL as (_ & L & _ & HLq). eapply level_gs; eauto.
  - rewrite Emax. unfold n. unfold m in *. destruct whole; lia.
  - intros l Hl. apply H3; unfold grouped_length; unfold n, m in Hl; destruct whole; lia.
  - unfold gs1. cbn [gg_levels]. rewrite repeat_length, Emax. lia.
  - rewrite app_nil_r in E. rewrite E. cbn [bind].
    eexists. split; [reflexivity|]. split; [reflexivity|].
    assert (Hnone : forall l, 0 <= l <= ds_maxcol d -> ~ m <= l < m + Z.of_nat n -> gss l = None).
    { intros l Hl Hl'. destruct (gss l) eqn:El; auto. exfalso. apply Hl'.
      assert (Hg : grouped_length d whole l) by (apply H3; [auto|congruence]).
      unfold grouped_length in Hg. unfold n, m. destruct whole; lia. }
    constructor.
    + split; [reflexivity|]. eexists. split; [reflexivity|]. cbn [gg_warp gg_threshold gg_levels gs1].
      splits; try reflexivity; [discriminate|]. split; [exact L1|]. intros l Hl. rewrite Emax in Hl. unfold rev_gss.
      destruct (gss l) as [gl|] eqn:Egl; simpl.
      * specialize (HL l ltac:(lia)). rewrite Egl in HL. destruct HL as [Hl1 _]. split; auto. apply L3; auto.
        destruct (Z_le_gt_dec m l), (Z_lt_ge_dec l (m + Z.of_nat n)); try lia; exfalso; rewrite Hnone in Egl by lia; discriminate.
      * rewrite L2; [| |intros Hl']; try lia.
        -- unfold gs1. cbn [gg_levels]. apply nth_error_repeat. lia.
        -- apply (proj2 (H3 l Hl)); auto. unfold grouped_length. unfold n, m in *. destruct whole; lia.
    + eexists. split; [reflexivity|]. cbn [gg_name gg_threshold gg_total gg_whole gs1]. splits; auto.
      rewrite sum_rev, Emax. rewrite Z.add_0_l.
      destruct (Z_le_gt_dec m (ds_maxcol d + 1)) as [Hmle|Hmgt].
      * replace (Z.to_nat (ds_maxcol d + 1)) with (Z.to_nat m + n)%nat by (unfold n; lia).
        rewrite sum_app, (sum_none gss 0); [rewrite Z2Nat.id by lia; reflexivity|]. intros l Hl. apply Hnone; lia.
      * replace n with O by (unfold n; lia). rewrite (sum_none gss 0); [reflexivity|].
        intros l Hl. apply Hnone; lia.
    + intros l Hl. rewrite Emax in Hl. specialize (H3 l Hl). unfold rev_gss, grouped_length in *. rewrite Emax.
      destruct (gss l); simpl in *; [|tauto]. split; [intros _; apply H3; discriminate|discriminate].
    + intros l gl c Hl Egl Hc. rewrite Emax in Hl. unfold rev_gss in Egl. destruct (gss l) as [gl0|] eqn:Egl0; [|discriminate].
      injection Egl as <-. eapply Permutation_in; [apply rev_concat_perm|]. eapply H4; eauto.
    + reflexivity.
Qed.
