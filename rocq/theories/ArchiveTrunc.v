(** Loading a file that was cut off. *)
From Coq Require Import String Permutation.
From Verif Require Import Base Num NumLaws NumFacts LoopFacts TimeSeries Lemire Distance TSSet StdAlg Candidate Group GroupSpace
  DistSpec DistLink DataSpec DataProofs GroupSpec GroupView Members GroupProofs GroupAll GroupDist QueryState QuerySpec QueryProofs PropsGroup
  Archive ArchiveProofs ArchiveState.
Local Open Scope Z_scope.
Local Open Scope list_scope.

Section Cut.
Context {N : Num}.
Notation D := (D N).
Notation tok := (tok N).
Variable s : list tok.

(** [r] from a whole file, [r'] from one without the items [s] at the end: if the
    former succeeds the latter does the same or throws *)
Definition cut {X} (r r' : res (X * list tok)) : Prop :=
  forall x rest, r = Ret (x, rest) -> (exists rest', r' = Ret (x, rest') /\ rest = rest' ++ s) \/ exists e, r' = Throw e.

Lemma cut_ret {X} (x : X) rest : cut (Ret (x, rest ++ s)) (Ret (x, rest)).
Proof. intros y r E. injection E as <- <-. left. eauto. Qed.

Lemma cut_bind {X Y} (r r' : res (X * list tok)) (f : X * list tok -> res (Y * list tok)) :
  cut r r' -> (forall x rest, cut (f (x, rest ++ s)) (f (x, rest))) -> cut (bind r f) (bind r' f).
Proof.
  intros H1 H2 y rest E. destruct r as [[x r0]| | |]; try discriminate. cbn [bind] in E.
  destruct (H1 x r0 eq_refl) as [(rest' & -> & ->)|(e & ->)].
  - cbn [bind]. apply (H2 x rest' y rest E).
  - right. exists e. reflexivity.
Qed.

Lemma cut_pure {X Y} (r : res X) (f f' : X -> res (Y * list tok)) :
  (forall x, cut (f x) (f' x)) -> cut (bind r f) (bind r f').
Proof. intros H y rest E. destruct r as [x| | |]; try discriminate. cbn [bind] in *. apply (H x y rest E). Qed.

Lemma cut_int (ts : list tok) : cut (get_int (ts ++ s)) (get_int ts).
Proof.
  intros x rest E. destruct ts as [|t ts]; [right; eexists; reflexivity|]. simpl in *.
  destruct t; try discriminate. injection E as <- <-. left. eauto.
Qed.
Lemma cut_str (ts : list tok) : cut (get_str (ts ++ s)) (get_str ts).
Proof.
  intros x rest E. destruct ts as [|t ts]; [right; eexists; reflexivity|]. simpl in *.
  destruct t; try discriminate. injection E as <- <-. left. eauto.
Qed.
Lemma cut_dbl (ts : list tok) : cut (get_dbl (ts ++ s)) (get_dbl ts).
Proof.
  intros x rest E. destruct ts as [|t ts]; [right; eexists; reflexivity|]. simpl in *.
  destruct t; try discriminate. injection E as <- <-. left. eauto.
Qed.

Lemma cut_for {X} (f : Z -> X * list tok -> res (X * list tok)) lo hi x ts :
  (forall i x ts, cut (f i (x, ts ++ s)) (f i (x, ts))) ->
  cut (for_ lo hi f (x, ts ++ s)) (for_ lo hi f (x, ts)).
Proof.
  intros Hf. rewrite !for_fold. revert x ts. induction (zseq lo (Z.to_nat (hi - lo))) as [|i l IH]; intros x ts; cbn [fold_res].
  - apply cut_ret.
  - apply cut_bind; auto.
Qed.

Lemma cut_group (d : dataset N) len sub g mm ts : cut (load_group d len sub g mm (ts ++ s)) (load_group d len sub g mm ts).
Proof.
  unfold load_group.
  apply cut_bind; [apply cut_int|]. intros ci ts1.
  apply cut_bind; [apply cut_int|]. intros cs ts2.
  apply cut_pure. intros g1.
  apply cut_bind; [apply cut_int|]. intros n ts3.
  apply cut_for. intros i [g2 mm2] ts4. unfold load_member.
  apply cut_bind; [apply cut_int|]. intros a ts5.
  apply cut_bind; [apply cut_int|]. intros b ts6.
  apply cut_pure. intros [g3 mm3]. apply cut_ret.
Qed.

Lemma cut_level (d : dataset N) L ts : cut (load_level d L (ts ++ s)) (load_level d L ts).
Proof.
  unfold load_level. apply cut_bind; [apply cut_int|]. intros n ts1.
  apply cut_for. intros i L1 ts2. unfold load_level_step.
  apply cut_bind; [apply cut_group|]. intros [g mm] ts3. apply cut_ret.
Qed.

Lemma cut_levels (d : dataset N) : forall n i gs ts gs' rest, load_levels d n i gs (ts ++ s) = (gs', Ret rest) ->
  (exists rest', load_levels d n i gs ts = (gs', Ret rest') /\ rest = rest' ++ s) \/
  exists gs1 e, load_levels d n i gs ts = (gs1, Throw e) /\
    nth_error (gg_levels gs1) (Z.to_nat (i + Z.of_nat n - 1)) = nth_error (gg_levels gs) (Z.to_nat (i + Z.of_nat n - 1)).
Proof.
  induction n as [|n IH]; intros i gs ts gs' rest E.
  - simpl in E. injection E as <- <-. left. exists ts. auto.
  - cbn [load_levels] in *. destruct (ll_new d i) as [L| | |]; cbn [bind and_then] in *; try discriminate.
    destruct (load_level d L (ts ++ s)) as [[L' ts']| | |] eqn:E1; cbn [bind and_then] in *; try discriminate.
    destruct (cut_level d L ts L' ts' E1) as [(rest' & -> & ->)|(e & ->)]; cbn [bind and_then].
    + destruct (aset (gg_levels gs) i (Some L')) as [lv| | |] eqn:Ea; cbn [bind and_then] in *; try discriminate.
      destruct (IH _ _ _ _ _ E) as [(r & E2 & ->)|(gs1 & e & E2 & E3)].
      * left. exists r. auto.
      * right. exists gs1, e. split; auto.
        replace (i + 1 + Z.of_nat n - 1) with (i + Z.of_nat (S n) - 1) in E3 by lia. rewrite E3. cbn [gg_levels].
        apply aset_Ret in Ea as (Hi & ->). rewrite nth_error_upd_eq.
        destruct (Nat.eqb_spec (Z.to_nat (i + Z.of_nat (S n) - 1)) (Z.to_nat i)) as [Ei|]; auto. exfalso.
        destruct n as [|n]; [|lia].
        (* the last level was read: nothing throws any more *)
        simpl in E2. discriminate.
    + right. exists gs, e. auto.
Qed.
End Cut.

Lemma load_cut {N : Num} {RP : Rep} (d d' : dataset N) rows k thr whole wflag g gss old p s :
  1 <= ds_maxcol d ->
  kept d rows k thr whole wflag g gss -> holds d' rows -> ds_maxcol d' = ds_maxcol d -> ds_count d' = ds_count d ->
  file_of d k thr whole gss = p ++ s -> s <> [] ->
  exists g1 e, load (mkGS d' old) p = (g1, Throw e) /\ gt_data g1 = d' /\
    ((length p < 2)%nat -> g1 = mkGS d' old) /\
    ((2 <= length p)%nat -> isGrouped g1 = true /\ level_view g1 (ds_maxcol d) = None).
Proof.
  intros Hm [(Ed & gs0 & Eg0 & _ & _ & [Hlev HL]) (gs & Eg & E1 & E2 & E3 & E4) H3 H4] Hd' Emax Ecnt Ef Hs.
  unfold file_of in Ef.
  set (m := if whole then ds_maxcol d else 2) in Ef. set (n := Z.to_nat (ds_maxcol d + 1 - m)) in Ef.
  assert (Hview : forall gx, gg_levels gx = [] -> level_view (mkGS d' (Some gx)) (ds_maxcol d) = None).
  { intros gx Ex. unfold level_view. cbn [gt_groups]. rewrite Ex. destruct (ds_maxcol d <? 0); auto.
    destruct (Z.to_nat (ds_maxcol d)); reflexivity. }
  destruct p as [|t1 p]; [eexists _, _; splits; auto; [reflexivity|reflexivity|simpl; lia]|].
  injection Ef as <- Ef.
  destruct p as [|t2 p]; [eexists _, _; splits; auto; [reflexivity|reflexivity|simpl; lia]|].
  injection Ef as <- Ef.
  unfold load. cbn [get_int bind and_then gt_data]. rewrite Emax, Ecnt, !Z.eqb_refl. cbn [negb].
  destruct p as [|t3 p]; [eexists _, _; splits; [reflexivity|reflexivity|simpl; lia|intros _; split; auto; apply Hview; reflexivity]|].
  injection Ef as <- Ef.
  destruct p as [|t4 p]; [eexists _, _; splits; [reflexivity|reflexivity|simpl; lia|intros _; split; auto; apply Hview; reflexivity]|].
  injection Ef as <- Ef.
  destruct p as [|t5 p]; [eexists _, _; splits; [reflexivity|reflexivity|simpl; lia|intros _; split; auto; apply Hview; reflexivity]|].
  injection Ef as <- Ef.
  destruct p as [|t6 p]; [eexists _, _; splits; [reflexivity|reflexivity|simpl; lia|intros _; split; auto; apply Hview; reflexivity]|].
  injection Ef as <- Ef.
  unfold load_space. cbn [get_int get_str get_dbl bind and_then].
  unfold gg_loadDistance. rewrite (kind_pw k), (warp_of_name k). cbn [and_then].
  rewrite Emax. destruct (Z.ltb_spec (ds_maxcol d + 1) 0); [lia|].
  cbn [gg_name gg_levels gg_pw gg_warp gg_threshold gg_total gg_whole gg_new length]. rewrite firstn_nil, Nat.sub_0_r. cbn [app].
  fold n.
  set (gs1 := mkGG (kind_name k) (repeat None (Z.to_nat (ds_maxcol d + 1))) _ _ (Some thr) 0 false).
  assert (Hm1 : 1 <= m) by (unfold m; destruct whole; lia).
  assert (Hne : forall l gl, 1 <= l <= ds_maxcol d' -> gss l = Some gl ->
    Forall (fun ms => ms <> []) gl /\ Forall (is_sub rows l) (concat gl) /\ NoDup (concat gl)).
  { intros l gl Hl Egl. rewrite Emax in Hl. specialize (HL l ltac:(lia)). rewrite Egl in HL.
    destruct HL as (_ & L & _ & HLq). eapply level_gs; eauto. }
  destruct (Nat.eq_dec n 0) as [En|En].
  { exfalso. unfold enc_from in Ef. rewrite En in Ef. cbn [zseq flat_map] in Ef. symmetry in Ef. apply app_eq_nil in Ef as [_ Ef]. auto. }
  destruct (load_levels_ok d' rows Hd' gss Hne) with (rest := @nil (tok N)) (n := n) (i := m) (gs := gs1)
    as (levels & E & L1 & L2 & L3); auto.
  - rewrite Emax. unfold n. unfold m in *. destruct whole; lia.
  - intros l Hl. apply H3; unfold grouped_length; unfold n, m in Hl; destruct whole; lia.
  - unfold gs1. cbn [gg_levels]. rewrite repeat_length, Emax. lia.
  - rewrite app_nil_r, Ef in E.
    destruct (cut_levels s d' n m gs1 p _ _ E) as [(rest' & _ & Er)|(gx & e & Ex & Enth)].
    { exfalso. symmetry in Er. apply app_eq_nil in Er as [_ Er]. auto. }
    rewrite Ex. cbn [bind]. eexists _, e. splits; [reflexivity|reflexivity|simpl; lia|].
    intros _. split; [reflexivity|]. unfold level_view. cbn [gt_groups]. destruct (Z.ltb_spec (ds_maxcol d) 0); auto.
    replace (m + Z.of_nat n - 1) with (ds_maxcol d) in Enth by (unfold n in *; lia).
    rewrite Enth. unfold gs1. cbn [gg_levels]. rewrite nth_error_repeat by lia. reflexivity.
Qed.
