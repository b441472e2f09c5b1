(** From a grouped data set to the state queries work on. *)
From Coq Require Import String Permutation.
From Verif Require Import Base Num NumLaws NumFacts LoopFacts TimeSeries Lemire Distance TSSet StdAlg Candidate Group GroupSpace
  DtwSpec DtwPaths DtwProofs Metrics DtwMain DtwResults DistSpec DistFacts DistLink DtwExt DataSpec DataProofs GroupSpec GroupView Members GroupProofs GroupAll GroupDist
  TopK SearchSpec SearchProofs QueryState Band Traverse BestMatch KHeap KSim KBest NumMore QuerySpec PropsGroup.
Local Open Scope Z_scope.
Local Open Scope list_scope.

(** the lengths looked at *)
Section Order.
Context {N : Num} {LW : NumLaws N}.
Notation D := (D N).
Variable ratio : D.
Variables ql total : Z.
Hypothesis Fr : nfin ratio.
Hypothesis R0 : nle n0 ratio.
Hypothesis Hql : 2 <= ql <= total.
Hypothesis Ht : total <= 2 ^ 53.
Hypothesis Hp : nle (nmul (nofZ total) ratio) (nofZ int_max).

Lemma bands_defined l : 1 <= l <= total -> exists b, band ratio l = Ret b.
Proof.
  intros Hl. apply band_defined; auto; [lia|]. apply (nle_trans _ (nmul (nofZ total) ratio)); auto.
  apply lw_mul_mono; auto; [apply lw_ofZ_fin; lia|apply ofZ_pos; lia|apply lw_ofZ_le; lia].
Qed.

Hypothesis Hslow : forall h b b', 1 <= h -> h + 1 <= total -> band ratio h = Ret b -> band ratio (h + 1) = Ret b' -> b' <= b + 1.

Lemma order_exact : exists order, generateTraverseOrder ratio ql total = Ret order /\ NoDup order /\
  hd_error order = Some ql /\ forall l, In l order <-> 2 <= l <= total /\ within_band ratio ql l.
Proof.
  set (bd := fun l => match band ratio l with Ret b => b | _ => 0 end).
  assert (Hbd : forall l, 2 <= l <= total -> band ratio l = Ret (bd l)).
  { intros l Hl. destruct (bands_defined l) as [b Eb]; auto; [lia|]. unfold bd. rewrite Eb. reflexivity. }
  destruct (traverse_exact ratio ql total Hql bd Hbd) as (rest & E & Hn & Hi).
  - intros l Hl. apply (band_range ratio l); auto. lia.
  - intros h Hh. apply (Hslow h); try lia; apply Hbd; lia.
  - exists (ql :: rest). splits; auto. intros l. rewrite Hi. split; intros [H1 H2]; split; auto.
    + exists (bd (Z.max l ql)). split; auto. apply Hbd. lia.
    + destruct H2 as (r & Er & Hr). rewrite Hbd in Er by lia. injection Er as <-. exact Hr.
Qed.
End Order.

Section Q.
Context {N : Num} {LW : NumLaws N}.
Notation D := (D N).
Variable d : dataset N.
Variable rows : list (list D).
Hypothesis Hd : holds d rows.

(** grouping puts the data set into such a state *)
Lemma grouped_state old clock (ratio : D) k (thr : D) threads whole g total :
  nltb (ndiv thr (nofZ 2)) ninf = true -> 1 <= ds_maxcol d -> 1 <= threads -> log_safe d clock ->
  groupAllLengths clock ratio (mkGS d old) (kind_name k) thr threads whole = (g, Ret total) ->
  exists gss, set_q (RP := founder) d rows k g gss /\
    (forall l, 0 <= l <= ds_maxcol d -> (gss l <> None <-> grouped_length d whole l)) /\
    (forall l gs, 0 <= l <= ds_maxcol d -> gss l = Some gs -> level_view g l = Some (Ret (map view_of gs))) /\
    (forall l gs c, 0 <= l <= ds_maxcol d -> gss l = Some gs -> is_sub rows l c -> In c (concat gs)).
Proof.
  intros Hthr Hm Ht Hlog E.
  destruct (grouping_main d rows old clock ratio (kind_name k) (metric_of k) (warp_of k) thr threads whole
    (fun l => sub_dist rows k l) Hd (kind_pw k) (warp_of_name k) Hthr Hm Ht Hlog) as (levels & tot & E' & Hlen & _ & Hnone & Hsome).
  rewrite E in E'. injection E' as Eg _. subst g.
  (* choose the groups of each level *)
  assert (C : forall n, (n <= length levels)%nat -> exists f : nat -> option (list (list coord)),
     forall i, (i < n)%nat ->
       match f i with
       | None => nth_error levels i = Some None
       | Some gs => exists L, nth_error levels i = Some (Some L) /\ grouped_length d whole (Z.of_nat i) /\
           level_is d rows (fun _ a b dr mt => pairwiseDistance (N := N) (metric_of k) a b dr mt) ratio thr
              (fun l => sub_dist rows k l) (Z.of_nat i) L gs
       end).
  { induction n as [|n IH]; intros Hn; [exists (fun _ => None); lia|].
    destruct IH as [f Hf]; [lia|].
    assert (Dec : grouped_length d whole (Z.of_nat n) \/ ~ grouped_length d whole (Z.of_nat n)) by (unfold grouped_length; destruct whole; lia).
    destruct Dec as [Hg|Hg].
    - destruct (Hsome _ Hg) as (L & gs & EL & HL). rewrite Nat2Z.id in EL.
      exists (fun i => if (i =? n)%nat then Some gs else f i). intros i Hi.
      destruct (Nat.eqb_spec i n) as [->|]; [exists L; auto|]. apply Hf. lia.
    - exists (fun i => if (i =? n)%nat then None else f i). intros i Hi.
      destruct (Nat.eqb_spec i n) as [->|]; [|apply Hf; lia].
      specialize (Hnone (Z.of_nat n) ltac:(lia) Hg ltac:(lia)). rewrite Nat2Z.id in Hnone. exact Hnone. }
  destruct (C (length levels) (le_n _)) as [f Hf].
  assert (Hf' : forall l, 0 <= l <= ds_maxcol d -> match f (Z.to_nat l) with
       | None => nth_error levels (Z.to_nat l) = Some None
       | Some gs => exists L, nth_error levels (Z.to_nat l) = Some (Some L) /\ grouped_length d whole l /\
           level_is d rows (fun _ a b dr mt => pairwiseDistance (N := N) (metric_of k) a b dr mt) ratio thr
              (fun l => sub_dist rows k l) l L gs
       end).
  { intros l Hl. specialize (Hf (Z.to_nat l) ltac:(lia)). rewrite Z2Nat.id in Hf by lia. exact Hf. }
  exists (fun l => f (Z.to_nat l)). splits.
  - split; [reflexivity|]. eexists. split; [reflexivity|]. cbn [gg_warp gg_threshold gg_levels]. splits; auto; [intros _; discriminate|].
    split; [exact Hlen|]. intros l Hl. specialize (Hf' l Hl). destruct (f (Z.to_nat l)) as [gs|]; auto.
    destruct Hf' as (L & EL & Hg & HS & _). split; [unfold grouped_length in Hg; destruct whole; lia|].
    exists L. split; auto. apply level_q_of, HS.
  - intros l Hl. specialize (Hf' l Hl). split.
    + intros Hne. destruct (f (Z.to_nat l)) as [gs|]; [|contradiction]. destruct Hf' as (L & _ & Hg & _). exact Hg.
    + intros Hg E0. rewrite E0 in Hf'. destruct (Hsome l Hg) as (L & gs & EL & _). congruence.
  - intros l gs Hl Egs. specialize (Hf' l Hl). rewrite Egs in Hf'. destruct Hf' as (L & EL & Hg & HS & _).
    eapply view_ok; eauto. lia.
  - intros l gs c Hl Egs Hc. specialize (Hf' l Hl). rewrite Egs in Hf'. destruct Hf' as (L & EL & Hg & HS & HR).
    assert (Hl1 : 1 <= l <= ds_maxcol d) by (unfold grouped_length in Hg; destruct whole; lia).
    pose proof (runs_perm _ _ _ _ _ _ _ _ _ HR) as HP. eapply Permutation_in; [exact HP|].
    apply (all_subs_In d rows Hd l Hl1). exact Hc.
Qed.

Context {RP : Rep}.

(** what is seen of a group *)
Definition view_rp (ms : list coord) : gview := mkView (rp ms) (Z.of_nat (length ms)) ms.

(** queries keep it *)
Lemma asked_state H k g g' gss : set_q d rows k g gss -> asked H g g' -> set_q d rows k g' gss.
Proof.
  intros Hg Ha. induction Ha as [|g1 g2 ratio query c Ha IH E|g1 g2 ratio query K h cs Ha IH E]; auto.
  - eapply best_ret; eauto.
  - eapply kbest_ret; eauto.
Qed.

(** what is seen of the groups *)
Lemma group_views_q l L gs : rp_text = false -> level_q d rows l L gs -> group_views (ll_sub L) (ll_map L) (ll_groups L) = Ret (map view_rp gs).
Proof.
  intros Htx [A1 A2 A3 A4 A5].
  assert (G : forall i j gr gl, ll_groups L = i ++ gr -> gs = j ++ gl -> length i = length j ->
     group_views (ll_sub L) (ll_map L) gr = Ret (map view_rp gl)).
  { intros i j gr. revert i j. induction gr as [|g gr IH]; intros i j gl E1 E2 Hij.
    - assert (gl = []).
      { pose proof (Forall2_length _ _ _ A4) as HL. rewrite E1, E2, !app_length in HL. destruct gl; auto. simpl in HL. lia. }
      subst gl. reflexivity.
    - destruct gl as [|ms gl].
      { pose proof (Forall2_length _ _ _ A4) as HL. rewrite E1, E2, !app_length in HL. simpl in HL. lia. }
      assert (Eg : nth_error (ll_groups L) (length i) = Some g) by (rewrite E1, nth_error_app2, Nat.sub_diag by lia; reflexivity).
      assert (Em : nth_error gs (length i) = Some ms) by (rewrite Hij, E2, nth_error_app2, Nat.sub_diag by lia; reflexivity).
      simpl. unfold group_view. rewrite (memberCoords_ok _ _ _ _ _ _ _ _ A3 Eg Em). cbn [bind].
      rewrite (IH (i ++ [g]) (j ++ [ms]) gl) by (rewrite ?app_length, <- ?app_assoc; simpl; auto; lia). cbn [bind].
      destruct (Forall2_nth _ _ _ _ _ _ A4 Eg Em) as (B1 & B2 & _). rewrite B2, Htx.
      destruct A3 as (HF & _). destruct (Forall2_nth _ _ _ _ _ _ HF Eg Em) as [_ Hc]. rewrite Hc.
      unfold view_rp at 1. rewrite <- surjective_pairing. reflexivity. }
  apply (G [] []); auto.
Qed.

Lemma set_view k g gss l gs : rp_text = false -> set_q d rows k g gss -> 0 <= l <= ds_maxcol d -> gss l = Some gs ->
  level_view g l = Some (Ret (map view_rp gs)).
Proof.
  intros Htx (_ & G & Eg & _ & _ & [Hlen HL]) Hl Egs. specialize (HL l Hl). rewrite Egs in HL.
  destruct HL as [_ (L & EL & HLq)]. unfold level_view. rewrite Eg. destruct (Z.ltb_spec l 0); [lia|]. rewrite EL.
  f_equal. eapply group_views_q; eauto.
Qed.

Lemma set_view_none k g gss l : set_q d rows k g gss -> (0 <= l <= ds_maxcol d -> gss l = None) -> level_view g l = None.
Proof.
  intros (_ & G & Eg & _ & _ & [Hlen HL]) Hn. unfold level_view. rewrite Eg. destruct (Z.ltb_spec l 0); auto.
  destruct (Z_le_gt_dec l (ds_maxcol d)) as [Hl|Hl].
  - specialize (HL l ltac:(lia)). rewrite Hn in HL by lia. rewrite HL. reflexivity.
  - replace (nth_error (gg_levels G) (Z.to_nat l)) with (@None (option (llgs N))); auto.
    symmetry. apply nth_error_None. lia.
Qed.

(** a warped distance between lengths within the band is finite *)
Lemma dtw_finite k a b (ratio : D) r : ieee_ok k a b ratio r -> Z.abs (ts_length a - ts_length b) <= r ->
  nltb (dtw_val k ratio (ts_points a) (ts_points b)) ninf = true.
Proof.
  intros Hi Hab. destruct (dtw_val_ok k a b ratio r Hi) as (_ & _ & mt & E). pose proof (proj1 (ok_pre _ _ _ _ _) Hi) as Hp.
  destruct (dtw_inf _ (nice_of k) a b ratio r Hp []) as (v & p & _ & E' & [(_ & p' & H1 & H2 & Ev)|(Hlt & _)]); [|lia].
  rewrite E in E'. injection E' as -> _. rewrite Ev. rewrite <- warp_cost_eq by apply Hi.
  apply (io_fin _ _ _ _ _ Hi (ts_length a) (ts_length b) p'); auto; [pose proof (io_m _ _ _ _ _ Hi); lia|pose proof (io_n _ _ _ _ _ Hi); lia].
Qed.

(** ** the query *)
Variable k : kind.
Variable ratio : D.
Hypothesis Fr : nfin ratio.
Hypothesis R0 : nle n0 ratio.
Hypothesis Hmax : ds_maxcol d <= 2 ^ 53.
Hypothesis Hprod : nle (nmul (nofZ (ds_maxcol d)) ratio) (nofZ int_max).
Hypothesis Hslow : forall h b b', 1 <= h -> h + 1 <= ds_maxcol d -> band ratio h = Ret b -> band ratio (h + 1) = Ret b' -> b' <= b + 1.
Variable query : TS N.
Hypothesis Hq : ts_ok query.
Notation q := (ts_points query).
Notation ql := (ts_length query).
Hypothesis Hql : 2 <= ql <= ds_maxcol d.

Lemma order_ok : exists order, generateTraverseOrder ratio ql (ds_maxcol d) = Ret order /\ NoDup order /\
  hd_error order = Some ql /\ forall l, In l order <-> 2 <= l <= ds_maxcol d /\ within_band ratio ql l.
Proof. apply order_exact; auto. Qed.

(** places of the lengths looked at, whether they hold groups or not *)
Definition near (p : place) : Prop := (2 <= fst p <= ds_maxcol d /\ within_band ratio ql (fst p)) /\ is_sub rows (fst p) (snd p).
Hypothesis HsM : searchable rows k ratio q near.
Hypothesis HsC : searchable_from rows k ratio q near.

Lemma from_ieee l c t : near (l, c) -> at_place d rows (l, c) t -> exists r, ieee_ok k t query ratio r.
Proof.
  intros Hp (_ & Ep & Ht & _). destruct (HsC (l, c) Hp) as [r Hr]. exists r.
  pose proof (ts_of_list_same query Hq) as (_ & Hq' & Eq'). pose proof (ts_of_list_same t Ht) as (_ & Ht' & Et').
  rewrite <- Ep in Hr. eapply ieee_ok_ext; [| |exact Hr]; split; auto.
Qed.

Lemma to_ieee l c t : near (l, c) -> at_place d rows (l, c) t -> exists r, ieee_ok k query t ratio r.
Proof. intros Hp Ht. apply (at_ieee d rows k ratio query Hq (l, c) t Ht). apply HsM. auto. Qed.

Lemma near_ts l c : near (l, c) -> exists t, at_place d rows (l, c) t.
Proof. intros [[Hl _] Hc]. simpl in *. apply (place_ts d rows Hd (l, c)); simpl; auto. lia. Qed.

Lemma near_fin l c : near (l, c) -> nltb (cdist rows k ratio query l c) ninf = true /\ nltb (mdist rows k ratio query l c) ninf = true.
Proof.
  intros Hp. destruct (near_ts l c Hp) as [t Ht]. destruct (from_ieee l c t Hp Ht) as [r Hr]. destruct (to_ieee l c t Hp Ht) as [r' Hr'].
  destruct Hp as [[_ (r0 & Er & Hr0)] _]. simpl in *. destruct Ht as (_ & Ep & _ & E). injection E as E _.
  unfold cdist, mdist. rewrite <- Ep. split; eapply dtw_finite; eauto; rewrite E.
  - pose proof (io_band _ _ _ _ _ Hr) as Eb. rewrite E in Eb. assert (r = r0) by congruence. subst r. exact Hr0.
  - pose proof (io_band _ _ _ _ _ Hr') as Eb. rewrite E, Z.max_comm in Eb. assert (r' = r0) by congruence. subst r'. lia.
Qed.

Lemma cdist_dtw l c : near (l, c) -> dtw_of k ratio (place_values rows (l, c)) q = Ret (cdist rows k ratio query l c).
Proof.
  intros Hp. destruct (near_ts l c Hp) as [t Ht]. destruct (from_ieee l c t Hp Ht) as [r Hr].
  destruct Ht as (_ & Ep & _). unfold cdist. rewrite <- Ep. apply (dtw_val_ok k t query ratio r Hr).
Qed.

Lemma mdist_dtw l c : near (l, c) -> dtw_of k ratio q (place_values rows (l, c)) = Ret (mdist rows k ratio query l c).
Proof.
  intros Hp. destruct (near_ts l c Hp) as [t Ht]. destruct (to_ieee l c t Hp Ht) as [r Hr].
  destruct Ht as (_ & Ep & _). unfold mdist. rewrite <- Ep. apply (dtw_val_ok k query t ratio r Hr).
Qed.

Variable whole : bool.
Notation S := (searched d whole ratio ql).
Notation P := (searched_place d rows whole ratio ql).

(** the levels looked at that hold groups *)
Variable gss : Z -> option (list (list coord)).
Hypothesis Hgss : forall l, 0 <= l <= ds_maxcol d -> (gss l <> None <-> grouped_length d whole l).
Hypothesis Hcov : forall l gs c, 0 <= l <= ds_maxcol d -> gss l = Some gs -> is_sub rows l c -> In c (concat gs).
Variable g : gset N.
Hypothesis Hg : set_q d rows k g gss.

Lemma S_range l : S l -> 2 <= l <= ds_maxcol d.
Proof. intros [Hgl _]. unfold grouped_length in Hgl. destruct whole; lia. Qed.

Lemma P_near p : P p -> near p.
Proof. intros [Hl Hc]. split; auto. split; [apply S_range; auto|apply Hl]. Qed.

Lemma searched_gss l : S l -> exists gs, gss l = Some gs /\ 0 <= l <= ds_maxcol d.
Proof.
  intros Hl. pose proof (S_range l Hl) as Hr. destruct Hl as [Hgl _]. 
  pose proof (proj2 (Hgss l ltac:(lia)) Hgl) as Hne. destruct (gss l) as [gs|]; [|contradiction]. exists gs. split; auto. lia.
Qed.

Lemma group_in_iff l v : rp_text = false -> S l -> (group_in g l v <-> exists gs i ms, gss l = Some gs /\ nth_error gs i = Some ms /\ v = view_rp ms).
Proof.
  intros Htx Hl. destruct (searched_gss l Hl) as (gs & Egs & Hr). unfold group_in.
  rewrite (set_view k g gss l gs Htx Hg Hr Egs). split.
  - intros (vs & E & Hin). injection E as <-. apply in_map_iff in Hin as (ms & <- & Hms).
    apply In_nth_error in Hms as [i Ei]. exists gs, i, ms. auto.
  - intros (gs' & i & ms & E & Ei & ->). rewrite Egs in E. injection E as <-.
    eexists. split; [reflexivity|]. apply in_map. eapply nth_error_In; eauto.
Qed.

Lemma group_subs l gs i ms m : 0 <= l <= ds_maxcol d -> gss l = Some gs -> nth_error gs i = Some ms -> In m ms -> is_sub rows l m.
Proof.
  intros Hl Egs Ei Hm. destruct Hg as (_ & G & _ & _ & _ & [_ HL]). specialize (HL l Hl). rewrite Egs in HL.
  destruct HL as [_ (L & _ & HLq)]. pose proof (lq_subs _ _ _ _ _ HLq) as HF. rewrite Forall_forall in HF. apply HF.
  apply in_concat. exists ms. split; auto. eapply nth_error_In; eauto.
Qed.

Lemma group_rep l gs i ms : 0 <= l <= ds_maxcol d -> gss l = Some gs -> nth_error gs i = Some ms -> is_sub rows l (rp ms).
Proof.
  intros Hl Egs Ei. eapply group_subs; eauto. apply rp_in.
  destruct Hg as (_ & G & _ & _ & _ & [_ HL]). specialize (HL l Hl). rewrite Egs in HL.
  destruct HL as [_ (L & _ & HLq)].
  destruct (Forall2_nth_ex_r _ _ _ _ _ (lq_cent _ _ _ _ _ HLq) Ei) as (gr & _ & B1 & _). exact B1.
Qed.

Lemma best_query_chosen : (exists p, P p) ->
  exists g' c, getBestMatch ratio g query = Ret (g', c) /\ (rp_text = false -> best_of_closest rows k ratio q S g c) /\
    true_match rows k ratio q c /\ chosen rows k ratio query (ds_maxcol d) gss c.
Proof.
  intros ([l0 c0] & Hp0). cbn in Hp0. destruct Hp0 as [Hl0 Hc0].
  destruct order_ok as (order & Eo & _ & _ & Hin).
  pose proof Hg as (Ed & G & Eg & Ew & _ & HL).
  assert (HN : forall l c, In l order -> is_sub rows l c -> near (l, c)).
  { intros l c Hl Hc. split; auto. apply Hin, Hl. }
  assert (HS : forall l gs, In l order -> gss l = Some gs -> S l).
  { intros l gs Hl E. apply Hin in Hl as [Hl Hb]. split; auto. apply Hgss; [lia|]. congruence. }
  assert (HO : forall l, S l -> In l order).
  { intros l Hl. apply Hin. split; [apply S_range; auto|apply Hl]. }
  destruct (searched_gss l0 Hl0) as (gs0 & Egs0 & Hr0).
  pose proof (Hcov l0 gs0 c0 Hr0 Egs0 Hc0) as Hin0. apply in_concat in Hin0 as (ms0 & Hms0 & Hc0').
  apply In_nth_error in Hms0 as [i0 Ei0].
  destruct (best_main d rows Hd k ratio query order) with (gss := gss) (g := g) (levels0 := G)
    as (g' & t & l & i & ms & m & E & Hlo & (gs & Egs & Ei) & Hm & Ht & Hmin & Hbest & pre & post & Hord & Hfar); auto.
  - intros l Hl. apply Hin, Hl.
  - intros l c t Hl Hc Ht. eapply from_ieee; eauto.
  - intros l c t Hl Hc Ht. eapply to_ieee; eauto.
  - lia.
  - exists l0, i0, ms0. splits; auto; [exists gs0; auto|]. apply near_fin. apply HN; auto. eapply group_rep; eauto.
  - intros l c Hl Hc _. apply near_fin. auto.
  - exists g', (mkCand t (mdist rows k ratio query l m)). split; auto.
    pose proof (HS l gs Hlo Egs) as Hl. pose proof (S_range l Hl) as Hr.
    assert (Hmsub : is_sub rows l m) by (eapply group_subs; eauto; lia).
    assert (Hrep : is_sub rows l (rp ms)) by (eapply group_rep; eauto; lia).
    pose proof Ht as (_ & Ep & _ & Epl).
    assert (Htm : true_match rows k ratio q (mkCand t (mdist rows k ratio query l m))).
    { unfold true_match, place_of. cbn [c_data c_dist]. rewrite Epl. cbn [fst snd]. splits; auto.
      rewrite Ep. apply mdist_dtw. auto. }
    split; [intros Htx; split; [exact Htm|]|split; [exact Htm|]].
    + exists l, (view_rp ms), (cdist rows k ratio query l (rp ms)). splits; auto.
      * apply group_in_iff; auto. exists gs, i, ms. auto.
      * unfold group_dist. cbn [view_rp v_rep]. apply cdist_dtw. auto.
      * unfold place_of. cbn [c_data]. rewrite Epl. reflexivity.
      * unfold place_of. cbn [c_data]. rewrite Epl. exact Hm.
      * intros l' v' x' Hl' Hv' Hx'. apply group_in_iff in Hv' as (gs' & i' & ms' & Egs' & Ei' & ->); auto.
        pose proof (S_range l' Hl'). unfold group_dist in Hx'. cbn [view_rp v_rep] in Hx'.
        rewrite cdist_dtw in Hx'; [injection Hx' as <-|].
        -- apply (Hmin l' i' ms'); auto. exists gs'. auto.
        -- apply HN; auto. eapply group_rep; eauto. lia.
      * intros m' y Hm' Hy. cbn [view_rp v_members] in Hm'. cbn [c_dist].
        rewrite mdist_dtw in Hy; [injection Hy as <-; auto|]. apply HN; auto. eapply group_subs; eauto. lia.
    + exists order, pre, l, post, i, ms, m. cbn [c_dist]. splits; auto. exists gs. auto.
Qed.

Hypothesis Htx : rp_text = false.

Lemma best_query : (exists p, P p) ->
  exists g' c, getBestMatch ratio g query = Ret (g', c) /\ best_of_closest rows k ratio q S g c.
Proof. intros Hex. destruct (best_query_chosen Hex) as (g' & c & E & Hb & _). exists g', c. auto. Qed.

(** ** the k-similar search *)
Context {EL : EpsLaws N}.

Definition lv_of (gi : gindex N) : Z * gview :=
  (gi_length gi,
   view_rp (match gss (gi_length gi) with
            | Some gs => match nth_error gs (Z.to_nat (gi_index gi)) with Some ms => ms | None => [] end
            | None => []
            end)).

Lemma lv_places gi : group_places (lv_of gi) = gplaces gss gi.
Proof.
  unfold group_places, lv_of, gplaces. cbn [fst snd]. destruct (gss (gi_length gi)) as [gs|]; [|reflexivity].
  destruct (nth_error gs (Z.to_nat (gi_index gi))); reflexivity.
Qed.

Lemma k_query H K h : std_ok H -> 1 <= K <= h -> no_near_ties rows k ratio q P ->
  exists g' C real, getKBestMatches H ratio g query K h = Ret (g', real ++ repeat cand_default (Z.to_nat K - length C)) /\
    considered rows k ratio q S P g h C /\
    best_matches rows k ratio q (fun p => In p C) K real /\ ascending real /\
    Z.of_nat (length real) = Z.min K (Z.of_nat (length C)).
Proof.
  intros Hok HK Hties.
  destruct order_ok as (order & Eo & Hnd & _ & Hin).
  pose proof Hg as (Ed & G & Eg & Ew & Eth' & HL). pose proof (Eth' Htx) as Eth.
  assert (HN : forall l c, In l order -> is_sub rows l c -> near (l, c)).
  { intros l c Hl Hc. split; auto. apply Hin, Hl. }
  assert (HS : forall l, In l order -> gss l <> None -> S l).
  { intros l Hl E. apply Hin in Hl as [Hl Hb]. split; auto. apply Hgss; [lia|]. auto. }
  assert (HO : forall l, S l -> In l order).
  { intros l Hl. apply Hin. split; [apply S_range; auto|apply Hl]. }
  assert (HP : forall p, inP rows order gss p <-> P p).
  { intros p. split.
    - intros [[H1 H2] H3]. split; auto.
    - intros [H1 H2]. split; auto. split; [apply HO, H1|]. destruct (searched_gss _ H1) as (gs & E & _). congruence. }
  destruct (k_best_main H Hok d rows Hd k ratio query Hq order) with (gss := gss) (g := g) (G := G) (h := h) (K := K)
    as (g' & C & real & E & HC & Hi & HB & Ha & Hlen); auto.
  - intros l Hl. apply Hin, Hl.
  - intros l c t Hl Hc Ht. eapply from_ieee; eauto.
  - intros l c t Hl Hc Ht. eapply to_ieee; eauto.
  - intros p Hp. apply HsM, P_near, HP, Hp.
  - intros p p' v v' Hp Hp'. apply Hties; apply HP; auto.
  - exists g', C, real. splits; auto.
    set (all := all_gis rows k ratio query gss order) in *.
    assert (Hgi : forall gi, In gi all -> S (gi_length gi) /\ group_in g (gi_length gi) (snd (lv_of gi)) /\
        group_dist rows k ratio q (gi_length gi) (snd (lv_of gi)) (gi_dist gi)).
    { intros gi Hgi. apply all_gis_In in Hgi as (l & gs & i & ms & Hl & Egs & Em & ->).
      assert (Sl : S l) by (apply HS; auto; congruence). pose proof (S_range l Sl).
      unfold lv_of. cbn [gi_of gi_length gi_index gi_dist fst snd]. rewrite Egs, Nat2Z.id, Em. splits; auto.
      - apply group_in_iff; auto. exists gs, i, ms. auto.
      - unfold group_dist. cbn [view_rp v_rep]. apply cdist_dtw. apply HN; auto. eapply group_rep; eauto. lia. }
    assert (Hplaces : forall p, In p (flat_map (gplaces gss) all) <-> P p).
    { intros p. rewrite in_flat_map. split.
      - intros (gi & Hgi' & Hp). apply HP.
        assert (Hgss' : gss (fst p) <> None /\ fst p = gi_length gi).
        { unfold gplaces in Hp. destruct (gss (gi_length gi)) as [gs|] eqn:Egs; [|destruct Hp].
          destruct (nth_error gs (Z.to_nat (gi_index gi))); [|destruct Hp]. apply in_map_iff in Hp as (m & <- & _).
          cbn [fst]. split; [congruence|reflexivity]. }
        destruct (gplaces_sub d rows k ratio query order) with (gss := gss) (levels := gg_levels G) (g := gi) (p := p) as [S1 S2]; auto.
        { intros l Hl. apply Hin, Hl. }
        split; auto. split; auto. apply Hgss'.
      - intros Hp. destruct p as [l c]. pose proof Hp as [Hl Hc]. cbn [fst snd] in Hl, Hc.
        destruct (searched_gss l Hl) as (gs & Egs & Hr). pose proof (Hcov l gs c Hr Egs Hc) as Hc'.
        apply in_concat in Hc' as (ms & Hms & Hc'). apply In_nth_error in Hms as [i Ei].
        exists (gi_of rows k ratio query l (i, ms)). split.
        + apply all_gis_In. exists l, gs, i, ms. auto.
        + rewrite (gplaces_of rows k ratio query gss l gs) by auto. apply in_map_iff. exists c. auto. }
    destruct HC as [HnC HC]. split; auto. split; [intros p Hp; apply Hplaces, Hi, Hp|].
    destruct HC as [(HlC & best & top & rest & part & A1 & A2 & A3 & A4 & A5 & A6 & A7)|(HlC & HC)]; [right|left].
    2:{ split; auto. intros p Hp. apply HC, Hplaces, Hp. }
    split; auto. exists (map lv_of best), (lv_of top), (map lv_of rest), part.
    assert (HA : forall gi, In gi (best ++ top :: rest) -> In gi all).
    { intros gi. apply Permutation_in, Permutation_sym, A1. }
    assert (Htop : In top all) by (apply HA, in_elt).
    assert (Hb : forall gi, In gi best -> In gi all) by (intros; apply HA, in_or_app; auto).
    assert (Hr : forall gi, In gi rest -> In gi all) by (intros; apply HA, in_or_app; simpl; auto).
    assert (Hdist : forall gi x, In gi all -> group_dist rows k ratio q (fst (lv_of gi)) (snd (lv_of gi)) x -> x = gi_dist gi).
    { intros gi x Hgi' Hx. destruct (Hgi gi Hgi') as (_ & _ & Hx'). unfold group_dist in *. cbn [fst lv_of] in Hx. rewrite Hx' in Hx. congruence. }
    splits; auto.
    + intros l v. rewrite <- (map_cons lv_of), <- map_app, in_map_iff. split.
      * intros [Hl Hv]. apply group_in_iff in Hv as (gs & i & ms & Egs & Ei & ->); auto.
        exists (gi_of rows k ratio query l (i, ms)). split.
        -- unfold lv_of. cbn [gi_of gi_length gi_index fst snd]. rewrite Egs, Nat2Z.id, Ei. reflexivity.
        -- apply (Permutation_in _ A1). apply all_gis_In. exists l, gs, i, ms. auto.
      * intros (gi & E1 & Hgi'). destruct (Hgi gi (HA gi Hgi')) as (B1 & B2 & _).
        injection E1 as <- <-. auto.
    + intros l v x y Hlv Hx Hy. apply in_map_iff in Hlv as (gi & E1 & Hgi').
      rewrite (Hdist gi x), (Hdist top y); auto. rewrite E1. exact Hx.
    + intros l v x y Hlv Hx Hy. apply in_map_iff in Hlv as (gi & E1 & Hgi').
      rewrite (Hdist gi y), (Hdist top x); auto. rewrite E1. exact Hy.
    + rewrite flat_map_concat_map, map_map, <- flat_map_concat_map.
      replace (flat_map (fun x => group_places (lv_of x)) best) with (flat_map (gplaces gss) best); auto.
      rewrite !flat_map_concat_map. f_equal. apply map_ext. intros gi. symmetry. apply lv_places.
    + rewrite lv_places. exact A6.
    + rewrite lv_places. exact A7.
Qed.
End Q.

(** a data set with groups that queries can work on *)
Definition ready_at {N : Num} {RP : Rep} (d : dataset N) (rows : list (list (D N))) (k : kind) (whole : bool) (g : gset N)
  (gss : Z -> option (list (list coord))) : Prop :=
  set_q d rows k g gss /\
    (forall l, 0 <= l <= ds_maxcol d -> (gss l <> None <-> grouped_length d whole l)) /\
    (forall l gs c, 0 <= l <= ds_maxcol d -> gss l = Some gs -> is_sub rows l c -> In c (concat gs)).

Definition ready {N : Num} {RP : Rep} (d : dataset N) (rows : list (list (D N))) (k : kind) (whole : bool) (g : gset N) : Prop :=
  rp_text = false /\ exists gss, ready_at d rows k whole g gss.

Lemma ready_grouped {N : Num} {LW : NumLaws N} (d : dataset N) rows old clock (ratio : D N) k thr threads whole g total :
  holds d rows -> nltb (ndiv thr (nofZ 2)) ninf = true -> 1 <= ds_maxcol d -> 1 <= threads -> log_safe d clock ->
  groupAllLengths clock ratio (mkGS d old) (kind_name k) thr threads whole = (g, Ret total) ->
  ready (RP := founder) d rows k whole g.
Proof.
  intros Hd Hthr Hm Ht Hlog E.
  destruct (grouped_state d rows Hd old clock ratio k thr threads whole g total Hthr Hm Ht Hlog E) as (gss & H1 & H2 & _ & H3).
  split; [reflexivity|]. exists gss. split; auto.
Qed.

Lemma ready_asked {N : Num} {RP : Rep} (d : dataset N) rows H k whole g g' :
  ready d rows k whole g -> asked H g g' -> ready d rows k whole g'.
Proof. intros (Htx & gss & H1 & H2 & H3) Ha. split; auto. exists gss. split; [eapply asked_state; eauto|auto]. Qed.
