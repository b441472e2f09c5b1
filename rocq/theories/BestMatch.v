(** getBestMatch: nearest representative, then nearest member. *)
From Coq Require Import String Permutation.
From Verif Require Import Base Num NumLaws NumFacts LoopFacts TimeSeries Lemire Distance TSSet StdAlg Candidate Group GroupSpace
  DtwExt DistSpec DistLink DataSpec DataProofs GroupSpec Members GroupProofs GroupAll TopK SearchSpec SearchProofs QueryState.
Local Open Scope Z_scope.
Local Open Scope list_scope.

Section Best.
Context {N : Num} {LW : NumLaws N} {RP : Rep}.
Notation D := (D N).
Variable d : dataset N.
Variable rows : list (list D).
Hypothesis Hd : holds d rows.
Variable k : kind.
Variable ratio : D.
Variable query : TS N.
Notation q := (ts_points query).
Variable order : list Z.
Hypothesis Hrange : forall l, In l order -> 2 <= l <= ds_maxcol d.

(** distances of subsequences from and to the query *)
Definition cdist (l : Z) (c : Z * Z) : D := dtw_val k ratio (place_values rows (l, c)) q.
Definition mdist (l : Z) (c : Z * Z) : D := dtw_val k ratio q (place_values rows (l, c)).

(** computable without overflow for the lengths looked at, in both directions *)
Hypothesis HsC : forall l c t, In l order -> is_sub rows l c -> at_place d rows (l, c) t -> exists r, ieee_ok k t query ratio r.
Hypothesis HsM : forall l c t, In l order -> is_sub rows l c -> at_place d rows (l, c) t -> exists r, ieee_ok k query t ratio r.

Lemma sub_at l c : In l order -> is_sub rows l c -> exists t, at_place d rows (l, c) t.
Proof. intros Hl Hc. pose proof (Hrange l Hl). apply (place_ts d rows Hd (l, c)); simpl; auto. lia. Qed.

Lemma cdist_nn l c : In l order -> is_sub rows l c -> nle n0 (cdist l c).
Proof.
  intros Hl Hc. destruct (sub_at l c Hl Hc) as [t Ht]. destruct (HsC l c t Hl Hc Ht) as [r Hr].
  destruct Ht as (_ & Ep & _). unfold cdist. rewrite <- Ep. apply (dtw_val_ok k t query ratio r Hr).
Qed.

Lemma mdist_nn l c : In l order -> is_sub rows l c -> nle n0 (mdist l c).
Proof.
  intros Hl Hc. destruct (sub_at l c Hl Hc) as [t Ht]. destruct (HsM l c t Hl Hc Ht) as [r Hr].
  destruct Ht as (_ & Ep & _). unfold mdist. rewrite <- Ep. apply (dtw_val_ok k query t ratio r Hr).
Qed.

(** a query's distance computations *)
Lemma warp_call_ok l c t cut : In l order -> is_sub rows l c -> at_place d rows (l, c) t -> nn cut ->
  exists v, warp_call (warp_of k) ratio query t cut = Ret v /\
    (nltb cut (mdist l c) = false -> v = mdist l c) /\ (nltb cut (mdist l c) = true -> nltb v cut = false).
Proof.
  intros Hl Hc Ht Hn. destruct (HsM l c t Hl Hc Ht) as [r Hr]. destruct Ht as (_ & Ep & _).
  unfold mdist. rewrite <- Ep.
  destruct k eqn:Ek; cbn [warp_of warp_call].
  - apply (cascade_agrees ratio query t r Hr cut Hn).
  - apply (plain_agrees KManhattan ratio query t r Hr cut Hn).
  - apply (plain_agrees KChebyshev ratio query t r Hr cut Hn).
Qed.

Lemma centroid_ok l L gs i g ms cut : In l order -> level_q d rows l L gs ->
  nth_error (ll_groups L) i = Some g -> nth_error gs i = Some ms -> nn cut ->
  exists v g', distanceFromCentroid d l (warp_of k) ratio g query cut = Ret (v, g') /\
    (nltb cut (cdist l (rp ms)) = false -> v = cdist l (rp ms)) /\
    (nltb cut (cdist l (rp ms)) = true -> nltb v cut = false) /\
    level_q d rows l (lev L (upd (ll_groups L) i g')) gs /\ g_count g' = g_count g.
Proof.
  intros Hl HL Eg Em Hn. pose proof (Forall2_nth _ _ _ _ _ _ (lq_cent _ _ _ _ _ HL) Eg Em) as (B1 & B2 & B3).
  assert (Hsub : is_sub rows l (rp ms)).
  { pose proof (lq_subs _ _ _ _ _ HL) as Hs. rewrite Forall_forall in Hs. apply Hs.
    eapply In_concat; eauto. apply rp_in; auto. }
  assert (Ht : exists t r, ieee_ok k t query ratio r /\ cent_ts d l (g_cent g) = Ret t /\ ts_points t = place_values rows (l, rp ms)).
  { destruct (sub_at l (rp ms) Hl Hsub) as [t Ht]. destruct (HsC l _ t Hl Hsub Ht) as [r Hr]. pose proof (Hrange l Hl) as Hlr.
    rewrite B2. destruct rp_text.
    - pose proof Ht as (_ & Ep & Hok & _). pose proof (ts_of_list_same t Hok) as (H1 & H2 & H3).
      exists (ts_of_list (sub_values rows l (rp ms))), r. change (sub_values rows l (rp ms)) with (place_values rows (l, rp ms)). rewrite <- Ep.
      splits; auto. eapply ieee_ok_ext; [| |exact Hr]; split; auto; split; auto; apply (io_b _ _ _ _ _ Hr).
    - exists t, r. splits; auto; [|apply Ht]. apply (cent_view d rows Hd l); auto; [lia|apply Ht]. }
  destruct Ht as (t & r & Hr & Et & Ep).
  assert (G : exists v g', distanceFromCentroid d l (warp_of k) ratio g query cut = Ret (v, g') /\
    (nltb cut (cdist l (rp ms)) = false -> v = cdist l (rp ms)) /\
    (nltb cut (cdist l (rp ms)) = true -> nltb v cut = false)).
  { unfold distanceFromCentroid. rewrite Et. cbn [bind]. unfold cdist. rewrite <- Ep.
    destruct k eqn:Ek; cbn [warp_of].
    - destruct (cascade_agrees ratio t query r Hr cut Hn) as (v & Ev & H1 & H2).
      destruct (cascadeC_eq ratio (g_cache g) t query cut (B3 t Et)) as [E1 _].
      destruct (cascadeDistance ratio t query cut []) as [[v0 mt]| | |]; try discriminate.
      injection Ev as ->. cbn [value] in E1.
      destruct (cascadeDistanceC ratio (g_cache g) t query cut) as [[v1 c1]| | |]; try discriminate.
      injection E1 as ->. cbn [bind]. eexists _, _. split; [reflexivity|]. auto.
    - destruct (plain_agrees KManhattan ratio t query r Hr cut Hn) as (v & Ev & H1 & H2).
      cbv beta in Ev. destruct (warpedDistance _ t query ratio cut []) as [[v0 mt]| | |]; try discriminate.
      injection Ev as ->. cbn [bind]. eexists _, _. split; [reflexivity|]. auto.
    - destruct (plain_agrees KChebyshev ratio t query r Hr cut Hn) as (v & Ev & H1 & H2).
      cbv beta in Ev. destruct (warpedDistance _ t query ratio cut []) as [[v0 mt]| | |]; try discriminate.
      injection Ev as ->. cbn [bind]. eexists _, _. split; [reflexivity|]. auto. }
  destruct G as (v & g' & E & H1 & H2). exists v, g'.
  destruct (centroid_ret d rows l L gs i g (warp_of k) ratio query cut v g' HL Eg E) as [H3 H4]. splits; auto.
Qed.

Lemma rep_sub l L gs i ms : level_q d rows l L gs -> nth_error gs i = Some ms -> is_sub rows l (rp ms) /\ ms <> [].
Proof.
  intros HL Em. destruct (Forall2_nth_ex_r _ _ _ _ _ (lq_cent _ _ _ _ _ HL) Em) as (g & _ & B1 & _). split; auto.
  pose proof (lq_subs _ _ _ _ _ HL) as Hs. rewrite Forall_forall in Hs. apply Hs.
  eapply In_concat; eauto. apply rp_in; auto.
Qed.

(** the nearest representative of one length *)
Lemma getBestGroup_ok l L gs cut : In l order -> level_q d rows l L gs -> nn cut ->
  exists L' v bg, getBestGroup d (warp_of k) ratio L query cut = Ret (L', (v, bg)) /\
    level_q d rows l L' gs /\ nle v cut /\
    (forall ms, In ms gs -> nle v (cdist l (rp ms))) /\
    ((bg = None /\ v = cut) \/
     exists i ms, bg = Some (Z.of_nat i) /\ nth_error gs i = Some ms /\ v = cdist l (rp ms) /\ nltb v cut = true /\
       forall j ms', (j < i)%nat -> nth_error gs j = Some ms' -> nltb v (cdist l (rp ms')) = true).
Proof.
  intros Hl HL Hn. unfold getBestGroup. rewrite (lq_len _ _ _ _ _ HL).
  assert (Hlg : length (ll_groups L) = length gs) by (eapply Forall2_length, lq_cent; eauto).
  destruct (for_inv (fun i (st : list (group N) * (D * option Z)) => let '(gr, (v, bg)) := st in
      level_q d rows l (lev L gr) gs /\ nle v cut /\
      (forall j ms, Z.of_nat j < i -> nth_error gs j = Some ms -> nle v (cdist l (rp ms))) /\
      ((bg = None /\ v = cut) \/
       exists j ms, bg = Some (Z.of_nat j) /\ nth_error gs j = Some ms /\ v = cdist l (rp ms) /\ nltb v cut = true /\
         forall j' ms', (j' < j)%nat -> nth_error gs j' = Some ms' -> nltb v (cdist l (rp ms')) = true))
     (bestGroup_step d l (warp_of k) ratio query) 0 (Z.of_nat (length (ll_groups L))) (ll_groups L, (cut, None)))
    as ([gr [v bg]] & E & H1 & H2 & H3 & H4).
  - lia.
  - splits; auto; [destruct L; exact HL|apply nle_refl; auto|lia].
  - intros i [gr [v bg]] Hi (H1 & H2 & H3 & H4).
    assert (Hlg' : length gr = length gs) by (eapply Forall2_length; apply (lq_cent _ _ _ _ _ H1)).
    destruct (nth_error gr (Z.to_nat i)) as [g|] eqn:Eg; [|apply nth_error_None in Eg; lia].
    destruct (nth_error gs (Z.to_nat i)) as [ms|] eqn:Em; [|apply nth_error_None in Em; lia].
    unfold bestGroup_step. replace (aget gr i) with (@Ret (group N) g) by (symmetry; apply aget_Ret; split; [lia|auto]).
    cbn [bind].
    destruct (centroid_ok l (lev L gr) gs (Z.to_nat i) g ms v Hl H1 Eg Em (nle_nn_l _ _ H2)) as (v1 & g1 & E1 & C1 & C2 & C3 & _).
    rewrite E1. cbn [bind]. rewrite aset_in by lia. cbn [bind].
    destruct (rep_sub _ _ _ _ _ HL Em) as [Hrs _].
    pose proof (nle_nn_r _ _ (cdist_nn l (rp ms) Hl Hrs)) as Hcn.
    destruct (nltb v1 v) eqn:Elt.
    + eexists. split; [reflexivity|]. cbv beta iota.
      assert (Ev : v1 = cdist l (rp ms)).
      { destruct (nltb v (cdist l (rp ms))) eqn:Ec; [exfalso; specialize (C2 eq_refl); congruence|auto]. }
      splits; auto.
      * eapply nle_trans; [apply nlt_le; exact Elt|exact H2].
      * intros j ms' Hj Ej. destruct (Z.eq_dec (Z.of_nat j) i) as [Eij|Hne].
        -- rewrite <- Eij, Nat2Z.id in Em. rewrite Em in Ej. injection Ej as <-. rewrite Ev. apply nle_refl. exact Hcn.
        -- eapply nle_trans; [apply nlt_le; exact Elt|]. apply (H3 j ms'); auto. lia.
      * right. exists (Z.to_nat i), ms. splits; auto; [rewrite Z2Nat.id by lia; auto| |].
        { eapply nlt_le_trans; [exact Elt|exact H2]. }
        intros j' ms' Hj' Ej'. eapply nlt_le_trans; [exact Elt|]. apply (H3 j' ms'); auto. lia.
    + eexists. split; [reflexivity|]. cbv beta iota. splits; auto.
      intros j ms' Hj Ej. destruct (Z.eq_dec (Z.of_nat j) i) as [Eij|Hne]; [|apply (H3 j ms'); auto; lia].
      rewrite <- Eij, Nat2Z.id in Em. rewrite Em in Ej. injection Ej as <-.
      destruct (nltb v (cdist l (rp ms))) eqn:Ec; [apply nlt_le; exact Ec|].
      rewrite (C1 eq_refl) in Elt. apply nltb_false_le; auto. apply (nle_nn_l _ _ H2).
  - rewrite E. cbn [bind]. exists (mkLL l (ll_sub L) gr (ll_map L)), v, bg. splits; auto.
    + replace (mkLL l (ll_sub L) gr (ll_map L)) with (lev L gr); auto.
      unfold lev. rewrite (lq_len _ _ _ _ _ HL). reflexivity.
    + intros ms Hin. apply In_nth_error in Hin as [j Ej]. apply (H3 j ms); auto.
      apply nth_error_Some_lt in Ej. lia.
Qed.

(** all lengths in the order *)
Variable gss : Z -> option (list (list coord)).

(** a group of a length looked at *)
Definition a_group (l : Z) (i : nat) (ms : list coord) : Prop :=
  exists gs, gss l = Some gs /\ nth_error gs i = Some ms.

(** the groups looked at before group [i] of length [l], after the lengths [pre],
    are farther away than [v] *)
Definition farther (v : D) (l : Z) (i : nat) (pre : list Z) : Prop :=
  (forall l' i' ms', In l' pre -> a_group l' i' ms' -> nltb v (cdist l' (rp ms')) = true) /\
  (forall i' ms', (i' < i)%nat -> a_group l i' ms' -> nltb v (cdist l (rp ms')) = true).

Lemma best_levels_ok levels : levels_q d rows levels gss ->
  exists levels' v bg, each_level order levels (bestLevel_step d (warp_of k) ratio query) (ninf, None) = Ret (levels', (v, bg)) /\
    levels_q d rows levels' gss /\
    (forall l i ms, In l order -> a_group l i ms -> nle v (cdist l (rp ms))) /\
    ((bg = None /\ v = ninf) \/
     exists l i ms pre post, bg = Some (l, Z.of_nat i) /\ order = pre ++ l :: post /\ a_group l i ms /\ v = cdist l (rp ms) /\
       nltb v ninf = true /\ farther v l i pre).
Proof.
  intros HL.
  assert (G : forall todo levels v bg, incl todo order -> levels_q d rows levels gss -> nn v ->
    exists levels' v' bg', each_level todo levels (bestLevel_step d (warp_of k) ratio query) (v, bg) = Ret (levels', (v', bg')) /\
    levels_q d rows levels' gss /\ nle v' v /\
    (forall l i ms, In l todo -> a_group l i ms -> nle v' (cdist l (rp ms))) /\
    ((bg' = bg /\ v' = v) \/
     exists l i ms pre post, bg' = Some (l, Z.of_nat i) /\ todo = pre ++ l :: post /\ a_group l i ms /\ v' = cdist l (rp ms) /\
       nltb v' v = true /\ farther v' l i pre)).
  { clear levels HL. induction todo as [|l todo IH]; intros levels v bg Hi HL Hn.
    - simpl. exists levels, v, bg. splits; auto; [apply nle_refl; auto|]. intros l i ms [].
    - simpl. pose proof (Hrange l (Hi l (or_introl eq_refl))) as Hl. destruct HL as [Hlen HL].
      pose proof (HL l ltac:(lia)) as Hlev.
      assert (Hi' : incl todo order) by (intros x Hx; apply Hi; simpl; auto).
      destruct (gss l) as [gs|] eqn:Egs.
      + destruct Hlev as [Hl1 (L & EL & HLq)].
        replace (aget levels l) with (@Ret (option (llgs N)) (Some L)) by (symmetry; apply aget_Ret; split; [lia|auto]).
        cbn [bind]. unfold bestLevel_step at 1. cbn [fst].
        destruct (getBestGroup_ok l L gs v) as (L' & v1 & bg1 & E1 & HL1 & Hle1 & Hall1 & Hbg1); auto; [apply Hi; simpl; auto|].
        rewrite E1. cbn [bind].
        assert (HL' : levels_q d rows (upd levels (Z.to_nat l) (Some L')) gss).
        { apply (levels_set d rows levels gss l gs L'); auto; [split; auto|lia]. }
        rewrite (lq_len _ _ _ _ _ HLq).
        assert (Cont : forall v2 bg2, nn v2 -> nle v2 v -> nle v2 v1 ->
          ((bg2 = bg /\ v2 = v) \/ exists i ms, bg2 = Some (l, Z.of_nat i) /\ a_group l i ms /\ v2 = cdist l (rp ms) /\ nltb v2 v = true /\
             farther v2 l i []) ->
          exists levels' v' bg', each_level todo (upd levels (Z.to_nat l) (Some L')) (bestLevel_step d (warp_of k) ratio query) (v2, bg2)
              = Ret (levels', (v', bg')) /\
            levels_q d rows levels' gss /\ nle v' v /\
            (forall l0 i ms, l = l0 \/ In l0 todo -> a_group l0 i ms -> nle v' (cdist l0 (rp ms))) /\
            ((bg' = bg /\ v' = v) \/ exists l0 i ms pre post, bg' = Some (l0, Z.of_nat i) /\ l :: todo = pre ++ l0 :: post /\
               a_group l0 i ms /\ v' = cdist l0 (rp ms) /\ nltb v' v = true /\ farther v' l0 i pre)).
        { intros v2 bg2 Hn2 Hle2 Hle21 Hb2.
          destruct (IH (upd levels (Z.to_nat l) (Some L')) v2 bg2 Hi' HL' Hn2) as (levels' & v' & bg' & E & A1 & A2 & A3 & A4).
          exists levels', v', bg'. splits; auto.
          - eapply nle_trans; eauto.
          - intros l0 i ms [<-|Hin] Hg; [|apply (A3 l0 i ms); auto].
            destruct Hg as (gs0 & Eg0 & En0). rewrite Egs in Eg0. injection Eg0 as <-.
            eapply nle_trans; [exact A2|]. eapply nle_trans; [exact Hle21|]. apply Hall1. eapply nth_error_In; eauto.
          - destruct A4 as [[-> ->]|(l0 & i & ms & pre & post & B1 & B2 & B3 & B4 & B5 & B6)].
            + destruct Hb2 as [[-> ->]|(i & ms & B1 & B2 & B3 & B4 & B5)]; auto. right. exists l, i, ms, [], todo. splits; auto.
            + right. exists l0, i, ms, (l :: pre), post. splits; auto; [rewrite B2; reflexivity| |].
              * eapply nlt_le_trans; [exact B5|exact Hle2].
              * split; [|apply B6]. intros l' i' ms' [<-|Hin] Hg; [|eapply (proj1 B6); eauto].
                destruct Hg as (gs0 & Eg0 & En0). rewrite Egs in Eg0. injection Eg0 as <-.
                eapply nlt_le_trans; [exact B5|]. eapply nle_trans; [exact Hle21|]. apply Hall1. eapply nth_error_In; eauto. }
        destruct (nltb v1 v) eqn:Elt; cbn [bind]; rewrite aset_in by lia; cbn [bind].
        * apply Cont; auto; [apply (nle_nn_l _ _ Hle1)|apply nle_refl, (nle_nn_l _ _ Hle1)|]. right.
          destruct Hbg1 as [[_ ->]|(i & ms & -> & B2 & B3 & B4 & B5)]; [rewrite lw_irrefl in Elt; discriminate|].
          exists i, ms. splits; auto; [exists gs; auto|]. split; [intros ? ? ? []|].
          intros i' ms' Hi2 (gs0 & Eg0 & En0). rewrite Egs in Eg0. injection Eg0 as <-. eauto.
        * apply Cont; auto; [apply nle_refl; auto|]. apply nltb_false_le; auto. apply (nle_nn_l _ _ Hle1).
      + replace (aget levels l) with (@Ret (option (llgs N)) None) by (symmetry; apply aget_Ret; split; [lia|auto]).
        cbn [bind]. destruct (IH levels v bg Hi' (conj Hlen HL) Hn) as (levels' & v' & bg' & E & A1 & A2 & A3 & A4).
        exists levels', v', bg'. splits; auto.
        * intros l0 i ms [<-|Hin] Hg; [|apply (A3 l0 i ms); auto]. destruct Hg as (gs0 & Eg0 & _). congruence.
        * destruct A4 as [A4|(l0 & i & ms & pre & post & B1 & B2 & B3 & B4 & B5 & B6)]; auto. right.
          exists l0, i, ms, (l :: pre), post. splits; auto; [rewrite B2; reflexivity|].
          split; [|apply B6]. intros l' i' ms' [<-|Hin] Hg; [|eapply (proj1 B6); eauto].
          destruct Hg as (gs0 & Eg0 & En0). congruence. }
  destruct (G order levels ninf None (incl_refl _) HL lw_inf_nn) as (levels' & v & bg & E & A1 & _ & A3 & A4).
  exists levels', v, bg. splits; auto.
Qed.

(** the nearest member of a group *)
Lemma member_ok l L gs i g ms : In l order -> level_q d rows l L gs ->
  nth_error (ll_groups L) i = Some g -> nth_error gs i = Some ms ->
  (exists m, In m ms /\ nltb (mdist l m) ninf = true) ->
  exists t m, groupBestMatch d l (ll_sub L) (warp_of k) ratio (ll_map L) g query = Ret (mkCand t (mdist l m)) /\
    In m ms /\ at_place d rows (l, m) t /\ forall m', In m' ms -> nle (mdist l m) (mdist l m').
Proof.
  intros Hl HL Eg Em (m0 & Hm0 & Hfin). unfold groupBestMatch.
  rewrite (walk_group _ _ _ _ _ _ _ _ _ _ (lq_are _ _ _ _ _ HL) Eg Em).
  assert (Hsub : forall m, In m ms -> is_sub rows l m).
  { intros m Hm. pose proof (lq_subs _ _ _ _ _ HL) as Hs. rewrite Forall_forall in Hs. apply Hs. eapply In_concat; eauto. }
  destruct (fold_res_inv (fun (pre : list coord) (st : D * coord) => nn (fst st) /\
      (forall m, In m pre -> nle (fst st) (mdist l m)) /\
      (fst st = ninf \/ (In (snd st) pre /\ fst st = mdist l (snd st))))
    (fun c => bestMember_step d l (warp_of k) ratio query (fst c) (snd c)) ms (ninf, (0, 0)))
    as ([bd bm] & E & H1 & H2 & H3).
  - splits; [apply lw_inf_nn|intros m []|left; reflexivity].
  - intros pre m post [bd bm] Ems (H1 & H2 & H3). cbn [fst snd] in *.
    assert (Hm : In m ms) by (rewrite Ems; apply in_or_app; simpl; auto).
    destruct (sub_at l m Hl (Hsub m Hm)) as [t Ht].
    destruct (warp_call_ok l m t bd Hl (Hsub m Hm) Ht H1) as (v & Ev & C1 & C2).
    pose proof (nle_nn_r _ _ (mdist_nn l m Hl (Hsub m Hm))) as Hmn.
    unfold bestMember_step. destruct Ht as (Et & _). cbn [fst snd] in Et. rewrite Et. cbn [bind fst]. rewrite Ev. cbn [bind].
    destruct (nltb v bd) eqn:Elt.
    + assert (Ev' : v = mdist l m).
      { destruct (nltb bd (mdist l m)) eqn:Ec; [exfalso; specialize (C2 eq_refl); congruence|auto]. }
      exists (v, (fst m, snd m)). split; [reflexivity|]. cbn [fst snd]. splits.
      * rewrite Ev'. exact Hmn.
      * intros m' Hm'. apply in_app_or in Hm' as [Hm'|[<-|[]]].
        -- eapply nle_trans; [apply nlt_le; exact Elt|]. auto.
        -- rewrite Ev'. apply nle_refl. auto.
      * right. rewrite <- surjective_pairing. split; [apply in_or_app; simpl; auto|exact Ev'].
    + exists (bd, bm). split; [reflexivity|]. cbn [fst snd]. splits; auto.
      * intros m' Hm'. apply in_app_or in Hm' as [Hm'|[<-|[]]]; auto.
        destruct (nltb bd (mdist l m)) eqn:Ec; [apply nlt_le; exact Ec|].
        rewrite (C1 eq_refl) in Elt. apply nltb_false_le; auto.
      * destruct H3 as [H3|[H3 H4]]; auto. right. split; auto. apply in_or_app. auto.
  - match type of E with ?x = _ => match goal with |- context [bind ?y _] => change y with x end end.
    rewrite E. cbn [bind fst snd] in *.
    destruct H3 as [H3|[H3 H4]].
    { exfalso. specialize (H2 m0 Hm0). rewrite H3 in H2. apply (nle_not_lt _ _ H2). exact Hfin. }
    destruct (sub_at l bm Hl (Hsub bm H3)) as [t Ht].
    pose proof Ht as (Et & _). cbn [fst snd] in Et. rewrite Et. cbn [bind].
    exists t, bm. rewrite H4. splits; auto. intros m' Hm'. rewrite <- H4. auto.
Qed.

Lemma best_main g levels0 : gt_data g = d -> gt_groups g = Some levels0 -> gg_warp levels0 = Some (warp_of k) ->
  levels_q d rows (gg_levels levels0) gss -> 2 <= ts_length query ->
  generateTraverseOrder ratio (ts_length query) (ds_maxcol d) = Ret order ->
  (exists l i ms, In l order /\ a_group l i ms /\ nltb (cdist l (rp ms)) ninf = true) ->
  (forall l c, In l order -> is_sub rows l c -> nltb (cdist l c) ninf = true -> nltb (mdist l c) ninf = true) ->
  exists g' t l i ms m, getBestMatch ratio g query = Ret (g', mkCand t (mdist l m)) /\
    In l order /\ a_group l i ms /\ In m ms /\ at_place d rows (l, m) t /\
    (forall l' i' ms', In l' order -> a_group l' i' ms' -> nle (cdist l (rp ms)) (cdist l' (rp ms'))) /\
    (forall m', In m' ms -> nle (mdist l m) (mdist l m')) /\
    exists pre post, order = pre ++ l :: post /\ farther (cdist l (rp ms)) l i pre.
Proof.
  intros Ed Eg Ew HL Hq Eo (l0 & i0 & ms0 & Hl0 & Hg0 & Hf0) Hcm.
  unfold getBestMatch. rewrite Eg, Ed. unfold gg_getBestMatch.
  destruct (Z.leb_spec (ts_length query) 1); [lia|].
  assert (Et : gg_totalLength levels0 = ds_maxcol d) by (unfold gg_totalLength; destruct HL; lia).
  rewrite Et, Eo. cbn [bind]. rewrite Ew.
  destruct (best_levels_ok (gg_levels levels0) HL) as (levels' & v & bg & E & HL' & Hall & Hbg). rewrite E. cbn [bind].
  destruct Hbg as [[_ Hv]|(l & i & ms & pre & post & -> & Hord & Hg & Hv & Hfin & Hfar)].
  { exfalso. specialize (Hall l0 i0 ms0 Hl0 Hg0). rewrite Hv in Hall. apply (nle_not_lt _ _ Hall). exact Hf0. }
  assert (Hl : In l order) by (rewrite Hord; apply in_or_app; simpl; auto).
  cbn [deref bind]. pose proof (Hrange l Hl) as Hr. destruct HL' as [Hlen HL'].
  pose proof Hg as (gs & Egs & Em).
  pose proof (HL' l ltac:(lia)) as Hlev. rewrite Egs in Hlev. destruct Hlev as [_ (L & EL & HLq)].
  replace (aget levels' l) with (@Ret (option (llgs N)) (Some L)) by (symmetry; apply aget_Ret; split; [lia|auto]).
  cbn [bind deref].
  destruct (Forall2_nth_ex_r _ _ _ _ _ (lq_cent _ _ _ _ _ HLq) Em) as (gr & Egr & B1 & _).
  replace (aget (ll_groups L) (Z.of_nat i)) with (@Ret (group N) gr)
    by (symmetry; apply aget_Ret; rewrite Nat2Z.id; split; [lia|auto]).
  cbn [bind].
  destruct (rep_sub _ _ _ _ _ HLq Em) as [Hrs _].
  destruct (member_ok l L gs i gr ms Hl HLq Egr Em) as (t & m & Eb & Hm & Ht & Hmin).
  { exists (rp ms). split; [apply rp_in; auto|]. apply Hcm; auto. rewrite <- Hv. exact Hfin. }
  rewrite Eb. cbn [bind]. eexists _, t, l, i, ms, m. split; [reflexivity|]. splits; auto.
  - intros l' i' ms' Hl' Hg'. rewrite <- Hv. eauto.
  - exists pre, post. split; auto. rewrite <- Hv. exact Hfar.
Qed.
End Best.

(** [c] is the nearest member of the first of the nearest groups *)
Definition chosen {N : Num} {RP : Rep} (rows : list (list (D N))) (k : kind) (ratio : D N) (query : TS N) (maxcol : Z)
  (gss : Z -> option (list (list coord))) (c : cand N) : Prop :=
  exists order pre l post i ms m, generateTraverseOrder ratio (ts_length query) maxcol = Ret order /\
    order = pre ++ l :: post /\ a_group gss l i ms /\ In m ms /\ c_dist c = mdist rows k ratio query l m /\
    (forall l' i' ms', In l' order -> a_group gss l' i' ms' ->
       nle (cdist rows k ratio query l (rp ms)) (cdist rows k ratio query l' (rp ms'))) /\
    (forall m', In m' ms -> nle (mdist rows k ratio query l m) (mdist rows k ratio query l m')) /\
    farther rows k ratio query gss (cdist rows k ratio query l (rp ms)) l i pre.

(** The distance found depends only on the representatives and the sets of members
    of the groups. *)
Lemma chosen_le {N : Num} {LW : NumLaws N} (RP RP' : Rep) (rows : list (list (D N))) (k : kind) (ratio : D N) (query : TS N) maxcol
  gss gss' c c' :
  (forall l i ms, a_group gss l i ms -> exists ms', a_group gss' l i ms' /\ rp (Rep := RP') ms' = rp (Rep := RP) ms /\
     forall m, In m ms' <-> In m ms) ->
  (forall l i ms', a_group gss' l i ms' -> exists ms, a_group gss l i ms) ->
  chosen (RP := RP) rows k ratio query maxcol gss c -> chosen (RP := RP') rows k ratio query maxcol gss' c' ->
  nle (c_dist c) (c_dist c').
Proof.
  intros Hto Hfrom (order & pre & l & post & i & ms & m & Eo & Hord & Hg & Hm & Ec & Hall & Hmin & Hfar)
    (order' & pre' & l' & post' & i' & ms' & m' & Eo' & Hord' & Hg' & Hm' & Ec' & Hall' & Hmin' & Hfar').
  rewrite Eo in Eo'. injection Eo' as <-.
  destruct (Hto l i ms Hg) as (msx & Hgx & Erx & Emx).
  destruct (Hfrom l' i' ms' Hg') as (msy & Hgy).
  destruct (Hto l' i' msy Hgy) as (msz & Hgz & Erz & Emz).
  assert (Ez : msz = ms').
  { destruct Hgz as (a & Ea & Eb), Hg' as (b & Ea' & Eb'). rewrite Ea in Ea'. injection Ea' as <-. congruence. }
  subst msz.
  assert (Hlin : In l order) by (rewrite Hord; apply in_or_app; simpl; auto).
  assert (Hlin' : In l' order) by (rewrite Hord'; apply in_or_app; simpl; auto).
  pose proof (Hall l' i' msy Hlin' Hgy) as L1. pose proof (Hall' l i msx Hlin Hgx) as L2. rewrite Erx in L2. rewrite <- Erz in L1.
  assert (E : pre = pre' /\ l = l').
  { assert (G : forall (p p' q q' : list Z) (x x' : Z), p ++ x :: q = p' ++ x' :: q' ->
      (p = p' /\ x = x') \/ In x p' \/ In x' p).
    { induction p as [|a p IH]; intros [|a' p'] q q' x x' E; simpl in *; injection E as E1 E2; subst; auto.
      destruct (IH _ _ _ _ _ E2) as [[-> ->]|[H|H]]; auto. }
    destruct (G pre pre' post post' l l') as [E|[Hin|Hin]]; auto; [congruence| |]; exfalso.
    - apply (nle_not_lt _ _ L1). pose proof (proj1 Hfar' l i msx Hin Hgx) as F. rewrite Erx in F. exact F.
    - apply (nle_not_lt _ _ L2). pose proof (proj1 Hfar l' i' msy Hin Hgy) as F. rewrite <- Erz in F. exact F. }
  destruct E as [_ <-].
  assert (Ei : i = i').
  { destruct (Nat.lt_trichotomy i i') as [H|[H|H]]; auto; exfalso.
    - apply (nle_not_lt _ _ L1). pose proof (proj2 Hfar' i msx H Hgx) as F. rewrite Erx in F. exact F.
    - apply (nle_not_lt _ _ L2). pose proof (proj2 Hfar i' msy H Hgy) as F. rewrite <- Erz in F. exact F. }
  subst i'. rewrite Ec, Ec'. apply Hmin.
  assert (Ey : msy = ms).
  { destruct Hgy as (a & Ea & Eb), Hg as (b & Ea' & Eb'). rewrite Ea in Ea'. injection Ea' as <-. congruence. }
  subst msy. apply Emz. exact Hm'.
Qed.
