(** getKBestMatches: the closest groups, their members, and the best of these. *)
From Coq Require Import String Permutation.
From Verif Require Import Base Num NumLaws NumFacts NumMore LoopFacts TimeSeries Lemire Distance TSSet StdAlg HeapFacts Candidate Group GroupSpace
  DistSpec DistLink DataSpec DataProofs GroupSpec Members GroupProofs GroupAll CandOrder TopK SearchSpec SearchProofs QueryState BestMatch KHeap.
Local Open Scope Z_scope.
Local Open Scope list_scope.

Lemma firstn_snoc {A} (l : list A) i x : nth_error l i = Some x -> firstn (S i) l = firstn i l ++ [x].
Proof.
  revert l. induction i as [|i IH]; intros [|y l] E; try discriminate; simpl in *.
  - injection E as ->. reflexivity.
  - f_equal. auto.
Qed.

Lemma nth_error_combine {A B} (l : list A) (l' : list B) i x y : nth_error l i = Some x -> nth_error l' i = Some y ->
  nth_error (combine l l') i = Some (x, y).
Proof.
  revert l l'. induction i as [|i IH]; intros [|a l] [|b l'] E E'; try discriminate; simpl in *.
  - congruence.
  - auto.
Qed.

Section KSim.
Context {N : Num} {LW : NumLaws N} {EL : EpsLaws N} {RP : Rep}.
Notation D := (D N).
Variable H : std_alg.
Hypothesis Hok : std_ok H.
Variable d : dataset N.
Variable rows : list (list D).
Hypothesis Hd : holds d rows.
Variable k : kind.
Variable ratio : D.
Variable query : TS N.
Hypothesis Hq : ts_ok query.
Notation q := (ts_points query).
Variable order : list Z.
Hypothesis Hrange : forall l, In l order -> 2 <= l <= ds_maxcol d.
Hypothesis Hnd : NoDup order.
Hypothesis HsC : forall l c t, In l order -> is_sub rows l c -> at_place d rows (l, c) t -> exists r, ieee_ok k t query ratio r.
Hypothesis HsM : forall l c t, In l order -> is_sub rows l c -> at_place d rows (l, c) t -> exists r, ieee_ok k query t ratio r.
Notation cdist := (cdist rows k ratio query).

(** ** looking at the groups *)
Definition gi_of (l : Z) (im : nat * list coord) : gindex N :=
  mkGI l (Z.of_nat (fst im)) (Z.of_nat (length (snd im))) (cdist l (rp (snd im))).
Definition gis (l : Z) (gs : list (list coord)) : list (gindex N) := map (gi_of l) (combine (seq 0 (length gs)) gs).

Lemma gis_nth l gs i ms : nth_error gs i = Some ms -> nth_error (gis l gs) i = Some (gi_of l (i, ms)).
Proof.
  intros E. unfold gis. rewrite nth_error_map.
  assert (Hi : (i < length gs)%nat) by (apply nth_error_Some_lt in E; exact E).
  rewrite (nth_error_combine _ _ i i ms); auto.
  rewrite (nth_error_nth' _ 0%nat) by (rewrite seq_length; auto). rewrite seq_nth by auto. reflexivity.
Qed.

Lemma gis_length l gs : length (gis l gs) = length gs.
Proof. unfold gis. rewrite map_length, combine_length, seq_length. lia. Qed.

Lemma gis_In l gs g : In g (gis l gs) <-> exists i ms, nth_error gs i = Some ms /\ g = gi_of l (i, ms).
Proof.
  split.
  - intros Hg. apply In_nth_error in Hg as [i Ei].
    assert (Hi : (i < length gs)%nat) by (rewrite <- (gis_length l); apply nth_error_Some_lt in Ei; exact Ei).
    destruct (nth_error gs i) as [ms|] eqn:Em; [|apply nth_error_None in Em; lia].
    rewrite (gis_nth l gs i ms Em) in Ei. injection Ei as <-. eauto.
  - intros (i & ms & Em & ->). eapply nth_error_In, gis_nth; eauto.
Qed.

Lemma gis_good l L gs : In l order -> level_q d rows l L gs -> Forall good (gis l gs).
Proof.
  intros Hl HL. apply Forall_forall. intros g Hg. apply gis_In in Hg as (i & ms & Em & ->).
  destruct (rep_sub d rows l L gs i ms HL Em) as [Hs Hne]. split; cbn [gi_of gi_dist gi_members snd].
  - eapply cdist_nn; eauto.
  - destruct ms; [contradiction|simpl; lia].
Qed.

Section Level.
Variable K : Z.
Hypothesis HK : 1 <= K.

Lemma interLevel_ok l L gs seen best k0 : In l order -> level_q d rows l L gs -> Forall good seen -> kinv K seen best k0 ->
  exists L' best' k', interLevelKSim H d (warp_of k) ratio L query best k0 = Ret (L', best', k') /\
    level_q d rows l L' gs /\ kinv K (seen ++ gis l gs) best' k'.
Proof.
  intros Hl HL Hs HI. unfold interLevelKSim. rewrite (lq_len _ _ _ _ _ HL).
  assert (Hlg : length (ll_groups L) = length gs) by (eapply Forall2_length, lq_cent; eauto).
  destruct (for_inv (fun i (st : list (group N) * list (gindex N) * Z) => let '(gr, b, k1) := st in
      level_q d rows l (lev L gr) gs /\ kinv K (seen ++ firstn (Z.to_nat i) (gis l gs)) b k1)
     (inter_step H d l (warp_of k) ratio query) 0 (Z.of_nat (length (ll_groups L))) (ll_groups L, best, k0))
    as ([[gr b] k1] & E & H1 & H2).
  - lia.
  - rewrite app_nil_r. split; auto. destruct L; exact HL.
  - intros i [[gr b] k1] Hi [H1 H2].
    assert (Hlg' : length gr = length gs) by (eapply Forall2_length; apply (lq_cent _ _ _ _ _ H1)).
    destruct (nth_error gr (Z.to_nat i)) as [g|] eqn:Eg; [|apply nth_error_None in Eg; lia].
    destruct (nth_error gs (Z.to_nat i)) as [ms|] eqn:Em; [|apply nth_error_None in Em; lia].
    unfold inter_step. replace (aget gr i) with (@Ret (group N) g) by (symmetry; apply aget_Ret; split; [lia|auto]).
    cbn [bind].
    assert (Ec : g_count g = Z.of_nat (length ms)).
    { destruct (lq_are _ _ _ _ _ H1) as (HF & _). apply (Forall2_nth _ _ _ _ _ _ HF Eg Em). }
    set (gi := gi_of l (Z.to_nat i, ms)).
    assert (Eseen : seen ++ firstn (Z.to_nat (i + 1)) (gis l gs) = (seen ++ firstn (Z.to_nat i) (gis l gs)) ++ [gi]).
    { rewrite <- app_assoc. f_equal. replace (Z.to_nat (i + 1)) with (S (Z.to_nat i)) by lia.
      apply firstn_snoc, gis_nth, Em. }
    rewrite Eseen.
    assert (Hg : Forall good ((seen ++ firstn (Z.to_nat i) (gis l gs)) ++ [gi])).
    { rewrite <- Eseen. apply Forall_app. split; auto. apply Forall_forall. intros x Hx.
      pose proof (gis_good l L gs Hl HL) as HG. rewrite Forall_forall in HG. apply HG.
      rewrite <- (firstn_skipn (Z.to_nat i + 1)). apply in_or_app. left. replace (Z.to_nat i + 1)%nat with (Z.to_nat (i + 1)) by lia. exact Hx. }
    assert (Egi : forall v, v = cdist l (rp ms) -> mkGI l i (g_count g) v = gi).
    { intros v ->. unfold gi, gi_of. cbn [fst snd]. rewrite Z2Nat.id by lia. rewrite Ec. reflexivity. }
    assert (Em' : gi_members gi = g_count g) by (unfold gi, gi_of; cbn [gi_members snd]; auto).
    assert (Edi : gi_dist gi = cdist l (rp ms)) by reflexivity.
    destruct (rep_sub d rows _ _ _ _ _ HL Em) as [Hrs _].
    pose proof (nle_nn_r _ _ (cdist_nn d rows Hd k ratio query order Hrange HsC l (rp ms) Hl Hrs)) as Hcn.
    destruct (Z.leb_spec k1 0) as [Hk1|Hk1].
    + pose proof H2 as (rest & P & _ & _ & He & _). destruct (He Hk1) as (_ & top & lb & Eb & _). rewrite Eb. cbn [front bind].
      assert (Gt : nle n0 (gi_dist top)).
      { destruct (good_best K _ b k1 gi Hg H2) as [Gb _]. rewrite Eb in Gb. inversion Gb as [|? ? [Gt _] _]. exact Gt. }
      destruct (centroid_ok d rows Hd k ratio query order Hrange HsC HsM l (lev L gr) gs (Z.to_nat i) g ms (gi_dist top) Hl H1 Eg Em (nle_nn_r _ _ Gt))
        as (v & g1 & E1 & C1 & C2 & C3 & _).
      rewrite E1. cbn [bind]. rewrite aset_in by lia. cbn [bind].
      destruct (nltb v (gi_dist top)) eqn:Elt.
      * assert (Ev : v = cdist l (rp ms)).
        { destruct (nltb (gi_dist top) (cdist l (rp ms))) eqn:Ect; [exfalso; specialize (C2 eq_refl); congruence|auto]. }
        rewrite (Egi v Ev), <- Eb, <- Em'.
        destruct (kinv_push H Hok K HK _ b k1 gi Hg H2 top lb Hk1 Eb) as (b1 & b2 & k2 & E2 & E3 & HI').
        { rewrite Edi, <- Ev. exact Elt. }
        rewrite E2. cbn [bind]. rewrite E3. cbn [bind]. eexists. split; [reflexivity|]. cbv beta iota. split; auto.
      * rewrite <- Eb. eexists. split; [reflexivity|]. cbv beta iota. split; auto.
        apply (kinv_skip K _ b k1 gi Hg H2 top lb); auto. rewrite Edi.
        destruct (nltb (gi_dist top) (cdist l (rp ms))) eqn:Ect; [apply nlt_le; exact Ect|].
        rewrite (C1 eq_refl) in Elt. apply nltb_false_le; auto. apply (nle_nn_r _ _ Gt).
    + destruct (centroid_ok d rows Hd k ratio query order Hrange HsC HsM l (lev L gr) gs (Z.to_nat i) g ms ninf Hl H1 Eg Em lw_inf_nn)
        as (v & g1 & E1 & C1 & C2 & C3 & _).
      rewrite E1. cbn [bind]. rewrite aset_in by lia. cbn [bind].
      rewrite (Egi v (C1 (lw_inf_top _))), <- Em'.
      destruct (Z.leb_spec (k1 - gi_members gi) 0) as [Hk2|Hk2].
      * destruct (kinv_full H Hok K HK _ b k1 gi Hg H2 Hk1 Hk2) as (b1 & b2 & k2 & E2 & E3 & HI').
        rewrite E2. cbn [bind]. rewrite E3. cbn [bind]. eexists. split; [reflexivity|]. cbv beta iota. split; auto.
      * eexists. split; [reflexivity|]. cbv beta iota. split; auto. apply (kinv_more K _ b k1 gi); auto.
  - rewrite E. cbn [bind]. exists (mkLL l (ll_sub L) gr (ll_map L)), b, k1. splits; auto.
    + replace (mkLL l (ll_sub L) gr (ll_map L)) with (lev L gr); auto.
      unfold lev. rewrite (lq_len _ _ _ _ _ HL). reflexivity.
    + rewrite firstn_all2 in H2; auto. rewrite gis_length. lia.
Qed.

Variable gss : Z -> option (list (list coord)).
Definition level_gis (l : Z) : list (gindex N) := match gss l with Some gs => gis l gs | None => [] end.
Definition all_gis (ls : list Z) : list (gindex N) := flat_map level_gis ls.

Lemma levels_ok : forall todo seen levels best k0, incl todo order -> levels_q d rows levels gss ->
  Forall good seen -> kinv K seen best k0 ->
  exists levels' best' k', each_level todo levels (interLevel_step H d (warp_of k) ratio query) (best, k0) = Ret (levels', (best', k')) /\
    levels_q d rows levels' gss /\ kinv K (seen ++ all_gis todo) best' k' /\ Forall good (seen ++ all_gis todo).
Proof.
  induction todo as [|l todo IH]; intros seen levels best k0 Hi HLs Hg HI.
  - simpl. rewrite app_nil_r. exists levels, best, k0. auto.
  - simpl. pose proof (Hi l (or_introl eq_refl)) as Hlo. pose proof (Hrange l Hlo) as Hl. pose proof HLs as [Hlen HL].
    pose proof (HL l ltac:(lia)) as Hlev.
    assert (Hi' : incl todo order) by (intros x Hx; apply Hi; simpl; auto).
    unfold level_gis at 1 2. destruct (gss l) as [gs|] eqn:Egs.
    + destruct Hlev as [Hl1 (L & EL1 & HLq)].
      replace (aget levels l) with (@Ret (option (llgs N)) (Some L)) by (symmetry; apply aget_Ret; split; [lia|auto]).
      cbn [bind]. unfold interLevel_step at 1. cbn [fst snd].
      destruct (interLevel_ok l L gs seen best k0 Hlo HLq Hg HI) as (L' & b1 & k1 & E1 & HL1 & HI1).
      rewrite E1. cbn [bind]. rewrite aset_in by lia. cbn [bind].
      destruct (IH (seen ++ gis l gs) (upd levels (Z.to_nat l) (Some L')) b1 k1) as (levels' & b' & k' & E & A1 & A2 & A3); auto.
      * apply (levels_set d rows levels gss l gs L'); auto. lia.
      * apply Forall_app. split; auto. eapply gis_good; eauto.
      * rewrite E. exists levels', b', k'. rewrite <- app_assoc in *. auto.
    + replace (aget levels l) with (@Ret (option (llgs N)) None) by (symmetry; apply aget_Ret; split; [lia|auto]).
      cbn [bind]. simpl. apply IH; auto.
Qed.

(** ** the members of a group *)
Definition gplaces (g : gindex N) : list place :=
  match gss (gi_length g) with
  | Some gs => match nth_error gs (Z.to_nat (gi_index g)) with
               | Some ms => map (fun m => (gi_length g, m)) ms
               | None => []
               end
  | None => []
  end.

Lemma all_gis_In g : In g (all_gis order) <-> exists l gs i ms, In l order /\ gss l = Some gs /\ nth_error gs i = Some ms /\ g = gi_of l (i, ms).
Proof.
  unfold all_gis. rewrite in_flat_map. split.
  - intros (l & Hl & Hg). unfold level_gis in Hg. destruct (gss l) as [gs|] eqn:E; [|destruct Hg].
    apply gis_In in Hg as (i & ms & Em & ->). exists l, gs, i, ms. auto.
  - intros (l & gs & i & ms & Hl & E & Em & ->). exists l. split; auto. unfold level_gis. rewrite E. apply gis_In. eauto.
Qed.

Lemma gplaces_of l gs i ms : gss l = Some gs -> nth_error gs i = Some ms -> gplaces (gi_of l (i, ms)) = map (fun m => (l, m)) ms.
Proof.
  intros E Em. unfold gplaces. cbn [gi_of gi_length gi_index fst]. rewrite E, Nat2Z.id, Em. reflexivity.
Qed.

Lemma gplaces_len g : In g (all_gis order) -> Z.of_nat (length (gplaces g)) = gi_members g.
Proof.
  intros Hg. apply all_gis_In in Hg as (l & gs & i & ms & _ & E & Em & ->). rewrite (gplaces_of l gs) by auto.
  rewrite map_length. reflexivity.
Qed.

Section Levels.
Variable levels : list (option (llgs N)).
Hypothesis HLs : levels_q d rows levels gss.

Lemma level_of l gs : In l order -> gss l = Some gs ->
  exists L, aget levels l = Ret (Some L) /\ level_q d rows l L gs.
Proof.
  intros Hl E. pose proof (Hrange l Hl) as Hr. destruct HLs as [Hlen HL]. specialize (HL l ltac:(lia)). rewrite E in HL.
  destruct HL as [_ (L & EL1 & HLq)]. exists L. split; auto. apply aget_Ret. split; [lia|auto].
Qed.

Lemma gplaces_sub g p : In g (all_gis order) -> In p (gplaces g) -> In (fst p) order /\ is_sub rows (fst p) (snd p).
Proof.
  intros Hg Hp. apply all_gis_In in Hg as (l & gs & i & ms & Hl & E & Em & ->). rewrite (gplaces_of l gs) in Hp by auto.
  apply in_map_iff in Hp as (m & <- & Hm). cbn [fst snd]. split; auto.
  destruct (level_of l gs Hl E) as (L & _ & HL). pose proof (lq_subs _ _ _ _ _ HL) as Hs. rewrite Forall_forall in Hs.
  apply Hs. eapply In_concat; eauto.
Qed.

Lemma find_group_ok l gs i ms : In l order -> gss l = Some gs -> nth_error gs i = Some ms ->
  exists L gr, find_group levels (gi_of l (i, ms)) = Ret (L, gr) /\ level_q d rows l L gs /\ nth_error (ll_groups L) i = Some gr.
Proof.
  intros Hl E Em. destruct (level_of l gs Hl E) as (L & EL1 & HL).
  destruct (Forall2_nth_ex_r _ _ _ _ _ (lq_cent _ _ _ _ _ HL) Em) as (gr & Egr & _).
  exists L, gr. splits; auto. unfold find_group. cbn [gi_of gi_length gi_index fst].
  rewrite EL1. cbn [bind deref]. unfold getGroup. apply nth_error_Some_lt in Egr as Hlt.
  destruct (Z.ltb_spec (Z.of_nat i) 0); [lia|]. destruct (Z.leb_spec (Z.of_nat (length (ll_groups L))) (Z.of_nat i)); [lia|].
  cbn [orb]. replace (aget (ll_groups L) (Z.of_nat i)) with (@Ret (group N) gr)
    by (symmetry; apply aget_Ret; rewrite Nat2Z.id; split; [lia|auto]). reflexivity.
Qed.

Lemma getMembers_ok l L gs i ms gr : In l order -> level_q d rows l L gs -> nth_error gs i = Some ms -> nth_error (ll_groups L) i = Some gr ->
  exists ts, getMembers d (ll_length L) (ll_sub L) (ll_map L) gr = Ret ts /\ Forall2 (at_place d rows) (map (fun m => (l, m)) ms) ts.
Proof.
  intros Hl HL Em Egr. unfold getMembers. rewrite (walk_group _ _ _ _ _ _ _ _ _ _ (lq_are _ _ _ _ _ HL) Egr Em).
  rewrite (lq_len _ _ _ _ _ HL). pose proof (Hrange l Hl) as Hr.
  assert (Hat : forall m, In m ms -> exists t, at_place d rows (l, m) t).
  { intros m Hm. apply (place_ts d rows Hd (l, m)); cbn [fst snd]; [lia|]. pose proof (lq_subs _ _ _ _ _ HL) as Hs.
    rewrite Forall_forall in Hs. apply Hs. eapply In_concat; eauto. }
  destruct (fold_res_collect (fun c : coord => getTimeSeries d (fst c) (snd c) (snd c + l)) ms []) as (ts & E & F).
  - intros m Hm. destruct (Hat m Hm) as (t & Et & _). exists t. exact Et.
  - exists ts. split; [exact E|]. clear E. 
    assert (G : forall ms0 ts0, Forall2 (fun (c : coord) y => getTimeSeries d (fst c) (snd c) (snd c + l) = Ret y) ms0 ts0 ->
      (forall m, In m ms0 -> exists t, at_place d rows (l, m) t) -> Forall2 (at_place d rows) (map (fun m => (l, m)) ms0) ts0); [|apply (G _ _ F Hat)].
    intros ms0 ts0 F0. induction F0 as [|m t ms' ts' Et F0 IH]; intros Hat0; constructor.
    + destruct (Hat0 m (or_introl eq_refl)) as (t' & Ht'). pose proof Ht' as (Et' & _). cbn [fst snd] in Et'.
      assert (t' = t) by congruence. subst t'. exact Ht'.
    + apply IH. intros m' Hm'. apply Hat0. simpl. auto.
Qed.

Notation dist := (fun t => dtw_val k ratio q (ts_points t)).

Lemma add_members_ok th : th <> None -> forall gl best, (forall g, In g gl -> In g (all_gis order)) ->
  exists cs, add_members d levels th gl best = Ret (best ++ cs) /\
    Forall2 (at_place d rows) (flat_map gplaces gl) (map c_data cs).
Proof.
  intros Hth. induction gl as [|g gl IH]; intros best Hgl.
  - exists []. simpl. rewrite app_nil_r. split; [reflexivity|constructor].
  - simpl. pose proof (Hgl g (or_introl eq_refl)) as Hg. apply all_gis_In in Hg as (l & gs & i & ms & Hl & E & Em & ->).
    destruct (find_group_ok l gs i ms Hl E Em) as (L & gr & Ef & HL & Egr). rewrite Ef. cbn [bind].
    destruct (getMembers_ok l L gs i ms gr Hl HL Em Egr) as (ts & Et & F). rewrite Et. cbn [bind].
    assert (Hi : exists x, match ts with [] => Ret n0 | _ :: _ => init_get th end = Ret x).
    { destruct ts; [eauto|]. destruct th; [|contradiction]. simpl. eauto. }
    destruct Hi as [x Ex]. rewrite Ex. cbn [bind].
    destruct (IH (best ++ map (fun t => mkCand t (nadd (gi_dist (gi_of l (i, ms))) x)) ts)) as (cs & Ec & Fc).
    { intros g Hg. apply Hgl. simpl. auto. }
    rewrite Ec. rewrite <- app_assoc. eexists. split; [reflexivity|].
    rewrite map_app, map_map. cbn [c_data]. rewrite map_id. apply Forall2_app; auto.
    rewrite (gplaces_of l gs) by auto. exact F.
Qed.

Lemma recompute_ok cs : (forall c, In c cs -> exists l m, In l order /\ is_sub rows l m /\ at_place d rows (l, m) (c_data c)) ->
  recompute (warp_of k) ratio query cs = Ret (map (fun c => cand_of dist (c_data c)) cs).
Proof.
  induction cs as [|c cs IH]; intros Hc; [reflexivity|]. simpl.
  destruct (Hc c (or_introl eq_refl)) as (l & m & Hl & Hm & Ht).
  destruct (warp_call_ok d rows k ratio query order HsC HsM l m (c_data c) ninf Hl Hm Ht lw_inf_nn) as (v & Ev & C1 & _).
  rewrite Ev. cbn [bind]. rewrite IH by (intros; apply Hc; simpl; auto). cbn [bind].
  rewrite (C1 (lw_inf_top _)). unfold mdist, cand_of. destruct Ht as (_ & -> & _). reflexivity.
Qed.
End Levels.
End Level.
End KSim.
