(** getKBestMatches for one match looking at one subsequence, beside getBestMatch:
    the two loops go through the same distances. *)
From Coq Require Import String Permutation.
From Verif Require Import Base Num NumLaws NumFacts NumMore LoopFacts TimeSeries Lemire Distance TSSet StdAlg HeapFacts Candidate CandOrder
  Group GroupSpace DtwExt DistSpec DistLink DataSpec DataProofs GroupSpec Members GroupProofs GroupAll TopK SearchSpec SearchProofs QueryState
  BestMatch KHeap.
Local Open Scope Z_scope.
Local Open Scope list_scope.

(** two loops side by side *)
Lemma for_n_pair {S T} (P : Z -> S -> T -> Prop) f g : forall n lo s t, P lo s t ->
  (forall k s t, lo <= k < lo + Z.of_nat n -> P k s t -> exists s' t', f k s = Ret s' /\ g k t = Ret t' /\ P (k + 1) s' t') ->
  exists s' t', for_n n lo f s = Ret s' /\ for_n n lo g t = Ret t' /\ P (lo + Z.of_nat n) s' t'.
Proof.
  induction n as [|n IH]; intros lo s t H0 Hs.
  - exists s, t. simpl. replace (lo + 0) with lo by lia. auto.
  - destruct (Hs lo s t ltac:(lia) H0) as (s1 & t1 & E1 & E2 & H1). cbn [for_n]. rewrite E1, E2. cbn [bind].
    destruct (IH (lo + 1) s1 t1 H1) as (s' & t' & A1 & A2 & A3).
    { intros k s0 t0 Hk. apply Hs. lia. }
    exists s', t'. splits; auto. replace (lo + Z.of_nat (Datatypes.S n)) with (lo + 1 + Z.of_nat n) by lia. exact A3.
Qed.

Lemma for_pair {S T} (P : Z -> S -> T -> Prop) f g lo hi s t : lo <= hi -> P lo s t ->
  (forall k s t, lo <= k < hi -> P k s t -> exists s' t', f k s = Ret s' /\ g k t = Ret t' /\ P (k + 1) s' t') ->
  exists s' t', for_ lo hi f s = Ret s' /\ for_ lo hi g t = Ret t' /\ P hi s' t'.
Proof.
  intros Hle H0 Hs. unfold for_.
  destruct (for_n_pair P f g (Z.to_nat (hi - lo)) lo s t H0) as (s' & t' & E1 & E2 & H1).
  - intros k s1 t1 Hk. apply Hs. lia.
  - exists s', t'. splits; auto. replace hi with (lo + Z.of_nat (Z.to_nat (hi - lo))) at 1 by lia. exact H1.
Qed.

(** a heap of two *)
Section Two.
Variable H : std_alg.
Hypothesis Hok : std_ok H.
Context {A : Type}.
Variable lt : A -> A -> bool.

Lemma heap_one x : lt x x = false -> make_heap H lt [x] = Ret [x].
Proof.
  intros Hx. assert (Hs : swo lt [x]).
  { split; [|split].
    - intros a [<-|[]]. exact Hx.
    - intros a b c [<-|[]] [<-|[]] [<-|[]]. auto.
    - intros a b c [<-|[]] [<-|[]] [<-|[]]. auto. }
  destruct (make_heap_ok H Hok lt [x] Hs) as (l & E & P & _). rewrite E. f_equal. apply Permutation_length_1_inv. exact P.
Qed.

Lemma sort_one x : lt x x = false -> sort H lt [x] = Ret [x].
Proof.
  intros Hx. assert (Hs : swo lt [x]).
  { split; [|split].
    - intros a [<-|[]]. exact Hx.
    - intros a b c [<-|[]] [<-|[]] [<-|[]]. auto.
    - intros a b c [<-|[]] [<-|[]] [<-|[]]. auto. }
  destruct (sort_ok H Hok lt [x] Hs) as (l & E & P & _). rewrite E. f_equal. apply Permutation_length_1_inv. exact P.
Qed.

(** the smaller one goes in, the larger one comes out *)
Lemma heap_two old new : swo lt [old; new] -> lt new old = true ->
  push_heap H lt [old; new] = Ret [old; new] /\ pop_heap H lt [old; new] = Ret [new; old] /\ pop_back [new; old] = Ret [new].
Proof.
  intros Hs Hlt. destruct (push_heap_ok H Hok lt [old] new Hs eq_refl) as (l & E & P & Hh).
  assert (El : l = [old; new]).
  { apply Permutation_length_2_inv in P as [-> | ->]; auto. exfalso.
    assert (Hs' : swo lt [new; old]) by (eapply swo_perm; [apply perm_swap|exact Hs]).
    pose proof (heap_front lt new [old] Hs' Hh old ltac:(simpl; auto)). congruence. }
  subst l. split; [exact E|].
  destruct (pop_heap_ok H Hok lt old [new] Hs Hh) as (l' & E' & P' & _). apply Permutation_length_1_inv in P' as ->.
  split; [exact E'|reflexivity].
Qed.
End Two.

Section One.
Context {N : Num} {LW : NumLaws N} {EL : EpsLaws N} {RP : Rep}.
Notation D := (D N).
Variable H : std_alg.
Hypothesis Hok : std_ok H.
Variable d : dataset N.
Variable rows : list (list D).
Hypothesis Hd : holds d rows.
Variable k : kind.
Variable ratio : D.
Variable query : TS N.
Notation q := (ts_points query).
Variable order : list Z.
Hypothesis Hrange : forall l, In l order -> 2 <= l <= ds_maxcol d.
Hypothesis HsC : forall l c t, In l order -> is_sub rows l c -> at_place d rows (l, c) t -> exists r, ieee_ok k t query ratio r.
Hypothesis HsM : forall l c t, In l order -> is_sub rows l c -> at_place d rows (l, c) t -> exists r, ieee_ok k query t ratio r.
Notation cdist := (cdist rows k ratio query).
Notation mdist := (mdist rows k ratio query).
Hypothesis Hfin : forall l c, In l order -> is_sub rows l c -> nltb (cdist l c) ninf = true /\ nltb (mdist l c) ninf = true.
Variable gss : Z -> option (list (list coord)).
Hypothesis Hties : forall l c c', In l order -> gss l <> None -> is_sub rows l c -> is_sub rows l c' -> apart (mdist l c) (mdist l c').

(** what getBestMatch remembers and what getKBestMatches keeps *)
Definition pair_of (bd : D) (bg : option (Z * Z)) (best : list (gindex N)) (k1 : Z) : Prop :=
  (bg = None /\ bd = ninf /\ best = [] /\ k1 = 1) \/
  exists l i m, bg = Some (l, i) /\ best = [mkGI l i m bd] /\ k1 = 1 - m /\ 1 <= m /\ nle n0 bd.

Lemma pair_nn bd bg best k1 : pair_of bd bg best k1 -> nn bd.
Proof. intros [(_ & -> & _)|(l & i & m & _ & _ & _ & _ & Hn)]; [apply lw_inf_nn|apply (nle_nn_r _ _ Hn)]. Qed.

(** inside one length: the best group of this length, or what was there before *)
Definition now (l : Z) (bg0 : option (Z * Z)) (bg : option Z) : option (Z * Z) :=
  match bg with Some i => Some (l, i) | None => bg0 end.

Lemma level_pair l L gs bd0 bg0 best0 k0 : In l order -> level_q d rows l L gs -> pair_of bd0 bg0 best0 k0 ->
  exists L' v bg best' k', getBestGroup d (warp_of k) ratio L query bd0 = Ret (L', (v, bg)) /\
    interLevelKSim H d (warp_of k) ratio L query best0 k0 = Ret (L', best', k') /\
    level_q d rows l L' gs /\ pair_of v (now l bg0 bg) best' k' /\
    (bg = None -> v = bd0) /\ (bg <> None -> nltb v bd0 = true).
Proof.
  intros Hl HL HP. unfold getBestGroup, interLevelKSim. rewrite (lq_len _ _ _ _ _ HL).
  assert (Hlg : length (ll_groups L) = length gs) by (eapply Forall2_length, lq_cent; eauto).
  destruct (for_pair (fun (i : Z) (st : list (group N) * (D * option Z)) (st' : list (group N) * list (gindex N) * Z) =>
      let '(gr, (v, bg)) := st in let '(gr', b, k1) := st' in
      gr = gr' /\ level_q d rows l (lev L gr) gs /\ pair_of v (now l bg0 bg) b k1 /\
      (bg = None -> v = bd0) /\ (bg <> None -> nltb v bd0 = true))
     (bestGroup_step d l (warp_of k) ratio query) (inter_step H d l (warp_of k) ratio query)
     0 (Z.of_nat (length (ll_groups L))) (ll_groups L, (bd0, None)) (ll_groups L, best0, k0))
    as ([gr [v bg]] & [[gr' b] k1] & E1 & E2 & -> & H1 & H2 & H3 & H4).
  - lia.
  - splits; auto; destruct L; exact HL.
  - intros i [gr [v bg]] [[gr' b] k1] Hi (<- & H1 & H2 & H3 & H4).
    assert (Hlg' : length gr = length gs) by (eapply Forall2_length; apply (lq_cent _ _ _ _ _ H1)).
    destruct (nth_error gr (Z.to_nat i)) as [g|] eqn:Eg; [|apply nth_error_None in Eg; lia].
    destruct (nth_error gs (Z.to_nat i)) as [ms|] eqn:Em; [|apply nth_error_None in Em; lia].
    unfold bestGroup_step, inter_step.
    replace (aget gr i) with (@Ret (group N) g) by (symmetry; apply aget_Ret; split; [lia|auto]).
    cbn [bind].
    assert (Ec : g_count g = Z.of_nat (length ms)).
    { destruct (lq_are _ _ _ _ _ H1) as (HF & _). apply (Forall2_nth _ _ _ _ _ _ HF Eg Em). }
    destruct (rep_sub d rows _ _ _ _ _ HL Em) as [Hrs Hne].
    assert (Hc1 : 1 <= g_count g) by (rewrite Ec; destruct ms; [contradiction|simpl; lia]).
    pose proof (cdist_nn d rows Hd k ratio query order Hrange HsC l (rp ms) Hl Hrs) as Hcn.
    destruct (centroid_ok d rows Hd k ratio query order Hrange HsC HsM l (lev L gr) gs (Z.to_nat i) g ms v Hl H1 Eg Em (pair_nn _ _ _ _ H2))
      as (v1 & g1 & Ed & C1 & C2 & C3 & _).
    assert (Hv1 : nltb v1 v = true -> v1 = cdist l (rp ms)).
    { intros Elt. destruct (nltb v (cdist l (rp ms))) eqn:Ect; [exfalso; specialize (C2 eq_refl); congruence|auto]. }
    assert (Hlt0 : nltb v1 v = true -> nltb v1 bd0 = true).
    { intros Elt. destruct bg as [j|]; [|rewrite <- (H3 eq_refl); exact Elt]. apply (lw_trans _ v); auto. apply H4. discriminate. }
    destruct H2 as [(Hb & -> & -> & ->)|(l0 & i0 & m & Hb & -> & -> & Hm & Hn0)].
    + pose proof (C1 (lw_inf_top _)) as Ev. destruct (Hfin l (rp ms) Hl Hrs) as [Hf _]. rewrite <- Ev in Hf.
      cbn [Z.leb Z.compare]. rewrite Ed. cbn [bind]. rewrite aset_in by lia. cbn [bind]. rewrite Hf.
      destruct (Z.leb_spec (1 - g_count g) 0); [|lia]. cbn [app].
      rewrite (heap_one H Hok gi_lt) by (unfold gi_lt; apply lw_irrefl). cbn [bind length trim front gi_members].
      destruct (Z.leb_spec (1 - g_count g + g_count g) 0); [lia|]. cbn [bind].
      eexists _, _. split; [reflexivity|]. split; [reflexivity|]. cbv beta iota. splits; auto.
      * right. exists l, i, (g_count g). splits; auto. rewrite Ev. exact Hcn.
      * discriminate.
    + destruct (Z.leb_spec (1 - m) 0); [|lia]. cbn [front bind gi_dist]. rewrite Ed. cbn [bind]. rewrite aset_in by lia. cbn [bind].
      destruct (nltb v1 v) eqn:Elt.
      * cbn [app].
        destruct (heap_two H Hok gi_lt (mkGI l0 i0 m v) (mkGI l i (g_count g) v1)) as (P1 & P2 & P3).
        { apply gi_swo. apply Forall_cons; [split; cbn [gi_dist gi_members]; auto|]. apply Forall_cons; [|apply Forall_nil].
          split; cbn [gi_dist gi_members]; auto. rewrite (Hv1 eq_refl). exact Hcn. }
        { exact Elt. }
        rewrite P1. cbn [bind length trim front gi_members].
        destruct (Z.leb_spec (1 - m - g_count g + m) 0); [|lia]. rewrite P2. cbn [bind]. rewrite P3. cbn [bind trim front gi_members].
        destruct (Z.leb_spec (1 - m - g_count g + m + g_count g) 0); [lia|]. cbn [bind].
        eexists _, _. split; [reflexivity|]. split; [reflexivity|]. cbv beta iota. splits; auto.
        -- right. exists l, i, (g_count g). splits; auto; [lia|]. rewrite (Hv1 eq_refl). exact Hcn.
        -- discriminate.
      * eexists _, _. split; [reflexivity|]. split; [reflexivity|]. cbv beta iota. splits; auto.
        right. exists l0, i0, m. auto.
  - rewrite E1, E2. cbn [bind]. exists (mkLL l (ll_sub L) gr' (ll_map L)), v, bg, b, k1. splits; auto.
    replace (mkLL l (ll_sub L) gr' (ll_map L)) with (lev L gr'); auto.
    unfold lev. rewrite (lq_len _ _ _ _ _ HL). reflexivity.
Qed.

Lemma levels_pair : forall todo levels bd bg best k0, incl todo order -> levels_q d rows levels gss -> pair_of bd bg best k0 ->
  exists levels' v bg' best' k', each_level todo levels (bestLevel_step d (warp_of k) ratio query) (bd, bg) = Ret (levels', (v, bg')) /\
    each_level todo levels (interLevel_step H d (warp_of k) ratio query) (best, k0) = Ret (levels', (best', k')) /\
    levels_q d rows levels' gss /\ pair_of v bg' best' k'.
Proof.
  induction todo as [|l todo IH]; intros levels bd bg best k0 Hi HLs HP.
  - exists levels, bd, bg, best, k0. simpl. auto.
  - simpl. pose proof (Hi l (or_introl eq_refl)) as Hlo. pose proof (Hrange l Hlo) as Hl. pose proof HLs as [Hlen HL].
    pose proof (HL l ltac:(lia)) as Hlev.
    assert (Hi' : incl todo order) by (intros x Hx; apply Hi; simpl; auto).
    destruct (gss l) as [gs|] eqn:Egs.
    + destruct Hlev as [Hl1 (L & EL1 & HLq)].
      replace (aget levels l) with (@Ret (option (llgs N)) (Some L)) by (symmetry; apply aget_Ret; split; [lia|auto]).
      cbn [bind]. unfold bestLevel_step at 1. unfold interLevel_step at 1. cbn [fst snd].
      destruct (level_pair l L gs bd bg best k0 Hlo HLq HP) as (L' & v & bg1 & b1 & k1 & E1 & E2 & HL1 & HP1 & Hn & Hs).
      rewrite E1, E2. cbn [bind]. rewrite (lq_len _ _ _ _ _ HLq).
      assert (HL' : levels_q d rows (upd levels (Z.to_nat l) (Some L')) gss) by (apply (levels_set d rows levels gss l gs L'); auto; lia).
      destruct bg1 as [i|].
      * rewrite (Hs ltac:(discriminate)). cbn [bind]. rewrite aset_in by lia. cbn [bind]. apply IH; auto.
      * rewrite (Hn eq_refl) in *. rewrite lw_irrefl. cbn [bind]. rewrite aset_in by lia. cbn [bind]. apply IH; auto.
    + replace (aget levels l) with (@Ret (option (llgs N)) None) by (symmetry; apply aget_Ret; split; [lia|auto]).
      cbn [bind]. apply IH; auto.
Qed.

(** the members of the group found *)
Lemma member_pair l L gs i g ms : In l order -> gss l <> None -> level_q d rows l L gs ->
  nth_error (ll_groups L) i = Some g -> nth_error gs i = Some ms ->
  exists c m, groupBestMatch d l (ll_sub L) (warp_of k) ratio (ll_map L) g query = Ret c /\
    intraGroupKSim H d l (ll_sub L) (warp_of k) ratio (ll_map L) g query 1 = Ret [c] /\
    is_sub rows l m /\ at_place d rows (l, m) (c_data c) /\ c_dist c = mdist l m.
Proof.
  intros Hl Hgn HL Eg Em. unfold groupBestMatch, intraGroupKSim.
  rewrite !(walk_group _ _ _ _ _ _ _ _ _ _ (lq_are _ _ _ _ _ HL) Eg Em).
  destruct (rep_sub d rows _ _ _ _ _ HL Em) as [_ Hne].
  assert (Hsub : forall m, In m ms -> is_sub rows l m).
  { intros m Hm. pose proof (lq_subs _ _ _ _ _ HL) as Hs. rewrite Forall_forall in Hs. apply Hs. eapply In_concat; eauto. }
  pose (R := fun (st : D * coord) (st' : list (cand N) * Z) =>
    (fst st = ninf /\ st' = ([], 1)) \/
    exists t, st' = ([mkCand t (fst st)], 0) /\ is_sub rows l (snd st) /\ at_place d rows (l, snd st) t /\ fst st = mdist l (snd st)).
  assert (Hstep : forall m, In m ms -> forall st st', R st st' -> exists s2 t2,
    bestMember_step d l (warp_of k) ratio query (fst m) (snd m) st = Ret s2 /\
    intra_step H d l (warp_of k) ratio query (fst m) (snd m) st' = Ret t2 /\ R s2 t2 /\ snd t2 = 0).
  { intros m Hm [bd bm] st' HR.
    destruct (sub_at d rows Hd order Hrange l m Hl (Hsub m Hm)) as [t Ht].
    pose proof (mdist_nn d rows Hd k ratio query order Hrange HsM l m Hl (Hsub m Hm)) as Hmn.
    unfold bestMember_step, intra_step. pose proof Ht as (Et & _). cbn [fst snd] in Et.
    destruct HR as [[E0 ->]|(t0 & -> & Hs0 & Ht0 & E0)]; cbn [fst snd] in *.
    - subst bd. rewrite Et. cbn [bind Z.gtb Z.compare].
      destruct (warp_call_ok d rows k ratio query order HsC HsM l m t ninf Hl (Hsub m Hm) Ht lw_inf_nn) as (v & Ev & C1 & _).
      pose proof (C1 (lw_inf_top _)) as Evm. rewrite Ev. cbn [bind]. destruct (Hfin l m Hl (Hsub m Hm)) as [_ Hf].
      rewrite Evm, Hf. cbn [app Z.sub Z.add Z.opp Z.pos_sub Z.eqb].
      assert (Hi : cand_lt (mkCand t (mdist l m)) (mkCand t (mdist l m)) = false).
      { assert (Hs : separated (map c_dist [mkCand t (mdist l m)])).
        { split; [intros x [<-|[]]; exact Hmn|]. intros x y [<-|[]] [<-|[]]. apply Hties; auto. }
        apply (cand_swo _ Hs). simpl. auto. }
      rewrite (heap_one H Hok cand_lt _ Hi). cbn [bind]. eexists _, _. split; [reflexivity|]. split; [reflexivity|].
      split; [|reflexivity]. right. exists t. cbn [fst snd]. rewrite <- surjective_pairing. splits; auto.
    - rewrite Et. cbn [bind Z.gtb Z.compare front c_dist].
      pose proof (mdist_nn d rows Hd k ratio query order Hrange HsM l bm Hl Hs0) as Hb0. rewrite <- E0 in Hb0.
      destruct (warp_call_ok d rows k ratio query order HsC HsM l m t bd Hl (Hsub m Hm) Ht (nle_nn_r _ _ Hb0)) as (v & Ev & C1 & C2).
      rewrite Ev. cbn [bind]. destruct (nltb v bd) eqn:Elt.
      + assert (Evm : v = mdist l m).
        { destruct (nltb bd (mdist l m)) eqn:Ect; [exfalso; specialize (C2 eq_refl); congruence|auto]. }
        assert (Hs : separated (map c_dist [mkCand t0 bd; mkCand t v])).
        { rewrite Evm, E0. split; cbn [map c_dist].
          - intros x [<-|[<-|[]]]; auto. rewrite <- E0. exact Hb0.
          - intros x y [<-|[<-|[]]] [<-|[<-|[]]]; apply Hties; auto. }
        destruct (heap_two H Hok cand_lt (mkCand t0 bd) (mkCand t v)) as (P1 & P2 & P3).
        { apply cand_swo, Hs. }
        { destruct Hs as [S1 S2]. rewrite cand_lt_spec; cbn [c_dist]; [rewrite Elt; reflexivity|apply S1; simpl; auto|apply S1; simpl; auto|].
          apply S2; simpl; auto. }
        cbn [app]. rewrite P1. cbn [bind]. rewrite P2. cbn [bind]. rewrite P3. cbn [bind].
        eexists _, _. split; [reflexivity|]. split; [reflexivity|]. split; [|reflexivity]. right. exists t. cbn [fst snd].
        rewrite <- surjective_pairing. splits; auto.
      + eexists _, _. split; [reflexivity|]. split; [reflexivity|]. split; [|reflexivity]. right. exists t0. cbn [fst snd]. auto. }
  assert (G : forall l0 st st', incl l0 ms -> R st st' -> exists s2 t2,
    fold_res (fun c => bestMember_step d l (warp_of k) ratio query (fst c) (snd c)) l0 st = Ret s2 /\
    fold_res (fun c => intra_step H d l (warp_of k) ratio query (fst c) (snd c)) l0 st' = Ret t2 /\ R s2 t2 /\ (l0 <> [] \/ snd st' = 0 -> snd t2 = 0)).
  { induction l0 as [|m l0 IH]; intros st st' Hi HR.
    - exists st, st'. simpl. splits; auto. intros [?|?]; congruence.
    - destruct (Hstep m (Hi m (or_introl eq_refl)) st st' HR) as (s2 & t2 & E1 & E2 & HR2 & Hz).
      cbn [fold_res]. rewrite E1, E2. cbn [bind].
      destruct (IH s2 t2) as (s3 & t3 & A1 & A2 & A3 & A4); auto. { intros x Hx; apply Hi; simpl; auto. }
      exists s3, t3. splits; auto. }
  destruct (G ms (ninf, (0, 0)) ([], 1) (incl_refl _)) as ([bd bm] & t2 & E1 & E2 & HR & Hz).
  { left. auto. }
  specialize (Hz (or_introl Hne)).
  destruct HR as [[_ ->]|(t & -> & Hs & Ht & Eb)]; [discriminate Hz|]. cbn [fst snd] in *.
  match type of E1 with ?x = _ => match goal with |- context [bind ?y _] => change y with x end end. rewrite E1.
  match type of E2 with ?x = _ => match goal with |- context [bind ?y (fun '(best, _) => _)] => change y with x end end. rewrite E2.
  cbn [bind fst snd]. pose proof Ht as (Et & _). cbn [fst snd] in Et. rewrite Et. cbn [bind].
  exists (mkCand t bd), bm. cbn [c_data c_dist]. splits; auto.
Qed.

Lemma one_main g G : gt_data g = d -> gt_groups g = Some G -> gg_warp G = Some (warp_of k) ->
  levels_q d rows (gg_levels G) gss -> 2 <= ts_length query ->
  generateTraverseOrder ratio (ts_length query) (ds_maxcol d) = Ret order ->
  (exists l i ms, In l order /\ a_group gss l i ms) ->
  exists g' c, getBestMatch ratio g query = Ret (g', c) /\ getKBestMatches H ratio g query 1 1 = Ret (g', [c]).
Proof.
  intros Ed Eg Ew HL Hq Eo (l0 & i0 & ms0 & Hl0 & Hg0).
  unfold getBestMatch, getKBestMatches. rewrite Eg, Ed. cbn [Z.ltb Z.compare]. unfold gg_getBestMatch, gg_getKBestMatches.
  destruct (Z.leb_spec (ts_length query) 1); [lia|].
  assert (Et : gg_totalLength G = ds_maxcol d) by (unfold gg_totalLength; destruct HL; lia).
  rewrite Et, Eo. cbn [bind]. rewrite Ew.
  destruct (levels_pair order (gg_levels G) ninf None [] 1 (incl_refl _) HL) as (levels' & v & bg & best & k' & E1 & E2 & HL' & HP).
  { left. auto. }
  destruct (best_levels_ok d rows Hd k ratio query order Hrange HsC HsM gss (gg_levels G) HL) as (levels2 & v2 & bg2 & E3 & _ & Hall & Hbg).
  rewrite E1 in E3. injection E3 as <- <- <-. rewrite E1, E2. cbn [bind].
  destruct Hbg as [[_ Hv]|(l & i & ms & pre & post & -> & Hord & Hg & Hv & _)].
  { exfalso. specialize (Hall l0 i0 ms0 Hl0 Hg0). rewrite Hv in Hall. apply (nle_not_lt _ _ Hall).
    destruct Hg0 as (gs & Egs & Em). pose proof (Hrange l0 Hl0) as Hr. destruct HL as [_ HL]. specialize (HL l0 ltac:(lia)).
    rewrite Egs in HL. destruct HL as [_ (L & _ & HLq)]. apply Hfin; auto. apply (rep_sub d rows l0 L gs i0 ms0 HLq Em). }
  destruct HP as [(E0 & _)|(l1 & i1 & m1 & E0 & -> & -> & Hm1 & _)]; [discriminate E0|]. injection E0 as <- <-.
  assert (Hl : In l order) by (rewrite Hord; apply in_or_app; simpl; auto).
  cbn [deref bind gi_members add_members]. pose proof (Hrange l Hl) as Hr. destruct HL' as [Hlen HL'].
  destruct Hg as (gs & Egs & Em).
  pose proof (HL' l ltac:(lia)) as Hlev. rewrite Egs in Hlev. destruct Hlev as [_ (L & EL1 & HLq)].
  assert (EL2 : aget levels' l = Ret (Some L)) by (apply aget_Ret; split; [lia|auto]).
  destruct (Forall2_nth_ex_r _ _ _ _ _ (lq_cent _ _ _ _ _ HLq) Em) as (gr & Egr & _).
  assert (Ega : aget (ll_groups L) (Z.of_nat i) = Ret gr) by (apply aget_Ret; rewrite Nat2Z.id; split; [lia|auto]).
  unfold find_group. cbn [gi_length gi_index]. rewrite EL2. cbn [bind deref]. unfold getGroup.
  apply nth_error_Some_lt in Egr as Hlt.
  destruct (Z.ltb_spec (Z.of_nat i) 0); [lia|]. destruct (Z.leb_spec (Z.of_nat (length (ll_groups L))) (Z.of_nat i)); [lia|].
  cbn [orb]. rewrite Ega. cbn [bind]. rewrite (lq_len _ _ _ _ _ HLq). replace (1 - m1 + m1) with 1 by lia.
  destruct (member_pair l L gs i gr ms Hl ltac:(congruence) HLq Egr Em) as (c & m & M1 & M2 & Hms & Hat & Hdc). rewrite M1, M2. cbn [bind].
  destruct (warp_call_ok d rows k ratio query order HsC HsM l m (c_data c) ninf Hl Hms Hat lw_inf_nn) as (w & Ew1 & C1 & _).
  cbn [recompute]. rewrite Ew1. cbn [bind]. rewrite (C1 (lw_inf_top _)), <- Hdc.
  replace (mkCand (c_data c) (c_dist c)) with c by (destruct c; reflexivity).
  assert (Hi : cand_lt c c = false).
  { assert (Hs : separated (map c_dist [c])).
    { split; [intros x [<-|[]]; rewrite Hdc; apply (mdist_nn d rows Hd k ratio query order Hrange HsM l m Hl Hms)|].
      intros x y [<-|[]] [<-|[]]. rewrite Hdc. apply Hties; auto. congruence. }
    apply (cand_swo _ Hs). simpl. auto. }
  rewrite (sort_one H Hok cand_lt _ Hi). cbn [bind]. unfold resize. cbn [Z.ltb Z.compare bind].
  eexists _, c. split; reflexivity.
Qed.
End One.
