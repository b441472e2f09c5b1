(** getKBestMatches as a whole. *)
From Coq Require Import String Permutation.
From Verif Require Import Base Num NumLaws NumFacts NumMore LoopFacts TimeSeries Lemire Distance TSSet StdAlg HeapFacts Candidate Group GroupSpace
  DistSpec DistLink DataSpec DataProofs GroupSpec Members GroupProofs GroupAll CandOrder TopK DtwExt SearchSpec SearchProofs QueryState BestMatch KHeap KSim.
Local Open Scope Z_scope.
Local Open Scope list_scope.
Notation splace := SearchSpec.place.

Lemma NoDup_app_intro {A} (l l' : list A) : NoDup l -> NoDup l' -> (forall x, In x l -> In x l' -> False) -> NoDup (l ++ l').
Proof.
  induction l as [|x l IH]; intros H1 H2 H3; [exact H2|]. inversion H1; subst. simpl. constructor.
  - intros Hin. apply in_app_or in Hin as [Hin|Hin]; [auto|]. apply (H3 x); simpl; auto.
  - apply IH; auto. intros y Hy Hy'. apply (H3 y); simpl; auto.
Qed.

Lemma NoDup_app_inv {A} (l l' : list A) : NoDup (l ++ l') -> NoDup l /\ NoDup l' /\ forall x, In x l -> In x l' -> False.
Proof.
  induction l as [|x l IH]; simpl; intros Hn; [split; [constructor|split; [auto|intros ? []]]|].
  inversion Hn as [|? ? Hni Hn']; subst. destruct (IH Hn') as (A1 & A2 & A3). split; [|split]; auto.
  - constructor; auto. intros Hx. apply Hni, in_or_app. auto.
  - intros y [<-|Hy] Hy'; [apply Hni, in_or_app; auto|eauto].
Qed.

Lemma NoDup_flat_map_key {A B} (f : A -> list B) (key : B -> A) : forall l, NoDup l -> (forall x, In x l -> NoDup (f x)) ->
  (forall x y, In x l -> In y (f x) -> key y = x) -> NoDup (flat_map f l).
Proof.
  induction l as [|x l IH]; intros Hn Hf Hk; simpl; [constructor|]. inversion Hn as [|? ? Hni Hn']; subst.
  apply NoDup_app_intro.
  - apply Hf. simpl. auto.
  - apply IH; auto; intros; [apply Hf|apply Hk]; simpl; auto.
  - intros y Hy Hy'. apply in_flat_map in Hy' as (x' & Hx' & Hy').
    rewrite <- (Hk x y) in Hni; simpl; auto. rewrite (Hk x' y) in Hni; simpl; auto.
Qed.

Lemma Permutation_flat_map' {A B} (f : A -> list B) l l' : Permutation l l' -> Permutation (flat_map f l) (flat_map f l').
Proof.
  intros P. induction P; simpl; auto.
  - apply Permutation_app_head, IHP.
  - rewrite !app_assoc. apply Permutation_app_tail, Permutation_app_comm.
  - eapply Permutation_trans; eauto.
Qed.

Section KBest.
Context {N : Num} {LW : NumLaws N} {EL : EpsLaws N} {RP : Rep}.
Notation D := (D N).
Variable H : std_alg.
Hypothesis Hok : std_ok H.
Variable d : dataset N.
Variable rows : list (list D).
Hypothesis Hd : holds d rows.
Variable k : kind.
Variable ratio : D.
Variable query : TS N.
Hypothesis Hq : ts_ok query.
Notation q := (ts_points query).
Variable order : list Z.
Hypothesis Hrange : forall l, In l order -> 2 <= l <= ds_maxcol d.
Hypothesis Hnd : NoDup order.
Hypothesis HsC : forall l c t, In l order -> is_sub rows l c -> at_place d rows (l, c) t -> exists r, ieee_ok k t query ratio r.
Hypothesis HsM : forall l c t, In l order -> is_sub rows l c -> at_place d rows (l, c) t -> exists r, ieee_ok k query t ratio r.
Variable gss : Z -> option (list (list coord)).
Notation all := (all_gis rows k ratio query gss).
Notation gpl := (gplaces gss).
Notation dist := (fun t => dtw_val k ratio q (ts_points t)).
Definition inP (p : splace) : Prop := (In (fst p) order /\ gss (fst p) <> None) /\ is_sub rows (fst p) (snd p).
Hypothesis Hsearch : searchable rows k ratio q inP.
Hypothesis Hties : no_near_ties rows k ratio q inP.

Lemma gplaces_level l gs : gss l = Some gs -> flat_map gpl (gis rows k ratio query l gs) = map (fun m => (l, m)) (concat gs).
Proof.
  intros E. unfold gis.
  assert (G : forall gs' n, (forall i ms, nth_error gs' i = Some ms -> nth_error gs (n + i) = Some ms) ->
    flat_map gpl (map (gi_of rows k ratio query l) (combine (seq n (length gs')) gs')) = map (fun m => (l, m)) (concat gs')).
  { induction gs' as [|ms gs' IH]; intros n Hn; [reflexivity|]. cbn [length seq combine map flat_map concat]. rewrite map_app.
    rewrite (gplaces_of rows k ratio query gss l gs) by (auto; specialize (Hn 0%nat ms eq_refl); rewrite Nat.add_0_r in Hn; exact Hn).
    rewrite (IH (S n)); [reflexivity|]. intros i ms' Ei. specialize (Hn (S i) ms' Ei). rewrite <- Hn. f_equal. lia. }
  apply G. auto.
Qed.

Section L.
Variable levels : list (option (llgs N)).
Hypothesis HLs : levels_q d rows levels gss.

Lemma all_nodup : NoDup (flat_map gpl (all order)).
Proof.
  unfold all_gis.
  assert (E : forall ls, flat_map gpl (flat_map (level_gis rows k ratio query gss) ls) =
    flat_map (fun l => flat_map gpl (level_gis rows k ratio query gss l)) ls).
  { induction ls as [|l ls IH]; [reflexivity|]. simpl. rewrite flat_map_app, IH. reflexivity. }
  rewrite E. apply (NoDup_flat_map_key _ (fun p : splace => fst p)); auto.
  - intros l Hl. unfold level_gis. destruct (gss l) as [gs|] eqn:Egs; [|constructor]. rewrite (gplaces_level l gs) by auto.
    destruct (level_of d rows order Hrange gss levels HLs l gs Hl Egs) as (L & _ & HL).
    destruct (lq_are _ _ _ _ _ HL) as (_ & _ & Hn & _).
    apply FinFun.Injective_map_NoDup; auto. intros x y Exy. congruence.
  - intros l p Hl Hp. unfold level_gis in Hp. destruct (gss l) as [gs|] eqn:Egs; [|destruct Hp].
    rewrite (gplaces_level l gs) in Hp by auto. apply in_map_iff in Hp as (m & <- & _). reflexivity.
Qed.

(** the nearest members of one group *)
Lemma intra_ok l gs i ms K : In l order -> gss l = Some gs -> nth_error gs i = Some ms -> 1 <= K ->
  exists L gr cs part, find_group levels (gi_of rows k ratio query l (i, ms)) = Ret (L, gr) /\
    intraGroupKSim H d (ll_length L) (ll_sub L) (warp_of k) ratio (ll_map L) gr query K = Ret cs /\
    best_matches rows k ratio q (fun p => In p (map (fun m => (l, m)) ms)) K cs /\
    Forall2 (at_place d rows) part (map c_data cs) /\ part = map place_of cs.
Proof.
  intros Hl E Em HK. destruct (find_group_ok d rows k ratio query order Hrange gss levels HLs l gs i ms Hl E Em) as (L & gr & Ef & HL & Egr).
  set (P := fun p : splace => In p (map (fun m => (l, m)) ms)).
  assert (HP : forall p, P p -> inP p).
  { intros p Hp. apply in_map_iff in Hp as (m & <- & Hm). unfold inP. cbn [fst snd]. split; [split; [auto|congruence]|].
    pose proof (lq_subs _ _ _ _ _ HL) as Hs. rewrite Forall_forall in Hs. apply Hs. eapply In_concat; eauto. }
  assert (Hcall : agrees k ratio query (warp_call (warp_of k) ratio query)).
  { destruct k; cbn [warp_of]; [apply cascade_agrees|apply plain_agrees|apply plain_agrees]. }
  assert (Hn : NoDup (map (fun m : coord => (l, m)) ms)).
  { apply FinFun.Injective_map_NoDup; [intros x y Exy; congruence|].
    destruct (lq_are _ _ _ _ _ HL) as (_ & _ & Hn & _). eapply nth_error_split in Em as (g1 & g2 & -> & _).
    rewrite concat_app in Hn. simpl in Hn. apply NoDup_app_inv in Hn as (_ & Hn & _). apply NoDup_app_inv in Hn. apply Hn. }
  destruct (topk_places_at H Hok d rows Hd k ratio query Hq P) with (call := warp_call (warp_of k) ratio query)
     (ps := map (fun m : coord => (l, m)) ms) (K := K) as (best & k' & E1 & B & _ & _ & _ & Hat).
  - intros p Hp. destruct (HP p Hp) as [[Hp1 _] Hp2]. split; auto. pose proof (Hrange _ Hp1). lia.
  - intros p Hp. apply Hsearch. apply HP, Hp.
  - exact Hcall.
  - exact HK.
  - exact Hn.
  - intros p. reflexivity.
  - intros p p' v v' Hp Hp'. apply Hties; apply HP; auto.
  - exists L, gr, best, (map place_of best). splits; auto.
    + unfold intraGroupKSim. rewrite (walk_group _ _ _ _ _ _ _ _ _ _ (lq_are _ _ _ _ _ HL) Egr Em).
      rewrite (lq_len _ _ _ _ _ HL).
      replace (fold_res (fun c : Z * Z => intra_step H d l (warp_of k) ratio query (fst c) (snd c)) ms ([], K))
        with (@Ret (list (cand N) * Z) (best, k')); [reflexivity|].
      rewrite <- E1. clear. generalize (@nil (cand N), K). induction ms as [|m ms IH]; intros [b k0]; [reflexivity|].
      cbn [map fold_res fst snd].
      change (intra_step H d l (warp_of k) ratio query (fst m) (snd m) (b, k0)) with
        (t <- getTimeSeries d (fst m) (snd m) (snd m + l) ;; topk_step H (warp_call (warp_of k) ratio query) t (b, k0)).
      match goal with |- _ = bind ?x _ => destruct x end; cbn [bind]; [apply IH|reflexivity..].
    + clear - Hat. induction best as [|c best IH]; constructor.
      * destruct (Hat c (or_introl eq_refl)) as (p & _ & Hp). pose proof Hp as (_ & _ & _ & Ep). unfold place_of. rewrite Ep. exact Hp.
      * apply IH. intros c' Hc'. apply Hat. simpl. auto.
Qed.

(** what is looked at: [C] *)
Definition considered_gis (h : Z) (C : list splace) : Prop :=
  NoDup C /\
  ((Z.of_nat (length C) = h /\ exists best top rest part,
      Permutation (all order) (best ++ top :: rest) /\
      (forall g, In g best -> nle (gi_dist g) (gi_dist top)) /\ (forall g, In g rest -> nle (gi_dist top) (gi_dist g)) /\
      Permutation C (part ++ flat_map gpl best) /\ part <> [] /\ incl part (gpl top) /\
      (forall p p' v v', In p part -> In p' (gpl top) -> ~ In p' part -> dtw_of k ratio q (place_values rows p) = Ret v ->
         dtw_of k ratio q (place_values rows p') = Ret v' -> nle v v')) \/
   (Z.of_nat (length C) < h /\ forall p, In p C <-> In p (flat_map gpl (all order)))).

Lemma members_ok th h best k' : 1 <= h -> th <> None -> Forall good (all order) -> kinv h (all order) best k' ->
  exists cs C, (match best with
              | [] => Ret []
              | g :: rest =>
                  '(L, gr) <- find_group levels g ;;
                  c1 <- intraGroupKSim H d (ll_length L) (ll_sub L) (warp_of k) ratio (ll_map L) gr query
                          (k' + gi_members g) ;;
                  add_members d levels th rest c1
              end) = Ret cs /\ Forall2 (at_place d rows) C (map c_data cs) /\ incl C (flat_map gpl (all order)) /\ considered_gis h C.
Proof.
  intros Hh Hth Hgood (rest & P & Ek & Hpos & Hneg & Hle).
  pose proof (Permutation_flat_map' gpl _ _ P) as PP. rewrite flat_map_app in PP.
  pose proof (Permutation_NoDup PP all_nodup) as Hn.
  destruct best as [|top best].
  - exists [], []. splits; auto; [constructor|intros ? []|]. simpl in Ek. destruct (Z.le_gt_cases k' 0) as [Hk|Hk]; [lia|].
    split; [constructor|]. right. split; [simpl; lia|]. intros p. rewrite (Hpos ltac:(lia)) in PP. simpl in PP.
    split; [intros []|]. intros Hp. apply (Permutation_in _ PP) in Hp. exact Hp.
  - assert (Hall : forall g, In g (top :: best) -> In g (all order)).
    { intros g Hg. apply (Permutation_in _ (Permutation_sym P)), in_or_app. auto. }
    pose proof (Hall top (or_introl eq_refl)) as Htop.
    pose proof (gplaces_len rows k ratio query order gss top Htop) as Hlen.
    assert (Hsum : forall gl, (forall g, In g gl -> In g (all order)) -> Z.of_nat (length (flat_map gpl gl)) = msum gl).
    { induction gl as [|g gl IH]; intros Hg; [reflexivity|]. simpl. rewrite app_length, Nat2Z.inj_add.
      rewrite (gplaces_len rows k ratio query order gss g) by (apply Hg; simpl; auto). rewrite IH; [reflexivity|]. intros; apply Hg; simpl; auto. }
    pose proof (Hsum best (fun g Hg => Hall g (or_intror Hg))) as Hsb.
    assert (HK : 1 <= k' + gi_members top).
    { destruct (Z.le_gt_cases k' 0) as [Hk|Hk].
      - destruct (Hneg Hk) as (_ & t & l' & Eb & Hlt). injection Eb as <- <-. lia.
      - rewrite Forall_forall in Hgood. destruct (Hgood top Htop) as [_ Hm]. lia. }
    pose proof Htop as Ht'. apply all_gis_In in Ht' as (l & gs & i & ms & Hl & Egs & Em & Etop).
    destruct (intra_ok l gs i ms (k' + gi_members top) Hl Egs Em HK) as (L & gr & c1 & part & Ef & Ei & B & F1 & Epart).
    rewrite <- Etop in Ef. rewrite Ef. cbn [bind]. rewrite Ei. cbn [bind].
    destruct (add_members_ok d rows Hd k ratio query order Hrange gss levels HLs th Hth best c1) as (cs & Ec & F2).
    { intros g Hg. apply Hall. simpl. auto. }
    rewrite Ec. exists (c1 ++ cs), (part ++ flat_map gpl best).
    assert (Egp : gpl top = map (fun m => (l, m)) ms) by (rewrite Etop; apply (gplaces_of rows k ratio query gss l gs); auto).
    rewrite <- Egp in B. destruct B as (B1 & B2 & B3 & B4).
    assert (Hpi : incl part (gpl top)).
    { rewrite Epart. intros p Hp. apply in_map_iff in Hp as (c & <- & Hc). apply B1, Hc. }
    assert (Hlp : length part = length c1) by (rewrite Epart; apply map_length).
    assert (Hincl : incl (part ++ flat_map gpl best) (flat_map gpl (all order))).
    { intros p Hp. apply (Permutation_in _ (Permutation_sym PP)), in_or_app. left. simpl. apply in_app_or in Hp as [Hp|Hp]; apply in_or_app; auto. }
    assert (Hnd' : NoDup (part ++ flat_map gpl best)).
    { apply NoDup_app_inv in Hn as (Hn & _). simpl in Hn. apply NoDup_app_inv in Hn as (_ & Hn2 & Hn3).
      apply NoDup_app_intro; auto; [rewrite Epart; exact B2|]. intros x Hx Hx'. apply (Hn3 x); auto. }
    splits; auto.
    + rewrite map_app. apply Forall2_app; auto.
    + split; auto. change (msum (top :: best)) with (gi_members top + msum best) in Ek. rewrite app_length, Nat2Z.inj_add, Hsb, Hlp.
      assert (Hle1 : (length c1 <= length (gpl top))%nat).
      { rewrite <- Hlp. apply NoDup_incl_length; auto. rewrite Epart; exact B2. }
      destruct (Z.le_gt_cases k' 0) as [Hk|Hk].
      * left. assert (Hc1 : Z.of_nat (length c1) = k' + gi_members top).
        { destruct B3 as [B3|[B3 B3']]; auto. exfalso.
          assert (Hi : incl (gpl top) part) by (rewrite Epart; exact B3').
          assert (Hn' : NoDup (gpl top)) by (apply NoDup_app_inv in Hn as (Hn' & _); simpl in Hn'; apply NoDup_app_inv in Hn'; apply Hn').
          pose proof (NoDup_incl_length Hn' Hi). lia. }
        split; [lia|]. destruct (Hneg Hk) as (Hheap & _).
        exists best, top, rest, part. splits; auto.
        -- eapply Permutation_trans; [exact P|]. apply Permutation_middle.
        -- intros g Hg. assert (Gb : Forall good (top :: best)).
           { rewrite Forall_forall in *. intros x Hx. apply Hgood, Hall, Hx. }
           apply (gi_front top best); simpl; auto.
        -- intros g Hg. apply Hle; simpl; auto.
        -- intros E0. rewrite E0 in Hlp. simpl in Hlp. lia.
        -- intros p p' v v' Hp Hp' Hni Ev Ev'. rewrite Epart in Hp. apply in_map_iff in Hp as (c & <- & Hc).
           destruct (B1 c Hc) as [_ (_ & Epc & Edc)]. rewrite <- Epc in Ev. rewrite Edc in Ev. injection Ev as <-.
           apply (B4 p' v' c); auto. rewrite <- Epart. exact Hni.
      * right. split; [lia|]. intros p. split; [apply Hincl|]. intros Hp. apply (Permutation_in _ PP) in Hp.
        rewrite (Hpos Hk) in Hp. simpl in Hp. rewrite app_nil_r in Hp. apply in_or_app. apply in_app_or in Hp as [Hp|Hp]; auto.
        left. destruct B3 as [B3|[_ B3]]; [lia|]. rewrite Epart. apply B3, Hp.
Qed.
End L.

Lemma k_best_main g G h K : gt_data g = d -> gt_groups g = Some G -> gg_warp G = Some (warp_of k) -> gg_threshold G <> None ->
  levels_q d rows (gg_levels G) gss ->
  generateTraverseOrder ratio (ts_length query) (ds_maxcol d) = Ret order ->
  1 <= K <= h ->
  exists g' C real, getKBestMatches H ratio g query K h = Ret (g', real ++ repeat cand_default (Z.to_nat K - length C)) /\
    considered_gis h C /\ incl C (flat_map gpl (all order)) /\
    best_matches rows k ratio q (fun p => In p C) K real /\ ascending real /\
    Z.of_nat (length real) = Z.min K (Z.of_nat (length C)).
Proof.
  intros Ed Eg Ew Eth HL Eo HK.
  unfold getKBestMatches. rewrite Eg, Ed. destruct (Z.ltb_spec h K); [lia|]. unfold gg_getKBestMatches.
  assert (Et : gg_totalLength G = ds_maxcol d) by (unfold gg_totalLength; destruct HL; lia).
  rewrite Et, Eo. cbn [bind]. rewrite Ew.
  destruct (levels_ok H Hok d rows Hd k ratio query order Hrange HsC HsM h ltac:(lia) gss order [] (gg_levels G) [] h)
    as (levels' & best & k' & E & HL' & HI & HG); auto; [apply incl_refl|apply kinv_start; lia|].
  rewrite E. cbn [bind]. simpl app in HI, HG.
  destruct (members_ok levels' HL' (gg_threshold G) h best k' ltac:(lia) Eth HG HI) as (cs & C & E1 & F & Hi & HC).
  rewrite E1. cbn [bind].
  assert (Hsub : forall p, In p C -> inP p).
  { intros p Hp. apply Hi in Hp. apply in_flat_map in Hp as (gi & Hgi & Hp).
    destruct (gplaces_sub d rows k ratio query order Hrange gss levels' HL' gi p Hgi Hp) as [S1 S2]. split; auto. split; auto.
    unfold gplaces in Hp. destruct (gss (gi_length gi)) as [gs|] eqn:Egs; [|destruct Hp].
    destruct (nth_error gs (Z.to_nat (gi_index gi))); [|destruct Hp]. apply in_map_iff in Hp as (m & <- & _). cbn [fst]. congruence. }
  rewrite (recompute_ok d rows k ratio query order HsC HsM).
  2:{ intros c Hc. apply (in_map c_data) in Hc. destruct (In_nth_error _ _ Hc) as [n En].
      destruct (Forall2_nth_ex_r _ _ _ _ _ F En) as ([l m] & Ep & Hp). apply nth_error_In in Ep.
      destruct (Hsub _ Ep) as [[S1 _] S2]. exists l, m. auto. }
  cbn [bind]. rewrite <- map_map with (f := c_data) (g := cand_of dist).
  set (ts := map c_data cs) in *.
  assert (Hsrch : searchable rows k ratio q (fun p => In p C)) by (intros p Hp; apply Hsearch, Hsub, Hp).
  assert (Hties' : no_near_ties rows k ratio q (fun p => In p C)) by (intros p p' v v' Hp Hp'; apply Hties; apply Hsub; auto).
  assert (HP1 : forall p, In p C -> 1 <= fst p /\ is_sub rows (fst p) (snd p)).
  { intros p Hp. destruct (Hsub p Hp) as [[S1 _] S2]. split; auto. pose proof (Hrange _ S1). lia. }
  destruct HC as [HnC HC].
  destruct (all_places_facts d rows k ratio query Hq (fun p => In p C) HP1 Hsrch C ts (fun p Hp => Hp) F Hties') as (Hsep & Epl & Hat).
  assert (Hsep' : separated (map c_dist (map (cand_of dist) ts))) by (rewrite map_map; exact Hsep).
  destruct (sort_ok H Hok cand_lt (map (cand_of dist) ts) (cand_swo _ Hsep')) as (l & Es & Pl & Hl).
  rewrite Es. cbn [bind]. unfold resize. destruct (Z.ltb_spec K 0); [lia|]. cbn [bind].
  assert (Hasc : ascending l).
  { intros i j x y Hij Ex Ey. apply (cand_lt_dist l).
    + eapply separated_incl; [|exact Hsep']. intros z Hz. apply (Permutation_in _ (Permutation_sym (Permutation_map c_dist Pl))), Hz.
    + eapply nth_error_In; eauto.
    + eapply nth_error_In; eauto.
    + apply (Hl i j x y Hij Ex Ey). }
  assert (Hlen : length l = length C).
  { rewrite <- (Permutation_length Pl), map_length. symmetry. eapply Forall2_length; eauto. }
  rewrite Hlen. eexists _, C, (firstn (Z.to_nat K) l). split; [reflexivity|]. 
  assert (HlenK : Z.of_nat (length (firstn (Z.to_nat K) l)) = Z.min K (Z.of_nat (length C))).
  { rewrite firstn_length, Hlen. lia. }
  assert (Hkn : k_nearest K (map (cand_of dist) ts) (firstn (Z.to_nat K) l)).
  { exists (skipn (Z.to_nat K) l). splits.
    - rewrite firstn_skipn. exact Pl.
    - rewrite HlenK, (Permutation_length Pl), Hlen. reflexivity.
    - intros x y Hx Hy. apply In_nth_error in Hx as [i Ex]. apply In_nth_error in Hy as [j Ey].
      assert (Hi' : (i < Z.to_nat K)%nat) by (apply nth_error_Some_lt in Ex; rewrite firstn_length in Ex; lia).
      rewrite nth_error_firstn_all in Ex; destruct (Nat.ltb_spec i (Z.to_nat K)); [|lia].
      apply (Hasc i (Z.to_nat K + j)%nat x y); [lia|auto|]. rewrite <- Ey. symmetry. apply DtwExt.nth_error_skipn. }
  splits; auto.
  - split; auto.
  - eapply (nearest_best d rows k ratio query Hq (fun p => In p C) HP1 Hsrch C ts K); eauto; [lia|reflexivity].
  - intros i j x y Hij Ex Ey.
    assert (Hj : (j < Z.to_nat K)%nat) by (apply nth_error_Some_lt in Ey; rewrite firstn_length in Ey; lia).
    rewrite nth_error_firstn_all in Ex, Ey. destruct (Nat.ltb_spec i (Z.to_nat K)); [|lia]. destruct (Nat.ltb_spec j (Z.to_nat K)); [|lia].
    apply (Hasc i j x y); auto.
Qed.
End KBest.
