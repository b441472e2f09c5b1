(** Property C56: queries on a data set that was normalised after it was grouped.
    Specification: NormSpec.v, ApiSpec.v, QuerySpec.v, GroupSpec.v. *)
From Coq Require Import String Reals Lra SpecFloat.
From Flocq Require Import Core IEEE754.BinarySingleNaN.
From Verif Require Import Base Num NumXR NumXRLaws NumB64 NumB64Laws NumLaws NumFacts LoopFacts TimeSeries Distance Pairwise DistSpec DistLink DtwBounds TSSet StdAlg HeapFacts Candidate Group GroupSpace Loader Archive
  BruteForce PAA DataSpec DataProofs GroupSpec GroupView Members GroupProofs GroupAll GroupDist SearchSpec Traverse QueryState QuerySpec QueryProofs PropsDistance PropsData
  PropsGroup PropsSearch PropsQuery PropsKSim Api ApiSpec ApiProofs ApiQuery PropsLoader PropsApi PropsApiQuery NormSpec.
Local Open Scope Z_scope.
Local Open Scope list_scope.

Section Move.
Context {N : Num} {LW : NumLaws N}.
Notation D := (D N).

(** subsequences depend on the shape only *)
Lemma is_sub_map (rows : list (list D)) (f : D -> D) : forall l c, is_sub (map (map f) rows) l c <-> is_sub rows l c.
Proof.
  intros l c. unfold is_sub, row_of. destruct (fst c <? 0); [split; intros (row & Er & _); discriminate Er|].
  rewrite nth_error_map. split.
  - intros (row & Er & H1). destruct (nth_error rows (Z.to_nat (fst c))) as [r|]; [|discriminate Er].
    cbn in Er. injection Er as <-. rewrite map_length in H1. exists r. auto.
  - intros (row & Er & H1). rewrite Er. exists (map f row). rewrite map_length. auto.
Qed.

(** groups just made have no cached envelopes; they serve other values of the same shape *)
Lemma fresh_moved (d d' : dataset N) (rows : list (list D)) (f : D -> D) old clock (ratio : D) k (thr : D) threads whole g total :
  holds d rows -> nltb (ndiv thr (nofZ 2)) ninf = true -> 1 <= ds_maxcol d -> 1 <= threads -> log_safe d clock ->
  ds_count d' = ds_count d -> ds_maxcol d' = ds_maxcol d ->
  groupAllLengths clock ratio (mkGS d old) (kind_name k) thr threads whole = (g, Ret total) ->
  ready (RP := founder) d' (map (map f) rows) k whole (mkGS d' (gt_groups g)).
Proof.
  intros Hd Hthr Hm Ht Hlog Ec Em E.
  pose proof (is_sub_map rows f) as Hsub.
  destruct (grouped_state d rows Hd old clock ratio k thr threads whole g total Hthr Hm Ht Hlog E) as (gss & H1 & H2 & _ & H3).
  destruct (grouping_main d rows old clock ratio (kind_name k) (metric_of k) (warp_of k) thr threads whole
    (fun l => sub_dist rows k l) Hd (kind_pw k) (warp_of_name k) Hthr Hm Ht Hlog) as (levels & tot & E' & Hlen & _ & Hnone & Hsome).
  rewrite E in E'. injection E' as Eg _. subst g. cbn [gt_groups].
  assert (NC : forall l L, 0 <= l <= ds_maxcol d -> nth_error levels (Z.to_nat l) = Some (Some L) -> Forall (fun x => g_cache x = None) (ll_groups L)).
  { intros l L Hl EL.
    assert (Dec : grouped_length d whole l \/ ~ grouped_length d whole l) by (unfold grouped_length; destruct whole; lia).
    destruct Dec as [Hg|Hg]; [|rewrite (Hnone l ltac:(lia) Hg ltac:(lia)) in EL; discriminate].
    destruct (Hsome l Hg) as (L' & gs & EL' & [HS _]). assert (L' = L) by congruence. subst L'.
    pose proof (so_cent _ _ _ _ _ HS) as HF. clear - HF. induction HF as [|x ms xs mss (_ & _ & Hx) HF IH]; constructor; auto. }
  split; [reflexivity|]. exists gss. split; [|split].
  - destruct H1 as (_ & gs & Egs & Ew & Et & Hl1 & Hl2). injection Egs as <-. cbn [gg_warp gg_threshold gg_levels] in *.
    split; [reflexivity|]. eexists. split; [reflexivity|]. cbn [gg_warp gg_threshold gg_levels]. split; [exact Ew|]. split; [exact Et|].
    split; [rewrite Em; exact Hl1|]. intros l Hl. rewrite Em in Hl. specialize (Hl2 l Hl). destruct (gss l) as [gs|]; [|exact Hl2].
    destruct Hl2 as (Hl3 & L & EL & [A1 A2 A3 A4 A5]). split; [exact Hl3|]. exists L. split; [exact EL|]. constructor; auto.
    + rewrite Em. exact A2.
    + rewrite Ec. exact A3.
    + specialize (NC l L Hl EL). clear - A4 NC. induction A4 as [|x ms xs mss (B1 & B2 & _) A4 IH]; constructor; inversion NC; subst.
      * split; [exact B1|]. split; [exact B2|]. intros t _. match goal with H : g_cache x = None |- _ => rewrite H end. exact I.
      * apply IH. assumption.
    + apply Forall_forall. intros c Hc. apply Hsub. rewrite Forall_forall in A5. apply A5. exact Hc.
  - intros l Hl. rewrite Em in Hl. rewrite (H2 l Hl). unfold grouped_length. rewrite Em. reflexivity.
  - intros l gs c Hl Egs Hc. rewrite Em in Hl. apply Hsub in Hc. exact (H3 l gs c Hl Egs Hc).
Qed.
End Move.

Lemma und_keeps (t : string) (s s' : api B64) : good s -> undisturbed t s s' -> good s' /\ held s' t = held s t.
Proof.
  intros G. induction 1 as [|s1 e c s2 r _ [G1 IH] Hc E Hr]; [auto|].
  destruct (exec_good e c s1 s2 r G1 E Hr) as [G2 Ho]. split; [exact G2|]. rewrite (Ho t Hc). exact IH.
Qed.

(** normalising keeps the groups: representatives, counts and members *)
Theorem C56_groups_kept : forall (N : Num) (r0 : D N) h (s : api N) e t s' a g, run r0 h s -> held s t = Some g ->
  exec e (CNormalize t) s = (s', Ret a) ->
  exists g', held s' t = Some g' /\ (forall l, level_view g' l = level_view g l) /\ isGrouped g' = isGrouped g /\
    getTotalNumberOfGroups g' = getTotalNumberOfGroups g.
Proof.
  intros N r0 h s e t s' a g Hrun Hh E. pose proof (run_good r0 h s Hrun) as G. cbn [exec] in E.
  destruct (on_set_spec s t _ s' _ G E) as [(Hn & _)|(g0 & g' & Hg0 & Ef & _ & Hg' & _)]; [congruence|].
  assert (g0 = g) by congruence. subst g0. exists g'. split; [exact Hg'|].
  destruct (normalize (gt_data g)) as [[d [x y]]| | |]; cbn in Ef; try discriminate Ef.
  injection Ef as <- _. repeat split; reflexivity.
Qed.
Print Assumptions C56_groups_kept.

Lemma moderate_diff (u v : D B64) : moderate u -> moderate v -> @nfin B64 (nsub (n := B64) u v).
Proof. intros Hu Hv. destruct (sub_bound u v Hu Hv) as (x & Ex & _). apply bfin_iff. exact (proj1 (val_Fin _ _ Ex)). Qed.

Lemma unit_moderate (v : D B64) : @nle B64 n0 v -> @nle B64 v (nofZ (n := B64) 1) -> moderate_value v.
Proof.
  intros H0 H1. unfold moderate_value. apply nleP_val in H0. apply nleP_val in H1. apply nleP_val.
  change (val (nabs (n := B64) v)) with (val (Babs v)). rewrite val_abs. change (nofZ (n := B64) (2 ^ 490)) with b64_big. rewrite val_big.
  rewrite val_0 in H0. change (val (nofZ (n := B64) 1)) with (val (b64_ofZ 1)) in H1. rewrite val_ofZ in H1. unfold xofZ in H1.
  rewrite (R64_fmt 1) in H1 by (apply (fmt64_Z 1); cbn; lia).
  destruct (val v) as [x| | |]; cbn in H0, H1 |- *; try tauto. rewrite Rabs_pos_eq by lra.
  lra.
Qed.

Lemma since_normal H (s : api B64) t k whole d rows : normalised_since H s t k whole d rows ->
  exists rows' d' g, normal_form rows rows' /\ good s /\ held s t = Some g /\ gt_data g = d' /\ holds d' rows' /\ moderate_data rows' /\
    ds_maxcol d' = ds_maxcol d /\ ready (N := B64) (RP := founder) d' rows' k whole g.
Proof.
  intros (r0 & h & s0 & e & thr & threads & s1 & n & g0 & s2 & e' & s3 & a & Hrun & Hh & <- & Hd & Hm & Hne & Hmax & Hthr & Hlog & E & Hu & En & Hl).
  pose proof (run_good r0 h s0 Hrun) as G0.
  destruct (group_spec e s0 t thr (kind_name k) threads whole s1 _ g0 G0 Hh E) as (G1 & _ & g1 & Eg & Hh1 & Hn & _).
  destruct (Hn n eq_refl) as [tot ->].
  destruct (und_keeps t s1 s2 G1 Hu) as [G2 Hh2]. rewrite Hh1 in Hh2.
  assert (Ht : 1 <= threads).
  { revert Eg. unfold groupAllLengths. destruct (negb _); [discriminate|]. destruct (Z.leb_spec 1 threads); [auto|discriminate]. }
  assert (Mod : forall v, In v (concat rows) -> moderate v).
  { intros v Hv. apply in_concat in Hv as (row & Hrow & Hv). destruct (Hm row Hrow) as [HF _]. rewrite Forall_forall in HF. exact (HF v Hv). }
  assert (Fin' : Forall (@nfin B64) (concat rows)) by (apply Forall_forall; intros v Hv; apply DtwBounds.moderate_fin, Mod, Hv).
  destruct (C28_normalise (gt_data g0) rows Hd Hne Fin') as (d' & f & mn & mx & Enorm & Imn & Imx & Hall & Hh' & Ec & Em & _ & _ & _ & _ & Hr & Hmono & Hmin & Hmaxv & _).
  { intros u v Hu' Hv'. apply moderate_diff; auto. }
  pose proof (gg_group_data (N := B64) _ _ _ _ _ _ _ _ _ Eg) as Edata.
  cbn [exec] in En.
  destruct (on_set_spec s2 t _ s3 _ G2 En) as [(Hno & _)|(g2 & g3 & Hg2 & Ef & G3 & Hg3 & _)]; [congruence|].
  assert (g2 = g1) by congruence. subst g2. rewrite Edata, Enorm in Ef. cbn in Ef. injection Ef as <- _.
  destruct (later_asked H t s3 s _ G3 Hg3 Hl) as (G & g & Hg & Ha).
  destruct g0 as [d old]. cbn [gt_data] in *.
  assert (R : ready (N := B64) (RP := founder) d' (map (map f) rows) k whole g).
  { eapply (ready_asked (N := B64)); [|exact Ha]. eapply (fresh_moved (N := B64)) with (d := d); eauto; lia. }
  exists (map (map f) rows), d', g. split; [|split; [exact G|split; [exact Hg|split; [|split; [exact Hh'|split; [|split; [exact Em|exact R]]]]]]].
  - exists f, mn, mx. split; [reflexivity|]. split; [exact Imn|]. split; [exact Imx|]. split; [exact Hall|]. split; [exact Hr|]. split; [exact Hmono|].
    split; [apply Hmin; [exact Imn|split; apply Hall; exact Imn]|]. intros Hlt. apply Hmaxv; [exact Hlt|exact Imx|split; apply Hall; exact Imx].
  - destruct R as (_ & gss & (Ed & _) & _). exact Ed.
  - intros row Hrow. apply in_map_iff in Hrow as (row0 & <- & Hrow0). destruct (Hm row0 Hrow0) as [_ Hlen]. rewrite map_length. split; [|exact Hlen].
    apply Forall_forall. intros w Hw. apply in_map_iff in Hw as (v & <- & Hv).
    destruct (Hr v) as [A B]; [apply in_concat; eauto|]. apply unit_moderate; auto.
Qed.

(** If no call worked on the data set between grouping and normalising, a best-match query
    answers with the nearest member of the nearest group, by the normalised values. *)
Theorem C56_best_match_partial : forall (H : std_alg) (s : api B64) t k whole d rows, normalised_since H s t k whole d rows ->
  exists rows' d' g, normal_form rows rows' /\ held s t = Some g /\ gt_data g = d' /\ holds d' rows' /\
  forall qn i st en xs, asks_for s qn i st en xs -> moderate_ratio (a_ratio s) -> en - st <= ds_maxcol d' ->
  (exists p, searched_place (N := B64) d' rows' whole (a_ratio s) (en - st) p) ->
  forall e, exists s' c, exec e (CBest t qn i st en) s = (s', Ret (ACand c)) /\
    best_of_closest (N := B64) rows' k (a_ratio s) xs (searched (N := B64) d' whole (a_ratio s) (en - st)) g c.
Proof.
  intros H s t k whole d rows HN. destruct (since_normal H s t k whole d rows HN) as (rows' & d' & g & Hnf & G & Hh & Ed & Hd & Hm & Em & HR).
  exists rows', d', g. split; [exact Hnf|]. split; [exact Hh|]. split; [exact Ed|]. split; [exact Hd|].
  intros qn i st en xs Hq Hr Hlen Hex e.
  assert (Hmax : ds_maxcol d' <= 2 ^ 26).
  { destruct HN as (_ & _ & _ & _ & _ & _ & _ & _ & _ & _ & _ & _ & _ & _ & _ & _ & _ & _ & _ & Hmax & _). lia. }
  destruct (asks_series s qn i st en xs G Hq) as (q & (gq & Hgq & Eq) & Hmq & Ep & Elen).
  rewrite <- Elen in Hex, Hlen |- *.
  destruct (ready_best_ieee (RP := founder) k d' rows' whole g q (a_ratio s) Hd Hm Hmax HR Hmq Hlen Hr Hex) as (g' & c & Eb & Hb).
  rewrite Ep in Hb. destruct (exec e (CBest t qn i st en) s) as [s' r] eqn:E. cbn [exec] in E.
  rewrite (query_series_ok s t qn i st en g gq G Hh Hgq), Eq in E.
  destruct (search_spec s t q (fun g t0 => '(g', c) <- getBestMatch (a_ratio s) g t0 ;; Ret (g', ACand c)) s' r g G Hh E) as (_ & _ & _ & Hf).
  rewrite Eb in Hf. cbn in Hf. destruct Hf as [-> _]. exists s', c. split; [reflexivity|exact Hb].
Qed.
Print Assumptions C56_best_match_partial.

(** Likewise a query for several matches: the best, by the normalised values, of the
    subsequences it looks at. *)
Theorem C56_k_best_partial : forall (H : std_alg) (s : api B64) t k whole d rows, std_ok H -> normalised_since H s t k whole d rows ->
  exists rows' d' g, normal_form rows rows' /\ held s t = Some g /\ gt_data g = d' /\ holds d' rows' /\
  forall qn i st en xs, asks_for s qn i st en xs -> moderate_ratio (a_ratio s) -> en - st <= ds_maxcol d' ->
  let S := searched (N := B64) d' whole (a_ratio s) (en - st) in
  let P := searched_place (N := B64) d' rows' whole (a_ratio s) (en - st) in
  no_near_ties (N := B64) rows' k (a_ratio s) xs P ->
  forall e K ke, e_alg e = H -> 1 <= K <= ke ->
  exists s' C real, exec e (CKBest K ke t qn i st en) s = (s', Ret (ACands (real ++ repeat cand_default (Z.to_nat K - length C)))) /\
    considered (N := B64) rows' k (a_ratio s) xs S P g ke C /\
    best_matches (N := B64) rows' k (a_ratio s) xs (fun p => In p C) K real /\ ascending real /\
    Z.of_nat (length real) = Z.min K (Z.of_nat (length C)).
Proof.
  intros H s t k whole d rows Hok HN. destruct (since_normal H s t k whole d rows HN) as (rows' & d' & g & Hnf & G & Hh & Ed & Hd & Hm & Em & HR).
  exists rows', d', g. split; [exact Hnf|]. split; [exact Hh|]. split; [exact Ed|]. split; [exact Hd|].
  intros qn i st en xs Hq Hr Hlen S P Hties e K ke EH HK.
  assert (Hmax : ds_maxcol d' <= 2 ^ 26).
  { destruct HN as (_ & _ & _ & _ & _ & _ & _ & _ & _ & _ & _ & _ & _ & _ & _ & _ & _ & _ & _ & Hmax & _). lia. }
  destruct (asks_series s qn i st en xs G Hq) as (q & (gq & Hgq & Eq) & Hmq & Ep & Elen).
  subst S P. rewrite <- Elen, <- Ep in Hties. rewrite <- Elen in Hlen.
  destruct (ready_k_ieee (RP := founder) H k d' rows' whole g q (a_ratio s) K ke Hok Hd Hm Hmax HR Hmq Hlen Hr HK Hties)
    as (g' & C & real & Eb & Hc & Hbm & Ha & Hl).
  rewrite Elen, Ep in *.
  destruct (exec e (CKBest K ke t qn i st en) s) as [s' r] eqn:E. cbn [exec] in E.
  rewrite (query_series_ok s t qn i st en g gq G Hh Hgq), Eq in E.
  destruct (search_spec s t q (fun g t0 => '(g', cs) <- getKBestMatches (e_alg e) (a_ratio s) g t0 K ke ;; Ret (g', ACands cs)) s' r g G Hh E) as (_ & _ & _ & Hf).
  rewrite EH, Eb in Hf. cbn in Hf. destruct Hf as [-> _]. exists s', C, real. auto 8.
Qed.
Print Assumptions C56_k_best_partial.

(** ** the threshold after normalising, in exact arithmetic *)
Section Scale.
Local Open Scope R_scope.

Lemma pair_sum_scale (f : R -> R -> R) (h : R -> R) (a : R) : (forall x y, f (h x) (h y) = a * f x y) ->
  forall xs ys, pair_sum f (map h xs) (map h ys) = a * pair_sum f xs ys.
Proof.
  intros H. unfold pair_sum. induction xs as [|x xs IH]; intros [|y ys]; cbn; try lra. rewrite IH, H. lra.
Qed.

Lemma pair_max_scale (f : R -> R -> R) (h : R -> R) (a : R) : 0 <= a -> (forall x y, f (h x) (h y) = a * f x y) ->
  forall xs ys, pair_max f (map h xs) (map h ys) = a * pair_max f xs ys.
Proof.
  intros Ha H. unfold pair_max. induction xs as [|x xs IH]; intros [|y ys]; cbn; try lra. rewrite IH, H, RmaxRmult; auto.
Qed.

Lemma real_pair_scale k (mn w : R) xs ys : 0 < w ->
  real_pair k (map (fun v => (v - mn) / w) xs) (map (fun v => (v - mn) / w) ys) = real_pair k xs ys / w.
Proof.
  intros Hw. assert (Hi : 0 < / w) by (apply Rinv_0_lt_compat; exact Hw).
  assert (Hd : forall x y, (x - mn) / w - (y - mn) / w = / w * (x - y)) by (intros; field; lra).
  assert (Habs : forall x y, Rabs ((x - mn) / w - (y - mn) / w) = / w * Rabs (x - y)).
  { intros x y. rewrite Hd, Rabs_mult, (Rabs_pos_eq (/ w)) by lra. reflexivity. }
  destruct k; cbn [real_pair].
  - unfold rms_distance. rewrite map_length.
    rewrite (pair_sum_scale _ _ (/ w * / w)) by (intros x y; rewrite Hd; ring).
    unfold Rdiv. rewrite (Rmult_assoc (/ w * / w)). rewrite sqrt_mult_alt by nra. rewrite sqrt_square by lra. ring.
  - unfold mean_abs_distance. rewrite map_length.
    rewrite (pair_sum_scale _ _ (/ w)) by exact Habs. unfold Rdiv. ring.
  - unfold max_abs_distance. rewrite (pair_max_scale _ _ (/ w)) by (exact Habs || lra). unfold Rdiv. ring.
Qed.

Lemma real_sub_map (rows : list (list R)) (f : R -> R) l c : real_sub (map (map f) rows) l c = map f (real_sub rows l c).
Proof.
  unfold real_sub. rewrite nth_error_map. destruct (nth_error rows (Z.to_nat (fst c))) as [row|]; [|reflexivity].
  cbn. rewrite skipn_map, firstn_map. reflexivity.
Qed.
End Scale.

(** After normalising, the members of a group are within half of the threshold divided by
    the difference of the largest and the smallest value from its representative, and within
    this part of the threshold from each other. *)
Theorem C56_radius_exact : forall (k : kind) (d : dataset XR) (rows : list (list R))
    old clock (ratio : D XR) (t : R) threads whole,
  holds d (map (map Fin) rows) -> (0 <= t)%R -> concat rows <> [] ->
  1 <= ds_maxcol d -> 1 <= threads -> log_safe d clock ->
  exists g total d' mn mx,
    groupAllLengths clock ratio (mkGS d old) (kind_name k) (Fin t : D XR) threads whole = (g, Ret total) /\
    normalize (N := XR) d = Ret (d', (Fin mn, Fin mx)) /\ In mn (concat rows) /\ In mx (concat rows) /\
    (forall v, In v (concat rows) -> (mn <= v <= mx)%R) /\
    ((mn < mx)%R ->
     let rows' := map (map (fun v => (v - mn) / (mx - mn))%R) rows in
     holds d' (map (map Fin) rows') /\
     forall l, grouped_length d' whole l ->
     exists vs, level_view (mkGS d' (gt_groups g)) l = Some (Ret vs) /\ partitions (N := XR) (map (map Fin) rows') l vs /\
       forall v c c', In v vs -> In c (v_members v) -> In c' (v_members v) ->
         (real_pair k (real_sub rows' l (v_rep v)) (real_sub rows' l c) <= t / 2 / (mx - mn))%R /\
         (real_pair k (real_sub rows' l c) (real_sub rows' l c') <= t / (mx - mn))%R).
Proof.
  intros k d rows old clock ratio t threads whole Hd Ht Hne Hm Hth Hlog.
  destruct (C17_group_diameter k d rows old clock ratio t threads whole Hd Ht Hm Hth Hlog) as (g & total & E & HG).
  assert (Ec : concat (map (map (Fin : R -> D XR)) rows) = map Fin (concat rows)) by (symmetry; apply concat_map).
  destruct (normalize_ok (N := XR) d (map (map Fin) rows) Hd) as (buf & buf' & mn' & mx' & Ed & En & Imn & Imx & Hall & Hh & _).
  { apply (eq_ind_r (fun l : list (D XR) => l <> [])) with (2 := Ec). destruct (concat rows); [contradiction|discriminate]. }
  { apply (eq_ind_r (fun l : list (D XR) => Forall (@nfin XR) l)) with (2 := Ec). apply Forall_forall. intros x Hx.
    apply in_map_iff in Hx as (y & <- & _). split; reflexivity. }
  apply (eq_ind _ (fun l : list (D XR) => In mn' l)) with (2 := Ec) in Imn. apply (eq_ind _ (fun l : list (D XR) => In mx' l)) with (2 := Ec) in Imx.
  apply (eq_ind _ (fun l : list (D XR) => Forall (fun v => nle (N := XR) mn' v /\ nle (N := XR) v mx') l)) with (2 := Ec) in Hall. apply in_map_iff in Imn as (mn & <- & Imn). apply in_map_iff in Imx as (mx & <- & Imx).
  eexists g, total, _, mn, mx. split; [exact E|]. split; [exact En|]. split; [exact Imn|]. split; [exact Imx|]. split.
  { intros v Hv. rewrite Forall_forall in Hall. destruct (Hall (Fin v)) as [A B]; [apply in_map; exact Hv|].
    apply XR_nle in A. apply XR_nle in B. exact (conj A B). }
  intros Hlt rows'.
  assert (Er : map (map (norm_val (N := XR) (Fin mn) (Fin mx))) (map (map Fin) rows) = map (map Fin) rows').
  { unfold rows'. rewrite !map_map. apply map_ext. intros row. rewrite !map_map. apply map_ext. intros v.
    unfold norm_val. cbn. rewrite !Req_bool_false by lra. reflexivity. }
  rewrite Er in Hh. split; [exact Hh|]. intros l Hl.
  destruct (HG l Hl) as (vs & Ev & Hp & Hc). exists vs. split; [exact Ev|]. split.
  - destruct Hp as (P1 & P2 & P3). split; [exact P1|]. split; [|exact P3]. intros c. rewrite (P2 c), <- Er.
    symmetry. apply (is_sub_map (N := XR)).
  - intros v c c' Hv Hcv Hcv'. unfold rows'. rewrite !real_sub_map, !real_pair_scale by lra.
    destruct (Hc v c c' Hv Hcv Hcv') as [A B]. assert (0 < / (mx - mn))%R by (apply Rinv_0_lt_compat; lra).
    unfold Rdiv. split; apply Rmult_le_compat_r; lra.
Qed.

(** ** refutations *)

(** what is seen of a data set: its values, lengths, and the groups of length [l] *)
Definition sf (x : D B64) : spec_float := @B2SF _ _ (x : b64).
Definition set_seen (l : Z) (g : gset B64) :=
  (option_map (map sf) (ds_data (gt_data g)), ds_lengths (gt_data g), ds_count (gt_data g), ds_maxcol (gt_data g), PropsGroup.show (level_view g l)).

Lemma sf_inj (xs ys : list (D B64)) : map sf xs = map sf ys -> xs = ys.
Proof.
  revert ys. induction xs as [|x xs IH]; intros [|y ys] E; try discriminate; [reflexivity|]. cbn [map] in E. injection E as E1 E2.
  f_equal; [|apply IH; exact E2]. apply B2SF_inj. exact E1.
Qed.

Lemma some_inj {A} (x y : A) : Some x = Some y -> x = y.
Proof. intros E. injection E as E. exact E. Qed.

Lemma set_seen_inv l g buf lens n m vs : set_seen l g = (Some (map sf buf), lens, n, m, Some vs) ->
  ds_data (gt_data g) = Some buf /\ ds_lengths (gt_data g) = lens /\ ds_count (gt_data g) = n /\ ds_maxcol (gt_data g) = m /\
  exists views, level_view g l = Some (Ret views) /\ map PropsGroup.show_view views = vs.
Proof.
  unfold set_seen. intros E. injection E as E1 E2 E3 E4 E5. destruct (ds_data (gt_data g)) as [b|]; [|discriminate E1].
  cbn [option_map] in E1. injection E1 as E1. apply sf_inj in E1. subst b.
  split; [reflexivity|]. split; [exact E2|]. split; [exact E3|]. split; [exact E4|].
  unfold PropsGroup.show in E5. destruct (level_view g l) as [[views| | |]|]; try discriminate E5. exists views. split; [reflexivity|]. injection E5 as E5. exact E5.
Qed.

(** two series 10 0 10 and 10 10 10, grouped as whole series; each is a group of its own *)
Definition st_file : string := ("10,0,10" ++ nl1 ++ "10,10,10")%string.
Definition st_env : env B64 :=
  mkEnv (N := B64) stodZ putZ putZ (fun _ => None) (fun p => if String.eqb p "f" then Some (mkFile st_file None) else None) (fun _ => true) (fun _ => None) (fun _ => false) simple_alg.
Definition st_load : call B64 := CLoad "x" "f" "," 0 0 false.
Definition st_group : call B64 := CGroup (N := B64) "x" (b64_ofZ 1) "euclidean" 1 true.
Definition st_query : call B64 := CBest "x" "x" 1 (-1) (-1).
Fixpoint st_after (e : env B64) (l : list (call B64)) (s : api B64) : api B64 :=
  match l with [] => s | c :: l' => st_after e l' (fst (exec e c s)) end.
Fixpoint st_fine (e : env B64) (l : list (call B64)) (s : api B64) : bool :=
  match l with [] => true | c :: l' => is_ret (snd (exec e c s)) && st_fine e l' (fst (exec e c s)) end.

Lemma st_run e (l : list (call B64)) : forall h s, run (N := B64) (b64_ofZ 1) h s -> st_fine e l s = true ->
  exists h', run (N := B64) (b64_ofZ 1) (h ++ h') (st_after e l s) /\ map fst h' = l.
Proof.
  induction l as [|c l IH]; intros h s Hrun Hf; [exists []; rewrite app_nil_r; auto|].
  cbn [st_fine] in Hf. apply andb_prop in Hf as [H1 H2]. destruct (run_ret _ _ _ e c Hrun H1) as [a Ha].
  destruct (IH _ _ Ha H2) as (h' & Hr & Em). exists ((c, Ret a) :: h'). rewrite <- app_assoc in Hr. split; [exact Hr|]. cbn. rewrite Em. reflexivity.
Qed.

Definition best_seen (r : res (answer B64)) : option (Z * coord * spec_float) :=
  match r with Ret (ACand c) => Some (fst (place_of c), snd (place_of c), sf (c_dist c)) | _ => None end.

Definition st_rows : list (list (D B64)) := [map b64_ofZ [1; 0; 1]; map b64_ofZ [1; 1; 1]].

(** C56 is false.  A query before normalising leaves envelopes of the old values in the
    groups; afterwards the nearest group may be missed: here series 1 is asked for and forms a
    group of its own, at distance 0, and the answer is series 0 at a distance above 0. *)
Theorem C56_stale_query_refuted : exists h s g c, run (N := B64) (b64_ofZ 1) h s /\
  map fst h = [st_load; st_group; st_query; CNormalize "x"] /\
  held s "x" = Some g /\ holds (gt_data g) st_rows /\
  snd (exec st_env st_query s) = Ret (ACand c) /\ place_of c = (3, (0, 0)) /\ @nlt B64 n0 (c_dist c) /\
  exists v x, group_in g 3 v /\ v_rep v = (1, 0) /\ v_members v = [(1, 0)] /\
    group_dist (N := B64) st_rows KEuclidean (a_ratio s) (map b64_ofZ [1; 1; 1]) 3 v x /\ x = n0.
Proof.
  set (l := [st_load; st_group; st_query; CNormalize "x"]).
  destruct (st_run st_env l [] ex_start (@run_start B64 (b64_ofZ 1))) as (h & Hrun & Hh); [vm_compute; reflexivity|].
  set (s := st_after st_env l ex_start) in *. 
  assert (E1 : option_map (set_seen 3) (held s "x") = Some (Some (map sf (map b64_ofZ [1; 0; 1; 1; 1; 1])), [3; 3], 2, 3, Some [((0, 0), 1, [(0, 0)]); ((1, 0), 1, [(1, 0)])]))
    by (vm_compute; reflexivity).
  assert (E2 : best_seen (snd (exec st_env st_query s)) = Some (3, (0, 0), S754_finite false 6004799503160661 (-55))) by (vm_compute; reflexivity).
  assert (E3 : sf (a_ratio s) = sf (b64_ofZ 1)) by (vm_compute; reflexivity).
  destruct (held s "x") as [g|] eqn:Eh; [|discriminate E1]. cbn [option_map] in E1. apply some_inj in E1.
  apply set_seen_inv in E1 as (D1 & D2 & D3 & D4 & views & D5 & D6).
  unfold best_seen in E2. destruct (snd (exec st_env st_query s)) as [[| | | | | | | |c| | | | |]| | |] eqn:Eq; try discriminate E2.
  apply some_inj in E2. injection E2 as Ea Eb Eb' Ec.
  exists h, s, g, c. split; [exact Hrun|]. split; [exact Hh|]. split; [exact Eh|]. split; [|split; [exact Eq|split; [|split]]].
  - exists (map b64_ofZ [1; 0; 1; 1; 1; 1]). split; [exact D1|]. rewrite D3, D4. split; [reflexivity|]. split; [lia|]. split; [split; vm_compute; discriminate|].
    intros i row Er. rewrite D2.
    destruct i as [|[|i]]; [| |destruct i; discriminate Er]; injection Er as <-; (split; [reflexivity|]); (split; [vm_compute; discriminate|]);
      intros j v Ej; repeat (destruct j as [|j]; [injection Ej as <-; reflexivity|]); destruct j; discriminate Ej.
  - unfold place_of. rewrite Ea, Eb, Eb'. reflexivity.
  - change (SFltb (sf n0) (sf (c_dist c)) = true). rewrite Ec. reflexivity.
  - destruct views as [|v0 [|v [|v2 views]]]; try discriminate D6. injection D6 as _ _ _ A1 A2 A3.
    assert (Ed : match dtw_of (N := B64) KEuclidean (b64_ofZ 1) (place_values (N := B64) st_rows (3, (1, 0))) (map b64_ofZ [1; 1; 1]) with Ret x => Some (sf x) | _ => None end = Some (sf n0))
      by (vm_compute; reflexivity).
    exists v. destruct (dtw_of (N := B64) KEuclidean (b64_ofZ 1) (place_values (N := B64) st_rows (3, (1, 0))) (map b64_ofZ [1; 1; 1])) as [x| | |] eqn:Ex; try discriminate Ed.
    apply some_inj in Ed. exists x. split; [exists [v0; v]; split; [exact D5|right; left; reflexivity]|]. split; [exact A1|]. split; [exact A3|].
    split; [|apply B2SF_inj; exact Ed]. unfold group_dist. rewrite A1. replace (a_ratio s) with (b64_ofZ 1 : D B64) by (symmetry; apply B2SF_inj; exact E3). exact Ex.
Qed.
Print Assumptions C56_stale_query_refuted.

(** Grouping after normalising, or no query in between, and the answer is series 1. *)
Example C56_stale_query_example :
  best_seen (snd (exec st_env st_query (st_after st_env [st_load; st_group; CNormalize "x"] ex_start))) = Some (3, (1, 0), S754_zero false) /\
  best_seen (snd (exec st_env st_query (st_after st_env [st_load; CNormalize "x"; st_group] ex_start))) = Some (3, (1, 0), S754_zero false) /\
  best_seen (snd (exec st_env st_query (st_after st_env [st_load; CNormalize "x"; st_group; st_query] ex_start))) = Some (3, (1, 0), S754_zero false).
Proof. split; [|split]; vm_compute; reflexivity. Qed.

(** Two series 0 1/8 and 1/8 1/8, whose distance is less than half of the threshold 1/2. *)
Definition eighths_env : env B64 :=
  mkEnv (N := B64) (fun w => match stodZ w with Parsed x => Parsed (ndiv (n := B64) x (b64_ofZ 8)) | o => o end) putZ putZ (fun _ => None)
    (fun p => if String.eqb p "f" then Some (mkFile ("0,1" ++ nl1 ++ "1,1") None) else None) (fun _ => true) (fun _ => None) (fun _ => false) simple_alg.
Definition half64 : D B64 := ndiv (n := B64) (b64_ofZ 1) (b64_ofZ 2).
Definition unit_rows : list (list (D B64)) := [map b64_ofZ [0; 1]; map b64_ofZ [1; 1]].

(** After normalising the groups need not respect the threshold: values that differ by less
    than 1 move apart. *)
Theorem C56_radius_refuted : exists h s g v c, run (N := B64) (b64_ofZ 1) h s /\
  map fst h = [st_load; CGroup (N := B64) "x" half64 (kind_name KChebyshev) 1 true; CNormalize "x"] /\
  held s "x" = Some g /\ holds (gt_data g) unit_rows /\ group_in g 2 v /\ In c (v_members v) /\
  @nlt B64 half64 (pair_value (N := B64) KChebyshev (sub_values unit_rows 2 (v_rep v)) (sub_values unit_rows 2 c)).
Proof.
  set (l := [st_load; CGroup (N := B64) "x" half64 (kind_name KChebyshev) 1 true; CNormalize "x"]).
  destruct (st_run eighths_env l [] ex_start (@run_start B64 (b64_ofZ 1))) as (h & Hrun & Hh); [vm_compute; reflexivity|].
  set (s := st_after eighths_env l ex_start) in *.
  assert (E1 : option_map (set_seen 2) (held s "x") = Some (Some (map sf (map b64_ofZ [0; 1; 1; 1])), [2; 2], 2, 2, Some [((0, 0), 2, [(1, 0); (0, 0)])]))
    by (vm_compute; reflexivity).
  destruct (held s "x") as [g|] eqn:Eh; [|discriminate E1]. cbn [option_map] in E1. apply some_inj in E1.
  apply set_seen_inv in E1 as (D1 & D2 & D3 & D4 & views & D5 & D6).
  destruct views as [|v [|v2 views]]; try discriminate D6. injection D6 as A1 A2 A3.
  exists h, s, g, v, (1, 0). split; [exact Hrun|]. split; [exact Hh|]. split; [exact Eh|]. split; [|split; [|split]].
  - exists (map b64_ofZ [0; 1; 1; 1]). split; [exact D1|]. rewrite D3, D4. split; [reflexivity|]. split; [lia|]. split; [split; vm_compute; discriminate|].
    intros i row Er. rewrite D2.
    destruct i as [|[|i]]; [| |destruct i; discriminate Er]; injection Er as <-; (split; [reflexivity|]); (split; [vm_compute; discriminate|]);
      intros j w Ej; repeat (destruct j as [|j]; [injection Ej as <-; reflexivity|]); destruct j; discriminate Ej.
  - exists [v]. split; [exact D5|left; reflexivity].
  - rewrite A3. left. reflexivity.
  - rewrite A1. vm_compute. reflexivity.
Qed.
Print Assumptions C56_radius_refuted.

(** the hypotheses of C56_best_match_partial *)
Example C56_example : exists d s, normalised_since simple_alg s "x" KEuclidean false d ex_rows /\
  best_seen (snd (exec ex_env (CBest "x" "x" 1 0 2) s)) = Some (2, (1, 0), S754_zero false).
Proof.
  destruct ex_history as (a1 & _ & _ & _ & H1 & _). destruct ex_held as (d & Hh & Hd & Hm & Hc). exists d.
  set (gr := CGroup (N := B64) "x" (b64_ofZ 1) "euclidean" 1 false).
  exists (fst (exec ex_env (CNormalize "x") (fst (exec ex_env gr ex_s1)))).
  split; [|vm_compute; reflexivity].
  assert (R1 : is_ret (snd (exec ex_env gr ex_s1)) = true) by (vm_compute; reflexivity).
  assert (R2 : is_ret (snd (exec ex_env (CNormalize "x") (fst (exec ex_env gr ex_s1)))) = true) by (vm_compute; reflexivity).
  destruct (exec ex_env gr ex_s1) as [s1 r] eqn:E. cbn [fst snd] in *. destruct r as [n| | |]; try discriminate R1.
  destruct (exec ex_env (CNormalize "x") s1) as [s2 r] eqn:E'. cbn [fst snd] in *. destruct r as [a| | |]; try discriminate R2.
  exists (b64_ofZ 1), [(ex_load "x", Ret a1)], ex_s1, ex_env, (b64_ofZ 1), 1, s1, n, (mkGS d None), s1, ex_env, s2, a.
  split; [exact H1|]. split; [exact Hh|]. split; [reflexivity|]. split; [exact Hd|]. split.
  { intros row [<-|[<-|[<-|[]]]]; (split; [|vm_compute; discriminate]); apply leb64_all; vm_compute; reflexivity. }
  split; [discriminate|]. split; [rewrite Hm; lia|]. split; [vm_compute; reflexivity|]. split; [intros l Hl; left; reflexivity|].
  split; [exact E|]. split; [constructor|]. split; [exact E'|constructor].
Qed.

(** the hypotheses of C56_k_best_partial, in the same history: the values after normalising,
    no near ties among the distances to the first series, and what the query answers *)
Definition norm_rows : list (list (D B64)) :=
  [[b64_ofZ 0; b64_lit 1 5]; [b64_lit 2 5; b64_lit 3 5]; [b64_lit 4 5; b64_ofZ 1]].
Definition norm_places : list place := [(2, (0, 0)); (2, (1, 0)); (2, (2, 0))].
Definition norm_query : list (D B64) := [b64_ofZ 0; b64_lit 1 5].
Definition values_seen (o : option (gset B64)) : option (list spec_float) :=
  match o with Some g => option_map (map sf) (ds_data (gt_data g)) | None => None end.
Definition k_seen (r : res (answer B64)) : option (list (Z * coord * spec_float)) :=
  match r with
  | Ret (ACands cs) => Some (map (fun c => (fst (place_of c), snd (place_of c), sf (c_dist c))) cs)
  | _ => None
  end.

Example C56_k_example :
  let s := fst (exec ex_env (CNormalize "x") (fst (exec ex_env (CGroup (N := B64) "x" (b64_ofZ 1) "euclidean" 1 false) ex_s1))) in
  values_seen (held s "x") = Some (map sf (concat norm_rows)) /\
  no_near_ties (N := B64) norm_rows KEuclidean (b64_ofZ 1) norm_query (long_enough norm_rows) /\
  k_seen (snd (exec ex_env (CKBest 2 3 "x" "x" 0 0 2) s)) = Some [(2, (0, 0), S754_zero false); (2, (1, 0), S754_finite false 5095241338020618 (-55))].
Proof.
  split; [vm_compute; reflexivity|]. split; [|vm_compute; reflexivity].
  intros p p' v v' Hp Hp' Ev Ev'.
  assert (W : forall p, long_enough norm_rows p -> In p norm_places).
  { intros p0 H0. apply (BruteProofs.bf_places_In (N := B64) norm_rows) in H0. exact H0. }
  apply W in Hp, Hp'.
  assert (G : forallb (fun p => forallb (fun p' =>
    match dtw_of (N := B64) KEuclidean (b64_ofZ 1) norm_query (place_values norm_rows p),
          dtw_of (N := B64) KEuclidean (b64_ofZ 1) norm_query (place_values norm_rows p') with
    | Ret v, Ret v' => sepb v v' | _, _ => false end) norm_places) norm_places = true) by (vm_compute; reflexivity).
  rewrite forallb_forall in G. specialize (G p Hp). rewrite forallb_forall in G. specialize (G p' Hp').
  cbv beta in G. rewrite Ev, Ev' in G. unfold sepb in G. apply orb_true_iff in G as [G|G].
  - left. apply (neqb_true (N := B64)). exact G.
  - right. apply negb_true_iff in G. exact G.
Qed.
