(** Property C35: saving groups to a file and loading them again.
    Specification: ArchiveSpec.v, QuerySpec.v, GroupView.v, DataSpec.v. *)
From Coq Require Import String Reals Lra Permutation.
From Flocq Require Import IEEE754.BinarySingleNaN Core.Raux.
From Verif Require Import Base Num NumB64 NumB64Laws NumLaws NumFacts NumMore NumXR NumXRLaws LoopFacts TimeSeries Lemire Distance
  DtwReal DistSpec DistLink TSSet StdAlg HeapFacts Candidate Group GroupSpace Band DataSpec DataProofs GroupSpec GroupView GroupAll GroupDist
  SearchSpec SearchProofs SearchCases QueryCases Traverse QueryState QuerySpec BestMatch QueryProofs PropsDistance PropsData PropsGroup
  PropsSearch PropsQuery PropsKSim Archive ArchiveProofs ArchiveState ArchiveSpec.
Local Open Scope Z_scope.
Local Open Scope list_scope.

Lemma rp_rev (RP : Rep) ms : rp (Rep := rev_rep RP) (rev ms) = rp (Rep := RP) ms.
Proof. change (rp (Rep := RP) (rev (rev ms)) = rp (Rep := RP) ms). rewrite rev_involutive. reflexivity. Qed.

Section Gen.
Context {N : Num} {LW : NumLaws N}.
Notation D := (D N).

Lemma grouped_kept (d : dataset N) rows old clock (ratio : D) k thr threads whole g total :
  holds d rows -> nltb (ndiv thr (nofZ 2)) ninf = true -> 1 <= ds_maxcol d -> 1 <= threads -> log_safe d clock ->
  groupAllLengths clock ratio (mkGS d old) (kind_name k) thr threads whole = (g, Ret total) ->
  exists gss, kept (RP := founder) d rows k thr whole whole g gss.
Proof.
  intros Hd Hthr Hm Ht Hlog E.
  destruct (grouped_state d rows Hd old clock ratio k thr threads whole g total Hthr Hm Ht Hlog E) as (gss & H1 & H2 & _ & H3).
  destruct (grouping_main d rows old clock ratio (kind_name k) (metric_of k) (warp_of k) thr threads whole
    (fun l => sub_dist rows k l) Hd (kind_pw k) (warp_of_name k) Hthr Hm Ht Hlog) as (levels & tot & E' & Hlen & Htot & _).
  rewrite E in E'. injection E' as Eg _. exists gss. constructor; auto.
  subst g. eexists. split; [reflexivity|]. cbn [gg_name gg_threshold gg_total gg_whole]. splits; auto.
  destruct H1 as (_ & gs & Egs & _ & _ & HL). injection Egs as <-. cbn [gg_levels] in HL.
  rewrite Htot. eapply count_levels; eauto.
Qed.

Lemma history_kept H rows k thr whole maxcol b (g : gset N) :
  1 <= maxcol -> nltb (ndiv thr (nofZ 2)) ninf = true ->
  history H rows k thr whole maxcol b g ->
  holds (gt_data g) rows /\ ds_maxcol (gt_data g) = maxcol /\
  exists (RP : Rep) gss, kept (gt_data g) rows k thr whole (if b then false else whole) g gss.
Proof.
  intros Hm Hthr Hh. induction Hh as [d old clock ratio threads g total Hd Hmax Ht Hlog E|b g g' Hh IH Ha
    |b g f f' d' old g' Hh IH Hb Hs Hd' Hmax' Hl].
  - destruct (grouped_kept d rows old clock ratio k thr threads whole g total) as (gss & HK); auto; [lia|].
    assert (Ed : gt_data g = d) by apply HK. rewrite Ed. splits; auto. exists founder, gss. exact HK.
  - destruct IH as (Hd & Hmax & RP & gss & HK). pose proof (kept_asked H _ _ _ _ _ _ _ _ _ HK Ha) as HK'.
    assert (Ed : gt_data g' = gt_data g) by apply HK'. rewrite Ed. splits; auto. exists RP, gss. exact HK'.
  - destruct IH as (Hd & Hmax & RP & gss & HK).
    assert (Ew : (if b then false else whole) = whole) by (destruct b, whole; auto; discriminate (Hb eq_refl)).
    rewrite Ew in HK. unfold saveToFile in Hs. rewrite (save_ok (gt_data g) rows k thr whole g gss) in Hs by (auto; lia).
    injection Hs as <-. cbn [loadFromFile] in Hl.
    destruct (load_ok (gt_data g) d' rows k thr whole whole g gss old) as (g1 & E1 & Ed & HK'); auto; try lia.
    { destruct Hd as (b1 & _ & E1 & _), Hd' as (b2 & _ & E2 & _). lia. }
    rewrite Hl in E1. injection E1 as <-. rewrite Ed. splits; auto. exists (rev_rep RP), (rev_gss gss). exact HK'.
Qed.

(** saving and loading such a data set *)
Lemma round_trip H rows k thr whole maxcol b (g : gset N) f d' old :
  1 <= maxcol -> nltb (ndiv thr (nofZ 2)) ninf = true ->
  history H rows k thr whole maxcol b g -> (whole = true -> b = false) ->
  holds d' rows -> ds_maxcol d' = maxcol ->
  exists f' g' (RP : Rep) gss, saveToFile true f g = (f', Ret tt) /\ loadFromFile f' (mkGS d' old) = (g', Ret tt) /\
    gt_data g' = d' /\ kept (gt_data g) rows k thr whole whole g gss /\ kept (RP := rev_rep RP) d' rows k thr whole false g' (rev_gss gss).
Proof.
  intros Hm Hthr Hh Hb Hd' Hmax'. destruct (history_kept H rows k thr whole maxcol b g Hm Hthr Hh) as (Hd & Hmax & RP & gss & HK).
  assert (Ew : (if b then false else whole) = whole) by (destruct b, whole; auto; discriminate (Hb eq_refl)).
  rewrite Ew in HK.
  destruct (load_ok (gt_data g) d' rows k thr whole whole g gss old) as (g1 & E1 & Ed & HK'); auto; try lia.
  { destruct Hd as (b1 & _ & E1 & _), Hd' as (b2 & _ & E2 & _). lia. }
  exists (Some (file_of (gt_data g) k thr whole gss)), g1, RP, gss. splits; auto.
  unfold saveToFile. rewrite (save_ok (gt_data g) rows k thr whole g gss); auto. lia.
Qed.
End Gen.

(** Saving never fails, nor does loading into a data set with the same data, and the
    groups are the same afterwards. *)
Theorem C35_save_load : forall {N : Num} {LW : NumLaws N} (H : std_alg) (rows : list (list (D N))) (k : kind) (thr : D N)
    whole maxcol b (g : gset N) f (d' : dataset N) old,
  1 <= maxcol -> nltb (ndiv thr (nofZ 2)) ninf = true ->
  history H rows k thr whole maxcol b g -> (whole = true -> b = false) ->
  holds d' rows -> ds_maxcol d' = maxcol ->
  exists f' g', saveToFile true f g = (f', Ret tt) /\ loadFromFile f' (mkGS d' old) = (g', Ret tt) /\
    gt_data g' = d' /\ same_groups g g'.
Proof.
  intros N LW H rows k thr whole maxcol b g f d' old Hm Hthr Hh Hb Hd' Hmax'.
  destruct (history_kept H rows k thr whole maxcol b g Hm Hthr Hh) as (_ & Hmax & _).
  destruct (round_trip H rows k thr whole maxcol b g f d' old Hm Hthr Hh Hb Hd' Hmax') as (f' & g' & RP & gss & E1 & E2 & Ed & HK & HK').
  exists f', g'. splits; auto.
  destruct HK as [HS (gs & Eg & A1 & A2 & A3 & _) _ _ Htx], HK' as [HS' (gs' & Eg' & A1' & A2' & A3' & _) _ _ _].
  unfold same_groups, isGrouped, getDistanceName, getThreshold, getTotalNumberOfGroups. rewrite Eg, Eg'. splits.
  - reflexivity.
  - congruence.
  - rewrite A2, A2'. reflexivity.
  - rewrite A3, A3', sum_rev, Hmax, Hmax'. reflexivity.
  - intros l. destruct (Z_le_gt_dec 0 l) as [H0|H0]; [destruct (Z_le_gt_dec l maxcol) as [H1|H1]|].
    + destruct (gss l) as [gl|] eqn:El.
      * rewrite (set_view _ _ k g gss l gl Htx HS ltac:(lia) El).
        rewrite (set_view (RP := rev_rep RP) _ _ k g' (rev_gss gss) l (map (@rev coord) gl) eq_refl HS' ltac:(lia) ltac:(unfold rev_gss; rewrite El; reflexivity)).
        clear. induction gl as [|ms gl IH]; simpl; constructor; auto. unfold same_group, view_rp. cbn [v_rep v_count v_members].
        rewrite rev_length. splits; auto; [|apply Permutation_rev].
        apply rp_rev.
      * rewrite (set_view_none _ _ k g gss l HS) by auto.
        rewrite (set_view_none (RP := rev_rep RP) _ _ k g' (rev_gss gss) l HS'); auto. intros _. unfold rev_gss. rewrite El. reflexivity.
    + rewrite (set_view_none _ _ k g gss l HS) by (intros; lia).
      rewrite (set_view_none (RP := rev_rep RP) _ _ k g' (rev_gss gss) l HS') by (intros; lia). exact I.
    + rewrite (set_view_none _ _ k g gss l HS) by (intros; lia).
      rewrite (set_view_none (RP := rev_rep RP) _ _ k g' (rev_gss gss) l HS') by (intros; lia). exact I.
Qed.
Print Assumptions C35_save_load.

(** A file saved from a data set with another number of series or another item
    length is refused, and the data set keeps its groups, if any. *)
Theorem C35_rejects : forall {N : Num} {LW : NumLaws N} (H : std_alg) (rows : list (list (D N))) (k : kind) (thr : D N)
    whole maxcol b (g : gset N) f (g1 : gset N),
  1 <= maxcol -> nltb (ndiv thr (nofZ 2)) ninf = true ->
  history H rows k thr whole maxcol b g -> (whole = true -> b = false) ->
  ds_count (gt_data g1) <> Z.of_nat (length rows) \/ ds_maxcol (gt_data g1) <> maxcol ->
  exists f' msg, saveToFile true f g = (f', Ret tt) /\ loadFromFile f' g1 = (g1, Throw (GenexExc msg)).
Proof.
  intros N LW H rows k thr whole maxcol b g f g1 Hm Hthr Hh Hb Hne.
  destruct (history_kept H rows k thr whole maxcol b g Hm Hthr Hh) as (Hd & Hmax & RP & gss & HK).
  assert (Ew : (if b then false else whole) = whole) by (destruct b, whole; auto; discriminate (Hb eq_refl)).
  rewrite Ew in HK. unfold saveToFile. rewrite (save_ok (gt_data g) rows k thr whole g gss) by (auto; lia).
  assert (Ec : ds_count (gt_data g) = Z.of_nat (length rows)) by (destruct Hd as (b1 & _ & E1 & _); exact E1).
  assert (L : exists msg, loadFromFile (Some (file_of (gt_data g) k thr whole gss)) g1 = (g1, Throw (GenexExc msg))).
  { cbn [loadFromFile]. unfold load, file_of. cbn [get_int bind and_then]. rewrite Ec, Hmax.
    destruct (Z.eqb_spec (Z.of_nat (length rows)) (ds_count (gt_data g1))) as [E1|E1]; cbn [negb].
    - destruct (Z.eqb_spec maxcol (ds_maxcol (gt_data g1))) as [E2|E2]; cbn [negb]; [lia|]. eexists. reflexivity.
    - eexists. reflexivity. }
  destruct L as [msg L]. eexists _, msg. split; [reflexivity|exact L].
Qed.
Print Assumptions C35_rejects.

(** ** queries after loading *)

Lemma rev_a_group gss l i ms : a_group gss l i ms -> a_group (rev_gss gss) l i (rev ms).
Proof.
  intros (gl & E & En). exists (map (@rev coord) gl). unfold rev_gss. rewrite E. split; [reflexivity|].
  rewrite nth_error_map, En. reflexivity.
Qed.

Lemma a_group_rev gss l i ms : a_group (rev_gss gss) l i ms -> a_group gss l i (rev ms).
Proof.
  intros (gl & E & En). unfold rev_gss in E. destruct (gss l) as [gl0|] eqn:E0; [|discriminate]. injection E as <-.
  rewrite nth_error_map in En. destruct (nth_error gl0 i) as [m|] eqn:Em; [|discriminate]. injection En as <-.
  exists gl0. rewrite rev_involutive. auto.
Qed.

Lemma reloaded_same {N : Num} {LW : NumLaws N} (RP : Rep) rows k (ratio : D N) query maxcol gss c c' :
  chosen (RP := RP) rows k ratio query maxcol gss c ->
  chosen (RP := rev_rep RP) rows k ratio query maxcol (rev_gss gss) c' ->
  nle (c_dist c) (c_dist c') /\ nle (c_dist c') (c_dist c).
Proof.
  intros H1 H2. split.
  - apply (chosen_le RP (rev_rep RP) rows k ratio query maxcol gss (rev_gss gss)); auto.
    + intros l i ms Hg. exists (rev ms). splits; [apply rev_a_group; auto|apply rp_rev|].
      intros m. symmetry. apply in_rev.
    + intros l i ms Hg. exists (rev ms). apply a_group_rev. auto.
  - apply (chosen_le (rev_rep RP) RP rows k ratio query maxcol (rev_gss gss) gss); auto.
    + intros l i ms Hg. exists (rev ms). splits; [apply a_group_rev; auto|reflexivity|].
      intros m. symmetry. apply in_rev.
    + intros l i ms Hg. exists (rev ms). apply rev_a_group. auto.
Qed.

(** The best match after loading is as far from the query as before. *)
Theorem C35_best_unchanged_ieee : forall (H : std_alg) (rows : list (list (D B64))) (k : kind) (thr : D B64)
    whole maxcol b (g g' : gset B64) f f' (d' : dataset B64) old (query : TS B64) (ratio : D B64),
  nltb (n := B64) (ndiv (n := B64) thr (nofZ 2)) ninf = true -> moderate_data rows -> maxcol <= 2 ^ 26 ->
  history (N := B64) H rows k thr whole maxcol b g -> (whole = true -> b = false) ->
  holds d' rows -> ds_maxcol d' = maxcol ->
  saveToFile true f g = (f', Ret tt) -> loadFromFile f' (mkGS d' old) = (g', Ret tt) ->
  moderate_query query -> ts_length query <= maxcol -> moderate_ratio ratio ->
  (exists p, searched_place (N := B64) d' rows whole ratio (ts_length query) p) ->
  exists g1 c g1' c', getBestMatch (N := B64) ratio g query = Ret (g1, c) /\ getBestMatch (N := B64) ratio g' query = Ret (g1', c') /\
    nle (N := B64) (c_dist c) (c_dist c') /\ nle (N := B64) (c_dist c') (c_dist c).
Proof.
  intros H rows k thr whole maxcol b g g' f f' d' old query ratio Hthr Hm Hmax Hh Hb Hd' Hmax' Es El Hq Hql Hr Hex.
  assert (H1 : 1 <= maxcol) by (destruct Hq as (_ & _ & Hq2); lia).
  destruct (history_kept (N := B64) H rows k thr whole maxcol b g H1 Hthr Hh) as (Hd & Hmx & _).
  destruct (round_trip (N := B64) H rows k thr whole maxcol b g f d' old H1 Hthr Hh Hb Hd' Hmax')
    as (f1 & g1 & RP & gss & E1 & E2 & Ed & HK & HK').
  rewrite Es in E1. injection E1 as <-. rewrite El in E2. injection E2 as <-.
  assert (Hex0 : exists p, searched_place (N := B64) (gt_data g) rows whole ratio (ts_length query) p).
  { destruct Hex as (p & (Hp1 & Hp2) & Hp3). exists p. split; auto. split; auto. unfold grouped_length in *. rewrite Hmx, <- Hmax'. exact Hp1. }
  destruct (ready_chosen_ieee (RP := RP) k (gt_data g) rows whole g gss query ratio) as (h1 & c & Ec & _ & _ & Hc); auto; [lia| |lia|].
  { eapply (kept_ready_at (N := B64)); eauto. }
  destruct (ready_chosen_ieee (RP := rev_rep RP) k d' rows whole g' (rev_gss gss) query ratio) as (h1' & c' & Ec' & _ & _ & Hc'); auto; [lia| |lia|].
  { eapply (kept_ready_at (N := B64)); eauto. }
  exists h1, c, h1', c'. rewrite Hmx, <- Hmax' in Hc.
  split; [exact Ec|]. split; [exact Ec'|]. exact (reloaded_same (N := B64) _ _ _ _ _ _ _ _ _ Hc Hc').
Qed.
Print Assumptions C35_best_unchanged_ieee.

Theorem C35_best_unchanged_exact : forall (H : std_alg) (rows : list (list R)) (k : kind) (t : R)
    whole maxcol b (g g' : gset XR) f f' (d' : dataset XR) old (query : TS XR) (xs : list R) (ratio : R),
  maxcol <= 2 ^ 30 ->
  history (N := XR) H (real_rows rows) k (Fin t) whole maxcol b g -> (whole = true -> b = false) ->
  holds d' (real_rows rows) -> ds_maxcol d' = maxcol ->
  saveToFile true f g = (f', Ret tt) -> loadFromFile f' (mkGS d' old) = (g', Ret tt) ->
  is_series query xs -> 2 <= ts_length query <= maxcol -> (0 <= ratio <= 1)%R ->
  (exists p, searched_place (N := XR) d' (real_rows rows) whole (Fin ratio) (ts_length query) p) ->
  exists g1 c g1' c', getBestMatch (N := XR) (Fin ratio) g query = Ret (g1, c) /\
    getBestMatch (N := XR) (Fin ratio) g' query = Ret (g1', c') /\ c_dist c = c_dist c'.
Proof.
  intros H rows k t whole maxcol b g g' f f' d' old query xs ratio Hmax Hh Hb Hd' Hmax' Es El Hq Hql Hr Hex.
  assert (H1 : 1 <= maxcol) by lia. assert (Hthr := half_fin t).
  destruct (history_kept (N := XR) H (real_rows rows) k (Fin t) whole maxcol b g H1 Hthr Hh) as (Hd & Hmx & _).
  destruct (round_trip (N := XR) H (real_rows rows) k (Fin t) whole maxcol b g f d' old H1 Hthr Hh Hb Hd' Hmax')
    as (f1 & g1 & RP & gss & E1 & E2 & Ed & HK & HK').
  rewrite Es in E1. injection E1 as <-. rewrite El in E2. injection E2 as <-.
  assert (Hex0 : exists p, searched_place (N := XR) (gt_data g) (real_rows rows) whole (Fin ratio) (ts_length query) p).
  { destruct Hex as (p & (Hp1 & Hp2) & Hp3). exists p. split; auto. split; auto. unfold grouped_length in *. rewrite Hmx, <- Hmax'. exact Hp1. }
  destruct (ready_chosen_exact (RP := RP) k (gt_data g) rows whole g gss query xs ratio) as (h1 & c & Ec & _ & _ & Hc); auto; try lia.
  { eapply (kept_ready_at (N := XR)); eauto. }
  destruct (ready_chosen_exact (RP := rev_rep RP) k d' rows whole g' (rev_gss gss) query xs ratio) as (h1' & c' & Ec' & _ & _ & Hc'); auto; try lia.
  { eapply (kept_ready_at (N := XR)); eauto. }
  exists h1, c, h1', c'. splits; auto.
  rewrite Hmx, <- Hmax' in Hc. destruct (reloaded_same (N := XR) _ _ _ _ _ _ _ _ _ Hc Hc') as [L1 L2].
  apply XR_nle in L1. apply XR_nle in L2. unfold xleP in *.
  destruct (c_dist c), (c_dist c'); try contradiction; auto. apply (f_equal Fin). lra.
Qed.
Print Assumptions C35_best_unchanged_exact.

(** Loaded groups answer queries as those computed do (C23, C24). *)
Theorem C35_answers_ieee : forall (H : std_alg) (rows : list (list (D B64))) (k : kind) (thr : D B64)
    whole maxcol b (g : gset B64) (query : TS B64) (ratio : D B64),
  nltb (n := B64) (ndiv (n := B64) thr (nofZ 2)) ninf = true -> moderate_data rows -> maxcol <= 2 ^ 26 ->
  history (N := B64) H rows k thr whole maxcol b g ->
  moderate_query query -> ts_length query <= maxcol -> moderate_ratio ratio ->
  ((exists p, searched_place (N := B64) (gt_data g) rows whole ratio (ts_length query) p) ->
   exists g' c, getBestMatch (N := B64) ratio g query = Ret (g', c) /\
     best_of_closest (N := B64) rows k ratio (ts_points query) (searched (N := B64) (gt_data g) whole ratio (ts_length query)) g c) /\
  (forall K h, std_ok H -> 1 <= K <= h ->
   no_near_ties (N := B64) rows k ratio (ts_points query) (searched_place (N := B64) (gt_data g) rows whole ratio (ts_length query)) ->
   k_answer (N := B64) H rows k ratio (ts_points query) (searched (N := B64) (gt_data g) whole ratio (ts_length query))
     (searched_place (N := B64) (gt_data g) rows whole ratio (ts_length query)) g query K h).
Proof.
  intros H rows k thr whole maxcol b g query ratio Hthr Hm Hmax Hh Hq Hql Hr.
  assert (H1 : 1 <= maxcol) by (destruct Hq as (_ & _ & Hq2); lia).
  destruct (history_kept (N := B64) H rows k thr whole maxcol b g H1 Hthr Hh) as (Hd & Hmx & RP & gss & HK).
  assert (HR : ready (N := B64) (gt_data g) rows k whole g) by (split; [apply (kp_view _ _ _ _ _ _ _ _ HK)|exists gss]; eapply (kept_ready_at (N := B64)); eauto).
  split.
  - intros Hex. apply (ready_best_ieee k (gt_data g) rows whole g query ratio); auto; lia.
  - intros K h Hok HKh Hties. apply (ready_k_ieee H k (gt_data g) rows whole g query ratio K h); auto; lia.
Qed.
Print Assumptions C35_answers_ieee.

Theorem C35_answers_exact : forall (H : std_alg) (rows : list (list R)) (k : kind) (t : R)
    whole maxcol b (g : gset XR) (query : TS XR) (xs : list R) (ratio : R),
  maxcol <= 2 ^ 30 ->
  history (N := XR) H (real_rows rows) k (Fin t) whole maxcol b g ->
  is_series query xs -> 2 <= ts_length query <= maxcol -> (0 <= ratio <= 1)%R ->
  ((exists p, searched_place (N := XR) (gt_data g) (real_rows rows) whole (Fin ratio) (ts_length query) p) ->
   exists g' c, getBestMatch (N := XR) (Fin ratio) g query = Ret (g', c) /\
     best_of_closest (N := XR) (real_rows rows) k (Fin ratio) (map Fin xs) (searched (N := XR) (gt_data g) whole (Fin ratio) (ts_length query)) g c) /\
  (forall K h, std_ok H -> 1 <= K <= h ->
   no_near_ties (N := XR) (real_rows rows) k (Fin ratio) (map Fin xs)
     (searched_place (N := XR) (gt_data g) (real_rows rows) whole (Fin ratio) (ts_length query)) ->
   k_answer (N := XR) H (real_rows rows) k (Fin ratio) (map Fin xs) (searched (N := XR) (gt_data g) whole (Fin ratio) (ts_length query))
     (searched_place (N := XR) (gt_data g) (real_rows rows) whole (Fin ratio) (ts_length query)) g query K h).
Proof.
  intros H rows k t whole maxcol b g query xs ratio Hmax Hh Hq Hql Hr.
  assert (H1 : 1 <= maxcol) by lia. assert (Hthr := half_fin t).
  destruct (history_kept (N := XR) H (real_rows rows) k (Fin t) whole maxcol b g H1 Hthr Hh) as (Hd & Hmx & RP & gss & HK).
  assert (HR : ready (N := XR) (gt_data g) (real_rows rows) k whole g) by (split; [apply (kp_view _ _ _ _ _ _ _ _ HK)|exists gss]; eapply (kept_ready_at (N := XR)); eauto).
  split.
  - intros Hex. apply (ready_best_exact k (gt_data g) rows whole g query xs ratio); auto; lia.
  - intros K h Hok HKh Hties. apply (ready_k_exact H k (gt_data g) rows whole g query xs ratio K h); auto; lia.
Qed.
Print Assumptions C35_answers_exact.

(** ** saving groups of whole series that come from a file *)

(** It always dereferences a null pointer, as soon as the items have three points:
    the file does not tell that only whole series were grouped. *)
Theorem C35_resave_refuted : forall {N : Num} {LW : NumLaws N} (H : std_alg) (rows : list (list (D N))) (k : kind) (thr : D N)
    maxcol (g : gset N) f,
  3 <= maxcol -> nltb (ndiv thr (nofZ 2)) ninf = true ->
  history H rows k thr true maxcol true g ->
  saveToFile true f g = (Some [], UB NullDeref).
Proof.
  intros N LW H rows k thr maxcol g f Hm Hthr Hh.
  destruct (history_kept H rows k thr true maxcol true g ltac:(lia) Hthr Hh) as (Hd & Hmx & RP & gss & HK).
  destruct HK as [(Ed & gs0 & Eg0 & _ & _ & [Hlev HL]) (gs & Eg & A1 & A2 & A3 & A4) H3 _].
  rewrite Eg in Eg0. injection Eg0 as <-.
  assert (En : nth_error (gg_levels gs) 2 = Some None).
  { specialize (HL 2 ltac:(lia)). destruct (gss 2) as [gl|] eqn:E2; auto. exfalso.
    assert (Hg : grouped_length (gt_data g) true 2) by (apply H3; [lia|congruence]). cbn in Hg. lia. }
  unfold saveToFile, save. rewrite Eg. unfold save_space. rewrite A2. cbn [init_get bind].
  unfold gg_minLength. rewrite A4. rewrite for_fold.
  destruct (Z.to_nat (Z.of_nat (length (gg_levels gs)) - 2)) as [|n] eqn:En2; [lia|].
  assert (E2 : aget (gg_levels gs) 2 = Ret None) by (apply aget_Ret; split; [lia|exact En]).
  cbn [zseq fold_res]. rewrite E2. reflexivity.
Qed.
Print Assumptions C35_resave_refuted.

(** ** an example *)

(** ex2_data (two series, 0 1 9 and 1 1 8) grouped with threshold 6, the groups saved
    and loaded; afterwards as another history: the same with whole series only *)
Definition ex2_file : option (list (tok B64)) := fst (saveToFile true None (fst ex2_grouped)).
Definition ex2_loaded : gset B64 * res unit := loadFromFile ex2_file (mkGS ex2_data None).
Definition ex2_whole : gset B64 * res Z :=
  groupAllLengths (N := B64) (fun _ => false) (b64_ofZ 1) (mkGS ex2_data None) "manhattan" (b64_ofZ 6) 1 true.
Definition ex2_whole_file : option (list (tok B64)) := fst (saveToFile true None (fst ex2_whole)).
Definition ex2_whole_loaded : gset B64 * res unit := loadFromFile ex2_whole_file (mkGS ex2_data None).

Lemma ex2_half : nltb (n := B64) (ndiv (n := B64) (b64_ofZ 6) (nofZ 2)) ninf = true.
Proof. vm_compute. reflexivity. Qed.

Lemma ret_pair {A B} (p : A * res B) v : snd p = Ret v -> p = (fst p, Ret v).
Proof. destruct p as [a r]. simpl. intros ->. reflexivity. Qed.

Lemma C35_history_0 : snd ex2_grouped = Ret 3.
Proof. vm_compute. reflexivity. Qed.
Lemma C35_history_1 : groupAllLengths (N := B64) (fun _ => false) (b64_ofZ 1) (mkGS ex2_data None) (kind_name KManhattan) (b64_ofZ 6) 1 false
  = (fst ex2_grouped, Ret 3).
Proof. exact (ret_pair ex2_grouped 3 C35_history_0). Qed.
Lemma C35_history_2 : saveToFile true None (fst ex2_grouped) = (ex2_file, Ret tt).
Proof. apply ret_pair. vm_compute. reflexivity. Qed.
Lemma C35_history_3 : loadFromFile ex2_file (mkGS ex2_data None) = (fst ex2_loaded, Ret tt).
Proof. apply (ret_pair ex2_loaded). vm_compute. reflexivity. Qed.
Example C35_history : history (N := B64) simple_alg ex2_rows KManhattan (b64_ofZ 6) false 3 true (fst ex2_loaded).
Proof.
  refine (by_loading (N := B64) simple_alg ex2_rows KManhattan (b64_ofZ 6) false 3 false (fst ex2_grouped) None ex2_file ex2_data None _ _ _ C35_history_2 ex2_holds eq_refl C35_history_3);
    [|intros; reflexivity].
  refine (by_grouping (N := B64) simple_alg ex2_rows KManhattan (b64_ofZ 6) false 3 ex2_data None (fun _ => false) (b64_ofZ 1) 1 (fst ex2_grouped) 3 ex2_holds eq_refl _ _ C35_history_1); [lia|].
  intros l. left. reflexivity.
Qed.

Lemma C35_history_whole_0 : snd ex2_whole = Ret 1.
Proof. vm_compute. reflexivity. Qed.
Lemma C35_history_whole_1 : groupAllLengths (N := B64) (fun _ => false) (b64_ofZ 1) (mkGS ex2_data None) (kind_name KManhattan) (b64_ofZ 6) 1 true
  = (fst ex2_whole, Ret 1).
Proof. exact (ret_pair ex2_whole 1 C35_history_whole_0). Qed.
Lemma C35_history_whole_2 : saveToFile true None (fst ex2_whole) = (ex2_whole_file, Ret tt).
Proof. apply ret_pair. vm_compute. reflexivity. Qed.
Lemma C35_history_whole_3 : loadFromFile ex2_whole_file (mkGS ex2_data None) = (fst ex2_whole_loaded, Ret tt).
Proof. apply (ret_pair ex2_whole_loaded). vm_compute. reflexivity. Qed.
Example C35_history_whole : history (N := B64) simple_alg ex2_rows KManhattan (b64_ofZ 6) true 3 true (fst ex2_whole_loaded).
Proof.
  refine (by_loading (N := B64) simple_alg ex2_rows KManhattan (b64_ofZ 6) true 3 false (fst ex2_whole) None ex2_whole_file ex2_data None _ _ _ C35_history_whole_2 ex2_holds eq_refl C35_history_whole_3);
    [|intros; reflexivity].
  refine (by_grouping (N := B64) simple_alg ex2_rows KManhattan (b64_ofZ 6) true 3 ex2_data None (fun _ => false) (b64_ofZ 1) 1 (fst ex2_whole) 1 ex2_holds eq_refl _ _ C35_history_whole_1); [lia|].
  intros l. left. reflexivity.
Qed.

Example C35_example :
  show (level_view (fst ex2_grouped) 3) = Some [((0, 0), 2, [(1, 0); (0, 0)])] /\
  show (level_view (fst ex2_loaded) 3) = Some [((0, 0), 2, [(0, 0); (1, 0)])] /\
  show_best (getBestMatch (N := B64) (b64_ofZ 1) (fst ex2_loaded) bf_query) = Some [(2, 0, 1, B2SF (b64_ofZ 0))] /\
  saveToFile true None (fst ex2_whole_loaded) = (Some [], UB NullDeref).
Proof.
  split; [vm_compute; reflexivity|]. split; [vm_compute; reflexivity|]. split; [vm_compute; reflexivity|].
  apply (C35_resave_refuted (N := B64) simple_alg ex2_rows KManhattan (b64_ofZ 6) 3); [lia|apply ex2_half|apply C35_history_whole].
Qed.
