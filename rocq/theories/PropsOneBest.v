(** Properties C88 and C89: asking for one match, and asking for fewer matches.
    Specification: QuerySpec.v, SearchSpec.v, DataSpec.v; model: Api.v, GroupSpace.v. *)
From Coq Require Import String Reals Lra.
From Flocq Require Import IEEE754.BinarySingleNaN Core.Raux.
From Verif Require Import Base Num NumB64 NumB64Laws NumLaws NumFacts NumMore NumXR NumXRLaws LoopFacts TimeSeries Lemire Distance
  DtwReal DistSpec DistLink TSSet StdAlg HeapFacts Candidate CandOrder Group GroupSpace Band DataSpec DataProofs GroupSpec GroupView GroupDist
  SearchSpec SearchProofs SearchCases QueryCases Traverse QueryState QuerySpec BestMatch QueryProofs OneBest
  PropsDistance PropsData PropsGroup PropsSearch PropsQuery PropsKSim.
Local Open Scope Z_scope.
Local Open Scope list_scope.

(** both searches answer the same, and leave the same data set behind *)
Definition same_one {N : Num} (H : std_alg) (ratio : D N) (g : gset N) (query : TS N) : Prop :=
  exists g' c, getBestMatch ratio g query = Ret (g', c) /\ getKBestMatches H ratio g query 1 1 = Ret (g', [c]).

Lemma one_query {N : Num} {LW : NumLaws N} {EL : EpsLaws N} {RP : Rep} (H : std_alg) (d : dataset N) (rows : list (list (D N))) k (ratio : D N)
    (query : TS N) whole gss g :
  std_ok H -> holds d rows -> nfin ratio -> nle n0 ratio -> ds_maxcol d <= 2 ^ 53 ->
  nle (nmul (nofZ (ds_maxcol d)) ratio) (nofZ int_max) ->
  (forall h b b', 1 <= h -> h + 1 <= ds_maxcol d -> band ratio h = Ret b -> band ratio (h + 1) = Ret b' -> b' <= b + 1) ->
  ts_ok query -> 2 <= ts_length query <= ds_maxcol d ->
  searchable rows k ratio (ts_points query) (near d rows ratio query) ->
  searchable_from rows k ratio (ts_points query) (near d rows ratio query) ->
  ready_at d rows k whole g gss ->
  no_near_ties rows k ratio (ts_points query) (searched_place d rows whole ratio (ts_length query)) ->
  (exists p, searched_place d rows whole ratio (ts_length query) p) ->
  same_one H ratio g query.
Proof.
  intros Hok Hd Fr R0 Hmax Hprod Hslow Hq Hql HsM HsC (Hg & Hgss & Hcov) Hties ([l0 c0] & Hp0). destruct Hp0 as [Hl0 Hc0]. cbn [fst snd] in Hl0, Hc0.
  destruct (order_ok d ratio Fr R0 Hmax Hprod Hslow query Hql) as (order & Eo & _ & _ & Hin).
  pose proof Hg as (Ed & G & Eg & Ew & _ & HL).
  assert (HN : forall l c, In l order -> is_sub rows l c -> near d rows ratio query (l, c)).
  { intros l c Hl Hc. split; auto. apply Hin, Hl. }
  assert (HS : forall l, In l order -> gss l <> None -> searched d whole ratio (ts_length query) l).
  { intros l Hl E. apply Hin in Hl as [Hl Hb]. split; auto. apply Hgss; [lia|auto]. }
  assert (Hr0 : 2 <= l0 <= ds_maxcol d) by (destruct Hl0 as [Hgl _]; unfold grouped_length in Hgl; clear - Hgl Hql; destruct whole; lia).
  assert (Hn0 : gss l0 <> None) by (apply Hgss; [lia|apply Hl0]).
  destruct (gss l0) as [gs0|] eqn:Egs0; [|contradiction].
  pose proof (Hcov l0 gs0 c0 ltac:(lia) Egs0 Hc0) as Hin0. apply in_concat in Hin0 as (ms0 & Hms0 & _).
  apply In_nth_error in Hms0 as [i0 Ei0].
  apply (one_main H Hok d rows Hd k ratio query order) with (gss := gss) (G := G); auto.
  - intros l Hl. apply Hin, Hl.
  - intros l c t Hl Hc Ht. eapply from_ieee; eauto.
  - intros l c t Hl Hc Ht. eapply to_ieee; eauto.
  - intros l c Hl Hc. eapply near_fin; eauto.
  - intros l c c' Hl Hgl Hc Hc'. apply (Hties (l, c) (l, c')).
    + split; auto.
    + split; auto.
    + eapply mdist_dtw; eauto.
    + eapply mdist_dtw; eauto.
  - lia.
  - exists l0, i0, ms0. split; [apply Hin; split; [lia|apply Hl0]|]. exists gs0. auto.
Qed.

(** IEEE doubles.  [g0] is the data set after grouping, [g] after any queries that
    followed. *)
Theorem C88_one_match_ieee : forall (H : std_alg) (k : kind) (d : dataset B64) (rows : list (list (D B64)))
    old clock (ratio0 thr : D B64) threads whole g0 total g (query : TS B64) (ratio : D B64),
  std_ok H ->
  holds d rows -> moderate_data rows -> nltb (n := B64) (ndiv (n := B64) thr (nofZ 2)) ninf = true ->
  1 <= threads -> log_safe d clock -> ds_maxcol d <= 2 ^ 26 ->
  groupAllLengths (N := B64) clock ratio0 (mkGS d old) (kind_name k) thr threads whole = (g0, Ret total) ->
  asked (N := B64) H g0 g ->
  moderate_query query -> ts_length query <= ds_maxcol d -> moderate_ratio ratio ->
  let P := searched_place (N := B64) d rows whole ratio (ts_length query) in
  no_near_ties (N := B64) rows k ratio (ts_points query) P -> (exists p, P p) ->
  exists g' c, getBestMatch (N := B64) ratio g query = Ret (g', c) /\
    getKBestMatches (N := B64) H ratio g query 1 1 = Ret (g', [c]).
Proof.
  intros H k d rows old clock ratio0 thr threads whole g0 total g query ratio Hok Hd Hm Hthr Ht Hlog Hmax E Ha Hq Hql Hr P Hties Hex.
  pose proof Hq as (Hqo & _ & Hq2). pose proof Hr as [Hr0 Hr1].
  assert (HR : ready (N := B64) (RP := founder) d rows k whole g).
  { eapply (ready_asked (N := B64)); [|exact Ha]. eapply (ready_grouped (N := B64)); eauto. lia. }
  destruct HR as (_ & gss & HR).
  assert (Fr : nfin (N := B64) ratio).
  { apply (nfin_between (N := B64) (nofZ 0) ratio (nofZ 1)); auto; split; reflexivity. }
  apply (one_query (N := B64) (EL := B64_eps) (RP := founder) H d rows k ratio query whole gss g); auto.
  - lia.
  - apply ratio_product; auto. unfold int_max. lia.
  - intros h' b b' H1 H2. apply band_slow_b64; auto. lia.
  - lia.
  - apply searchable_moderate; auto. intros p [[Hl _] Hp]. split; auto. lia.
  - apply searchable_from_moderate; auto. intros p [[Hl _] Hp]. split; auto. lia.
Qed.
Print Assumptions C88_one_match_ieee.

(** Exact arithmetic. *)
Theorem C88_one_match_exact : forall (H : std_alg) (k : kind) (d : dataset XR) (rows : list (list R))
    old clock (ratio0 : D XR) (t : R) threads whole g0 total g (query : TS XR) (xs : list R) (ratio : R),
  std_ok H ->
  holds d (real_rows rows) -> 1 <= threads -> log_safe d clock -> ds_maxcol d <= 2 ^ 30 ->
  groupAllLengths (N := XR) clock ratio0 (mkGS d old) (kind_name k) (Fin t) threads whole = (g0, Ret total) ->
  asked (N := XR) H g0 g ->
  is_series query xs -> 2 <= ts_length query <= ds_maxcol d -> (0 <= ratio <= 1)%R ->
  let P := searched_place (N := XR) d (real_rows rows) whole (Fin ratio) (ts_length query) in
  no_near_ties (N := XR) (real_rows rows) k (Fin ratio) (map Fin xs) P -> (exists p, P p) ->
  exists g' c, getBestMatch (N := XR) (Fin ratio) g query = Ret (g', c) /\
    getKBestMatches (N := XR) H (Fin ratio) g query 1 1 = Ret (g', [c]).
Proof.
  intros H k d rows old clock ratio0 t threads whole g0 total g query xs ratio Hok Hd Ht Hlog Hmax E Ha Hq Hql Hr P Hties Hex.
  assert (Ex : ts_points query = map Fin xs) by apply Hq. rewrite <- Ex in Hties.
  assert (HR : ready (N := XR) (RP := founder) d (real_rows rows) k whole g).
  { eapply (ready_asked (N := XR)); [|exact Ha]. eapply (ready_grouped (N := XR)); eauto; [apply half_fin|lia]. }
  destruct HR as (_ & gss & HR).
  assert (N0 : forall x y : R, (x <= y)%R -> nle (N := XR) (Fin x) (Fin y)).
  { intros x y H0. apply XR_nle. exact H0. }
  assert (Lx : ts_length query = Z.of_nat (length xs)).
  { rewrite <- (DtwExt.ts_points_length (N := XR) query) by apply Hq. rewrite Ex, map_length. reflexivity. }
  assert (Lr : forall row, In row rows -> Z.of_nat (length row) <= 2 ^ 30).
  { intros row Hrow. apply In_nth_error in Hrow as [i Hi]. assert (Hi' : nth_error (real_rows rows) i = Some (map Fin row)).
    { unfold real_rows. rewrite nth_error_map, Hi. reflexivity. }
    destruct Hd as (buf & _ & _ & _ & _ & Hrr). destruct (Hrr i _ Hi') as (_ & Hle & _). rewrite map_length in Hle. lia. }
  apply (one_query (N := XR) (EL := XR_eps) (RP := founder) H d (real_rows rows) k (Fin ratio) query whole gss g); auto.
  - split; reflexivity.
  - apply N0. simpl. lra.
  - lia.
  - apply ratio_product; [split; reflexivity|apply N0; simpl; lra|apply N0; simpl; lra|unfold int_max; lia].
  - intros h' b b' H1 H2. apply band_slow_xr; auto.
  - apply Hq.
  - apply (searchable_real k rows ratio query xs); auto; [lia|]. intros p [[Hl _] Hp]. split; auto. lia.
  - apply (searchable_from_real k rows ratio query xs); auto; [lia|]. intros p [[Hl _] Hp]. split; auto. lia.
Qed.
Print Assumptions C88_one_match_exact.

(** the data of C23 (two series, 0 1 9 and 1 1 8, threshold 6; query 1 9): the
    hypotheses hold, and both searches give the subsequence 1 9 of series 0 *)
Example C88_example_pre : std_ok simple_alg /\ holds ex2_data ex2_rows /\ moderate_data ex2_rows /\ moderate_query bf_query /\
  moderate_ratio (b64_ofZ 1) /\ asked (N := B64) simple_alg (fst ex2_grouped) (fst ex2_grouped) /\
  no_near_ties (N := B64) ex2_rows KManhattan (b64_ofZ 1) (ts_points bf_query)
    (searched_place (N := B64) ex2_data ex2_rows false (b64_ofZ 1) (ts_length bf_query)) /\
  searched_place (N := B64) ex2_data ex2_rows false (b64_ofZ 1) (ts_length bf_query) (2, (0, 1)).
Proof.
  pose proof C23_example_pre as (H1 & H2 & H3 & H4 & _ & _ & _ & H5 & H6). pose proof C24_example_pre as (H7 & H8 & _).
  splits; auto.
Qed.

Example C88_example_run :
  show_best (getBestMatch (N := B64) (b64_ofZ 1) (fst ex2_grouped) bf_query) = Some [(2, 0, 1, B2SF (b64_ofZ 0))] /\
  show_k (getKBestMatches (N := B64) simple_alg (b64_ofZ 1) (fst ex2_grouped) bf_query 1 1) = Some [(2, 0, 1, B2SF (b64_ofZ 0))].
Proof. split; vm_compute; reflexivity. Qed.

(** Near ties: series 5 x x and 0 0 5 with x = 1.2e-9, query 0 0.  The two zeros
    are the best match, at distance 0; the search for one match gives x x, at
    distance 0.6e-9. *)
Definition nt_rows : list (list (D B64)) := [[b64_ofZ 5; nano 12; nano 12]; [b64_ofZ 0; b64_ofZ 0; b64_ofZ 5]].
Definition nt_data : dataset B64 := mkDS (N := B64) (Some (concat nt_rows)) [] [3; 3] 2 3 "f"%string false.
Definition nt_grouped : gset B64 * res Z :=
  groupAllLengths (N := B64) (fun _ => false) (b64_ofZ 1) (mkGS nt_data None) "manhattan" (b64_lit 1 10) 1 false.

Lemma nt_holds : holds nt_data nt_rows.
Proof.
  exists (concat nt_rows). splits; try reflexivity; try (unfold int_max; simpl; lia).
  intros i row E. destruct i as [|[|i]]; [| |destruct i; discriminate]; injection E as <-; splits; try reflexivity;
    try (simpl; lia); intros j v Ej; repeat (destruct j as [|j]; [injection Ej as <-; reflexivity|]);
    destruct j; discriminate.
Qed.

Theorem C88_near_ties_refuted : exists (H : std_alg) (d : dataset B64) rows (g : gset B64) total (query : TS B64) (ratio : D B64),
  std_ok H /\ holds d rows /\ moderate_query query /\ moderate_ratio ratio /\
  groupAllLengths (N := B64) (fun _ => false) ratio (mkGS d None) "manhattan" (b64_lit 1 10) 1 false = (g, Ret total) /\
  show_best (getBestMatch (N := B64) ratio g query) = Some [(2, 1, 0, B2SF (b64_ofZ 0))] /\
  show_k (getKBestMatches (N := B64) H ratio g query 1 1) = Some [(2, 0, 1, B2SF (nano 6))].
Proof.
  exists simple_alg, nt_data, nt_rows, (fst nt_grouped), 5, (zs [0; 0]), (b64_ofZ 1).
  split; [apply simple_alg_ok|]. split; [apply nt_holds|]. split; [|split; [|split; [|split]]].
  - split; [apply zs_ok|]. split; [|vm_compute; split; discriminate]. apply leb64_all. vm_compute. reflexivity.
  - apply C23_example_pre.
  - assert (E : snd nt_grouped = Ret 5) by (vm_compute; reflexivity). rewrite <- E. unfold nt_grouped. apply surjective_pairing.
  - vm_compute. reflexivity.
  - vm_compute. reflexivity.
Qed.
Print Assumptions C88_near_ties_refuted.
