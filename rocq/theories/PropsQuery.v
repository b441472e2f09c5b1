(** Properties C22 and C23: the lengths a query looks at, and the best match.
    Specification: QuerySpec.v, SearchSpec.v, GroupView.v, DataSpec.v. *)
From Coq Require Import String Reals Lra.
From Flocq Require Import IEEE754.BinarySingleNaN Core.Raux.
From Verif Require Import Base Num NumB64 NumB64Laws NumLaws NumFacts NumXR NumXRLaws LoopFacts TimeSeries Lemire Distance
  DtwReal DistSpec DistLink TSSet StdAlg HeapFacts Candidate Group GroupSpace Band DataSpec DataProofs GroupSpec GroupView GroupDist
  SearchSpec SearchProofs SearchCases QueryCases Traverse QueryState QuerySpec BestMatch QueryProofs PropsDistance PropsData PropsGroup PropsSearch.
Local Open Scope Z_scope.
Local Open Scope list_scope.

(** ** C22 *)

(** a ratio of at least one makes the band full *)
Lemma band_slow_full {N : Num} {LW : NumLaws N} (ratio : D N) h b b' : nfin ratio -> nle (nofZ 1) ratio ->
  1 <= h -> h + 1 <= 2 ^ 53 -> band ratio h = Ret b -> band ratio (h + 1) = Ret b' -> b' <= b + 1.
Proof.
  intros Fr H1 Hh Hm E E'. apply band_full in E; auto; [|lia]. apply band_full in E'; auto; [|lia]. lia.
Qed.

(** IEEE doubles, series of at most 2^26 points, any finite ratio >= 0 for which
    the band is an int. *)
Theorem C22_traverse_order_ieee : forall (ratio : D B64) q L,
  nfin (N := B64) ratio -> nle (N := B64) (nofZ 0) ratio ->
  nle (N := B64) (nmul (n := B64) (nofZ L) ratio) (nofZ int_max) ->
  2 <= q <= L -> L <= 2 ^ 26 ->
  exists order, generateTraverseOrder (N := B64) ratio q L = Ret order /\
    NoDup order /\ hd_error order = Some q /\
    forall l, In l order <-> 2 <= l <= L /\ within_band (N := B64) ratio q l.
Proof.
  intros ratio q L Fr H0 Hp Hq HL. apply (order_exact (N := B64)); auto; [lia|].
  intros h b b' Hh Hh'. destruct (nltb (n := B64) ratio (nofZ 1)) eqn:E.
  - apply band_slow_b64; auto; [|lia]. apply nlt_le. exact E.
  - apply band_slow_full; auto; [|lia]. split; [|split; [apply (nfin_nn (N := B64)); auto|exact E]].
    apply (nfin_nn (N := B64)), lw_ofZ_fin. simpl. lia.
Qed.
Print Assumptions C22_traverse_order_ieee.

(** Exact arithmetic: series of any length for which the band is an int. *)
Theorem C22_traverse_order_exact : forall (ratio : R) q L,
  (0 <= ratio)%R -> (IZR L * ratio <= IZR int_max)%R -> 2 <= q <= L -> L <= int_max ->
  exists order, generateTraverseOrder (N := XR) (Fin ratio) q L = Ret order /\
    NoDup order /\ hd_error order = Some q /\
    forall l, In l order <-> 2 <= l <= L /\ within_band (N := XR) (Fin ratio) q l.
Proof.
  intros ratio q L H0 Hp Hq HL.
  assert (N0 : forall x y : R, (x <= y)%R -> nle (N := XR) (Fin x) (Fin y)).
  { intros x y H. apply XR_nle. exact H. }
  apply (order_exact (N := XR)); auto.
  - split; reflexivity.
  - apply N0. simpl. exact H0.
  - unfold int_max in *. lia.
  - apply N0. exact Hp.
  - intros h b b' Hh Hh'. destruct (Rle_lt_dec ratio 1) as [H1|H1].
    + apply band_slow_xr; auto.
    + apply band_slow_full; auto; [split; reflexivity| |unfold int_max in *; lia].
      apply N0. simpl. lra.
Qed.
Print Assumptions C22_traverse_order_exact.

(** The bound on the length is needed for doubles: the rounded product makes the
    band jump by two at length 2^30 + 10 for this ratio (1 - 75497472 / 2^53), and
    the traversal stops before a length that is within the band. *)
Definition jump_ratio : b64 := b64_lit (2 ^ 53 - 9 * 2 ^ 23) (2 ^ 53).
Theorem C22_long_series_refuted : exists (ratio : D B64) q L l,
  nle (N := B64) (nofZ 0) ratio /\ nle (N := B64) ratio (nofZ 1) /\ 2 <= q <= L /\ L < int_max /\ 2 <= l <= L /\
  within_band (N := B64) ratio q l /\
  exists order, generateTraverseOrder (N := B64) ratio q L = Ret order /\ ~ In l order.
Proof.
  exists jump_ratio, 9, (2 ^ 30 + 10), (2 ^ 30 + 10).
  assert (R0 : nle (N := B64) (nofZ 0) jump_ratio) by (split; [reflexivity|split; vm_compute; reflexivity]).
  assert (R1 : nle (N := B64) jump_ratio (nofZ 1)) by (split; [vm_compute; reflexivity|split; vm_compute; reflexivity]).
  assert (Fr : nfin (N := B64) jump_ratio) by (split; vm_compute; reflexivity).
  assert (E1 : band (N := B64) jump_ratio (2 ^ 30 + 10) = Ret (2 ^ 30 + 1)) by (vm_compute; reflexivity).
  assert (E2 : band (N := B64) jump_ratio (2 ^ 30 + 9) = Ret (2 ^ 30 - 1)) by (vm_compute; reflexivity).
  splits; auto; try (unfold int_max; lia).
  - exists (2 ^ 30 + 1). split; [exact E1|lia].
  - set (bd := fun l => match band (N := B64) jump_ratio l with Ret b => b | _ => 0 end).
    assert (Hbd : forall l, 2 <= l <= 2 ^ 30 + 10 -> band (N := B64) jump_ratio l = Ret (bd l)).
    { intros l Hl. destruct (band_defined_1 (N := B64) jump_ratio l) as [b Eb]; auto; [unfold int_max; lia|].
      unfold bd. rewrite Eb. reflexivity. }
    destruct (traverse_inv (N := B64) jump_ratio 9 (2 ^ 30 + 10) ltac:(lia) bd Hbd) as (order & low & high & E & HI).
    exists order. split; [exact E|]. destruct HI as [A1 A2 A3 A4 A5 A6 A7 A8 A9]. rewrite A5. intros Hl.
    specialize (A9 (2 ^ 30 + 9) ltac:(lia)). unfold bd in A9. rewrite E2 in A9. lia.
Qed.
Print Assumptions C22_long_series_refuted.

Example C22_example : generateTraverseOrder (N := B64) (b64_lit 3 10) 8 12 = Ret [8; 7; 9; 6; 10; 11] /\
  band (N := B64) (b64_lit 3 10) 8 = Ret 2 /\ band (N := B64) (b64_lit 3 10) 11 = Ret 3 /\ band (N := B64) (b64_lit 3 10) 12 = Ret 3 /\
  nfin (N := B64) (b64_lit 3 10) /\ nle (N := B64) (nofZ 0) (b64_lit 3 10) /\
  nle (N := B64) (nmul (n := B64) (nofZ 12) (b64_lit 3 10)) (nofZ int_max).
Proof. splits; try (vm_compute; reflexivity); (split; [|split]); vm_compute; reflexivity. Qed.

(** ** C23 *)

Lemma ratio_product {N : Num} {LW : NumLaws N} (ratio : D N) len : nfin ratio -> nle n0 ratio -> nle ratio (nofZ 1) ->
  0 <= len <= int_max -> nle (nmul (nofZ len) ratio) (nofZ int_max).
Proof.
  intros Fq Hq H1 Hl. unfold int_max in *.
  assert (Fl : nfin (@nofZ N len)) by (apply lw_ofZ_fin; lia).
  apply (nle_trans _ (nmul (nofZ len) (nofZ 1))).
  - apply lw_mul_mono_r; auto; [apply (lw_ofZ_fin 1); simpl; lia|apply ofZ_pos; lia].
  - apply (nle_trans _ (nofZ len)); [apply lw_mul_1, Fl|apply lw_ofZ_le; lia].
Qed.

Lemma half_fin (t : R) : @nltb XR (@ndiv XR (Fin t) (nofZ 2)) ninf = true.
Proof.
  assert (Hhalf : @ndiv XR (Fin t) (nofZ 2) = Fin (t / 2)).
  { simpl. unfold xdiv. destruct (Req_bool_spec 2 0); [lra|]. reflexivity. }
  rewrite Hhalf. reflexivity.
Qed.

Lemma ready_chosen_ieee {RP : Rep} : forall (k : kind) (d : dataset B64) (rows : list (list (D B64)))
    whole g gss (query : TS B64) (ratio : D B64),
  holds d rows -> moderate_data rows -> ds_maxcol d <= 2 ^ 26 ->
  ready_at (N := B64) d rows k whole g gss ->
  moderate_query query -> ts_length query <= ds_maxcol d -> moderate_ratio ratio ->
  (exists p, searched_place (N := B64) d rows whole ratio (ts_length query) p) ->
  exists g' c, getBestMatch (N := B64) ratio g query = Ret (g', c) /\
    (rp_text = false -> best_of_closest (N := B64) rows k ratio (ts_points query) (searched (N := B64) d whole ratio (ts_length query)) g c) /\
    true_match (N := B64) rows k ratio (ts_points query) c /\
    chosen (N := B64) rows k ratio query (ds_maxcol d) gss c.
Proof.
  intros k d rows whole g gss query ratio Hd Hm Hmax HR Hq Hql Hr Hex.
  pose proof Hq as (Hqo & _ & Hq2). destruct Hr as [Hr0 Hr1].
  destruct HR as (Hset & Hgss & Hcov).
  assert (Fr : nfin (N := B64) ratio).
  { apply (nfin_between (N := B64) (nofZ 0) ratio (nofZ 1)); auto; split; reflexivity. }
  apply (best_query_chosen (N := B64) d rows Hd k ratio) with (whole := whole); auto.
  - lia.
  - apply ratio_product; auto. unfold int_max. lia.
  - intros h b b' H1 H2. apply band_slow_b64; auto. lia.
  - lia.
  - apply searchable_moderate; auto; [split; auto|]. intros p [[Hl _] Hp]. split; auto. lia.
  - apply searchable_from_moderate; auto; [split; auto|]. intros p [[Hl _] Hp]. split; auto. lia.
Qed.

Lemma ready_best_ieee {RP : Rep} : forall (k : kind) (d : dataset B64) (rows : list (list (D B64)))
    whole g (query : TS B64) (ratio : D B64),
  holds d rows -> moderate_data rows -> ds_maxcol d <= 2 ^ 26 ->
  ready (N := B64) d rows k whole g ->
  moderate_query query -> ts_length query <= ds_maxcol d -> moderate_ratio ratio ->
  (exists p, searched_place (N := B64) d rows whole ratio (ts_length query) p) ->
  exists g' c, getBestMatch (N := B64) ratio g query = Ret (g', c) /\
    best_of_closest (N := B64) rows k ratio (ts_points query) (searched (N := B64) d whole ratio (ts_length query)) g c.
Proof.
  intros k d rows whole g query ratio Hd Hm Hmax [Htx [gss HR]] Hq Hql Hr Hex.
  destruct (ready_chosen_ieee k d rows whole g gss query ratio Hd Hm Hmax HR Hq Hql Hr Hex) as (g' & c & E & Hb & _).
  exists g', c. auto.
Qed.

(** IEEE doubles.  [g0] is the data set after grouping, [g] after any queries that
    followed. *)
Theorem C23_best_match_ieee : forall (H : std_alg) (k : kind) (d : dataset B64) (rows : list (list (D B64)))
    old clock (ratio0 thr : D B64) threads whole g0 total g (query : TS B64) (ratio : D B64),
  holds d rows -> moderate_data rows -> nltb (n := B64) (ndiv (n := B64) thr (nofZ 2)) ninf = true ->
  1 <= threads -> log_safe d clock -> ds_maxcol d <= 2 ^ 26 ->
  groupAllLengths (N := B64) clock ratio0 (mkGS d old) (kind_name k) thr threads whole = (g0, Ret total) ->
  asked (N := B64) H g0 g ->
  moderate_query query -> ts_length query <= ds_maxcol d -> moderate_ratio ratio ->
  (exists p, searched_place (N := B64) d rows whole ratio (ts_length query) p) ->
  exists g' c, getBestMatch (N := B64) ratio g query = Ret (g', c) /\
    best_of_closest (N := B64) rows k ratio (ts_points query) (searched (N := B64) d whole ratio (ts_length query)) g c.
Proof.
  intros H k d rows old clock ratio0 thr threads whole g0 total g query ratio Hd Hm Hthr Ht Hlog Hmax E Ha Hq Hql Hr Hex.
  apply (ready_best_ieee (RP := founder) k d rows whole g query ratio); auto.
  eapply (ready_asked (N := B64)); [|exact Ha]. eapply (ready_grouped (N := B64)); eauto.
  destruct Hq as (_ & _ & Hq2). lia.
Qed.
Print Assumptions C23_best_match_ieee.

Lemma ready_chosen_exact {RP : Rep} : forall (k : kind) (d : dataset XR) (rows : list (list R))
    whole g gss (query : TS XR) (xs : list R) (ratio : R),
  holds d (real_rows rows) -> ds_maxcol d <= 2 ^ 30 ->
  ready_at (N := XR) d (real_rows rows) k whole g gss ->
  is_series query xs -> 2 <= ts_length query <= ds_maxcol d -> (0 <= ratio <= 1)%R ->
  (exists p, searched_place (N := XR) d (real_rows rows) whole (Fin ratio) (ts_length query) p) ->
  exists g' c, getBestMatch (N := XR) (Fin ratio) g query = Ret (g', c) /\
    (rp_text = false -> best_of_closest (N := XR) (real_rows rows) k (Fin ratio) (map Fin xs) (searched (N := XR) d whole (Fin ratio) (ts_length query)) g c) /\
    true_match (N := XR) (real_rows rows) k (Fin ratio) (map Fin xs) c /\
    chosen (N := XR) (real_rows rows) k (Fin ratio) query (ds_maxcol d) gss c.
Proof.
  intros k d rows whole g gss query xs ratio Hd Hmax HR Hq Hql Hr Hex.
  assert (Ex : ts_points query = map Fin xs) by apply Hq. rewrite <- Ex.
  destruct HR as (Hset & Hgss & Hcov).
  assert (N0 : forall x y : R, (x <= y)%R -> nle (N := XR) (Fin x) (Fin y)).
  { intros x y H0. apply XR_nle. exact H0. }
  assert (Lx : ts_length query = Z.of_nat (length xs)).
  { rewrite <- (DtwExt.ts_points_length (N := XR) query) by apply Hq. rewrite Ex, map_length. reflexivity. }
  assert (Lr : forall row, In row rows -> Z.of_nat (length row) <= 2 ^ 30).
  { intros row Hrow. apply In_nth_error in Hrow as [i Hi]. assert (Hi' : nth_error (real_rows rows) i = Some (map Fin row)).
    { unfold real_rows. rewrite nth_error_map, Hi. reflexivity. }
    destruct Hd as (buf & _ & _ & _ & _ & Hrr). destruct (Hrr i _ Hi') as (_ & Hle & _). rewrite map_length in Hle. lia. }
  apply (best_query_chosen (N := XR) d (real_rows rows) Hd k (Fin ratio)) with (whole := whole); auto.
  - split; reflexivity.
  - apply N0. simpl. lra.
  - lia.
  - apply ratio_product; [split; reflexivity|apply N0; simpl; lra|apply N0; simpl; lra|unfold int_max; lia].
  - intros h b b' H1 H2. apply band_slow_xr; auto.
  - apply Hq.
  - apply (searchable_real k rows ratio query xs); auto; [lia|]. intros p [[Hl _] Hp]. split; auto. lia.
  - apply (searchable_from_real k rows ratio query xs); auto; [lia|]. intros p [[Hl _] Hp]. split; auto. lia.
Qed.

Lemma ready_best_exact {RP : Rep} : forall (k : kind) (d : dataset XR) (rows : list (list R))
    whole g (query : TS XR) (xs : list R) (ratio : R),
  holds d (real_rows rows) -> ds_maxcol d <= 2 ^ 30 ->
  ready (N := XR) d (real_rows rows) k whole g ->
  is_series query xs -> 2 <= ts_length query <= ds_maxcol d -> (0 <= ratio <= 1)%R ->
  (exists p, searched_place (N := XR) d (real_rows rows) whole (Fin ratio) (ts_length query) p) ->
  exists g' c, getBestMatch (N := XR) (Fin ratio) g query = Ret (g', c) /\
    best_of_closest (N := XR) (real_rows rows) k (Fin ratio) (map Fin xs) (searched (N := XR) d whole (Fin ratio) (ts_length query)) g c.
Proof.
  intros k d rows whole g query xs ratio Hd Hmax [Htx [gss HR]] Hq Hql Hr Hex.
  destruct (ready_chosen_exact k d rows whole g gss query xs ratio Hd Hmax HR Hq Hql Hr Hex) as (g' & c & E & Hb & _).
  exists g', c. auto.
Qed.

(** Exact arithmetic. *)
Theorem C23_best_match_exact : forall (H : std_alg) (k : kind) (d : dataset XR) (rows : list (list R))
    old clock (ratio0 : D XR) (t : R) threads whole g0 total g (query : TS XR) (xs : list R) (ratio : R),
  holds d (real_rows rows) -> 1 <= threads -> log_safe d clock -> ds_maxcol d <= 2 ^ 30 ->
  groupAllLengths (N := XR) clock ratio0 (mkGS d old) (kind_name k) (Fin t) threads whole = (g0, Ret total) ->
  asked (N := XR) H g0 g ->
  is_series query xs -> 2 <= ts_length query <= ds_maxcol d -> (0 <= ratio <= 1)%R ->
  (exists p, searched_place (N := XR) d (real_rows rows) whole (Fin ratio) (ts_length query) p) ->
  exists g' c, getBestMatch (N := XR) (Fin ratio) g query = Ret (g', c) /\
    best_of_closest (N := XR) (real_rows rows) k (Fin ratio) (map Fin xs) (searched (N := XR) d whole (Fin ratio) (ts_length query)) g c.
Proof.
  intros H k d rows old clock ratio0 t threads whole g0 total g query xs ratio Hd Ht Hlog Hmax E Ha Hq Hql Hr Hex.
  apply (ready_best_exact (RP := founder) k d rows whole g query xs ratio); auto.
  eapply (ready_asked (N := XR)); [|exact Ha]. eapply (ready_grouped (N := XR)); eauto; [apply half_fin|lia].
Qed.
Print Assumptions C23_best_match_exact.

(** ex2_data (two series, 0 1 9 and 1 1 8) grouped with threshold 6; query 1 9 *)
Example C23_example_pre : holds ex2_data ex2_rows /\ moderate_data ex2_rows /\ moderate_query bf_query /\
  moderate_ratio (b64_ofZ 1) /\ log_safe ex2_data (fun _ => false) /\ ts_length bf_query <= ds_maxcol ex2_data /\
  snd ex2_grouped = Ret 3 /\ asked (N := B64) simple_alg (fst ex2_grouped) (fst ex2_grouped) /\
  searched_place (N := B64) ex2_data ex2_rows false (b64_ofZ 1) (ts_length bf_query) (2, (0, 1)).
Proof.
  pose proof C26_example_pre as (H1 & H2 & H3 & H4 & _). splits; auto.
  - intros l. left; reflexivity.
  - vm_compute. discriminate.
  - constructor.
  - split; [split|].
    + vm_compute. split; discriminate.
    + exists 1. split; vm_compute; [reflexivity|discriminate].
    + exists (map b64_ofZ [0; 1; 9]). split; [reflexivity|]. vm_compute. split; discriminate.
Qed.

Definition show_best {A} (r : res (A * cand B64)) :=
  match r with Ret (_, c) => show_cands (Ret [c]) | _ => None end.

Example C23_example_run :
  show_best (getBestMatch (N := B64) (b64_ofZ 1) (fst ex2_grouped) bf_query) = Some [(2, 0, 1, B2SF (b64_ofZ 0))].
Proof. vm_compute. reflexivity. Qed.
