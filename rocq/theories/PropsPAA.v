(** Properties C36 and C41: piecewise aggregate approximation and the search with it.
    Specification: PAASpec.v ([mean], [block_means]), DataSpec.v, SearchSpec.v. *)
From Coq Require Import String Reals Lra Arith.
From Flocq Require Import IEEE754.BinarySingleNaN Core.Raux.
From Verif Require Import Base Num NumB64 NumB64Laws NumLaws NumFacts NumXR NumXRLaws LoopFacts TimeSeries Lemire Distance
  DtwReal DistSpec DistLink TSSet StdAlg HeapFacts Candidate BruteForce DataSpec DataProofs SearchSpec SearchCases PropsData PropsSearch PropsGroup
  PropsDistance PAA PAASpec PAAProofs PAASearch.
Local Open Scope Z_scope.
Local Open Scope list_scope.

(** The wrappers of a data set: a new one, and what preparations (successful or not)
    make of it. *)
Inductive wrapper {N : Num} (d : dataset N) : paa N -> Prop :=
| wrapper_new w : paa_new d = Ret w -> wrapper d w
| wrapper_prepare w B w' r : wrapper d w -> generatePAAMatrix w d B = (w', r) -> wrapper d w'.

Lemma gen_rows_length {N : Num} (d : dataset N) il b : forall n i mat, length (fst (gen_rows d il b n i mat)) = length mat.
Proof.
  induction n as [|n IH]; intros i mat; cbn [gen_rows]; [reflexivity|]. destruct (_ <=? _); [reflexivity|].
  destruct (gen_row _ _ _ _ _ _ _) as [row r]. destruct r; cbn [fst]; try apply upd_length. rewrite IH. apply upd_length.
Qed.

Lemma wrapper_length {N : Num} (d : dataset N) rows w : holds d rows -> wrapper d w -> length (paa_mat w) = length rows.
Proof.
  intros Hd Hw. induction Hw as [w E|w B w' r Hw IH E].
  - destruct (paa_new_ok d rows Hd) as (w' & E' & _ & Hl). congruence.
  - rewrite <- IH. revert E. unfold generatePAAMatrix. destruct (B <? 1); [congruence|].
    destruct (getItemLength _ _) as [il| | |]; try congruence.
    pose proof (gen_rows_length d il (Z.min B il) (Z.to_nat (ds_count d)) 0 (paa_mat w)) as Hl.
    destruct (gen_rows _ _ _ _ _ _) as [mat rr]. cbn [fst] in Hl. destruct rr; intros E; injection E as <- <-; exact Hl.
Qed.

(** data sets for which the preparation works: all series have the same length and
    there are more series than points in one *)
Definition wide_enough {N : Num} (d : dataset N) (rows : list (list (D N))) : Prop :=
  1 <= ds_maxcol d < ds_count d /\ forall row, In row rows -> Z.of_nat (length row) = ds_maxcol d.

Lemma wide_item {N : Num} (d : dataset N) rows : holds d rows -> wide_enough d rows ->
  getItemLength d (ds_maxcol d) = Ret (Z.of_nat (Z.to_nat (ds_maxcol d))).
Proof.
  intros (buf & _ & Ec & _ & _ & Hr) [Hc Hl]. destruct (nth_error rows (Z.to_nat (ds_maxcol d))) as [row|] eqn:E.
  2:{ apply nth_error_None in E. lia. }
  destruct (Hr _ _ E) as (El & _). pose proof (Hl row (nth_error_In _ _ E)). unfold getItemLength. apply aget_Ret. split; [lia|].
  rewrite El. f_equal. lia.
Qed.

Lemma block_means_clip {N : Num} (b b' : nat) (xs : list (D N)) : xs <> [] -> (length xs <= b)%nat -> (length xs <= b')%nat ->
  block_means b xs = block_means b' xs.
Proof.
  intros Hne Hb Hb'. assert (Hx : (0 < length xs)%nat) by (destruct xs; [contradiction|simpl; lia]).
  assert (G : forall c, (length xs <= c)%nat -> block_means c xs = [mean xs]).
  { intros c Hc. unfold block_means. rewrite ceil_pred by lia. rewrite Nat.div_small by lia. cbn. unfold block. cbn. rewrite firstn_all2 by lia. reflexivity. }
  rewrite (G b Hb), (G b' Hb'). reflexivity.
Qed.

(** C36, the part that holds: preparation succeeds (also after earlier preparations) and
    the PAA of every subsequence whose length is a multiple of the block size (clipped to
    the series length) consists of the means of its blocks.  Missing: other lengths, see
    below, and other data sets. *)
Theorem C36_block_averages_partial : forall (N : Num) (d : dataset N) (rows : list (list (D N))) (w0 : paa N) (B : Z),
  holds d rows -> wide_enough d rows -> wrapper d w0 -> 1 <= B ->
  exists w, generatePAAMatrix w0 d B = (w, Ret tt) /\
  forall i row s e, row_of rows i = Some row -> 0 <= s < e -> e <= Z.of_nat (length row) ->
    (e - s) mod (Z.min B (ds_maxcol d)) = 0 ->
    exists t, getPAA w d i s e = Ret t /\ ts_points t = block_means (Z.to_nat B) (slice row s e).
Proof.
  intros N d rows w0 B Hd Hwide Hw HB. pose proof Hwide as [Hc Hl]. set (L := Z.to_nat (ds_maxcol d)).
  assert (HL : forall row, In row rows -> (L <= length row)%nat) by (intros row Hin; specialize (Hl row Hin); lia).
  destruct (generate_ok d rows Hd w0 L B (wide_item d rows Hd Hwide) ltac:(lia) HL (wrapper_length d rows w0 Hd Hw) HB) as (w & E & Hp & _).
  exists w. split; [exact E|]. intros i row s e Er Hs He Hm. set (b := Z.to_nat (Z.min B (Z.of_nat L))) in *.
  apply row_of_Some in Er as Hi. destruct Hi as [_ Ei]. pose proof (Hl row (nth_error_In _ _ Ei)) as Hlr.
  pose proof (getPAA_ok d rows Hd L b w Hp HL i row (Z.to_nat s) (Z.to_nat e) Er ltac:(lia)) as G. rewrite !Z2Nat.id in G by lia.
  assert (Hb : Z.of_nat b = Z.min B (ds_maxcol d)) by lia.
  assert (Hm' : ((Z.to_nat e - Z.to_nat s) mod b = 0)%nat).
  { apply Nat2Z.inj. rewrite Nat2Z.inj_mod, Hb. replace (Z.of_nat (Z.to_nat e - Z.to_nat s)) with (e - s) by lia. exact Hm. }
  rewrite G by exact Hm'. eexists. split; [reflexivity|]. rewrite ts_of_list_points.
  destruct (Z.le_ge_cases B (ds_maxcol d)) as [HBL|HBL].
  - f_equal. lia.
  - rewrite Z.min_r in Hm by lia. assert (Hlen : length (slice row s e) = Z.to_nat (e - s)) by (unfold slice; rewrite firstn_length, skipn_length; lia).
    apply block_means_clip; try lia. intros E0. rewrite E0 in Hlen. simpl in Hlen. lia.
Qed.
Print Assumptions C36_block_averages_partial.

(** C36 is false for all other subsequences: their last block is summed up in a variable
    that was never initialised. *)
Theorem C36_leftover_refuted : forall (N : Num) (d : dataset N) (rows : list (list (D N))) (w0 w : paa N) (B : Z),
  holds d rows -> wide_enough d rows -> wrapper d w0 -> 1 <= B -> generatePAAMatrix w0 d B = (w, Ret tt) ->
  forall i row s e, row_of rows i = Some row -> 0 <= s < e -> e <= Z.of_nat (length row) ->
    (e - s) mod (Z.min B (ds_maxcol d)) <> 0 -> getPAA w d i s e = UB Uninit.
Proof.
  intros N d rows w0 w B Hd Hwide Hw HB E i row s e Er Hs He Hm. pose proof Hwide as [Hc Hl]. set (L := Z.to_nat (ds_maxcol d)).
  assert (HL : forall row, In row rows -> (L <= length row)%nat) by (intros r Hin; specialize (Hl r Hin); lia).
  destruct (generate_ok d rows Hd w0 L B (wide_item d rows Hd Hwide) ltac:(lia) HL (wrapper_length d rows w0 Hd Hw) HB) as (w' & E' & Hp & _).
  assert (w' = w) by congruence. subst w'. set (b := Z.to_nat (Z.min B (Z.of_nat L))) in *.
  apply row_of_Some in Er as Hi. destruct Hi as [_ Ei]. pose proof (Hl row (nth_error_In _ _ Ei)) as Hlr.
  pose proof (getPAA_uninit d rows Hd L b w Hp HL i row (Z.to_nat s) (Z.to_nat e) Er ltac:(lia)) as G. rewrite !Z2Nat.id in G by lia.
  apply G. intros Hm'. apply Hm. assert (Hb : Z.of_nat b = Z.min B (ds_maxcol d)) by lia. rewrite <- Hb.
  replace (e - s) with (Z.of_nat (Z.to_nat e - Z.to_nat s)) by lia. rewrite <- Nat2Z.inj_mod, Hm'. reflexivity.
Qed.
Print Assumptions C36_leftover_refuted.

(** The averages themselves (for whole series, as used for the query), in any
    arithmetic: exact for every length and block size. *)
Theorem C36_series_averages : forall (N : Num) (t : TS N) (B : Z),
  ts_ok t -> 1 <= ts_length t -> 1 <= B ->
  exists p, tsPAA t B = Ret p /\ ts_points p = block_means (Z.to_nat B) (ts_points t).
Proof.
  intros N t B Ht Hl HB. pose proof (tsPAA_ok t (Z.to_nat B) Ht ltac:(lia) Hl) as E. rewrite Z2Nat.id in E by lia.
  eexists. split; [exact E|]. apply ts_of_list_points.
Qed.
Print Assumptions C36_series_averages.

(** Preparation reads outside a vector whenever there are not more series than points
    in the longest one: for every block size. *)
Theorem C36_prepare_refuted : forall (N : Num) (d : dataset N) (w : paa N) (B : Z),
  0 <= ds_maxcol d -> Z.of_nat (length (ds_lengths d)) <= ds_maxcol d -> 1 <= B ->
  generatePAAMatrix w d B = (w, UB OutOfBounds).
Proof.
  intros N d w B Hc Hl HB. unfold generatePAAMatrix. destruct (Z.ltb_spec B 1); [lia|].
  unfold getItemLength, aget. destruct (Z.leb_spec 0 (ds_maxcol d)); [|lia].
  replace (nth_error (ds_lengths d) (Z.to_nat (ds_maxcol d))) with (@None Z); [reflexivity|].
  symmetry. apply nth_error_None. lia.
Qed.
Print Assumptions C36_prepare_refuted.

(** ** Examples *)
Definition z_rows (l : list (list Z)) : list (list (D B64)) := map (map b64_ofZ) l.
Definition z_data (mc : Z) (buf : list Z) (lens : list Z) : dataset B64 :=
  mkDS (N := B64) (Some (map b64_ofZ buf)) [] lens (Z.of_nat (length lens)) mc "f"%string false.

(** five series of four points *)
Definition sq : list Z := [1; 2; 3; 5; 7; 9; 1; 2; 4; 4; 4; 4; 0; 1; 0; 1; 2; 2; 8; 8].
Definition sq_rows := z_rows [[1; 2; 3; 5]; [7; 9; 1; 2]; [4; 4; 4; 4]; [0; 1; 0; 1]; [2; 2; 8; 8]].
Definition sq_data := z_data 4 sq [4; 4; 4; 4; 4].
Lemma sq_holds : holds sq_data sq_rows.
Proof.
  exists (map b64_ofZ sq). splits; try reflexivity; try (unfold int_max; simpl; lia).
  intros i row E. destruct i as [|[|[|[|[|i]]]]]; [| | | | |destruct i; discriminate]; injection E as <-; splits; try reflexivity;
    try (simpl; lia); intros j v Ej; repeat (destruct j as [|j]; [injection Ej as <-; reflexivity|]); destruct j; discriminate.
Qed.
Lemma sq_wide : wide_enough sq_data sq_rows.
Proof. split; [simpl; lia|]. intros row Hin. simpl in Hin. repeat (destruct Hin as [<-|Hin]; [reflexivity|]). contradiction. Qed.

Definition prep (d : dataset B64) (B : Z) : res (paa B64) :=
  w <- paa_new d ;; match generatePAAMatrix w d B with (w, Ret _) => Ret w | (_, Throw e) => Throw e | (_, UB u) => UB u | (_, Hang) => Hang end.
Definition show_paa (r : res (TS B64)) :=
  match r with Ret t => inl (B:=res unit) (Some (map (@B2SF prec64 emax64) (ts_points t))) | Throw e => inr (Throw e) | UB u => inr (UB u) | Hang => inr Hang end.

Example C36_example :
  show_paa (w <- prep sq_data 2 ;; getPAA w sq_data 1 1 3) = inl (Some [B2SF (b64_ofZ 5)]) /\
  show_paa (w <- prep sq_data 2 ;; getPAA w sq_data 0 0 4) = inl (Some (map (@B2SF prec64 emax64) [b64_lit 3 2; b64_ofZ 4])) /\
  show_paa (w <- prep sq_data 2 ;; getPAA w sq_data 1 0 3) = inr (UB Uninit).
Proof. splits; vm_compute; reflexivity. Qed.

(** With series of different lengths the averages may even be those of other blocks:
    here the second block of 1 2 3 5 is 3 5, but the result has 3 instead of 4. *)
Definition odd_data := z_data 4 sq [4; 4; 4; 4; 3].
Example C36_unequal_lengths :
  show_paa (w <- prep odd_data 2 ;; getPAA w odd_data 0 0 4) = inl (Some (map (@B2SF prec64 emax64) [b64_lit 3 2; b64_ofZ 3])).
Proof. vm_compute. reflexivity. Qed.

(** ** C41: searching with PAA *)

Lemma mean_one_real (x : R) : mean (N := XR) [Fin x] = Fin x.
Proof. unfold mean. cbn. unfold XR, XRN, n0. cbn. unfold xdiv, xadd, xofZ. cbn. rewrite Req_bool_false by lra. apply (f_equal Fin). field. Qed.

(** IEEE: (0 + v) / 1 = v for every finite v but -0 *)
Lemma mean_one_ieee (v : b64) : is_finite v = true -> v <> B754_zero true -> mean (N := B64) [v] = v.
Proof.
  intros Fv Hz. unfold mean. cbn [fold_left length].
  change (Bdiv mode_NE (Bplus mode_NE (@n0 B64) v) (b64_ofZ 1) = v).
  destruct v as [s|s| |s m e He] eqn:Ev; try discriminate.
  - destruct s; [contradiction|]. vm_compute. reflexivity.
  - rewrite <- Ev in *.
    assert (E1 : val (b64_ofZ 1) = Fin 1) by (rewrite ofZ_small by lia; reflexivity).
    assert (Fm : fmt64 (B2R v)) by (pose proof (val_fmt v) as F; rewrite val_finite in F by exact Fv; exact F).
    assert (Ep : val (Bplus mode_NE (@n0 B64) v) = Fin (B2R v)).
    { rewrite val_plus, val_0, (val_finite v) by exact Fv. simpl. rewrite Rplus_0_l. apply R64_fmt. exact Fm. }
    assert (Ed : val (Bdiv mode_NE (Bplus mode_NE (@n0 B64) v) (b64_ofZ 1)) = Fin (B2R v)).
    { rewrite val_div.
      - rewrite Ep, E1. simpl. rewrite Req_bool_false by lra. unfold Rdiv. rewrite Rinv_1, Rmult_1_r. apply R64_fmt. exact Fm.
      - left. apply val_Fin in E1 as [_ ->]. lra. }
    apply val_inj_pos; [|rewrite Ed, val_finite by exact Fv; reflexivity].
    apply val_Fin in Ed as [_ Er]. assert (Hnz : B2R v <> 0%R) by (rewrite Ev; simpl; apply F2R_sgn).
    destruct (Bsign v) eqn:S1; destruct (Bsign (Bdiv mode_NE (Bplus mode_NE (@n0 B64) v) (b64_ofZ 1))) eqn:S2; auto.
    + apply sign_neg in S1. apply sign_pos in S2. lra.
    + apply sign_pos in S1. apply sign_neg in S2. lra.
Qed.

Lemma moderate_finite (v : b64) : moderate_value v -> is_finite v = true.
Proof.
  unfold moderate_value, nle, nn. intros H. destruct v as [s|s| |s m e He]; auto; exfalso; revert H.
  - destruct s; vm_compute; intuition discriminate.
  - vm_compute; intuition discriminate.
Qed.

(** Block size 1, IEEE doubles without negative zeros: the answer is the exact one. *)
Theorem C41_paa_one_ieee_partial : forall (H : std_alg) (k : kind) (d : dataset B64) (rows : list (list (D B64))) (w0 w : paa B64)
    (query : TS B64) (ratio : D B64) K,
  std_ok H -> holds d rows -> wide_enough d rows -> wrapper d w0 -> generatePAAMatrix w0 d 1 = (w, Ret tt) ->
  moderate_data rows -> moderate_query query -> moderate_ratio ratio -> 1 <= K ->
  (forall v : b64, In v (ts_points query) \/ (exists row, In row rows /\ In v row) -> v <> B754_zero true) ->
  no_near_ties (N := B64) rows k ratio (ts_points query) (long_enough rows) ->
  exists best, getKBestMatchesPAA (N := B64) H ratio w d query K (kind_name k) = Ret best /\
    best_matches (N := B64) rows k ratio (ts_points query) (long_enough rows) K best /\ ascending best.
Proof.
  intros H k d rows w0 w query ratio K Hok Hd Hwide Hw Ew Hm Hq Hr HK Hz Ht.
  destruct (C26_brute_force_exact_ieee H k d rows query ratio K Hok Hd Hm Hq Hr HK Ht) as (best & E & Hb).
  exists best. split; [|exact Hb]. rewrite <- E. pose proof Hwide as [Hc Hlen]. set (L := Z.to_nat (ds_maxcol d)).
  assert (HL : forall row, In row rows -> (L <= length row)%nat) by (intros r Hin; specialize (Hlen r Hin); lia).
  destruct (generate_ok d _ Hd w0 L 1 (wide_item d _ Hd Hwide) ltac:(lia) HL (wrapper_length d _ w0 Hd Hw) ltac:(lia)) as (w' & E' & Hp & _).
  assert (w' = w) by congruence. subst w'. replace (Z.to_nat (Z.min 1 (Z.of_nat L))) with 1%nat in Hp by lia.
  apply (paa_one (N := B64) d rows Hd H L); auto.
  - apply wide_item with (rows := rows); auto.
  - intros r Hin. specialize (Hlen r Hin). lia.
  - apply Hq.
  - destruct Hq as (_ & _ & Hl). lia.
  - intros v Hv. apply mean_one_ieee; [|apply Hz; exact Hv].
    assert (G : moderate_value v).
    { destruct Hv as [Hv|(r & Hin & Hv)].
      - destruct Hq as (_ & F & _). rewrite Forall_forall in F. auto.
      - destruct (Hm r Hin) as [F _]. rewrite Forall_forall in F. auto. }
    apply moderate_finite. exact G.
Qed.
Print Assumptions C41_paa_one_ieee_partial.

(** Block size 1, real data: the answer is the exact one. *)
Theorem C41_paa_one_reals_partial : forall (H : std_alg) (k : kind) (d : dataset XR) (rows : list (list R)) (w0 w : paa XR)
    (query : TS XR) (xs : list R) (ratio : R) K,
  std_ok H -> holds d (real_rows rows) -> wide_enough d (real_rows rows) -> wrapper d w0 -> generatePAAMatrix w0 d 1 = (w, Ret tt) ->
  is_series query xs -> 2 <= Z.of_nat (length xs) <= 2 ^ 30 ->
  (forall row, In row rows -> Z.of_nat (length row) <= 2 ^ 30) -> (0 <= ratio <= 1)%R -> 1 <= K ->
  no_near_ties (N := XR) (real_rows rows) k (Fin ratio) (map Fin xs) (long_enough (real_rows rows)) ->
  exists best, getKBestMatchesPAA (N := XR) H (Fin ratio) w d query K (kind_name k) = Ret best /\
    best_matches (N := XR) (real_rows rows) k (Fin ratio) (map Fin xs) (long_enough (real_rows rows)) K best /\ ascending best.
Proof.
  intros H k d rows w0 w query xs ratio K Hok Hd Hwide Hw Ew Hq Hl Hrows Hr HK Ht.
  destruct (C26_brute_force_exact_reals H k d rows query xs ratio K Hok Hd Hq Hl Hrows Hr HK Ht) as (best & E & Hb).
  exists best. split; [|exact Hb]. rewrite <- E. pose proof Hwide as [Hc Hlen]. set (L := Z.to_nat (ds_maxcol d)).
  assert (HL : forall row, In row (real_rows rows) -> (L <= length row)%nat) by (intros r Hin; specialize (Hlen r Hin); lia).
  destruct (generate_ok d _ Hd w0 L 1 (wide_item d _ Hd Hwide) ltac:(lia) HL (wrapper_length d _ w0 Hd Hw) ltac:(lia)) as (w' & E' & Hp & _).
  assert (w' = w) by congruence. subst w'. replace (Z.to_nat (Z.min 1 (Z.of_nat L))) with 1%nat in Hp by lia.
  apply (paa_one d (real_rows rows) Hd H L); auto.
  - apply wide_item with (rows := real_rows rows); auto.
  - intros r Hin. specialize (Hlen r Hin). lia.
  - apply Hq.
  - rewrite (is_series_len query xs Hq). unfold Rlen. lia.
  - intros v Hv. assert (G : exists x, v = Fin x).
    { destruct Hv as [Hv|(r & Hin & Hv)].
      - rewrite (proj2 Hq) in Hv. apply in_map_iff in Hv as (x & <- & _). eauto.
      - unfold real_rows in Hin. apply in_map_iff in Hin as (r' & <- & _). apply in_map_iff in Hv as (x & <- & _). eauto. }
    destruct G as [x ->]. apply mean_one_real.
Qed.
Print Assumptions C41_paa_one_reals_partial.

(** Every larger block size (and series of at least three points): the search never
    returns. *)
Theorem C41_paa_search_refuted : forall (N : Num) (H : std_alg) (d : dataset N) (rows : list (list (D N))) (w0 w : paa N) (B : Z)
    (query : TS N) (ratio : D N) K name l,
  holds d rows -> wide_enough d rows -> 3 <= ds_maxcol d -> wrapper d w0 -> 2 <= B -> generatePAAMatrix w0 d B = (w, Ret tt) ->
  getKBestMatchesPAA H ratio w d query K name <> Ret l.
Proof.
  intros N H d rows w0 w B query ratio K name l Hd Hwide H3 Hw HB E. pose proof Hwide as [Hc Hl]. set (L := Z.to_nat (ds_maxcol d)).
  assert (HL : forall row, In row rows -> (L <= length row)%nat) by (intros r Hin; specialize (Hl r Hin); lia).
  destruct (generate_ok d rows Hd w0 L B (wide_item d rows Hd Hwide) ltac:(lia) HL (wrapper_length d rows w0 Hd Hw) ltac:(lia)) as (w' & E' & Hp & _).
  assert (w' = w) by congruence. subst w'.
  apply (paa_more_fails d rows Hd H L (wide_item d rows Hd Hwide) ratio w _ query K name l Hp); try lia; auto.
  intros ->. destruct Hd as (buf & _ & Ec & _). simpl in Ec. lia.
Qed.
Print Assumptions C41_paa_search_refuted.

Example C41_example_run :
  show_cands (w <- prep sq_data 1 ;; getKBestMatchesPAA (N := B64) simple_alg (b64_ofZ 1) w sq_data bf_query 2 "manhattan") =
  show_cands (getKBestMatchesBruteForce (N := B64) simple_alg (b64_ofZ 1) sq_data bf_query 2 "manhattan") /\
  match (w <- prep sq_data 1 ;; getKBestMatchesPAA (N := B64) simple_alg (b64_ofZ 1) w sq_data bf_query 2 "manhattan") with
  | Ret l => length l | _ => O end = 2%nat /\
  match (w <- prep sq_data 2 ;; getKBestMatchesPAA (N := B64) simple_alg (b64_ofZ 1) w sq_data bf_query 2 "manhattan") with
  | UB Uninit => true | _ => false end = true.
Proof. splits; vm_compute; reflexivity. Qed.

(** a case meeting all hypotheses of the theorem for block size 1 *)
Definition duo_rows := z_rows [[1; 2]; [5; 9]; [3; 7]].
Definition duo_data := z_data 2 [1; 2; 5; 9; 3; 7] [2; 2; 2].
Definition duo_places : list place := [(2, (0, 0)); (2, (1, 0)); (2, (2, 0))].
Definition poszero (v : b64) : bool := match v with B754_zero true => false | _ => true end.

Example C41_example_pre : holds duo_data duo_rows /\ wide_enough duo_data duo_rows /\
  moderate_data duo_rows /\ moderate_query bf_query /\ moderate_ratio (b64_ofZ 1) /\
  (forall v : b64, In v (ts_points bf_query) \/ (exists row, In row duo_rows /\ In v row) -> v <> B754_zero true) /\
  no_near_ties (N := B64) duo_rows KManhattan (b64_ofZ 1) (ts_points bf_query) (long_enough duo_rows).
Proof.
  split; [|split; [|split; [|split; [|split; [|split]]]]].
  - exists (map b64_ofZ [1; 2; 5; 9; 3; 7]). splits; try reflexivity; try (unfold int_max; simpl; lia).
    intros i row E. destruct i as [|[|[|i]]]; [| | |destruct i; discriminate]; injection E as <-; splits; try reflexivity;
      try (simpl; lia); intros j v Ej; repeat (destruct j as [|j]; [injection Ej as <-; reflexivity|]); destruct j; discriminate.
  - split; [simpl; lia|]. intros row [<-|[<-|[<-|[]]]]; reflexivity.
  - intros row [<-|[<-|[<-|[]]]]; (split; [|vm_compute; discriminate]); apply leb64_all; vm_compute; reflexivity.
  - apply C26_example_pre.
  - apply C26_example_pre.
  - intros v Hv. assert (G : forallb poszero (ts_points (N := B64) bf_query ++ concat duo_rows) = true) by (vm_compute; reflexivity).
    rewrite forallb_forall in G. assert (Hin : In v (ts_points (N := B64) bf_query ++ concat duo_rows)).
    { apply in_or_app. destruct Hv as [Hv|(row & Hr & Hv)]; auto. right. apply in_concat. eauto. }
    specialize (G v Hin). intros ->. discriminate.
  - intros p p' v v' Hp Hp' Ev Ev'.
    assert (P1 : In p duo_places) by (apply (BruteProofs.bf_places_In (N := B64) duo_rows) in Hp; exact Hp).
    assert (P2 : In p' duo_places) by (apply (BruteProofs.bf_places_In (N := B64) duo_rows) in Hp'; exact Hp').
    assert (G : forallb (fun p => forallb (fun p' =>
      match dtw_of (N := B64) KManhattan (b64_ofZ 1) (ts_points bf_query) (place_values duo_rows p),
            dtw_of (N := B64) KManhattan (b64_ofZ 1) (ts_points bf_query) (place_values duo_rows p') with
      | Ret v, Ret v' => sepb v v' | _, _ => false end) duo_places) duo_places = true) by (vm_compute; reflexivity).
    rewrite forallb_forall in G. specialize (G p P1). rewrite forallb_forall in G. specialize (G p' P2).
    cbv beta in G. rewrite Ev, Ev' in G. unfold sepb in G. apply orb_true_iff in G as [G|G].
    + left. apply (neqb_true (N := B64)). exact G.
    + right. apply negb_true_iff in G. exact G.
Qed.
