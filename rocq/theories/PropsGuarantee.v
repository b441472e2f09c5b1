(** Property C52: how far the answer of a query can be from the nearest
    subsequence.  Specifications: SearchSpec.v, QuerySpec.v; the price of
    replacing a subsequence by its representative: [price] in GapReal.v. *)
From Coq Require Import String Reals Lra Psatz.
From Flocq Require Import Core IEEE754.BinarySingleNaN.
From Verif Require Import Base Num NumB64 NumB64Laws NumLaws NumFacts NumXR NumXRLaws LoopFacts TimeSeries Lemire Distance
  DtwSpec DtwPaths DtwReal DtwResults Pairwise DistSpec DistLink TSSet StdAlg HeapFacts Candidate Group GroupSpace Band DataSpec DataProofs
  GroupSpec GroupView GroupDist GroupProofs
  SearchSpec SearchProofs SearchCases QueryCases Traverse QueryState QuerySpec BestMatch QueryProofs PropsDistance PropsData PropsGroup PropsSearch
  PropsQuery GapReal AccReal AccDtw AccEnd AccKinds AccLink AccPair PropsAccuracy.
Local Open Scope Z_scope.
Local Open Scope list_scope.

(** queries leave the groups as they are *)
Lemma asked_views {N : Num} {LW : NumLaws N} (d : dataset N) rows H old clock (ratio : D N) k thr threads whole g0 total g :
  holds d rows -> nltb (ndiv thr (nofZ 2)) ninf = true -> 1 <= ds_maxcol d -> 1 <= threads -> log_safe d clock ->
  groupAllLengths clock ratio (mkGS d old) (kind_name k) thr threads whole = (g0, Ret total) ->
  asked H g0 g -> forall l, grouped_length d whole l -> level_view g l = level_view g0 l.
Proof.
  intros Hd Hthr Hm Ht Hlog E Ha l Hl.
  destruct (grouped_state d rows Hd old clock ratio k thr threads whole g0 total Hthr Hm Ht Hlog E) as (gss & H1 & H2 & _ & _).
  assert (Hlr : 0 <= l <= ds_maxcol d) by (revert Hl; unfold grouped_length; destruct whole; lia).
  destruct (gss l) as [gs|] eqn:Egs; [|exfalso; apply (proj2 (H2 l Hlr) Hl); exact Egs].
  pose proof (asked_state d rows H k g0 g gss H1 Ha) as H3.
  rewrite (set_view (RP := founder) d rows k g gss l gs eq_refl H3 Hlr Egs).
  rewrite (set_view (RP := founder) d rows k g0 gss l gs eq_refl H1 Hlr Egs). reflexivity.
Qed.

(** ** exact arithmetic *)
Section Exact.
Variable k : kind.
Variable ratio : R.
Hypothesis Hr : (0 <= ratio <= 1)%R.

Lemma dtw_of_real (xs ys : list R) : 2 <= Rlen xs <= 2 ^ 30 -> 2 <= Rlen ys <= 2 ^ 30 ->
  let r := band_width ratio (Z.max (Rlen xs) (Rlen ys)) in
  Z.abs (Rlen xs - Rlen ys) <= r ->
  0 <= r /\ exists p, warping_path (Rlen xs) (Rlen ys) p /\ in_band r p /\
    (forall q, warping_path (Rlen xs) (Rlen ys) q -> in_band r q -> (real_cost k xs ys p <= real_cost k xs ys q)%R) /\
    dtw_of (N := XR) k (Fin ratio) (map Fin xs) (map Fin ys) = Ret (Fin (real_cost k xs ys p)).
Proof.
  intros H1 H2 r Hab. split; [apply band_width_nonneg; [lia|lra]|].
  destruct (C01_dtw_is_the_optimum k (rs xs) (rs ys) xs ys ratio [] (rs_series xs) (rs_series ys) H1 H2) as [G _]; [lra| |].
  { apply Rle_trans with (IZR (Z.max (Rlen xs) (Rlen ys)) * 1)%R.
    - apply Rmult_le_compat_l; [apply (IZR_le 0); lia|lra].
    - rewrite Rmult_1_r. apply IZR_le. unfold int_max. lia. }
  destruct (G Hab) as (p & P1 & P2 & P3 & E). exists p. splits; auto.
Qed.

Lemma nle_Fin a b : @nle XR (Fin a) (Fin b) -> (a <= b)%R.
Proof. intros (_ & _ & E). simpl in E. destruct (Rlt_bool_spec b a); [discriminate|lra]. Qed.

Lemma real_pair_sym kk xs ys : length xs = length ys -> real_pair kk xs ys = real_pair kk ys xs.
Proof. intros Hl. destruct kk; cbn [real_pair]; [apply rms_sym|apply mean_abs_sym|apply max_abs_sym]; auto. Qed.

Lemma price_nonneg kk m r : 0 <= m -> 0 <= r -> (0 <= price kk m r)%R.
Proof.
  intros Hm Hr0. destruct kk; cbn [price]; [lra| |lra].
  assert (0 <= IZR (visits_at_most m r))%R by (apply (IZR_le 0); unfold visits_at_most; lia). lra.
Qed.

(** replacing [xs] by [ys] *)
Lemma dtw_of_gap (qs xs ys : list R) v w : 2 <= Rlen qs <= 2 ^ 30 -> 2 <= Rlen xs <= 2 ^ 30 -> length xs = length ys ->
  let r := band_width ratio (Z.max (Rlen qs) (Rlen xs)) in
  Z.abs (Rlen qs - Rlen xs) <= r ->
  dtw_of (N := XR) k (Fin ratio) (map Fin qs) (map Fin xs) = Ret (Fin v) ->
  dtw_of (N := XR) k (Fin ratio) (map Fin qs) (map Fin ys) = Ret (Fin w) ->
  (w <= v + price k (Rlen qs) r * real_pair k xs ys)%R.
Proof.
  intros H1 H2 Hl r Hab Ev Ew. assert (Ly : Rlen ys = Rlen xs) by (unfold Rlen; rewrite Hl; reflexivity).
  destruct (dtw_of_real qs xs H1 H2 Hab) as (Hr0 & p & P1 & P2 & P3 & E1).
  destruct (dtw_of_real qs ys H1 ltac:(lia)) as (_ & q & Q1 & Q2 & Q3 & E2); [rewrite Ly; exact Hab|].
  rewrite Ly in *. rewrite Ev in E1. injection E1 as ->. rewrite Ew in E2. injection E2 as ->.
  apply Rle_trans with (real_cost k qs ys p); [apply Q3; auto|]. apply gap; auto; lia.
Qed.

Lemma dtw_of_sym (qs xs : list R) : 2 <= Rlen qs <= 2 ^ 30 -> 2 <= Rlen xs <= 2 ^ 30 ->
  dtw_of (N := XR) k (Fin ratio) (map Fin qs) (map Fin xs) = dtw_of (N := XR) k (Fin ratio) (map Fin xs) (map Fin qs).
Proof.
  intros H1 H2.
  destruct (C06_dtw_symmetric_exact k (rs qs) (rs xs) qs xs ratio [] (rs_series qs) (rs_series xs) H1 H2) as (d & E1 & E2); [lra| |].
  { apply Rle_trans with (IZR (Z.max (Rlen qs) (Rlen xs)) * 1)%R.
    - apply Rmult_le_compat_l; [apply (IZR_le 0); lia|lra].
    - rewrite Rmult_1_r. apply IZR_le. unfold int_max. lia. }
  transitivity (Ret d : res (D XR)); [exact E1|symmetry; exact E2].
Qed.
End Exact.

(** In exact arithmetic: the subsequence a query answers with is a true match,
    and no subsequence of the searched lengths is nearer to the query by more
    than the price of half the similarity threshold.  (Euclidean: a quarter of
    the threshold; Chebyshev: half of it; Manhattan: a quarter of it times the
    number of points of the query that one point may be matched with.) *)
Theorem C52_best_match_near_optimum_exact : forall (H : std_alg) (k : kind) (d : dataset XR) (rows : list (list R))
    old clock (ratio0 : D XR) (t : R) threads whole g0 total g (query : TS XR) (xs : list R) (ratio : R),
  holds d (real_rows rows) -> 1 <= threads -> log_safe d clock -> ds_maxcol d <= 2 ^ 30 -> (0 <= t)%R ->
  groupAllLengths (N := XR) clock ratio0 (mkGS d old) (kind_name k) (Fin t) threads whole = (g0, Ret total) ->
  asked (N := XR) H g0 g ->
  is_series query xs -> 2 <= ts_length query <= ds_maxcol d -> (0 <= ratio <= 1)%R ->
  (exists p, searched_place (N := XR) d (real_rows rows) whole (Fin ratio) (ts_length query) p) ->
  exists g' c dist, getBestMatch (N := XR) (Fin ratio) g query = Ret (g', c) /\
    true_match (N := XR) (real_rows rows) k (Fin ratio) (map Fin xs) c /\ c_dist c = Fin dist /\
    forall p, searched_place (N := XR) d (real_rows rows) whole (Fin ratio) (ts_length query) p ->
      exists v, dtw_of (N := XR) k (Fin ratio) (map Fin xs) (place_values (real_rows rows) p) = Ret (Fin v) /\
        (dist <= v + price k (Rlen xs) (band_width ratio (Z.max (Rlen xs) (fst p))) * (t / 2))%R.
Proof.
  intros H k d rows old clock ratio0 t threads whole g0 total g query xs ratio Hd Ht Hlog Hmax Hpos E Ha Hq Hql Hr Hex.
  destruct (C23_best_match_exact H k d rows old clock ratio0 t threads whole g0 total g query xs ratio Hd Ht Hlog Hmax E Ha Hq Hql Hr Hex)
    as (g' & c & Eb & Htm & l0 & v0 & x0 & Hl0 & Hv0 & Hx0 & Elc & _ & Hclo & Hbest).
  destruct (C17_group_diameter k d rows old clock ratio0 t threads whole Hd Hpos ltac:(lia) Ht Hlog) as (g1 & total1 & E1 & Hdia).
  rewrite E in E1. injection E1 as <- _.
  assert (Lq : ts_length query = Rlen xs).
  { destruct Hq as [Hq1 Hq2]. unfold Rlen. pose proof (ts_points_length (N := XR) query Hq1) as L. rewrite Hq2, map_length in L. lia. }
  rewrite Lq in *.
  assert (Hviews : forall l, grouped_length d whole l -> exists vs, level_view g l = Some (Ret vs) /\ partitions (N := XR) (real_rows rows) l vs /\
      forall v c c', In v vs -> In c (v_members v) -> In c' (v_members v) ->
        (real_pair k (real_sub rows l (v_rep v)) (real_sub rows l c) <= t / 2)%R /\
        (real_pair k (real_sub rows l c) (real_sub rows l c') <= t)%R).
  { intros l Hl. destruct (Hdia l Hl) as (vs & V1 & V2 & V3). exists vs. splits; auto. rewrite <- V1.
    apply (asked_views (N := XR) d (real_rows rows) H old clock ratio0 k (Fin t) threads whole g0 total g); auto; [apply half_fin|lia]. }
  assert (Hgl : forall l, grouped_length d whole l -> 2 <= l <= 2 ^ 30).
  { intros l Hl. revert Hl. unfold grouped_length. destruct whole; lia. }
  assert (Hsub : forall l m, grouped_length d whole l -> is_sub (real_rows rows) l m ->
     place_values (real_rows rows) (l, m) = map Fin (real_sub rows l m) /\ Rlen (real_sub rows l m) = l).
  { intros l m Hl Hm. split; [apply (real_sub_values rows l m Hm)|]. apply (real_sub_len rows l m); auto. specialize (Hgl l Hl). lia. }
  assert (Hband : forall l, searched (N := XR) d whole (Fin ratio) (Rlen xs) l ->
     grouped_length d whole l /\ Z.abs (Rlen xs - l) <= band_width ratio (Z.max (Rlen xs) l)).
  { intros l (Hl & r & Er & Hab). split; auto. rewrite Z.max_comm. rewrite band_XR in Er.
    - injection Er as ->. lia.
    - lia.
    - lra.
    - specialize (Hgl l Hl). apply Rle_trans with (IZR (Z.max l (Rlen xs)) * 1)%R.
      + apply Rmult_le_compat_l; [apply (IZR_le 0); lia|lra].
      + rewrite Rmult_1_r. apply IZR_le. unfold int_max. lia. }
  assert (Hrep : forall l vs v, partitions (N := XR) (real_rows rows) l vs -> In v vs -> In (v_rep v) (v_members v)).
  { intros l vs v (_ & _ & P) Hin. destruct (P v Hin) as (P1 & _ & P2). rewrite P2.
    destruct (exists_last P1) as (i & a & ->). rewrite last_last. apply in_or_app. right. left. reflexivity. }
  assert (Hmem : forall l vs v m, partitions (N := XR) (real_rows rows) l vs -> In v vs -> In m (v_members v) -> is_sub (real_rows rows) l m).
  { intros l vs v m (_ & P & _) Hin Hm. apply P. apply in_concat. exists (v_members v). split; auto. apply in_map. auto. }
  (* distances between the query and a place *)
  assert (Hval : forall l m, searched (N := XR) d whole (Fin ratio) (Rlen xs) l -> is_sub (real_rows rows) l m ->
     exists v, dtw_of (N := XR) k (Fin ratio) (map Fin xs) (place_values (real_rows rows) (l, m)) = Ret (Fin v)).
  { intros l m Hl Hm. destruct (Hband l Hl) as [Hg Hab]. destruct (Hsub l m Hg Hm) as [-> Lm].
    destruct (dtw_of_real k ratio Hr xs (real_sub rows l m)) as (_ & p & _ & _ & _ & Ev).
    - lia.
    - rewrite Lm. apply (Hgl l Hg).
    - rewrite Lm. exact Hab.
    - eexists. exact Ev. }
  assert (Hsym : forall l m, searched (N := XR) d whole (Fin ratio) (Rlen xs) l -> is_sub (real_rows rows) l m ->
     dtw_of (N := XR) k (Fin ratio) (map Fin xs) (place_values (real_rows rows) (l, m)) =
     dtw_of (N := XR) k (Fin ratio) (place_values (real_rows rows) (l, m)) (map Fin xs)).
  { intros l m Hl Hm. destruct (Hband l Hl) as [Hg Hab]. destruct (Hsub l m Hg Hm) as [-> Lm].
    apply dtw_of_sym; auto; [lia|]. rewrite Lm. apply (Hgl l Hg). }
  (* the answer is not farther than the closest representative *)
  destruct (Hband l0 Hl0) as [Hg0 _]. destruct (Hviews l0 Hg0) as (vs0 & V1 & V2 & _).
  destruct Hv0 as (vs0' & V1' & Hin0). rewrite V1 in V1'. injection V1' as <-.
  pose proof (Hrep l0 vs0 v0 V2 Hin0) as Hr0. pose proof (Hmem l0 vs0 v0 _ V2 Hin0 Hr0) as Hs0.
  destruct (Hval l0 (v_rep v0) Hl0 Hs0) as (w0 & W0). pose proof (Hbest _ _ Hr0 W0) as Hle0.
  unfold group_dist in Hx0. rewrite <- Hsym in Hx0 by auto. rewrite W0 in Hx0. injection Hx0 as <-.
  destruct Htm as (Ts & Tp & Td). rewrite Tp in Td.
  destruct (place_of c) as [lc mc] eqn:Ec. cbn [fst snd] in *. subst lc.
  destruct (Hval l0 mc Hl0 Ts) as (dist & Ed). pose proof Td as Td'. rewrite Ed in Td'. injection Td' as Edist. symmetry in Edist.
  exists g', c, dist. splits; auto.
  { unfold true_match. rewrite Ec, Tp. cbn [fst snd]. splits; auto. }
  rewrite Edist in Hle0. apply nle_Fin in Hle0.
  intros [l m] [Hl Hm]. cbn [fst snd] in *. destruct (Hval l m Hl Hm) as (v & Ev). exists v. split; auto.
  (* the group of the subsequence *)
  destruct (Hband l Hl) as [Hg Hab]. destruct (Hviews l Hg) as (vs & U1 & U2 & U3).
  assert (exists w, In w vs /\ In m (v_members w)) as (w & Hw & Hmw).
  { destruct U2 as (_ & P & _). apply (P m) in Hm. apply in_concat in Hm as (ms & M1 & M2). apply in_map_iff in M1 as (w & <- & M3). eauto. }
  pose proof (Hrep l vs w U2 Hw) as Hrw. pose proof (Hmem l vs w _ U2 Hw Hrw) as Hsw.
  destruct (Hval l (v_rep w) Hl Hsw) as (y & Ey).
  assert (Hclose : (w0 <= y)%R).
  { apply nle_Fin. apply (Hclo l w (Fin y)); auto.
    - exists vs. auto.
    - unfold group_dist. rewrite <- Hsym; auto. }
  destruct (Hsub l m Hg Hm) as [Vm Lm]. destruct (Hsub l (v_rep w) Hg Hsw) as [Vr Lr]. rewrite Vm in Ev. rewrite Vr in Ey.
  assert (Hll : length (real_sub rows l m) = length (real_sub rows l (v_rep w))) by (unfold Rlen in *; lia).
  pose proof (dtw_of_gap k ratio Hr xs _ _ v y ltac:(lia) ltac:(rewrite Lm; apply (Hgl l Hg)) Hll) as G.
  cbv zeta in G. rewrite Lm in G. specialize (G Hab Ev Ey).
  destruct (U3 w m m Hw Hmw Hmw) as [Rad _].
  rewrite (real_pair_sym k) in G by auto.
  assert (0 <= price k (Rlen xs) (band_width ratio (Z.max (Rlen xs) l)))%R.
  { apply price_nonneg; [lia|]. apply band_width_nonneg; [lia|lra]. }
  apply Rle_trans with w0; auto. apply Rle_trans with y; auto. apply Rle_trans with (1 := G). apply Rplus_le_compat_l.
  apply Rmult_le_compat_l; auto.
Qed.
Print Assumptions C52_best_match_near_optimum_exact.

(** ** IEEE doubles *)
Section Chain.
Local Open Scope R_scope.
Variable e n : R. (* relative and absolute error *)
Hypothesis He : 0 <= e <= / 200000.
Hypothesis Hn : 0 <= n.

Lemma quotient x y : 0 <= y -> x * (1 - e) <= y -> x <= y * (1 + e + e * e * 2).
Proof.
  intros Hy H. apply Rmult_le_reg_r with (1 - e); [lra|]. apply Rle_trans with (1 := H).
  replace (y * (1 + e + e * e * 2) * (1 - e)) with (y + y * (e * e * (1 - 2 * e))) by ring.
  assert (0 <= y * (e * e * (1 - 2 * e))); [|lra].
  apply Rmult_le_pos; auto. apply Rmult_le_pos; [apply Rle_0_sqr|lra].
Qed.

(** the errors of the steps add up *)
Lemma chain (d d0 E0 x0 x1 E1 V P v h t pr : R) :
  0 <= E0 -> 0 <= E1 -> 0 <= V -> 0 <= P -> 0 <= pr -> 0 <= t ->
  d <= d0 -> d0 <= E0 * (1 + e) + n -> E0 * (1 - e) - n <= x0 -> x0 <= x1 -> x1 <= E1 * (1 + e) + n ->
  E1 <= V + pr * P -> V * (1 - e) - n <= v -> P * (1 - e) - n <= h -> h <= t * (1 + e) + n ->
  d <= (v + pr * t) * (1 + 8 * e) + n * (8 + 4 * pr).
Proof.
  intros HE0 HE1 HV HP Hpr Ht A1 A2 A3 A4 A5 A6 A7 A8 A9.
  assert (Hee : 0 <= e * e <= e * / 200000) by (split; [apply Rle_0_sqr|apply Rmult_le_compat_l; lra]).
  set (q := 1 + e + e * e * 2) in *. assert (Hq : 1 <= q <= 1 + 1.001 * e) by (unfold q; lra).
  assert (HV' : V <= (v + n) * q).
  { apply quotient; [|lra]. assert (0 <= V * (1 - e)) by (apply Rmult_le_pos; lra). lra. }
  assert (HP' : P <= (t * (1 + e) + 2 * n) * q).
  { apply quotient; [|lra]. assert (0 <= t * (1 + e)) by (apply Rmult_le_pos; lra). lra. }
  assert (HvN : 0 <= v + n) by (assert (0 <= V * (1 - e)) by (apply Rmult_le_pos; lra); lra).
  set (W := v + n + pr * (t + 2 * n)).
  assert (HprT : 0 <= pr * (t + 2 * n)) by (apply Rmult_le_pos; lra).
  assert (HW : 0 <= W) by (unfold W; lra).
  assert (HE1' : E1 <= W * (1 + e) * q).
  { apply Rle_trans with (1 := A6).
    assert (B1 : (v + n) * q <= (v + n) * ((1 + e) * q)) by (apply Rmult_le_compat_l; auto; nra).
    assert (B2 : pr * P <= pr * ((t + 2 * n) * (1 + e) * q)).
    { apply Rmult_le_compat_l; auto. apply Rle_trans with (1 := HP'). apply Rmult_le_compat_r; [lra|].
      assert (0 <= 2 * n * e) by (apply Rmult_le_pos; lra). lra. }
    unfold W. lra. }
  assert (HE0' : E0 <= (E1 * (1 + e) + 2 * n) * q).
  { apply quotient; [|lra]. assert (0 <= E1 * (1 + e)) by (apply Rmult_le_pos; lra). lra. }
  assert (HF : (1 + e) * q <= 1 + 2.002 * e) by nra.
  set (f := (1 + e) * q) in *. assert (Hf1 : 1 <= f) by (unfold f; nra).
  assert (C1 : E1 * (1 + e) <= W * f * (1 + e)) by (apply Rmult_le_compat_r; [lra|unfold f; lra]).
  assert (C2 : E0 * (1 + e) <= (W * f * (1 + e) + 2 * n) * f).
  { apply Rle_trans with ((E1 * (1 + e) + 2 * n) * q * (1 + e)).
    - apply Rmult_le_compat_r; lra.
    - replace ((E1 * (1 + e) + 2 * n) * q * (1 + e)) with ((E1 * (1 + e) + 2 * n) * f) by (unfold f; ring).
      apply Rmult_le_compat_r; lra. }
  assert (C3 : f * (1 + e) * f <= 1 + 5.1 * e).
  { assert (f * f <= (1 + 2.002 * e) * (1 + 2.002 * e)) by (apply Rmult_le_compat; lra).
    assert (f * f <= 1 + 4.01 * e) by lra.
    assert (f * f * (1 + e) <= (1 + 4.01 * e) * (1 + e)) by (apply Rmult_le_compat_r; lra). lra. }
  assert (C4 : W * (f * (1 + e) * f) <= W * (1 + 5.1 * e)) by (apply Rmult_le_compat_l; auto).
  assert (C5 : n * f <= n * 1.1) by (apply Rmult_le_compat_l; lra).
  assert (C6 : d <= W * (1 + 5.1 * e) + 3.2 * n).
  { apply Rle_trans with (1 := A1). apply Rle_trans with (1 := A2). lra. }
  apply Rle_trans with (1 := C6).
  assert (D1 : 0 <= pr * t) by (apply Rmult_le_pos; lra). assert (D2 : 0 <= pr * n) by (apply Rmult_le_pos; lra).
  replace W with ((v + n + pr * t) + 2 * (pr * n)) by (unfold W; ring).
  assert (D3 : pr * n * e <= pr * n * / 200000) by (apply Rmult_le_compat_l; lra).
  assert (D4 : n * e <= n * / 200000) by (apply Rmult_le_compat_l; lra).
  assert (D5 : (v + n + pr * t) * (1 + 5.1 * e) <= (v + n + pr * t) * (1 + 8 * e)) by (apply Rmult_le_compat_l; lra).
  lra.
Qed.
End Chain.

Lemma points_exact (l : list (D B64)) : exact_points (ts_of_list (N := B64) l) = map (fun x : b64 => B2R x) l.
Proof. unfold exact_points. rewrite (points_of_list (N := B64)). reflexivity. Qed.

(** both computed distances of two series agree with the exact optimum *)
Lemma both_near k (ratio : b64) (q y : list (D B64)) r :
  ieee_ok (N := B64) k (ts_of_list q) (ts_of_list y) ratio r ->
  Z.abs (Z.of_nat (length q) - Z.of_nat (length y)) <= r ->
  let len := Z.of_nat (length q) + Z.of_nat (length y) in
  let qs := map (fun x : b64 => B2R x) q in let ys := map (fun x : b64 => B2R x) y in
  exists p d1 d2, warping_path (Rlen qs) (Rlen ys) p /\ in_band r p /\
    (forall p', warping_path (Rlen qs) (Rlen ys) p' -> in_band r p' -> (real_cost k qs ys p <= real_cost k qs ys p')%R) /\
    dtw_of (N := B64) k ratio q y = Ret d1 /\ agrees len d1 (real_cost k qs ys p) /\
    dtw_of (N := B64) k ratio y q = Ret d2 /\ agrees len d2 (real_cost k qs ys p).
Proof.
  intros H Hab len qs ys. pose proof (io_r _ _ _ _ _ H) as Hr.
  assert (Lq : Rlen qs = Z.of_nat (length q)) by (unfold Rlen, qs; rewrite map_length; reflexivity).
  assert (Ly : Rlen ys = Z.of_nat (length y)) by (unfold Rlen, ys; rewrite map_length; reflexivity).
  destruct (C51_dtw_near_optimum k (ts_of_list q) (ts_of_list y) ratio r [] H Hab) as (p & d1 & P1 & P2 & P3 & E1 & A1).
  destruct (C51_dtw_near_optimum k (ts_of_list y) (ts_of_list q) ratio r [] (ieee_ok_sym _ _ _ _ _ H)) as (s & d2 & Q1 & Q2 & Q3 & E2 & A2).
  { change (Z.abs (Z.of_nat (length y) - Z.of_nat (length q)) <= r). lia. }
  rewrite !points_exact in *. fold qs ys in P3, A1, Q3, A2. rewrite Lq, Ly.
  change (ts_length (ts_of_list (N := B64) q)) with (Z.of_nat (length q)) in *.
  change (ts_length (ts_of_list (N := B64) y)) with (Z.of_nat (length y)) in *.
  exists p, d1, d2. split; [exact P1|]. split; [exact P2|]. split; [exact P3|]. split; [exact E1|]. split; [exact A1|].
  split; [exact E2|].
  destruct (flip_path r _ _ p Hr P1 P2) as [F1 F2]. destruct (flip_path r _ _ s Hr Q1 Q2) as [G1 G2].
  specialize (Q3 _ F1 F2). specialize (P3 _ G1 G2). rewrite cost_flip in Q3.
  assert (Eq : real_cost k ys qs s = real_cost k qs ys p).
  { apply Rle_antisym; auto. rewrite <- (cost_flip k ys qs s). exact P3. }
  rewrite Eq, Z.add_comm in A2. exact A2.
Qed.

Lemma agrees_within len M (d : b64) (x : R) : len <= 2 * M -> (0 <= x)%R -> agrees len d x ->
  let e := (IZR M / IZR (2 ^ 44))%R in let n := (1 / IZR (2 ^ 400))%R in
  is_finite d = true /\ (B2R d <= x * (1 + e) + n)%R /\ (x * (1 - e) - n <= B2R d)%R.
Proof.
  intros Hl Hx [F A] e n. split; auto. apply AccReal.Rabs_both in A.
  assert (x * (IZR len / IZR (2 ^ 45)) <= x * e)%R.
  { apply Rmult_le_compat_l; auto. unfold e. replace (IZR M / IZR (2 ^ 44))%R with (IZR (2 * M) / IZR (2 ^ 45))%R.
    - apply Rmult_le_compat_r; [apply Rlt_le, Rinv_0_lt_compat, (IZR_lt 0); reflexivity|apply IZR_le; auto].
    - rewrite mult_IZR. replace (IZR (2 ^ 45)) with (2 * IZR (2 ^ 44))%R by (rewrite <- mult_IZR; reflexivity).
      field. apply not_0_IZR. discriminate. }
  unfold n. lra.
Qed.

(** the half threshold of a double is half of it, up to rounding *)
Lemma half_near (thr : b64) M : 1 <= M -> is_finite thr = true -> (0 <= B2R thr)%R ->
  let h := @ndiv B64 thr (nofZ 2) in
  is_finite h = true /\ (0 <= B2R h)%R /\ (B2R h <= B2R thr / 2 * (1 + IZR M / IZR (2 ^ 44)) + 1 / IZR (2 ^ 400))%R /\ @nltb B64 h ninf = true.
Proof.
  intros HM F P h. destruct (ofZ_facts 2 ltac:(lia)) as (F2 & E2 & Z2).
  assert (Hv : val h = Fin (rne (B2R thr / 2))).
  { change h with (Bdiv mode_NE thr (b64_ofZ 2)). rewrite val_div by (left; rewrite E2; lra).
    rewrite Z2, (val_finite thr F). cbn [xdiv]. rewrite Req_bool_false by lra.
    apply div_le_fin; [|auto|lra]. pose proof (val_fmt thr) as Hf. rewrite (val_finite thr F) in Hf. exact Hf. }
  destruct (val_Fin _ _ Hv) as [Fh Eh]. split; [exact Fh|]. split; [rewrite Eh; apply rne_pos; lra|]. split.
  - rewrite Eh. pose proof (rnd_err (B2R thr / 2)) as Er. apply AccReal.Rabs_both in Er.
    rewrite (Rabs_pos_eq (B2R thr / 2)) in Er by lra.
    assert (U : (B2R thr / 2 * uu <= B2R thr / 2 * (IZR M / IZR (2 ^ 44)))%R).
    { apply Rmult_le_compat_l; [lra|]. apply Rle_trans with (1 / IZR (2 ^ 44))%R.
      - replace (1 / IZR (2 ^ 44))%R with (512 * uu)%R; [pose proof uu_pos; lra|].
        unfold uu. change 512%R with (bpow radix2 9). rewrite <- bpow_plus. unfold Rdiv. rewrite Rmult_1_l. reflexivity.
      - apply Rmult_le_compat_r; [apply Rlt_le, Rinv_0_lt_compat, (IZR_lt 0); reflexivity|apply (IZR_le 1); auto]. }
    assert (E0 : (e0 <= 1 / IZR (2 ^ 400))%R).
    { rewrite <- XX_is. apply bpow_le. lia. }
    lra.
  - change (Bltb h (B754_infinity false) = true). rewrite val_ltb, Hv. reflexivity.
Qed.

Lemma pair_dec (a b : Z * Z) : a = b \/ a <> b.
Proof. destruct a as [a1 a2], b as [b1 b2]. destruct (Z.eq_dec a1 b1); destruct (Z.eq_dec a2 b2); subst; auto; right; congruence. Qed.

Lemma visits_bound m r : (IZR (visits_at_most m r) <= IZR m)%R.
Proof. apply IZR_le. unfold visits_at_most. lia. Qed.

(** With doubles: the same up to the rounding errors of C51. *)
Theorem C52_best_match_near_optimum_ieee : forall (H : std_alg) (k : kind) (d : dataset B64) (rows : list (list (D B64)))
    old clock (ratio0 thr : D B64) threads whole g0 total g (query : TS B64) (ratio : D B64),
  holds d rows -> moderate_data rows -> is_finite (thr : b64) = true -> (0 <= B2R (thr : b64))%R ->
  1 <= threads -> log_safe d clock -> ds_maxcol d <= 2 ^ 26 ->
  groupAllLengths (N := B64) clock ratio0 (mkGS d old) (kind_name k) thr threads whole = (g0, Ret total) ->
  asked (N := B64) H g0 g ->
  moderate_query query -> ts_length query <= ds_maxcol d -> moderate_ratio ratio ->
  (exists p, searched_place (N := B64) d rows whole ratio (ts_length query) p) ->
  exists g' c, getBestMatch (N := B64) ratio g query = Ret (g', c) /\
    true_match (N := B64) rows k ratio (ts_points query) c /\
    forall p, searched_place (N := B64) d rows whole ratio (ts_length query) p ->
      exists r v, band (N := B64) ratio (Z.max (ts_length query) (fst p)) = Ret r /\
        dtw_of (N := B64) k ratio (ts_points query) (place_values rows p) = Ret v /\ is_finite (v : b64) = true /\
        (B2R (c_dist c : b64) <=
           (B2R (v : b64) + price k (ts_length query) r * (B2R (thr : b64) / 2)) * (1 + IZR (ds_maxcol d) / IZR (2 ^ 41))
           + 1 / IZR (2 ^ 360))%R.
Proof.
  intros H k d rows old clock ratio0 thr threads whole g0 total g query ratio Hd Hmod Fthr Pthr Ht Hlog Hmax E Ha Hq Hql Hr Hex.
  assert (Hq2 : 2 <= ts_length query) by apply Hq.
  destruct (half_near thr (ds_maxcol d) ltac:(lia) Fthr Pthr) as (Fh & Ph & Hh & Hinf).
  set (h := @ndiv B64 thr (nofZ 2)) in *.
  destruct (C23_best_match_ieee H k d rows old clock ratio0 thr threads whole g0 total g query ratio Hd Hmod Hinf Ht Hlog Hmax E Ha Hq Hql Hr Hex)
    as (g' & c & Eb & Htm & l0 & v0 & x0 & Hl0 & Hv0 & Hx0 & Elc & _ & Hclo & Hbest).
  destruct (C17_group_radius k d rows old clock ratio0 thr threads whole Hd Hinf ltac:(lia) Ht Hlog) as (g1 & total1 & E1 & Hrad).
  rewrite E in E1. injection E1 as <- _. fold h in Hrad.
  exists g', c. split; [exact Eb|]. split; [exact Htm|].
  set (q := ts_points query) in *.
  assert (Lq : Z.of_nat (length q) = ts_length query) by (apply (ts_points_length (N := B64)), Hq).
  assert (Hviews : forall l, grouped_length d whole l -> exists vs, level_view g l = Some (Ret vs) /\ partitions rows l vs /\
      forall v c, In v vs -> In c (v_members v) -> c <> v_rep v ->
        @nle B64 (pair_value k (sub_values rows l (v_rep v)) (sub_values rows l c)) h).
  { intros l Hl. destruct (Hrad l Hl) as (vs & V1 & V2 & V3). exists vs. split; [|split; auto]. rewrite <- V1.
    apply (asked_views (N := B64) d rows H old clock ratio0 k thr threads whole g0 total g); auto; lia. }
  assert (Hgl : forall l, grouped_length d whole l -> 2 <= l <= ds_maxcol d).
  { intros l Hl. revert Hl. unfold grouped_length. destruct whole; lia. }
  assert (Hlen : forall l m, grouped_length d whole l -> is_sub rows l m -> Z.of_nat (length (place_values rows (l, m))) = l).
  { intros l m Hl Hm. apply (place_len (N := B64) rows (l, m)); auto. specialize (Hgl l Hl). cbn [fst]. lia. }
  assert (Hrep : forall l vs v, partitions (N := B64) rows l vs -> In v vs -> In (v_rep v) (v_members v)).
  { intros l vs v (_ & _ & P) Hin. destruct (P v Hin) as (P1 & _ & P2). rewrite P2.
    destruct (exists_last P1) as (i & a & ->). rewrite last_last. apply in_or_app. right. left. reflexivity. }
  assert (Hmem : forall l vs v m, partitions (N := B64) rows l vs -> In v vs -> In m (v_members v) -> is_sub rows l m).
  { intros l vs v m (_ & P & _) Hin Hm. apply P. apply in_concat. exists (v_members v). split; auto. apply in_map. auto. }
  set (rl := fun l : list (D B64) => map (fun x : b64 => B2R x) l).
  set (e := (IZR (ds_maxcol d) / IZR (2 ^ 44))%R) in *. set (n := (1 / IZR (2 ^ 400))%R) in *.
  assert (Rq : Rlen (rl q) = ts_length query) by (unfold Rlen, rl; rewrite map_length; exact Lq).
  assert (Rpl : forall l m, grouped_length d whole l -> is_sub rows l m -> Rlen (rl (place_values rows (l, m))) = l).
  { intros l m Hl Hm. unfold Rlen, rl. rewrite map_length. apply Hlen; auto. }
  (* distances between the query and a place, both ways *)
  assert (Hval : forall l m, searched (N := B64) d whole ratio (ts_length query) l -> is_sub rows l m ->
     exists r p d1 d2, band (N := B64) ratio (Z.max (ts_length query) l) = Ret r /\ 0 <= r /\
       warping_path (ts_length query) l p /\ in_band r p /\
       (forall p', warping_path (ts_length query) l p' -> in_band r p' ->
          (real_cost k (rl q) (rl (place_values rows (l, m))) p <= real_cost k (rl q) (rl (place_values rows (l, m))) p')%R) /\
       dtw_of (N := B64) k ratio q (place_values rows (l, m)) = Ret d1 /\
       (is_finite (d1 : b64) = true /\ (B2R (d1 : b64) <= real_cost k (rl q) (rl (place_values rows (l, m))) p * (1 + e) + n)%R /\
          (real_cost k (rl q) (rl (place_values rows (l, m))) p * (1 - e) - n <= B2R (d1 : b64))%R) /\
       dtw_of (N := B64) k ratio (place_values rows (l, m)) q = Ret d2 /\
       (is_finite (d2 : b64) = true /\ (B2R (d2 : b64) <= real_cost k (rl q) (rl (place_values rows (l, m))) p * (1 + e) + n)%R /\
          (real_cost k (rl q) (rl (place_values rows (l, m))) p * (1 - e) - n <= B2R (d2 : b64))%R)).
  { intros l m (Hl & r & Er & Hab) Hm. pose proof (Hlen l m Hl Hm) as Lm. pose proof (Hgl l Hl) as Hl2.
    destruct (searchable_moderate k rows ratio query (fun p => p = (l, m)) Hmod Hq Hr) with (p := (l, m)) as (r' & Hok).
    { intros p ->. split; [cbn; lia|exact Hm]. } { reflexivity. }
    fold q in Hok.
    assert (Er' : r' = r).
    { pose proof (io_band _ _ _ _ _ Hok) as Eb'.
      change (ts_length (ts_of_list (N := B64) q)) with (Z.of_nat (length q)) in Eb'.
      change (ts_length (ts_of_list (N := B64) (place_values rows (l, m)))) with (Z.of_nat (length (place_values rows (l, m)))) in Eb'.
      rewrite Lq, Lm, Z.max_comm in Eb'. rewrite Er in Eb'. injection Eb' as ->. reflexivity. }
    subst r'. destruct (both_near k ratio q (place_values rows (l, m)) r Hok) as (p & d1 & d2 & P1 & P2 & P3 & D1 & A1 & D2 & A2).
    { rewrite Lq, Lm. lia. }
    rewrite Lq, Lm in A1, A2. change (map (fun x : b64 => B2R x) q) with (rl q) in *.
    change (map (fun x : b64 => B2R x) (place_values rows (l, m))) with (rl (place_values rows (l, m))) in *.
    rewrite Rq, (Rpl l m Hl Hm) in P1, P3.
    pose proof (cost_pos k (rl q) (rl (place_values rows (l, m))) p) as PP.
    exists r, p, d1, d2. split; [rewrite Z.max_comm; exact Er|]. split; [apply Hok|]. split; [exact P1|]. split; [exact P2|].
    split; [exact P3|]. split; [exact D1|]. split.
    { apply (agrees_within (ts_length query + l)); auto. lia. }
    split; [exact D2|]. apply (agrees_within (ts_length query + l)); auto. lia. }
  (* the closest representative *)
  pose proof (proj1 Hl0) as Hg0. destruct (Hviews l0 Hg0) as (vs0 & V1 & V2 & _).
  destruct Hv0 as (vs0' & V1' & Hin0). rewrite V1 in V1'. injection V1' as <-.
  pose proof (Hrep l0 vs0 v0 V2 Hin0) as Hr0. pose proof (Hmem l0 vs0 v0 _ V2 Hin0 Hr0) as Hs0.
  destruct (Hval l0 (v_rep v0) Hl0 Hs0) as (r0 & p0 & w1 & w2 & _ & _ & _ & _ & _ & W1 & (Fw1 & Uw1 & _) & W2 & (Fw2 & _ & Lw2)).
  pose proof (Hbest _ _ Hr0 W1) as Hle0. unfold group_dist in Hx0. pose proof (eq_trans (eq_sym W2) Hx0) as Hx1. injection Hx1 as Hx1. subst x0.
  (* the answer *)
  destruct Htm as (Ts & Tp & Td). rewrite Tp in Td. destruct (place_of c) as [lc mc] eqn:Ec. cbn [fst snd] in *. subst lc.
  destruct (Hval l0 mc Hl0 Ts) as (_ & _ & dd & _ & _ & _ & _ & _ & _ & Dd & (Fd & _) & _ & _).
  pose proof (eq_trans (eq_sym Dd) Td) as Td'. injection Td' as Td'. rewrite <- Td' in *. clear Dd.
  pose proof (nle_reals _ _ Fd Fw1 Hle0) as Hle1.
  intros [l m] [Hl Hm]. cbn [fst snd] in *.
  destruct (Hval l m Hl Hm) as (r & pm & v & v' & Er & Hr00 & Pm1 & Pm2 & _ & Ev & (Fv & _ & Lv) & _ & _).
  exists r, v. split; [exact Er|]. split; [exact Ev|]. split; [exact Fv|].
  pose proof (proj1 Hl) as Hg. destruct (Hviews l Hg) as (vs & U1 & U2 & U3).
  assert (exists w, In w vs /\ In m (v_members w)) as (w & Hw & Hmw).
  { destruct U2 as (_ & P & _). apply (P m) in Hm. apply in_concat in Hm as (ms & M1 & M2). apply in_map_iff in M1 as (w & <- & M3). eauto. }
  pose proof (Hrep l vs w U2 Hw) as Hrw. pose proof (Hmem l vs w _ U2 Hw Hrw) as Hsw.
  destruct (Hval l (v_rep w) Hl Hsw) as (r' & pr & y1 & y2 & Er' & _ & Pr1 & Pr2 & Pr3 & _ & _ & Ey2 & (Fy2 & Uy2 & _)).
  rewrite Er in Er'. injection Er' as <-.
  assert (Hclose : @nle B64 w2 y2).
  { apply (Hclo l w y2); auto. exists vs. auto. }
  apply (nle_reals _ _ Fw2 Fy2) in Hclose.
  pose proof (Hlen l m Hg Hm) as Lm. pose proof (Hlen l (v_rep w) Hg Hsw) as Lr. pose proof (Hgl l Hg) as Hl2.
  set (X := place_values rows (l, m)) in *. set (Y := place_values rows (l, v_rep w)) in *.
  pose proof (Rpl l m Hg Hm : Rlen (rl X) = l) as RX. pose proof (Rpl l (v_rep w) Hg Hsw : Rlen (rl Y) = l) as RY.
  assert (Hll : length (rl X) = length (rl Y)).
  { apply Nat2Z.inj. exact (eq_trans RX (eq_sym RY)). }
  assert (G : (real_cost k (rl q) (rl Y) pr <= real_cost k (rl q) (rl X) pm + price k (ts_length query) r * real_pair k (rl X) (rl Y))%R).
  { apply Rle_trans with (real_cost k (rl q) (rl Y) pm); [apply Pr3; auto|].
    rewrite <- Rq. apply gap; auto; rewrite ?Rq, ?RX; auto; lia. }
  (* the distance of the representative *)
  assert (Hpair : (0 <= real_pair k (rl X) (rl Y))%R /\ (real_pair k (rl X) (rl Y) * (1 - e) - n <= B2R (h : b64))%R).
  { assert (Hnz : rl X <> []) by (intros E0; rewrite E0 in RX; change (0 = l) in RX; lia).
    destruct (C05_pairwise_metric_axioms k (rl X) (rl Y) (rl X) Hnz Hll (eq_sym Hll)) as (PP & PS & PZ & _).
    split; [exact PP|]. 
    assert (Pn : (0 < n)%R) by (unfold n; rewrite <- XX_is; apply bpow_gt_0).
    assert (Hdec : m = v_rep w \/ m <> v_rep w).
    { apply pair_dec. }
    destruct Hdec as [Em|Nm].
    - assert (EXY : X = Y) by (unfold X, Y; rewrite Em; reflexivity).
      assert (Z0 : real_pair k (rl X) (rl Y) = 0%R) by (apply PZ; rewrite EXY; reflexivity).
      rewrite Z0. lra.
    - pose proof (U3 w m Hw Hmw Nm) as Hp. change (sub_values rows l (v_rep w)) with Y in Hp. change (sub_values rows l m) with X in Hp.
      assert (SM : forall z, is_sub rows l z -> small_points (ts_of_list (N := B64) (place_values rows (l, z)))).
      { intros z Hz. destruct (place_row rows (l, z) Hz) as (row & Hrow & _ & Hin). destruct (Hmod row Hrow) as [Hmv _].
        unfold small_points. rewrite (points_of_list (N := B64)). apply Forall_forall. intros x Hx. rewrite Forall_forall in Hmv. apply Hmv. auto. }
      pose proof (SM m Hm) as SX. pose proof (SM (v_rep w) Hsw) as SY. fold X in SX. fold Y in SY.
      assert (LXY : ts_length (ts_of_list (N := B64) Y) = ts_length (ts_of_list (N := B64) X)).
      { exact (eq_trans Lr (eq_sym Lm)). }
      assert (EL : ts_length (ts_of_list (N := B64) Y) = l) by exact Lr.
      assert (LY : 1 <= ts_length (ts_of_list (N := B64) Y) <= 2 ^ 30).
      { rewrite EL. lia. }
      pose proof (pair_value_eq (N := B64) k _ _ (ts_of_list_ok (N := B64) Y) (ts_of_list_ok (N := B64) X) LXY) as Epv.
      rewrite !(points_of_list (N := B64)) in Epv. rewrite Epv in Hp.
      destruct (pair_close _ _ (ts_of_list_ok (N := B64) Y) (ts_of_list_ok (N := B64) X) LXY LY (small_fin _ SY) (small_fin _ SX) k) as [Ei|Ag].
      { exfalso. apply (full_number _ _ (ts_of_list_ok (N := B64) Y) (ts_of_list_ok (N := B64) X) LXY LY SY SX k Ei). }
      rewrite !points_exact in Ag. change (map (fun x : b64 => B2R x) X) with (rl X) in Ag. change (map (fun x : b64 => B2R x) Y) with (rl Y) in Ag.
      rewrite <- PS in Ag. rewrite EL in Ag.
      destruct (agrees_within l (ds_maxcol d) _ _ ltac:(lia) PP Ag) as (Fp & _ & Lp). fold e n in Lp.
      apply (nle_reals _ _ Fp Fh) in Hp. apply Rle_trans with (1 := Lp). exact Hp. }
  destruct Hpair as [PP Lp].
  assert (He : (0 <= e <= / 200000)%R).
  { assert (0 <= IZR (ds_maxcol d) <= IZR (2 ^ 26))%R by (split; [apply (IZR_le 0)|apply IZR_le]; lia).
    unfold e. split; [apply Rle_mult_inv_pos; [lra|apply (IZR_lt 0); reflexivity]|].
    apply Rle_trans with (IZR (2 ^ 26) / IZR (2 ^ 44))%R.
    - apply Rmult_le_compat_r; [apply Rlt_le, Rinv_0_lt_compat, (IZR_lt 0); reflexivity|lra].
    - change (2 ^ 26) with 67108864. change (2 ^ 44) with 17592186044416. lra. }
  assert (Pn : (0 <= n)%R) by (unfold n; rewrite <- XX_is; apply Rlt_le, bpow_gt_0).
  assert (Hpr : (0 <= price k (ts_length query) r <= IZR (2 ^ 26))%R).
  { split; [apply price_nonneg; lia|]. pose proof (visits_bound (ts_length query) r) as VB.
    assert (IZR (ts_length query) <= IZR (2 ^ 26))%R by (apply IZR_le; lia).
    assert (0 <= IZR (visits_at_most (ts_length query) r))%R by (apply (IZR_le 0); unfold visits_at_most; lia).
    change (2 ^ 26) with 67108864 in *. destruct k; cbn [price]; lra. }
  pose proof (chain e n He Pn (B2R (dd : b64)) (B2R (w1 : b64)) _ (B2R (w2 : b64)) (B2R (y2 : b64)) _ _ _ (B2R (v : b64)) (B2R (h : b64))
    (B2R (thr : b64) / 2) _ (cost_pos k _ _ p0) (cost_pos k _ _ pr) (cost_pos k _ _ pm) PP (proj1 Hpr) ltac:(lra)
    Hle1 Uw1 Lw2 Hclose Uy2 G Lv Lp Hh) as C.
  apply Rle_trans with (1 := C).
  replace (IZR (ds_maxcol d) / IZR (2 ^ 41))%R with (8 * e)%R.
  2:{ unfold e. change (2 ^ 44) with (8 * 2 ^ 41). rewrite mult_IZR. field. apply not_0_IZR. discriminate. }
  apply Rplus_le_compat_l.
  apply Rle_trans with (n * IZR (2 ^ 40))%R.
  - apply Rmult_le_compat_l; auto. change (2 ^ 40) with 1099511627776. change (2 ^ 26) with 67108864 in Hpr. lra.
  - unfold n. change (2 ^ 400) with (2 ^ 360 * 2 ^ 40). rewrite mult_IZR. right. field.
    split; apply not_0_IZR; discriminate.
Qed.
Print Assumptions C52_best_match_near_optimum_ieee.

(** ** "within the threshold" is false of the Manhattan distance *)
Definition gu_rows : list (list (D B64)) :=
  [map b64_ofZ [0; 2; 0; 0; 0; 0; 0; 0]; map b64_ofZ [0; 10; 0; 0; 0; 0; 0; 0]; map b64_ofZ [0; 17; 0; 0; 0; 0; 0; 2]].
Definition gu_data : dataset B64 := mkDS (N := B64) (Some (concat gu_rows)) [] [8; 8; 8] 3 8 "f"%string false.
Definition gu_query : TS B64 := zs [0; 10; 10; 10; 10; 10; 10; 0].
Definition gu_grouped : gset B64 * res Z :=
  groupAllLengths (N := B64) (fun _ => false) (b64_ofZ 1) (mkGS gu_data None) "manhattan" (b64_ofZ 2) 1 true.

Lemma gu_holds : holds gu_data gu_rows.
Proof.
  exists (concat gu_rows). splits; try reflexivity; try (unfold int_max; simpl; lia).
  intros i row E. destruct i as [|[|[|i]]]; [| | |destruct i; discriminate]; injection E as <-; splits; try reflexivity;
    try (simpl; lia); intros j v Ej; repeat (destruct j as [|j]; [injection Ej as <-; reflexivity|]);
    destruct j; discriminate.
Qed.

(** the second series, at distance 0, is in the group of the first, which is farther
    than the third *)
Example C52_example_groups : snd gu_grouped = Ret 2 /\
  show (level_view (fst gu_grouped) 8) = Some [((0, 0), 2, [(1, 0); (0, 0)]); ((2, 0), 1, [(2, 0)])].
Proof. split; vm_compute; reflexivity. Qed.
Example C52_example_run :
  show_best (getBestMatch (N := B64) (b64_ofZ 1) (fst gu_grouped) gu_query) = Some [(8, 2, 0, B2SF (b64_lit 11 4))].
Proof. vm_compute. reflexivity. Qed.

Example C52_example_pre : holds gu_data gu_rows /\ moderate_data gu_rows /\ moderate_query gu_query /\
  moderate_ratio (b64_ofZ 1) /\ log_safe gu_data (fun _ => false) /\ ts_length gu_query <= ds_maxcol gu_data <= 2 ^ 26 /\
  is_finite (b64_ofZ 2) = true /\ (B2R (b64_ofZ 2) = 2)%R /\
  groupAllLengths (N := B64) (fun _ => false) (b64_ofZ 1) (mkGS gu_data None) (kind_name KManhattan) (b64_ofZ 2) 1 true = (fst gu_grouped, Ret 2) /\
  searched_place (N := B64) gu_data gu_rows true (b64_ofZ 1) (ts_length gu_query) (8, (1, 0)).
Proof.
  pose proof C26_example_pre as (_ & _ & _ & Hr & _). destruct C52_example_groups as [Eg _].
  destruct (ofZ_facts 2 ltac:(lia)) as (F2 & E2 & _).
  split; [exact gu_holds|]. split; [|split; [|split; [exact Hr|split; [|split; [|split; [exact F2|split; [exact E2|split]]]]]]].
  - intros row [<-|[<-|[<-|[]]]]; (split; [|vm_compute; discriminate]); apply leb64_all; vm_compute; reflexivity.
  - split; [apply zs_ok|]. split; [|vm_compute; split; discriminate]. apply leb64_all. vm_compute. reflexivity.
  - intros l. left; reflexivity.
  - vm_compute. split; discriminate.
  - rewrite <- Eg. unfold gu_grouped. apply surjective_pairing.
  - split; [split|].
    + reflexivity.
    + exists 7. split; vm_compute; [reflexivity|discriminate].
    + exists (map b64_ofZ [0; 10; 0; 0; 0; 0; 0; 0]). split; [reflexivity|]. vm_compute. split; discriminate.
Qed.

Definition sf_of {A} (r : res (A * cand B64)) := match r with Ret (_, c) => B2SF (c_dist c : b64) | _ => SpecFloat.S754_nan end.
Definition sf_res (r : res (D B64)) := match r with Ret v => B2SF (v : b64) | _ => SpecFloat.S754_nan end.

Theorem C52_manhattan_within_threshold_refuted : ~ (forall (k : kind) (d : dataset B64) (rows : list (list (D B64)))
    (thr : D B64) g0 total (query : TS B64) (ratio : D B64) g' c p v,
  holds d rows -> moderate_data rows -> is_finite (thr : b64) = true -> (0 <= B2R (thr : b64))%R ->
  groupAllLengths (N := B64) (fun _ => false) ratio (mkGS d None) (kind_name k) thr 1 true = (g0, Ret total) ->
  moderate_query query -> ts_length query <= ds_maxcol d <= 2 ^ 26 -> moderate_ratio ratio ->
  getBestMatch (N := B64) ratio g0 query = Ret (g', c) ->
  searched_place (N := B64) d rows true ratio (ts_length query) p ->
  dtw_of (N := B64) k ratio (ts_points query) (place_values rows p) = Ret v ->
  (B2R (c_dist c : b64) <= B2R (v : b64) + B2R (thr : b64))%R).
Proof.
  intros A. destruct C52_example_pre as (H1 & H2 & H3 & H4 & H5 & H6 & H7 & H8 & H9 & H10).
  assert (E1 : sf_of (getBestMatch (N := B64) (b64_ofZ 1) (fst gu_grouped) gu_query) = B2SF (b64_lit 11 4)) by (vm_compute; reflexivity).
  assert (E2 : sf_res (dtw_of (N := B64) KManhattan (b64_ofZ 1) (ts_points gu_query) (place_values gu_rows (8, (1, 0)))) = B2SF (b64_ofZ 0))
    by (vm_compute; reflexivity).
  assert (Q1 : B2SF (b64_lit 11 4) = SpecFloat.S754_finite false 6192449487634432 (-51)) by (vm_compute; reflexivity).
  assert (Q2 : B2SF (b64_ofZ 0) = SpecFloat.S754_zero false) by (vm_compute; reflexivity).
  rewrite Q1 in E1. rewrite Q2 in E2.
  destruct (getBestMatch (N := B64) (b64_ofZ 1) (fst gu_grouped) gu_query) as [[g' c]| | |] eqn:Eb; try discriminate E1.
  destruct (dtw_of (N := B64) KManhattan (b64_ofZ 1) (ts_points gu_query) (place_values gu_rows (8, (1, 0)))) as [v| | |] eqn:Ev; try discriminate E2.
  cbn [sf_of sf_res] in E1, E2.
  assert (P2 : (0 <= B2R (b64_ofZ 2))%R) by (rewrite H8; lra).
  specialize (A KManhattan gu_data gu_rows (b64_ofZ 2) (fst gu_grouped) 2 gu_query (b64_ofZ 1) g' c _ v H1 H2 H7 P2 H9 H3 H6 H4 Eb H10 Ev).
  rewrite H8, <- (SF2R_B2SF _ _ (c_dist c : b64)), <- (SF2R_B2SF _ _ (v : b64)), E1, E2 in A.
  unfold SF2R, F2R, cond_Zopp in A. cbn [Fnum Fexp bpow] in A. change (Z.pow_pos radix2 51) with 2251799813685248 in A. lra.
Qed.
Print Assumptions C52_manhattan_within_threshold_refuted.

(** the bound for this case: each point may meet all eight of the query, so four times half the threshold *)
Example C52_example_bound : price KManhattan (ts_length gu_query) 7 = 4%R /\ price KEuclidean 8 7 = (/ 2)%R /\ price KChebyshev 8 7 = 1%R.
Proof. split; [|split; reflexivity]. unfold price. change (visits_at_most (ts_length gu_query) 7) with 8. lra. Qed.
