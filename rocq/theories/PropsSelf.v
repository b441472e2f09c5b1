(** C73: what occurs in a data set is found when it is searched for.  Specifications:
    ApiSpec.v, QuerySpec.v, SearchSpec.v. *)
From Coq Require Import String Reals Lra.
From Flocq Require Import Core IEEE754.BinarySingleNaN.
From Verif Require Import Base Num NumB64 NumB64Laws NumLaws NumFacts NumXR NumXRLaws LoopFacts TimeSeries Distance DtwSpec DtwReal DistSpec DistLink
  TSSet StdAlg HeapFacts Candidate Group GroupSpace Loader Archive BruteForce PAA DataSpec DataProofs GroupSpec GroupView GroupDist SearchSpec SearchCases
  QuerySpec GapReal DtwResults AccPair PropsAccuracy PropsDistance PropsData PropsGroup PropsSearch PropsQuery PropsGuarantee Api ApiSpec ApiProofs ApiQuery PropsLoader PropsApi PropsApiQuery PropsNorm PropsBand PropsZero.
Local Open Scope Z_scope.
Local Open Scope list_scope.

(** ** Specification *)

(** the values [xs] are those of the subsequence [p], of at least two points, of the data *)
Definition occurs_at {N : Num} (rows : list (list (D N))) (xs : list (D N)) (p : place) : Prop :=
  long_enough rows p /\ place_values rows p = xs.

(** a distance of zero *)
Definition no_distance (c : cand B64) : Prop := Beqb (c_dist c : b64) (b64_ofZ 0) = true.

(** ** the exhaustive search *)
Lemma self_zero (k : kind) (rows : list (list (D B64))) (q : TS B64) ratio p : moderate_data rows -> moderate_query q -> moderate_ratio ratio ->
  occurs_at rows (ts_points q) p -> exists z, dtw_of (N := B64) k ratio (ts_points q) (place_values rows p) = Ret z /\ neqv (N := B64) z n0.
Proof.
  intros Hm Hq Hr [[Hl Hs] Ep].
  destruct (searchable_moderate k rows ratio q (fun p' => p' = p) Hm Hq Hr) with (p := p) as (r & Hok); [intros p' ->; auto|reflexivity|].
  rewrite Ep in *. destruct (C06_dtw_self_zero_ieee k _ _ ratio r [] Hok eq_refl) as (z & E & Hz).
  exists z. split; [exact E|]. apply (neqb_true (N := B64)). exact Hz.
Qed.

Theorem C73_exhaustive : forall (r0 : D B64) h (s : api B64) t g rows qn i st en xs p k K e,
  @run B64 r0 h s -> held s t = Some g -> holds (gt_data g) rows -> moderate_data rows ->
  asks_for s qn i st en xs -> occurs_at rows xs p ->
  moderate_ratio (a_ratio s) -> std_ok (e_alg e) -> 1 <= K ->
  no_near_ties (N := B64) rows k (a_ratio s) xs (long_enough rows) ->
  exists c cs, exec e (CBrute K t qn i st en (kind_name k)) s = (s, Ret (ACands (c :: cs))) /\
    no_distance c /\
    (In p (map place_of (c :: cs)) \/ Forall no_distance (c :: cs)).
Proof.
  intros r0 h s t g rows qn i st en xs p k K e Hrun Hh Hd Hm Hq Hp Hr Hok HK Ht.
  destruct (C34_brute_force_partial r0 h s t g rows qn i st en xs k K e Hrun Hh Hd Hm Hq Hr Hok HK Ht) as (best & E & (B1 & B2 & B3 & B4) & Ha).
  pose proof (run_good r0 h s Hrun) as G.
  destruct (asks_series s qn i st en xs G Hq) as (q & _ & Hmq & Eq & _). rewrite <- Eq in *.
  destruct (self_zero k rows q (a_ratio s) p Hm Hmq Hr Hp) as (z & Ez & Hz).
  assert (Hpos : forall c, In c best -> nle (N := B64) n0 (c_dist c)).
  { intros c Hc. destruct (B1 c Hc) as [[C1 C2] (_ & T2 & T3)]. rewrite T2 in T3.
    destruct (searchable_moderate k rows (a_ratio s) q (fun p' => p' = place_of c) Hm Hmq Hr) with (p := place_of c) as (r & Hio); [intros p' ->; auto|reflexivity|].
    destruct (C06_dtw_nonnegative_ieee k _ _ (a_ratio s) r pinf [] Hio eq_refl) as (d & Ed & Hn & Hl).
    pose proof (eq_trans (eq_sym T3) Ed) as X. injection X as ->. split; [|split]; [reflexivity|apply is_nan_nn; exact Hn|exact Hl]. }
  assert (Hzero : forall c, In c best -> nle (N := B64) (c_dist c) z -> no_distance c).
  { intros c Hc Hle. apply (neqb_of_eqv (N := B64)). split; [|exact (Hpos c Hc)].
    eapply (nle_trans (N := B64)); [exact Hle|]. apply Hz. }
  assert (Hat : forall c, In c best -> place_of c = p -> no_distance c).
  { intros c Hc Ec. apply Hzero; [exact Hc|]. destruct (B1 c Hc) as [_ (_ & T2 & T3)]. rewrite T2, Ec, Ez in T3. injection T3 as <-.
    apply (nle_refl (N := B64)). apply Hz. }
  destruct (in_dec (fun a b : place => ltac:(decide equality; [decide equality|]; apply Z.eq_dec) : {a = b} + {a <> b}) p (map place_of best)) as [Hin|Hout].
  - apply in_map_iff in Hin as (c0 & Ec0 & Hc0). destruct best as [|c cs]; [destruct Hc0|]. exists c, cs. split; [exact E|]. split; [|left; apply in_map_iff; eauto].
    destruct Hc0 as [->|Hc0]; [apply Hat; [left; reflexivity|exact Ec0]|].
    apply Hzero; [left; reflexivity|]. apply In_nth_error in Hc0 as [j Hj].
    eapply (nle_trans (N := B64)); [apply (Ha 0%nat (S j) c c0); [lia|reflexivity|exact Hj]|].
    destruct (B1 c0 (or_intror (nth_error_In _ _ Hj))) as [_ (_ & T2 & T3)]. rewrite T2, Ec0, Ez in T3. injection T3 as <-.
    apply (nle_refl (N := B64)). apply Hz.
  - assert (Hall : forall c, In c best -> no_distance c).
    { intros c Hc. apply Hzero; [exact Hc|]. apply (B4 p z c); auto. apply Hp. }
    destruct best as [|c cs].
    { exfalso. destruct B3 as [B3|[_ B3]]; [cbn in B3; lia|]. destruct (B3 p (proj1 Hp)). }
    exists c, cs. split; [exact E|]. split; [apply Hall; left; reflexivity|]. right. apply Forall_forall. exact Hall.
Qed.
Print Assumptions C73_exhaustive.

(** ** the search in the groups *)

(** C73 is false of the groups.  Series 1 joins the group of series 0 because series 2 does
    not yet represent a group; later series 2 is nearer.  So when series 1 itself is searched
    for, the answer is series 2, at a distance above 0. *)
Definition lost_env : env B64 :=
  mkEnv (N := B64) stodZ putZ putZ (fun _ => None)
    (fun p => if String.eqb p "f" then Some (mkFile ("0,0" ++ nl1 ++ "10,10" ++ nl1 ++ "19,19") None) else None) (fun _ => true) (fun _ => None) (fun _ => false) simple_alg.
Definition lost_group : call B64 := CGroup (N := B64) "x" (b64_ofZ 30) (kind_name KManhattan) 1 true.

Theorem C73_groups_refuted : exists h s c, run (N := B64) (b64_ofZ 1) h s /\
  map fst h = [st_load; lost_group] /\
  snd (exec lost_env (CBest "x" "x" 1 0 2) s) = Ret (ACand c) /\ place_of c = (2, (2, 0)) /\ @nlt B64 n0 (c_dist c).
Proof.
  destruct (st_run lost_env [st_load; lost_group] [] ex_start (@run_start B64 (b64_ofZ 1))) as (h & Hrun & Hh); [vm_compute; reflexivity|].
  set (s := st_after lost_env [st_load; lost_group] ex_start) in *.
  assert (E : best_seen (snd (exec lost_env (CBest "x" "x" 1 0 2) s)) = Some (2, (2, 0), sf (b64_lit 9 2))) by (vm_compute; reflexivity).
  destruct (best_seen_inv _ _ _ _ E) as (c & C1 & C2 & C3). exists h, s, c. split; [exact Hrun|]. split; [exact Hh|]. split; [exact C1|]. split; [exact C2|].
  assert (D1 : (c_dist c : b64) = b64_lit 9 2) by (apply (B2SF_inj prec64 emax64); exact C3).
  unfold nlt. rewrite D1. vm_compute. reflexivity.
Qed.
Print Assumptions C73_groups_refuted.

(** How far off the answer can be: half of the threshold at the price of C52, for every
    history before and after the grouping. *)
Theorem C73_groups_bound_partial : forall (r0 : D B64) h s0 (e : env B64) (thr : D B64) threads s1 n g t d rows k whole (H : std_alg) s qn i st en xs p,
  @run B64 r0 h s0 -> held s0 t = Some g -> gt_data g = d -> holds d rows -> moderate_data rows -> ds_maxcol d <= 2 ^ 26 ->
  is_finite (thr : b64) = true -> (0 <= B2R (thr : b64))%R -> log_safe d (e_clock e) ->
  exec e (CGroup t thr (kind_name k) threads whole) s0 = (s1, Ret n) -> later H t s1 s ->
  asks_for s qn i st en xs -> occurs_at rows xs p -> grouped_length d whole (fst p) -> moderate_ratio (a_ratio s) ->
  forall e', exists s' c r, exec e' (CBest t qn i st en) s = (s', Ret (ACand c)) /\
    true_match (N := B64) rows k (a_ratio s) xs c /\
    band (N := B64) (a_ratio s) (fst p) = Ret r /\
    (B2R (c_dist c : b64) <= price k (fst p) r * (B2R (thr : b64) / 2) * (1 + IZR (ds_maxcol d) / IZR (2 ^ 41)) + 1 / IZR (2 ^ 360))%R.
Proof.
  intros r0 h s0 e thr threads s1 n g0 t d rows k whole H s qn i st en xs p Hrun Hh Ed Hd Hm Hmax Fthr Pthr Hlog E Hl Hq Hp Hgl Hr e'.
  pose proof (run_good r0 h s0 Hrun) as G0.
  destruct (group_spec e s0 t thr (kind_name k) threads whole s1 _ g0 G0 Hh E) as (G1 & _ & g1 & Eg & Hh1 & Hn & _).
  destruct (Hn n eq_refl) as [tot ->].
  destruct (later_asked H t s1 s g1 G1 Hh1 Hl) as (G & g & Hg & Ha).
  assert (Ht : 1 <= threads).
  { revert Eg. unfold groupAllLengths. destruct (negb _); [discriminate|]. destruct (Z.leb_spec 1 threads); [auto|discriminate]. }
  destruct g0 as [d0 old]. cbn [gt_data] in Ed. subst d0.
  destruct (asks_series s qn i st en xs G Hq) as (q & (gq & Hgq & Eq) & Hmq & Ep & Elen). rewrite <- Ep in *.
  pose proof Hp as [[Hl2 Hsub] Epv].
  assert (Lp : ts_length q = fst p).
  { rewrite <- (place_len rows p ltac:(lia) Hsub), Epv. symmetry. apply (DtwPaths.ts_points_length (N := B64)), Hmq. }
  assert (Hle : fst p <= ds_maxcol d) by (revert Hgl; unfold grouped_length; destruct whole; lia).
  destruct (searchable_moderate k rows (a_ratio s) q (fun p' => p' = p) Hm Hmq Hr) with (p := p) as (r & Hio); [intros p' ->; auto|reflexivity|].
  assert (Hb : band (N := B64) (a_ratio s) (fst p) = Ret r).
  { pose proof (io_band _ _ _ _ _ Hio) as Hb. rewrite Epv in Hb. cbn [ts_of_list ts_length] in Hb.
    change (Z.of_nat (length (ts_points q))) with (Z.of_nat (length (ts_points q))) in Hb.
    rewrite (DtwPaths.ts_points_length (N := B64) q (proj1 Hmq)), Z.max_id, Lp in Hb. exact Hb. }
  assert (Hsp : searched_place (N := B64) d rows whole (a_ratio s) (ts_length q) p).
  { split; [|exact Hsub]. split; [exact Hgl|]. exists r. rewrite Lp, Z.max_id. split; [exact Hb|]. pose proof (io_r _ _ _ _ _ Hio). lia. }
  destruct (C52_best_match_near_optimum_ieee H k d rows old (e_clock e) (a_ratio s0) thr threads whole g1 tot g q (a_ratio s) Hd Hm Fthr Pthr Ht Hlog Hmax Eg Ha Hmq ltac:(lia) Hr (ex_intro _ p Hsp))
    as (g' & c & Eb & Htm & Hall).
  destruct (Hall p Hsp) as (r' & v & Er & Ev & Fv & Hle').
  rewrite Lp, Z.max_id, Hb in Er. injection Er as <-.
  destruct (self_zero k rows q (a_ratio s) p Hm Hmq Hr Hp) as (z & Ez & Hz). rewrite Ez in Ev. injection Ev as <-.
  assert (V0 : B2R (z : b64) = 0%R).
  { apply (neqb_of_eqv (N := B64)) in Hz. change (Beqb (z : b64) (b64_ofZ 0) = true) in Hz. rewrite Beqb_correct in Hz; [|exact Fv|reflexivity].
    apply Req_bool_eq_true in Hz || (revert Hz; case Req_bool_spec; intros X Y; [|discriminate Y]; rewrite X; reflexivity). }
  rewrite V0, Rplus_0_l, Lp in Hle'.
  destruct (exec e' (CBest t qn i st en) s) as [s' rr] eqn:Ex. cbn [exec] in Ex.
  rewrite (query_series_ok s t qn i st en g gq G Hg Hgq), Eq in Ex.
  destruct (search_spec s t q (fun g t0 => '(g', c) <- getBestMatch (a_ratio s) g t0 ;; Ret (g', ACand c)) s' rr g G Hg Ex) as (_ & _ & _ & Hf).
  rewrite Eb in Hf. cbn in Hf. destruct Hf as [-> _]. exists s', c, r. split; [reflexivity|]. split; [exact Htm|]. split; [exact Hb|exact Hle'].
Qed.
Print Assumptions C73_groups_bound_partial.

(** In exact arithmetic: a subsequence that represents a group is found. *)
Lemma self_zero_real k (xs : list R) ratio : (0 <= ratio <= 1)%R -> 2 <= Rlen xs <= 2 ^ 30 ->
  dtw_of (N := XR) k (Fin ratio) (map Fin xs) (map Fin xs) = Ret (Fin 0).
Proof.
  intros Hr Hl.
  pose proof (real_pre _ (rm_of k) (rs xs) (rs xs) xs xs ratio (rs_series xs) (rs_series xs) Hl Hl) as H.
  assert (H' : (0 <= ratio)%R) by lra. specialize (H H').
  destruct (dtw_self _ (nice_of k) (rs xs) (rs xs) (Fin ratio) (band_width ratio (Z.max (Rlen xs) (Rlen xs)))) with (mt := @nil (Z * Z)) as (z & mt' & E & H1 & H2); [|reflexivity|].
  - apply H. apply Rle_trans with (IZR (Z.max (Rlen xs) (Rlen xs)) * 1)%R.
    + apply Rmult_le_compat_l; [apply (IZR_le 0); lia|lra].
    + rewrite Rmult_1_r. apply IZR_le. unfold int_max. lia.
  - transitivity (Ret z : res (D XR)).
    + unfold dtw_of. rewrite call_dtw. change (@ts_of_list XR (map Fin xs)) with (rs xs). rewrite E. reflexivity.
    + f_equal. apply XR_neqv_eq. split; assumption.
Qed.

Theorem C73_representative_partial : forall (H : std_alg) (k : kind) (d : dataset XR) (rows : list (list R))
    old clock (ratio0 : D XR) (t : R) threads whole g0 total g (query : TS XR) (xs : list R) (ratio : R) p v,
  holds d (real_rows rows) -> 1 <= threads -> log_safe d clock -> ds_maxcol d <= 2 ^ 30 -> (0 <= t)%R ->
  groupAllLengths (N := XR) clock ratio0 (mkGS d old) (kind_name k) (Fin t) threads whole = (g0, Ret total) ->
  asked (N := XR) H g0 g ->
  is_series query xs -> (0 <= ratio <= 1)%R ->
  occurs_at (N := XR) (real_rows rows) (map Fin xs) p -> grouped_length d whole (fst p) ->
  group_in g (fst p) v -> v_rep v = snd p ->
  exists g' c, getBestMatch (N := XR) (Fin ratio) g query = Ret (g', c) /\
    true_match (N := XR) (real_rows rows) k (Fin ratio) (map Fin xs) c /\ c_dist c = Fin 0.
Proof.
  intros H k d rows old clock ratio0 t threads whole g0 total g query xs ratio [l m] v Hd Ht Hlog Hmax Hpos E Ha Hq Hr [[Hl2 Hs] Epv] Hgl Hv Hrep. cbn [fst snd] in *.
  assert (Lq : ts_length query = Rlen xs).
  { destruct Hq as [Hq1 Hq2]. unfold Rlen. pose proof (DtwPaths.ts_points_length (N := XR) query Hq1) as L. rewrite Hq2, map_length in L. lia. }
  assert (Lx : Rlen xs = l).
  { pose proof (place_len (N := XR) (real_rows rows) (l, m) ltac:(cbn; lia) Hs) as L. rewrite Epv, map_length in L. exact L. }
  assert (Hgl2 : forall l, grouped_length d whole l -> l <= ds_maxcol d) by (intros l' Hl'; revert Hl'; unfold grouped_length; destruct whole; lia).
  pose proof (Hgl2 l Hgl) as Hle.
  assert (Hprod : forall a, 0 <= a <= 2 ^ 30 -> (IZR a * ratio <= IZR int_max)%R).
  { intros a Ha'. apply Rle_trans with (IZR a * 1)%R; [apply Rmult_le_compat_l; [apply (IZR_le 0); lia|lra]|]. rewrite Rmult_1_r. apply IZR_le. unfold int_max. lia. }
  assert (Hsr : searched (N := XR) d whole (Fin ratio) (ts_length query) l).
  { split; [exact Hgl|]. exists (band_width ratio l). rewrite Lq, Lx, Z.max_id. split; [apply band_XR; [lia|lra|apply Hprod; lia]|].
    pose proof (band_width_nonneg ratio l ltac:(lia) ltac:(lra)). lia. }
  destruct (C23_best_match_exact H k d rows old clock ratio0 t threads whole g0 total g query xs ratio Hd Ht Hlog Hmax E Ha Hq ltac:(lia) Hr (ex_intro _ (l, m) (conj Hsr Hs)))
    as (g' & c & Eb & Htm & l0 & v0 & x0 & Hl0 & Hv0 & Hx0 & Elc & Hin & Hclo & Hbest).
  exists g', c. split; [exact Eb|]. split; [exact Htm|].
  destruct (C17_group_diameter k d rows old clock ratio0 t threads whole Hd Hpos ltac:(lia) Ht Hlog) as (g1 & total1 & E1 & Hdia).
  rewrite E in E1. injection E1 as <- _.
  pose proof (proj1 Hl0) as Hg0. destruct (Hdia l0 Hg0) as (vs0 & V1 & V2 & _).
  assert (V1' : level_view g l0 = Some (Ret vs0)).
  { rewrite <- V1. apply (asked_views (N := XR) d (real_rows rows) H old clock ratio0 k (Fin t) threads whole g0 total g); auto; [apply half_fin|lia]. }
  destruct Hv0 as (vs0' & V1'' & Hin0). rewrite V1' in V1''. injection V1'' as <-.
  assert (Hl02 : 2 <= l0) by (revert Hg0; unfold grouped_length; destruct whole; lia).
  destruct V2 as (_ & P2 & P3). destruct (P3 v0 Hin0) as (Q1 & _ & Q2).
  assert (Hr0 : In (v_rep v0) (v_members v0)).
  { rewrite Q2. destruct (exists_last Q1) as (i & a & ->). rewrite last_last. apply in_or_app. right. left. reflexivity. }
  assert (Hsub : forall m', In m' (v_members v0) -> is_sub (real_rows rows) l0 m').
  { intros m' Hm'. apply P2. apply in_concat. exists (v_members v0). split; auto. apply in_map. auto. }
  assert (Hx : @nle XR x0 (Fin 0)).
  { apply (Hclo l v); [exact Hsr|exact Hv|]. unfold group_dist. rewrite Hrep. refine (eq_trans (f_equal (fun z => dtw_of (N := XR) k (Fin ratio) z (map Fin xs)) Epv) _). apply self_zero_real; [exact Hr|lia]. }
  assert (Hval : forall m', In m' (v_members v0) -> exists w, (0 <= w)%R /\ dtw_of (N := XR) k (Fin ratio) (map Fin xs) (place_values (real_rows rows) (l0, m')) = Ret (Fin w) /\
    dtw_of (N := XR) k (Fin ratio) (place_values (real_rows rows) (l0, m')) (map Fin xs) = Ret (Fin w)).
  { intros m' Hm'. specialize (Hsub m' Hm'). pose proof (real_sub_values rows l0 m' Hsub) as Ev.
    assert (Ll : Rlen (real_sub rows l0 m') = l0) by (apply (real_sub_len rows l0 m'); [lia|exact Hsub]). pose proof (Hgl2 l0 Hg0).
    destruct (dtw_of_real k ratio Hr xs (real_sub rows l0 m')) as (_ & p & _ & _ & _ & Ew); [lia|lia| |].
    - destruct Hl0 as (_ & r & Er & Hab). rewrite band_XR in Er; [|lia|lra|apply Hprod; lia]. injection Er as Er. rewrite Ll, <- Lq, Z.max_comm, Er. lia.
    - exists (real_cost k xs (real_sub rows l0 m') p). split; [apply cost_pos|].
      split.
      + refine (eq_trans (f_equal (fun z => dtw_of (N := XR) k (Fin ratio) (map Fin xs) z) Ev) _). exact Ew.
      + refine (eq_trans (f_equal (fun z => dtw_of (N := XR) k (Fin ratio) z (map Fin xs)) Ev) _).
        refine (eq_trans (eq_sym (dtw_of_sym k ratio Hr xs _ _ _)) Ew); lia. }
  destruct (Hval _ Hr0) as (w0 & W0 & W1 & W2). unfold group_dist in Hx0. rewrite W2 in Hx0. injection Hx0 as <-. apply nle_Fin in Hx.
  pose proof (Hbest _ _ Hr0 W1) as Hle0. destruct Htm as (_ & Tp & Td). rewrite Tp in Td. destruct (place_of c) as [lc mc]. cbn [fst snd] in *. subst lc.
  destruct (Hval _ Hin) as (w & Wp & W & _). pose proof (eq_trans (eq_sym Td) W) as X. injection X as X. rewrite X in *. apply nle_Fin in Hle0. f_equal. lra.
Qed.
Print Assumptions C73_representative_partial.

(** ** cases that meet the hypotheses *)

(** three series, 1 2, 3 4 and 5 6; the second is searched for *)
Definition self_place : place := (2, (1, 0)).
Example C73_example : exists h d s1 n, let xs := [b64_ofZ 3; b64_ofZ 4] in
  @run B64 (b64_ofZ 1) h ex_s1 /\ held ex_s1 "x" = Some (mkGS d None) /\ holds d ex_rows /\ moderate_data ex_rows /\
  asks_for ex_s1 "x" 1 0 2 xs /\ occurs_at (N := B64) ex_rows xs self_place /\ moderate_ratio (a_ratio ex_s1) /\
  no_near_ties (N := B64) ex_rows KManhattan (a_ratio ex_s1) xs (long_enough (N := B64) ex_rows) /\
  log_safe d (e_clock ex_env) /\ ds_maxcol d <= 2 ^ 26 /\
  exec ex_env (CGroup (N := B64) "x" (b64_ofZ 1) (kind_name KManhattan) 1 false) ex_s1 = (s1, Ret n) /\
  asks_for s1 "x" 1 0 2 xs /\ grouped_length d false (fst self_place) /\ moderate_ratio (a_ratio s1).
Proof.
  destruct ex_history as (a1 & _ & _ & _ & H1 & _). destruct ex_held as (d & Hh & Hd & Hm & Hc).
  destruct (exec ex_env (CGroup (N := B64) "x" (b64_ofZ 1) (kind_name KManhattan) 1 false) ex_s1) as [s1 r] eqn:E.
  assert (Hr : is_ret r = true) by (replace r with (snd (exec ex_env (CGroup (N := B64) "x" (b64_ofZ 1) (kind_name KManhattan) 1 false) ex_s1)) by (rewrite E; reflexivity);
    vm_compute; reflexivity).
  destruct r as [n| | |]; try discriminate Hr. exists [(ex_load "x", Ret a1)], d, s1, n.
  assert (Hmod : moderate_data ex_rows).
  { intros row [<-|[<-|[<-|[]]]]; (split; [|vm_compute; discriminate]); apply leb64_all; vm_compute; reflexivity. }
  pose proof (run_good _ _ _ H1) as G.
  destruct (group_spec ex_env ex_s1 "x" (b64_ofZ 1) (kind_name KManhattan) 1 false s1 (Ret n) _ G Hh E) as (G1 & Er & g1 & Eg1 & Hg1 & _).
  pose proof (gg_group_data _ _ _ _ _ _ _ _ _ Eg1) as Ed. cbn in Ed.
  assert (Er1 : a_ratio ex_s1 = (b64_ofZ 1 : D B64)) by reflexivity.
  assert (Hratio : moderate_ratio (a_ratio ex_s1)) by (rewrite Er1; split; (split; [|split]); vm_compute; reflexivity).
  intros xs. split; [exact H1|]. split; [exact Hh|]. split; [exact Hd|]. split; [exact Hmod|]. split.
  { exists (mkGS d None), ex_rows, xs. split; [exact Hh|]. split; [exact Hd|]. split; [exact Hmod|]. split; [reflexivity|]. split; [lia|]. split; [lia|]. split; [cbn; lia|reflexivity]. }
  split.
  { split; [|reflexivity]. split; [cbn; lia|]. exists xs. split; [reflexivity|]. cbn. lia. }
  split; [exact Hratio|]. split.
  { rewrite Er1. clear -xs. intros p p' v v' Hp Hp' Ev Ev'. apply (BruteProofs.bf_places_In (N := B64) ex_rows) in Hp, Hp'.
    assert (G : forallb (fun p => forallb (fun p' =>
      match dtw_of (N := B64) KManhattan (b64_ofZ 1) [b64_ofZ 3; b64_ofZ 4] (place_values ex_rows p),
            dtw_of (N := B64) KManhattan (b64_ofZ 1) [b64_ofZ 3; b64_ofZ 4] (place_values ex_rows p') with
      | Ret v, Ret v' => sepb v v' | _, _ => false end) (BruteProofs.bf_places (N := B64) ex_rows)) (BruteProofs.bf_places (N := B64) ex_rows) = true) by (clear; vm_compute; reflexivity).
    rewrite forallb_forall in G. specialize (G p Hp). rewrite forallb_forall in G. specialize (G p' Hp').
    cbv beta in G. unfold xs in *. rewrite Ev, Ev' in G. unfold sepb in G. apply orb_true_iff in G as [G|G].
    - left. apply (neqb_true (N := B64)). exact G.
    - right. apply negb_true_iff in G. exact G. }
  split; [intros l Hl; left; reflexivity|]. split; [lia|]. split; [reflexivity|]. split.
  { exists g1, ex_rows, xs. rewrite Ed. split; [exact Hg1|]. split; [exact Hd|]. split; [exact Hmod|]. split; [reflexivity|]. split; [lia|]. split; [lia|]. split; [cbn; lia|reflexivity]. }
  split; [cbn; lia|]. rewrite Er. exact Hratio.
Qed.

(** two equal series, grouped whole: one of them represents the group *)
Example C73_representative_example : exists g0 total p v,
  holds zero_data (real_rows zero_rows) /\ log_safe zero_data (fun _ => false) /\
  groupAllLengths (N := XR) (fun _ => false) (Fin 1) (mkGS zero_data None) (kind_name KManhattan) (Fin 3) 1 true = (g0, Ret total) /\
  occurs_at (N := XR) (real_rows zero_rows) (map Fin [0; 1]%R) p /\ grouped_length zero_data true (fst p) /\
  group_in g0 (fst p) v /\ v_rep v = snd p.
Proof.
  destruct C59_example_pre as (Hh & Hl & _).
  destruct (C17_group_diameter KManhattan zero_data zero_rows None (fun _ => false) (Fin 1) 3 1 true Hh ltac:(lra)) as (g & total & E & Hd); [simpl; lia|lia|exact Hl|].
  destruct (Hd 2 eq_refl) as (vs & V1 & (P1 & P2 & P3) & _).
  assert (S0 : is_sub (real_rows zero_rows) 2 (0, 0)) by (exists (map Fin [0; 1]%R); split; [reflexivity|simpl; lia]).
  apply P2 in S0. apply in_concat in S0 as (ms & M1 & M2). apply in_map_iff in M1 as (v & <- & Hv).
  destruct (P3 v Hv) as (Q1 & _ & Q2).
  assert (Hr : In (v_rep v) (v_members v)).
  { rewrite Q2. destruct (exists_last Q1) as (i & a & ->). rewrite last_last. apply in_or_app. right. left. reflexivity. }
  assert (Hs : is_sub (real_rows zero_rows) 2 (v_rep v)) by (apply P2, in_concat; exists (v_members v); split; [apply in_map; exact Hv|exact Hr]).
  exists g, total, (2, v_rep v), v. split; [exact Hh|]. split; [exact Hl|]. split; [exact E|]. split; [|split; [reflexivity|split; [exists vs; split; assumption|reflexivity]]].
  split; [split; [cbn; lia|exact Hs]|]. destruct Hs as (row & Hrow & Hs). destruct (v_rep v) as [i s]. cbn [fst snd] in *.
  apply row_of_Some in Hrow as [Hi Hn]. assert (Hi2 : (Z.to_nat i < 2)%nat) by (apply nth_error_Some_lt in Hn; exact Hn).
  assert (i = 0 \/ i = 1) as [->| ->] by lia; (assert (Hlen : Z.of_nat (length row) = 2) by (injection Hn as <-; reflexivity)); (assert (s = 0) by lia); subst s; reflexivity.
Qed.
