(** Properties C01-C15: distances, cut-offs, envelopes, lower bounds, matchings.
    Specifications: DtwSpec.v (warping paths), DistSpec.v (costs in any
    arithmetic), DtwReal.v and Pairwise.v (textbook costs over the reals). *)
From Coq Require Import String Reals Lra.
From Flocq Require Import Core.Raux IEEE754.BinarySingleNaN.
From Verif Require Import Base Num NumB64 NumLaws NumFacts NumB64Laws NumXR NumXRLaws LoopFacts TimeSeries
  Lemire Distance DtwSpec DtwPaths DtwProofs Metrics DtwMain DtwResults DtwBounds DtwReal DtwLen1 Pairwise
  LemireProofs LowerBounds Band DistSpec DistFacts DistLink.
Local Open Scope Z_scope.
Local Open Scope list_scope.

(** series of integers and of doubles, used in examples *)
Definition zs (l : list Z) : TS B64 := ts_of_list (N := B64) (map b64_ofZ l).
Definition rs (l : list R) : TS XR := ts_of_list (N := XR) (map Fin l).
Definition pinf : b64 := B754_infinity false.

Lemma rs_series l : is_series (rs l) l. Proof. apply series_of_list. Qed.
(** decision procedures for concrete series *)
Definition finb (x : b64) : bool := Bltb (B754_infinity true) x && Bltb x (B754_infinity false).
Lemma finb_all (a : TS B64) : forallb finb (ts_points a) = true -> Forall (@nfin B64) (ts_points a).
Proof.
  intros H. apply Forall_forall. intros x Hx. rewrite forallb_forall in H. specialize (H x Hx).
  apply andb_prop in H. exact H.
Qed.
Definition leb64 (y x : b64) : bool := Beqb (Babs x) (Babs x) && Beqb y y && negb (Bltb y (Babs x)).
Lemma leb64_all (y : b64) (l : list b64) : forallb (leb64 y) l = true ->
  Forall (fun x => @nle B64 (nabs (n := B64) x) y) l.
Proof.
  intros H. apply Forall_forall. intros x Hx. rewrite forallb_forall in H. specialize (H x Hx).
  apply andb_prop in H as [H H3]. apply andb_prop in H as [H1 H2].
  split; [exact H1|split; [exact H2|]]. apply negb_true_iff in H3. exact H3.
Qed.
Lemma smallb_all (a : TS B64) : forallb (leb64 (b64_ofZ (2 ^ 490))) (ts_points a) = true -> small_points a.
Proof. apply leb64_all. Qed.
Lemma zs_ok l : ts_ok (zs l). Proof. apply ts_of_list_ok. Qed.

Lemma is_nan_nn (x : b64) : is_nan x = false <-> @nn B64 x.
Proof.
  unfold nn. change (@neqb B64 x x) with (Beqb x x). rewrite Beqb_refl. destruct (is_nan x); split; auto; discriminate.
Qed.

(** results of concrete runs, compared without the boundedness proofs that
    Flocq's floats carry *)
Definition sf (r : res b64) : res SpecFloat.spec_float :=
  match r with Ret d => Ret (B2SF d) | Throw e => Throw e | UB u => UB u | Hang => Hang end.
Definition got (r : res b64) : b64 := match r with Ret d => d | _ => B754_nan end.
Lemma sf_inf r : sf r = Ret (SpecFloat.S754_infinity false) -> r = Ret pinf.
Proof. destruct r as [d| | |]; try discriminate. destruct d as [s|s| |s m e H]; try discriminate. simpl. intros E. injection E as ->. reflexivity. Qed.
Lemma sf_zero r : sf r = Ret (SpecFloat.S754_zero false) -> r = Ret (b64_ofZ 0).
Proof. destruct r as [d| | |]; try discriminate. destruct d as [s|s| |s m e H]; try discriminate. simpl. intros E. injection E as ->. reflexivity. Qed.
Lemma sf_got r x : sf r = Ret x -> r = Ret (got r).
Proof. destruct r; try discriminate. reflexivity. Qed.

Lemma nonneg64 (x : b64) : nfin (N := B64) x -> Bltb x (b64_ofZ 0) = false -> nle (N := B64) n0 x.
Proof. intros Hf H0. split; [reflexivity|]. split; [apply nfin_nn; auto|exact H0]. Qed.

Lemma inf_scaled k : 1 <= k <= 2 ^ 53 ->
  @nmul B64 (@nmul B64 (@ninf B64) (@ninf B64)) (@nofZ B64 k) = @ninf B64.
Proof.
  intros Hk. change (Bmult mode_NE pinf (b64_ofZ k) = pinf).
  pose proof (ofZ_small k ltac:(lia)) as E. destruct (b64_ofZ k) as [s|s| |s m e Hb]; simpl in E; try discriminate.
  - injection E as E. apply eq_IZR in E. lia.
  - destruct s; discriminate.
  - destruct s; [|reflexivity]. exfalso. injection E as E.
    assert (IZR k < 0)%R; [|apply lt_IZR in H; lia]. rewrite <- E. apply Float_prop.F2R_lt_0. reflexivity.
Qed.

Lemma assoc_In {A} k (l : list (string * A)) v : assoc k l = Some v -> In (k, v) l.
Proof.
  induction l as [|[k' v'] l IH]; simpl; [discriminate|]. destruct (String.eqb_spec k k') as [->|Hne].
  - intros E. injection E as ->. auto.
  - auto.
Qed.

(** the only path inside a band of width 0 *)
Lemma warping_diag p : warping_path 2 2 p -> in_band 0 p -> p = [(0, 0); (1, 1)].
Proof.
  destruct p as [|c p]; [simpl; tauto|]. intros (-> & Hc & Hl) Hb. inversion Hb as [|? ? _ Hb' E]; subst.
  destruct p as [|c p]; [discriminate|]. simpl in Hc. destruct Hc as [Hs Hc].
  inversion Hb' as [|? ? Hb1 Hb2 E]; subst.
  assert (c = (1, 1)) as ->. { destruct Hs as [->|[->| ->]]; simpl in *; auto; lia. }
  destruct p as [|c p]; [reflexivity|]. exfalso.
  assert (G : forall p i j, 1 <= i -> 1 <= j -> chain (i, j) p -> p <> [] -> last p (0, 0) <> (1, 1)).
  { clear. induction p as [|c p IH]; intros i j Hi Hj Hc Hne; [contradiction|]. destruct Hc as [Hs Hc].
    destruct p as [|c' p]; simpl last.
    - destruct Hs as [->|[->| ->]]; intros E; apply (f_equal (fun c => fst c + snd c)) in E; cbn [fst snd last] in E; lia.
    - destruct Hs as [->|[->| ->]]; [apply (IH (i + 1) j)|apply (IH i (j + 1))|apply (IH (i + 1) (j + 1))];
        first [lia|exact Hc|intros E; discriminate E]. }
  apply (G (c :: p) 1 1); first [lia|exact Hc|exact Hl|intros E; discriminate E].
Qed.

(** ** C01 *)
Theorem C01_dtw_is_the_optimum : forall (k : kind) (a b : TS XR) (xs ys : list R) (ratio : R) mt,
  is_series a xs -> is_series b ys ->
  2 <= Rlen xs <= 2 ^ 30 -> 2 <= Rlen ys <= 2 ^ 30 ->
  (0 <= ratio)%R -> (IZR (Z.max (Rlen xs) (Rlen ys)) * ratio <= IZR int_max)%R ->
  let r := band_width ratio (Z.max (Rlen xs) (Rlen ys)) in
  (Z.abs (Rlen xs - Rlen ys) <= r -> exists p,
     warping_path (Rlen xs) (Rlen ys) p /\ in_band r p /\
     (forall q, warping_path (Rlen xs) (Rlen ys) q -> in_band r q ->
        (real_cost k xs ys p <= real_cost k xs ys q)%R) /\
     value (dist_call (dtw_name k) (Fin ratio : D XR) a b PInf mt) = Ret (Fin (real_cost k xs ys p))) /\
  (r < Z.abs (Rlen xs - Rlen ys) ->
     (forall q, warping_path (Rlen xs) (Rlen ys) q -> ~ in_band r q) /\
     value (dist_call (dtw_name k) (Fin ratio : D XR) a b PInf mt) = Ret PInf).
Proof.
  intros k a b xs ys ratio mt Ha Hb Hm Hn Hq Hq2 r. rewrite call_dtw. split; intros Hab.
  - destruct (real_dtw_min _ (rm_of k) a b xs ys ratio Ha Hb Hm Hn Hq Hq2 mt Hab) as (p & mt' & H1 & H2 & H3 & E).
    rewrite rm_cost_of in *. exists p. splits; auto. rewrite E. reflexivity.
  - destruct (real_dtw_inf _ (rm_of k) a b xs ys ratio Ha Hb Hm Hn Hq Hq2 mt Hab) as (H1 & mt' & E).
    split; auto. rewrite E. reflexivity.
Qed.
Print Assumptions C01_dtw_is_the_optimum.

Example C01_case : (* lengths 3 and 2, ratio 1/2: band 1, so a path exists *)
  let xs := [1; 2; 3]%R in let ys := [1; 3]%R in
  is_series (rs xs) xs /\ is_series (rs ys) ys /\ Rlen xs = 3 /\ Rlen ys = 2 /\
  band_width (1 / 2) 3 = 1 /\ (IZR 3 * (1 / 2) <= IZR int_max)%R.
Proof.
  intros xs ys. splits; try apply rs_series; try (vm_compute; reflexivity).
  - unfold band_width. replace (IZR 3 * (1 / 2))%R with (3 / 2)%R by lra.
    rewrite (Zfloor_imp 1) by (simpl; lra). reflexivity.
  - unfold int_max. lra.
Qed.

(** ** C02 *)
Theorem C02_ieee_dtw_is_a_path_cost : forall (k : kind) (a b : TS B64) (ratio : b64) r mt,
  ieee_ok k a b ratio r -> Z.abs (ts_length a - ts_length b) <= r ->
  exists p, warping_path (ts_length a) (ts_length b) p /\ in_band r p /\
    let c := warp_cost (N := B64) k (ts_points a) (ts_points b) p in
    value (dist_call (N := B64) (dtw_name k) ratio a b pinf mt) = Ret c /\
    is_nan c = false /\ Bltb c (b64_ofZ 0) = false.
Proof.
  intros k a b ratio r mt H Hab. rewrite call_dtw. pose proof (proj1 (ok_pre _ _ _ _ _) H) as H'.
  destruct (dtw_is_path_cost _ (nice_of k) a b ratio r H' mt Hab) as (p & mt' & H1 & H2 & E).
  exists p. splits; auto. cbv zeta. rewrite (warp_cost_eq (N := B64)) by apply H.
  pose proof (path_cost_pos _ (nice_of k) a b ratio r H' p H1 H2) as H3.
  change (warpedDistance (metric_of k) a b ratio pinf mt) with (warpedDistance (metric_of k) a b ratio (@ninf B64) mt).
  rewrite E. splits; [reflexivity|apply is_nan_nn, H3|apply H3].
Qed.
Print Assumptions C02_ieee_dtw_is_a_path_cost.

(** the overflow hypothesis holds whenever all points are at most 2^490 *)
Theorem C02_no_overflow_for_moderate_data : forall (k : kind) (a b : TS B64) (ratio : b64) r,
  ts_ok a -> ts_ok b -> 2 <= ts_length a <= 2 ^ 30 -> 2 <= ts_length b <= 2 ^ 30 ->
  small_points a -> small_points b ->
  band (N := B64) ratio (Z.max (ts_length a) (ts_length b)) = Ret r -> 0 <= r ->
  ieee_ok k a b ratio r.
Proof. exact small_ok. Qed.
Print Assumptions C02_no_overflow_for_moderate_data.

Lemma case_ok k : ieee_ok k (zs [1; 2; 3; 4; 5]) (zs [1; 1; 2; 7]) (b64_lit 1 2) 2.
Proof.
  apply small_ok; try apply zs_ok; try apply smallb_all; try (vm_compute; reflexivity).
  - change (2 <= 5 <= 2 ^ 30). lia.
  - change (2 <= 4 <= 2 ^ 30). lia.
  - lia.
Qed.
Example C02_case : forall k, ieee_ok k (zs [1; 2; 3; 4; 5]) (zs [1; 1; 2; 7]) (b64_lit 1 2) 2 /\
  Z.abs (ts_length (zs [1; 2; 3; 4; 5]) - ts_length (zs [1; 1; 2; 7])) <= 2.
Proof. intros k. split; [apply case_ok|vm_compute; congruence]. Qed.

(** without the overflow hypothesis the value can be wrong: a row whose costs
    are all infinite is treated as reachable *)
Definition b64_1e200 : b64 := b64_ofZ (10 ^ 200).
Theorem C02_overflow_refuted : exists (a b : TS B64),
  ts_points a = [b64_1e200; b64_ofZ 0] /\ ts_points b = [Bopp b64_1e200; b64_ofZ 0] /\
  value (dist_call (N := B64) "euclidean_dtw" (b64_ofZ 0) a b pinf []) = Ret (b64_ofZ 0) /\
  forall p, warping_path 2 2 p -> in_band 0 p -> warp_cost (N := B64) KEuclidean (ts_points a) (ts_points b) p = pinf.
Proof.
  exists (ts_of_list (N := B64) [b64_1e200; b64_ofZ 0]), (ts_of_list (N := B64) [Bopp b64_1e200; b64_ofZ 0]).
  splits; [reflexivity|reflexivity|vm_compute; reflexivity|].
  intros p Hp Hb. assert (p = [(0, 0); (1, 1)]) as ->; [|vm_compute; reflexivity].
  apply (warping_diag p Hp Hb).
Qed.
Print Assumptions C02_overflow_refuted.

(** ** C03 *)
Theorem C03_dtw_cutoff_sound : forall (k : kind) (a b : TS B64) (ratio : b64) r cut mt full,
  ieee_ok k a b ratio r -> is_nan cut = false ->
  value (dist_call (N := B64) (dtw_name k) ratio a b pinf mt) = Ret full ->
  exists d, value (dist_call (N := B64) (dtw_name k) ratio a b cut mt) = Ret d /\
    (d = full \/ d = pinf) /\
    (Bltb cut full = false -> d = full) /\
    (Bltb cut full = true -> Bltb cut d = true).
Proof.
  intros k a b ratio r cut mt full H Hc E. rewrite call_dtw in *. pose proof (proj1 (ok_pre _ _ _ _ _) H) as H'.
  destruct (warpedDistance (metric_of k) a b ratio (pinf : D B64) mt) as [[d0 mt0]| | |] eqn:E0; try discriminate.
  injection E as ->.
  destruct (dtw_cutoff _ (nice_of k) a b ratio r H' cut mt full mt0) as (d & mt' & Ed & H1 & H2).
  { apply is_nan_nn, Hc. }
  { exact E0. }
  rewrite Ed. exists d. splits; auto.
  - destruct (Bltb cut full) eqn:C; [apply H2; exact C|left; apply H1; exact C].
  - intros C. apply H2, C.
Qed.
Print Assumptions C03_dtw_cutoff_sound.

Example C03_case : ieee_ok KEuclidean (zs [1; 2; 3; 4; 5]) (zs [1; 1; 2; 7]) (b64_lit 1 2) 2 /\
  let run cut := sf (value (dist_call (N := B64) "euclidean_dtw" (b64_lit 1 2) (zs [1; 2; 3; 4; 5]) (zs [1; 1; 2; 7]) cut [])) in
  (* a cut-off below the distance and one above *)
  run pinf <> Ret (B2SF pinf) /\ run (b64_lit 1 100) = Ret (B2SF pinf) /\ run (b64_lit 1 1) = run pinf.
Proof.
  split; [apply (case_ok KEuclidean)|]. intros run.
  splits; [vm_compute; discriminate|vm_compute; reflexivity|vm_compute; reflexivity].
Qed.

(** for a one-point second series the cut-off is not sound *)
Theorem C03_one_point_series_refuted : exists (a b : TS B64) (ratio cut : b64),
  ts_length a = 3 /\ ts_length b = 1 /\ cut = b64_ofZ 1 /\
  value (dist_call (N := B64) "euclidean_dtw" ratio a b pinf []) = Ret (b64_ofZ 0) /\
  value (dist_call (N := B64) "euclidean_dtw" ratio a b cut []) = Ret pinf.
Proof.
  exists (zs [0; 0; 0]), (zs [0]), (b64_lit 1 2), (b64_ofZ 1).
  splits; [reflexivity|reflexivity|reflexivity|apply sf_zero; vm_compute; reflexivity|apply sf_inf; vm_compute; reflexivity].
Qed.
Print Assumptions C03_one_point_series_refuted.

(** ** C04 *)
Theorem C04_pairwise_cutoff_ieee : forall (k : kind) (a b : TS B64) (ratio cut : b64) mt,
  k <> KEuclidean -> ts_ok a -> ts_ok b -> ts_length a = ts_length b -> 1 <= ts_length a <= 2 ^ 30 ->
  Forall nfin (ts_points a) -> Forall nfin (ts_points b) -> is_nan cut = false ->
  let full := pair_value (N := B64) k (ts_points a) (ts_points b) in
  dist_call (N := B64) (kind_name k) ratio a b cut mt = Ret (if Bltb cut full then pinf else full, mt).
Proof.
  intros k a b ratio cut mt Hk Ha Hb Hl Hm Fa Fb Hc full. unfold full. rewrite call_pw.
  rewrite (pair_value_eq (N := B64)) by auto. apply is_nan_nn in Hc.
  destruct k; [contradiction| |].
  - apply (pw_cutoff _ Manhattan_nice eq_refl manhattan_norm_mono a b Ha Hb Hl Hm Fa Fb cut mt Hc).
  - apply (pw_cutoff _ Chebyshev_nice eq_refl chebyshev_norm_mono a b Ha Hb Hl Hm Fa Fb cut mt Hc).
Qed.
Print Assumptions C04_pairwise_cutoff_ieee.

Theorem C04_pairwise_cutoff_euclidean_exact : forall (a b : TS XR) (xs ys : list R) (ratio : D XR) (cut : R) mt,
  is_series a xs -> is_series b ys -> length xs = length ys -> xs <> [] -> (0 <= cut)%R ->
  dist_call (N := XR) "euclidean" ratio a b (Fin cut) mt
  = Ret (if Rlt_bool cut (rms_distance xs ys) then PInf else Fin (rms_distance xs ys), mt).
Proof. intros. apply (euclidean_cutoff a b xs ys); auto. Qed.
Print Assumptions C04_pairwise_cutoff_euclidean_exact.

(** in IEEE arithmetic euclidean still returns the uncut value or infinity *)
Theorem C04_pairwise_cutoff_euclidean_ieee_partial : forall (k : kind) (a b : TS B64) (ratio cut : b64) mt,
  ts_ok a -> ts_ok b -> ts_length a = ts_length b ->
  let full := pair_value (N := B64) k (ts_points a) (ts_points b) in
  dist_call (N := B64) (kind_name k) ratio a b cut mt = Ret (full, mt) \/
  dist_call (N := B64) (kind_name k) ratio a b cut mt = Ret (pinf, mt).
Proof.
  intros k a b ratio cut mt Ha Hb Hl full. unfold full. rewrite call_pw, (pair_value_eq (N := B64)) by auto.
  apply (pw_full_or_inf (N := B64)); auto. apply Ha.
Qed.
Print Assumptions C04_pairwise_cutoff_euclidean_ieee_partial.

(** but rounding can hide a value equal to the cut-off *)
Theorem C04_euclidean_ieee_refuted : exists (a b : TS B64) d,
  value (dist_call (N := B64) "euclidean" (b64_ofZ 1) a b pinf []) = Ret d /\ Bltb d pinf = true /\
  value (dist_call (N := B64) "euclidean" (b64_ofZ 1) a b d []) = Ret pinf.
Proof.
  exists (zs [5; 1]), (zs [0; 0]).
  exists (got (value (dist_call (N := B64) "euclidean" (b64_ofZ 1) (zs [5; 1]) (zs [0; 0]) pinf []))). splits.
  - eapply sf_got. vm_compute. reflexivity.
  - vm_compute. reflexivity.
  - apply sf_inf. vm_compute. reflexivity.
Qed.
Print Assumptions C04_euclidean_ieee_refuted.

Theorem C04_length_mismatch_throws : forall (k : kind) (a b : TS B64) (ratio cut : b64) mt,
  ts_length a <> ts_length b -> exists s, dist_call (N := B64) (kind_name k) ratio a b cut mt = Throw (GenexExc s).
Proof. intros k a b ratio cut mt H. rewrite call_pw. apply (pw_mismatch (N := B64)); auto. Qed.
Print Assumptions C04_length_mismatch_throws.

Example C04_case : ts_length (zs [5; 1]) = ts_length (zs [0; 3]) /\
  Forall (@nfin B64) (ts_points (zs [5; 1])) /\ Forall (@nfin B64) (ts_points (zs [0; 3])) /\
  sf (value (dist_call (N := B64) "manhattan" (b64_ofZ 1) (zs [5; 1]) (zs [0; 3]) (b64_ofZ 4) [])) = Ret (B2SF (b64_lit 7 2)) /\
  sf (value (dist_call (N := B64) "manhattan" (b64_ofZ 1) (zs [5; 1]) (zs [0; 3]) (b64_ofZ 3) [])) = Ret (B2SF pinf).
Proof. splits; try apply finb_all; vm_compute; reflexivity. Qed.

(** ** C05 *)
Theorem C05_pairwise_textbook : forall (k : kind) (a b : TS XR) (xs ys : list R) (ratio : D XR) mt,
  is_series a xs -> is_series b ys -> length xs = length ys -> xs <> [] -> Z.of_nat (length xs) <= 2 ^ 30 ->
  dist_call (N := XR) (kind_name k) ratio a b PInf mt = Ret (Fin (real_pair k xs ys), mt).
Proof.
  intros k a b xs ys ratio mt Ha Hb Hl Hx Hlen. rewrite call_pw. destruct k.
  - apply (euclidean_nocut a b xs ys); auto.
  - assert (Hm : 1 <= ts_length a <= 2 ^ 30) by (rewrite (is_series_len a xs Ha); unfold Rlen; destruct xs; [contradiction|]; cbn [length] in *; lia).
    assert (Hlab : ts_length a = ts_length b) by (apply (len_ab a b xs ys); auto).
    etransitivity; [exact (pw_cutoff (N := XR) _ Manhattan_nice eq_refl manhattan_norm_mono a b (proj1 Ha) (proj1 Hb)
              Hlab Hm (is_series_fin a xs Ha) (is_series_fin b ys Hb) ninf mt lw_inf_nn)|].
    rewrite lw_inf_top. rewrite (full_manhattan a b xs ys) by auto. reflexivity.
  - assert (Hm : 1 <= ts_length a <= 2 ^ 30) by (rewrite (is_series_len a xs Ha); unfold Rlen; destruct xs; [contradiction|]; cbn [length] in *; lia).
    assert (Hlab : ts_length a = ts_length b) by (apply (len_ab a b xs ys); auto).
    etransitivity; [exact (pw_cutoff (N := XR) _ Chebyshev_nice eq_refl chebyshev_norm_mono a b (proj1 Ha) (proj1 Hb)
              Hlab Hm (is_series_fin a xs Ha) (is_series_fin b ys Hb) ninf mt lw_inf_nn)|].
    rewrite lw_inf_top. rewrite (full_chebyshev a b xs ys) by auto. reflexivity.
Qed.
Print Assumptions C05_pairwise_textbook.

Theorem C05_pairwise_metric_axioms : forall (k : kind) (xs ys zs : list R),
  xs <> [] -> length xs = length ys -> length ys = length zs ->
  (0 <= real_pair k xs ys)%R /\
  real_pair k xs ys = real_pair k ys xs /\
  (real_pair k xs ys = 0%R <-> xs = ys) /\
  (real_pair k xs zs <= real_pair k xs ys + real_pair k ys zs)%R.
Proof.
  intros k xs ys zs Hx H1 H2. destruct k; cbn [real_pair].
  - splits; [apply rms_pos|apply rms_sym; auto|apply rms_zero; auto|apply rms_triangle; auto].
  - splits; [apply mean_abs_pos|apply mean_abs_sym; auto|apply mean_abs_zero; auto|apply mean_abs_triangle; auto].
  - splits; [apply max_abs_pos|apply max_abs_sym; auto|apply max_abs_zero; auto|apply max_abs_triangle; auto].
Qed.
Print Assumptions C05_pairwise_metric_axioms.

Example C05_case : real_pair KManhattan [1; 2]%R [3; 5]%R = (5 / 2)%R /\ is_series (rs [1; 2]%R) [1; 2]%R.
Proof.
  split; [|apply rs_series]. unfold real_pair, mean_abs_distance, pair_sum. simpl.
  rewrite (Rabs_left (1 - 3)), (Rabs_left (2 - 5)) by lra. lra.
Qed.

(** ** C06 *)
Theorem C06_dtw_symmetric_exact : forall (k : kind) (a b : TS XR) (xs ys : list R) (ratio : R) mt,
  is_series a xs -> is_series b ys ->
  2 <= Rlen xs <= 2 ^ 30 -> 2 <= Rlen ys <= 2 ^ 30 ->
  (0 <= ratio)%R -> (IZR (Z.max (Rlen xs) (Rlen ys)) * ratio <= IZR int_max)%R ->
  exists d, value (dist_call (dtw_name k) (Fin ratio : D XR) a b PInf mt) = Ret d /\
            value (dist_call (dtw_name k) (Fin ratio : D XR) b a PInf mt) = Ret d.
Proof.
  intros k a b xs ys ratio mt Ha Hb Hm Hn Hq Hq2. rewrite !call_dtw.
  pose proof (real_pre _ (rm_of k) a b xs ys ratio Ha Hb Hm Hn Hq Hq2) as H.
  destruct (dtw_sym _ (nice_of k) a b _ _ H mt mt) as (d1 & d2 & m1 & m2 & E1 & E2 & He).
  - apply reflects_of. rewrite (is_series_len a xs Ha). lia.
  - apply reflects_of. rewrite (is_series_len a xs Ha). lia.
  - apply XR_neqv_eq in He. subst d2. exists d1.
    change (PInf) with (@ninf XR). rewrite E1, E2. auto.
Qed.
Print Assumptions C06_dtw_symmetric_exact.

Theorem C06_dtw_self_zero_ieee : forall (k : kind) (a b : TS B64) (ratio : b64) r mt,
  ieee_ok k a b ratio r -> ts_points a = ts_points b ->
  exists d, value (dist_call (N := B64) (dtw_name k) ratio a b pinf mt) = Ret d /\ Beqb d (b64_ofZ 0) = true.
Proof.
  intros k a b ratio r mt H Hp. rewrite call_dtw. pose proof (proj1 (ok_pre _ _ _ _ _) H) as H'.
  destruct (dtw_self _ (nice_of k) a b ratio r H' mt Hp) as (d & mt' & E & H1 & H2).
  change (pinf) with (@ninf B64). rewrite E. exists d. split; auto.
  apply (neqb_of_eqv (N := B64)). split; auto.
Qed.
Print Assumptions C06_dtw_self_zero_ieee.

Theorem C06_dtw_nonnegative_ieee : forall (k : kind) (a b : TS B64) (ratio : b64) r cut mt,
  ieee_ok k a b ratio r -> is_nan cut = false ->
  exists d, value (dist_call (N := B64) (dtw_name k) ratio a b cut mt) = Ret d /\
    is_nan d = false /\ Bltb d (b64_ofZ 0) = false.
Proof.
  intros k a b ratio r cut mt H Hc. rewrite call_dtw. pose proof (proj1 (ok_pre _ _ _ _ _) H) as H'.
  apply is_nan_nn in Hc. destruct (dtw_run _ (nice_of k) a b ratio r H') as (dF & _ & Hrun).
  destruct (Hrun cut mt Hc) as (d & p & _ & E & _). rewrite E. exists d. splits; auto.
  - apply is_nan_nn. apply (dtw_nonneg _ (nice_of k) a b ratio r H' cut mt d _ Hc E).
  - apply (dtw_nonneg _ (nice_of k) a b ratio r H' cut mt d _ Hc E).
Qed.
Print Assumptions C06_dtw_nonnegative_ieee.

Example C06_case : ieee_ok KManhattan (zs [3; 1; 2]) (zs [3; 1; 2]) (b64_lit 1 3) 1.
Proof.
  apply small_ok; try apply zs_ok; try apply smallb_all; try (vm_compute; reflexivity).
  - change (2 <= 3 <= 2 ^ 30). lia.
  - change (2 <= 3 <= 2 ^ 30). lia.
  - lia.
Qed.

(** ** C07 *)
Theorem C07_envelope_is_sliding_min_max : forall (t : TS B64) (w : Z),
  ts_ok t -> 1 <= ts_length t -> 0 <= w -> Forall (fun x => is_nan x = false) (ts_points t) ->
  exists lo up, keoghLU t w = Ret (lo, up) /\
    Z.of_nat (length lo) = ts_length t /\ Z.of_nat (length up) = ts_length t /\
    forall k, 0 <= k < ts_length t ->
      (exists v, aget up k = Ret (Some v) /\ largest_near t w k v) /\
      (exists v, aget lo k = Ret (Some v) /\ smallest_near t w k v).
Proof.
  intros t w Ht Hl Hw Hn. apply envelope_near; auto. eapply Forall_impl; [|exact Hn]. intros x. apply is_nan_nn.
Qed.
Print Assumptions C07_envelope_is_sliding_min_max.

Example C07_case : let t := zs [1; 5; 3; 2; 7; 8; 1; 2] in
  Forall (fun x => is_nan x = false) (ts_points t) /\
  exists lo up, keoghLU t 2 = Ret (lo, up) /\
    map (option_map (B2SF (prec := 53) (emax := 1024))) up = map (fun z => Some (B2SF (b64_ofZ z))) [5; 5; 7; 8; 8; 8; 8; 8].
Proof.
  intros t. split; [repeat constructor|].
  destruct (C07_envelope_is_sliding_min_max t 2) as (lo & up & E & _); try lia;
    [apply zs_ok|vm_compute; discriminate|repeat constructor|].
  exists lo, up. split; [exact E|].
  assert (E2 : match keoghLU t 2 with Ret (_, up) => map (option_map (B2SF (prec := 53) (emax := 1024))) up | _ => [] end
              = map (fun z => Some (B2SF (b64_ofZ z))) [5; 5; 7; 8; 8; 8; 8; 8]) by (vm_compute; reflexivity).
  rewrite E in E2. exact E2.
Qed.

(** ** C08 *)
Theorem C08_lower_bounds : forall (a b : TS B64) (ratio : b64) r cut mt d,
  ieee_ok KEuclidean a b ratio r ->
  value (dist_call (N := B64) "euclidean_dtw" ratio a b pinf mt) = Ret d ->
  exists kim keogh1 keogh2 cross,
    kimLowerBound a b = Ret kim /\ nle (N := B64) kim d /\
    keoghLowerBound (N := B64) ratio a b cut = Ret keogh1 /\ nle (N := B64) keogh1 d /\
    keoghLowerBound (N := B64) ratio b a cut = Ret keogh2 /\ nle (N := B64) keogh2 d /\
    crossKeoghLowerBound (N := B64) ratio a b cut = Ret cross /\
    (* the crossed bound reports infinity as soon as it exceeds the cut-off *)
    (nle (N := B64) cross d \/ (cross = pinf /\ Bltb cut d = true)).
Proof.
  intros a b ratio r cut mt d H E. change "euclidean_dtw"%string with (dtw_name KEuclidean) in E. rewrite call_dtw in E.
  pose proof (proj1 (ok_pre _ _ _ _ _) H) as H'. pose proof (dtw_lb_pre _ _ _ _ _ H') as Hl.
  destruct (kim_ok a b ratio r Hl) as (kim & E1 & N1 & H1).
  destruct (keogh_ok a b ratio r Hl cut) as (k1 & E2 & N2 & H2).
  destruct (keogh_swapped a b ratio r cut Hl) as (k2 & E3 & N3 & H3).
  destruct (cross_ok a b ratio r cut Hl) as (cr & E4 & N4 & H4).
  exists kim, k1, k2, cr.
  destruct (dtw_inf _ (nice_of KEuclidean) a b ratio r H' mt) as (dF & p & _ & Ed & Hd).
  change (pinf) with (@ninf B64) in E. rewrite Ed in E. injection E as ->.
  destruct Hd as [(_ & q & Q1 & Q2 & ->)|(_ & ->)].
  - splits; auto. apply H4; auto.
  - splits; auto; try (apply (nle_inf (N := B64)); assumption). left. apply (nle_inf (N := B64)), N4.
Qed.
Print Assumptions C08_lower_bounds.

Example C08_case : (* the hypotheses hold and the bounds are not trivially 0 *)
  ieee_ok KEuclidean (zs [1; 2; 3; 4; 5]) (zs [1; 1; 2; 7]) (b64_lit 1 2) 2 /\
  sf (kimLowerBound (zs [1; 2; 3; 4; 5]) (zs [1; 1; 2; 7])) = Ret (B2SF (b64_lit 2 10)) /\
  sf (keoghLowerBound (N := B64) (b64_lit 1 5) (zs [1; 2; 3; 4; 5]) (zs [9; 9; 9; 9; 9]) pinf) <> Ret (B2SF (b64_ofZ 0)).
Proof. split; [apply (case_ok KEuclidean)|]. split; vm_compute; [reflexivity|discriminate]. Qed.

(** ** C09: the distance used for queries on data grouped by 'euclidean' *)
Theorem C09_cascade_lossless : forall (a b : TS B64) (ratio : b64) r cut mt full f,
  ieee_ok KEuclidean a b ratio r -> is_nan cut = false ->
  loadDistance (N := B64) "euclidean" = Ret f ->
  value (dist_call (N := B64) "euclidean_dtw" ratio a b pinf mt) = Ret full ->
  exists d, value (snd f ratio a b cut mt) = Ret d /\
    (d = full \/ d = pinf) /\
    (Bltb cut full = false -> d = full) /\
    (Bltb cut full = true -> Bltb cut d = true).
Proof.
  intros a b ratio r cut mt full f H Hc Hf E. injection Hf as <-. cbn [snd].
  change "euclidean_dtw"%string with (dtw_name KEuclidean) in E. rewrite call_dtw in E.
  pose proof (proj1 (ok_pre _ _ _ _ _) H) as H'. apply is_nan_nn in Hc.
  destruct (warpedDistance (metric_of KEuclidean) a b ratio (pinf : D B64) mt) as [[d0 mt0]| | |] eqn:E0; try discriminate.
  injection E as ->.
  destruct (cascade_ok (N := B64) a b ratio r cut mt full mt0 H' Hc E0) as (d & mt' & Ed & H1 & H2).
  exists d. rewrite Ed. splits; auto.
  - destruct (Bltb cut full) eqn:C; [apply H2, C|left; apply H1, C].
  - intros C. apply H2, C.
Qed.
Print Assumptions C09_cascade_lossless.

Example C09_case : let run cut := sf (value (cascadeDistance (N := B64) (b64_lit 1 2) (zs [1; 2; 3; 4; 5]) (zs [1; 1; 2; 7]) cut [])) in
  run pinf <> Ret (B2SF pinf) /\ run (b64_lit 1 100) = Ret (B2SF pinf).
Proof. split; vm_compute; [discriminate|reflexivity]. Qed.

(** ** C10 *)
Theorem C10_band_between_0_and_length : forall (ratio : b64) len r,
  1 <= len <= 2 ^ 31 - 1 -> nfin (N := B64) ratio -> Bltb ratio (b64_ofZ 0) = false ->
  band (N := B64) ratio len = Ret r -> 0 <= r <= len - 1.
Proof. intros ratio len r Hl Hf H0 E. apply (band_range (N := B64) ratio len r); auto; [lia|]. apply nonneg64; auto. Qed.
Print Assumptions C10_band_between_0_and_length.

Theorem C10_band_defined : forall (ratio : b64) len,
  1 <= len <= 2 ^ 31 - 1 -> Bltb ratio (b64_ofZ 0) = false -> nle (N := B64) ratio (b64_ofZ 1) ->
  exists r, band (N := B64) ratio len = Ret r.
Proof.
  intros ratio len Hl H0 H1.
  assert (Hf : nfin (N := B64) ratio).
  { assert (N0 : nle (N := B64) (b64_ofZ 0) ratio).
    { splits; [split; [reflexivity|split; [apply H1|exact H0]]]. }
    apply (nfin_between (N := B64) (b64_ofZ 0) ratio (b64_ofZ 1)); auto; split; reflexivity. }
  apply (band_defined_1 (N := B64)); auto. apply nonneg64; auto.
Qed.
Print Assumptions C10_band_defined.

Theorem C10_band_monotone : forall (ratio : b64) len len' r r',
  1 <= len <= len' -> len' <= 2 ^ 31 - 1 -> nfin (N := B64) ratio -> Bltb ratio (b64_ofZ 0) = false ->
  band (N := B64) ratio len = Ret r -> band (N := B64) ratio len' = Ret r' -> r <= r'.
Proof.
  intros ratio len len' r r' H1 H2 Hf H0. apply (band_mono (N := B64)); auto; [lia|]. apply nonneg64; auto.
Qed.
Print Assumptions C10_band_monotone.

Theorem C10_band_unrestricted : forall (ratio : b64) len r,
  1 <= len <= 2 ^ 31 - 1 -> nfin (N := B64) ratio -> Bltb ratio (b64_ofZ 1) = false ->
  band (N := B64) ratio len = Ret r -> r = len - 1.
Proof.
  intros ratio len r Hl Hf H1. apply (band_full (N := B64)); auto; [lia|].
  split; [reflexivity|]. split; [apply nfin_nn; auto|exact H1].
Qed.
Print Assumptions C10_band_unrestricted.

Theorem C10_negative_ratio_gives_infinity : forall (k : kind) (ratio : b64) (a b : TS B64) cut r mt,
  Bltb ratio (b64_ofZ 0) = true -> band (N := B64) ratio (Z.max (ts_length a) (ts_length b)) = Ret r ->
  ts_ok a -> ts_ok b -> 1 <= ts_length a <= 2 ^ 30 -> 1 <= ts_length b <= 2 ^ 30 ->
  2 <= ts_length a \/ 2 <= ts_length b ->
  Forall nfin (ts_points a) -> Forall nfin (ts_points b) ->
  value (dist_call (N := B64) (dtw_name k) ratio a b cut mt) = Ret pinf.
Proof.
  intros k ratio a b cut r mt Hq Hband Ha Hb Hm Hn H2 Fa Fb. rewrite call_dtw.
  destruct (neg_run (N := B64) (metric_of k) (nice_of k) a b Ha Hb Hm Hn Fa Fb ratio r cut mt Hband) as (p & E).
  - apply (band_neg_b64 ratio (Z.max (ts_length a) (ts_length b)) r); auto. lia.
  - exact H2.
  - rewrite E. reflexivity.
Qed.
Print Assumptions C10_negative_ratio_gives_infinity.

Example C10_case : nfin (N := B64) (b64_lit 1 10) /\ Bltb (b64_lit 1 10) (b64_ofZ 0) = false /\
  band (N := B64) (b64_lit 1 10) 25 = Ret 2 /\ band (N := B64) (b64_lit 1 10) 100 = Ret 10 /\
  band (N := B64) (b64_ofZ 3) 25 = Ret 24 /\ band (N := B64) (b64_lit (-1) 2) 25 = Ret (-13).
Proof. splits; try (vm_compute; reflexivity). split; vm_compute; reflexivity. Qed.

(** ** C11 *)
Theorem C11_matching_legal_and_optimal : forall (k : kind) (a b : TS XR) (xs ys : list R) (ratio : R),
  is_series a xs -> is_series b ys ->
  2 <= Rlen xs <= 2 ^ 30 -> 2 <= Rlen ys <= 2 ^ 30 ->
  (0 <= ratio)%R -> (IZR (Z.max (Rlen xs) (Rlen ys)) * ratio <= IZR int_max)%R ->
  band_width ratio (Z.max (Rlen xs) (Rlen ys)) = Z.max (Rlen xs) (Rlen ys) - 1 ->
  exists p, dist_call (dtw_name k) (Fin ratio : D XR) a b PInf [] = Ret (Fin (real_cost k xs ys p), p) /\
    warping_path (Rlen xs) (Rlen ys) p /\
    (forall q, warping_path (Rlen xs) (Rlen ys) q -> (real_cost k xs ys p <= real_cost k xs ys q)%R).
Proof.
  intros k a b xs ys ratio Ha Hb Hm Hn Hq Hq2 Hr. rewrite call_dtw.
  destruct (real_matching _ (rm_of k) a b xs ys ratio Ha Hb Hm Hn Hq Hq2 []) as (p & H1 & H2 & E); [lia|].
  rewrite rm_cost_of in *. exists p. splits; auto. simpl rev in E. rewrite app_nil_r in E. exact E.
Qed.
Print Assumptions C11_matching_legal_and_optimal.

(** in IEEE arithmetic the matching is a legal alignment for every band and cut-off *)
Theorem C11_matching_legal_ieee : forall (k : kind) (a b : TS B64) (ratio : b64) r cut d p,
  ieee_ok k a b ratio r -> is_nan cut = false ->
  dist_call (N := B64) (dtw_name k) ratio a b cut [] = Ret (d, p) ->
  warping_path (ts_length a) (ts_length b) p.
Proof.
  intros k a b ratio r cut d p H Hc E. rewrite call_dtw in E. pose proof (proj1 (ok_pre _ _ _ _ _) H) as H'.
  apply (dtw_matching_legal _ (nice_of k) a b ratio r H' cut d p); auto. apply is_nan_nn, Hc.
Qed.
Print Assumptions C11_matching_legal_ieee.

Example C11_case : band_width 1 5 = 4 /\ (IZR 5 * 1 <= IZR int_max)%R /\ is_series (rs [1; 2; 3; 4; 5]%R) [1; 2; 3; 4; 5]%R.
Proof.
  splits; [|unfold int_max; lra|apply rs_series]. unfold band_width. rewrite Rmult_1_r, Zfloor_IZR. reflexivity.
Qed.

(** ** C12: refuted.  With the default ratio the back-tracking reads cells
    outside the band, which were never computed. *)
Theorem C12_matching_leaves_band_refuted : exists (a b : TS B64) p,
  ieee_ok KEuclidean a b (b64_lit 1 10) 0 /\
  (exists d, dist_call (N := B64) "euclidean_dtw" (b64_lit 1 10) a b pinf [] = Ret (d, p) /\
    B2SF (warp_cost (N := B64) KEuclidean (ts_points a) (ts_points b) p) <> B2SF d) /\
  ~ in_band 0 p.
Proof.
  pose (run := dist_call (N := B64) "euclidean_dtw" (b64_lit 1 10) (zs [1; 2; 3; 4; 5]) (zs [1; 1; 2; 3; 7]) pinf []).
  exists (zs [1; 2; 3; 4; 5]), (zs [1; 1; 2; 3; 7]), (match run with Ret (_, p) => p | _ => [] end). splits.
  - apply small_ok; try apply zs_ok; try apply smallb_all; try (vm_compute; reflexivity).
    + change (2 <= 5 <= 2 ^ 30). lia.
    + change (2 <= 5 <= 2 ^ 30). lia.
    + lia.
  - exists (got (value run)). fold run. split.
    + assert (E : match run with Ret _ => true | _ => false end = true) by (vm_compute; reflexivity).
      destruct run as [[d p]| | |]; try discriminate. reflexivity.
    + vm_compute. discriminate.
  - intros H. unfold in_band in H. rewrite Forall_forall in H.
    assert (E : existsb (fun c => negb (Z.abs (fst c - snd c) <=? 0)) (match run with Ret (_, p) => p | _ => [] end) = true)
      by (vm_compute; reflexivity).
    apply existsb_exists in E as (c & Hc & Hf). specialize (H c Hc). apply Z.leb_le in H. rewrite H in Hf. discriminate.
Qed.
Print Assumptions C12_matching_leaves_band_refuted.

(** ** C13: refuted for cosine and sorensen *)
Theorem C13_cosine_self_distance_refuted :
  sf (value (dist_call (N := B64) "cosine" (b64_ofZ 1) (zs [1; 2]) (zs [1; 2]) pinf [])) = Ret (B2SF (b64_ofZ 1)).
Proof. vm_compute. reflexivity. Qed.
Theorem C13_cosine_nan_refuted :
  sf (value (dist_call (N := B64) "cosine" (b64_ofZ 1) (zs [0; 0]) (zs [1; 2]) pinf [])) = Ret SpecFloat.S754_nan.
Proof. vm_compute. reflexivity. Qed.
Theorem C13_sorensen_dtw_null_dereference_refuted :
  dist_call (N := B64) "sorensen_dtw" (b64_lit 1 10) (zs [0; 2]) (zs [0; 1]) pinf [] = UB NullDeref.
Proof. vm_compute. reflexivity. Qed.
Theorem C13_sorensen_dtw_infinite_loop_refuted :
  dist_call (N := B64) "sorensen_dtw" (b64_ofZ 1) (zs [0; 2]) (zs [0; 1]) pinf [] = Hang.
Proof. vm_compute. reflexivity. Qed.
Theorem C13_cosine_dtw_infinite_loop_refuted :
  dist_call (N := B64) "cosine_dtw" (b64_ofZ 1) (zs [0; 2]) (zs [1; 1]) pinf [] = Hang.
Proof. vm_compute. reflexivity. Qed.
Theorem C13_sorensen_cutoff_refuted : exists d,
  value (dist_call (N := B64) "sorensen" (b64_ofZ 1) (zs [1; 10]) (zs [0; 10]) pinf []) = Ret d /\
  Bltb d (b64_lit 1 2) = true /\
  value (dist_call (N := B64) "sorensen" (b64_ofZ 1) (zs [1; 10]) (zs [0; 10]) (b64_lit 1 2) []) = Ret pinf.
Proof.
  exists (got (value (dist_call (N := B64) "sorensen" (b64_ofZ 1) (zs [1; 10]) (zs [0; 10]) pinf []))). splits.
  - eapply sf_got. vm_compute. reflexivity.
  - vm_compute. reflexivity.
  - apply sf_inf. vm_compute. reflexivity.
Qed.
Print Assumptions C13_sorensen_cutoff_refuted.

(** the positive part: the six names of the basic metrics behave as distances.
    (Their cut-off soundness is C03, C04.) *)
Theorem C13_basic_self_distance_partial : forall (k : kind) (a b : TS B64) (ratio : b64) mt,
  ts_ok a -> ts_ok b -> 1 <= ts_length a <= 2 ^ 30 -> Forall nfin (ts_points a) -> ts_points a = ts_points b ->
  exists d, dist_call (N := B64) (kind_name k) ratio a b pinf mt = Ret (d, mt) /\ Beqb d (b64_ofZ 0) = true.
Proof.
  intros k a b ratio mt Ha Hb Hm Fa Hp. rewrite call_pw.
  destruct (pw_self (N := B64) a b Ha Hb Hm Fa Hp (metric_of k) mt (kind_basic k)) as (d & E & H).
  - intros j Hj. apply inf_scaled. lia.
  - exists d. split; [exact E|]. apply (neqb_of_eqv (N := B64)), H.
Qed.
Print Assumptions C13_basic_self_distance_partial.

(** ** C14 *)
Theorem C14_value_independent_of_history : forall nm (ratio : b64) (a b : TS B64) cut mt,
  value (dist_call (N := B64) nm ratio a b cut mt) = value (dist_call (N := B64) nm ratio a b cut []).
Proof.
  intros nm ratio a b cut mt. unfold dist_call, getDistanceFromName.
  destruct (assoc nm allDistances) as [f|] eqn:E; [|reflexivity]. cbn [bind]. rewrite !value_outcome.
  apply (named_history (N := B64) nm). apply assoc_In, E.
Qed.
Print Assumptions C14_value_independent_of_history.

Theorem C14_query_distance_independent_of_history : forall nm f (ratio : b64) (a b : TS B64) cut mt,
  loadDistance (N := B64) nm = Ret f ->
  value (snd f ratio a b cut mt) = value (snd f ratio a b cut []) /\
  value (fst f ratio a b cut mt) = value (fst f ratio a b cut []).
Proof.
  intros nm f ratio a b cut mt E. unfold loadDistance in E. apply bind_Ret in E as (pw & E1 & E).
  apply bind_Ret in E as (w & E2 & E). injection E as <-. cbn [fst snd]. rewrite !value_outcome. split.
  - destruct (String.eqb nm "euclidean").
    + injection E2 as <-. apply cascade_history.
    + unfold getDistanceFromName in E2. destruct (assoc _ allDistances) as [g|] eqn:Ea; [|discriminate]. injection E2 as <-.
      eapply (named_history (N := B64)). apply assoc_In, Ea.
  - unfold getDistanceFromName in E1. destruct (assoc nm allDistances) as [g|] eqn:Ea; [|discriminate]. injection E1 as <-.
    eapply (named_history (N := B64)). apply assoc_In, Ea.
Qed.
Print Assumptions C14_query_distance_independent_of_history.

(** the shared default matching vector keeps growing: k calls leave at least k
    more pairs in it *)
Theorem C14_memory_grows_refuted : forall (k : kind) (a b : TS B64) (ratio : b64) r n,
  ieee_ok k a b ratio r ->
  exists mt, calls (fun mt => dist_call (N := B64) (dtw_name k) ratio a b pinf mt) n [] = Ret mt /\ (n <= length mt)%nat.
Proof.
  intros k a b ratio r n H. pose proof (proj1 (ok_pre _ _ _ _ _) H) as H'.
  destruct (calls_grow (N := B64) (metric_of k) (nice_of k) a b ratio r (pinf : D B64) n H' ltac:(reflexivity) []) as (mt & E & Hl).
  exists mt. split; [|simpl in Hl; lia]. rewrite <- E.
  assert (G : forall n m, calls (fun mt => dist_call (N := B64) (dtw_name k) ratio a b pinf mt) n m
             = calls (fun mt => warpedDistance (N := B64) (metric_of k) a b ratio pinf mt) n m).
  { clear. induction n as [|n IH]; intros m; [reflexivity|]. cbn [calls]. rewrite call_dtw.
    destruct (warpedDistance _ _ _ _ _ _) as [[d p]| | |]; cbn [bind]; auto. }
  apply G.
Qed.
Print Assumptions C14_memory_grows_refuted.

(** ** C15 *)
Definition documented_names : list string :=
  ["euclidean"; "euclidean_dtw"; "manhattan"; "manhattan_dtw"; "chebyshev"; "chebyshev_dtw";
   "cosine"; "cosine_dtw"; "sorensen"; "sorensen_dtw"]%string.

Theorem C15_names_resolve : forall nm : string,
  (In nm documented_names -> exists f, getDistanceFromName (N := B64) nm = Ret f) /\
  (~ In nm documented_names ->
     getDistanceFromName (N := B64) nm = Throw (GenexExc ("Cannot find distance with name: " ++ nm)%string)).
Proof. intros nm. split; [apply registry_known|apply registry_unknown]. Qed.
Print Assumptions C15_names_resolve.

(** each name selects its own metric and mode *)
Theorem C15_names_select_their_metric : forall (ratio : b64) (a b : TS B64) cut mt,
  dist_call (N := B64) "euclidean" ratio a b cut mt = pairwiseDistance Euclidean a b cut mt /\
  dist_call (N := B64) "manhattan" ratio a b cut mt = pairwiseDistance Manhattan a b cut mt /\
  dist_call (N := B64) "chebyshev" ratio a b cut mt = pairwiseDistance Chebyshev a b cut mt /\
  dist_call (N := B64) "cosine" ratio a b cut mt = pairwiseDistance Cosine a b cut mt /\
  dist_call (N := B64) "sorensen" ratio a b cut mt = pairwiseDistance Sorensen a b cut mt /\
  dist_call (N := B64) "euclidean_dtw" ratio a b cut mt = warpedDistance Euclidean a b ratio cut mt /\
  dist_call (N := B64) "manhattan_dtw" ratio a b cut mt = warpedDistance Manhattan a b ratio cut mt /\
  dist_call (N := B64) "chebyshev_dtw" ratio a b cut mt = warpedDistance Chebyshev a b ratio cut mt /\
  dist_call (N := B64) "cosine_dtw" ratio a b cut mt = warpedDistance Cosine a b ratio cut mt /\
  dist_call (N := B64) "sorensen_dtw" ratio a b cut mt = warpedDistance Sorensen a b ratio cut mt.
Proof. intros. splits; reflexivity. Qed.
Print Assumptions C15_names_select_their_metric.

Example C15_case : In "cosine_dtw"%string documented_names /\ ~ In "Euclidean"%string documented_names /\ NoDup documented_names.
Proof.
  splits; [simpl; tauto|simpl; intuition discriminate|].
  unfold documented_names. repeat constructor; simpl; intuition discriminate.
Qed.
