(** Property C57: how far the answers of a query for several matches can be from
    the nearest subsequences.  Specifications: SearchSpec.v, QuerySpec.v; the price
    of replacing a subsequence by its representative: [price] in GapReal.v. *)
From Coq Require Import String Reals Lra Psatz Permutation.
From Flocq Require Import Core IEEE754.BinarySingleNaN.
From Verif Require Import Base Num NumB64 NumB64Laws NumLaws NumFacts NumXR NumXRLaws LoopFacts TimeSeries Lemire Distance
  DtwSpec DtwPaths DtwReal DtwResults Pairwise DistSpec DistLink TSSet StdAlg HeapFacts Candidate Group GroupSpace Band DataSpec DataProofs
  GroupSpec GroupView GroupDist GroupProofs
  SearchSpec SearchProofs SearchCases QueryCases Traverse QueryState QuerySpec BestMatch QueryProofs PropsDistance PropsData PropsGroup PropsSearch
  PropsQuery PropsKSim GapReal AccReal AccDtw AccEnd AccKinds AccLink AccPair PropsAccuracy PropsGuarantee.
Local Open Scope Z_scope.
Local Open Scope list_scope.

(** what was looked at and what was left out *)
Lemma left_out {N : Num} {LW : NumLaws N} (rows : list (list (D N))) k ratio q S P (g : gset N) h C c p :
  considered rows k ratio q S P g h C ->
  (forall l v, S l -> group_in g l v -> exists x, group_dist rows k ratio q l v x) ->
  (forall l m, P (l, m) -> exists v, S l /\ group_in g l v /\ In m (v_members v)) ->
  In c C -> P p -> ~ In p C ->
  (forall v v', dtw_of k ratio q (place_values rows c) = Ret v -> dtw_of k ratio q (place_values rows p) = Ret v' -> nle v v') \/
  exists v w, (S (fst c) /\ group_in g (fst c) v /\ In (snd c) (v_members v)) /\
    (S (fst p) /\ group_in g (fst p) w /\ In (snd p) (v_members w)) /\
    forall x y, group_dist rows k ratio q (fst c) v x -> group_dist rows k ratio q (fst p) w y -> nle x y.
Proof.
  intros (_ & _ & HC) Hdist Hin Hc Hp Hno. destruct HC as [[_ HC]|(_ & inner & far & outer & part & Hall & Hinn & Hout & Hperm & _ & Hincl & Hfar)].
  { exfalso. apply Hno, HC, Hp. }
  destruct p as [lp mp]. destruct (Hin lp mp Hp) as (w & Hw1 & Hw2 & Hw3).
  assert (Hlw : In (lp, w) (inner ++ far :: outer)) by (apply Hall; auto).
  apply in_app_iff in Hlw as [Hlw|[Ew|Hlw]].
  { exfalso. apply Hno. apply (Permutation_in _ (Permutation_sym Hperm)). apply in_app_iff. right. apply in_flat_map.
    exists (lp, w). split; auto. unfold group_places. apply in_map_iff. exists mp. auto. }
  - (* left out of the farthest group *)
    assert (Hpf : In (lp, mp) (group_places far)).
    { rewrite Ew. unfold group_places. apply in_map_iff. exists mp. auto. }
    assert (Hnp : ~ In (lp, mp) part).
    { intros X. apply Hno. apply (Permutation_in _ (Permutation_sym Hperm)). apply in_app_iff. auto. }
    apply (Permutation_in _ Hperm) in Hc. apply in_app_iff in Hc as [Hc|Hc].
    + left. intros v v' Ev Ev'. apply (Hfar c (lp, mp) v v'); auto.
    + right. apply in_flat_map in Hc as ([lc vc] & Hc1 & Hc2). unfold group_places in Hc2. apply in_map_iff in Hc2 as (mc & <- & Hmc).
      cbn [fst snd] in *. destruct (proj2 (Hall lc vc) (in_or_app _ _ _ (or_introl Hc1))) as [Sc Gc].
      exists vc, w. splits; auto. intros x y Ex Ey. apply (Hinn lc vc x y); auto. rewrite Ew. exact Ey.
  - right.
    assert (Hfar' : S (fst far) /\ group_in g (fst far) (snd far)).
    { apply Hall. rewrite <- surjective_pairing. apply in_or_app. right. left. reflexivity. }
    destruct (Hdist _ _ (proj1 Hfar') (proj2 Hfar')) as (z & Ez).
    apply (Permutation_in _ Hperm) in Hc. apply in_app_iff in Hc as [Hc|Hc].
    + apply Hincl in Hc. unfold group_places in Hc. apply in_map_iff in Hc as (mc & <- & Hmc). cbn [fst snd].
      exists (snd far), w. destruct Hfar'. splits; auto. intros x y Ex Ey. apply (Hout lp w x y); auto.
    + apply in_flat_map in Hc as ([lc vc] & Hc1 & Hc2). unfold group_places in Hc2. apply in_map_iff in Hc2 as (mc & <- & Hmc).
      cbn [fst snd] in *. destruct (proj2 (Hall lc vc) (in_or_app _ _ _ (or_introl Hc1))) as [Sc Gc].
      exists vc, w. splits; auto. intros x y Ex Ey. apply nle_trans with z; [apply (Hinn lc vc x z)|apply (Hout lp w z y)]; auto.
Qed.

Section Exact.
Variables (H : std_alg) (k : kind) (d : dataset XR) (rows : list (list R)) (whole : bool) (t : R) (g : gset XR).
Variables (xs : list R) (ratio : R).
Hypothesis Hmax : ds_maxcol d <= 2 ^ 30.
Hypothesis Hpos : (0 <= t)%R.
Hypothesis Hviews : forall l, grouped_length d whole l -> exists vs, level_view g l = Some (Ret vs) /\ partitions (N := XR) (real_rows rows) l vs /\
  forall v c c', In v vs -> In c (v_members v) -> In c' (v_members v) ->
    (real_pair k (real_sub rows l (v_rep v)) (real_sub rows l c) <= t / 2)%R /\
    (real_pair k (real_sub rows l c) (real_sub rows l c') <= t)%R.
Hypothesis Hql : 2 <= Rlen xs <= ds_maxcol d.
Hypothesis Hr : (0 <= ratio <= 1)%R.

Local Notation S := (searched (N := XR) d whole (Fin ratio) (Rlen xs)).
Local Notation P := (searched_place (N := XR) d (real_rows rows) whole (Fin ratio) (Rlen xs)).

(** the price of half the threshold, for subsequences of length [l] *)
Definition half_price (l : Z) : R := (price k (Rlen xs) (band_width ratio (Z.max (Rlen xs) l)) * (t / 2))%R.

Lemma grouped_range l : grouped_length d whole l -> 2 <= l <= 2 ^ 30.
Proof. unfold grouped_length. destruct whole; lia. Qed.

Lemma searched_band l : S l -> grouped_length d whole l /\ Z.abs (Rlen xs - l) <= band_width ratio (Z.max (Rlen xs) l).
Proof.
  intros (Hl & r & Er & Hab). pose proof (grouped_range l Hl). split; auto. rewrite Z.max_comm. rewrite band_XR in Er.
  - injection Er as ->. lia.
  - lia.
  - lra.
  - apply Rle_trans with (IZR (Z.max l (Rlen xs)) * 1)%R.
    + apply Rmult_le_compat_l; [apply (IZR_le 0); lia|lra].
    + rewrite Rmult_1_r. apply IZR_le. unfold int_max. lia.
Qed.

Lemma in_group l m : P (l, m) -> exists v, S l /\ group_in g l v /\ In m (v_members v).
Proof.
  intros [Hl Hm]. cbn [fst snd] in *. destruct (Hviews l (proj1 Hl)) as (vs & V1 & (_ & V2 & _) & _).
  apply (V2 m) in Hm. apply in_concat in Hm as (ms & M1 & M2). apply in_map_iff in M1 as (w & <- & M3).
  exists w. splits; auto. exists vs. auto.
Qed.

(** the distance of a group differs from that of a member by at most the price of
    half the threshold *)
Lemma rep_near_exact l v m : S l -> group_in g l v -> In m (v_members v) -> exists x y,
  group_dist (N := XR) (real_rows rows) k (Fin ratio) (map Fin xs) l v (Fin x) /\
  dtw_of (N := XR) k (Fin ratio) (map Fin xs) (place_values (real_rows rows) (l, m)) = Ret (Fin y) /\
  (x <= y + half_price l)%R /\ (y <= x + half_price l)%R.
Proof.
  intros Hl (vs' & V1' & Hv) Hm. destruct (searched_band l Hl) as [Hg Hab]. destruct (Hviews l Hg) as (vs & V1 & V2 & V3).
  rewrite V1 in V1'. injection V1' as <-. pose proof (grouped_range l Hg) as Hgl.
  assert (Hrm : In (v_rep v) (v_members v)).
  { destruct V2 as (_ & _ & Q). destruct (Q v Hv) as (Q1 & _ & Q2). rewrite Q2.
    destruct (exists_last Q1) as (i & a & ->). rewrite last_last. apply in_or_app. right. left. reflexivity. }
  assert (Hsub : forall z, In z (v_members v) -> is_sub (real_rows rows) l z).
  { intros z Hz. destruct V2 as (_ & Q & _). apply Q. apply in_concat. exists (v_members v). split; auto. apply in_map. auto. }
  assert (Hv' : forall z, In z (v_members v) ->
     place_values (real_rows rows) (l, z) = map Fin (real_sub rows l z) /\ Rlen (real_sub rows l z) = l).
  { intros z Hz. split; [apply (real_sub_values rows l z), Hsub, Hz|]. apply (real_sub_len rows l z); auto. lia. }
  assert (Hval : forall z, In z (v_members v) ->
     exists y, dtw_of (N := XR) k (Fin ratio) (map Fin xs) (map Fin (real_sub rows l z)) = Ret (Fin y)).
  { intros z Hz. destruct (Hv' z Hz) as [_ Lz].
    destruct (dtw_of_real k ratio Hr xs (real_sub rows l z)) as (_ & p & _ & _ & _ & Ev); [lia|rewrite Lz; lia|rewrite Lz; exact Hab|].
    eexists. exact Ev. }
  destruct (Hv' _ Hrm) as [Er Lr]. destruct (Hv' _ Hm) as [Em Lm].
  destruct (Hval _ Hrm) as (x & Ex). destruct (Hval _ Hm) as (y & Ey). exists x, y.
  assert (Hll : length (real_sub rows l m) = length (real_sub rows l (v_rep v))) by (unfold Rlen in *; lia).
  destruct (V3 v m m Hv Hm Hm) as [Rad _].
  assert (Hp : (0 <= price k (Rlen xs) (band_width ratio (Z.max (Rlen xs) l)))%R).
  { apply price_nonneg; [lia|]. apply band_width_nonneg; [lia|lra]. }
  split; [|split; [|split]].
  - unfold group_dist. rewrite Er. rewrite <- (dtw_of_sym k ratio Hr); [exact Ex|lia|rewrite Lr; lia].
  - rewrite Em. exact Ey.
  - pose proof (dtw_of_gap k ratio Hr xs _ _ y x ltac:(lia) ltac:(rewrite Lm; lia) Hll) as G.
    cbv zeta in G. rewrite Lm in G. specialize (G Hab Ey Ex). rewrite (real_pair_sym k) in G by auto.
    apply Rle_trans with (1 := G). apply Rplus_le_compat_l. apply Rmult_le_compat_l; auto.
  - pose proof (dtw_of_gap k ratio Hr xs _ _ x y ltac:(lia) ltac:(rewrite Lr; lia) (eq_sym Hll)) as G.
    cbv zeta in G. rewrite Lr in G. specialize (G Hab Ex Ey).
    apply Rle_trans with (1 := G). apply Rplus_le_compat_l. apply Rmult_le_compat_l; auto.
Qed.

Lemma left_out_exact h C c p : considered (N := XR) (real_rows rows) k (Fin ratio) (map Fin xs) S P g h C ->
  In c C -> P p -> ~ In p C -> exists y z,
    dtw_of (N := XR) k (Fin ratio) (map Fin xs) (place_values (real_rows rows) c) = Ret (Fin y) /\
    dtw_of (N := XR) k (Fin ratio) (map Fin xs) (place_values (real_rows rows) p) = Ret (Fin z) /\
    (y <= z + half_price (fst c) + half_price (fst p))%R.
Proof.
  intros HC Hc Hp Hno. pose proof HC as (_ & HCP & _). pose proof (HCP c Hc) as Pc.
  destruct c as [lc mc]. destruct p as [lp mp]. cbn [fst snd] in *.
  destruct (in_group lc mc Pc) as (v & V1 & V2 & V3). destruct (in_group lp mp Hp) as (w & W1 & W2 & W3).
  destruct (rep_near_exact lc v mc V1 V2 V3) as (x0 & y & _ & Ey & _ & _).
  destruct (rep_near_exact lp w mp W1 W2 W3) as (x1 & z & _ & Ez & _ & _).
  exists y, z. split; [exact Ey|]. split; [exact Ez|].
  assert (Hh : forall l, S l -> (0 <= half_price l)%R).
  { intros l Hl. unfold half_price. apply Rmult_le_pos; [|lra]. apply price_nonneg; [lia|]. apply band_width_nonneg; [lia|lra]. }
  pose proof (Hh lc V1). pose proof (Hh lp W1).
  destruct (left_out (N := XR) _ _ _ _ _ _ _ _ _ (lc, mc) (lp, mp) HC) as [Hle|(v' & w' & (_ & V2' & V3') & (_ & W2' & W3') & Hle)]; auto.
  - intros l u Hl Hu. assert (exists z, In z (v_members u)) as (z' & Hz').
    { destruct Hu as (vs & U1 & U2). destruct (Hviews l (proj1 Hl)) as (vs' & U1' & (_ & _ & Q) & _). rewrite U1 in U1'. injection U1' as <-.
      destruct (Q u U2) as (Q1 & _ & _). destruct (v_members u) as [|a ms]; [destruct Q1; reflexivity|]. exists a. left. reflexivity. }
    destruct (rep_near_exact l u z' Hl Hu Hz') as (x & _ & Ex & _). exists (Fin x). exact Ex.
  - apply in_group.
  - specialize (Hle _ _ Ey Ez). apply nle_Fin in Hle. lra.
  - cbn [fst snd] in *. destruct (rep_near_exact lc v' mc V1 V2' V3') as (x & y' & Ex & Ey' & B1 & B2).
    destruct (rep_near_exact lp w' mp W1 W2' W3') as (x' & z' & Ex' & Ez' & B3 & B4).
    specialize (Hle _ _ Ex Ex'). apply nle_Fin in Hle.
    rewrite Ey in Ey'. injection Ey' as <-. rewrite Ez in Ez'. injection Ez' as <-. lra.
Qed.
End Exact.

(** In exact arithmetic: the answers are true matches, nearest first, and a
    subsequence left out is not nearer to the query than an answer by more than the
    prices of half the similarity threshold for the two. *)
Theorem C57_k_best_near_optimum_exact : forall (H : std_alg) (k : kind) (d : dataset XR) (rows : list (list R))
    old clock (ratio0 : D XR) (t : R) threads whole g0 total g (query : TS XR) (xs : list R) (ratio : R) K h,
  std_ok H ->
  holds d (real_rows rows) -> 1 <= threads -> log_safe d clock -> ds_maxcol d <= 2 ^ 30 -> (0 <= t)%R ->
  groupAllLengths (N := XR) clock ratio0 (mkGS d old) (kind_name k) (Fin t) threads whole = (g0, Ret total) ->
  asked (N := XR) H g0 g ->
  is_series query xs -> 2 <= ts_length query <= ds_maxcol d -> (0 <= ratio <= 1)%R ->
  1 <= K <= h ->
  let P := searched_place (N := XR) d (real_rows rows) whole (Fin ratio) (ts_length query) in
  no_near_ties (N := XR) (real_rows rows) k (Fin ratio) (map Fin xs) P -> at_least P K ->
  let cost l := (price k (Rlen xs) (band_width ratio (Z.max (Rlen xs) l)) * (t / 2))%R in
  exists g' cs, getKBestMatches (N := XR) H (Fin ratio) g query K h = Ret (g', cs) /\
    Z.of_nat (length cs) = K /\ ascending (N := XR) cs /\ NoDup (map place_of cs) /\
    (forall c, In c cs -> P (place_of c) /\ true_match (N := XR) (real_rows rows) k (Fin ratio) (map Fin xs) c) /\
    forall c p, In c cs -> P p -> ~ In p (map place_of cs) -> exists dist v,
      c_dist c = Fin dist /\ dtw_of (N := XR) k (Fin ratio) (map Fin xs) (place_values (real_rows rows) p) = Ret (Fin v) /\
      (dist <= v + cost (fst (place_of c)) + cost (fst p))%R.
Proof.
  intros H k d rows old clock ratio0 t threads whole g0 total g query xs ratio K h Hok Hd Ht Hlog Hmax Hpos E Ha Hq Hql Hr HK P Hties Hat cost.
  destruct (C24_k_similar_exact H k d rows old clock ratio0 t threads whole g0 total g query xs ratio K h Hok Hd Ht Hlog Hmax E Ha Hq Hql Hr HK Hties Hat)
    as (g' & C & cs & Ek & HC & (B1 & B2 & B3 & B4) & Hasc & Hlen).
  destruct (C17_group_diameter k d rows old clock ratio0 t threads whole Hd Hpos ltac:(lia) Ht Hlog) as (g1 & total1 & E1 & Hdia).
  rewrite E in E1. injection E1 as <- _.
  assert (Lq : ts_length query = Rlen xs).
  { destruct Hq as [Hq1 Hq2]. unfold Rlen. pose proof (DtwPaths.ts_points_length (N := XR) query Hq1) as L. rewrite Hq2, map_length in L. lia. }
  unfold P in *. clear P. rewrite Lq in *.
  assert (Hviews : forall l, grouped_length d whole l -> exists vs, level_view g l = Some (Ret vs) /\ partitions (N := XR) (real_rows rows) l vs /\
      forall v c c', In v vs -> In c (v_members v) -> In c' (v_members v) ->
        (real_pair k (real_sub rows l (v_rep v)) (real_sub rows l c) <= t / 2)%R /\
        (real_pair k (real_sub rows l c) (real_sub rows l c') <= t)%R).
  { intros l Hl. destruct (Hdia l Hl) as (vs & V1 & V2 & V3). exists vs. splits; auto. rewrite <- V1.
    apply (asked_views (N := XR) d (real_rows rows) H old clock ratio0 k (Fin t) threads whole g0 total g); auto; [apply half_fin|lia]. }
  pose proof HC as (_ & HCP & _).
  exists g', cs. splits; auto.
  { intros c Hc. destruct (B1 c Hc) as [B1a B1b]. split; auto. }
  intros c p Hc Hp Hno. destruct (B1 c Hc) as [B1a (_ & Tp & Td)]. rewrite Tp in Td.
  assert (Hh : forall l, searched (N := XR) d whole (Fin ratio) (Rlen xs) l -> (0 <= cost l)%R).
  { intros l Hl. unfold cost. apply Rmult_le_pos; [|lra]. apply price_nonneg; [lia|]. apply band_width_nonneg; [lia|lra]. }
  assert (Hcp : In p C \/ ~ In p C).
  { destruct (in_dec (fun a b : place => ltac:(repeat decide equality)) p C); auto. }
  destruct Hcp as [Hin|Hout].
  - destruct p as [lp mp]. destruct (place_of c) as [lc mc] eqn:Ec.
    destruct (in_group k d rows whole t g xs ratio Hviews lp mp Hp) as (w & W1 & W2 & W3).
    destruct (in_group k d rows whole t g xs ratio Hviews lc mc (HCP _ B1a)) as (v & V1 & V2 & V3).
    destruct (rep_near_exact k d rows whole t g xs ratio Hmax Hviews Hql Hr lp w mp W1 W2 W3) as (_ & z & _ & Ez & _).
    destruct (rep_near_exact k d rows whole t g xs ratio Hmax Hviews Hql Hr lc v mc V1 V2 V3) as (_ & y & _ & Ey & _).
    pose proof (eq_trans (eq_sym Ey) Td) as Td'. injection Td' as Td'. exists y, z. split; [auto|]. split; [exact Ez|].
    pose proof (B4 _ _ c Hin Hno Ez Hc) as Hle. rewrite <- Td' in Hle. apply nle_Fin in Hle. cbn [fst].
    pose proof (Hh lc V1). pose proof (Hh lp W1). lra.
  - destruct (left_out_exact k d rows whole t g xs ratio Hmax Hpos Hviews Hql Hr h C (place_of c) p HC B1a Hp Hout) as (y & z & Ey & Ez & Hle).
    pose proof (eq_trans (eq_sym Ey) Td) as Td'. injection Td' as Td'. exists y, z. split; [auto|]. split; [exact Ez|]. exact Hle.
Qed.
Print Assumptions C57_k_best_near_optimum_exact.

(** ** IEEE doubles *)
Section Ieee.
Variables (k : kind) (d : dataset B64) (rows : list (list (D B64))) (whole : bool) (thr : D B64) (g : gset B64).
Variables (query : TS B64) (ratio : D B64).
Hypothesis Hmod : moderate_data rows.
Hypothesis Fthr : is_finite (thr : b64) = true.
Hypothesis Pthr : (0 <= B2R (thr : b64))%R.
Hypothesis Hmax : ds_maxcol d <= 2 ^ 26.
Hypothesis Hviews : forall l, grouped_length d whole l -> exists vs, level_view g l = Some (Ret vs) /\ partitions rows l vs /\
  forall v c, In v vs -> In c (v_members v) -> c <> v_rep v ->
    @nle B64 (pair_value k (sub_values rows l (v_rep v)) (sub_values rows l c)) (@ndiv B64 thr (nofZ 2)).
Hypothesis Hq : moderate_query query.
Hypothesis Hql : ts_length query <= ds_maxcol d.
Hypothesis Hr : moderate_ratio ratio.

Local Notation S := (searched (N := B64) d whole ratio (ts_length query)).
Local Notation P := (searched_place (N := B64) d rows whole ratio (ts_length query)).

Lemma in_group_ieee l m : P (l, m) -> exists v, S l /\ group_in g l v /\ In m (v_members v).
Proof.
  intros [Hl Hm]. cbn [fst snd] in *. destruct (Hviews l (proj1 Hl)) as (vs & V1 & (_ & V2 & _) & _).
  apply (V2 m) in Hm. apply in_concat in Hm as (ms & M1 & M2). apply in_map_iff in M1 as (w & <- & M3).
  exists w. split; [exact Hl|]. split; [|exact M2]. exists vs. auto.
Qed.

(** relative error and absolute error of one step *)
Definition rel_err : R := (8 * (IZR (ds_maxcol d) / IZR (2 ^ 44)))%R.
Definition abs_err : R := (1 / IZR (2 ^ 400) * (8 + 4 * IZR (2 ^ 26)))%R.

Lemma rep_near_ieee l v m : S l -> group_in g l v -> In m (v_members v) -> exists r (x y : b64),
  band (N := B64) ratio (Z.max (ts_length query) l) = Ret r /\ (0 <= price k (ts_length query) r)%R /\
  group_dist (N := B64) rows k ratio (ts_points query) l v x /\ is_finite x = true /\
  dtw_of (N := B64) k ratio (ts_points query) (place_values rows (l, m)) = Ret (y : D B64) /\ is_finite y = true /\
  (- (1 / IZR (2 ^ 400)) <= B2R y)%R /\
  (B2R x <= (B2R y + price k (ts_length query) r * (B2R (thr : b64) / 2)) * (1 + rel_err) + abs_err)%R /\
  (B2R y <= (B2R x + price k (ts_length query) r * (B2R (thr : b64) / 2)) * (1 + rel_err) + abs_err)%R.
Proof.
  revert l v m. assert (Hq2 : 2 <= ts_length query) by apply Hq.
  destruct (half_near thr (ds_maxcol d) ltac:(lia) Fthr Pthr) as (Fh & Ph & Hh & Hinf).
  set (h := @ndiv B64 thr (nofZ 2)) in *.
  set (q := ts_points query) in *.
  assert (Lq : Z.of_nat (length q) = ts_length query) by (apply (DtwPaths.ts_points_length (N := B64)), Hq).
  assert (Hgl : forall l, grouped_length d whole l -> 2 <= l <= ds_maxcol d).
  { intros l Hl. revert Hl. unfold grouped_length. destruct whole; lia. }
  assert (Hlen : forall l m, grouped_length d whole l -> is_sub rows l m -> Z.of_nat (length (place_values rows (l, m))) = l).
  { intros l m Hl Hm. apply (place_len (N := B64) rows (l, m)); auto. specialize (Hgl l Hl). cbn [fst]. lia. }
  assert (Hrep : forall l vs v, partitions (N := B64) rows l vs -> In v vs -> In (v_rep v) (v_members v)).
  { intros l vs v (_ & _ & P) Hin. destruct (P v Hin) as (P1 & _ & P2). rewrite P2.
    destruct (exists_last P1) as (i & a & ->). rewrite last_last. apply in_or_app. right. left. reflexivity. }
  assert (Hmem : forall l vs v m, partitions (N := B64) rows l vs -> In v vs -> In m (v_members v) -> is_sub rows l m).
  { intros l vs v m (_ & P & _) Hin Hm. apply P. apply in_concat. exists (v_members v). split; auto. apply in_map. auto. }
  set (rl := fun l : list (D B64) => map (fun x : b64 => B2R x) l).
  set (e := (IZR (ds_maxcol d) / IZR (2 ^ 44))%R) in *. set (n := (1 / IZR (2 ^ 400))%R) in *.
  assert (Rq : Rlen (rl q) = ts_length query) by (unfold Rlen, rl; rewrite map_length; exact Lq).
  assert (Rpl : forall l m, grouped_length d whole l -> is_sub rows l m -> Rlen (rl (place_values rows (l, m))) = l).
  { intros l m Hl Hm. unfold Rlen, rl. rewrite map_length. apply Hlen; auto. }
  (* distances between the query and a place, both ways *)
  assert (Hval : forall l m, searched (N := B64) d whole ratio (ts_length query) l -> is_sub rows l m ->
     exists r p d1 d2, band (N := B64) ratio (Z.max (ts_length query) l) = Ret r /\ 0 <= r /\
       warping_path (ts_length query) l p /\ in_band r p /\
       (forall p', warping_path (ts_length query) l p' -> in_band r p' ->
          (real_cost k (rl q) (rl (place_values rows (l, m))) p <= real_cost k (rl q) (rl (place_values rows (l, m))) p')%R) /\
       dtw_of (N := B64) k ratio q (place_values rows (l, m)) = Ret d1 /\
       (is_finite (d1 : b64) = true /\ (B2R (d1 : b64) <= real_cost k (rl q) (rl (place_values rows (l, m))) p * (1 + e) + n)%R /\
          (real_cost k (rl q) (rl (place_values rows (l, m))) p * (1 - e) - n <= B2R (d1 : b64))%R) /\
       dtw_of (N := B64) k ratio (place_values rows (l, m)) q = Ret d2 /\
       (is_finite (d2 : b64) = true /\ (B2R (d2 : b64) <= real_cost k (rl q) (rl (place_values rows (l, m))) p * (1 + e) + n)%R /\
          (real_cost k (rl q) (rl (place_values rows (l, m))) p * (1 - e) - n <= B2R (d2 : b64))%R)).
  { intros l m (Hl & r & Er & Hab) Hm. pose proof (Hlen l m Hl Hm) as Lm. pose proof (Hgl l Hl) as Hl2.
    destruct (searchable_moderate k rows ratio query (fun p => p = (l, m)) Hmod Hq Hr) with (p := (l, m)) as (r' & Hok).
    { intros p ->. split; [cbn; lia|exact Hm]. } { reflexivity. }
    fold q in Hok.
    assert (Er' : r' = r).
    { pose proof (io_band _ _ _ _ _ Hok) as Eb'.
      change (ts_length (ts_of_list (N := B64) q)) with (Z.of_nat (length q)) in Eb'.
      change (ts_length (ts_of_list (N := B64) (place_values rows (l, m)))) with (Z.of_nat (length (place_values rows (l, m)))) in Eb'.
      rewrite Lq, Lm, Z.max_comm in Eb'. rewrite Er in Eb'. injection Eb' as ->. reflexivity. }
    subst r'. destruct (both_near k ratio q (place_values rows (l, m)) r Hok) as (p & d1 & d2 & P1 & P2 & P3 & D1 & A1 & D2 & A2).
    { rewrite Lq, Lm. lia. }
    rewrite Lq, Lm in A1, A2. change (map (fun x : b64 => B2R x) q) with (rl q) in *.
    change (map (fun x : b64 => B2R x) (place_values rows (l, m))) with (rl (place_values rows (l, m))) in *.
    rewrite Rq, (Rpl l m Hl Hm) in P1, P3.
    pose proof (cost_pos k (rl q) (rl (place_values rows (l, m))) p) as PP.
    exists r, p, d1, d2. split; [rewrite Z.max_comm; exact Er|]. split; [apply Hok|]. split; [exact P1|]. split; [exact P2|].
    split; [exact P3|]. split; [exact D1|]. split.
    { apply (agrees_within (ts_length query + l)); auto. lia. }
    split; [exact D2|]. apply (agrees_within (ts_length query + l)); auto. lia. }

  intros l v m Hl Hgv Hm. pose proof (proj1 Hl) as Hg. destruct (Hviews l Hg) as (vs & U1 & U2 & U3). destruct Hgv as (vs' & U1' & Hv).
  rewrite U1 in U1'. injection U1' as <-.
  pose proof (Hrep l vs v U2 Hv) as Hrm. pose proof (Hmem l vs v _ U2 Hv Hrm) as Hsr. pose proof (Hmem l vs v _ U2 Hv Hm) as Hsm.
  destruct (Hval l (v_rep v) Hl Hsr) as (r & pr & x1 & x & Er & Hr00 & Pr1 & Pr2 & Pr3 & _ & _ & Ex & (Fx & Ux & Lx)).
  destruct (Hval l m Hl Hsm) as (r' & pm & y & y2 & Er' & _ & Pm1 & Pm2 & Pm3 & Ey & (Fy & Uy & Ly) & _ & _).
  rewrite Er in Er'. injection Er' as <-.
  pose proof (Hlen l m Hg Hsm) as Lm. pose proof (Hlen l (v_rep v) Hg Hsr) as Lr. pose proof (Hgl l Hg) as Hl2.
  set (X := place_values rows (l, m)) in *. set (Y := place_values rows (l, v_rep v)) in *.
  pose proof (Rpl l m Hg Hsm : Rlen (rl X) = l) as RX. pose proof (Rpl l (v_rep v) Hg Hsr : Rlen (rl Y) = l) as RY.
  assert (Hll : length (rl X) = length (rl Y)).
  { apply Nat2Z.inj. exact (eq_trans RX (eq_sym RY)). }
  assert (G : (real_cost k (rl q) (rl Y) pr <= real_cost k (rl q) (rl X) pm + price k (ts_length query) r * real_pair k (rl X) (rl Y))%R).
  { apply Rle_trans with (real_cost k (rl q) (rl Y) pm); [apply Pr3; auto|].
    rewrite <- Rq. apply gap; auto; rewrite ?Rq, ?RX; auto; lia. }
  assert (G' : (real_cost k (rl q) (rl X) pm <= real_cost k (rl q) (rl Y) pr + price k (ts_length query) r * real_pair k (rl X) (rl Y))%R).
  { rewrite (real_pair_sym k) by auto. apply Rle_trans with (real_cost k (rl q) (rl X) pr); [apply Pm3; auto|].
    rewrite <- Rq. apply gap; auto; rewrite ?Rq, ?RY; auto; lia. }
  (* the distance of the representative *)
  assert (Hpair : (0 <= real_pair k (rl X) (rl Y))%R /\ (real_pair k (rl X) (rl Y) * (1 - e) - n <= B2R (h : b64))%R).
  { assert (Hnz : rl X <> []) by (intros E0; rewrite E0 in RX; change (0 = l) in RX; lia).
    destruct (C05_pairwise_metric_axioms k (rl X) (rl Y) (rl X) Hnz Hll (eq_sym Hll)) as (PP & PS & PZ & _).
    split; [exact PP|]. 
    assert (Pn : (0 < n)%R) by (unfold n; rewrite <- XX_is; apply bpow_gt_0).
    assert (Hdec : m = v_rep v \/ m <> v_rep v).
    { apply pair_dec. }
    destruct Hdec as [Em|Nm].
    - assert (EXY : X = Y) by (unfold X, Y; rewrite Em; reflexivity).
      assert (Z0 : real_pair k (rl X) (rl Y) = 0%R) by (apply PZ; rewrite EXY; reflexivity).
      rewrite Z0. lra.
    - pose proof (U3 v m Hv Hm Nm) as Hp. change (sub_values rows l (v_rep v)) with Y in Hp. change (sub_values rows l m) with X in Hp.
      assert (SM : forall z, is_sub rows l z -> small_points (ts_of_list (N := B64) (place_values rows (l, z)))).
      { intros z Hz. destruct (place_row rows (l, z) Hz) as (row & Hrow & _ & Hin). destruct (Hmod row Hrow) as [Hmv _].
        unfold small_points. rewrite (points_of_list (N := B64)). apply Forall_forall. intros a Hx. rewrite Forall_forall in Hmv. apply Hmv. auto. }
      pose proof (SM m Hsm) as SX. pose proof (SM (v_rep v) Hsr) as SY. fold X in SX. fold Y in SY.
      assert (LXY : ts_length (ts_of_list (N := B64) Y) = ts_length (ts_of_list (N := B64) X)).
      { exact (eq_trans Lr (eq_sym Lm)). }
      assert (EL : ts_length (ts_of_list (N := B64) Y) = l) by exact Lr.
      assert (LY : 1 <= ts_length (ts_of_list (N := B64) Y) <= 2 ^ 30).
      { rewrite EL. lia. }
      pose proof (pair_value_eq (N := B64) k _ _ (ts_of_list_ok (N := B64) Y) (ts_of_list_ok (N := B64) X) LXY) as Epv.
      rewrite !(points_of_list (N := B64)) in Epv. rewrite Epv in Hp.
      destruct (pair_close _ _ (ts_of_list_ok (N := B64) Y) (ts_of_list_ok (N := B64) X) LXY LY (small_fin _ SY) (small_fin _ SX) k) as [Ei|Ag].
      { exfalso. apply (full_number _ _ (ts_of_list_ok (N := B64) Y) (ts_of_list_ok (N := B64) X) LXY LY SY SX k Ei). }
      rewrite !points_exact in Ag. change (map (fun x : b64 => B2R x) X) with (rl X) in Ag. change (map (fun x : b64 => B2R x) Y) with (rl Y) in Ag.
      rewrite <- PS in Ag. rewrite EL in Ag.
      destruct (agrees_within l (ds_maxcol d) _ _ ltac:(lia) PP Ag) as (Fp & _ & Lp). fold e n in Lp.
      apply (nle_reals _ _ Fp Fh) in Hp. apply Rle_trans with (1 := Lp). exact Hp. }
  destruct Hpair as [PP Lp].
  assert (He : (0 <= e <= / 200000)%R).
  { assert (0 <= IZR (ds_maxcol d) <= IZR (2 ^ 26))%R by (split; [apply (IZR_le 0)|apply IZR_le]; lia).
    unfold e. split; [apply Rle_mult_inv_pos; [lra|apply (IZR_lt 0); reflexivity]|].
    apply Rle_trans with (IZR (2 ^ 26) / IZR (2 ^ 44))%R.
    - apply Rmult_le_compat_r; [apply Rlt_le, Rinv_0_lt_compat, (IZR_lt 0); reflexivity|lra].
    - change (2 ^ 26) with 67108864. change (2 ^ 44) with 17592186044416. lra. }
  assert (Pn : (0 <= n)%R) by (unfold n; rewrite <- XX_is; apply Rlt_le, bpow_gt_0).
  assert (Hpr : (0 <= price k (ts_length query) r <= IZR (2 ^ 26))%R).
  { split; [apply price_nonneg; lia|]. pose proof (visits_bound (ts_length query) r) as VB.
    assert (IZR (ts_length query) <= IZR (2 ^ 26))%R by (apply IZR_le; lia).
    assert (0 <= IZR (visits_at_most (ts_length query) r))%R by (apply (IZR_le 0); unfold visits_at_most; lia).
    change (2 ^ 26) with 67108864 in *. destruct k; cbn [price]; lra. }

  assert (Hab : (n * (8 + 4 * price k (ts_length query) r) <= abs_err)%R).
  { unfold abs_err. fold n. apply Rmult_le_compat_l; auto. lra. }
  assert (E8 : rel_err = (8 * e)%R) by reflexivity. rewrite E8.
  assert (Self : forall z, (0 <= z)%R -> (z * (1 - e) - n <= z)%R /\ (z <= z * (1 + e) + n)%R).
  { intros z Hz. assert (0 <= z * e)%R by (apply Rmult_le_pos; lra). lra. }
  pose proof (cost_pos k (rl q) (rl Y) pr) as PY. pose proof (cost_pos k (rl q) (rl X) pm) as PX.
  exists r, x, y. split; [exact Er|]. split; [apply Hpr|]. split; [exact Ex|]. split; [exact Fx|]. split; [exact Ey|]. split; [exact Fy|].
  split; [|split].
  - assert (0 <= real_cost k (rl q) (rl X) pm * (1 - e))%R by (apply Rmult_le_pos; lra). 
    assert (Ly' : (real_cost k (rl q) (rl X) pm * (1 - e) - n <= B2R y)%R) by exact Ly. lra.
  - pose proof (chain e n He Pn (B2R x) (B2R x) _ _ _ _ _ _ (B2R y) (B2R (h : b64)) (B2R (thr : b64) / 2) _
      PY PY PX PP (proj1 Hpr) ltac:(lra) (Rle_refl _) Ux (proj1 (Self _ PY)) (Rle_refl _) (proj2 (Self _ PY)) G Ly Lp Hh) as C. lra.
  - pose proof (chain e n He Pn (B2R y) (B2R y) _ _ _ _ _ _ (B2R x) (B2R (h : b64)) (B2R (thr : b64) / 2) _
      PX PX PY PP (proj1 Hpr) ltac:(lra) (Rle_refl _) Uy (proj1 (Self _ PX)) (Rle_refl _) (proj2 (Self _ PX)) G' Lx Lp Hh) as C. lra.
Qed.

Lemma two_steps (E A n0 y x x' z a b : R) : (0 <= E <= 1)%R -> (0 <= n0 <= A)%R -> (0 <= a)%R -> (0 <= b)%R -> (- n0 <= z)%R ->
  (y <= (x + a) * (1 + E) + A)%R -> (x <= x')%R -> (x' <= (z + b) * (1 + E) + A)%R ->
  (y <= (z + a + b) * (1 + 4 * E) + 8 * A)%R.
Proof.
  intros HE Hn Ha Hb Hz H1 H2 H3.
  assert (HEE : (0 <= E * E <= E)%R) by nra.
  assert (H4 : (y <= ((z + b) * (1 + E) + A + a) * (1 + E) + A)%R).
  { apply Rle_trans with (1 := H1). apply Rplus_le_compat_r. apply Rmult_le_compat_r; lra. }
  assert (H5 : (0 <= (z + b + n0) * (2 * E - E * E))%R) by (apply Rmult_le_pos; lra).
  assert (H6 : (0 <= n0 * (2 * E - E * E) <= A)%R) by (split; [apply Rmult_le_pos; lra|apply Rle_trans with (n0 * 1)%R; [apply Rmult_le_compat_l; nra|lra]]).
  assert (H7 : (0 <= a * E)%R) by (apply Rmult_le_pos; lra).
  assert (H8 : (0 <= A * E <= A)%R) by (split; [apply Rmult_le_pos; lra|apply Rle_trans with (A * 1)%R; [apply Rmult_le_compat_l; lra|lra]]).
  lra.
Qed.

Lemma errs : (0 <= rel_err <= 1)%R /\ (0 <= 1 / IZR (2 ^ 400) <= abs_err)%R /\ (8 * abs_err <= 1 / IZR (2 ^ 360))%R.
Proof.
  assert (Hq2 : 2 <= ts_length query) by apply Hq.
  assert (Pn : (0 <= 1 / IZR (2 ^ 400))%R) by (rewrite <- XX_is; apply Rlt_le, bpow_gt_0).
  split; [|split; [split|]].
  - assert (0 <= IZR (ds_maxcol d) <= IZR (2 ^ 26))%R by (split; [apply (IZR_le 0)|apply IZR_le]; lia).
    unfold rel_err. assert (0 <= IZR (ds_maxcol d) / IZR (2 ^ 44))%R by (apply Rle_mult_inv_pos; [lra|apply (IZR_lt 0); reflexivity]).
    assert (IZR (ds_maxcol d) / IZR (2 ^ 44) <= IZR (2 ^ 26) / IZR (2 ^ 44))%R.
    { apply Rmult_le_compat_r; [apply Rlt_le, Rinv_0_lt_compat, (IZR_lt 0); reflexivity|lra]. }
    change (2 ^ 26) with 67108864 in *. change (2 ^ 44) with 17592186044416 in *. lra.
  - exact Pn.
  - unfold abs_err. change (2 ^ 26) with 67108864. set (n := (1 / IZR (2 ^ 400))%R) in *. clearbody n. lra.
  - unfold abs_err. apply Rle_trans with (1 / IZR (2 ^ 400) * IZR (2 ^ 40))%R.
    + set (n := (1 / IZR (2 ^ 400))%R) in *. clearbody n. change (2 ^ 40) with 1099511627776. change (2 ^ 26) with 67108864. lra.
    + change (2 ^ 400) with (2 ^ 360 * 2 ^ 40). rewrite mult_IZR. right. field. split; apply not_0_IZR; discriminate.
Qed.

Lemma left_out_ieee h C c p : considered (N := B64) rows k ratio (ts_points query) S P g h C ->
  In c C -> P p -> ~ In p C -> exists r r' (y z : b64),
    band (N := B64) ratio (Z.max (ts_length query) (fst c)) = Ret r /\ band (N := B64) ratio (Z.max (ts_length query) (fst p)) = Ret r' /\
    dtw_of (N := B64) k ratio (ts_points query) (place_values rows c) = Ret (y : D B64) /\ is_finite y = true /\
    dtw_of (N := B64) k ratio (ts_points query) (place_values rows p) = Ret (z : D B64) /\ is_finite z = true /\
    (B2R y <= (B2R z + price k (ts_length query) r * (B2R (thr : b64) / 2) + price k (ts_length query) r' * (B2R (thr : b64) / 2)) * (1 + 4 * rel_err)
       + 8 * abs_err)%R.
Proof.
  intros HC Hc Hp Hno. pose proof HC as (_ & HCP & _). pose proof (HCP c Hc) as Pc.
  destruct c as [lc mc]. destruct p as [lp mp]. cbn [fst snd] in *.
  destruct (in_group_ieee lc mc Pc) as (v & V1 & V2 & V3). destruct (in_group_ieee lp mp Hp) as (w & W1 & W2 & W3).
  destruct (rep_near_ieee lc v mc V1 V2 V3) as (r & x0 & y & Br & Pr & _ & _ & Ey & Fy & _).
  destruct (rep_near_ieee lp w mp W1 W2 W3) as (r' & x1 & z & Br' & Pr' & _ & _ & Ez & Fz & Nz & _).
  exists r, r', y, z. split; [exact Br|]. split; [exact Br'|]. split; [exact Ey|]. split; [exact Fy|]. split; [exact Ez|]. split; [exact Fz|].
  destruct errs as (Her & Hea & _).
  assert (Q1 : (0 <= price k (ts_length query) r * (B2R (thr : b64) / 2))%R) by (apply Rmult_le_pos; lra).
  assert (Q2 : (0 <= price k (ts_length query) r' * (B2R (thr : b64) / 2))%R) by (apply Rmult_le_pos; lra).
  destruct (left_out (N := B64) _ _ _ _ _ _ _ _ _ (lc, mc) (lp, mp) HC) as [Hle|(v' & w' & (_ & V2' & V3') & (_ & W2' & W3') & Hle)]; auto.
  - intros l u Hl Hu. assert (exists z, In z (v_members u)) as (z' & Hz').
    { destruct Hu as (vs & U1 & U2). destruct (Hviews l (proj1 Hl)) as (vs' & U1' & (_ & _ & Q) & _). rewrite U1 in U1'. injection U1' as <-.
      destruct (Q u U2) as (QQ & _ & _). destruct (v_members u) as [|a ms]; [destruct QQ; reflexivity|]. exists a. left. reflexivity. }
    destruct (rep_near_ieee l u z' Hl Hu Hz') as (_ & x & _ & _ & _ & Ex & _). exists x. exact Ex.
  - apply in_group_ieee.
  - specialize (Hle _ _ Ey Ez). apply (nle_reals _ _ Fy Fz) in Hle.
    apply (two_steps rel_err abs_err (1 / IZR (2 ^ 400)) _ (B2R z) (B2R z) (B2R z)); auto; try apply Rle_refl.
    + set (n := (1 / IZR (2 ^ 400))%R) in *. clearbody n. nra.
    + set (n := (1 / IZR (2 ^ 400))%R) in *. clearbody n. nra.
  - cbn [fst snd] in *. destruct (rep_near_ieee lc v' mc V1 V2' V3') as (s & x & y' & Bs & _ & Ex & Fx & Ey' & _ & _ & B1 & B2).
    destruct (rep_near_ieee lp w' mp W1 W2' W3') as (s' & x' & z' & Bs' & _ & Ex' & Fx' & Ez' & _ & _ & B3 & B4).
    specialize (Hle _ _ Ex Ex'). apply (nle_reals _ _ Fx Fx') in Hle.
    pose proof (eq_trans (eq_sym Ey) Ey') as X1. injection X1 as <-. pose proof (eq_trans (eq_sym Ez) Ez') as X2. injection X2 as <-.
    rewrite Br in Bs. injection Bs as <-. rewrite Br' in Bs'. injection Bs' as <-.
    apply (two_steps rel_err abs_err (1 / IZR (2 ^ 400)) _ (B2R x) (B2R x') (B2R z)); auto.
Qed.
End Ieee.

(** With doubles: the same up to the rounding errors of C51. *)
Theorem C57_k_best_near_optimum_ieee : forall (H : std_alg) (k : kind) (d : dataset B64) (rows : list (list (D B64)))
    old clock (ratio0 thr : D B64) threads whole g0 total g (query : TS B64) (ratio : D B64) K h,
  std_ok H ->
  holds d rows -> moderate_data rows -> is_finite (thr : b64) = true -> (0 <= B2R (thr : b64))%R ->
  1 <= threads -> log_safe d clock -> ds_maxcol d <= 2 ^ 26 ->
  groupAllLengths (N := B64) clock ratio0 (mkGS d old) (kind_name k) thr threads whole = (g0, Ret total) ->
  asked (N := B64) H g0 g ->
  moderate_query query -> ts_length query <= ds_maxcol d -> moderate_ratio ratio ->
  1 <= K <= h ->
  let P := searched_place (N := B64) d rows whole ratio (ts_length query) in
  no_near_ties (N := B64) rows k ratio (ts_points query) P -> at_least P K ->
  exists g' cs, getKBestMatches (N := B64) H ratio g query K h = Ret (g', cs) /\
    Z.of_nat (length cs) = K /\ ascending (N := B64) cs /\ NoDup (map place_of cs) /\
    (forall c, In c cs -> P (place_of c) /\ true_match (N := B64) rows k ratio (ts_points query) c) /\
    forall c p, In c cs -> P p -> ~ In p (map place_of cs) -> exists r r' (v : b64),
      band (N := B64) ratio (Z.max (ts_length query) (fst (place_of c))) = Ret r /\
      band (N := B64) ratio (Z.max (ts_length query) (fst p)) = Ret r' /\
      dtw_of (N := B64) k ratio (ts_points query) (place_values rows p) = Ret (v : D B64) /\ is_finite v = true /\
      (B2R (c_dist c : b64) <=
         (B2R v + price k (ts_length query) r * (B2R (thr : b64) / 2) + price k (ts_length query) r' * (B2R (thr : b64) / 2))
           * (1 + IZR (ds_maxcol d) / IZR (2 ^ 39)) + 1 / IZR (2 ^ 360))%R.
Proof.
  intros H k d rows old clock ratio0 thr threads whole g0 total g query ratio K h Hok Hd Hmod Fthr Pthr Ht Hlog Hmax E Ha Hq Hql Hr HK P Hties Hat.
  assert (Hq2 : 2 <= ts_length query) by apply Hq.
  destruct (half_near thr (ds_maxcol d) ltac:(lia) Fthr Pthr) as (_ & _ & _ & Hinf).
  destruct (C24_k_similar_ieee H k d rows old clock ratio0 thr threads whole g0 total g query ratio K h Hok Hd Hmod Hinf Ht Hlog Hmax E Ha Hq Hql Hr HK Hties Hat)
    as (g' & C & cs & Ek & HC & (B1 & B2 & B3 & B4) & Hasc & Hlen).
  destruct (C17_group_radius k d rows old clock ratio0 thr threads whole Hd Hinf ltac:(lia) Ht Hlog) as (g1 & total1 & E1 & Hrad).
  rewrite E in E1. injection E1 as <- _.
  assert (Hviews : forall l, grouped_length d whole l -> exists vs, level_view g l = Some (Ret vs) /\ partitions rows l vs /\
      forall v c, In v vs -> In c (v_members v) -> c <> v_rep v ->
        @nle B64 (pair_value k (sub_values rows l (v_rep v)) (sub_values rows l c)) (@ndiv B64 thr (nofZ 2))).
  { intros l Hl. destruct (Hrad l Hl) as (vs & V1 & V2 & V3). exists vs. split; [|split; auto]. rewrite <- V1.
    apply (asked_views (N := B64) d rows H old clock ratio0 k thr threads whole g0 total g); auto; lia. }
  pose proof HC as (_ & HCP & _).
  exists g', cs. split; [exact Ek|]. split; [exact Hlen|]. split; [exact Hasc|]. split; [exact B2|].
  split. { intros c Hc. destruct (B1 c Hc) as [B1a B1b]. split; [apply HCP; exact B1a|exact B1b]. }
  destruct (errs d query Hmax Hq Hql) as (Her & Hea & Hea').
  assert (Efin : forall x y : R, (x <= y * (1 + 4 * rel_err d) + 8 * abs_err)%R ->
     (x <= y * (1 + IZR (ds_maxcol d) / IZR (2 ^ 39)) + 1 / IZR (2 ^ 360))%R).
  { intros x y Hxy. apply Rle_trans with (1 := Hxy).
    replace (IZR (ds_maxcol d) / IZR (2 ^ 39))%R with (4 * rel_err d)%R.
    2:{ unfold rel_err. change (2 ^ 44) with (32 * 2 ^ 39). rewrite mult_IZR. field. apply not_0_IZR. discriminate. }
    apply Rplus_le_compat_l. exact Hea'. }
  intros c p Hc Hp Hno. destruct (B1 c Hc) as [B1a (_ & Tp & Td)]. rewrite Tp in Td.
  assert (Hcp : In p C \/ ~ In p C).
  { destruct (in_dec (fun a b : place => ltac:(repeat decide equality)) p C); auto. }
  destruct Hcp as [Hin|Hout].
  - destruct p as [lp mp]. destruct (place_of c) as [lc mc] eqn:Ec. cbn [fst snd].
    destruct (in_group_ieee k d rows whole thr g query ratio Hviews lp mp Hp) as (w & W1 & W2 & W3).
    destruct (in_group_ieee k d rows whole thr g query ratio Hviews lc mc (HCP _ B1a)) as (v & V1 & V2 & V3).
    destruct (rep_near_ieee k d rows whole thr g query ratio Hmod Fthr Pthr Hmax Hviews Hq Hql Hr lp w mp W1 W2 W3)
      as (r' & x' & z & Br' & Pr' & _ & _ & Ez & Fz & Nz & _).
    destruct (rep_near_ieee k d rows whole thr g query ratio Hmod Fthr Pthr Hmax Hviews Hq Hql Hr lc v mc V1 V2 V3)
      as (r & x & y & Br & Pr & _ & _ & Ey & Fy & _).
    pose proof (eq_trans (eq_sym Ey) Td) as Td'. injection Td' as Td'.
    exists r, r', z. split; [exact Br|]. split; [exact Br'|]. split; [exact Ez|]. split; [exact Fz|].
    apply Efin. pose proof (B4 _ _ c Hin Hno Ez Hc) as Hle. rewrite <- Td' in Hle |- *. apply (nle_reals _ _ Fy Fz) in Hle.
    assert (Q1 : (0 <= price k (ts_length query) r * (B2R (thr : b64) / 2))%R) by (apply Rmult_le_pos; lra).
    assert (Q2 : (0 <= price k (ts_length query) r' * (B2R (thr : b64) / 2))%R) by (apply Rmult_le_pos; lra).
    apply (two_steps (rel_err d) abs_err (1 / IZR (2 ^ 400)) _ (B2R z) (B2R z) (B2R z)); auto; try apply Rle_refl;
      set (n := (1 / IZR (2 ^ 400))%R) in *; clearbody n; nra.
  - destruct (left_out_ieee k d rows whole thr g query ratio Hmod Fthr Pthr Hmax Hviews Hq Hql Hr h C (place_of c) p HC B1a Hp Hout)
      as (r & r' & y & z & Br & Br' & Ey & Fy & Ez & Fz & Hle).
    pose proof (eq_trans (eq_sym Ey) Td) as Td'. injection Td' as Td'.
    exists r, r', z. split; [exact Br|]. split; [exact Br'|]. split; [exact Ez|]. split; [exact Fz|].
    apply Efin. rewrite <- Td'. exact Hle.
Qed.
Print Assumptions C57_k_best_near_optimum_ieee.

(** The example of C52: asked for one match, looking at one subsequence, the search
    answers with the third series, at distance 11/4, although the second is at
    distance 0; the bound for this case is 8. *)
Definition gu_places : list place := [(8, (0, 0)); (8, (1, 0)); (8, (2, 0))].

Example C57_example_pre : std_ok simple_alg /\
  no_near_ties (N := B64) gu_rows KManhattan (b64_ofZ 1) (ts_points gu_query)
    (searched_place (N := B64) gu_data gu_rows true (b64_ofZ 1) (ts_length gu_query)) /\
  at_least (searched_place (N := B64) gu_data gu_rows true (b64_ofZ 1) (ts_length gu_query)) 1.
Proof.
  destruct C52_example_pre as (_ & _ & _ & _ & _ & _ & _ & _ & _ & H10).
  split; [apply simple_alg_ok|]. split.
  - assert (W : forall p, searched_place (N := B64) gu_data gu_rows true (b64_ofZ 1) (ts_length gu_query) p -> In p gu_places).
    { intros [l [i s]] [[Hl _] (row & Hrow & Hs)]. cbn [fst snd] in *. change (l = 8) in Hl. subst l.
      apply row_of_Some in Hrow as [Hi Hn]. assert (Hlen : Z.of_nat (length row) = 8 /\ (0 <= i < 3)).
      { assert (Hi3 : (Z.to_nat i < 3)%nat) by (apply nth_error_Some_lt in Hn; exact Hn). split; [|lia].
        destruct (Z.to_nat i) as [|[|[|]]]; try lia; injection Hn as <-; reflexivity. }
      destruct Hlen as [Hlen Hi3]. assert (s = 0) by lia. subst s.
      assert (i = 0 \/ i = 1 \/ i = 2) as [->|[->| ->]] by lia; unfold gu_places; cbn [In]; auto. }
    intros p p' v v' Hp Hp' Ev Ev'. apply W in Hp, Hp'.
    assert (G : forallb (fun p => forallb (fun p' =>
      match dtw_of (N := B64) KManhattan (b64_ofZ 1) (ts_points gu_query) (place_values gu_rows p),
            dtw_of (N := B64) KManhattan (b64_ofZ 1) (ts_points gu_query) (place_values gu_rows p') with
      | Ret v, Ret v' => sepb v v' | _, _ => false end) gu_places) gu_places = true) by (vm_compute; reflexivity).
    rewrite forallb_forall in G. specialize (G p Hp). rewrite forallb_forall in G. specialize (G p' Hp').
    cbv beta in G. rewrite Ev, Ev' in G. unfold sepb in G. apply orb_true_iff in G as [G|G].
    + left. apply (neqb_true (N := B64)). exact G.
    + right. apply negb_true_iff in G. exact G.
  - exists [(8, (1, 0))]. split; [repeat constructor; simpl; tauto|]. split; [|simpl; lia]. intros p [<-|[]]. exact H10.
Qed.

Example C57_example_run :
  show_k (getKBestMatches (N := B64) simple_alg (b64_ofZ 1) (fst gu_grouped) gu_query 1 1) = Some [(8, 2, 0, B2SF (b64_lit 11 4))] /\
  show_k (getKBestMatches (N := B64) simple_alg (b64_ofZ 1) (fst gu_grouped) gu_query 2 2) =
    Some [(8, 1, 0, B2SF (b64_ofZ 0)); (8, 2, 0, B2SF (b64_lit 11 4))].
Proof. split; vm_compute; reflexivity. Qed.
