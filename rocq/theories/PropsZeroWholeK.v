(** Property C59, continued: in doubles, for data of whole numbers, with similarity threshold 0 the k best
    matches are k nearest ones.  Specifications: SearchSpec.v, QuerySpec.v, [whole] in PropsTurn.v and
    [whole_data] in PropsZeroWhole.v. *)
From Coq Require Import String Reals Lra Lia.
From Flocq Require Import Core IEEE754.BinarySingleNaN.
From Verif Require Import Base Num NumB64 NumLaws NumFacts NumB64Laws NumXR NumXRLaws LoopFacts TimeSeries Distance
  DtwSpec DtwReal DtwPaths DtwResults DistSpec DistLink Pairwise TSSet DataProofs StdAlg HeapFacts Candidate Group GroupSpace DataSpec
  GroupView GroupSpec GroupDist SearchCases SearchSpec QuerySpec AccKinds AccPair PropsAccuracy PropsDistance PropsGroup PropsSearch PropsQuery PropsGuarantee PropsWhole PropsTurn Api ApiSpec ApiProofs PropsLoader PropsApi PropsKSim PropsError PropsZeroWhole.
Local Open Scope Z_scope.
Local Open Scope list_scope.


(** ** the members of a group are as far from the query as the group *)
Lemma zero_groups (H : std_alg) (k : kind) (d : dataset B64) (rows : list (list (D B64))) B
    old clock (ratio0 : D B64) threads full g0 total g (query : TS B64) zq (ratio : D B64) :
  holds d rows -> whole_data rows B -> moderate_data rows -> 1 <= threads -> log_safe d clock -> ds_maxcol d <= 2 ^ 26 ->
  2 * ds_maxcol d * largest k B <= 2 ^ 46 ->
  groupAllLengths (N := B64) clock ratio0 (mkGS d old) (kind_name k) (b64_ofZ 0) threads full = (g0, Ret total) ->
  asked (N := B64) H g0 g ->
  moderate_query query -> whole (ts_points query) zq B -> ts_length query <= ds_maxcol d -> moderate_ratio ratio ->
  let q := ts_points query in
  (forall l m, searched (N := B64) d full ratio (ts_length query) l -> is_sub rows l m -> exists v, group_in (N := B64) g l v /\ In m (v_members v)) /\
  (forall l v m, searched (N := B64) d full ratio (ts_length query) l -> group_in (N := B64) g l v -> In m (v_members v) ->
     exists y1 y3 : b64, dtw_of (N := B64) k ratio q (place_values rows (l, m)) = Ret y1 /\ group_dist (N := B64) rows k ratio q l v y3 /\
       is_finite y1 = true /\ is_finite y3 = true /\ B2R y1 = B2R y3).
Proof.
  intros Hd Hw Hm Ht Hlog Hmax HB E Ha Hq Wq Hql Hr.
  assert (Hinf : nltb (n := B64) (ndiv (n := B64) (b64_ofZ 0) (nofZ 2)) ninf = true) by reflexivity.
  assert (Hq2 : 2 <= ts_length query) by apply Hq.
  destruct (C17_group_radius k d rows old clock ratio0 (b64_ofZ 0) threads full Hd Hinf ltac:(lia) Ht Hlog) as (g1 & total1 & E1 & Hrad).
  rewrite E in E1. injection E1 as <- _.
  set (q := ts_points query) in *; cbv zeta.
  assert (Lq : Z.of_nat (length zq) = ts_length query).
  { rewrite <- (Forall2_len _ _ _ (proj1 Wq)). apply (DtwPaths.ts_points_length (N := B64)), Hq. }
  assert (B0 : 0 <= B).
  { destruct Wq as [_ W]. destruct zq as [|z zq]; [cbn in Lq; lia|]. inversion W; subst. lia. }
  assert (HL : 0 <= largest k B) by (destruct k; cbn [largest]; [apply Z.mul_nonneg_nonneg|..]; lia).
  assert (Hviews : forall l, grouped_length d full l -> exists vs, level_view g l = Some (Ret vs) /\ partitions rows l vs /\
      forall v c, In v vs -> In c (v_members v) -> c <> v_rep v ->
        @nle B64 (pair_value k (sub_values rows l (v_rep v)) (sub_values rows l c)) (ndiv (n := B64) (b64_ofZ 0) (nofZ 2))).
  { intros l Hl. destruct (Hrad l Hl) as (vs & V1 & V2 & V3). exists vs. split; [|split; auto]. rewrite <- V1.
    apply (asked_views (N := B64) d rows H old clock ratio0 k (b64_ofZ 0) threads full g0 total g); auto; lia. }
  assert (Hgl : forall l, grouped_length d full l -> 2 <= l <= ds_maxcol d).
  { intros l Hl. revert Hl. unfold grouped_length. destruct full; lia. }
  assert (Hrep : forall l vs v, partitions (N := B64) rows l vs -> In v vs -> In (v_rep v) (v_members v)).
  { intros l vs v (_ & _ & PP) Hin. destruct (PP v Hin) as (P1 & _ & P2). rewrite P2.
    destruct (exists_last P1) as (i & a & ->). rewrite last_last. apply in_or_app. right. left. reflexivity. }
  assert (Hmem : forall l vs v m, partitions (N := B64) rows l vs -> In v vs -> In m (v_members v) -> is_sub rows l m).
  { intros l vs v m (_ & PP & _) Hin Hm'. apply PP. apply in_concat. exists (v_members v). split; auto. apply in_map. auto. }
  assert (Hplace : forall l m, 2 <= l -> is_sub rows l m -> exists zs, whole (place_values rows (l, m)) zs B /\ Z.of_nat (length zs) = l).
  { intros l m Hl Hs. destruct (whole_place rows B l m Hw Hs) as (zs & W). exists zs. split; [exact W|].
    rewrite <- (Forall2_len _ _ _ (proj1 W)). apply (place_len (N := B64) rows (l, m)); [cbn; lia|exact Hs]. }
  (* distances of the query to a place and of another place with the same numbers to the query *)
  assert (Hval : forall l m m' zs, searched (N := B64) d full ratio (ts_length query) l -> is_sub rows l m -> is_sub rows l m' ->
     whole (place_values rows (l, m)) zs B -> whole (place_values rows (l, m')) zs B ->
     exists d1 d2 e2 : b64, dtw_of (N := B64) k ratio q (place_values rows (l, m)) = Ret d1 /\
       dtw_of (N := B64) k ratio q (place_values rows (l, m')) = Ret d2 /\ dtw_of (N := B64) k ratio (place_values rows (l, m')) q = Ret e2 /\
       is_finite d1 = true /\ is_finite d2 = true /\ is_finite e2 = true /\ B2R d1 = B2R d2 /\ B2R d1 = B2R e2).
  { intros l m m' zs (Hl & r & Er & Hab) Hs Hs' W W'. pose proof (Hgl l Hl) as Hl2.
    assert (Ls : Z.of_nat (length zs) = l) by (rewrite <- (Forall2_len _ _ _ (proj1 W)); apply (place_len (N := B64) rows (l, m)); [cbn; lia|exact Hs]).
    apply (whole_same k ratio r q _ _ zq zs B); auto; rewrite ?Lq, ?Ls; try lia.
    - assert ((ts_length query + l) * largest k B <= 2 * ds_maxcol d * largest k B); [apply Z.mul_le_mono_nonneg_r; lia|lia].
    - rewrite Z.max_comm. exact Er. }
  split.
  { intros l m Hl Hsm. destruct (Hviews l (proj1 Hl)) as (vs & U1 & U2 & _). destruct U2 as (_ & PP & _).
    apply (PP m) in Hsm. apply in_concat in Hsm as (ms & M1 & M2). apply in_map_iff in M1 as (w & <- & M3).
    exists w. split; [exists vs; auto|exact M2]. }
  intros l w m Hl (vs & U1 & Hw') Hmw. pose proof (proj1 Hl) as Hg. pose proof (Hgl l Hg) as Hl2. destruct (Hviews l Hg) as (vs' & U1' & U2 & U3).
  rewrite U1 in U1'. injection U1' as <-. pose proof (Hmem l vs w _ U2 Hw' Hmw) as Hsm.
  pose proof (Hrep l vs w U2 Hw') as Hrw. pose proof (Hmem l vs w _ U2 Hw' Hrw) as Hsw.
  destruct (Hplace l m ltac:(lia) Hsm) as (zm & Wm & Lm). destruct (Hplace l (v_rep w) ltac:(lia) Hsw) as (zr & Wr & Lr).
  assert (Hsame : zr = zm).
  { assert (Hdec : m = v_rep w \/ m <> v_rep w) by apply pair_dec. destruct Hdec as [Em|Nm].
    - rewrite <- Em in Wr. exact (whole_inj _ _ _ _ Wr Wm).
    - pose proof (U3 w m Hw' Hmw Nm) as Hp.
      pose proof (of_list_whole _ _ _ Wr) as Sr. pose proof (of_list_whole _ _ _ Wm) as Sm.
      pose proof (ws_length _ _ _ Sr) as Lr'. pose proof (ws_length _ _ _ Sm) as Lm'. rewrite Lr in Lr'. rewrite Lm in Lm'.
      assert (Hlim : l * largest k B <= 2 ^ 46).
      { assert (l * largest k B <= 2 * ds_maxcol d * largest k B); [apply Z.mul_le_mono_nonneg_r; lia|lia]. }
      assert (EL : ts_length (ts_of_list (N := B64) (place_values rows (l, v_rep w))) = ts_length (ts_of_list (N := B64) (place_values rows (l, m)))) by exact (eq_trans Lr' (eq_sym Lm')).
      assert (Hll : 1 <= l <= 2 ^ 30) by lia.
      assert (EB : 1 <= ts_length (ts_of_list (N := B64) (place_values rows (l, v_rep w))) <= 2 ^ 30) by exact (eq_ind_r (fun z => 1 <= z <= 2 ^ 30) Hll Lr').
      destruct (C69_paired_whole_numbers k _ _ zr zm B [] Sr Sm EB EL (eq_ind_r (fun z => z * largest k B <= 2 ^ 46) Hlim Lr')) as (dp & D1 & D2 & D3).
      rewrite (pair_uncut (ts_of_list (N := B64) (place_values rows (l, v_rep w))) (ts_of_list (N := B64) (place_values rows (l, m)))
        (ws_ok _ _ _ Sr) (ws_ok _ _ _ Sm) EL EB) in D1.
      injection D1 as D1.
      pose proof (pair_value_eq (N := B64) k _ _ (ws_ok _ _ _ Sr) (ws_ok _ _ _ Sm) EL) as Epv.
      rewrite !(points_of_list (N := B64)) in Epv.
      assert (Hp' : @nle B64 dp (b64_ofZ 0)) by exact (eq_ind _ (fun z => @nle B64 z (ndiv (n := B64) (b64_ofZ 0) (nofZ 2))) Hp _ (eq_trans Epv D1)).
      pose proof (nle_reals _ (b64_ofZ 0) D2 eq_refl Hp') as Hp2. change (B2R dp <= 0)%R in Hp2. rewrite D3 in Hp2.
      apply paired_zero in Hp2; [|apply zcost_pos|lia]. apply (straight_zero k) in Hp2; [exact Hp2|lia]. }
  subst zr.
  destruct (Hval l m (v_rep w) zm Hl Hsm Hsw Wm Wr) as (y1 & y2 & y3 & Y1 & Y2 & Y3 & G1 & G2 & G3 & Q1 & Q3).
  exists y1, y3. splits; assumption.
Qed.

Theorem C59_k_whole_numbers : forall (H : std_alg) (k : kind) (d : dataset B64) (rows : list (list (D B64))) B
    old clock (ratio0 : D B64) threads full g0 total g (query : TS B64) zq (ratio : D B64) K h,
  std_ok H ->
  holds d rows -> whole_data rows B -> moderate_data rows -> 1 <= threads -> log_safe d clock -> ds_maxcol d <= 2 ^ 26 ->
  2 * ds_maxcol d * largest k B <= 2 ^ 46 ->
  groupAllLengths (N := B64) clock ratio0 (mkGS d old) (kind_name k) (b64_ofZ 0) threads full = (g0, Ret total) ->
  asked (N := B64) H g0 g ->
  moderate_query query -> whole (ts_points query) zq B -> ts_length query <= ds_maxcol d -> moderate_ratio ratio ->
  1 <= K <= h ->
  let P := searched_place (N := B64) d rows full ratio (ts_length query) in
  no_near_ties (N := B64) rows k ratio (ts_points query) P -> at_least P K ->
  exists g' cs, getKBestMatches (N := B64) H ratio g query K h = Ret (g', cs) /\
    best_matches (N := B64) rows k ratio (ts_points query) P K cs /\ ascending (N := B64) cs.
Proof.
  intros H k d rows B old clock ratio0 threads full g0 total g query zq ratio K h Hok Hd Hw Hm Ht Hlog Hmax HB E Ha Hq Wq Hql Hr HK P Hties Hat.
  assert (Hinf : nltb (n := B64) (ndiv (n := B64) (b64_ofZ 0) (nofZ 2)) ninf = true) by reflexivity.
  destruct (C24_k_similar_ieee H k d rows old clock ratio0 (b64_ofZ 0) threads full g0 total g query ratio K h Hok Hd Hm Hinf Ht Hlog Hmax E Ha Hq Hql Hr HK Hties Hat)
    as (g' & C & cs & Ek & (HnC & HCP & HC) & (B1 & B2 & B3 & B4) & Hasc & Hlen).
  destruct (zero_groups H k d rows B old clock ratio0 threads full g0 total g query zq ratio Hd Hw Hm Ht Hlog Hmax HB E Ha Hq Wq Hql Hr) as [Hcov Hdist].
  set (q := ts_points query) in *. exists g', cs. split; [exact Ek|]. split; [|exact Hasc].
  split; [intros c Hc; destruct (B1 c Hc) as [X Y]; split; [apply HCP; exact X|exact Y]|].
  split; [exact B2|]. split; [left; exact Hlen|].
  intros p v c Hp Hno Ev Hc.
  assert (Hdec : In p C \/ ~ In p C) by (apply Classical_Prop.classic). destruct Hdec as [HpC|HpC]; [exact (B4 p v c HpC Hno Ev Hc)|].
  destruct HC as [[_ HC]|[_ (inner & far & outer & part & G1 & G2 & G3 & G4 & G5 & G6 & G7)]]; [elim HpC; apply HC; exact Hp|].
  destruct far as [lf vf]. cbn [fst snd] in *.
  assert (Hf : searched (N := B64) d full ratio (ts_length query) lf /\ group_in (N := B64) g lf vf) by (apply G1; apply in_or_app; right; left; reflexivity).
  destruct Hf as [Hsf Hgf].
  (* the distance of [far] *)
  destruct part as [|p0 part]; [contradiction|].
  assert (Hp0 : In p0 (group_places (lf, vf))) by (apply G6; left; reflexivity).
  apply in_map_iff in Hp0 as (m0 & _ & Hm0). cbn [snd] in Hm0.
  destruct (Hdist lf vf m0 Hsf Hgf Hm0) as (_ & xf & _ & Xf & _ & Ff & _).
  assert (Hfar : forall p v, In p (group_places (lf, vf)) -> dtw_of (N := B64) k ratio q (place_values rows p) = Ret v -> is_finite (v : b64) = true /\ B2R (v : b64) = B2R xf).
  { intros p1 v1 Hp1 Ev1. apply in_map_iff in Hp1 as (m1 & <- & Hm1). cbn [fst snd] in *.
    destruct (Hdist lf vf m1 Hsf Hgf Hm1) as (y1 & y3 & Y1 & Y3 & F1 & F3 & EQ).
    pose proof (eq_trans (eq_sym Y1) Ev1) as X. injection X as <-. pose proof (eq_trans (eq_sym Y3) Xf) as X. injection X as <-. auto. }
  (* what was taken is not farther than [far] *)
  destruct (B1 c Hc) as [HcC Htm].
  assert (Hnear : is_finite (c_dist c : b64) = true /\ (B2R (c_dist c : b64) <= B2R xf)%R).
  { assert (Ec : dtw_of (N := B64) k ratio q (place_values rows (place_of c)) = Ret (c_dist c)) by (destruct Htm as (_ & T1 & T2); rewrite <- T1; exact T2).
    apply (Permutation.Permutation_in _ G4) in HcC. apply in_app_or in HcC as [HcC|HcC].
    - destruct (Hfar _ _ (G6 _ HcC) Ec) as [F EQ]. split; [exact F|lra].
    - apply in_flat_map in HcC as ([li vi] & Hi & Hci). apply in_map_iff in Hci as (mi & Epl & Hmi). cbn [fst snd] in *.
      assert (Hg : searched (N := B64) d full ratio (ts_length query) li /\ group_in (N := B64) g li vi) by (apply G1; apply in_or_app; left; exact Hi).
      destruct (Hdist li vi mi (proj1 Hg) (proj2 Hg) Hmi) as (y1 & y3 & Y1 & Y3 & F1 & F3 & EQ). rewrite Epl in Y1.
      pose proof (eq_trans (eq_sym Y1) Ec) as X. injection X as X. rewrite <- X. split; [exact F1|].
      pose proof (nle_reals _ _ F3 Ff (G2 li vi y3 xf Hi Y3 Xf)) as L. change (B2R y3 <= B2R xf)%R in L. lra. }
  (* what was left out is not nearer *)
  assert (Hout : is_finite (v : b64) = true /\ (B2R xf <= B2R (v : b64))%R).
  { destruct p as [l m]. destruct Hp as [Hl Hs]. cbn [fst snd] in *. destruct (Hcov l m Hl Hs) as (w & Hgw & Hmw).
    assert (Hin : In (l, w) (inner ++ (lf, vf) :: outer)) by (apply G1; auto).
    assert (Hpl : In (l, m) (group_places (l, w))) by (apply in_map_iff; exists m; auto).
    apply in_app_or in Hin as [Hin|[Hin|Hin]].
    - elim HpC. apply (Permutation.Permutation_in _ (Permutation.Permutation_sym G4)). apply in_or_app. right. apply in_flat_map. exists (l, w). auto.
    - injection Hin as -> ->. destruct (Hfar _ _ Hpl Ev) as [F EQ]. split; [exact F|lra].
    - destruct (Hdist l w m Hl Hgw Hmw) as (y1 & y3 & Y1 & Y3 & F1 & F3 & EQ). pose proof (eq_trans (eq_sym Y1) Ev) as X. injection X as X. rewrite <- X.
      split; [exact F1|]. pose proof (nle_reals _ _ Ff F3 (G3 l w xf y3 Hin Xf Y3)) as L. change (B2R xf <= B2R y3)%R in L. lra. }
  apply nleP_val. rewrite (val_finite _ (proj1 Hnear)), (val_finite _ (proj1 Hout)). change (B2R (c_dist c : b64) <= B2R (v : b64))%R. lra.
Qed.
Print Assumptions C59_k_whole_numbers.

(** the example of C82: five series of two points, of which two matches are asked for *)
Example C59_k_whole_example : exists g0 total,
  let q := zs [0; 0] in
  std_ok simple_alg /\ holds w_data w_rows /\ whole_data w_rows 100 /\ moderate_data w_rows /\ log_safe w_data (fun _ => false) /\
  ds_maxcol w_data <= 2 ^ 26 /\ 2 * ds_maxcol w_data * largest KManhattan 100 <= 2 ^ 46 /\
  groupAllLengths (N := B64) (fun _ => false) (b64_ofZ 1) (mkGS w_data None) (kind_name KManhattan) (b64_ofZ 0) 1 false = (g0, Ret total) /\
  moderate_query q /\ whole (ts_points q) [0; 0] 100 /\ ts_length q <= ds_maxcol w_data /\ moderate_ratio (b64_ofZ 1) /\
  let P := searched_place (N := B64) w_data w_rows false (b64_ofZ 1) (ts_length q) in
  no_near_ties (N := B64) w_rows KManhattan (b64_ofZ 1) (ts_points q) P /\ at_least P 2.
Proof.
  assert (Hlog : log_safe w_data (fun _ => false)) by (intros l Hl; left; reflexivity).
  destruct (C17_group_radius KManhattan w_data w_rows None (fun _ => false) (b64_ofZ 1) (b64_ofZ 0) 1 false w_holds eq_refl ltac:(cbn; lia) ltac:(lia) Hlog) as (g0 & total & E & _).
  destruct w_moderate as (M1 & M2 & M3).
  assert (Hz : forall l, Forall (fun z => Z.abs z <= 100) l -> whole (map b64_ofZ l) l 100).
  { intros l Hl. destruct (zs_whole l 100 ltac:(lia) Hl) as [_ W1 W2]. unfold zs in W1. rewrite (DtwPaths.ts_of_list_points (N := B64)) in W1. split; [exact W1|exact W2]. }
  exists g0, total. intros q. split; [apply simple_alg_ok|]. split; [exact w_holds|]. split.
  { intros row Hr. unfold w_rows in Hr. repeat (destruct Hr as [<-|Hr]; [eexists; apply Hz; repeat constructor; lia|]). destruct Hr. }
  split; [exact M1|]. split; [exact Hlog|]. split; [cbn; lia|]. split; [cbn; lia|]. split; [exact E|]. split; [exact M2|].
  split; [unfold q, zs; rewrite (DtwPaths.ts_of_list_points (N := B64)); apply (Hz [0; 0]); repeat constructor; lia|]. split; [cbn; lia|]. split; [exact M3|].
  intros P.
  assert (HP : forall p, P p -> long_enough w_rows p).
  { intros p [[Hl _] Hs]. split; [apply Hl|exact Hs]. }
  split; [intros p p' v v' Hp Hp'; apply w_ties; apply HP; assumption|].
  exists [(2, (0, 0)); (2, (1, 0))]. split; [repeat constructor; simpl; intuition congruence|]. split; [|simpl; lia].
  assert (Hs : searched (N := B64) w_data false (b64_ofZ 1) (ts_length q) 2).
  { split; [cbn; lia|]. exists 1. split; [vm_compute; reflexivity|cbn; lia]. }
  intros p [<-|[<-|[]]]; (split; [exact Hs|]); (eexists; split; [reflexivity|cbn; lia]).
Qed.
