(** Property C59, continued: in doubles, for data of whole numbers, with similarity threshold 0 the groups
    lose nothing.  Specifications: SearchSpec.v, QuerySpec.v, and [whole] in PropsTurn.v. *)
From Coq Require Import String Reals Lra Lia.
From Flocq Require Import Core IEEE754.BinarySingleNaN.
From Verif Require Import Base Num NumB64 NumLaws NumFacts NumB64Laws NumXR NumXRLaws LoopFacts TimeSeries Distance
  DtwSpec DtwReal DtwPaths DtwResults DistSpec DistLink Pairwise TSSet DataProofs StdAlg HeapFacts Candidate Group GroupSpace DataSpec
  GroupView GroupSpec GroupDist SearchCases SearchSpec QuerySpec AccKinds AccPair PropsAccuracy PropsDistance PropsGroup PropsSearch PropsQuery PropsGuarantee PropsWhole PropsTurn Api ApiSpec ApiProofs PropsLoader PropsApi.
Local Open Scope Z_scope.
Local Open Scope list_scope.

(** every value of the data is a whole number of magnitude up to [B] *)
Definition whole_data (rows : list (list (D B64))) (B : Z) : Prop := forall row, In row rows -> exists zs, whole row zs B.

(** ** from here on proofs *)
Lemma Forall2_skipn {A C} (R : A -> C -> Prop) n : forall l l', Forall2 R l l' -> Forall2 R (skipn n l) (skipn n l').
Proof. induction n as [|n IH]; intros l l' HF; cbn [skipn]; auto. destruct HF; auto. Qed.
Lemma Forall2_firstn {A C} (R : A -> C -> Prop) n : forall l l', Forall2 R l l' -> Forall2 R (firstn n l) (firstn n l').
Proof. induction n as [|n IH]; intros l l' HF; cbn [firstn]; auto. destruct HF; auto. Qed.
Lemma Forall_skipn {A} (P : A -> Prop) n : forall l, Forall P l -> Forall P (skipn n l).
Proof. induction n as [|n IH]; intros l HF; cbn [skipn]; auto. destruct HF; auto. Qed.
Lemma Forall_firstn {A} (P : A -> Prop) n : forall l, Forall P l -> Forall P (firstn n l).
Proof. induction n as [|n IH]; intros l HF; cbn [firstn]; auto. destruct HF; auto. Qed.

Lemma whole_place rows B l m : whole_data rows B -> is_sub rows l m -> exists zs, whole (place_values rows (l, m)) zs B.
Proof.
  intros Hw (row & Hrow & _). pose proof (row_of_Some _ _ _ Hrow) as [_ Hn]. destruct (Hw row (nth_error_In _ _ Hn)) as (zs & W1 & W2).
  unfold place_values, sub_values. cbn [fst snd]. rewrite Hrow. unfold slice.
  eexists. split; [apply Forall2_firstn, Forall2_skipn; exact W1|]. apply Forall_firstn, Forall_skipn. exact W2.
Qed.
Lemma of_list_whole (xs : list (D B64)) zs B : whole xs zs B -> whole_series (ts_of_list (N := B64) xs) zs B.
Proof. intros W. apply (named_whole _ xs); [apply (DtwPaths.ts_of_list_ok (N := B64))|apply (DtwPaths.ts_of_list_points (N := B64))|exact W]. Qed.

Lemma whole_inj (xs : list (D B64)) zs zs' B : whole xs zs B -> whole xs zs' B -> zs = zs'.
Proof.
  intros [W _] [W' _]. revert zs' W'. induction W as [|x z xs zs [_ Hz] _ IH]; intros zs' W'; inversion W' as [|x' z' xs' zs1 [_ Hz'] W1]; subst; [reflexivity|].
  f_equal; [rewrite Hz in Hz'; apply eq_IZR; exact Hz'|apply IH; exact W1].
Qed.
Lemma join_zero k s c : 0 <= s -> 0 <= c -> join k s c = 0 -> s = 0 /\ c = 0.
Proof. destruct k; cbn [join]; lia. Qed.
Lemma gap_zero k x y : gap k x y = 0 -> x = y.
Proof. destruct k; cbn [gap]; [intros E; apply Z.mul_eq_0 in E|..]; lia. Qed.
Lemma zcost_zero k xs ys p : zcost k xs ys p = 0 -> forall c, In c p -> nth (Z.to_nat (fst c)) xs 0 = nth (Z.to_nat (snd c)) ys 0.
Proof.
  induction p as [|[i j] p IH] using rev_ind; intros E c Hc; [destruct Hc|].
  unfold zcost in E. rewrite fold_left_app in E. cbn [fold_left fst snd] in E. fold (zcost k xs ys p) in E.
  apply join_zero in E as [E1 E2]; [|apply zcost_pos|apply gap_pos].
  apply in_app_or in Hc as [Hc|[<-|[]]]; [apply IH; auto|]. cbn [fst snd]. apply (gap_zero k). exact E2.
Qed.
Lemma straight_zero k xs ys : length xs = length ys -> zcost k xs ys (straight (length xs)) = 0 -> xs = ys.
Proof.
  intros Hl E. apply (nth_ext _ _ 0 0 Hl). intros i Hi.
  pose proof (zcost_zero k xs ys _ E (Z.of_nat i, Z.of_nat i)) as X. cbn [fst snd] in X. rewrite !Nat2Z.id in X. apply X.
  unfold straight. apply in_map_iff. exists i. split; [reflexivity|]. apply in_seq. lia.
Qed.

Lemma rne_power e x : -1000 <= e <= 0 -> (bpow radix2 e <= x)%R -> (bpow radix2 e <= rne x)%R.
Proof.
  intros He Hx. rewrite <- (rne_fmt (bpow radix2 e)); [apply rne_mono; exact Hx|].
  apply generic_format_bpow. unfold FLT_exp, emax64, prec64. lia.
Qed.
Lemma paired_zero k s len : 0 <= s -> 1 <= len <= 2 ^ 30 -> (paired_value k s len <= 0)%R -> s = 0.
Proof.
  intros Hs Hlen H. destruct (Z.eq_dec s 0) as [|Hn]; [assumption|exfalso].
  assert (Q : (bpow radix2 (-30) <= IZR s / IZR len)%R).
  { assert (P : (0 < IZR len)%R) by (apply (IZR_lt 0); lia). apply Rle_trans with (1 / IZR len)%R.
    - unfold Rdiv. rewrite Rmult_1_l. change (bpow radix2 (-30)) with (/ IZR (2 ^ 30))%R. apply Rinv_le; [exact P|apply IZR_le; lia].
    - apply Rmult_le_compat_r; [left; apply Rinv_0_lt_compat; exact P|]. apply (IZR_le 1). lia. }
  pose proof (bpow_gt_0 radix2 (-30)) as P30. pose proof (bpow_gt_0 radix2 (-15)) as P15.
  assert (NP : forall e x, -1000 <= e <= 0 -> (bpow radix2 e <= x)%R -> (bpow radix2 e <= near x)%R) by (intros e x; rewrite near_rne; apply rne_power).
  destruct k; cbn [paired_value] in H.
  - assert (S1 : (bpow radix2 (-15) <= sqrt (near (IZR s / IZR len)))%R).
    { rewrite <- (sqrt_square (bpow radix2 (-15))) by lra. apply sqrt_le_1_alt. rewrite <- bpow_plus. apply NP; [lia|exact Q]. }
    pose proof (NP (-15) _ ltac:(lia) S1). lra.
  - pose proof (NP (-30) _ ltac:(lia) Q). lra.
  - apply (le_IZR s 0) in H. lia.
Qed.

(** two stretches with the same whole numbers have the same distance to a third, in either order *)
Lemma whole_same k (ratio : b64) r (q y y' : list (D B64)) zq zy B : whole q zq B -> whole y zy B -> whole y' zy B ->
  2 <= Z.of_nat (length zq) <= 2 ^ 30 -> 2 <= Z.of_nat (length zy) <= 2 ^ 30 ->
  (Z.of_nat (length zq) + Z.of_nat (length zy)) * largest k B <= 2 ^ 46 ->
  band (N := B64) ratio (Z.max (Z.of_nat (length zq)) (Z.of_nat (length zy))) = Ret r -> Z.abs (Z.of_nat (length zq) - Z.of_nat (length zy)) <= r ->
  exists d d' e' : b64, dtw_of (N := B64) k ratio q y = Ret d /\ dtw_of (N := B64) k ratio q y' = Ret d' /\ dtw_of (N := B64) k ratio y' q = Ret e' /\
    is_finite d = true /\ is_finite d' = true /\ is_finite e' = true /\ B2R d = B2R d' /\ B2R d = B2R e'.
Proof.
  intros Wq Wy Wy' Hq Hy Hl Hb Hr. apply of_list_whole in Wq, Wy, Wy'.
  pose proof (ws_length _ _ _ Wq) as Lq. pose proof (ws_length _ _ _ Wy) as Ly. pose proof (ws_length _ _ _ Wy') as Ly'.
  rewrite <- Lq, <- Ly in *.
  destruct (C69_warped_whole_numbers k _ _ _ _ B ratio r [] Wq Wy Hq Hy Hl Hb Hr) as (p & d & P1 & P2 & P3 & P4 & P5 & P6).
  rewrite Ly in *. rewrite <- Ly' in *.
  destruct (C69_warped_whole_numbers k _ _ _ _ B ratio r [] Wq Wy' Hq Hy Hl Hb Hr) as (p' & d' & P1' & P2' & P3' & P4' & P5' & P6').
  destruct (C69_symmetric k _ _ _ _ B ratio r [] [] Wq Wy' Hq Hy Hl Hb Hr) as (d2 & e' & E1 & E2 & E3).
  destruct (C69_warped_whole_numbers k _ _ _ _ B ratio r [] Wy' Wq Hy Hq) as (p'' & e2 & _ & _ & _ & E4 & E5 & _);
    [lia|rewrite Z.max_comm; exact Hb|lia|].
  rewrite P4' in E1. injection E1 as <-. rewrite E2 in E4. injection E4 as <-.
  rewrite Beqb_correct in E3 by assumption.
  assert (E3' : B2R d' = B2R e') by (revert E3; case Req_bool_spec; intros X Y; [exact X|discriminate Y]).
  assert (Ec : zcost k zq zy p = zcost k zq zy p') by (apply Z.le_antisymm; [apply P3|apply P3']; auto).
  exists d, d', e'. splits; auto; [|rewrite <- E3']; rewrite P6, P6', Ec; reflexivity.
Qed.

Theorem C59_whole_numbers : forall (H : std_alg) (k : kind) (d : dataset B64) (rows : list (list (D B64))) B
    old clock (ratio0 : D B64) threads full g0 total g (query : TS B64) zq (ratio : D B64),
  holds d rows -> whole_data rows B -> moderate_data rows -> 1 <= threads -> log_safe d clock -> ds_maxcol d <= 2 ^ 26 ->
  2 * ds_maxcol d * largest k B <= 2 ^ 46 ->
  groupAllLengths (N := B64) clock ratio0 (mkGS d old) (kind_name k) (b64_ofZ 0) threads full = (g0, Ret total) ->
  asked (N := B64) H g0 g ->
  moderate_query query -> whole (ts_points query) zq B -> ts_length query <= ds_maxcol d -> moderate_ratio ratio ->
  let P := searched_place (N := B64) d rows full ratio (ts_length query) in
  (exists p, P p) ->
  exists g' c, getBestMatch (N := B64) ratio g query = Ret (g', c) /\
    true_match (N := B64) rows k ratio (ts_points query) c /\
    forall p, P p -> exists v, dtw_of (N := B64) k ratio (ts_points query) (place_values rows p) = Ret v /\
      @nle B64 (c_dist c) v.
Proof.
  intros H k d rows B old clock ratio0 threads full g0 total g query zq ratio Hd Hw Hm Ht Hlog Hmax HB E Ha Hq Wq Hql Hr P Hex.
  assert (Hinf : nltb (n := B64) (ndiv (n := B64) (b64_ofZ 0) (nofZ 2)) ninf = true) by reflexivity.
  assert (Hq2 : 2 <= ts_length query) by apply Hq.
  destruct (C23_best_match_ieee H k d rows old clock ratio0 (b64_ofZ 0) threads full g0 total g query ratio Hd Hm Hinf Ht Hlog Hmax E Ha Hq Hql Hr Hex)
    as (g' & c & Eb & Htm & l0 & v0 & x0 & Hl0 & Hv0 & Hx0 & Elc & _ & Hclo & Hbest).
  destruct (C17_group_radius k d rows old clock ratio0 (b64_ofZ 0) threads full Hd Hinf ltac:(lia) Ht Hlog) as (g1 & total1 & E1 & Hrad).
  rewrite E in E1. injection E1 as <- _.
  exists g', c. split; [exact Eb|]. split; [exact Htm|].
  set (q := ts_points query) in *.
  assert (Lq : Z.of_nat (length zq) = ts_length query).
  { rewrite <- (Forall2_len _ _ _ (proj1 Wq)). apply (DtwPaths.ts_points_length (N := B64)), Hq. }
  assert (B0 : 0 <= B).
  { destruct Wq as [_ W]. destruct zq as [|z zq]; [cbn in Lq; lia|]. inversion W; subst. lia. }
  assert (HL : 0 <= largest k B) by (destruct k; cbn [largest]; [apply Z.mul_nonneg_nonneg|..]; lia).
  assert (Hviews : forall l, grouped_length d full l -> exists vs, level_view g l = Some (Ret vs) /\ partitions rows l vs /\
      forall v c, In v vs -> In c (v_members v) -> c <> v_rep v ->
        @nle B64 (pair_value k (sub_values rows l (v_rep v)) (sub_values rows l c)) (ndiv (n := B64) (b64_ofZ 0) (nofZ 2))).
  { intros l Hl. destruct (Hrad l Hl) as (vs & V1 & V2 & V3). exists vs. split; [|split; auto]. rewrite <- V1.
    apply (asked_views (N := B64) d rows H old clock ratio0 k (b64_ofZ 0) threads full g0 total g); auto; lia. }
  assert (Hgl : forall l, grouped_length d full l -> 2 <= l <= ds_maxcol d).
  { intros l Hl. revert Hl. unfold grouped_length. destruct full; lia. }
  assert (Hrep : forall l vs v, partitions (N := B64) rows l vs -> In v vs -> In (v_rep v) (v_members v)).
  { intros l vs v (_ & _ & PP) Hin. destruct (PP v Hin) as (P1 & _ & P2). rewrite P2.
    destruct (exists_last P1) as (i & a & ->). rewrite last_last. apply in_or_app. right. left. reflexivity. }
  assert (Hmem : forall l vs v m, partitions (N := B64) rows l vs -> In v vs -> In m (v_members v) -> is_sub rows l m).
  { intros l vs v m (_ & PP & _) Hin Hm'. apply PP. apply in_concat. exists (v_members v). split; auto. apply in_map. auto. }
  assert (Hplace : forall l m, 2 <= l -> is_sub rows l m -> exists zs, whole (place_values rows (l, m)) zs B /\ Z.of_nat (length zs) = l).
  { intros l m Hl Hs. destruct (whole_place rows B l m Hw Hs) as (zs & W). exists zs. split; [exact W|].
    rewrite <- (Forall2_len _ _ _ (proj1 W)). apply (place_len (N := B64) rows (l, m)); [cbn; lia|exact Hs]. }
  (* distances of the query to a place and of another place with the same numbers to the query *)
  assert (Hval : forall l m m' zs, searched (N := B64) d full ratio (ts_length query) l -> is_sub rows l m -> is_sub rows l m' ->
     whole (place_values rows (l, m)) zs B -> whole (place_values rows (l, m')) zs B ->
     exists d1 d2 e2 : b64, dtw_of (N := B64) k ratio q (place_values rows (l, m)) = Ret d1 /\
       dtw_of (N := B64) k ratio q (place_values rows (l, m')) = Ret d2 /\ dtw_of (N := B64) k ratio (place_values rows (l, m')) q = Ret e2 /\
       is_finite d1 = true /\ is_finite d2 = true /\ is_finite e2 = true /\ B2R d1 = B2R d2 /\ B2R d1 = B2R e2).
  { intros l m m' zs (Hl & r & Er & Hab) Hs Hs' W W'. pose proof (Hgl l Hl) as Hl2.
    assert (Ls : Z.of_nat (length zs) = l) by (rewrite <- (Forall2_len _ _ _ (proj1 W)); apply (place_len (N := B64) rows (l, m)); [cbn; lia|exact Hs]).
    apply (whole_same k ratio r q _ _ zq zs B); auto; rewrite ?Lq, ?Ls; try lia.
    - assert ((ts_length query + l) * largest k B <= 2 * ds_maxcol d * largest k B); [apply Z.mul_le_mono_nonneg_r; lia|lia].
    - rewrite Z.max_comm. exact Er. }
  (* the closest representative and the answer *)
  pose proof (proj1 Hl0) as Hg0. destruct (Hviews l0 Hg0) as (vs0 & V1 & V2 & _).
  destruct Hv0 as (vs0' & V1' & Hin0). rewrite V1 in V1'. injection V1' as <-.
  pose proof (Hrep l0 vs0 v0 V2 Hin0) as Hr0. pose proof (Hmem l0 vs0 v0 _ V2 Hin0 Hr0) as Hs0.
  destruct (Hplace l0 (v_rep v0) ltac:(apply Hgl; exact Hg0) Hs0) as (z0 & W0 & _).
  destruct (Hval l0 _ _ z0 Hl0 Hs0 Hs0 W0 W0) as (w1 & w1' & w2 & A1 & A1' & A2 & F1 & _ & F2 & _ & Q12).
  pose proof (Hbest _ _ Hr0 A1) as Hle0. unfold group_dist in Hx0. pose proof (eq_trans (eq_sym A2) Hx0) as Hx1. injection Hx1 as <-.
  (* any other place *)
  intros [l m] [Hl Hsm]. cbn [fst snd] in *. pose proof (proj1 Hl) as Hg. pose proof (Hgl l Hg) as Hl2. destruct (Hviews l Hg) as (vs & U1 & U2 & U3).
  assert (exists w, In w vs /\ In m (v_members w)) as (w & Hw' & Hmw).
  { destruct U2 as (_ & PP & _). apply (PP m) in Hsm. apply in_concat in Hsm as (ms & M1 & M2). apply in_map_iff in M1 as (w & <- & M3). eauto. }
  pose proof (Hrep l vs w U2 Hw') as Hrw. pose proof (Hmem l vs w _ U2 Hw' Hrw) as Hsw.
  destruct (Hplace l m ltac:(lia) Hsm) as (zm & Wm & Lm). destruct (Hplace l (v_rep w) ltac:(lia) Hsw) as (zr & Wr & Lr).
  assert (Hsame : zr = zm).
  { assert (Hdec : m = v_rep w \/ m <> v_rep w) by apply pair_dec. destruct Hdec as [Em|Nm].
    - rewrite <- Em in Wr. exact (whole_inj _ _ _ _ Wr Wm).
    - pose proof (U3 w m Hw' Hmw Nm) as Hp.
      pose proof (of_list_whole _ _ _ Wr) as Sr. pose proof (of_list_whole _ _ _ Wm) as Sm.
      pose proof (ws_length _ _ _ Sr) as Lr'. pose proof (ws_length _ _ _ Sm) as Lm'. rewrite Lr in Lr'. rewrite Lm in Lm'.
      assert (Hlim : l * largest k B <= 2 ^ 46).
      { assert (l * largest k B <= 2 * ds_maxcol d * largest k B); [apply Z.mul_le_mono_nonneg_r; lia|lia]. }
      assert (EL : ts_length (ts_of_list (N := B64) (place_values rows (l, v_rep w))) = ts_length (ts_of_list (N := B64) (place_values rows (l, m)))) by exact (eq_trans Lr' (eq_sym Lm')).
      assert (Hll : 1 <= l <= 2 ^ 30) by lia.
      assert (EB : 1 <= ts_length (ts_of_list (N := B64) (place_values rows (l, v_rep w))) <= 2 ^ 30) by exact (eq_ind_r (fun z => 1 <= z <= 2 ^ 30) Hll Lr').
      destruct (C69_paired_whole_numbers k _ _ zr zm B [] Sr Sm EB EL (eq_ind_r (fun z => z * largest k B <= 2 ^ 46) Hlim Lr')) as (dp & D1 & D2 & D3).
      rewrite (pair_uncut (ts_of_list (N := B64) (place_values rows (l, v_rep w))) (ts_of_list (N := B64) (place_values rows (l, m)))
        (ws_ok _ _ _ Sr) (ws_ok _ _ _ Sm) EL EB) in D1.
      injection D1 as D1.
      pose proof (pair_value_eq (N := B64) k _ _ (ws_ok _ _ _ Sr) (ws_ok _ _ _ Sm) EL) as Epv.
      rewrite !(points_of_list (N := B64)) in Epv.
      assert (Hp' : @nle B64 dp (b64_ofZ 0)) by exact (eq_ind _ (fun z => @nle B64 z (ndiv (n := B64) (b64_ofZ 0) (nofZ 2))) Hp _ (eq_trans Epv D1)).
      pose proof (nle_reals _ (b64_ofZ 0) D2 eq_refl Hp') as Hp2. change (B2R dp <= 0)%R in Hp2. rewrite D3 in Hp2.
      apply paired_zero in Hp2; [|apply zcost_pos|lia]. apply (straight_zero k) in Hp2; [exact Hp2|lia]. }
  subst zr.
  destruct (Hval l m (v_rep w) zm Hl Hsm Hsw Wm Wr) as (y1 & y2 & y3 & Y1 & Y2 & Y3 & G1 & G2 & G3 & Q1 & Q3).
  exists y1. split; [exact Y1|].
  assert (Hc : @nle B64 w2 y3) by (apply (Hclo l w y3); [exact Hl|exists vs; auto|exact Y3]).
  eapply (nle_trans (N := B64)); [exact Hle0|].
  apply (nle_reals _ _ F2 G3) in Hc. change (B2R w2 <= B2R y3)%R in Hc.
  apply nleP_val. rewrite (val_finite _ F1), (val_finite _ G1). change (B2R w1 <= B2R y1)%R. lra.
Qed.
Print Assumptions C59_whole_numbers.

(** three series, 1 2, 3 4 and 5 6, and the query 3 5 *)
Example C59_whole_example : exists d g0 total,
  let q := zs [3; 5] in
  holds d ex_rows /\ whole_data ex_rows 6 /\ moderate_data ex_rows /\ log_safe d (fun _ => false) /\ ds_maxcol d <= 2 ^ 26 /\
  2 * ds_maxcol d * largest KEuclidean 6 <= 2 ^ 46 /\
  groupAllLengths (N := B64) (fun _ => false) (b64_ofZ 1) (mkGS d None) (kind_name KEuclidean) (b64_ofZ 0) 2 false = (g0, Ret total) /\
  moderate_query q /\ whole (ts_points q) [3; 5] 6 /\ ts_length q <= ds_maxcol d /\ moderate_ratio (b64_ofZ 1) /\
  exists p, searched_place (N := B64) d ex_rows false (b64_ofZ 1) (ts_length q) p.
Proof.
  destruct ex_held as (d & Hh & Hd & Hm & Hc).
  assert (Hlog : log_safe d (fun _ => false)) by (intros l Hl; left; reflexivity).
  destruct (C17_group_radius KEuclidean d ex_rows None (fun _ => false) (b64_ofZ 1) (b64_ofZ 0) 2 false Hd eq_refl ltac:(lia) ltac:(lia) Hlog) as (g0 & total & E & _).
  assert (Hz : forall l, Forall (fun z => Z.abs z <= 6) l -> whole (map b64_ofZ l) l 6).
  { intros l Hl. destruct (zs_whole l 6 ltac:(lia) Hl) as [_ W1 W2]. unfold zs in W1. rewrite (DtwPaths.ts_of_list_points (N := B64)) in W1. split; [exact W1|exact W2]. }
  exists d, g0, total. intros q. split; [exact Hd|]. split.
  { intros row [<-|[<-|[<-|[]]]]; [exists [1; 2]|exists [3; 4]|exists [5; 6]]; apply Hz; repeat constructor; lia. }
  split; [intros row [<-|[<-|[<-|[]]]]; (split; [|vm_compute; discriminate]); apply leb64_all; vm_compute; reflexivity|].
  split; [exact Hlog|]. split; [lia|]. split; [rewrite Hm; cbn; lia|]. split; [exact E|]. split.
  { split; [apply (DtwPaths.ts_of_list_ok (N := B64))|]. split; [apply leb64_all; vm_compute; reflexivity|cbn; lia]. }
  split; [unfold q, zs; rewrite (DtwPaths.ts_of_list_points (N := B64)); apply Hz; repeat constructor; lia|]. split; [rewrite Hm; cbn; lia|].
  split; [split; (split; [|split]); vm_compute; reflexivity|].
  exists (2, (1, 0)). split; [split; [cbn; lia|]|eexists; split; [reflexivity|cbn; lia]].
  exists 1. split; [vm_compute; reflexivity|cbn; lia].
Qed.
