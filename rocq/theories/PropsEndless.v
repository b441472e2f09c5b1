(** C85: grouping accepts any double as threshold.  What an infinite one, one that is not
    a number and a negative one do. *)
From Coq Require Import Permutation String Sorted.
From Flocq Require Import IEEE754.BinarySingleNaN.
From Verif Require Import Base Num NumLaws NumFacts NumB64 NumB64Laws LoopFacts TimeSeries Lemire Distance TSSet StdAlg Candidate Group GroupSpace
  DataSpec DataProofs GroupSpec DistSpec DistLink DtwPaths DtwPaths DtwProofs Metrics Pairwise AccPair Members GroupProofs GroupAll GroupDist GroupView
  PropsDistance PropsGroup EndlessSpec EndlessProofs.
Local Open Scope string_scope.
Local Open Scope Z_scope.
Local Open Scope list_scope.
Arguments Z.mul : simpl never.

(** half of an infinite threshold, or of one that is not a number, is exceeded by nothing *)
Lemma endless_half (thr : b64) : thr = pinf \/ thr = B754_nan -> forall x : D B64, nltb (n := B64) (ndiv (n := B64) thr (nofZ (n := B64) 2)) x = false.
Proof.
  intros H. assert (E : ndiv (n := B64) thr (nofZ (n := B64) 2) = pinf \/ ndiv (n := B64) thr (nofZ (n := B64) 2) = B754_nan).
  { destruct H as [-> | ->]; [left|right]; clear; vm_compute; reflexivity. }
  intros x. destruct E as [E|E].
  - refine (eq_trans (f_equal (fun y => nltb (n := B64) y x) E) _). apply (lw_inf_top (N := B64)).
  - refine (eq_trans (f_equal (fun y => nltb (n := B64) y x) E) _). clear. destruct x as [[]|[]| |[] ? ? ?]; reflexivity.
Qed.

Section B.
Variable d : dataset B64.
Variable rows : list (list (D B64)).
Hypothesis Hd : holds d rows.
Hypothesis Hmax : ds_maxcol d <= 2 ^ 30.

Lemma uncut_kind k (ratio : D B64) l c c' : 1 <= l <= ds_maxcol d -> is_sub rows l c -> is_sub rows l c' ->
  pwc d (fun _ a b dr mt => pairwiseDistance (metric_of k) a b dr mt) ratio l c c' (@ninf B64) = Ret (sub_dist rows k l c c').
Proof.
  intros Hl H1 H2. destruct (sub_ts d rows Hd l Hl c H1) as (t & Et & Ep & Ho & _ & _ & Hlen).
  destruct (sub_ts d rows Hd l Hl c' H2) as (t' & Et' & Ep' & Ho' & _ & _ & Hlen').
  unfold pwc. rewrite Et, Et'. cbn [bind].
  assert (E : pairwiseDistance (metric_of k) t t' (@ninf B64) [] = Ret (pw_full (metric_of k) t t', [])).
  { apply inv_inf; auto; try congruence; try lia. intros v. destruct k; unfold pw_exceeds; cbn [metric_of m_inv Euclidean Manhattan Chebyshev].
    - rewrite Z.max_id, inf_scaled by lia. apply (lw_inf_top (N := B64)).
    - apply (lw_inf_top (N := B64)).
    - apply (lw_inf_top (N := B64)). }
  rewrite E. cbn [bind]. unfold sub_dist. rewrite <- Ep, <- Ep'. rewrite pair_value_eq by (auto; congruence). reflexivity.
Qed.

Lemma first_all l c : 1 <= l <= ds_maxcol d ->
  first_sub rows l c <-> exists cs, all_subs d rows l = c :: cs.
Proof.
  intros Hl. destruct (all_subs_order d rows l Hd Hl) as [S I]. split.
  - intros [H1 H2]. apply I in H1. destruct (all_subs d rows l) as [|c0 cs] eqn:E; [destruct H1|].
    exists cs. f_equal. assert (X : is_sub rows l c0) by (apply I; left; reflexivity).
    destruct (H2 c0 X) as [|B]; [auto|]. destruct H1 as [|H1]; [auto|]. exfalso.
    inversion S as [|? ? _ F]. rewrite Forall_forall in F. specialize (F c H1). unfold before in *. lia.
  - intros [cs E]. split; [apply I; rewrite E; left; reflexivity|]. intros c' H. apply I in H. rewrite E in H, S.
    destruct H as [|H]; [auto|]. right. inversion S as [|? ? _ F]. rewrite Forall_forall in F. auto.
Qed.

Lemma fine_iff k l : 1 <= l <= ds_maxcol d ->
  fine d rows (fun l c c' => sub_dist rows k l c c') l <->
  (forall c0 c, first_sub rows l c0 -> is_sub rows l c -> c <> c0 -> measured k rows l c0 c).
Proof.
  intros Hl. unfold fine. rewrite Forall_forall. split.
  - intros H c0 c F S Ne. apply (all_subs_In d rows Hd l Hl) in S. specialize (H c S). unfold good in H.
    apply first_all in F as [cs E]; [|exact Hl]. rewrite E in H. destruct H; [contradiction|assumption].
  - intros H c S. apply (all_subs_In d rows Hd l Hl) in S. unfold good. destruct (all_subs d rows l) as [|c0 cs] eqn:E; [exact I|].
    assert (Dc : {c = c0} + {c <> c0}) by (decide equality; apply Z.eq_dec).
    destruct Dc as [|Ne]; [auto|]. right. apply H; auto. apply first_all; eauto.
Qed.
End B.

Lemma together_partitions {N : Num} (d : dataset N) (rows : list (list (D N))) l : holds d rows -> 1 <= l <= ds_maxcol d ->
  partitions rows l (map view_of (together (all_subs d rows l))).
Proof.
  intros Hd Hl. unfold partitions. rewrite members_view.
  assert (E : concat (together (all_subs d rows l)) = rev (all_subs d rows l)).
  { unfold together. destruct (all_subs d rows l); [reflexivity|]. cbn [concat]. apply app_nil_r. }
  rewrite E. splits.
  - apply NoDup_rev, all_subs_NoDup.
  - intros c. rewrite <- in_rev. apply (all_subs_In d rows Hd l Hl).
  - intros v Hv. apply in_map_iff in Hv as (ms & <- & Hms). simpl.
    assert (Hne : ms <> []).
    { unfold together in Hms. destruct (all_subs d rows l) as [|c cs]; [destruct Hms|]. destruct Hms as [<-|[]].
      intros X. apply (f_equal (@length _)) in X. rewrite rev_length in X. discriminate. }
    splits; auto.
Qed.

(** ** The threshold is infinite or not a number.  Grouping works exactly if, in every length
    that is grouped, the distance of the first subsequence from every other is a number below
    infinity; then each length has one group, whose representative is the first subsequence.
    Otherwise an uninitialised index is used. *)
Theorem C85_endless : forall (k : kind) (d : dataset B64) (rows : list (list (D B64))) old clock (ratio thr : b64) threads whole,
  holds d rows -> 1 <= ds_maxcol d <= 2 ^ 30 -> 1 <= threads -> log_safe d clock ->
  thr = pinf \/ thr = B754_nan ->
  ((forall l c0 c, grouped_length d whole l -> first_sub rows l c0 -> is_sub rows l c -> c <> c0 -> measured k rows l c0 c) ->
   exists g total,
    groupAllLengths (N := B64) clock ratio (mkGS d old) (kind_name k) thr threads whole = (g, Ret total) /\
    gt_data g = d /\ getTotalNumberOfGroups g = total /\
    total = fold_right Z.add 0 (map (groups_at g) (zseq 0 (Z.to_nat (ds_maxcol d + 1)))) /\
    (forall l, ~ grouped_length d whole l -> level_view g l = None) /\
    forall l, grouped_length d whole l -> exists vs, level_view g l = Some (Ret vs) /\ partitions rows l vs /\
      (forall v, In v vs -> first_sub rows l (v_rep v)) /\
      ((exists c, is_sub rows l c) -> Z.of_nat (length vs) = 1)) /\
  ((exists l c0 c, grouped_length d whole l /\ first_sub rows l c0 /\ is_sub rows l c /\ c <> c0 /\ ~ measured k rows l c0 c) ->
   snd (groupAllLengths (N := B64) clock ratio (mkGS d old) (kind_name k) thr threads whole) = UB Uninit).
Proof.
  intros k d rows old clock ratio thr threads whole Hd Hm Ht Hlog Hthr.
  destruct (groupable_pw (N := B64) (kind_name k) (kind_groupable k)) as (M & w & _ & Ew).
  destruct (group_endless d rows Hd (fun _ a b dr mt => pairwiseDistance (metric_of k) a b dr mt) ratio thr (endless_half thr Hthr)
    (fun l c c' => sub_dist rows k l c c') (fun l c c' => uncut_kind d rows Hd ltac:(lia) k ratio l c c') clock Hlog
    gg_new (kind_name k) w whole (kind_pw k) Ew ltac:(lia)) as [Hgood Hbad].
  assert (El : isLoaded d = true) by (destruct Hd as (buf & E0 & _); unfold isLoaded; rewrite E0; reflexivity).
  assert (Hmin : forall l, grouped_length d whole l <-> min_length d whole <= l <= ds_maxcol d).
  { intros l. unfold grouped_length, min_length. destruct whole; lia. }
  assert (Hml : 1 <= min_length d whole) by (unfold min_length; destruct whole; lia).
  unfold groupAllLengths. cbn [gt_data]. rewrite El. cbn [negb]. destruct (Z.leb_spec 1 threads); [|lia]. split.
  - intros Hf. destruct Hgood as (levels & total & E & H1 & H2 & H3 & H4).
    { intros l Hl. apply (fine_iff d rows Hd k l ltac:(lia)). intros c0 c. apply Hf, Hmin, Hl. }
    rewrite E. eexists _, total. split; [reflexivity|].
    assert (V : forall l L, 0 <= l -> nth_error levels (Z.to_nat l) = Some (Some L) -> level_one d rows l L ->
      level_view (mkGS d (Some (mkGG (kind_name k) levels (Some (fun _ a b dr mt => pairwiseDistance (metric_of k) a b dr mt)) (Some w) (Some thr) total whole))) l
        = Some (Ret (map view_of (together (all_subs d rows l))))).
    { intros l L Hl EL HL. eapply view_ok; eauto. }
    refine (conj eq_refl (conj eq_refl (conj _ (conj _ _)))).
    + replace (Z.to_nat (ds_maxcol d + 1)) with (length levels) by lia. rewrite H2.
      apply (total_sum _ (mkGG (kind_name k) levels (Some (fun (_ : D B64) a b dr mt => pairwiseDistance (metric_of k) a b dr mt)) (Some w) (Some thr) total whole)).
      * rewrite <- H2. reflexivity.
      * cbn [gg_levels]. intros l L EL.
        assert (Hl : Z.of_nat l <= ds_maxcol d) by (apply nth_error_Some_lt in EL; lia).
        destruct (Z_le_gt_dec (min_length d whole) (Z.of_nat l)) as [Hy|Hn].
        -- destruct (H4 (Z.of_nat l) ltac:(lia)) as (L' & EL' & HL). rewrite Nat2Z.id in EL'. rewrite EL' in EL. injection EL as <-.
           exists (map view_of (together (all_subs d rows (Z.of_nat l)))). split.
           ++ rewrite <- H2. apply (V _ L'); auto; [lia|]. rewrite Nat2Z.id. exact EL'.
           ++ rewrite map_length. destruct HL as [_ _ _ Hc _]. symmetry. eapply Forall2_length; eauto.
        -- rewrite <- (Nat2Z.id l) in EL. rewrite H3 in EL by lia. discriminate.
    + intros l Hl. unfold level_view. cbn [gt_groups gg_levels]. destruct (Z.ltb_spec l 0); auto.
      destruct (Z_le_gt_dec l (ds_maxcol d)) as [Hle|Hgt].
      * rewrite H3; auto. destruct (Z_le_gt_dec (min_length d whole) l); [|lia]. exfalso. apply Hl, Hmin. lia.
      * destruct (nth_error levels (Z.to_nat l)) eqn:En; auto. apply nth_error_Some_lt in En. lia.
    + intros l Hl. apply Hmin in Hl. destruct (H4 l Hl) as (L & EL & HL).
      exists (map view_of (together (all_subs d rows l))). split; [apply (V l L); auto; lia|]. split; [apply together_partitions; auto; lia|].
      split.
      * intros v Hv. apply in_map_iff in Hv as (ms & <- & Hms). cbn [view_of v_rep].
        apply (first_all d rows Hd l _ ltac:(lia)). unfold together in Hms. destruct (all_subs d rows l) as [|c cs]; [destruct Hms|].
        destruct Hms as [<-|[]]. rewrite rep_rev. eauto.
      * intros [c Hc]. apply (all_subs_In d rows Hd l ltac:(lia)) in Hc. rewrite map_length. unfold together.
        destruct (all_subs d rows l); [destruct Hc|reflexivity].
  - intros (l & c0 & c & G & F & S & Ne & Nm). apply Hmin in G. specialize (Hbad (ex_intro _ l (conj G
      (fun X => Nm (proj1 (fine_iff d rows Hd k l ltac:(lia)) X c0 c F S Ne))))).
    destruct (gg_group clock d ratio gg_new (kind_name k) thr whole) as [gs r]. cbn [snd] in Hbad |- *. rewrite Hbad. reflexivity.
Qed.
Print Assumptions C85_endless.

(** ** Half the threshold is negative: every subsequence of finite values is a group of its own. *)
Section Neg.
Context {N : Num} {LW : NumLaws N}.

Lemma full_pos k (a b : TS N) : ts_ok a -> ts_ok b -> ts_length a = ts_length b -> 1 <= ts_length a <= 2 ^ 30 ->
  Forall nfin (ts_points a) -> Forall nfin (ts_points b) -> nle n0 (pw_full (metric_of k) a b).
Proof.
  intros Ha Hb Hlen Hm Fa Fb. unfold pw_full.
  assert (G : forall x : D N, nle n0 x -> nle n0 (ndiv x (nofZ (ts_length a)))).
  { intros x Hx. apply (nle_trans _ (ndiv n0 (nofZ (ts_length a)))); [apply lw_div_0; lia|]. apply lw_div_mono; auto; [lia|]. apply nle_refl, n0_nn. }
  destruct k; cbn [metric_of m_norm Euclidean Manhattan Chebyshev]; rewrite ?Z.max_id.
  - apply (nle_trans _ (nsqrt n0)); [apply lw_sqrt_0|]. apply lw_sqrt_mono; [apply nle_refl, n0_nn|]. apply G.
    apply (diag_ok Euclidean Euclidean_nice a b Ha Hb Hlen Fa Fb). lia.
  - apply G. apply (diag_ok Manhattan Manhattan_nice a b Ha Hb Hlen Fa Fb). lia.
  - destruct (Z.to_nat (ts_length a)) as [|n] eqn:En; [lia|].
    rewrite diag_S, path_acc_snoc. rewrite Forall_forall in Fa, Fb.
    apply (ng_norm_pos _ Chebyshev_nice _ _ _ 1 1); [lia| | |].
    + apply (diag_ok Chebyshev Chebyshev_nice a b Ha Hb Hlen); try (rewrite Forall_forall; auto). lia.
    + apply Fa, pt_in; auto. lia.
    + apply Fb, pt_in; auto. lia.
Qed.

Lemma runs_alone (d : dataset N) rows pw (ratio thr : D N) l full cs gs :
  Q1 d rows pw ratio l full -> (forall c c', is_sub rows l c -> is_sub rows l c' -> nle n0 (full c c')) ->
  nltb (ndiv thr (nofZ 2)) n0 = true -> (forall c, In c cs -> is_sub rows l c) ->
  runs (gstep d rows pw ratio thr l full) cs gs -> gs = map (fun c => [c]) cs.
Proof.
  intros HQ Hp Hneg Hs HR. induction HR as [|cs gs c gs' HR IH Hst]; [reflexivity|].
  assert (IH' : gs = map (fun c => [c]) cs) by (apply IH; intros x Hx; apply Hs, in_or_app; auto). clear IH.
  destruct Hst as [[-> _]|(k & g & Ek & _ & H1 & _)].
  - rewrite map_app, IH'. reflexivity.
  - exfalso. subst gs. apply nth_error_In, in_map_iff in Ek as (c1 & <- & Hc1).
    specialize (H1 HQ). unfold rep in H1. cbn [last] in H1.
    assert (P : nle n0 (full c1 c)) by (apply Hp; apply Hs, in_or_app; [left; auto|right; left; auto]).
    pose proof (nle_trans _ _ _ P H1) as (_ & _ & X). rewrite X in Hneg. discriminate.
Qed.
End Neg.

Theorem C85_negative : forall (N : Num) (LW : NumLaws N) (k : kind) (d : dataset N) (rows : list (list (D N))) old clock (ratio thr : D N) threads whole,
  holds d rows -> Forall nfin (concat rows) -> 1 <= ds_maxcol d <= 2 ^ 30 -> 1 <= threads -> log_safe d clock ->
  nltb (ndiv thr (nofZ 2)) n0 = true ->
  exists g total,
    groupAllLengths clock ratio (mkGS d old) (kind_name k) thr threads whole = (g, Ret total) /\
    forall l, grouped_length d whole l -> exists vs, level_view g l = Some (Ret vs) /\ partitions rows l vs /\
      forall v, In v vs -> v_count v = 1.
Proof.
  intros N LW k d rows old clock ratio thr threads whole Hd Hfin Hm Ht Hlog Hneg.
  destruct (groupable_pw (N := N) (kind_name k) (kind_groupable k)) as (M & w & _ & Ew).
  assert (Hthr : nltb (ndiv thr (nofZ 2)) ninf = true).
  { apply (lw_trans _ n0); [exact Hneg|]. apply (lw_ofZ_fin 0). lia. }
  destruct (grouping_main d rows old clock ratio (kind_name k) (metric_of k) w thr threads whole
     (sub_dist rows k) Hd (kind_pw k) Ew Hthr ltac:(lia) Ht Hlog) as (levels & total & E & H1 & H2 & H3 & H4).
  eexists _, total. split; [exact E|]. intros l Hl. destruct (H4 l Hl) as (L & gs & EL & HL).
  assert (Hlr : 1 <= l <= ds_maxcol d) by (revert Hl; unfold grouped_length; destruct whole; lia).
  exists (map view_of gs). splits.
  - eapply view_ok; [exact EL|lia|apply HL].
  - eapply level_partitions; eauto.
  - destruct HL as [_ HR].
    assert (Eg : gs = map (fun c => [c]) (all_subs d rows l)).
    { eapply (runs_alone d rows _ ratio thr l); [apply Q1_kind; auto| |exact Hneg| |exact HR].
      - intros c c' S S'. destruct (sub_ts d rows Hd l Hlr c S) as (t & _ & Ep & Ho & _ & _ & Hlen).
        destruct (sub_ts d rows Hd l Hlr c' S') as (t' & _ & Ep' & Ho' & _ & _ & Hlen').
        unfold sub_dist. pose proof (sub_values_fin rows l c Hfin) as F1. pose proof (sub_values_fin rows l c' Hfin) as F2.
        rewrite <- Ep in *. rewrite <- Ep' in *. rewrite pair_value_eq by (auto; congruence).
        apply full_pos; auto; try congruence; lia.
      - intros c. apply (all_subs_In d rows Hd l Hlr). }
    intros v Hv. apply in_map_iff in Hv as (ms & <- & Hms). rewrite Eg in Hms. apply in_map_iff in Hms as (c & <- & _). reflexivity.
Qed.
Print Assumptions C85_negative.

(** ** Examples *)
Definition ex_nan : gset B64 * res Z :=
  groupAllLengths (N := B64) (fun _ => false) (b64_ofZ 1) (mkGS ex2_data None) "manhattan" B754_nan 1 false.
Definition ex_neg : gset B64 * res Z :=
  groupAllLengths (N := B64) (fun _ => false) (b64_ofZ 1) (mkGS ex2_data None) "manhattan" (b64_ofZ (-3)) 1 false.

Example C85_example :
  snd ex_nan = Ret 2 /\
  show (level_view (fst ex_nan) 2) = Some [((0, 0), 4, [(1, 1); (0, 1); (1, 0); (0, 0)])] /\
  show (level_view (fst ex_nan) 3) = Some [((0, 0), 2, [(1, 0); (0, 0)])] /\
  snd ex_neg = Ret 6 /\
  show (level_view (fst ex_neg) 3) = Some [((0, 0), 1, [(0, 0)]); ((1, 0), 1, [(1, 0)])].
Proof. splits; vm_compute; reflexivity. Qed.

(** the largest values differ by more than a double can hold *)
Definition far_buf : list (D B64) := map b64_ofZ [0; 2 ^ 1023; 0; - 2 ^ 1023].
Definition far_rows : list (list (D B64)) := [map b64_ofZ [0; 2 ^ 1023]; map b64_ofZ [0; - 2 ^ 1023]].
Definition far_data : dataset B64 := mkDS (N := B64) (Some far_buf) [] [2; 2] 2 2 "f"%string false.
Lemma far_holds : holds far_data far_rows.
Proof.
  exists far_buf. splits; try reflexivity; try (unfold int_max; simpl; lia).
  intros i row E. destruct i as [|[|i]]; [| |destruct i; discriminate]; injection E as <-; splits; try reflexivity;
    try (simpl; lia); intros j v Ej; repeat (destruct j as [|j]; [injection Ej as <-; reflexivity|]);
    destruct j; discriminate.
Qed.

(** grouping finite data with an infinite threshold, or one that is not a number, is not safe *)
Theorem C85_safe_refuted : exists (d : dataset B64) rows, holds d rows /\ Forall (nfin (N := B64)) (concat rows) /\
  forall (k : kind) (thr : b64), thr = pinf \/ thr = B754_nan ->
  snd (groupAllLengths (N := B64) (fun _ => false) (b64_ofZ 1) (mkGS d None) (kind_name k) thr 1 false) = UB Uninit.
Proof.
  exists far_data, far_rows. split; [apply far_holds|]. split.
  - repeat constructor; vm_compute; reflexivity.
  - intros k thr Hthr. apply (C85_endless k far_data far_rows None (fun _ => false) (b64_ofZ 1) thr 1 false); auto.
    + apply far_holds.
    + cbn. lia.
    + lia.
    + intros l _. auto.
    + assert (S1 : is_sub far_rows 2 (0, 0)) by (exists (map b64_ofZ [0; 2 ^ 1023]); split; [reflexivity|cbn; lia]).
      assert (S2 : is_sub far_rows 2 (1, 0)) by (exists (map b64_ofZ [0; - 2 ^ 1023]); split; [reflexivity|cbn; lia]).
      assert (F : forall c', is_sub far_rows 2 c' -> c' = (0, 0) \/ before (0, 0) c').
      { intros c' (row & Er & H1 & H2). apply row_of_Some in Er as [Hi Er].
        assert (Hn : (Z.to_nat (fst c') < 2)%nat) by (apply nth_error_Some_lt in Er; exact Er).
        assert (Hlr : length row = 2%nat).
        { destruct (Z.to_nat (fst c')) as [|[|n]]; [injection Er as <-; reflexivity|injection Er as <-; reflexivity|lia]. }
        rewrite Hlr in H2. destruct c' as [i s]. unfold before. cbn [fst snd] in *.
        assert (Hs0 : s = 0) by lia. subst s. assert (Hi2 : i = 0 \/ i = 1) by lia. destruct Hi2 as [-> | ->]; [left; reflexivity|right; lia]. }
      assert (M : ~ measured k far_rows 2 (0, 0) (1, 0)) by (unfold measured, nlt; destruct k; clear; vm_compute; discriminate).
      exists 2, (0, 0), (1, 0). refine (conj _ (conj (conj S1 F) (conj S2 (conj _ M)))); [cbn; lia|discriminate].
Qed.
Print Assumptions C85_safe_refuted.
