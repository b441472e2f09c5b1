(** The Kim, Keogh and cross-Keogh values never exceed the cost of an in-band
    warping path; the cascade returns what the warped distance returns. *)
From Verif Require Import Base Num NumLaws NumFacts TimeSeries Lemire Distance DtwSpec DtwPaths LoopFacts
  DtwProofs Metrics DtwMain DtwResults LemireProofs.

Section LB.
Context {N : Num} {L : NumLaws N}.
Notation D := (D N).

Lemma pos_le_acc (x : D) : nle n0 x -> nn x. Proof. apply nle_nn_r. Qed.

(** squared distance to the envelope *)
Lemma euc_above (x u y : D) : nfin x -> nfin u -> nfin y -> nlt u x -> nle y u -> nle (euc_dist x u) (euc_dist y x).
Proof.
  intros Fx Fu Fy Hux Hyu. rewrite (euc_dist_sym y x) by auto. unfold euc_dist.
  assert (H0 : nle n0 (nsub x u)).
  { apply (nle_trans _ (nsub u u)); [apply lw_sub_self; auto|]. apply lw_sub_mono; auto.
    - apply nlt_le; auto. - apply nle_refl, nfin_nn; auto. }
  assert (H1 : nle (nsub x u) (nsub x y)).
  { apply lw_sub_mono; auto. apply nle_refl, nfin_nn; auto. }
  apply lw_sq_mono; [apply lw_sub_nn; auto..|].
  apply (nle_trans _ (nsub x u)); [apply lw_abs_pos; auto|].
  apply (nle_trans _ (nsub x y)); auto. apply lw_abs_pos. apply (nle_trans _ _ _ H0 H1).
Qed.

Lemma euc_below (x l y : D) : nfin x -> nfin l -> nfin y -> nlt x l -> nle l y -> nle (euc_dist x l) (euc_dist y x).
Proof.
  intros Fx Fl Fy Hxl Hly. rewrite (euc_dist_sym y x) by auto. unfold euc_dist.
  assert (H0 : nle (nsub x l) n0).
  { apply (nle_trans _ (nsub l l)); [|apply lw_sub_self; auto]. apply lw_sub_mono; auto.
    - apply nlt_le; auto. - apply nle_refl, nfin_nn; auto. }
  assert (H1 : nle (nsub x y) (nsub x l)).
  { apply lw_sub_mono; auto. apply nle_refl, nfin_nn; auto. }
  apply lw_sq_mono; [apply lw_sub_nn; auto..|]. apply lw_abs_neg_mono; auto.
Qed.

Lemma norm_le (l1 l2 : Z) (u v : D) : 1 <= Z.max l1 l2 <= 2 ^ 30 -> nle n0 u -> nle u v ->
  nle (m_normDTW Euclidean u l1 l2) (m_normDTW Euclidean v l1 l2).
Proof.
  intros Hl Hu Huv. apply (ng_norm_mono _ Euclidean_nice); auto. simpl. apply (nle_trans _ _ _ Hu Huv).
Qed.

(** Hypotheses shared by the lower-bound theorems *)
Record lb_pre (a b : TS N) (ratio : D) (r : Z) : Prop := {
  lp_a : ts_ok a; lp_b : ts_ok b;
  lp_m : 1 <= ts_length a <= 2 ^ 30;
  lp_n : 1 <= ts_length b <= 2 ^ 30;
  lp_fa : Forall nfin (ts_points a);
  lp_fb : Forall nfin (ts_points b);
  lp_band : band ratio (Z.max (ts_length a) (ts_length b)) = Ret r;
  lp_r : 0 <= r
}.

Lemma lb_pre_sym a b ratio r : lb_pre a b ratio r -> lb_pre b a ratio r.
Proof. intros []. constructor; auto. rewrite Z.max_comm. auto. Qed.

Lemma dtw_lb_pre (M : Metric N) a b ratio r : dtw_pre M a b ratio r -> lb_pre a b ratio r.
Proof. intros []. constructor; auto; lia. Qed.

Section Pair.
Variables a b : TS N.
Variables (ratio : D) (r : Z).
Hypothesis H : lb_pre a b ratio r.
Notation m := (ts_length a).
Notation n := (ts_length b).

Ltac pre :=
  pose proof (lp_a _ _ _ _ H) as Ha; pose proof (lp_b _ _ _ _ H) as Hb;
  pose proof (lp_m _ _ _ _ H) as Hm; pose proof (lp_n _ _ _ _ H) as Hn;
  pose proof (lp_fa _ _ _ _ H) as Fa; pose proof (lp_fb _ _ _ _ H) as Fb;
  pose proof (lp_band _ _ _ _ H) as Hband; pose proof (lp_r _ _ _ _ H) as Hr.

Lemma Pa i : 0 <= i < m -> nfin (pt a i).
Proof. pre. intros Hi. rewrite Forall_forall in Fa. apply Fa, pt_in; auto. Qed.
Lemma Pb i : 0 <= i < n -> nfin (pt b i).
Proof. pre. intros Hi. rewrite Forall_forall in Fb. apply Fb, pt_in; auto. Qed.
Lemma Ed i j : 0 <= i < m -> 0 <= j < n -> nle n0 (euc_dist (pt a i) (pt b j)).
Proof. intros; apply euc_dist_pos; [apply Pa|apply Pb]; auto. Qed.

Lemma acc_pos i j p : bpath r i j p -> i < m -> j < n -> nle n0 (path_acc Euclidean a b p).
Proof.
  pre. intros Hp Hi Hj. induction Hp as [|i j i' j' p Hp IH Hw Habs].
  - apply nadd_pos; [apply nle_refl, n0_nn|]. apply (Ed 0 0); lia.
  - rewrite path_acc_snoc. pose proof (wstep_cases _ _ _ _ Hw). pose proof (bpath_nonneg _ _ _ _ Hp).
    apply nadd_pos; [apply IH; lia|apply Ed; lia].
Qed.

Lemma path_bp p : warping_path m n p -> in_band r p -> bpath r (m - 1) (n - 1) p.
Proof.
  intros. apply path_bpath; auto. replace (m - 1 + 1) with m by lia. replace (n - 1 + 1) with n by lia. auto.
Qed.

(** Kim *)
Lemma first_le i j p : bpath r i j p -> i < m -> j < n ->
  nle (euc_dist (pt a 0) (pt b 0)) (path_acc Euclidean a b p).
Proof.
  pre. intros Hp Hi Hj. induction Hp as [|i j i' j' p Hp IH Hw Habs].
  - apply lw_add_r; [apply nle_refl, n0_nn|apply (Ed 0 0); lia].
  - rewrite path_acc_snoc. pose proof (wstep_cases _ _ _ _ Hw). pose proof (bpath_nonneg _ _ _ _ Hp).
    apply (nle_trans _ (path_acc Euclidean a b p)); [apply IH; lia|].
    apply lw_add_l; [apply (acc_pos i j); auto; lia|apply Ed; lia].
Qed.

Lemma kim_ok : exists lb, kimLowerBound a b = Ret lb /\ nn lb /\
  forall p, warping_path m n p -> in_band r p -> nle lb (path_cost Euclidean a b p).
Proof.
  pre. unfold kimLowerBound, euc_normDTW, path_cost.
  destruct (Z.eqb_spec (Z.min m n) 1) as [E1|E1].
  - rewrite !ts_get_pt by (auto; lia). cbn [bind]. eexists. split; [reflexivity|]. split.
    { eapply nle_nn_r. apply norm_le; [lia|apply (Ed 0 0); lia|apply nle_refl, pos_le_acc, Ed; lia]. }
    intros p Hp Hband'. apply norm_le; [lia|apply Ed; lia|]. apply (first_le (m - 1) (n - 1)); try lia. apply path_bp; auto.
  - destruct (Z.gtb_spec (Z.min m n) 1) as [E2|E2]; [|lia].
    rewrite !ts_get_pt by (auto; lia). cbn [bind]. eexists. split; [reflexivity|]. split.
    { eapply nle_nn_r. apply norm_le; [lia|apply nadd_pos; [apply (Ed 0 0)|apply (Ed (m - 1) (n - 1))]; lia|].
      apply nle_refl, pos_le_acc, nadd_pos; apply Ed; lia. }
    intros p Hp Hband'. apply norm_le; [lia|apply nadd_pos; apply Ed; lia|].
    pose proof (path_bp p Hp Hband') as Hbp. clear Hp Hband'.
    inversion Hbp as [E|i j i' j' q Hq Hw Habs E3 E4 E5]; [lia|]. subst.
    pose proof (wstep_cases _ _ _ _ Hw). pose proof (bpath_nonneg _ _ _ _ Hq).
    rewrite path_acc_snoc. apply lw_add_mono; try (apply Ed; lia).
    + apply (first_le i j); auto; lia.
    + apply nle_refl, pos_le_acc, Ed; lia.
Qed.

(** Keogh *)
Section Env.
Variables lo up : Z -> D.
Variable len : Z.
Hypothesis Hlen : len <= n.
Hypothesis Hlo : forall j, 0 <= j < len -> nfin (lo j).
Hypothesis Hup : forall j, 0 <= j < len -> nfin (up j).
Hypothesis Env : forall i j, 0 <= i < m -> 0 <= j < len -> Z.abs (i - j) <= r ->
  nle (lo j) (pt a i) /\ nle (pt a i) (up j).

Definition kst (j : Z) (lb : D) : D :=
  let x := pt b j in
  if nltb (up j) x then nadd lb (euc_dist x (up j))
  else if nltb x (lo j) then nadd lb (euc_dist x (lo j)) else lb.

Fixpoint ksum (k : nat) : D :=
  match k with O => n0 | S k' => kst (Z.of_nat k') (ksum k') end.

Lemma ksum_step k : 0 <= k -> ksum (Z.to_nat (k + 1)) = kst k (ksum (Z.to_nat k)).
Proof.
  intros Hk. replace (Z.to_nat (k + 1)) with (S (Z.to_nat k)) by lia. simpl ksum.
  replace (Z.of_nat (Z.to_nat k)) with k by lia. reflexivity.
Qed.

Lemma kst_ge j v : 0 <= j < len -> nle n0 v -> nle v (kst j v).
Proof.
  pre. intros Hj Hv. unfold kst.
  destruct (nltb (up j) (pt b j)); [|destruct (nltb (pt b j) (lo j))].
  - apply lw_add_l; auto. apply euc_dist_pos; [apply Pb; lia|auto].
  - apply lw_add_l; auto. apply euc_dist_pos; [apply Pb; lia|auto].
  - apply nle_refl, (nle_nn_r _ _ Hv).
Qed.

Lemma ksum_pos k : (Z.of_nat k <= len) -> nle n0 (ksum k).
Proof.
  induction k as [|k IH]; intros Hk; [apply nle_refl, n0_nn|].
  simpl. apply (nle_trans _ (ksum k)); [apply IH; lia|]. apply kst_ge; [lia|]. apply IH; lia.
Qed.

Lemma ksum_mono k k' : (k <= k')%nat -> Z.of_nat k' <= len -> nle (ksum k) (ksum k').
Proof.
  induction k' as [|k' IH]; intros H1 H2.
  - replace k with O by lia. apply nle_refl, n0_nn.
  - destruct (Nat.eq_dec k (S k')) as [->|Hne].
    + apply nle_refl, (nle_nn_r n0), ksum_pos; lia.
    + apply (nle_trans _ (ksum k')); [apply IH; lia|]. apply kst_ge; [lia|]. apply ksum_pos; lia.
Qed.

Lemma kst_le i j u v : 0 <= i < m -> 0 <= j < len -> Z.abs (i - j) <= r -> nle n0 u -> nle u v ->
  nle (kst j u) (nadd v (euc_dist (pt a i) (pt b j))).
Proof.
  pre. intros Hi Hj Hij Hu Huv. destruct (Env i j Hi Hj Hij) as [E1 E2].
  assert (Hv : nle n0 v) by (apply (nle_trans _ _ _ Hu Huv)).
  unfold kst. destruct (nltb (up j) (pt b j)) eqn:C1; [|destruct (nltb (pt b j) (lo j)) eqn:C2].
  - apply lw_add_mono; auto.
    + apply euc_dist_pos; [apply Pb; lia|auto].
    + apply euc_above; auto; [apply Pb; lia|apply Pa; lia].
  - apply lw_add_mono; auto.
    + apply euc_dist_pos; [apply Pb; lia|auto].
    + apply euc_below; auto; [apply Pb; lia|apply Pa; lia].
  - apply (nle_trans _ _ _ Huv). apply lw_add_l; auto. apply Ed; lia.
Qed.

Lemma keogh_path i j p : 1 <= len -> bpath r i j p -> i < m -> j < n ->
  nle (ksum (Z.to_nat (Z.min (j + 1) len))) (path_acc Euclidean a b p).
Proof.
  pre. intros Hl Hp Hi Hj. induction Hp as [|i j i' j' p Hp IH Hw Habs].
  - replace (Z.to_nat (Z.min (0 + 1) len)) with 1%nat by lia. simpl ksum.
    apply (kst_le 0 0 n0 n0); try lia; apply nle_refl, n0_nn.
  - rewrite path_acc_snoc. pose proof (wstep_cases _ _ _ _ Hw) as Hc. pose proof (bpath_nonneg _ _ _ _ Hp).
    specialize (IH ltac:(lia) ltac:(lia)).
    assert (Hpos : nle n0 (path_acc Euclidean a b p)) by (apply (acc_pos i j); auto; lia).
    assert (Hge : nle (path_acc Euclidean a b p) (nadd (path_acc Euclidean a b p) (euc_dist (pt a i') (pt b j')))).
    { apply lw_add_l; auto. apply Ed; lia. }
    destruct (Z.eq_dec j' j) as [->|Hne]; [apply (nle_trans _ _ _ IH Hge)|].
    assert (j' = j + 1) as -> by lia.
    destruct (Z.le_gt_cases len (j + 1)) as [Hlj|Hlj].
    + replace (Z.min (j + 1 + 1) len) with (Z.min (j + 1) len) by lia. apply (nle_trans _ _ _ IH Hge).
    + replace (Z.to_nat (Z.min (j + 1 + 1) len)) with (S (Z.to_nat (Z.min (j + 1) len))) by lia. simpl ksum.
      replace (Z.of_nat (Z.to_nat (Z.min (j + 1) len))) with (j + 1) by lia.
      apply kst_le; try lia; auto. apply ksum_pos. lia.
Qed.
End Env.

Lemma keogh_ok dropout : exists lb, keoghLowerBound ratio a b dropout = Ret lb /\ nn lb /\
  forall p, warping_path m n p -> in_band r p -> nle lb (path_cost Euclidean a b p).
Proof.
  pre. unfold keoghLowerBound. rewrite Hband. cbn [bind]. unfold keoghLU.
  destruct (Z.ltb_spec m 0); [lia|].
  set (r' := Z.min r (m - 1)). set (t := skipn (Z.to_nat (ts_start a)) (ts_mem a)).
  assert (Ht : forall i, 0 <= i < m -> nth_error t (Z.to_nat i) = Some (pt a i)).
  { intros i Hi. pose proof (ts_points_length a Ha) as El. unfold pt.
    assert (E : nth_error (ts_points a) (Z.to_nat i) = Some (nth (Z.to_nat i) (ts_points a) n0)).
    { apply nth_error_nth'. lia. }
    rewrite <- E. unfold ts_points. fold t. rewrite nth_error_firstn; auto. lia. }
  assert (Htv : forall i, 0 <= i < m -> tv t i = pt a i).
  { intros i Hi. unfold tv. apply nth_error_nth. apply Ht; auto. }
  assert (Hlt : m <= Z.of_nat (length t)).
  { pose proof (Ht (m - 1) ltac:(lia)) as E. assert (Z.to_nat (m - 1) < length t)%nat by (apply nth_error_Some; congruence). lia. }
  destruct (lemire_ok t m r' Hlt) as (l & u & E & _ & _ & Hlu).
  { intros i Hi. rewrite Htv by auto. apply nfin_nn, Pa; auto. }
  { unfold r'. lia. }
  rewrite E. cbn [bind]. clear E.
  set (len := Z.min m n).
  set (lof := fun j => match aget l j with Ret (Some v) => v | _ => n0 end).
  set (upf := fun j => match aget u j with Ret (Some v) => v | _ => n0 end).
  assert (Hlo : forall j, 0 <= j < len -> aget l j = Ret (Some (lof j)) /\ window_min t m r' j (lof j)).
  { intros j Hj. destruct (Hlu j ltac:(lia)) as [_ (v & E & Hv)]. unfold lof. rewrite E. auto. }
  assert (Hup : forall j, 0 <= j < len -> aget u j = Ret (Some (upf j)) /\ window_max t m r' j (upf j)).
  { intros j Hj. destruct (Hlu j ltac:(lia)) as [(v & E & Hv) _]. unfold upf. rewrite E. auto. }
  assert (Flo : forall j, 0 <= j < len -> nfin (lof j)).
  { intros j Hj. destruct (Hlo j Hj) as [_ [(i & Hi & ->) _]]. unfold win_lo, win_hi in Hi. rewrite Htv by lia. apply Pa. lia. }
  assert (Fup : forall j, 0 <= j < len -> nfin (upf j)).
  { intros j Hj. destruct (Hup j Hj) as [_ [(i & Hi & ->) _]]. unfold win_lo, win_hi in Hi. rewrite Htv by lia. apply Pa. lia. }
  assert (HEnv : forall i j, 0 <= i < m -> 0 <= j < len -> Z.abs (i - j) <= r ->
    nle (lof j) (pt a i) /\ nle (pt a i) (upf j)).
  { intros i j Hi Hj Hij. destruct (Hlo j Hj) as [_ [_ H1]]. destruct (Hup j Hj) as [_ [_ H2]].
    rewrite <- Htv by auto. split; [apply H1|apply H2]; unfold win_lo, win_hi, r'; lia. }
  set (idrop := nmul (nmul (nmul dropout (nofZ 2)) (nofZ (Z.max m n))) (nmul (nmul dropout (nofZ 2)) (nofZ (Z.max m n)))).
  destruct (forb_inv (fun i lb => lb = ksum lof upf (Z.to_nat i)) (fun i lb => lb = ksum lof upf (Z.to_nat i))
             (keogh_step b l u idrop) 0 len n0) as (lb & fl & E & Hlb); [lia|reflexivity| |].
  { intros k lb Hk ->. unfold keogh_step. destruct (nltb (ksum lof upf (Z.to_nat k)) idrop).
    - rewrite ts_get_pt by (auto; lia). cbn [bind].
      rewrite (proj1 (Hup k Hk)). cbn [bind]. simpl init_get. cbn [bind].
      destruct (nltb (upf k) (pt b k)) eqn:C1.
      + eexists _, false. split; [reflexivity|]. cbn. rewrite ksum_step by lia. unfold kst. rewrite C1. reflexivity.
      + rewrite (proj1 (Hlo k Hk)). cbn [bind]. simpl init_get. cbn [bind].
        destruct (nltb (pt b k) (lof k)) eqn:C2; eexists _, false; (split; [reflexivity|]); cbn;
          rewrite ksum_step by lia; unfold kst; rewrite C1, C2; reflexivity.
    - exists (ksum lof upf (Z.to_nat k)), true. split; auto. }
  rewrite E. cbn [bind]. eexists. split; [reflexivity|].
  assert (Hk : exists k, lb = ksum lof upf k /\ Z.of_nat k <= len).
  { destruct fl.
    - destruct Hlb as (k & Hk & ->). exists (Z.to_nat k). split; auto. lia.
    - exists (Z.to_nat len). split; auto. lia. }
  destruct Hk as (k & -> & Hk).
  assert (Hkp : nle n0 (ksum lof upf k)) by (apply (ksum_pos lof upf len ltac:(lia) Flo Fup); exact Hk).
  unfold euc_normDTW. split.
  - apply (nle_nn_l _ _ (norm_le m n _ _ ltac:(lia) Hkp (nle_refl _ (nle_nn_r _ _ Hkp)))).
  - intros p Hp Hpb. apply norm_le; [lia|auto|].
    pose proof (keogh_path lof upf len ltac:(lia) Flo Fup HEnv (m - 1) (n - 1) p ltac:(lia) (path_bp p Hp Hpb) ltac:(lia) ltac:(lia)) as HK.
    refine (nle_trans _ _ _ _ HK). apply (ksum_mono lof upf len ltac:(lia) Flo Fup); lia.
Qed.
End Pair.

Lemma flip_cost' a b ratio r p : lb_pre a b ratio r ->
  warping_path (ts_length a) (ts_length b) p -> in_band r p ->
  path_cost Euclidean b a (flip p) = path_cost Euclidean a b p.
Proof.
  intros H H1 H2. pose proof (path_bp a b r p H1 H2) as Hp.
  assert (Hg : forall i j p, bpath r i j p -> i < ts_length a -> j < ts_length b ->
     path_acc Euclidean b a (flip p) = path_acc Euclidean a b p).
  { clear p H1 H2 Hp. induction 1 as [|i j i' j' p Hp IH Hw Habs]; intros Hi Hj.
    - unfold path_acc; simpl. f_equal. apply euc_dist_sym; [apply (Pb a b ratio r H)|apply (Pa a b ratio r H)]; lia.
    - unfold flip. rewrite map_app. simpl map. rewrite !path_acc_snoc.
      pose proof (wstep_cases _ _ _ _ Hw). pose proof (bpath_nonneg _ _ _ _ Hp).
      fold (flip p). rewrite IH by lia. simpl. f_equal.
      apply euc_dist_sym; [apply (Pb a b ratio r H)|apply (Pa a b ratio r H)]; lia. }
  unfold path_cost. rewrite (Hg (ts_length a - 1) (ts_length b - 1)); auto; [|lia|lia].
  apply (ng_norm_sym _ Euclidean_nice).
Qed.

Lemma keogh_swapped a b ratio r dropout : lb_pre a b ratio r ->
  exists lb, keoghLowerBound ratio b a dropout = Ret lb /\ nn lb /\
  forall p, warping_path (ts_length a) (ts_length b) p -> in_band r p -> nle lb (path_cost Euclidean a b p).
Proof.
  intros H. destruct (keogh_ok b a ratio r (lb_pre_sym _ _ _ _ H) dropout) as (lb & E & Hnn & Hlb).
  exists lb. splits; auto. intros p Hp Hb. rewrite <- (flip_cost' a b ratio r p H Hp Hb).
  destruct (flip_path r _ _ p (lp_r _ _ _ _ H) Hp Hb). apply Hlb; auto.
Qed.

(** crossKeoghLowerBound: below every path cost, unless it answers INF because
    the first Keogh value (a lower bound) is above the cut-off *)
Lemma cross_ok a b ratio r dropout : lb_pre a b ratio r ->
  exists lb, crossKeoghLowerBound ratio a b dropout = Ret lb /\ nn lb /\
  forall p, warping_path (ts_length a) (ts_length b) p -> in_band r p ->
    nle lb (path_cost Euclidean a b p) \/ (lb = ninf /\ nlt dropout (path_cost Euclidean a b p)).
Proof.
  intros H. destruct (keogh_ok a b ratio r H dropout) as (lb1 & E1 & N1 & H1).
  destruct (keogh_swapped a b ratio r dropout H) as (lb2 & E2 & N2 & H2).
  unfold crossKeoghLowerBound. rewrite E1. cbn [bind]. destruct (nltb dropout lb1) eqn:C.
  - exists ninf. splits; [reflexivity|apply lw_inf_nn|]. intros p Hp Hb. right. split; auto.
    apply (nlt_le_trans _ lb1); auto.
  - rewrite E2. cbn [bind]. exists (nmax lb1 lb2). splits; auto.
    + destruct (nmax_cases lb1 lb2) as [-> | ->]; auto.
    + intros p Hp Hb. left. apply nmax_lub; auto.
Qed.

(** the cascade: same value as the warped distance, or INF when the warped
    distance is above the cut-off *)
Lemma cascade_ok (a b : TS N) (ratio : D) r (dropout : D) mt (d : D) mt' : dtw_pre Euclidean a b ratio r -> nn dropout ->
  warpedDistance Euclidean a b ratio ninf mt = Ret (d, mt') ->
  exists (d2 : D) mt2, cascadeDistance ratio a b dropout mt = Ret (d2, mt2) /\
    (nltb dropout d = false -> d2 = d) /\
    (nltb dropout d = true -> (d2 = d \/ d2 = ninf) /\ nltb dropout d2 = true).
Proof.
  intros H Hd E. pose proof (dtw_lb_pre _ _ _ _ _ H) as H'.
  (* lower bounds are below the distance *)
  assert (Hval : nle n0 d /\ (d = ninf \/ exists p, warping_path (ts_length a) (ts_length b) p /\ in_band r p /\ d = path_cost Euclidean a b p)).
  { split; [apply (dtw_nonneg Euclidean Euclidean_nice a b ratio r H _ _ _ _ lw_inf_nn E)|].
    destruct (dtw_inf Euclidean Euclidean_nice a b ratio r H mt) as (dF & p & _ & E' & Hc).
    rewrite E in E'. injection E' as <- _. destruct Hc as [(_ & q & Hq)|[_ Hq]]; eauto. }
  destruct Hval as [Hpos Hval]. pose proof (nle_nn_r _ _ Hpos) as Nd.
  assert (Hlow : forall lb, nn lb -> (forall p, warping_path (ts_length a) (ts_length b) p -> in_band r p ->
      nle lb (path_cost Euclidean a b p)) -> nltb dropout lb = true -> nltb dropout d = true).
  { intros lb Nl Hlb C. apply (nlt_le_trans _ lb _ C). destruct Hval as [->|(p & Hp & Hb & ->)]; auto. apply nle_inf; auto. }
  assert (Hinf : nltb dropout d = true -> nltb dropout ninf = true).
  { intros C. apply (nlt_le_trans _ d); auto. apply nle_inf; auto. }
  unfold cascadeDistance.
  destruct (kim_ok a b ratio r H') as (k & Ek & Hkn & Hk). rewrite Ek. cbn [bind].
  destruct (nltb dropout k) eqn:C1.
  - assert (C : nltb dropout d = true).
    { apply (Hlow k); auto. }
    exists ninf, mt. splits; auto; intros C'; exfalso; congruence.
  - destruct (cross_ok a b ratio r dropout H') as (x & Ex & Nx & Hx). rewrite Ex. cbn [bind].
    destruct (nltb dropout x) eqn:C2.
    + assert (C : nltb dropout d = true).
      { destruct Hval as [->|(p & Hp & Hb & ->)].
        - apply (nlt_le_trans _ x); auto. apply nle_inf; auto.
        - destruct (Hx p Hp Hb) as [Hle|[_ Hlt]]; auto. apply (nlt_le_trans _ x); auto. }
      exists ninf, mt. splits; auto; intros C'; exfalso; congruence.
    + destruct (dtw_cutoff Euclidean Euclidean_nice a b ratio r H dropout mt d mt' Hd E) as (d2 & mt2 & E2 & H1 & H2).
      exists d2, mt2. auto.
Qed.
End LB.
