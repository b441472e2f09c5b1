(** One window of the search, in exact arithmetic. *)
From Coq Require Import Reals Lra Permutation.
From Flocq Require Import Core.Raux.
From Verif Require Import Base Num NumLaws NumXR NumXRLaws Lemire Ucr DtwSpec DtwPaths LoopFacts
  DtwReal UcrReal UcrDtw UcrBounds UcrSpec UcrNorm.
Local Open Scope R_scope.

Lemma build_ok {A} (f : Z -> res A) (d : A) (l : list A) n :
  Z.of_nat (length l) = n -> (forall k, (0 <= k < n)%Z -> f k = Ret (nth (Z.to_nat k) l d)) -> build n f = Ret l.
Proof.
  intros Hn Hf. unfold build. subst n. rewrite Nat2Z.id.
  assert (H : forall l' k0, (forall k, (k < length l')%nat -> f (k0 + Z.of_nat k)%Z = Ret (nth k l' d)) ->
    build_n (length l') k0 f = Ret l').
  { clear. induction l' as [|x l' IH]; intros k0 H; [reflexivity|]. cbn [length build_n].
    pose proof (H 0%nat ltac:(simpl; lia)) as H0. replace (k0 + Z.of_nat 0)%Z with k0 in H0 by lia. rewrite H0. cbn [bind nth].
    rewrite IH; [reflexivity|]. intros k Hk. specialize (H (S k) ltac:(simpl; lia)).
    replace (k0 + 1 + Z.of_nat k)%Z with (k0 + Z.of_nat (S k))%Z by lia. exact H. }
  apply H. intros k Hk. rewrite Hf by lia. replace (Z.to_nat (0 + Z.of_nat k)) with k by lia. reflexivity.
Qed.

Lemma build_fin (f : Z -> res (D XR)) (xs : list R) n : Rlen xs = n ->
  (forall k, (0 <= k < n)%Z -> f k = Ret (Fin (Rpt xs k))) -> build n f = Ret (map Fin xs).
Proof.
  intros Hn Hf. apply (build_ok f (Fin 0)); [rewrite map_length; exact Hn|].
  intros k Hk. rewrite Hf by auto. unfold Rpt. rewrite (map_nth Fin). reflexivity.
Qed.

Lemma window_length ds k m : (0 <= k)%Z -> (0 <= m)%Z -> (k + m <= Rlen ds)%Z -> Rlen (window ds k m) = m.
Proof. intros. unfold Rlen, window in *. rewrite firstn_length, skipn_length. lia. Qed.

Lemma nth_firstn_lt {A} (l : list A) n k d : (k < n)%nat -> nth k (firstn n l) d = nth k l d.
Proof.
  revert n k. induction l as [|x l IH]; intros [|n] [|k] H; simpl; auto; try lia. apply IH. lia.
Qed.

Lemma nth_skipn_add {A} (l : list A) n k d : nth k (skipn n l) d = nth (n + k)%nat l d.
Proof.
  revert n. induction l as [|x l IH]; intros [|n]; simpl; auto. destruct k; auto.
Qed.

Lemma window_pt ds k m i : (0 <= k)%Z -> (0 <= i < m)%Z -> Rpt (window ds k m) i = Rpt ds (k + i).
Proof.
  intros Hk Hi. unfold Rpt, window. rewrite nth_firstn_lt by lia. rewrite nth_skipn_add.
  f_equal. lia.
Qed.

Section Run.
Variables ds qs : list R.
Variables m r : Z.
Hypothesis Hm : (6 <= m <= 1000000000)%Z.
Hypothesis Hr : (0 <= r < m)%Z.
Hypothesis Lq : Rlen qs = m.
Hypothesis Fq : ~ flat qs.

Definition win (k : Z) : list R := window ds k m.
Definition wsq (k : Z) (v : R) : Prop := warped_squares r (znorm (win k)) (znorm qs) v.

(** what is known after the windows before K *)
Definition best (K : Z) (b : R) (loc : Z) : Prop :=
  (b = INFR /\ loc = 0%Z /\ forall k, (0 <= k < K)%Z -> flat (win k)) \/
  ((0 <= loc < K)%Z /\ ~ flat (win loc) /\ wsq loc b /\
   forall k v, (0 <= k < K)%Z -> ~ flat (win k) -> wsq k v -> b <= v /\ ((k < loc)%Z -> b < v)).

Lemma cost_bound k i j : (0 <= k)%Z -> (k + m <= Rlen ds)%Z -> ~ flat (win k) -> (0 <= i < m)%Z -> (0 <= j < m)%Z ->
  cst (znorm (win k)) (znorm qs) i j <= 4 * IZR m.
Proof. intros. apply znorm_cost; auto; [lia|]. apply window_length; lia. Qed.

Lemma cost_inf : IZR (2 * m) * (4 * IZR m) < INFR.
Proof.
  rewrite mult_IZR.
  assert (H0 : 0 <= IZR m) by (apply (IZR_le 0); lia).
  assert (H1 : IZR m <= 1000000000) by (apply (IZR_le m 1000000000); lia).
  replace (2 * IZR m * (4 * IZR m)) with (8 * (IZR m * IZR m)) by ring.
  assert (H2 : IZR m * IZR m <= 1000000000 * 1000000000) by (apply Rmult_le_compat; lra).
  unfold INFR. apply Rle_lt_trans with (8 * (1000000000 * 1000000000)); [lra|].
  rewrite <- !mult_IZR. apply IZR_lt. reflexivity.
Qed.

(** the window cannot be better *)
Definition no_better (k : Z) (b : R) : Prop :=
  forall p, bpath r (m - 1) (m - 1) p -> b <= psum (cst (znorm (win k)) (znorm qs)) p.

Lemma best_skip K b loc : (0 <= K)%Z -> (K + m <= Rlen ds)%Z -> best K b loc -> (flat (win K) \/ (~ flat (win K) /\ no_better K b)) -> best (K + 1) b loc.
Proof.
  intros HK HKm [(-> & -> & Hf)|(H1 & H2 & H3 & H4)] Hc.
  - destruct Hc as [Hc|(Hc & Hn)].
    + left. splits; auto. intros k Hk. destruct (Z.eq_dec k K) as [->|]; auto. apply Hf. lia.
    + exfalso. destruct (bpath_exists r (m - 1) (m - 1)) as (p & Hp); try lia.
      specialize (Hn p Hp).
      assert (0 <= IZR m) by (apply (IZR_le 0); lia).
      pose proof (psum_bound r (cst (znorm (win K)) (znorm qs)) (4 * IZR m) (m - 1) (m - 1) p ltac:(lra)
                    ltac:(intros; apply cost_bound; auto; lia) Hp) as Hb.
      pose proof cost_inf.
      assert (IZR (m - 1 + (m - 1) + 1) * (4 * IZR m) <= IZR (2 * m) * (4 * IZR m)).
      { apply Rmult_le_compat_r; [lra|]. apply IZR_le. lia. }
      lra.
  - right. splits; auto; [lia|lia|]. intros k v Hk Fk Hv. destruct (Z.eq_dec k K) as [->|Hne]; [|apply H4; auto; lia].
    destruct Hc as [Hc|(_ & Hn)]; [contradiction|]. split; [|lia].
    apply (opt_warped r _ _ m) in Hv; try lia.
    + destruct Hv as ((p & Hp & <-) & _). apply Hn. exact Hp.
    + rewrite znorm_length. apply window_length; lia.
    + rewrite znorm_length. lia.
Qed.

Lemma best_take K b loc v : (0 <= K)%Z -> best K b loc -> ~ flat (win K) -> wsq K v -> v < b -> best (K + 1) v K.
Proof.
  intros HK HB Fk Hv Hlt. right. splits; auto; try lia. intros k v' Hk Fk' Hv'.
  destruct (Z.eq_dec k K) as [->|Hne].
  - assert (v = v'). { destruct Hv as ((p & A1 & A2 & A3) & A4), Hv' as ((p' & B1 & B2 & B3) & B4). subst.
      apply Rle_antisym; auto. }
    split; [lra|lia].
  - destruct HB as [(-> & -> & Hf)|(_ & _ & _ & H4)].
    + exfalso. apply Fk', Hf. lia.
    + destruct (H4 k v' ltac:(lia) Fk' Hv'). split; [lra|intros; lra].
Qed.

(** ** what is prepared from the query *)
Record good_query (p : prepared (N := XR)) : Prop := {
  gq_q : p_q p = map Fin (znorm qs);
  gq_ord : Permutation (p_order p) (zseq m);
  gq_qo : forall i, (0 <= i < m)%Z -> aget (p_qo p) i = Ret (Fin (Rpt (znorm qs) (ord (p_order p) i)));
  gq_env : exists lf uf,
    (forall i, (0 <= i < m)%Z -> aget (p_uo p) i = Ret (Fin (uf (ord (p_order p) i)))) /\
    (forall i, (0 <= i < m)%Z -> aget (p_lo p) i = Ret (Fin (lf (ord (p_order p) i)))) /\
    (forall k i, (0 <= k < m)%Z -> (0 <= i < m)%Z -> (Z.abs (i - k) <= r)%Z -> lf k <= Rpt (znorm qs) i <= uf k)
}.

(** ** one window *)
Variable p : prepared (N := XR).
Hypothesis Hp : good_query p.
Variables epoch it base ep : Z.
Hypothesis Hbase : base = (it * (epoch - m + 1))%Z.
Hypothesis Hbase0 : (0 <= base)%Z.
Hypothesis Hep : (base + ep <= Rlen ds)%Z.
Hypothesis Hint : (Rlen ds <= int_max)%Z.
Variables l_buff u_buff : list (option (D XR)).
Variables lfd ufd : Z -> R.
Hypothesis Hld : forall k, (0 <= k < ep)%Z -> cell l_buff k = Ret (Fin (lfd k)) /\ cell u_buff k = Ret (Fin (ufd k)).
Hypothesis Henv : forall k i, (0 <= k < ep)%Z -> (0 <= i < ep)%Z -> (Z.abs (i - k) <= r)%Z ->
  lfd k <= Rpt ds (base + i) <= ufd k.

Definition cbs_ok (s : usearch (N := XR)) : Prop :=
  Z.of_nat (length (u_cb1 s)) = m /\ Z.of_nat (length (u_cb2 s)) = m.

Definition skipped (s : usearch (N := XR)) : Z := (u_kim s + u_keogh s + u_keogh2 s)%Z.
Definition counts_ok (K : Z) (s : usearch (N := XR)) : Prop :=
  (0 <= u_kim s)%Z /\ (0 <= u_keogh s)%Z /\ (0 <= u_keogh2 s)%Z /\ (skipped s <= K)%Z.

Definition found (K : Z) (s : usearch (N := XR)) : Prop :=
  counts_ok K s /\ cbs_ok s /\ exists b, u_bsf s = Fin b /\ best K b (u_loc s).

Lemma mean_fin k : (0 <= k)%Z -> (k + m <= Rlen ds)%Z ->
  mean_of (N := XR) m (Fin (Rsum (win k))) = Fin (average (win k)).
Proof.
  intros H1 H2. unfold mean_of, average. unfold win. rewrite window_length by lia. cbn.
  destruct (Req_bool_spec (IZR m) 0) as [E|E]; [|reflexivity].
  apply (eq_IZR m 0) in E. lia.
Qed.

Lemma std_fin k : (0 <= k)%Z -> (k + m <= Rlen ds)%Z ->
  std_of (N := XR) m (Fin (Rsum (win k))) (Fin (Rsum (squares (win k)))) = Fin (deviation (win k)).
Proof.
  intros H1 H2. assert (L : Rlen (win k) = m) by (apply window_length; lia).
  unfold std_of. rewrite mean_fin by auto. cbn.
  destruct (Req_bool_spec (IZR m) 0) as [E|E]; [apply (eq_IZR m 0) in E; lia|]. cbn.
  pose proof (variance_pos (win k) ltac:(lia)) as Hv. pose proof (deviation_sums (win k) ltac:(lia)) as Hd.
  rewrite L in Hv, Hd. unfold average. rewrite L. unfold Rdiv in *.
  destruct (Rlt_bool_spec (Rsum (squares (win k)) * / IZR m - Rsum (win k) * / IZR m * (Rsum (win k) * / IZR m)) 0); [lra|].
  rewrite Hd. reflexivity.
Qed.

Lemma window_step_ok i (s : usearch (N := XR)) : (m - 1 <= i < ep)%Z ->
  let I := (i - (m - 1))%Z in let K := (base + I)%Z in
  u_ex s = Fin (Rsum (win K)) -> u_ex2 s = Fin (Rsum (squares (win K))) ->
  (forall k, (0 <= k < m)%Z -> cell (u_t s) (k + (i + 1) mod m) = Ret (Fin (Rpt (win K) k))) ->
  found K s ->
  exists s', window_step (N := XR) p l_buff u_buff epoch m r it i s = Ret s' /\
    u_t s' = u_t s /\ u_ex s' = Fin (Rsum (win K) - Rpt (win K) 0) /\
    u_ex2 s' = Fin (Rsum (squares (win K)) - Rpt (win K) 0 * Rpt (win K) 0) /\ found (K + 1) s'.
Proof.
  intros Hi I K Ex Ex2 Ht ((C1 & C2 & C3 & C4) & (L1 & L2) & b & Eb & Hbest).
  assert (HK : (0 <= K)%Z /\ (K + m <= Rlen ds)%Z) by (unfold K, I; lia). destruct HK as (HK1 & HK2).
  assert (Lw : Rlen (win K) = m) by (apply window_length; lia).
  unfold window_step. rewrite Ex, Ex2, Eb, mean_fin, std_fin by auto. cbv zeta.
  set (mu := average (win K)). set (sg := deviation (win K)).
  assert (Ej : cmod (i + 1) m = Ret ((i + 1) mod m)%Z).
  { unfold cmod. destruct (Z.eqb_spec m 0); [lia|]. rewrite Z.rem_mod_nonneg by lia. reflexivity. }
  rewrite Ej. cbn [bind]. set (j := ((i + 1) mod m)%Z) in *.
  assert (Hold : cell (u_t s) j = Ret (Fin (Rpt (win K) 0))).
  { rewrite <- (Ht 0%Z) by lia. reflexivity. }
  destruct Hp as [Gq Gord Gqo (lf & uf & Guo & Glo & Genv)]. rewrite Gq.
  set (x := fun k : Z => (Rpt (win K) k - mu) / sg).
  destruct (Req_dec sg 0) as [Es|Es].
  - (* no variation *)
    assert (Fw : flat (win K)) by (apply flat_deviation; [lia|exact Es]).
    assert (Hmu : forall k, (0 <= k < m)%Z -> Rpt (win K) k = mu).
    { intros k Hk. apply deviation_zero; [lia|exact Es|]. apply nth_In. unfold Rlen in *. lia. }
    rewrite (kim_nan (u_t s) (znorm qs) m j (Rpt (win K)) mu sg ltac:(lia)); auto.
    2: rewrite znorm_length; auto.
    cbn [bind]. change (@nltb XR XNaN (Fin b)) with false. cbv iota. cbn [bind u_t]. rewrite Hold. cbn [bind].
    eexists. split; [reflexivity|]. cbn [u_t u_ex u_ex2 u_bsf u_loc u_cb1 u_cb2 u_kim u_keogh u_keogh2].
    splits; auto; try (rewrite Ex; reflexivity); try (rewrite Ex2; reflexivity).
    split; [unfold counts_ok, skipped in *; cbn; lia|]. split; [split; auto|]. exists b. split; auto.
    apply best_skip; auto.
  - assert (Fw : ~ flat (win K)) by (intros F; apply Es; apply flat_deviation; [lia|exact F]).
    assert (Hsg : 0 < sg) by (apply deviation_pos; [lia|exact Fw]).
    assert (Hzp : forall k, (0 <= k < m)%Z -> Rpt (znorm (win K)) k = x k).
    { intros k Hk. rewrite znorm_pt by lia. reflexivity. }
    assert (Hpsum : forall q, bpath r (m - 1) (m - 1) q ->
       psum (fun i k => (x i - Rpt (znorm qs) k) * (x i - Rpt (znorm qs) k)) q = psum (cst (znorm (win K)) (znorm qs)) q).
    { intros q Hq. assert (Hin : forall c, In c q -> (0 <= fst c < m)%Z).
      { intros c Hc. pose proof (bpath_in _ _ _ _ _ Hq Hc). lia. }
      clear - Hin Hzp. unfold psum. induction q as [|c q IH]; [reflexivity|]. cbn [map fold_right].
      rewrite IH by (intros; apply Hin; simpl; auto). f_equal. unfold cst. rewrite Hzp by (apply Hin; simpl; auto). reflexivity. }
    assert (Lzq : Rlen (znorm qs) = m) by (rewrite znorm_length; auto).
    assert (Lzw : Rlen (znorm (win K)) = m) by (rewrite znorm_length; auto).
    assert (Skip : forall s' v, v = b -> u_t s' = u_t s -> u_ex s' = u_ex s -> u_ex2 s' = u_ex2 s -> counts_ok (K + 1) s' -> cbs_ok s' ->
       u_bsf s' = Fin v -> u_loc s' = u_loc s -> no_better K b ->
       exists s'', (old <- cell (u_t s') j ;;
         Ret (mkU (N := XR) (nsub (u_ex s') old) (nsub (u_ex2 s') (nmul old old)) (u_t s') (u_cb1 s') (u_cb2 s')
           (u_bsf s') (u_loc s') (u_kim s') (u_keogh s') (u_keogh2 s'))) = Ret s'' /\
         u_t s'' = u_t s /\ u_ex s'' = Fin (Rsum (win K) - Rpt (win K) 0) /\
         u_ex2 s'' = Fin (Rsum (squares (win K)) - Rpt (win K) 0 * Rpt (win K) 0) /\ found (K + 1) s'').
    { intros s' v Ev Et Ee Ee2 Hcnt Hcb Hbs Hloc Hnb. rewrite Et, Hold. cbn [bind]. eexists. split; [reflexivity|].
      cbn [u_t u_ex u_ex2 u_bsf u_loc u_cb1 u_cb2 u_kim u_keogh u_keogh2]. rewrite Ee, Ee2, Ex, Ex2.
      splits; auto. split; [exact Hcnt|]. split; [exact Hcb|]. exists b. subst v. split; auto. cbn [u_loc]. rewrite Hloc.
      apply best_skip; auto. }
    destruct (kim_ok (u_t s) (znorm qs) m j r (Rpt (win K)) mu sg ltac:(lia) Lzq Ht b Es) as (vk & Ek & Hk).
    change (fun i k : Z => ((Rpt (win K) i - mu) / sg - Rpt (znorm qs) k) * ((Rpt (win K) i - mu) / sg - Rpt (znorm qs) k))
      with (fun i k : Z => (x i - Rpt (znorm qs) k) * (x i - Rpt (znorm qs) k)) in Hk.
    rewrite Ek. cbn [bind]. rewrite nltb_fin. destruct (Rlt_bool_spec vk b) as [Hvk|Hvk].
    2:{ cbn [bind]. eapply Skip; try reflexivity; auto.
        - unfold counts_ok, skipped in *. cbn. lia.
        - split; auto.
        - intros q Hq. rewrite <- Hpsum by auto. specialize (Hk q Hq). lra. }
    destruct (keogh_ok (u_t s) m j ltac:(lia) (p_order p) Gord (Rpt (win K)) lf uf mu sg Es Ht (p_uo p) (p_lo p) Guo Glo
                (u_cb1 s) b L1) as (v1 & cb1 & E1 & H1 & Lc1 & Hcb1).
    fold x in H1, Hcb1. rewrite E1. cbn [bind u_bsf].
    assert (W1 : forall i k, (0 <= i < m)%Z -> (0 <= k < m)%Z -> (Z.abs (i - k) <= r)%Z ->
       w_out x lf uf i <= cst (znorm (win K)) (znorm qs) i k).
    { intros i0 k Hi0 Hk0 Hb. unfold cst. rewrite Hzp by auto. apply w_out_le, Genv; auto. lia. }
    assert (NB1 : forall q, bpath r (m - 1) (m - 1) q -> pre (w_out x lf uf) m <= psum (cst (znorm (win K)) (znorm qs)) q).
    { intros q Hq. destruct (layers r (cst (znorm (win K)) (znorm qs)) (fun i _ => i) (w_out x lf uf) _ _ q slow_row ltac:(lia) (w_out_pos _ _ _) Hq) as (_ & HL).
      - intros c Hc. pose proof (bpath_in _ _ _ _ _ Hq Hc). pose proof (bpath_cells r ltac:(lia) _ _ _ _ Hq Hc). apply W1; lia.
      - cbv beta in HL. replace (m - 1 + 1)%Z with m in HL by lia. rewrite (pre_0 _ 0) in HL by lia. lra. }
    rewrite nltb_fin. destruct (Rlt_bool_spec v1 b) as [Hv1|Hv1].
    2:{ cbn [bind]. eapply Skip; try reflexivity; auto.
        - unfold counts_ok, skipped in *. cbn. lia.
        - split; auto.
        - intros q Hq. specialize (NB1 q Hq). lra. }
    cbn [u_t].
    rewrite (build_fin _ (znorm (win K)) m Lzw).
    2:{ intros k Hk0. rewrite Ht by auto. cbn [bind]. rewrite zn_fin by auto. rewrite Hzp by auto. reflexivity. }
    cbn [bind u_cb2].
    assert (Hoff : forall k, (0 <= k < m)%Z -> (0 <= i - (m - 1) + k < ep)%Z) by lia.
    destruct (keogh_data_ok m (i - (m - 1)) ltac:(lia) (p_order p) Gord (Rpt (znorm qs)) (fun k => lfd (i - (m - 1) + k)%Z)
                (fun k => ufd (i - (m - 1) + k)%Z) mu sg Es l_buff u_buff) with (qo := p_qo p) (cb := u_cb2 s) (b := b)
      as (v2 & cb2 & E2 & H2 & Lc2 & Hcb2); auto.
    1: intros k Hk0; apply (Hld _ (Hoff k Hk0)). 1: intros k Hk0; apply (Hld _ (Hoff k Hk0)).
    rewrite E2. cbn [bind u_bsf].
    set (w2 := w_out (Rpt (znorm qs)) (fun k => (lfd (i - (m - 1) + k)%Z - mu) / sg) (fun k => (ufd (i - (m - 1) + k)%Z - mu) / sg)) in *.
    assert (W2 : forall i0 k, (0 <= i0 < m)%Z -> (0 <= k < m)%Z -> (Z.abs (i0 - k) <= r)%Z ->
       w2 k <= cst (znorm (win K)) (znorm qs) i0 k).
    { intros i0 k Hi0 Hk0 Hb. unfold cst. rewrite Hzp by auto. unfold w2, x.
      replace (((Rpt (win K) i0 - mu) / sg - Rpt (znorm qs) k) * ((Rpt (win K) i0 - mu) / sg - Rpt (znorm qs) k))
        with ((Rpt (znorm qs) k - (Rpt (win K) i0 - mu) / sg) * (Rpt (znorm qs) k - (Rpt (win K) i0 - mu) / sg)) by ring.
      apply w_out_le. unfold win at 1 2. rewrite window_pt by lia.
      pose proof (Henv (i - (m - 1) + k) (i - (m - 1) + i0) (Hoff k Hk0) (Hoff i0 Hi0) ltac:(lia)) as (Q1 & Q2).
      replace (base + (i - (m - 1) + i0))%Z with (K + i0)%Z in Q1, Q2 by (unfold K, I; lia).
      split; apply Rmult_le_compat_r; try lra; left; apply Rinv_0_lt_compat; auto. }
    assert (NB2 : forall q, bpath r (m - 1) (m - 1) q -> pre w2 m <= psum (cst (znorm (win K)) (znorm qs)) q).
    { intros q Hq. destruct (layers r (cst (znorm (win K)) (znorm qs)) (fun _ j => j) w2 _ _ q slow_col ltac:(lia) (w_out_pos _ _ _) Hq) as (_ & HL).
      - intros c Hc. pose proof (bpath_in _ _ _ _ _ Hq Hc). pose proof (bpath_cells r ltac:(lia) _ _ _ _ Hq Hc). apply W2; lia.
      - cbv beta in HL. replace (m - 1 + 1)%Z with m in HL by lia. rewrite (pre_0 _ 0) in HL by lia. lra. }
    rewrite nltb_fin. destruct (Rlt_bool_spec v2 b) as [Hv2|Hv2].
    2:{ cbn [bind]. eapply Skip; try reflexivity; auto.
        - unfold counts_ok, skipped in *. cbn. lia.
        - split; auto.
        - intros q Hq. specialize (NB2 q Hq). lra. }
    destruct (Hcb1 Hv1) as (_ & Ecb1). destruct (Hcb2 Hv2) as (_ & Ecb2).
    cbn [u_cb1 u_cb2]. 
    assert (Hcum : exists w cs, cumulate (N := XR) (if @nltb XR (Fin v2) (Fin v1) then cb1 else cb2) = map Fin cs /\ Rlen cs = m /\
       (forall k, 0 <= w k) /\ (forall k, (0 <= k < m)%Z -> Rpt cs k = pre w m - pre w k) /\
       ((forall i j, (0 <= i < m)%Z -> (0 <= j < m)%Z -> (Z.abs (i - j) <= r)%Z -> w i <= cst (znorm (win K)) (znorm qs) i j) \/
        (forall i j, (0 <= i < m)%Z -> (0 <= j < m)%Z -> (Z.abs (i - j) <= r)%Z -> w j <= cst (znorm (win K)) (znorm qs) i j))).
    { destruct (nltb _ _).
      - destruct (cumulate_weights m (w_out x lf uf) ltac:(lia)) as (cs & Q1 & Q2 & Q3). exists (w_out x lf uf), cs.
        rewrite Ecb1. splits; auto. apply w_out_pos.
      - destruct (cumulate_weights m w2 ltac:(lia)) as (cs & Q1 & Q2 & Q3). exists w2, cs.
        rewrite Ecb2. splits; auto. apply w_out_pos. }
    destruct Hcum as (w & cs & Ecum & Lcs & Hw & Hcs & Hlb). rewrite Ecum.
    destruct (dtw_ok (znorm (win K)) (znorm qs) cs m r ltac:(lia) ltac:(lia) ltac:(lia) ltac:(lia) ltac:(lia) (4 * IZR m)
       ltac:(intros; apply cost_bound; auto; lia) cost_inf w Hw Hcs Hlb b) as (d & Ed & Hd).
    rewrite Ed. cbn [bind u_bsf]. rewrite nltb_fin. destruct (Rlt_bool_spec d b) as [Hdb|Hdb].
    + destruct Hd as [Hd|(Hd & _)]; [|lra].
      assert (Hch : chunk_base epoch m it = Ret base).
      { unfold chunk_base. cbv zeta. rewrite <- Hbase.
        destruct (Z.leb_spec int_min base), (Z.leb_spec base int_max); cbn [andb]; auto; unfold int_min in *; lia. }
      rewrite Hch. cbn [bind u_t]. rewrite Hold. cbn [bind].
      eexists. split; [reflexivity|]. cbn [u_t u_ex u_ex2 u_bsf u_loc u_cb1 u_cb2 u_kim u_keogh u_keogh2].
      splits; auto. split; [unfold counts_ok, skipped in *; cbn; lia|]. split; [split; auto|]. exists d. split; auto. cbn [u_loc].
      replace (base + i - m + 1)%Z with K by (unfold K, I; lia).
      apply (best_take K b (u_loc s)); auto. unfold wsq. apply (opt_warped r _ _ m); auto. lia.
    + cbn [bind]. eapply Skip; try reflexivity; auto.
      * unfold counts_ok, skipped in *. cbn. lia.
      * split; auto.
      * intros q Hq. destruct Hd as [Hd|(_ & Hd)].
        -- destruct Hd as (_ & Hd). specialize (Hd q Hq). lra.
        -- apply Hd. exact Hq.
Qed.
End Run.
