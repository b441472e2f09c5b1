(** C48, C49, C50: searching a query in a file of numbers (calculate). *)
From Coq Require Import Reals Lra Permutation.
From Flocq Require Import Core.Raux.
From Verif Require Import Base Num NumLaws NumXR NumXRLaws NumB64 Lemire Ucr DtwSpec DtwPaths LoopFacts
  DtwReal UcrReal UcrDtw UcrBounds UcrSpec UcrNorm UcrWindow UcrChunk UcrProofs UcrSafe.
Local Open Scope R_scope.

(** a file that holds these numbers and nothing else, in exact arithmetic *)
Definition numbers (xs : list R) : stream (N := XR) := mkStream (N := XR) (map Fin xs) false.

(** ** C48 *)
(** With a query of 6 to 100000 numbers that are not all equal and a band
    narrower than the query, the search reports the first of the nearest windows
    and its distance, whichever way the query is sorted. *)
Theorem C48_nearest_window sort data query m r :
  arranges sort -> (6 <= m <= 100000)%Z -> (0 <= r < m)%Z -> (m <= Rlen query)%Z -> ~ flat (window query 0 m) ->
  (Rlen data <= int_max)%Z -> (exists k, (0 <= k <= Rlen data - m)%Z /\ ~ flat (window data k m)) ->
  exists rp d, calculate sort (Some (numbers data)) (Some (numbers query)) m r = Ret (Reported rp) /\
    rp_dist rp = Fin d /\ nearest_window r data (window query 0 m) (rp_loc rp) d /\ rp_scanned rp = Rlen data.
Proof.
  intros Hs Hm Hr Lq Fq Hint (k & Hk & Fk).
  destruct (calculate_ok EPOCH sort data query false m r Hs ltac:(unfold EPOCH; lia) ltac:(unfold EPOCH; lia) Hr Lq Fq Hint)
    as (rp & E & S & _ & _ & _ & _ & [(d & Ed & Hn)|(_ & _ & Hf)]).
  - exists rp, d. splits; auto. lia.
  - exfalso. apply Fk, Hf. exact Hk.
Qed.

(** The specification leaves no choice. *)
Theorem C48_determined r data query loc d loc' d' :
  nearest_window r data query loc d -> nearest_window r data query loc' d' -> loc = loc' /\ d = d'.
Proof.
  intros (A1 & A2 & A3 & A4) (B1 & B2 & B3 & B4).
  destruct (A4 loc' d' B1 B2 B3) as (H1 & H2). destruct (B4 loc d A1 A2 A3) as (H3 & H4).
  assert (d = d') by lra. subst d'. split; auto.
  destruct (Z.lt_trichotomy loc loc') as [H|[H|H]]; auto; exfalso; [specialize (H4 H)|specialize (H2 H)]; lra.
Qed.

(** Without a window that varies (in particular when there are fewer numbers
    than the query has), location 0 and the distance 10^10 are reported. *)
Theorem C48_no_window sort data query m r :
  arranges sort -> (6 <= m <= 100000)%Z -> (0 <= r < m)%Z -> (m <= Rlen query)%Z -> ~ flat (window query 0 m) ->
  (Rlen data <= int_max)%Z -> (forall k, (0 <= k <= Rlen data - m)%Z -> flat (window data k m)) ->
  exists rp, calculate sort (Some (numbers data)) (Some (numbers query)) m r = Ret (Reported rp) /\
    rp_loc rp = 0%Z /\ rp_dist rp = Fin 10000000000.
Proof.
  intros Hs Hm Hr Lq Fq Hint Hf.
  destruct (calculate_ok EPOCH sort data query false m r Hs ltac:(unfold EPOCH; lia) ltac:(unfold EPOCH; lia) Hr Lq Fq Hint)
    as (rp & E & S & _ & _ & _ & _ & [(d & Ed & Hn)|(H1 & H2 & _)]).
  - exfalso. destruct Hn as (B & F & _). rewrite window_length in * by lia. apply F, Hf. exact B.
  - exists rp. auto.
Qed.

(** The numbers of windows left out by the three bounds add up to at most the
    number of windows. *)
Theorem C48_pruned sort data query m r :
  arranges sort -> (6 <= m <= 100000)%Z -> (0 <= r < m)%Z -> (m <= Rlen query)%Z -> ~ flat (window query 0 m) ->
  (Rlen data <= int_max)%Z ->
  exists rp, calculate sort (Some (numbers data)) (Some (numbers query)) m r = Ret (Reported rp) /\
    (0 <= rp_kim rp)%Z /\ (0 <= rp_keogh rp)%Z /\ (0 <= rp_keogh2 rp)%Z /\
    (rp_kim rp + rp_keogh rp + rp_keogh2 rp <= Z.max 0 (Rlen data - m + 1))%Z.
Proof.
  intros Hs Hm Hr Lq Fq Hint.
  destruct (calculate_ok EPOCH sort data query false m r Hs ltac:(unfold EPOCH; lia) ltac:(unfold EPOCH; lia) Hr Lq Fq Hint)
    as (rp & E & S & H1 & H2 & H3 & H4 & _).
  exists rp. splits; auto.
Qed.

(** A file that cannot be opened ends the program with a message. *)
Theorem C48_no_file {N : Num} sort data query m r :
  data = None \/ query = None -> calculate (N := N) sort data query m r = Ret Exited.
Proof. intros [->| ->]; [reflexivity|]. destruct data; reflexivity. Qed.

(** ** C49 *)
(** dtw returns the exact squared distance, or a number not below the cut-off
    when the distance is not below the cut-off.  [w] bounds the contribution of
    each row (or of each column) and [cs] are the sums of [w] from k on, as the
    caller computes them from LB_Keogh; [w] = 0 is always possible. *)
Theorem C49_dtw xs ys cs m r b w :
  (1 <= m <= 1000000)%Z -> (0 <= r)%Z -> Rlen xs = m -> Rlen ys = m -> Rlen cs = m ->
  (forall x, In x xs -> Rabs x <= 1000000) -> (forall y, In y ys -> Rabs y <= 1000000) ->
  (forall k, 0 <= w k) ->
  ((forall i j, (0 <= i < m)%Z -> (0 <= j < m)%Z -> (Z.abs (i - j) <= r)%Z -> w i <= (Rpt xs i - Rpt ys j) * (Rpt xs i - Rpt ys j)) \/
   (forall i j, (0 <= i < m)%Z -> (0 <= j < m)%Z -> (Z.abs (i - j) <= r)%Z -> w j <= (Rpt xs i - Rpt ys j) * (Rpt xs i - Rpt ys j))) ->
  (forall k, (0 <= k < m)%Z -> Rpt cs k = Rsum (map (fun i => w (k + Z.of_nat i)%Z) (seq 0 (Z.to_nat (m - k))))) ->
  exists d, dtw (N := XR) (map Fin xs) (map Fin ys) (map Fin cs) m r (Fin b) = Ret (Fin d) /\
    (warped_squares r xs ys d \/ (b <= d /\ forall v, warped_squares r xs ys v -> b <= v)).
Proof.
  intros Hm Hr Lx Ly Lc Bx By Hw Hlb Hcs.
  assert (Hcost : forall i j, (0 <= i < m)%Z -> (0 <= j < m)%Z -> cst xs ys i j <= 4000000000000).
  { intros i j Hi Hj. unfold cst.
    assert (Hx : Rabs (Rpt xs i) <= 1000000) by (apply Bx, nth_In; unfold Rlen in *; lia).
    assert (Hy : Rabs (Rpt ys j) <= 1000000) by (apply By, nth_In; unfold Rlen in *; lia).
    apply Rabs_le_inv in Hx. apply Rabs_le_inv in Hy. nra. }
  assert (Hinf : IZR (2 * m) * 4000000000000 < INFR).
  { unfold INFR. rewrite <- mult_IZR. apply IZR_lt. change (10 ^ 20)%Z with 100000000000000000000%Z. lia. }
  destruct (dtw_ok xs ys cs m r ltac:(lia) Hr ltac:(lia) ltac:(lia) ltac:(lia) 4000000000000 Hcost Hinf w Hw) with (b := b) as (d & E & H).
  - intros k Hk. rewrite Hcs by auto. apply Rplus_eq_reg_r with (pre w k). ring_simplify.
    assert (G : forall n, Rsum (map (fun i => w (k + Z.of_nat i)%Z) (seq 0 n)) + pre w k = pre w (k + Z.of_nat n)).
    { induction n as [|n IH].
      - rewrite Z.add_0_r. unfold Rsum. simpl. lra.
      - rewrite seq_S, map_app, Rsum_app. replace (k + Z.of_nat (S n))%Z with (k + Z.of_nat n + 1)%Z by lia.
        rewrite pre_S by lia. rewrite <- IH. unfold Rsum at 2. cbn [map fold_right Nat.add]. lra. }
    rewrite G. f_equal. lia.
  - exact Hlb.
  - exists d. split; auto. destruct H as [H|(H1 & H2)].
    + left. apply (opt_warped r xs ys m); auto.
    + right. split; auto. intros v Hv. apply (opt_warped r xs ys m) in Hv; auto. destruct Hv as ((p & Hp & <-) & _). apply H2. exact Hp.
Qed.

(** a z-normalised window with mean mu and deviation sg *)
Definition scaled (mu sg : R) (xs : list R) : list R := map (fun a => (a - mu) / sg) xs.

Lemma scaled_length mu sg xs : Rlen (scaled mu sg xs) = Rlen xs.
Proof. unfold Rlen, scaled. rewrite map_length. reflexivity. Qed.

Lemma scaled_pt mu sg xs k : (0 <= k < Rlen xs)%Z -> Rpt (scaled mu sg xs) k = (Rpt xs k - mu) / sg.
Proof.
  intros Hk. unfold Rpt, scaled, Rlen in *.
  rewrite (nth_indep _ 0 ((0 - mu) / sg)) by (rewrite map_length; lia).
  apply (map_nth (fun a => (a - mu) / sg)).
Qed.

Lemma psum_same c c' p : (forall x, In x p -> c (fst x) (snd x) = c' (fst x) (snd x)) -> psum c p = psum c' p.
Proof.
  intros H. unfold psum. induction p as [|x p IH]; [reflexivity|]. cbn [map fold_right].
  rewrite IH by (intros; apply H; simpl; auto). rewrite (H x) by (simpl; auto). reflexivity.
Qed.

Lemma below_warped r xs ys m v d : (0 <= r)%Z -> Rlen xs = m -> Rlen ys = m ->
  (forall p, bpath r (m - 1) (m - 1) p -> v <= psum (cst xs ys) p) -> warped_squares r xs ys d -> v <= d.
Proof.
  intros Hr Lx Ly H Hd. apply (opt_warped r xs ys m) in Hd; auto. destruct Hd as ((p & Hp & <-) & _). apply H. exact Hp.
Qed.

(** LB_Kim is a lower bound for queries of at least 6 numbers. *)
Theorem C49_kim_bound t ws ys m j mu sg b :
  (6 <= m)%Z -> Rlen ws = m -> Rlen ys = m -> sg <> 0 ->
  (forall k, (0 <= k < m)%Z -> aget t (k + j) = Ret (Some (Fin (Rpt ws k)))) ->
  exists v, lb_kim (N := XR) t (map Fin ys) j m (Fin mu) (Fin sg) (Fin b) = Ret (Fin v) /\
    forall r d, (0 <= r)%Z -> warped_squares r (scaled mu sg ws) ys d -> v <= d.
Proof.
  intros Hm Lw Ly Hsg Ht.
  assert (Hc : forall k, (0 <= k < m)%Z -> cell t (k + j) = Ret (Fin (Rpt ws k))) by (intros; apply cell_some; auto).
  destruct (kim_ok t ys m j m (Rpt ws) mu sg Hm Ly Hc b Hsg) as (v & E & _). exists v. split; [exact E|].
  intros r d Hr Hd. destruct (kim_ok t ys m j r (Rpt ws) mu sg Hm Ly Hc b Hsg) as (v' & E' & H').
  rewrite E in E'. injection E' as <-.
  apply (below_warped r (scaled mu sg ws) ys m); auto; [rewrite scaled_length; auto|].
  intros p Hp. specialize (H' p Hp). eapply Rle_trans; [exact H'|]. right. apply psum_same.
  intros x Hx. pose proof (bpath_in _ _ _ _ _ Hp Hx). unfold cst. rewrite scaled_pt by lia. reflexivity.
Qed.

(** LB_Keogh with the envelope of the query is a lower bound. *)
Theorem C49_keogh_bound order t ws ys l u uo lo cb m r j mu sg b :
  (1 <= m)%Z -> (0 <= r < m)%Z -> Rlen ws = m -> Rlen ys = m -> sg <> 0 ->
  (forall k, (0 <= k < m)%Z -> aget t (k + j) = Ret (Some (Fin (Rpt ws k)))) ->
  Permutation order (map Z.of_nat (seq 0 (Z.to_nat m))) ->
  lower_upper_lemire (N := XR) (map Fin ys) m r = Ret (l, u) ->
  (forall i, (0 <= i < m)%Z -> aget uo i = cell u (nth (Z.to_nat i) order 0%Z) /\ aget lo i = cell l (nth (Z.to_nat i) order 0%Z)) ->
  Z.of_nat (length cb) = m ->
  exists v cb', lb_keogh (N := XR) order t uo lo cb j m (Fin mu) (Fin sg) (Fin b) = Ret (Fin v, cb') /\
    forall d, warped_squares r (scaled mu sg ws) ys d -> v <= d.
Proof.
  intros Hm Hr Lw Ly Hsg Ht Hord El Henv Lcb.
  assert (Hc : forall k, (0 <= k < m)%Z -> cell t (k + j) = Ret (Fin (Rpt ws k))) by (intros; apply cell_some; auto).
  destruct (lemire_fin ys m r ltac:(lia) ltac:(lia)) as (l' & u' & lf & uf & El' & Hcell & HE).
  rewrite El in El'. injection El' as <- <-.
  pose proof (order_get m ltac:(lia) order Hord) as Hget.
  destruct (keogh_ok t m j ltac:(lia) order Hord (Rpt ws) lf uf mu sg Hsg Hc uo lo) with (cb := cb) (b := b) as (v & cb' & E & Hv & _ & _); auto.
  - intros i Hi. destruct (Henv i Hi) as (-> & _). destruct (Hget i Hi) as (_ & Ho). apply (Hcell _ Ho).
  - intros i Hi. destruct (Henv i Hi) as (_ & ->). destruct (Hget i Hi) as (_ & Ho). apply (Hcell _ Ho).
  - exists v, cb'. split; [exact E|]. intros d Hd.
    apply (below_warped r (scaled mu sg ws) ys m); auto; [lia|rewrite scaled_length; auto|].
    intros p Hp. eapply Rle_trans; [exact Hv|].
    set (w := w_out (fun k => (Rpt ws k - mu) / sg) lf uf).
    destruct (layers r (cst (scaled mu sg ws) ys) (fun i _ => i) w _ _ p slow_row ltac:(lia) (w_out_pos _ _ _) Hp) as (_ & HL).
    + intros x Hx. pose proof (bpath_in _ _ _ _ _ Hp Hx). pose proof (bpath_cells r ltac:(lia) _ _ _ _ Hp Hx).
      unfold cst. rewrite scaled_pt by lia. apply (w_out_le (fun k => (Rpt ws k - mu) / sg)), HE; lia.
    + replace (m - 1 + 1)%Z with m in HL by lia. rewrite (pre_0 _ 0) in HL by lia. lra.
Qed.

(** LB_Keogh with the envelope of the data is a lower bound. *)
Theorem C49_keogh_data_bound order data ys l u qo cb m r off mu sg b :
  (1 <= m)%Z -> (0 <= r < m)%Z -> (0 <= off)%Z -> (off + m <= Rlen data)%Z -> Rlen ys = m -> 0 < sg ->
  Permutation order (map Z.of_nat (seq 0 (Z.to_nat m))) ->
  lower_upper_lemire (N := XR) (map Fin data) (Rlen data) r = Ret (l, u) ->
  (forall i, (0 <= i < m)%Z -> aget qo i = Ret (Fin (Rpt ys (nth (Z.to_nat i) order 0%Z)))) ->
  Z.of_nat (length cb) = m ->
  exists v cb', lb_keogh_data (N := XR) order qo cb l u off m (Fin mu) (Fin sg) (Fin b) = Ret (Fin v, cb') /\
    forall d, warped_squares r (scaled mu sg (window data off m)) ys d -> v <= d.
Proof.
  intros Hm Hr Ho Hl Ly Hsg Hord El Hqo Lcb.
  destruct (lemire_fin data (Rlen data) r ltac:(lia) ltac:(lia)) as (l' & u' & lf & uf & El' & Hcell & HE).
  rewrite El in El'. injection El' as <- <-.
  assert (Lw : Rlen (window data off m) = m) by (apply window_length; lia).
  destruct (keogh_data_ok m off ltac:(lia) order Hord (Rpt ys) (fun k => lf (off + k)%Z) (fun k => uf (off + k)%Z) mu sg ltac:(lra) l u)
    with (qo := qo) (cb := cb) (b := b) as (v & cb' & E & Hv & _ & _); auto.
  - intros k Hk. apply Hcell. lia.
  - intros k Hk. apply Hcell. lia.
  - exists v, cb'. split; [exact E|]. intros d Hd.
    apply (below_warped r (scaled mu sg (window data off m)) ys m); auto; [lia|rewrite scaled_length; auto|].
    intros p Hp. eapply Rle_trans; [exact Hv|].
    match goal with |- pre ?w0 m <= _ => set (w := w0) end.
    destruct (layers r (cst (scaled mu sg (window data off m)) ys) (fun _ j => j) w _ _ p slow_col ltac:(lia) (w_out_pos _ _ _) Hp) as (_ & HL).
    + intros x Hx. pose proof (bpath_in _ _ _ _ _ Hp Hx). pose proof (bpath_cells r ltac:(lia) _ _ _ _ Hp Hx).
      unfold cst. rewrite scaled_pt, window_pt by lia.
      replace (((Rpt data (off + fst x) - mu) / sg - Rpt ys (snd x)) * ((Rpt data (off + fst x) - mu) / sg - Rpt ys (snd x)))
        with ((Rpt ys (snd x) - (Rpt data (off + fst x) - mu) / sg) * (Rpt ys (snd x) - (Rpt data (off + fst x) - mu) / sg)) by ring.
      apply (w_out_le (Rpt ys)).
      assert (HI : 0 < / sg) by (apply Rinv_0_lt_compat; exact Hsg).
      destruct (HE (off + snd x)%Z (off + fst x)%Z ltac:(lia) ltac:(lia) ltac:(lia)) as (Q1 & Q2).
      split; apply Rmult_le_compat_r; lra.
    + replace (m - 1 + 1)%Z with m in HL by lia. rewrite (pre_0 _ 0) in HL by lia. lra.
Qed.

(** With 3 numbers LB_Kim is no lower bound: the middle one is counted twice. *)
Theorem C49_kim_bound_refuted :
  ~ (forall t ws ys m j mu sg b v r d, (3 <= m)%Z -> Rlen ws = m -> Rlen ys = m -> sg <> 0 ->
      (forall k, (0 <= k < m)%Z -> aget t (k + j) = Ret (Some (Fin (Rpt ws k)))) ->
      lb_kim (N := XR) t (map Fin ys) j m (Fin mu) (Fin sg) (Fin b) = Ret (Fin v) ->
      (0 <= r)%Z -> warped_squares r (scaled mu sg ws) ys d -> v <= d).
Proof.
  intros H.
  set (ws := [0; 5; 0]). set (ys := [0; 10; 0]).
  set (t := map Some (map Fin ws) : list (option (D XR))).
  assert (Ht : forall k, (0 <= k < 3)%Z -> aget t (k + 0) = Ret (Some (Fin (Rpt ws k)))).
  { intros k Hk. assert (k = 0 \/ k = 1 \/ k = 2)%Z as [->|[->| ->]] by lia; reflexivity. }
  assert (E : lb_kim (N := XR) t (map Fin ys) 0 3 (Fin 0) (Fin 1) (Fin 100) = Ret (Fin 50)).
  { unfold lb_kim.
    change (cell t 0) with (Ret (Fin 0)). change (cell t (3 - 1 + 0)) with (Ret (Fin 0)).
    change (cell t (0 + 1)) with (Ret (Fin 5)). change (cell t (3 - 2 + 0)) with (Ret (Fin 5)).
    change (cell t (0 + 2)) with (Ret (Fin 0)). change (cell t (3 - 3 + 0)) with (Ret (Fin 0)).
    change (@aget (D XR) (map Fin ys) 0) with (Ret (Fin 0)). change (@aget (D XR) (map Fin ys) (3 - 1)) with (Ret (Fin 0)).
    change (@aget (D XR) (map Fin ys) 1) with (Ret (Fin 10)). change (@aget (D XR) (map Fin ys) (3 - 2)) with (Ret (Fin 10)).
    change (@aget (D XR) (map Fin ys) 2) with (Ret (Fin 0)). change (@aget (D XR) (map Fin ys) (3 - 3)) with (Ret (Fin 0)).
    cbn [bind]. cbv zeta. rewrite !zn_fin by lra. rewrite !sqd_fin, !cmin_fin. rewrite !nadd_fin, !nge_fin.
    repeat match goal with |- context [Rmin ?x ?y] =>
      first [ rewrite (Rmin_left x y) by lra | rewrite (Rmin_right x y) by lra ] end.
    repeat (match goal with |- context [Rle_bool ?x ?y] => rewrite (Rle_bool_false x y) by lra end; cbv iota).
    do 2 f_equal. lra. }
  assert (Hw : warped_squares 0 (scaled 0 1 ws) ys 25).
  { apply (opt_warped 0 _ _ 3); [lia|reflexivity|reflexivity|].
    assert (Hp : forall i j p, bpath 0 i j p -> i = j /\ (i = 0%Z -> p = [(0, 0)]%Z) /\ (i = 1%Z -> p = [(0, 0); (1, 1)]%Z) /\
      (i = 2%Z -> p = [(0, 0); (1, 1); (2, 2)]%Z) /\ (0 <= i)%Z).
    { induction 1 as [|i j i' j' p Hb (IH1 & IH2 & IH3 & IH4 & IH5) Hs Hd]; [splits; auto; lia|].
      apply wstep_cases in Hs. assert (i' = i + 1 /\ j' = i + 1)%Z as (-> & ->) by lia.
      splits; auto; try lia; intros Ei.
      - rewrite IH2 by lia. replace i with 0%Z by lia. reflexivity.
      - rewrite IH3 by lia. replace i with 1%Z by lia. reflexivity. }
    assert (P : psum (cst (scaled 0 1 ws) ys) [(0, 0); (1, 1); (2, 2)]%Z = 25).
    { change (((0 - 0) / 1 - 0) * ((0 - 0) / 1 - 0) + (((5 - 0) / 1 - 10) * ((5 - 0) / 1 - 10) +
        (((0 - 0) / 1 - 0) * ((0 - 0) / 1 - 0) + 0)) = 25). field. }
    split.
    - destruct (bpath_exists 0 2 2) as (p & Hb); try lia. exists p. split; [exact Hb|].
      destruct (Hp _ _ _ Hb) as (_ & _ & _ & -> & _); [|reflexivity].
      rewrite P. lra.
    - intros p Hb. destruct (Hp _ _ _ Hb) as (_ & _ & _ & -> & _); [|reflexivity].
      rewrite P. lra. }
  specialize (H t ws ys 3%Z 0%Z 0 1 100 50 0%Z 25 ltac:(lia) eq_refl eq_refl ltac:(lra) Ht E ltac:(lia) Hw). lra.
Qed.

(** ** C50 *)
(** Whatever the arithmetic and whatever the numbers (NaN and infinities
    included), the search of a file of numbers stays inside its arrays, reads no
    cell that was not written, and ends with a report about a window of the file.
    The one exception is a comparison of the sort that does not fit an int, and
    whether that happens depends on the query file only. *)
Theorem C50_in_bounds {N : Num} sort data query junk m r :
  arranges (A := D N) sort -> (3 <= m <= 100000)%Z -> (0 <= r < m)%Z ->
  (m <= Z.of_nat (length query))%Z -> (Z.of_nat (length data) <= int_max)%Z ->
  (exists rp, calculate sort (Some (mkStream data false)) (Some (mkStream query junk)) m r = Ret (Reported rp) /\
    (0 <= rp_loc rp <= Z.max 0 (Z.of_nat (length data) - m))%Z) \/
  (forall data', calculate sort (Some data') (Some (mkStream query junk)) m r = UB BadConversion).
Proof.
  intros Hs Hm Hr Hq Hint.
  destruct (calculate_any EPOCH sort data query junk m r Hs ltac:(unfold EPOCH; lia) ltac:(unfold EPOCH; lia) Hr Hq Hint)
    as [(rp & E & Hl & _)|(_ & E)]; [left; exists rp; auto|right].
  intros f. unfold calculate, calculate_with. destruct (Z.ltb_spec m 0); [lia|]. rewrite E. reflexivity.
Qed.

(** With exact numbers that exception needs a query of equal numbers. *)
Theorem C50_in_bounds_exact sort data query m r :
  arranges sort -> (6 <= m <= 100000)%Z -> (0 <= r < m)%Z -> (m <= Rlen query)%Z -> ~ flat (window query 0 m) ->
  (Rlen data <= int_max)%Z ->
  exists rp, calculate sort (Some (numbers data)) (Some (numbers query)) m r = Ret (Reported rp).
Proof.
  intros Hs Hm Hr Lq Fq Hint.
  destruct (calculate_ok EPOCH sort data query false m r Hs ltac:(unfold EPOCH; lia) ltac:(unfold EPOCH; lia) Hr Lq Fq Hint)
    as (rp & E & _). exists rp. exact E.
Qed.

(** A data file with text in it never gives a report. *)
Theorem C50_text {N : Num} sort data query m r rp :
  (1 <= m <= 100000)%Z -> st_junk (N := N) data = true -> calculate sort (Some data) (Some query) m r <> Ret (Reported rp).
Proof.
  intros Hm Hj. unfold calculate, calculate_with. destruct (Z.ltb_spec m 0); [lia|].
  destruct (prepare_query sort query m r) as [(p & d)| | |]; cbn [bind]; try discriminate.
  match goal with |- context [chunks ?n p EPOCH m r 0 d data ?b ?s0] =>
    pose proof (chunks_text n p EPOCH m r 0 d data b s0) as Hc;
    destruct (chunks n p EPOCH m r 0 d data b s0) as [x| | |]; cbn [bind]; try discriminate end.
  exfalso. apply (Hc x); auto.
Qed.

(** ** Witnesses in double arithmetic *)
Definition doubles (l : list Z) : stream (N := B64) := mkStream (N := B64) (map (@nofZ B64) l) false.
Definition in_order {A} (l : list A) : list Z := map Z.of_nat (seq 0 (length l)).

Lemma in_order_arranges {A} : arranges (A := A) in_order.
Proof. intros l. apply Permutation_refl. Qed.

(** the location and a comparison of the distance *)
Definition seen (e : res (finish (N := B64))) : option (Z * Z * bool) :=
  match e with
  | Ret (Reported rp) =>
      match nfloor (nmul (nofZ 1000) (rp_dist rp)) with Some k => Some (rp_loc rp, k, nltb (nofZ 1) (rp_dist rp)) | None => None end
  | _ => None
  end.

(** the reason of undefined behaviour *)
Definition broken {A} (e : res A) : option ub := match e with UB w => Some w | _ => None end.

Lemma broken_inv {A} (e : res A) w : broken e = Some w -> e = UB w.
Proof. destruct e; cbn [broken]; try discriminate. intros [= ->]. reflexivity. Qed.

Lemma seen_far e l k : seen e = Some (l, k, true) -> exists rp, e = Ret (Reported rp) /\ nltb (nofZ 1) (rp_dist rp) = true.
Proof.
  destruct e as [[|rp]| | |]; cbn [seen]; try discriminate. intros G. exists rp. split; [reflexivity|].
  destruct (nltb _ _); [reflexivity|]. destruct (nfloor _); discriminate.
Qed.

(** both searches report, and the second distance is smaller *)
Definition smaller (e e' : res (finish (N := B64))) : bool :=
  match e, e' with Ret (Reported a), Ret (Reported b) => nltb (rp_dist b) (rp_dist a) | _, _ => false end.

Lemma smaller_inv e e' : smaller e e' = true ->
  exists rp rp', e = Ret (Reported rp) /\ e' = Ret (Reported rp') /\ nltb (rp_dist rp') (rp_dist rp) = true.
Proof.
  destruct e as [[|rp]| | |]; cbn [smaller]; try discriminate. destruct e' as [[|rp']| | |]; try discriminate.
  intros H. exists rp, rp'. auto.
Qed.

Example ex_seen : seen (calculate in_order (Some (doubles [7; 1; 5; 5; 2; 8; 3; 8; 1; 2; 9; 5; 3; 1]%Z)) (Some (doubles [3; 8; 1; 2; 9; 5]%Z)) 6 1)
  = Some (6%Z, 0%Z, false).
Proof. vm_compute. reflexivity. Qed.

(** Cutting off data must not bring the reported distance down: refuted for
    queries of 3 numbers, because LB_Kim drops the nearest window. *)
Theorem C48_short_query_refuted :
  ~ (forall sort data query m r k rp rp', arranges sort -> (3 <= m <= 100000)%Z -> (0 <= r < m)%Z ->
      calculate (N := B64) sort (Some (mkStream data false)) (Some query) m r = Ret (Reported rp) ->
      calculate (N := B64) sort (Some (mkStream (skipn k data) false)) (Some query) m r = Ret (Reported rp') ->
      nltb (rp_dist rp') (rp_dist rp) = false).
Proof.
  intros H.
  set (data := map (@nofZ B64) [1; 1; 2; 4]%Z). set (query := doubles [1; 2; 2]%Z).
  destruct (smaller_inv (calculate in_order (Some (mkStream (N := B64) data false)) (Some query) 3 1)
              (calculate in_order (Some (mkStream (N := B64) (skipn 1 data) false)) (Some query) 3 1)) as (rp & rp' & E & E' & G).
  { vm_compute. reflexivity. }
  rewrite (H in_order data query 3%Z 1%Z 1%nat rp rp' in_order_arranges ltac:(lia) ltac:(lia) E E') in G. discriminate.
Qed.

(** In double arithmetic a copy of the query need not be found: the running sums
    of a file keep the rounding errors of a large number after it has left the
    window. *)
Theorem C48_copy_refuted :
  ~ (forall sort data query m r k rp, arranges sort -> (6 <= m <= 100000)%Z -> (0 <= r < m)%Z ->
      firstn (Z.to_nat m) (skipn k data) = firstn (Z.to_nat m) query ->
      calculate (N := B64) sort (Some (mkStream data false)) (Some (mkStream query false)) m r = Ret (Reported rp) ->
      nltb (nofZ 1) (rp_dist rp) = false).
Proof.
  intros H.
  set (data := map (@nofZ B64) [7; 1; 5; 5; 2; 8; 1000000000; 3; 8; 1; 2; 9; 5; 3; 1]%Z). set (query := map (@nofZ B64) [3; 8; 1; 2; 9; 5]%Z).
  destruct (seen_far (calculate in_order (Some (mkStream (N := B64) data false)) (Some (mkStream (N := B64) query false)) 6 1) 7 1377)
    as (rp & E & G).
  { vm_compute. reflexivity. }
  rewrite (H in_order data query 6%Z 1%Z 7%nat rp in_order_arranges ltac:(lia) ltac:(lia) eq_refl E) in G. discriminate.
Qed.

(** The conditions of C50_in_bounds are needed: a band as wide as the query, 2
    numbers, or a query file with too few numbers lead outside an array or to a
    cell never written; equal numbers make the comparison of the sort undefined. *)
Theorem C50_conditions_refuted :
  let data := Some (doubles [7; 1; 5; 5; 2; 8; 3; 8; 1; 2; 9; 5; 3; 1]%Z) in
  calculate in_order data (Some (doubles [3; 8; 1; 2; 9; 5]%Z)) 6 6 = UB OutOfBounds /\
  calculate in_order data (Some (doubles [3; 8]%Z)) 2 1 = UB OutOfBounds /\
  calculate in_order data (Some (doubles [3; 8; 1]%Z)) 6 1 = UB Uninit /\
  calculate in_order data (Some (doubles [3; 3; 3; 3; 3; 3]%Z)) 6 1 = UB BadConversion.
Proof. intros data. split; [|split; [|split]]; apply broken_inv; vm_compute; reflexivity. Qed.

(** The comparison of the sort is no order: 0 and 0.6 count as equal, so do 0.6
    and 1.2, but 0 and 1.2 do not. *)
Theorem C50_comparison_refuted :
  ~ (forall x y z : D B64, index_diff x y = Ret 0%Z -> index_diff y z = Ret 0%Z -> index_diff x z = Ret 0%Z).
Proof.
  intros H.
  specialize (H n0 (ndiv (nofZ 3) (nofZ 5)) (ndiv (nofZ 6) (nofZ 5)) ltac:(vm_compute; reflexivity) ltac:(vm_compute; reflexivity)).
  vm_compute in H. discriminate.
Qed.

(** ** The hypotheses are met *)
Definition ex_data : list R := [7; 1; 5; 5; 2; 8; 3; 8; 1; 2; 9; 5; 3; 1].
Definition ex_query : list R := [3; 8; 1; 2; 9; 5].

Lemma ex_varies : ~ flat (window ex_query 0 6).
Proof.
  intros H. assert (E : 3 = 8); [|apply eq_IZR in E; discriminate]. apply H; [left|right; left]; reflexivity.
Qed.

Example ex_nearest : exists rp d, calculate in_order (Some (numbers ex_data)) (Some (numbers ex_query)) 6 1 = Ret (Reported rp) /\
  rp_dist rp = Fin d /\ nearest_window 1 ex_data (window ex_query 0 6) (rp_loc rp) d /\ rp_scanned rp = Rlen ex_data.
Proof.
  apply C48_nearest_window; try (vm_compute; intuition discriminate); [apply in_order_arranges|apply ex_varies|].
  exists 6%Z. split; [vm_compute; intuition discriminate|]. 
  intros H. assert (E : 3 = 8); [|apply eq_IZR in E; discriminate]. apply H; [left|right; left]; reflexivity.
Qed.

Print Assumptions C48_nearest_window.
Print Assumptions C48_determined.
Print Assumptions C48_no_window.
Print Assumptions C48_pruned.
Print Assumptions C48_no_file.
Print Assumptions C48_short_query_refuted.
Print Assumptions C48_copy_refuted.
Print Assumptions C49_dtw.
Print Assumptions C49_kim_bound.
Print Assumptions C49_keogh_bound.
Print Assumptions C49_keogh_data_bound.
Print Assumptions C49_kim_bound_refuted.
Print Assumptions C50_in_bounds.
Print Assumptions C50_in_bounds_exact.
Print Assumptions C50_text.
Print Assumptions C50_conditions_refuted.
Print Assumptions C50_comparison_refuted.
