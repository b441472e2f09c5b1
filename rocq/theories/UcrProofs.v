(** The query, and calculate as a whole, in exact arithmetic. *)
From Coq Require Import Reals Lra Permutation.
From Flocq Require Import Core.Raux.
From Verif Require Import Base Num NumLaws NumXR NumXRLaws Lemire Ucr DtwSpec DtwPaths LoopFacts
  DtwReal UcrReal UcrDtw UcrBounds UcrSpec UcrNorm UcrWindow UcrChunk.
Local Open Scope R_scope.

Lemma build_get {A} (f : Z -> res A) (g : Z -> A) n : (0 <= n)%Z -> (forall k, (0 <= k < n)%Z -> f k = Ret (g k)) ->
  exists l, build n f = Ret l /\ forall k, (0 <= k < n)%Z -> aget l k = Ret (g k).
Proof.
  intros Hn Hf. exists (map g (zseq n)).
  assert (L : Z.of_nat (length (map g (zseq n))) = n) by (rewrite map_length; apply zseq_length; auto).
  assert (Hnth : forall k, (0 <= k < n)%Z -> nth (Z.to_nat k) (map g (zseq n)) (g 0%Z) = g k).
  { intros k Hk. rewrite map_nth, zseq_nth by auto. reflexivity. }
  split.
  - apply (build_ok f (g 0%Z)); auto. intros k Hk. rewrite Hf, Hnth by auto. reflexivity.
  - intros k Hk. rewrite (aget_nth _ _ (g 0%Z)) by lia. rewrite Hnth by auto. reflexivity.
Qed.

Section Query.
Variables ql : list R.
Variables m r : Z.
Hypothesis Hm : (6 <= m <= 1000000000)%Z.
Hypothesis Hr : (0 <= r < m)%Z.
Hypothesis Lq : (m <= Rlen ql)%Z.
Definition qwin : list R := window ql 0 m.
Hypothesis Fq : ~ flat qwin.
Variable sort : list (D XR) -> list Z.
Hypothesis Hsort : arranges sort.

Lemma read_query_ok junk n : forall i d (q : list (option (D XR))), (0 <= i)%Z -> (i + Z.of_nat n = m)%Z ->
  Z.of_nat (length q) = m -> (forall k, (0 <= k < i)%Z -> cell q k = Ret (Fin (Rpt ql k))) ->
  exists d' q', read_query (N := XR) n i d (mkStream (N := XR) (map Fin (skipn (Z.to_nat i) ql)) junk) q
      (Fin (Rsum (window ql 0 i))) (Fin (Rsum (squares (window ql 0 i)))) =
    Ret (d', q', Fin (Rsum qwin), Fin (Rsum (squares qwin))) /\
    forall k, (0 <= k < m)%Z -> cell q' k = Ret (Fin (Rpt ql k)).
Proof.
  induction n as [|n IH]; intros i d q Hi Hn Lq' Hc.
  - assert (i = m) by lia. subst i. cbn [read_query]. destruct (fscan _ _) as ((go & d') & s'). exists d', q. split; auto.
  - cbn [read_query]. unfold fscan. cbn [st_vals st_junk]. rewrite skipn_cons by lia. cbn [map negb init_get bind].
    rewrite aset_in by lia. cbn [bind].
    change (@nmul XR (Fin (Rpt ql i)) (Fin (Rpt ql i))) with (Fin (Rpt ql i * Rpt ql i)). rewrite !nadd_fin.
    assert (E : window ql 0 (i + 1) = window ql 0 i ++ [Rpt ql i]) by (rewrite window_snoc by lia; reflexivity).
    replace (Rsum (window ql 0 i) + Rpt ql i) with (Rsum (window ql 0 (i + 1))).
    2:{ rewrite E, Rsum_app. unfold Rsum at 2. cbn [fold_right]. lra. }
    replace (Rsum (squares (window ql 0 i)) + Rpt ql i * Rpt ql i) with (Rsum (squares (window ql 0 (i + 1)))).
    2:{ rewrite E, squares_app, Rsum_app. unfold Rsum at 2. cbn [squares map fold_right]. lra. }
    apply IH; try lia.
    + rewrite upd_length. exact Lq'.
    + intros k Hk. destruct (Z.eq_dec k i) as [->|].
      * apply cell_upd_same. lia.
      * rewrite cell_upd_other by lia. apply Hc. lia.
Qed.

Lemma qwin_length : Rlen qwin = m.
Proof. apply window_length; lia. Qed.

Lemma index_diff_ok x y : x * x <= IZR m -> y * y <= IZR m -> exists k, index_diff (N := XR) (Fin x) (Fin y) = Ret k.
Proof.
  intros Hx Hy. unfold index_diff.
  change (@nsub XR (@nabs XR (Fin y)) (@nabs XR (Fin x))) with (Fin (Rabs y - Rabs x)).
  assert (Hb : forall z, z * z <= IZR m -> 0 <= Rabs z <= IZR m).
  { intros z Hz. split; [apply Rabs_pos|]. assert (1 <= IZR m) by (apply (IZR_le 1); lia).
    destruct (Rle_or_lt (Rabs z) (IZR m)) as [|Hzz]; auto. exfalso.
    assert (z * z = Rabs z * Rabs z) by (rewrite <- Rabs_mult; symmetry; apply Rabs_pos_eq, Rle_0_sqr).
    assert (IZR m * IZR m < Rabs z * Rabs z) by (apply Rmult_le_0_lt_compat; lra). nra. }
  pose proof (Hb x Hx). pose proof (Hb y Hy). set (z := Rabs y - Rabs x) in *.
  assert (Hz : Rabs z <= IZR m) by (apply Rabs_le; unfold z; lra).
  assert (H1 : (0 <= Zfloor (Rabs z) <= m)%Z).
  { split; [apply Zfloor_lub, Rabs_pos|]. apply le_IZR. apply Rle_trans with (2 := Hz). apply Zfloor_lb. }
  unfold trunc. change (@nltb XR (Fin z) n0) with (Rlt_bool z 0).
  change (@nfloor XR (@nabs XR (Fin z))) with (Some (Zfloor (Rabs z))). change (@nfloor XR (Fin z)) with (Some (Zfloor z)).
  assert (Hi : forall k, (Z.abs k <= m)%Z -> exists k', (if (int_min <=? k)%Z && (k <=? int_max)%Z then Ret k else UB BadConversion) = Ret k').
  { intros k Hk. destruct (Z.leb_spec int_min k), (Z.leb_spec k int_max); cbn [andb]; eauto; unfold int_min, int_max in *; lia. }
  destruct (Rlt_bool_spec z 0) as [Hn|Hn]; cbn [option_map].
  - apply Hi. lia.
  - apply Hi. rewrite <- (Rabs_pos_eq z Hn). lia.
Qed.

Lemma sort_ok : sort_query (N := XR) sort (map Fin (znorm qwin)) = Ret (sort (map Fin (znorm qwin))).
Proof.
  unfold sort_query.
  assert (Hb : forall x, In x (znorm qwin) -> x * x <= IZR m).
  { intros x Hx. apply (In_nth _ _ 0) in Hx as (n & Hn & <-).
    pose proof qwin_length as L. pose proof (znorm_length qwin) as L'.
    pose proof (znorm_bound qwin ltac:(lia) (Z.of_nat n) Fq) as H. rewrite L in H. unfold Rpt in H. rewrite Nat2Z.id in H.
    apply H. unfold Rlen in *. lia. }
  match goal with |- (if ?b then _ else _) = _ => assert (E : b = true) end.
  { apply forallb_forall. intros x Hx. apply in_map_iff in Hx as (x' & <- & Hx').
    apply forallb_forall. intros y Hy. apply in_map_iff in Hy as (y' & <- & Hy').
    destruct (index_diff_ok x' y' (Hb _ Hx') (Hb _ Hy')) as (k & ->). reflexivity. }
  rewrite E. reflexivity.
Qed.

Lemma sort_perm : Permutation (sort (map Fin (znorm qwin))) (zseq m).
Proof.
  eapply Permutation_trans; [apply Hsort|]. pose proof qwin_length as L. pose proof (znorm_length qwin) as L'.
  unfold zseq. rewrite map_length. unfold Rlen in *. replace (length (znorm qwin)) with (Z.to_nat m) by lia. apply Permutation_refl.
Qed.

Lemma prepare_ok junk : exists p d, prepare_query (N := XR) sort (mkStream (N := XR) (map Fin ql) junk) m r = Ret (p, d) /\
  good_query qwin m r p.
Proof.
  unfold prepare_query. pose proof qwin_length as Lw.
  destruct (read_query_ok junk (Z.to_nat m) 0 None (repeat None (Z.to_nat m))) as (d & q & E & Hc); try lia.
  { rewrite repeat_length. lia. }
  change (Fin (Rsum (window ql 0 0))) with (@n0 XR) in E. change (Fin (Rsum (squares (window ql 0 0)))) with (@n0 XR) in E.
  cbn [Z.to_nat skipn] in E. rewrite E. cbn [bind].
  assert (Ew : win qwin m 0 = qwin) by (unfold win; apply window_all; exact Lw).
  pose proof (mean_fin qwin m Hm 0 ltac:(lia) ltac:(lia)) as Emu. pose proof (std_fin qwin m Hm 0 ltac:(lia) ltac:(lia)) as Esg.
  rewrite Ew in Emu, Esg. rewrite Emu, Esg.
  assert (Hsg : 0 < deviation qwin) by (apply deviation_pos; [lia|exact Fq]).
  rewrite (build_fin _ (znorm qwin) m).
  2: rewrite znorm_length; lia.
  2:{ intros k Hk. rewrite Hc by auto. cbn [bind]. rewrite zn_fin by lra. rewrite znorm_pt by lia.
      unfold qwin at 3. rewrite window_pt by lia. reflexivity. }
  cbn [bind].
  destruct (lemire_fin (znorm qwin) m r) as (l & u & lf & uf & EL & Hcell & Henv); [rewrite znorm_length; lia|lia|].
  rewrite EL. cbn [bind]. rewrite sort_ok. cbn [bind]. set (order := sort _).
  assert (Hord : Permutation order (zseq m)) by apply sort_perm.
  pose proof (order_get m ltac:(lia) order Hord) as Hget.
  match goal with |- context [build m ?f] =>
    destruct (build_get f (fun i => Fin (Rpt (znorm qwin) (ord order i))) m ltac:(lia)) as (qo & Eqo & Hqo) end.
  { intros k Hk. destruct (Hget k Hk) as (G1 & G2). rewrite G1. cbn [bind]. apply aget_fin. rewrite znorm_length. lia. }
  rewrite Eqo. cbn [bind].
  match goal with |- context [build m ?f] =>
    destruct (build_get f (fun i => Fin (uf (ord order i))) m ltac:(lia)) as (uo & Euo & Huo) end.
  { intros k Hk. destruct (Hget k Hk) as (G1 & G2). rewrite G1. cbn [bind]. apply Hcell. exact G2. }
  rewrite Euo. cbn [bind].
  match goal with |- context [build m ?f] =>
    destruct (build_get f (fun i => Fin (lf (ord order i))) m ltac:(lia)) as (lo & Elo & Hlo) end.
  { intros k Hk. destruct (Hget k Hk) as (G1 & G2). rewrite G1. cbn [bind]. apply Hcell. exact G2. }
  rewrite Elo. cbn [bind].
  eexists _, d. split; [reflexivity|]. constructor; cbn [p_q p_order p_qo p_uo p_lo]; auto.
  exists lf, uf. splits; auto.
Qed.
End Query.

Lemma warped_pos r xs ys v : warped_squares r xs ys v -> 0 <= v.
Proof.
  intros ((p & _ & _ & <-) & _). unfold path_sum.
  induction p as [|c p IH]; simpl; [lra|]. pose proof (Rle_0_sqr (Rpt xs (fst c) - Rpt ys (snd c))) as H.
  unfold Rsqr in H. lra.
Qed.

Lemma nsqrt_fin v : 0 <= v -> @nsqrt XR (Fin v) = Fin (sqrt v).
Proof. intros H. cbn. destruct (Rlt_bool_spec v 0); [lra|reflexivity]. Qed.

Lemma sqrt_inf : sqrt INFR = 10000000000.
Proof.
  unfold INFR. replace (IZR (10 ^ 20)) with (10000000000 * 10000000000).
  - apply sqrt_square. lra.
  - rewrite <- mult_IZR. reflexivity.
Qed.

Lemma best_nearest ds qs m r b loc : (0 <= r)%Z -> Rlen qs = m ->
  best ds qs m r (Z.max 0 (Rlen ds - m + 1)) b loc ->
  (b = INFR /\ loc = 0%Z /\ forall k, (0 <= k <= Rlen ds - m)%Z -> flat (window ds k m)) \/
  (0 <= b /\ nearest_window r ds qs loc (sqrt b)).
Proof.
  intros Hr Lq [(-> & -> & Hf)|(H1 & H2 & H3 & H4)].
  - left. splits; auto. intros k Hk. apply Hf. lia.
  - right. pose proof (warped_pos _ _ _ _ H3) as Hb. split; auto. unfold nearest_window. rewrite Lq. splits; auto; try lia.
    + exists b. split; auto.
    + intros k d' Hk Fk (v & Hv & ->). destruct (H4 k v ltac:(lia) Fk Hv) as (A & B).
      split; [apply sqrt_le_1_alt; exact A|]. intros Hlt. apply sqrt_lt_1_alt. split; [exact Hb|]. apply B. exact Hlt.
Qed.

Lemma calculate_ok epoch sort ds ql junk m r : arranges sort -> (6 <= m <= epoch)%Z -> (epoch <= 1000000)%Z -> (0 <= r < m)%Z ->
  (m <= Rlen ql)%Z -> ~ flat (window ql 0 m) -> (Rlen ds <= int_max)%Z ->
  exists rp, calculate_with (N := XR) epoch sort (Some (mkStream (N := XR) (map Fin ds) false))
      (Some (mkStream (N := XR) (map Fin ql) junk)) m r = Ret (Reported rp) /\
    rp_scanned rp = Z.max (Rlen ds) (m - 1) /\
    (0 <= rp_kim rp)%Z /\ (0 <= rp_keogh rp)%Z /\ (0 <= rp_keogh2 rp)%Z /\
    (rp_kim rp + rp_keogh rp + rp_keogh2 rp <= Z.max 0 (Rlen ds - m + 1))%Z /\
    ((exists d, rp_dist rp = Fin d /\ nearest_window r ds (window ql 0 m) (rp_loc rp) d) \/
     (rp_loc rp = 0%Z /\ rp_dist rp = Fin 10000000000 /\ forall k, (0 <= k <= Rlen ds - m)%Z -> flat (window ds k m))).
Proof.
  intros Hs Hm He Hr Lq Fq Hint. unfold calculate_with. destruct (Z.ltb_spec m 0); [lia|].
  destruct (prepare_ok ql m r ltac:(lia) ltac:(lia) Lq Fq sort Hs junk) as (p & d & Ep & Gp). rewrite Ep. cbn [bind].
  assert (Lw : Rlen (window ql 0 m) = m) by (apply window_length; lia).
  match goal with |- context [chunks ?n p epoch m r 0 d ?f ?b ?s] =>
    destruct (chunks_ok ds (window ql 0 m) m r ltac:(lia) Hr Lw Fq Hint p Gp epoch ltac:(lia) n 0%Z 0%Z d f b s)
      as (s' & it & ep & base & E & Eb & Hsc & Hf); try lia; try reflexivity end.
  - rewrite repeat_length. lia.
  - cbn [u_t]. rewrite repeat_length. lia.
  - split; [unfold counts_ok, skipped; cbn; lia|]. split.
    + unfold cbs_ok. cbn [u_cb1 u_cb2]. rewrite repeat_length. lia.
    + exists INFR. split; [apply inf_fin|]. left. splits; auto. intros; lia.
  - rewrite E. cbn [bind]. rewrite Eb. cbn [bind]. eexists. split; [reflexivity|]. cbn [rp_scanned rp_kim rp_keogh rp_keogh2 rp_loc rp_dist].
    destruct Hf as ((C1 & C2 & C3 & C4) & _ & b & Ebsf & Hb). unfold skipped in C4. splits; auto.
    destruct (best_nearest ds (window ql 0 m) m r b (u_loc s') ltac:(lia) Lw Hb) as [(-> & El & Hfl)|(Hb0 & Hn)].
    + right. rewrite Ebsf, El. splits; auto. rewrite nsqrt_fin, sqrt_inf; [reflexivity|]. unfold INFR. apply (IZR_le 0). lia.
    + left. exists (sqrt b). rewrite Ebsf, nsqrt_fin by auto. split; auto.
Qed.
