(** C77: what the distances "cosine" and "sorensen" compute. *)
From Coq Require Import Reals Lra String.
From Flocq Require Import Core.Raux.
From Verif Require Import Base Num NumB64 NumB64Laws NumLaws NumFacts NumXR NumXRLaws LoopFacts TimeSeries Distance DtwSpec DtwPaths
  DtwReal DistSpec Pairwise WarpPath CosineSpec PropsDistance.
Local Open Scope Z_scope.
Local Open Scope list_scope.

(** ** The model's accumulators are the sums of the specification *)
Section Acc.
Context {N : Num}.
Variables a b : TS N.
Notation xs := (ts_points a).
Notation ys := (ts_points b).

Lemma cosine_acc p : path_acc Cosine a b p
  = (total (fun x _ => nmul x x) (met xs ys p), total (fun _ y => nmul y y) (met xs ys p), total (fun x y => nmul x y) (met xs ys p)).
Proof.
  unfold path_acc, total, met. cbn [m_init Cosine]. generalize (@n0 N) at 1 4 as s0. generalize (@n0 N) at 1 3 as s1. generalize (@n0 N) as s2.
  induction p as [|c p IH]; intros s2 s1 s0; [reflexivity|]. cbn [fold_left map fst snd]. cbn [m_reduce Cosine]. rewrite IH. reflexivity.
Qed.

Lemma sorensen_acc p : path_acc Sorensen a b p
  = (total (fun x y => nabs (nsub x y)) (met xs ys p), total (fun x y => nabs (nadd x y)) (met xs ys p)).
Proof.
  unfold path_acc, total, met. cbn [m_init Sorensen]. generalize (@n0 N) at 1 3 as s0. generalize (@n0 N) as s1.
  induction p as [|c p IH]; intros s1 s0; [reflexivity|]. cbn [fold_left map fst snd]. cbn [m_reduce Sorensen]. rewrite IH. reflexivity.
Qed.
End Acc.

Lemma met_diag {N : Num} (xs ys : list (D N)) : length xs = length ys -> met xs ys (diag (length xs)) = combine xs ys.
Proof.
  intros Hl. apply nth_ext with (d := (n0, n0)) (d' := (n0, n0)).
  - unfold met, diag. rewrite !map_length, seq_length, combine_length. lia.
  - intros i Hi. unfold met, diag in *. rewrite !map_length, seq_length in Hi. rewrite combine_nth by exact Hl. rewrite map_map.
    rewrite nth_indep with (d' := (fun i => (nthd xs (Z.of_nat i), nthd ys (Z.of_nat i))) 0%nat) by (rewrite map_length, seq_length; exact Hi).
    rewrite (map_nth (fun i => (nthd xs (Z.of_nat i), nthd ys (Z.of_nat i)))), seq_nth by exact Hi. unfold nthd. rewrite !Nat2Z.id. reflexivity.
Qed.

(** the two names, with and without warping *)
Definition measure (warped : bool) (cos : bool) : string :=
  ((if cos then "cosine" else "sorensen") ++ (if warped then "_dtw" else ""))%string.
Definition formula {N : Num} (cos : bool) (ps : list (D N * D N)) : D N := if cos then cosine_of ps else sorensen_of ps.

Lemma points_len {N : Num} (a : TS N) : ts_ok a -> ts_length a = Z.of_nat (length (ts_points a)).
Proof. intros Ha. symmetry. apply ts_points_length, Ha. Qed.

Section Any.
Context {N : Num} {L : NumLaws N}.

Lemma straight_call (cos : bool) (ratio : D N) (a b : TS N) cut mt : ts_ok a -> ts_ok b -> ts_length a = ts_length b ->
  dist_call (measure false cos) ratio a b cut mt = Ret (formula cos (combine (ts_points a) (ts_points b)), mt) \/
  (dist_call (measure false cos) ratio a b cut mt = Ret (ninf, mt) /\ exists x, nltb cut x = true).
Proof.
  intros Ha Hb Hl. pose proof (points_len a Ha) as La. pose proof (points_len b Hb) as Lb.
  assert (Hm : 0 <= ts_length a) by lia. assert (Hk : Z.to_nat (ts_length a) = length (ts_points a)) by lia.
  assert (Hll : length (ts_points a) = length (ts_points b)) by lia. destruct cos.
  - change (dist_call (measure false true) ratio a b cut mt) with (pairwiseDistance Cosine a b cut mt).
    destruct (pw_run Cosine a b Ha Hb Hl cut mt Hm) as (k & _ & [(E & _)|(E & _ & Hx)]); rewrite E.
    + left. unfold pw_full. rewrite Hk, cosine_acc, (met_diag _ _ Hll). reflexivity.
    + right. split; [reflexivity|]. unfold pw_exceeds in Hx. cbn [m_inv Cosine] in Hx. eexists. exact Hx.
  - change (dist_call (measure false false) ratio a b cut mt) with (pairwiseDistance Sorensen a b cut mt).
    destruct (pw_run Sorensen a b Ha Hb Hl cut mt Hm) as (k & _ & [(E & _)|(E & _ & Hx)]); rewrite E.
    + left. unfold pw_full. rewrite Hk, sorensen_acc, (met_diag _ _ Hll). reflexivity.
    + right. split; [reflexivity|]. unfold pw_exceeds in Hx. cbn [m_inv Sorensen] in Hx. eexists. exact Hx.
Qed.
End Any.

(** ** Theorems *)

(** For all values of the points, NaN and infinities included, and in any arithmetic: without a
    cut-off the point-to-point measures of two series of one length are exactly the sums of the
    specification, taken from the first point to the last. *)
Theorem C77_in_order : forall (N : Num) (L : NumLaws N) (cos : bool) (ratio : D N) (a b : TS N) mt,
  ts_ok a -> ts_ok b -> ts_length a = ts_length b ->
  dist_call (measure false cos) ratio a b ninf mt = Ret (formula cos (combine (ts_points a) (ts_points b)), mt).
Proof.
  intros N L cos ratio a b mt Ha Hb Hl. destruct (straight_call cos ratio a b ninf mt Ha Hb Hl) as [E|(E & x & Hx)]; [exact E|].
  rewrite lw_inf_top in Hx. discriminate.
Qed.
Print Assumptions C77_in_order.

(** Warped: whatever the band and the cut-off, a value that is returned is infinity or the
    formula summed along some warping path of the two series. *)
Theorem C77_warped : forall (N : Num) (cos : bool) (ratio : D N) (a b : TS N) cut mt v mt',
  ts_ok a -> ts_ok b -> dist_call (measure true cos) ratio a b cut mt = Ret (v, mt') ->
  v = ninf \/ exists p, warping_path (ts_length a) (ts_length b) p /\ v = formula cos (met (ts_points a) (ts_points b) p).
Proof.
  intros N cos ratio a b cut mt v mt' Ha Hb E. destruct cos.
  - destruct (warped_path Cosine a b eq_refl Ha Hb ratio cut mt v mt' E) as [->|(p & Hp & ->)]; [left; reflexivity|].
    right. exists p. split; [exact Hp|]. unfold path_cost. rewrite cosine_acc. reflexivity.
  - destruct (warped_path Sorensen a b eq_refl Ha Hb ratio cut mt v mt' E) as [->|(p & Hp & ->)]; [left; reflexivity|].
    right. exists p. split; [exact Hp|]. unfold path_cost. rewrite sorensen_acc. reflexivity.
Qed.
Print Assumptions C77_warped.

(** ** Over the reals *)
Local Open Scope R_scope.
Definition fins (ps : list (R * R)) : list (xr * xr) := map (fun c => (Fin (fst c), Fin (snd c))) ps.

Lemma total_fins (F : xr -> xr -> xr) f ps : (forall x y, F (Fin x) (Fin y) = Fin (f x y)) -> total (N := XR) F (fins ps) = Fin (Rtotal f ps).
Proof.
  intros HF. unfold total. change (@n0 XR) with (Fin 0). rewrite <- (Rplus_0_l (Rtotal f ps)). generalize 0 as s.
  induction ps as [|[x y] ps IH]; intros s; cbn [fins map fold_left fst snd Rtotal fold_right].
  - rewrite Rplus_0_r. reflexivity.
  - rewrite HF. change (nadd (n := XR) (Fin s) (Fin (f x y))) with (Fin (s + f x y)). fold (fins ps). rewrite IH. f_equal.
    fold (Rtotal f ps). ring.
Qed.

Lemma fins_combine xs ys : combine (map Fin xs) (map Fin ys) = fins (combine xs ys).
Proof. revert ys. induction xs as [|x xs IH]; intros [|y ys]; cbn; try reflexivity. f_equal. apply IH. Qed.

Lemma fins_met xs ys p : met (N := XR) (map Fin xs) (map Fin ys) p
  = fins (map (fun c => (nth (Z.to_nat (fst c)) xs 0, nth (Z.to_nat (snd c)) ys 0)) p).
Proof.
  unfold met, fins. rewrite map_map. apply map_ext. intros c. unfold nthd. change (@n0 XR) with (Fin 0). rewrite !map_nth. reflexivity.
Qed.

Lemma cosine_fins ps : let A := Rtotal Rmult ps in let B := Rtotal (fun x _ => x * x) ps in let C := Rtotal (fun _ y => y * y) ps in
  (B * C = 0 /\ cosine_of (N := XR) (fins ps) = XNaN) \/
  (0 < B * C /\ cosine_of (N := XR) (fins ps) = Fin (A / sqrt (B * C)) /\ -1 <= A / sqrt (B * C) <= 1).
Proof.
  intros A B C. pose proof (cauchy ps) as (HB & HC & HA). change (A * A <= B * C) in HA. change (0 <= B) in HB. change (0 <= C) in HC.
  assert (HBC : 0 <= B * C) by (apply Rmult_le_pos; assumption). unfold cosine_of.
  rewrite (total_fins _ Rmult), (total_fins _ (fun x _ => x * x)), (total_fins _ (fun _ y => y * y)) by reflexivity. fold A B C.
  change (nmul (n := XR) (Fin B) (Fin C)) with (Fin (B * C)). change (nsqrt (n := XR) (Fin (B * C))) with (if Rlt_bool (B * C) 0 then XNaN else Fin (sqrt (B * C))).
  rewrite Rlt_bool_false by exact HBC. cbn [ndiv XR XRN xdiv]. destruct (Req_dec (B * C) 0) as [E|E].
  - left. split; [exact E|]. rewrite E, sqrt_0, Req_bool_true by reflexivity. assert (A = 0) by nra. rewrite Req_bool_true by assumption. reflexivity.
  - right. assert (Hp : 0 < B * C) by lra. pose proof (sqrt_lt_R0 _ Hp) as Hs. split; [exact Hp|]. rewrite Req_bool_false by lra. split; [reflexivity|].
    assert (HR : Rabs A <= sqrt (B * C)). { rewrite <- (sqrt_Rsqr_abs A). apply sqrt_le_1_alt. exact HA. }
    apply Rabs_le_inv in HR. split; apply Rmult_le_reg_r with (sqrt (B * C)); try exact Hs; unfold Rdiv; rewrite Rmult_assoc, Rinv_l by lra; lra.
Qed.

Lemma dot_pos xs : 0 <= dot xs xs.
Proof. unfold dot. induction xs as [|x xs IH]; cbn; [lra|]. unfold Rtotal in IH. nra. Qed.

Lemma dot_zero xs : dot xs xs = 0 <-> Forall (fun x => x = 0) xs.
Proof.
  induction xs as [|x xs IH]; [split; [constructor|reflexivity]|]. pose proof (dot_pos xs) as Hp.
  assert (E : dot (x :: xs) (x :: xs) = x * x + dot xs xs) by reflexivity. rewrite E. split.
  - intros H. assert (x * x = 0 /\ dot xs xs = 0) as [Hx H0] by nra. constructor; [nra|apply IH, H0].
  - intros H. inversion_clear H as [|? ? H1 H2]. subst x. apply IH in H2. rewrite H2. ring.
Qed.

Lemma dot_nonzero xs : nonzero xs -> 0 < dot xs xs.
Proof.
  intros H. destruct (dot_pos xs) as [Hp|Hp]; [exact Hp|]. exfalso. symmetry in Hp. apply (proj1 (dot_zero xs)) in Hp.
  apply Exists_exists in H as (x & Hi & Hx). rewrite Forall_forall in Hp. exact (Hx (Hp x Hi)).
Qed.

Lemma norm_pos xs : nonzero xs -> 0 < norm xs.
Proof. intros H. apply sqrt_lt_R0, dot_nonzero, H. Qed.

Lemma squares_fst xs ys : length xs = length ys -> Rtotal (fun x _ => x * x) (combine xs ys) = dot xs xs.
Proof. revert ys. induction xs as [|x xs IH]; intros [|y ys] H; try discriminate; [reflexivity|]. cbn in *. unfold Rtotal, dot in *. cbn. rewrite IH by lia. reflexivity. Qed.
Lemma squares_snd xs ys : length xs = length ys -> Rtotal (fun _ y => y * y) (combine xs ys) = dot ys ys.
Proof. revert ys. induction xs as [|x xs IH]; intros [|y ys] H; try discriminate; [reflexivity|]. cbn in *. unfold Rtotal, dot in *. cbn. rewrite IH by lia. reflexivity. Qed.

Lemma real_call (cos : bool) ratio a b xs ys mt : is_series a xs -> is_series b ys -> length xs = length ys ->
  dist_call (N := XR) (measure false cos) ratio a b PInf mt = Ret (formula (N := XR) cos (fins (combine xs ys)), mt).
Proof.
  intros Ha Hb Hl. etransitivity; [apply (C77_in_order XR _ cos ratio a b mt (proj1 Ha) (proj1 Hb))|].
  - rewrite (is_series_len a xs Ha), (is_series_len b ys Hb). unfold Rlen. rewrite Hl. reflexivity.
  - rewrite (proj2 Ha), (proj2 Hb), fins_combine. reflexivity.
Qed.

(** Over the reals "cosine" is the cosine of the angle between the two series, and not a number
    exactly when one of them is zero throughout. *)
Theorem C77_cosine_exact : forall (a b : TS XR) xs ys ratio mt, is_series a xs -> is_series b ys -> length xs = length ys ->
  (nonzero xs -> nonzero ys -> dist_call (N := XR) "cosine" ratio a b PInf mt = Ret (Fin (cosine xs ys), mt) /\ -1 <= cosine xs ys <= 1) /\
  (Forall (fun x => x = 0) xs \/ Forall (fun y => y = 0) ys -> dist_call (N := XR) "cosine" ratio a b PInf mt = Ret (XNaN, mt)).
Proof.
  intros a b xs ys ratio mt Ha Hb Hl. pose proof (real_call true ratio a b xs ys mt Ha Hb Hl) as E.
  pose proof (cosine_fins (combine xs ys)) as H. cbv zeta in H. rewrite (squares_fst xs ys Hl), (squares_snd xs ys Hl) in H. fold (dot xs ys) in H.
  change (measure false true) with "cosine"%string in E. rewrite E. cbn [formula]. split.
  - intros Hx Hy. pose proof (dot_nonzero xs Hx) as H1. pose proof (dot_nonzero ys Hy) as H2. destruct H as [[H _]|(_ & -> & H)]; [exfalso; nra|].
    unfold cosine, norm. rewrite sqrt_mult_alt in * by lra. split; [reflexivity|exact H].
  - intros Hz. destruct H as [[_ ->]|(H & _)]; [reflexivity|]. exfalso. destruct Hz as [Hz|Hz]; apply dot_zero in Hz; rewrite Hz in H; lra.
Qed.
Print Assumptions C77_cosine_exact.

Lemma dot_scale c xs ys : dot (map (Rmult c) xs) ys = c * dot xs ys.
Proof. revert ys. unfold dot, Rtotal. induction xs as [|x xs IH]; intros [|y ys]; cbn; try ring. rewrite IH. ring. Qed.
Lemma dot_sym xs ys : dot xs ys = dot ys xs.
Proof. revert ys. unfold dot, Rtotal. induction xs as [|x xs IH]; intros [|y ys]; cbn; try ring. rewrite IH. ring. Qed.

Lemma norm_scale c xs : norm (map (Rmult c) xs) = Rabs c * norm xs.
Proof.
  unfold norm. rewrite dot_scale, dot_sym, dot_scale, <- Rmult_assoc, sqrt_mult_alt by nra. f_equal. apply sqrt_Rsqr_abs.
Qed.

Lemma cosine_self xs : nonzero xs -> cosine xs xs = 1.
Proof.
  intros H. unfold cosine, norm. rewrite sqrt_def by apply dot_pos. apply Rinv_r. pose proof (dot_nonzero xs H). lra.
Qed.

Lemma cosine_scale c xs : c <> 0 -> nonzero xs -> cosine xs (map (Rmult c) xs) = c / Rabs c.
Proof.
  intros Hc H. pose proof (norm_pos xs H) as Hn. pose proof (Rabs_pos_lt c Hc) as Hp. unfold cosine. rewrite norm_scale, dot_sym, dot_scale.
  replace (dot xs xs) with (norm xs * norm xs) by (unfold norm; apply sqrt_def, dot_pos). field. lra.
Qed.

Lemma nonzero_scale c xs : c <> 0 -> nonzero xs -> nonzero (map (Rmult c) xs).
Proof.
  intros Hc H. apply Exists_exists in H as (x & Hi & Hx). apply Exists_exists. exists (c * x). split; [apply in_map, Hi|].
  intros E. apply Rmult_integral in E. tauto.
Qed.

(** So it is a similarity used as a distance: no series is farther from a series than the series
    itself or a positive multiple of it, and its mirror image is the nearest. *)
Theorem C77_cosine_similarity_refuted : forall xs ratio mt, nonzero xs ->
  dist_call (N := XR) "cosine" ratio (rs xs) (rs xs) PInf mt = Ret (Fin 1, mt) /\
  (forall c, 0 < c -> dist_call (N := XR) "cosine" ratio (rs xs) (rs (map (Rmult c) xs)) PInf mt = Ret (Fin 1, mt)) /\
  (forall c, c < 0 -> dist_call (N := XR) "cosine" ratio (rs xs) (rs (map (Rmult c) xs)) PInf mt = Ret (Fin (-1), mt)) /\
  (forall ys, length ys = length xs -> nonzero ys ->
     exists d, dist_call (N := XR) "cosine" ratio (rs xs) (rs ys) PInf mt = Ret (Fin d, mt) /\ -1 <= d <= 1).
Proof.
  intros xs ratio mt H.
  assert (G : forall ys, length ys = length xs -> nonzero ys ->
     dist_call (N := XR) "cosine" ratio (rs xs) (rs ys) PInf mt = Ret (Fin (cosine xs ys), mt) /\ -1 <= cosine xs ys <= 1).
  { intros ys Hl Hy. apply (C77_cosine_exact (rs xs) (rs ys) xs ys ratio mt (rs_series xs) (rs_series ys) (eq_sym Hl)); assumption. }
  split; [|split; [|split]].
  - rewrite (proj1 (G xs eq_refl H)), cosine_self by exact H. reflexivity.
  - intros c Hc. rewrite (proj1 (G (map (Rmult c) xs) (map_length _ _) (nonzero_scale c xs ltac:(lra) H))), cosine_scale by (try lra; exact H).
    rewrite Rabs_pos_eq by lra. unfold Rdiv. rewrite Rinv_r by lra. reflexivity.
  - intros c Hc. rewrite (proj1 (G (map (Rmult c) xs) (map_length _ _) (nonzero_scale c xs ltac:(lra) H))), cosine_scale by (try lra; exact H).
    rewrite Rabs_left by lra. do 3 f_equal. field. lra.
  - intros ys Hl Hy. exists (cosine xs ys). apply G; assumption.
Qed.
Print Assumptions C77_cosine_similarity_refuted.

(** Warped or not, with any band and any cut-off, a number returned lies between -1 and 1. *)
Theorem C77_cosine_range : forall warped (a b : TS XR) xs ys ratio cut mt v mt', is_series a xs -> is_series b ys ->
  dist_call (N := XR) (measure warped true) ratio a b cut mt = Ret (v, mt') ->
  v = PInf \/ v = XNaN \/ exists x, v = Fin x /\ -1 <= x <= 1.
Proof.
  intros warped a b xs ys ratio cut mt v mt' Ha Hb E.
  assert (G : forall ps, v = cosine_of (N := XR) (fins ps) -> v = PInf \/ v = XNaN \/ exists x, v = Fin x /\ -1 <= x <= 1).
  { intros ps ->. destruct (cosine_fins ps) as [[_ H]|(_ & H & Hr)]; rewrite H; [tauto|]. right. right. eexists. split; [reflexivity|exact Hr]. }
  destruct warped.
  - destruct (C77_warped XR true ratio a b cut mt v mt' (proj1 Ha) (proj1 Hb) E) as [->|(p & _ & H)]; [left; reflexivity|].
    rewrite (proj2 Ha), (proj2 Hb) in H. cbn [formula] in H. rewrite fins_met in H. exact (G _ H).
  - destruct (Z.eq_dec (ts_length a) (ts_length b)) as [Hl|Hl].
    + destruct (straight_call (N := XR) true ratio a b cut mt (proj1 Ha) (proj1 Hb) Hl) as [H|[H _]]; rewrite H in E; injection E as <- _; [|left; reflexivity].
      apply (G (combine xs ys)). rewrite (proj2 Ha), (proj2 Hb), fins_combine. reflexivity.
    + exfalso. change (dist_call (N := XR) (measure false true) ratio a b cut mt) with (pairwiseDistance (@Cosine XR) a b cut mt) in E.
      destruct (pw_mismatch (@Cosine XR) a b cut mt Hl) as (s & Hs). rewrite Hs in E. discriminate.
Qed.
Print Assumptions C77_cosine_range.

(** ** Sorensen *)
Lemma sorensen_fins ps : let S := Rtotal (fun x y => Rabs (x - y)) ps in let T := Rtotal (fun x y => Rabs (x + y)) ps in
  sorensen_of (N := XR) (fins ps) = if Req_bool T 0 then (if Req_bool S 0 then XNaN else if Rlt_bool 0 S then PInf else NInf) else Fin (S / T).
Proof.
  intros S T. unfold sorensen_of. rewrite (total_fins _ (fun x y => Rabs (x - y))), (total_fins _ (fun x y => Rabs (x + y))) by reflexivity. reflexivity.
Qed.

Lemma Rtotal_pos f ps : (forall x y, 0 <= f x y) -> 0 <= Rtotal f ps.
Proof. intros H. induction ps as [|c ps IH]; cbn; [lra|]. specialize (H (fst c) (snd c)). unfold Rtotal in IH. lra. Qed.

Lemma apart_pos xs ys : 0 <= apart xs ys. Proof. apply Rtotal_pos. intros. apply Rabs_pos. Qed.
Lemma together_pos xs ys : 0 <= together xs ys. Proof. apply Rtotal_pos. intros. apply Rabs_pos. Qed.

Lemma apart_zero xs : forall ys, length xs = length ys -> (apart xs ys = 0 <-> xs = ys).
Proof.
  induction xs as [|x xs IH]; intros [|y ys] H; try discriminate; [tauto|]. injection H as H.
  assert (E : apart (x :: xs) (y :: ys) = Rabs (x - y) + apart xs ys) by reflexivity. pose proof (apart_pos xs ys) as Hp. pose proof (Rabs_pos (x - y)) as Hq.
  rewrite E. split.
  - intros H0. assert (H1 : Rabs (x - y) = 0) by lra. assert (H2 : apart xs ys = 0) by lra. apply IH in H2; [|exact H]. subst ys.
    f_equal. destruct (Req_dec (x - y) 0) as [Hd|Hd]; [lra|]. apply Rabs_no_R0 in Hd. contradiction.
  - intros [= -> ->]. replace (apart ys ys) with 0 by (symmetry; apply IH; reflexivity). rewrite Rminus_diag_eq, Rabs_R0 by reflexivity. ring.
Qed.

Lemma apart_together xs : forall ys, Forall (Rle 0) xs -> Forall (Rle 0) ys -> apart xs ys <= together xs ys.
Proof.
  induction xs as [|x xs IH]; intros [|y ys] Hx Hy; try (cbn; unfold together, apart; cbn; lra).
  inversion_clear Hx as [|? ? Hx1 Hx2]. inversion_clear Hy as [|? ? Hy1 Hy2]. specialize (IH ys Hx2 Hy2).
  assert (E : apart (x :: xs) (y :: ys) = Rabs (x - y) + apart xs ys) by reflexivity.
  assert (E' : together (x :: xs) (y :: ys) = Rabs (x + y) + together xs ys) by reflexivity. rewrite E, E'.
  assert (Rabs (x - y) <= Rabs (x + y)). { rewrite (Rabs_pos_eq (x + y)) by lra. apply Rabs_le. lra. } lra.
Qed.

Lemma together_nonzero xs : forall ys, length xs = length ys -> Forall (Rle 0) xs -> Forall (Rle 0) ys -> nonzero xs -> 0 < together xs ys.
Proof.
  induction xs as [|x xs IH]; intros [|y ys] H Hx Hy Hn; try discriminate; [inversion Hn|]. injection H as H.
  inversion_clear Hx as [|? ? Hx1 Hx2]. inversion_clear Hy as [|? ? Hy1 Hy2].
  assert (E' : together (x :: xs) (y :: ys) = Rabs (x + y) + together xs ys) by reflexivity. rewrite E'.
  pose proof (together_pos xs ys) as Hp. pose proof (Rabs_pos (x + y)) as Hq. inversion_clear Hn as [? ? Hz|? ? Hz].
  - rewrite (Rabs_pos_eq (x + y)) by lra. lra.
  - specialize (IH ys H Hx2 Hy2 Hz). lra.
Qed.

(** Over the reals "sorensen" is the sum of |x - y| by the sum of |x + y|.  On series without
    negative values that are not both zero throughout it lies between 0 and 1 and is 0 exactly
    for equal series. *)
Theorem C77_sorensen_exact : forall (a b : TS XR) xs ys ratio mt, is_series a xs -> is_series b ys -> length xs = length ys ->
  (together xs ys <> 0 -> dist_call (N := XR) "sorensen" ratio a b PInf mt = Ret (Fin (apart xs ys / together xs ys), mt)) /\
  (Forall (Rle 0) xs -> Forall (Rle 0) ys -> nonzero xs ->
     exists d, dist_call (N := XR) "sorensen" ratio a b PInf mt = Ret (Fin d, mt) /\ 0 <= d <= 1 /\ (d = 0 <-> xs = ys)).
Proof.
  intros a b xs ys ratio mt Ha Hb Hl. pose proof (real_call false ratio a b xs ys mt Ha Hb Hl) as E.
  change (measure false false) with "sorensen"%string in E. cbn [formula] in E. rewrite sorensen_fins in E. fold (apart xs ys) (together xs ys) in E.
  assert (G : together xs ys <> 0 -> dist_call (N := XR) "sorensen" ratio a b PInf mt = Ret (Fin (apart xs ys / together xs ys), mt)).
  { intros Hz. rewrite E, Req_bool_false by exact Hz. reflexivity. }
  split; [exact G|]. intros Hx Hy Hn. pose proof (together_nonzero xs ys Hl Hx Hy Hn) as Ht. exists (apart xs ys / together xs ys).
  split; [apply G; lra|]. pose proof (apart_pos xs ys) as Hp. pose proof (apart_together xs ys Hx Hy) as Hq. pose proof (Rinv_0_lt_compat _ Ht) as Hi.
  split; [split|].
  - apply Rmult_le_pos; lra.
  - apply Rmult_le_reg_r with (together xs ys); [exact Ht|]. unfold Rdiv. rewrite Rmult_assoc, Rinv_l by lra. lra.
  - rewrite <- (apart_zero xs ys Hl). unfold Rdiv. split; [|intros ->; ring].
    intros H. apply Rmult_integral in H as [H|H]; [exact H|lra].
Qed.
Print Assumptions C77_sorensen_exact.

Lemma mirror_together xs : together xs (map Ropp xs) = 0.
Proof. unfold together, Rtotal. induction xs as [|x xs IH]; cbn; [reflexivity|]. rewrite IH, Rplus_opp_r, Rabs_R0. ring. Qed.

(** With negative values it need not be a number: every series other than zero is infinitely far
    from its mirror image, and a series of zeros is not a number away from itself. *)
Theorem C77_sorensen_mirror_refuted : forall xs ratio mt,
  (nonzero xs -> dist_call (N := XR) "sorensen" ratio (rs xs) (rs (map Ropp xs)) PInf mt = Ret (PInf, mt)) /\
  (Forall (fun x => x = 0) xs -> dist_call (N := XR) "sorensen" ratio (rs xs) (rs xs) PInf mt = Ret (XNaN, mt)).
Proof.
  intros xs ratio mt. split.
  - intros Hn. pose proof (real_call false ratio (rs xs) (rs (map Ropp xs)) xs (map Ropp xs) mt (rs_series _) (rs_series _) (eq_sym (map_length _ _))) as E.
    change (measure false false) with "sorensen"%string in E. rewrite E. cbn [formula]. rewrite sorensen_fins. fold (apart xs (map Ropp xs)) (together xs (map Ropp xs)).
    rewrite mirror_together, Req_bool_true by reflexivity. pose proof (apart_pos xs (map Ropp xs)) as Hp.
    assert (Hz : apart xs (map Ropp xs) <> 0).
    { intros Hz. apply (proj1 (apart_zero xs (map Ropp xs) (eq_sym (map_length _ _)))) in Hz. clear E Hp. induction xs as [|x xs IH]; [inversion Hn|].
      injection Hz as H1 H2. inversion_clear Hn as [? ? H|? ? H]; [lra|exact (IH H H2)]. }
    rewrite Req_bool_false by exact Hz. rewrite Rlt_bool_true by lra. reflexivity.
  - intros Hn. pose proof (real_call false ratio (rs xs) (rs xs) xs xs mt (rs_series _) (rs_series _) eq_refl) as E.
    change (measure false false) with "sorensen"%string in E. rewrite E. cbn [formula]. rewrite sorensen_fins. fold (apart xs xs) (together xs xs).
    replace (together xs xs) with 0. 2:{ clear E. symmetry. induction Hn as [|x xs H Hn IH]; [reflexivity|]. unfold together, Rtotal in *. cbn. rewrite IH, H, !Rplus_0_r, Rabs_R0. reflexivity. }
    rewrite (proj2 (apart_zero xs xs eq_refl)) by reflexivity. rewrite Req_bool_true by reflexivity. reflexivity.
Qed.
Print Assumptions C77_sorensen_mirror_refuted.

Lemma sorensen_val xs ys ratio mt d : length xs = length ys -> 0 < together xs ys -> apart xs ys = d * together xs ys ->
  dist_call (N := XR) "sorensen" ratio (rs xs) (rs ys) PInf mt = Ret (Fin d, mt).
Proof.
  intros Hl Ht Hd. rewrite (proj1 (C77_sorensen_exact (rs xs) (rs ys) xs ys ratio mt (rs_series _) (rs_series _) Hl)) by lra.
  rewrite Hd. unfold Rdiv. rewrite Rmult_assoc, Rinv_r by lra. rewrite Rmult_1_r. reflexivity.
Qed.

(** Even without negative values a detour may be shorter: the triangle inequality, on which
    comparing through the centroid of a group rests, fails. *)
Theorem C77_sorensen_triangle_refuted : forall ratio mt, exists x y z dxz dzy dxy,
  dist_call (N := XR) "sorensen" ratio (rs x) (rs z) PInf mt = Ret (Fin dxz, mt) /\
  dist_call (N := XR) "sorensen" ratio (rs z) (rs y) PInf mt = Ret (Fin dzy, mt) /\
  dist_call (N := XR) "sorensen" ratio (rs x) (rs y) PInf mt = Ret (Fin dxy, mt) /\ dxz + dzy < dxy.
Proof.
  intros ratio mt. exists [1; 0], [0; 1], [1; 1], (1 / 3), (1 / 3), 1.
  split; [|split; [|split; [|lra]]]; apply sorensen_val; try reflexivity; unfold apart, together, Rtotal; cbn; unfold Rabs; repeat destruct (Rcase_abs _); lra.
Qed.
Print Assumptions C77_sorensen_triangle_refuted.

(** ** Examples: the hypotheses are met *)
Example C77_example : nonzero [3; 4] /\ nonzero [4; 3] /\ cosine [3; 4] [4; 3] = 24 / 25 /\
  forall ratio mt, dist_call (N := XR) "cosine" ratio (rs [3; 4]) (rs [4; 3]) PInf mt = Ret (Fin (24 / 25), mt) /\
                   dist_call (N := XR) "sorensen" ratio (rs [3; 4]) (rs [4; 3]) PInf mt = Ret (Fin (1 / 7), mt).
Proof.
  assert (H1 : nonzero [3; 4]) by (left; lra). assert (H2 : nonzero [4; 3]) by (left; lra).
  assert (H : cosine [3; 4] [4; 3] = 24 / 25).
  { unfold cosine, norm, dot, Rtotal. cbn. replace (3 * 3 + (4 * 4 + 0)) with (5 * 5) by ring. replace (4 * 4 + (3 * 3 + 0)) with (5 * 5) by ring. rewrite sqrt_square by lra. lra. }
  split; [exact H1|]. split; [exact H2|]. split; [exact H|]. intros ratio mt. split.
  - destruct (C77_cosine_exact (rs [3; 4]) (rs [4; 3]) [3; 4] [4; 3] ratio mt (rs_series _) (rs_series _) eq_refl) as [E _]. rewrite (proj1 (E H1 H2)), H. reflexivity.
  - apply sorensen_val; try reflexivity; unfold apart, together, Rtotal; cbn; unfold Rabs; repeat destruct (Rcase_abs _); lra.
Qed.

(** a warped call that does return a number, in doubles *)
Example C77_warped_example : exists v,
  value (dist_call (N := B64) "sorensen_dtw" (b64_ofZ 1%Z) (zs [1; 2; 4]%Z) (zs [1; 3; 4]%Z) pinf []) = Ret v /\ nltb (n := B64) v (b64_lit 1 10) = true.
Proof.
  exists (got (value (dist_call (N := B64) "sorensen_dtw" (b64_ofZ 1%Z) (zs [1; 2; 4]%Z) (zs [1; 3; 4]%Z) pinf []))). split.
  - eapply sf_got. vm_compute. reflexivity.
  - vm_compute. reflexivity.
Qed.
