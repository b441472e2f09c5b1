(** Point-to-point distances: cut-off and textbook definitions. *)
From Coq Require Import Reals Lra.
From Flocq Require Import Core.Raux.
From Verif Require Import Base Num NumLaws NumFacts NumXR NumXRLaws TimeSeries Distance DtwSpec DtwPaths
  LoopFacts DtwProofs Metrics DtwReal.
Local Open Scope Z_scope.

(** the diagonal (0,0), (1,1), ..., (k-1,k-1) *)
Definition diag (k : nat) : list (Z * Z) := map (fun i => (Z.of_nat i, Z.of_nat i)) (seq 0 k).

Lemma diag_S k : diag (S k) = diag k ++ [(Z.of_nat k, Z.of_nat k)].
Proof. unfold diag. rewrite seq_S, map_app. reflexivity. Qed.

Section Gen.
Context {N : Num} {L : NumLaws N}.
Notation D := (D N).
Variable M : Metric N.
Variables a b : TS N.
Hypothesis Ha : ts_ok a.
Hypothesis Hb : ts_ok b.
Hypothesis Hlen : ts_length a = ts_length b.
Notation m := (ts_length a).

(** the value without cut-off *)
Definition pw_full : D := m_norm M (path_acc M a b (diag (Z.to_nat m))) m m.

(** the test made after each point *)
Definition pw_exceeds (dropout : D) (total : acc M) : bool :=
  match m_inv M with
  | None => nltb dropout (m_norm M total m m)
  | Some (inv, rd) => nltb (inv dropout m m) (rd total)
  end.

Lemma pw_run dropout mt : 0 <= m ->
  exists k : nat, (Z.of_nat k <= m) /\
  ((pairwiseDistance M a b dropout mt = Ret (pw_full, mt) /\
    forall k : nat, 1 <= Z.of_nat k <= m -> pw_exceeds dropout (path_acc M a b (diag k)) = false) \/
   (pairwiseDistance M a b dropout mt = Ret (ninf, mt) /\ 1 <= Z.of_nat k /\
    pw_exceeds dropout (path_acc M a b (diag k)) = true)).
Proof.
  intros Hm. unfold pairwiseDistance. rewrite <- Hlen, Z.eqb_refl. cbn [negb].
  set (d' := match m_inv M with None => dropout | Some (inv, _) => inv dropout m m end).
  destruct (forb_inv
    (fun i total => total = path_acc M a b (diag (Z.to_nat i)) /\
       forall k : nat, 1 <= Z.of_nat k <= i -> pw_exceeds dropout (path_acc M a b (diag k)) = false)
    (fun i total => pw_exceeds dropout (path_acc M a b (diag (S (Z.to_nat i)))) = true)
    (pairwise_step M a b d') 0 m (m_init M)) as (total & fl & E & Hfl).
  { exact Hm. }
  { split; [reflexivity|]. intros k Hk. lia. }
  { intros i total Hi [-> Hno]. unfold pairwise_step. rewrite !ts_get_pt by (auto; lia). cbn [bind].
    rewrite <- Hlen.
    assert (Et : m_reduce M (path_acc M a b (diag (Z.to_nat i))) (pt a i) (pt b i)
                 = path_acc M a b (diag (S (Z.to_nat i)))).
    { rewrite diag_S, path_acc_snoc. rewrite Z2Nat.id by lia. reflexivity. }
    rewrite Et. set (T := path_acc M a b (diag (S (Z.to_nat i)))).
    assert (Ex : match m_inv M with None => nltb d' (m_norm M T m m) | Some (_, rd) => nltb d' (rd T) end
                 = pw_exceeds dropout T).
    { unfold pw_exceeds, d'. destruct (m_inv M) as [[inv rd]|]; reflexivity. }
    rewrite Ex. exists T, (pw_exceeds dropout T). split; [reflexivity|].
    destruct (pw_exceeds dropout T) eqn:EE; [first [exact EE|reflexivity]|]. split.
    - unfold T. f_equal. f_equal. lia.
    - intros k Hk. destruct (Z.eq_dec (Z.of_nat k) (i + 1)) as [Ek|Ek].
      + replace k with (S (Z.to_nat i)) by lia. exact EE.
      + apply Hno. lia. }
  rewrite E. cbn [bind]. destruct fl.
  - destruct Hfl as (i & Hi & Hx). exists (S (Z.to_nat i)). split; [lia|]. right. splits; auto. lia.
  - destruct Hfl as [-> Hno]. exists O. split; [lia|]. left. splits; auto.
Qed.

Lemma pw_mismatch dropout mt : ts_length a <> ts_length b -> exists s,
  pairwiseDistance M a b dropout mt = Throw (GenexExc s).
Proof.
  intros H. unfold pairwiseDistance. destruct (Z.eqb_spec m (ts_length b)); [contradiction|]. eexists; reflexivity.
Qed.
End Gen.

(** ** cut-off for metrics without inverseNorm, in any arithmetic *)
Section Cut.
Context {N : Num} {L : NumLaws N}.
Notation D := (D N).
Variable M : Metric N.
Variable ng : Nice M.
Hypothesis Hinv : m_inv M = None.
Hypothesis Hmono : forall u v l, 1 <= l <= 2 ^ 30 -> ng_ok ng u -> ng_ok ng v -> ng_le ng u v ->
  nle (m_norm M u l l) (m_norm M v l l).
Variables a b : TS N.
Hypothesis Ha : ts_ok a.
Hypothesis Hb : ts_ok b.
Hypothesis Hlen : ts_length a = ts_length b.
Notation m := (ts_length a).
Hypothesis Hm : 1 <= m <= 2 ^ 30.
Hypothesis Fa : Forall nfin (ts_points a).
Hypothesis Fb : Forall nfin (ts_points b).

Lemma diag_ok k : Z.of_nat k <= m -> ng_ok ng (path_acc M a b (diag k)).
Proof.
  induction k as [|k IH]; intros Hk; [apply ng_init|].
  rewrite diag_S, path_acc_snoc. rewrite Forall_forall in Fa, Fb.
  apply ng_red_ok; [apply IH; lia|apply Fa, pt_in; auto; lia|apply Fb, pt_in; auto; lia].
Qed.

Lemma diag_mono k k' : (k <= k')%nat -> Z.of_nat k' <= m ->
  ng_le ng (path_acc M a b (diag k)) (path_acc M a b (diag k')).
Proof.
  induction k' as [|k' IH]; intros H1 H2.
  - replace k with O by lia. apply ng_le_refl, diag_ok. lia.
  - destruct (Nat.eq_dec k (S k')) as [->|Hne]; [apply ng_le_refl, diag_ok; lia|].
    rewrite diag_S, path_acc_snoc. eapply ng_le_trans; [apply IH; lia|].
    pose proof Fa as Fa'. pose proof Fb as Fb'. rewrite Forall_forall in Fa', Fb'.
    apply ng_red_ge; [apply diag_ok; lia|apply Fa', pt_in; auto; lia|apply Fb', pt_in; auto; lia].
Qed.

Lemma pw_full_nn : nn (pw_full M a b).
Proof.
  apply (nle_nn_l _ (pw_full M a b)). unfold pw_full.
  apply Hmono; [lia|apply diag_ok; lia|apply diag_ok; lia|apply ng_le_refl, diag_ok; lia].
Qed.

Lemma pw_cutoff dropout mt : nn dropout ->
  pairwiseDistance M a b dropout mt
  = Ret (if nltb dropout (pw_full M a b) then ninf else pw_full M a b, mt).
Proof.
  intros Hd. destruct (pw_run M a b Ha Hb Hlen dropout mt ltac:(lia)) as (k & Hk & [(E & Hno)|(E & Hk1 & Hx)]).
  - rewrite E. specialize (Hno (Z.to_nat m) ltac:(lia)). unfold pw_exceeds in Hno. rewrite Hinv in Hno.
    unfold pw_full. rewrite Hno. reflexivity.
  - rewrite E. unfold pw_exceeds in Hx. rewrite Hinv in Hx.
    assert (Hx2 : nlt dropout (pw_full M a b)).
    { apply (nlt_le_trans _ _ _ Hx). apply Hmono; [lia|apply diag_ok; lia|apply diag_ok; lia|apply diag_mono; lia]. }
    unfold nlt in Hx2. rewrite Hx2. reflexivity.
Qed.
End Cut.

Section IEEE.
Context {N : Num} {L : NumLaws N}.
Lemma manhattan_norm_mono (u v : D N) l : 1 <= l <= 2 ^ 30 ->
  ng_ok Manhattan_nice u -> ng_ok Manhattan_nice v -> ng_le Manhattan_nice u v ->
  nle (m_norm Manhattan u l l) (m_norm Manhattan v l l).
Proof. intros Hl Hu Hv H. simpl in *. apply lw_div_mono; auto. lia. Qed.
Lemma chebyshev_norm_mono (u v : D N) l : 1 <= l <= 2 ^ 30 ->
  ng_ok Chebyshev_nice u -> ng_ok Chebyshev_nice v -> ng_le Chebyshev_nice u v ->
  nle (m_norm Chebyshev u l l) (m_norm Chebyshev v l l).
Proof. intros Hl Hu Hv H. exact H. Qed.
Lemma euclidean_norm_mono (u v : D N) l : 1 <= l <= 2 ^ 30 ->
  ng_ok Euclidean_nice u -> ng_ok Euclidean_nice v -> ng_le Euclidean_nice u v ->
  nle (m_norm Euclidean u l l) (m_norm Euclidean v l l).
Proof.
  intros Hl Hu Hv H. simpl in *. rewrite Z.max_id. apply lw_sqrt_mono; [apply div_pos; auto; lia|].
  apply lw_div_mono; auto. lia.
Qed.
End IEEE.

(** ** exact arithmetic *)
Local Open Scope R_scope.

Definition pair_sum (f : R -> R -> R) (xs ys : list R) : R :=
  fold_right (fun p s => f (fst p) (snd p) + s) 0 (combine xs ys).
Definition pair_max (f : R -> R -> R) (xs ys : list R) : R :=
  fold_right (fun p s => Rmax (f (fst p) (snd p)) s) 0 (combine xs ys).

(** root mean square difference, mean absolute difference, maximum absolute difference *)
Definition rms_distance (xs ys : list R) : R :=
  sqrt (pair_sum (fun x y => (x - y) * (x - y)) xs ys / INR (length xs)).
Definition mean_abs_distance (xs ys : list R) : R :=
  pair_sum (fun x y => Rabs (x - y)) xs ys / INR (length xs).
Definition max_abs_distance (xs ys : list R) : R := pair_max (fun x y => Rabs (x - y)) xs ys.

Lemma combine_map xs ys : length xs = length ys ->
  combine xs ys = map (fun i => (nth i xs 0, nth i ys 0)) (seq 0 (length xs)).
Proof.
  revert ys; induction xs as [|x xs IH]; intros [|y ys] H; try discriminate; auto.
  simpl. f_equal. rewrite <- seq_shift, map_map. apply IH. injection H; auto.
Qed.

Lemma diag_pairs xs ys : length xs = length ys ->
  map (fun c => (Rpt xs (fst c), Rpt ys (snd c))) (diag (length xs)) = combine xs ys.
Proof.
  intros H. rewrite combine_map by auto. unfold diag. rewrite map_map. apply map_ext. intros i.
  unfold Rpt. simpl. rewrite Nat2Z.id. reflexivity.
Qed.

Lemma path_sum_diag f xs ys : length xs = length ys -> path_sum f xs ys (diag (length xs)) = pair_sum f xs ys.
Proof.
  intros H. unfold path_sum, pair_sum. rewrite <- diag_pairs by auto.
  generalize (diag (length xs)). intros p; induction p as [|c p IH]; simpl; congruence.
Qed.
Lemma path_max_diag f xs ys : length xs = length ys -> path_max f xs ys (diag (length xs)) = pair_max f xs ys.
Proof.
  intros H. unfold path_max, pair_max. rewrite <- diag_pairs by auto.
  generalize (diag (length xs)). intros p; induction p as [|c p IH]; simpl; congruence.
Qed.

Lemma pair_sum_pos f xs ys : (forall x y, 0 <= f x y) -> 0 <= pair_sum f xs ys.
Proof.
  intros Hf. unfold pair_sum. induction (combine xs ys) as [|c p IH]; simpl; [lra|].
  specialize (Hf (fst c) (snd c)). lra.
Qed.

Section Exact.
Variables (a b : TS XR) (xs ys : list R).
Hypothesis Ha : is_series a xs.
Hypothesis Hb : is_series b ys.
Hypothesis Hl : length xs = length ys.
Hypothesis Hx : xs <> [].

Lemma rlen_pos : (1 <= Z.of_nat (length xs))%Z.
Proof. destruct xs; [contradiction|simpl; lia]. Qed.
Lemma inr_pos : 0 < INR (length xs).
Proof. apply lt_0_INR. pose proof rlen_pos. lia. Qed.

Lemma len_a : ts_length a = Z.of_nat (length xs). Proof. apply (is_series_len a xs Ha). Qed.
Lemma len_b : ts_length b = Z.of_nat (length xs). Proof. rewrite Hl. apply (is_series_len b ys Hb). Qed.
Lemma len_ab : ts_length a = ts_length b. Proof. rewrite len_a, len_b; auto. Qed.

Lemma div_len (s : R) : @ndiv XR (Fin s) (nofZ (Z.max (ts_length a) (ts_length a))) = Fin (s / INR (length xs)).
Proof.
  rewrite Z.max_id, len_a. rewrite XR_nrm_div by apply rlen_pos. rewrite <- INR_IZR_INZ. reflexivity.
Qed.

Lemma full_euclidean : pw_full (@Euclidean XR) a b = Fin (rms_distance xs ys).
Proof.
  unfold pw_full, path_acc. change (m_init (@Euclidean XR)) with (Fin (IZR 0)).
  rewrite (euc_sum a b xs ys) by auto. rewrite len_a, Nat2Z.id, path_sum_diag by auto.
  unfold m_norm, Euclidean, rms_distance. set (s := pair_sum _ _ _).
  assert (0 <= s) by (apply pair_sum_pos; intros x y; apply (Rle_0_sqr (x - y))).
  rewrite <- len_a. rewrite div_len. rewrite Rplus_0_l. simpl. rewrite Rlt_bool_false; auto.
  pose proof inr_pos. apply Rmult_le_pos; auto. left. apply Rinv_0_lt_compat. auto.
Qed.

Lemma full_manhattan : pw_full (@Manhattan XR) a b = Fin (mean_abs_distance xs ys).
Proof.
  unfold pw_full, path_acc. change (m_init (@Manhattan XR)) with (Fin (IZR 0)).
  rewrite (man_sum a b xs ys) by auto. rewrite len_a, Nat2Z.id, path_sum_diag by auto.
  unfold m_norm, Manhattan, mean_abs_distance. rewrite <- len_a, div_len, Rplus_0_l. reflexivity.
Qed.

Lemma full_chebyshev : pw_full (@Chebyshev XR) a b = Fin (max_abs_distance xs ys).
Proof.
  unfold pw_full. rewrite len_a, Nat2Z.id. unfold path_acc, m_norm, Chebyshev at 1, max_abs_distance.
  rewrite <- path_max_diag by auto.
  assert (Hd : diag (length xs) <> []). { pose proof rlen_pos. destruct (length xs); simpl; [lia|discriminate]. }
  pose proof (chebyshev_cost_is a b xs ys (diag (length xs)) Ha Hb Hd) as E.
  unfold path_cost, path_acc, chebyshev_cost in E. apply E. unfold Rlen. pose proof rlen_pos. lia.
Qed.

Lemma real_fins : Forall nfin (ts_points a) /\ Forall nfin (ts_points b).
Proof. split; [apply (is_series_fin a xs Ha)|apply (is_series_fin b ys Hb)]. Qed.

(** partial sums of squares *)
Lemma euc_partial k : path_acc (@Euclidean XR) a b (diag k)
  = Fin (path_sum (fun x y => (x - y) * (x - y)) xs ys (diag k)).
Proof.
  unfold path_acc. change (m_init (@Euclidean XR)) with (Fin (IZR 0)). rewrite (euc_sum a b xs ys) by auto.
  rewrite Rplus_0_l. reflexivity.
Qed.
Lemma path_sum_app f p q : path_sum f xs ys (p ++ q) = path_sum f xs ys p + path_sum f xs ys q.
Proof. unfold path_sum. induction p as [|c p IH]; simpl; [lra|]. rewrite IH. lra. Qed.
Lemma sq_partial_mono k k' : (k <= k')%nat ->
  path_sum (fun x y => (x - y) * (x - y)) xs ys (diag k) <= path_sum (fun x y => (x - y) * (x - y)) xs ys (diag k').
Proof.
  induction 1 as [|k' H IH]; [lra|]. rewrite diag_S, path_sum_app. eapply Rle_trans; [exact IH|].
  unfold path_sum at 3. simpl.
  pose proof (Rle_0_sqr (Rpt xs (Z.of_nat k') - Rpt ys (Z.of_nat k'))) as Hs. unfold Rsqr in Hs. lra.
Qed.

(** euclidean cut-off in exact arithmetic *)
Lemma euclidean_cutoff d mt : 0 <= d ->
  pairwiseDistance (@Euclidean XR) a b (Fin d) mt
  = Ret (if Rlt_bool d (rms_distance xs ys) then PInf else Fin (rms_distance xs ys), mt).
Proof.
  intros Hd. pose proof inr_pos as Hn. pose proof rlen_pos as Hz.
  assert (Hsq : 0 <= pair_sum (fun x y => (x - y) * (x - y)) xs ys)
    by (apply pair_sum_pos; intros x y; apply (Rle_0_sqr (x - y))).
  assert (Hex : forall k, pw_exceeds (@Euclidean XR) a (Fin d) (path_acc Euclidean a b (diag k))
      = Rlt_bool (d * d * INR (length xs)) (path_sum (fun x y => (x - y) * (x - y)) xs ys (diag k))).
  { intros k. rewrite euc_partial. unfold pw_exceeds. simpl. rewrite Z.max_id, len_a, <- INR_IZR_INZ. reflexivity. }
  assert (Hiff : d < rms_distance xs ys <-> d * d * INR (length xs) < pair_sum (fun x y => (x - y) * (x - y)) xs ys).
  { unfold rms_distance. set (s := pair_sum _ _ _) in *. split; intros H.
    - assert (Hq : 0 <= s / INR (length xs)).
      { apply Rmult_le_pos; auto. left. apply Rinv_0_lt_compat. auto. }
      assert (H2 : d * d < s / INR (length xs)).
      { rewrite <- (sqrt_sqrt _ Hq). pose proof (R_sqrt.sqrt_pos (s / INR (length xs))). nra. }
      apply Rmult_lt_compat_r with (r := INR (length xs)) in H2; auto.
      replace (s / INR (length xs) * INR (length xs)) with s in H2 by (field; lra). exact H2.
    - rewrite <- (sqrt_square d) by auto. apply sqrt_lt_1; [nra| |].
      + apply Rmult_le_pos; auto. left. apply Rinv_0_lt_compat. auto.
      + apply Rmult_lt_reg_r with (INR (length xs)); auto.
        replace (s / INR (length xs) * INR (length xs)) with s by (field; lra). exact H. }
  destruct (pw_run (@Euclidean XR) a b (proj1 Ha) (proj1 Hb) len_ab (Fin d) mt) as (k & Hk & [(E & Hno)|(E & Hk1 & Hex')]).
  { rewrite len_a. lia. }
  - rewrite E, full_euclidean. specialize (Hno (length xs)). rewrite len_a in Hno. specialize (Hno ltac:(lia)).
    rewrite Hex, path_sum_diag in Hno by auto.
    destruct (Rlt_bool_spec (d * d * INR (length xs)) (pair_sum (fun x y => (x - y) * (x - y)) xs ys)); [discriminate|].
    rewrite Rlt_bool_false; auto. apply Rnot_lt_le. intros C. apply Hiff in C. lra.
  - rewrite E. rewrite Hex in Hex'.
    destruct (Rlt_bool_spec (d * d * INR (length xs)) (path_sum (fun x y => (x - y) * (x - y)) xs ys (diag k))) as [C|C]; [|discriminate].
    rewrite Rlt_bool_true; auto. apply Hiff. rewrite <- path_sum_diag by auto.
    eapply Rlt_le_trans; [exact C|]. apply sq_partial_mono. rewrite len_a in Hk. lia.
Qed.

Lemma euclidean_nocut mt : pairwiseDistance (@Euclidean XR) a b PInf mt = Ret (Fin (rms_distance xs ys), mt).
Proof.
  destruct (pw_run (@Euclidean XR) a b (proj1 Ha) (proj1 Hb) len_ab PInf mt) as (k & Hk & [(E & _)|(E & _ & Hex)]).
  { rewrite len_a. lia. }
  - rewrite E, full_euclidean. reflexivity.
  - exfalso. rewrite euc_partial in Hex. unfold pw_exceeds in Hex. simpl in Hex.
    rewrite Z.max_id, len_a in Hex. assert (Hp : 0 < IZR (Z.of_nat (length xs))) by (apply (IZR_lt 0); pose proof rlen_pos; lia).
    unfold xsgn_inf in Hex. rewrite Req_bool_false, Rlt_bool_true in Hex by lra. discriminate.
Qed.
End Exact.

(** ** the three functions are metrics *)
Section MetricAxioms.

Lemma cauchy (p : list (R * R)) :
  let A := fold_right (fun c s => fst c * snd c + s) 0 p in
  let B := fold_right (fun c s => fst c * fst c + s) 0 p in
  let C := fold_right (fun c s => snd c * snd c + s) 0 p in
  0 <= B /\ 0 <= C /\ A * A <= B * C.
Proof.
  induction p as [|[u v] p IH]; simpl; [lra|]. cbv zeta in IH. destruct IH as (HB & HC & HA).
  set (A := fold_right (fun c s => fst c * snd c + s) 0 p) in *.
  set (B := fold_right (fun c s => fst c * fst c + s) 0 p) in *.
  set (C := fold_right (fun c s => snd c * snd c + s) 0 p) in *.
  split; [nra|]. split; [nra|].
  assert (H : 2 * (A * u * v) <= B * (v * v) + C * (u * u)).
  { assert (Hp : 0 <= B * (v * v) + C * (u * u)) by nra.
    apply Rsqr_incr_0_var; auto. unfold Rsqr.
    assert (H1 : (B * (v * v) + C * (u * u)) * (B * (v * v) + C * (u * u)) >= 4 * (B * C) * ((u * v) * (u * v))).
    { pose proof (Rle_0_sqr (B * (v * v) - C * (u * u))) as Hs. unfold Rsqr in Hs. nra. }
    assert (H2 : 0 <= (u * v) * (u * v)) by apply (Rle_0_sqr (u * v)).
    assert (H3 : (A * A) * ((u * v) * (u * v)) <= (B * C) * ((u * v) * (u * v))) by (apply Rmult_le_compat_r; auto).
    lra. }
  nra.
Qed.

Lemma rms_pos xs ys : 0 <= rms_distance xs ys. Proof. apply R_sqrt.sqrt_pos. Qed.

Lemma div_len_pos (xs : list R) s : 0 <= s -> 0 <= s / INR (length xs).
Proof.
  intros H. destruct xs as [|x xs].
  - simpl. unfold Rdiv. rewrite Rinv_0, Rmult_0_r. lra.
  - apply Rmult_le_pos; auto. left. apply Rinv_0_lt_compat, lt_0_INR. simpl; lia.
Qed.
Lemma mean_abs_pos xs ys : 0 <= mean_abs_distance xs ys.
Proof. apply div_len_pos, pair_sum_pos. intros; apply Rabs_pos. Qed.
Lemma max_abs_pos xs ys : 0 <= max_abs_distance xs ys.
Proof. unfold max_abs_distance, pair_max. induction (combine xs ys); simpl; [lra|]. eapply Rle_trans; [exact IHl|apply Rmax_r]. Qed.

Lemma pair_sum_sym f xs ys : (forall x y, f x y = f y x) -> pair_sum f xs ys = pair_sum f ys xs.
Proof.
  intros Hf. unfold pair_sum. revert ys; induction xs as [|x xs IH]; intros [|y ys]; auto. simpl. rewrite IH, Hf. auto.
Qed.
Lemma pair_max_sym f xs ys : (forall x y, f x y = f y x) -> pair_max f xs ys = pair_max f ys xs.
Proof.
  intros Hf. unfold pair_max. revert ys; induction xs as [|x xs IH]; intros [|y ys]; auto. simpl. rewrite IH, Hf. auto.
Qed.
Lemma rms_sym xs ys : length xs = length ys -> rms_distance xs ys = rms_distance ys xs.
Proof. intros H. unfold rms_distance. rewrite (pair_sum_sym _ xs ys), H; auto. intros; ring. Qed.
Lemma mean_abs_sym xs ys : length xs = length ys -> mean_abs_distance xs ys = mean_abs_distance ys xs.
Proof. intros H. unfold mean_abs_distance. rewrite (pair_sum_sym _ xs ys), H; auto. intros; apply Rabs_minus_sym. Qed.
Lemma max_abs_sym xs ys : max_abs_distance xs ys = max_abs_distance ys xs.
Proof. unfold max_abs_distance. apply pair_max_sym. intros; apply Rabs_minus_sym. Qed.

Lemma pair_sum_zero f xs ys : (forall x y, 0 <= f x y) -> (forall x y, f x y = 0 <-> x = y) -> length xs = length ys ->
  (pair_sum f xs ys = 0 <-> xs = ys).
Proof.
  intros Hf Hz. revert ys; induction xs as [|x xs IH]; intros [|y ys] H; try discriminate; [split; auto; reflexivity|].
  injection H as H. specialize (IH ys H). unfold pair_sum in *. simpl.
  pose proof (pair_sum_pos f xs ys Hf) as Hp. unfold pair_sum in Hp. specialize (Hf x y). split.
  - intros E. assert (E1 : f x y = 0) by lra. assert (E2 : fold_right (fun p s => f (fst p) (snd p) + s) 0 (combine xs ys) = 0) by lra.
    apply (proj1 (Hz x y)) in E1. apply (proj1 IH) in E2. congruence.
  - intros E. injection E as -> ->. assert (f y y = 0) by (apply Hz; auto). pose proof (proj2 IH eq_refl) as E2. lra.
Qed.
Lemma pair_max_zero f xs ys : (forall x y, 0 <= f x y) -> (forall x y, f x y = 0 <-> x = y) -> length xs = length ys ->
  (pair_max f xs ys = 0 <-> xs = ys).
Proof.
  intros Hf Hz. revert ys; induction xs as [|x xs IH]; intros [|y ys] H; try discriminate; [split; auto; reflexivity|].
  injection H as H. specialize (IH ys H). unfold pair_max in *. simpl.
  assert (Hp : 0 <= fold_right (fun p s => Rmax (f (fst p) (snd p)) s) 0 (combine xs ys)).
  { clear. induction (combine xs ys); simpl; [lra|]. eapply Rle_trans; [exact IHl|apply Rmax_r]. }
  specialize (Hf x y). set (T := fold_right (fun p s => Rmax (f (fst p) (snd p)) s) 0 (combine xs ys)) in *. split.
  - intros E. pose proof (Rmax_l (f x y) T). pose proof (Rmax_r (f x y) T).
    assert (E1 : f x y = 0) by lra. assert (E2 : T = 0) by lra. apply (proj1 (Hz x y)) in E1. apply (proj1 IH) in E2. congruence.
  - intros E. injection E as -> ->. assert (f y y = 0) by (apply Hz; auto). pose proof (proj2 IH eq_refl) as E2.
    rewrite E2. rewrite Rmax_left; lra.
Qed.

Lemma sq_zero x y : (x - y) * (x - y) = 0 <-> x = y.
Proof. split; [intros H; apply Rmult_integral in H; lra|intros ->; ring]. Qed.
Lemma abs_zero x y : Rabs (x - y) = 0 <-> x = y.
Proof. split; [|intros ->; rewrite Rminus_diag_eq, Rabs_R0; auto]. intros H. destruct (Req_dec (x - y) 0); [lra|]. apply Rabs_no_R0 in H0. contradiction. Qed.

Lemma div_len_zero (xs : list R) s : xs <> [] -> (s / INR (length xs) = 0 <-> s = 0).
Proof.
  intros H. assert (INR (length xs) <> 0). { apply not_0_INR. destruct xs; [contradiction|simpl; lia]. }
  split; [|intros ->; unfold Rdiv; ring]. intros E. apply Rmult_integral in E as [E|E]; auto.
  exfalso. apply (Rinv_neq_0_compat _ H0 E).
Qed.

Lemma rms_zero xs ys : xs <> [] -> length xs = length ys -> (rms_distance xs ys = 0 <-> xs = ys).
Proof.
  intros Hx H. unfold rms_distance. set (s := pair_sum _ _ _).
  assert (Hs : 0 <= s) by (apply pair_sum_pos; intros x y; apply (Rle_0_sqr (x - y))).
  rewrite <- (pair_sum_zero (fun x y => (x - y) * (x - y)) xs ys); auto; [|intros; apply (Rle_0_sqr (x - y))|apply sq_zero].
  fold s. rewrite <- (div_len_zero xs s Hx). split; intros E.
  - apply sqrt_eq_0; auto. apply div_len_pos; auto.
  - rewrite E. apply sqrt_0.
Qed.
Lemma mean_abs_zero xs ys : xs <> [] -> length xs = length ys -> (mean_abs_distance xs ys = 0 <-> xs = ys).
Proof.
  intros Hx H. unfold mean_abs_distance. rewrite div_len_zero by auto.
  apply pair_sum_zero; auto; [intros; apply Rabs_pos|apply abs_zero].
Qed.
Lemma max_abs_zero xs ys : length xs = length ys -> (max_abs_distance xs ys = 0 <-> xs = ys).
Proof. intros H. apply pair_max_zero; auto; [intros; apply Rabs_pos|apply abs_zero]. Qed.

(** triangle inequality *)
Lemma mean_abs_triangle xs ys zs : length xs = length ys -> length ys = length zs ->
  mean_abs_distance xs zs <= mean_abs_distance xs ys + mean_abs_distance ys zs.
Proof.
  intros H1 H2. unfold mean_abs_distance. rewrite <- H1. unfold Rdiv. rewrite <- Rmult_plus_distr_r.
  apply Rmult_le_compat_r. { pose proof (div_len_pos xs 1 ltac:(lra)) as Hd. unfold Rdiv in Hd. lra. }
  revert ys zs H1 H2; induction xs as [|x xs IH]; intros [|y ys] [|z zs] H1 H2; try discriminate; unfold pair_sum in *; simpl; [lra|].
  injection H1 as H1. injection H2 as H2. specialize (IH ys zs H1 H2).
  pose proof (Rabs_triang (x - y) (y - z)) as Ht. replace (x - y + (y - z)) with (x - z) in Ht by ring. lra.
Qed.
Lemma max_abs_triangle xs ys zs : length xs = length ys -> length ys = length zs ->
  max_abs_distance xs zs <= max_abs_distance xs ys + max_abs_distance ys zs.
Proof.
  unfold max_abs_distance, pair_max.
  revert ys zs; induction xs as [|x xs IH]; intros [|y ys] [|z zs] H1 H2; try discriminate; simpl; [lra|].
  injection H1 as H1. injection H2 as H2. specialize (IH ys zs H1 H2).
  pose proof (Rabs_triang (x - y) (y - z)) as Ht. replace (x - y + (y - z)) with (x - z) in Ht by ring.
  match goal with |- Rmax _ ?T1 <= Rmax _ ?T2 + Rmax _ ?T3 =>
    pose proof (Rmax_l (Rabs (x - y)) T2); pose proof (Rmax_r (Rabs (x - y)) T2);
    pose proof (Rmax_l (Rabs (y - z)) T3); pose proof (Rmax_r (Rabs (y - z)) T3);
    apply Rmax_lub; lra end.
Qed.

Lemma minkowski (p : list (R * R)) :
  sqrt (fold_right (fun c s => (fst c + snd c) * (fst c + snd c) + s) 0 p)
  <= sqrt (fold_right (fun c s => fst c * fst c + s) 0 p) + sqrt (fold_right (fun c s => snd c * snd c + s) 0 p).
Proof.
  pose proof (cauchy p) as (HB & HC & HA). cbv zeta in *.
  set (A := fold_right (fun c s => fst c * snd c + s) 0 p) in *.
  set (B := fold_right (fun c s => fst c * fst c + s) 0 p) in *.
  set (C := fold_right (fun c s => snd c * snd c + s) 0 p) in *.
  assert (E : fold_right (fun c s => (fst c + snd c) * (fst c + snd c) + s) 0 p = B + 2 * A + C).
  { unfold A, B, C. clear. induction p as [|c p IH]; simpl; [lra|]. rewrite IH. ring. }
  rewrite E. pose proof (R_sqrt.sqrt_pos B). pose proof (R_sqrt.sqrt_pos C).
  rewrite <- (sqrt_square (sqrt B + sqrt C)) by lra. apply sqrt_le_1_alt.
  pose proof (sqrt_sqrt B HB). pose proof (sqrt_sqrt C HC).
  assert (HA2 : A <= sqrt B * sqrt C).
  { apply Rsqr_incr_0_var; [|nra]. unfold Rsqr.
    replace (sqrt B * sqrt C * (sqrt B * sqrt C)) with ((sqrt B * sqrt B) * (sqrt C * sqrt C)) by ring. rewrite H1, H2. auto. }
  nra.
Qed.

Lemma rms_triangle xs ys zs : length xs = length ys -> length ys = length zs ->
  rms_distance xs zs <= rms_distance xs ys + rms_distance ys zs.
Proof.
  intros H1 H2. unfold rms_distance. rewrite <- H1. destruct xs as [|x0 xs0] eqn:Ex.
  { destruct ys, zs; try discriminate. unfold pair_sum; simpl. unfold Rdiv. rewrite !Rmult_0_l, sqrt_0. lra. }
  rewrite <- Ex in *. assert (Hn : 0 < INR (length xs)) by (apply lt_0_INR; rewrite Ex; simpl; lia). clear Ex.
  assert (Hsq : forall u v, 0 <= pair_sum (fun x y => (x - y) * (x - y)) u v)
    by (intros; apply pair_sum_pos; intros x y; apply (Rle_0_sqr (x - y))).
  rewrite !sqrt_div by auto. unfold Rdiv. rewrite <- Rmult_plus_distr_r.
  apply Rmult_le_compat_r. { left. apply Rinv_0_lt_compat, sqrt_lt_R0; auto. }
  set (p := combine (map (fun c => fst c - snd c) (combine xs ys)) (map (fun c => fst c - snd c) (combine ys zs))).
  pose proof (minkowski p) as Hm.
  assert (E1 : fold_right (fun c s => (fst c + snd c) * (fst c + snd c) + s) 0 p = pair_sum (fun x y => (x - y) * (x - y)) xs zs).
  { unfold p, pair_sum. clear -H1 H2. revert ys zs H1 H2; induction xs as [|x xs IH]; intros [|y ys] [|z zs] H1 H2; try discriminate; auto.
    simpl. rewrite IH; auto. ring. }
  assert (E2 : fold_right (fun c s => fst c * fst c + s) 0 p = pair_sum (fun x y => (x - y) * (x - y)) xs ys).
  { unfold p, pair_sum. clear -H1 H2. revert ys zs H1 H2; induction xs as [|x xs IH]; intros [|y ys] [|z zs] H1 H2; try discriminate; auto.
    simpl. rewrite IH; auto. }
  assert (E3 : fold_right (fun c s => snd c * snd c + s) 0 p = pair_sum (fun x y => (x - y) * (x - y)) ys zs).
  { unfold p, pair_sum. clear -H1 H2. revert ys zs H1 H2; induction xs as [|x xs IH]; intros [|y ys] [|z zs] H1 H2; try discriminate; auto.
    simpl. rewrite IH; auto. }
  rewrite E1, E2, E3 in Hm. exact Hm.
Qed.
End MetricAxioms.
