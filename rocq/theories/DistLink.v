(** Connecting the specification of DistSpec.v with the model. *)
From Coq Require Import String Reals.
From Verif Require Import Base Num NumB64 NumLaws NumFacts NumB64Laws NumXR NumXRLaws LoopFacts TimeSeries Lemire Distance DtwSpec DtwPaths
  DtwProofs Metrics DtwMain DtwResults DtwBounds DtwReal DtwLen1 Pairwise LemireProofs DistSpec DistFacts.
Local Open Scope Z_scope.
Local Open Scope list_scope.

Definition metric_of {N} (k : kind) : Metric N :=
  match k with KEuclidean => Euclidean | KManhattan => Manhattan | KChebyshev => Chebyshev end.

Definition nice_of {N} {L : NumLaws N} (k : kind) : Nice (metric_of (N := N) k) :=
  match k with KEuclidean => Euclidean_nice | KManhattan => Manhattan_nice | KChebyshev => Chebyshev_nice end.

Lemma kind_basic {N} k : basic_metric (metric_of (N := N) k).
Proof. destruct k; constructor. Qed.

Section Link.
Context {N : Num}.
Notation D := (D N).

Lemma call_dtw k (ratio : D) a b cut mt :
  dist_call (dtw_name k) ratio a b cut mt = warpedDistance (metric_of k) a b ratio cut mt.
Proof. destruct k; reflexivity. Qed.
Lemma call_pw k (ratio : D) a b cut mt :
  dist_call (kind_name k) ratio a b cut mt = pairwiseDistance (metric_of k) a b cut mt.
Proof. destruct k; reflexivity. Qed.

Lemma along_acc k (a b : TS N) p :
  match k as k return acc (metric_of k) -> Prop with
  | KEuclidean => fun s => s = along KEuclidean (ts_points a) (ts_points b) p
  | KManhattan => fun s => s = along KManhattan (ts_points a) (ts_points b) p
  | KChebyshev => fun s => s = along KChebyshev (ts_points a) (ts_points b) p
  end (path_acc (metric_of k) a b p).
Proof. destruct k; reflexivity. Qed.

Lemma warp_cost_eq k (a b : TS N) p : ts_ok a -> ts_ok b ->
  warp_cost k (ts_points a) (ts_points b) p = path_cost (metric_of k) a b p.
Proof.
  intros Ha Hb. unfold warp_cost, path_cost. rewrite !ts_points_length by auto.
  pose proof (along_acc k a b p) as E. destruct k; rewrite E; reflexivity.
Qed.

Lemma pair_value_eq k (a b : TS N) : ts_ok a -> ts_ok b -> ts_length a = ts_length b ->
  pair_value k (ts_points a) (ts_points b) = pw_full (metric_of k) a b.
Proof.
  intros Ha Hb Hl. unfold pair_value, pw_full. rewrite <- (ts_points_length a) by auto.
  change (straight ?n) with (diag n). rewrite Nat2Z.id.
  pose proof (along_acc k a b (diag (length (ts_points a)))) as E.
  destruct k; rewrite E; cbn [metric_of m_norm Euclidean Manhattan Chebyshev]; rewrite ?Z.max_id; reflexivity.
Qed.

Lemma ok_pre k (a b : TS N) (ratio : D) r : ieee_ok k a b ratio r <-> dtw_pre (metric_of k) a b ratio r.
Proof.
  split; intros [Ha Hb Hm Hn Fa Fb Hband Hr Hf]; constructor; auto.
  - intros i j p Hi Hj H1 H2. rewrite <- warp_cost_eq by auto. apply (Hf i j p); auto.
  - intros i j p Hi Hj H1 H2. rewrite warp_cost_eq by auto. apply (Hf i j p); auto.
Qed.

Lemma value_outcome (r : res (D * matching)) : value r = outcome r.
Proof. destruct r as [[d p]| | |]; reflexivity. Qed.
End Link.

Lemma small_ok k (a b : TS B64) (ratio : b64) r : ts_ok a -> ts_ok b ->
  2 <= ts_length a <= 2 ^ 30 -> 2 <= ts_length b <= 2 ^ 30 ->
  small_points a -> small_points b ->
  band (N := B64) ratio (Z.max (ts_length a) (ts_length b)) = Ret r -> 0 <= r -> ieee_ok k a b ratio r.
Proof.
  intros Ha Hb Hm Hn Sa Sb Hband Hr. apply ok_pre. constructor; auto.
  - eapply Forall_impl; [|exact Sa]. intros x Hx. apply moderate_fin, Hx.
  - eapply Forall_impl; [|exact Sb]. intros x Hx. apply moderate_fin, Hx.
  - destruct k; [apply no_overflow_euclidean|apply no_overflow_manhattan|apply no_overflow_chebyshev]; auto; lia.
Qed.

Definition rm_of (k : kind) : real_metric (metric_of k) :=
  match k with KEuclidean => euclidean_rm | KManhattan => manhattan_rm | KChebyshev => chebyshev_rm end.

(** the textbook cost over the reals *)
Definition real_cost (k : kind) : list R -> list R -> list (Z * Z) -> R :=
  match k with KEuclidean => euclidean_cost | KManhattan => manhattan_cost | KChebyshev => chebyshev_cost end.

Definition real_pair (k : kind) : list R -> list R -> R :=
  match k with KEuclidean => rms_distance | KManhattan => mean_abs_distance | KChebyshev => max_abs_distance end.

Lemma rm_cost_of k : rm_cost _ (rm_of k) = real_cost k.
Proof. destruct k; reflexivity. Qed.

Lemma XR_neqv_eq (x y : D XR) : neqv x y -> x = y.
Proof.
  intros [H1 H2]. apply XR_nle in H1. apply XR_nle in H2. destruct x as [x| | |], y as [y| | |]; simpl in *; try tauto.
  f_equal. apply Rle_antisym; auto.
Qed.

Lemma reflects_of k l1 l2 : (1 <= Z.max l1 l2) -> reflects (nice_of (N := XR) k) l1 l2.
Proof.
  intros H. destruct k; [apply Euclidean_reflects_XR; auto|apply Manhattan_reflects_XR; auto|].
  apply (rm_reflects _ chebyshev_rm); auto.
Qed.

Lemma nth_firstn_lt {A} (l : list A) n k d : (k < n)%nat -> nth k (firstn n l) d = nth k l d.
Proof. revert n k; induction l as [|x l IH]; intros [|n] [|k] H; simpl; auto; try lia. apply IH. lia. Qed.

(** envelopes *)
Lemma envelope_near {N} {L : NumLaws N} (t : TS N) w : ts_ok t -> 1 <= ts_length t -> 0 <= w ->
  Forall nn (ts_points t) -> exists lo up, keoghLU t w = Ret (lo, up) /\
    Z.of_nat (length lo) = ts_length t /\ Z.of_nat (length up) = ts_length t /\
    forall k, 0 <= k < ts_length t ->
      (exists v, aget up k = Ret (Some v) /\ largest_near t w k v) /\
      (exists v, aget lo k = Ret (Some v) /\ smallest_near t w k v).
Proof.
  intros Ht Hl Hw Hnn. unfold keoghLU. destruct (Z.ltb_spec (ts_length t) 0) as [Hneg|Hneg]; [lia|].
  set (mem := skipn (Z.to_nat (ts_start t)) (ts_mem t)).
  assert (Htv : forall i, 0 <= i < ts_length t -> LemireProofs.tv mem i = pt t i).
  { intros i Hi. unfold LemireProofs.tv, pt, ts_points, mem. symmetry.
    rewrite nth_firstn_lt by lia. reflexivity. }
  destruct (LemireProofs.lemire_ok mem (ts_length t) (Z.min w (ts_length t - 1))) as (l & u & E & L1 & L2 & H).
  - unfold mem. rewrite skipn_length. destruct Ht as (A & B & C & D'). lia.
  - intros i Hi. rewrite Htv by auto. rewrite Forall_forall in Hnn. apply Hnn, pt_in; auto.
  - lia.
  - exists l, u. splits; auto. intros k Hk. destruct (H k Hk) as [(v & Ev & (i & Hi & Evi) & Mv) (v' & Ev' & (i' & Hi' & Evi') & Mv')].
    unfold LemireProofs.win_lo, LemireProofs.win_hi in *.
    split; [exists v|exists v']; (split; [auto|]).
    + split; [exists i; rewrite <- Htv by lia; splits; auto; lia|].
      intros j Hj1 Hj2. rewrite <- Htv by lia. apply Mv. lia.
    + split; [exists i'; rewrite <- Htv by lia; splits; auto; lia|].
      intros j Hj1 Hj2. rewrite <- Htv by lia. apply Mv'. lia.
Qed.
