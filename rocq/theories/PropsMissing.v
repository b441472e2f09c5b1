(** C78: missing values ("nan") in the data. *)
From Coq Require Import String Lia ZArith.
From Flocq Require Import Core BinarySingleNaN.
From Verif Require Import Base Num NumB64 NumB64Laws NumLaws NumFacts LoopFacts TimeSeries TSSet Distance DtwSpec DtwPaths Pairwise DistSpec DistLink GroupSpace
  DataSpec DataProofs WarpPath CosineSpec PropsCosine MissingSpec Missing Api ApiSpec ApiProofs NamedSpec PropsDistance PropsLoader PropsApi PropsNames PropsNamed.
Local Open Scope Z_scope.
Local Open Scope list_scope.

(** ** doubles *)
Lemma missing_nan (x : b64) : missing (N := B64) x <-> x = B754_nan.
Proof.
  unfold missing. cbn [neqb B64]. split; [|intros ->; reflexivity]. rewrite Beqb_refl. destruct x; cbn; congruence.
Qed.

#[global] Instance B64_gaps : GapLaws B64.
Proof.
  constructor.
  - intros x y H. apply missing_nan in H. subst x. reflexivity.
  - intros x y H. apply missing_nan in H. subst y. destruct x as [[]|[]| |[]]; reflexivity.
  - intros x y H. apply missing_nan in H. subst y. destruct x as [[]|[]| |[]]; reflexivity.
  - intros x y H. apply missing_nan in H. subst x. apply missing_nan. reflexivity.
  - intros x y H. apply missing_nan in H. subst y. apply missing_nan. destruct x; reflexivity.
  - intros x y H. apply missing_nan in H. subst x. apply missing_nan. reflexivity.
  - intros x y H. apply missing_nan in H. subst y. apply missing_nan. destruct x; reflexivity.
  - intros x H. apply missing_nan in H. subst x. apply missing_nan. reflexivity.
  - intros x y H. apply missing_nan in H. subst x. apply missing_nan. reflexivity.
  - intros x H. apply missing_nan in H. subst x. apply missing_nan. reflexivity.
  - intros x H. apply missing_nan in H. subst x. apply missing_nan. reflexivity.
Qed.

(** the distances that a missing value spoils *)
Definition spoils (k : kind) : Prop := k <> KChebyshev.

Section Any.
Context {N : Num} {G : GapLaws N}.

Lemma gap_at (t : TS N) : ts_ok t -> gaps t -> exists k, 0 <= k <= ts_length t - 1 /\ missing (pt t k).
Proof.
  intros Ht H. apply Exists_exists in H as (x & Hi & Hx). apply In_nth with (d := n0) in Hi as (k & Hk & E).
  pose proof (DtwPaths.ts_points_length t Ht) as Hl. exists (Z.of_nat k). split; [lia|]. unfold pt. rewrite Nat2Z.id, E. exact Hx.
Qed.

Lemma early_at (t : TS N) : ts_ok t -> early_gaps t -> exists k, 0 <= k <= ts_length t - 2 /\ missing (pt t k).
Proof.
  intros Ht H. unfold early_gaps in H. rewrite removelast_firstn_len in H. apply Exists_exists in H as (x & Hi & Hx).
  apply In_nth with (d := n0) in Hi as (k & Hk & E). rewrite firstn_length in Hk.
  pose proof (DtwPaths.ts_points_length t Ht) as Hl. exists (Z.of_nat k). split; [lia|]. unfold pt. rewrite Nat2Z.id.
  rewrite nth_firstn_lt in E by lia. rewrite E. exact Hx.
Qed.

Lemma gap_nonempty (t : TS N) : ts_ok t -> gaps t -> 1 <= ts_length t.
Proof. intros Ht H. destruct (gap_at t Ht H) as (k & Hk & _). lia. Qed.

Lemma bad_gaps (a b : TS N) : ts_ok a -> ts_ok b -> gaps a \/ gaps b -> bad a b (ts_length a - 1) (ts_length b - 1).
Proof. intros Ha Hb [H|H]; [left; apply gap_at|right; apply gap_at]; assumption. Qed.
Lemma bad_early (a b : TS N) : ts_ok a -> ts_ok b -> early_gaps a \/ early_gaps b -> bad a b (ts_length a - 2) (ts_length b - 2).
Proof. intros Ha Hb [H|H]; [left; apply early_at|right; apply early_at]; assumption. Qed.

Section Metrics.
Variables a b : TS N.
Hypothesis Ha : ts_ok a.
Hypothesis Hb : ts_ok b.

Lemma euc_x (v x y : D N) : missing x -> missing (m_reduce Euclidean v x y).
Proof. intros H. apply gap_add_r, gap_mul, gap_sub_l, H. Qed.
Lemma euc_y (v x y : D N) : missing y -> missing (m_reduce Euclidean v x y).
Proof. intros H. apply gap_add_r, gap_mul, gap_sub_r, H. Qed.
Lemma man_x (v x y : D N) : missing x -> missing (m_reduce Manhattan v x y).
Proof. intros H. apply gap_add_r, gap_abs, gap_sub_l, H. Qed.
Lemma man_y (v x y : D N) : missing y -> missing (m_reduce Manhattan v x y).
Proof. intros H. apply gap_add_r, gap_abs, gap_sub_r, H. Qed.

Lemma warped_gap_k k r (ratio cut : D N) mt v mt' : spoils k -> gaps a \/ gaps b -> 1 <= ts_length a -> 1 <= ts_length b ->
  band ratio (Z.max (ts_length a) (ts_length b)) = Ret r -> Z.max (ts_length a) (ts_length b) - 1 <= r ->
  warpedDistance (metric_of k) a b ratio cut mt = Ret (v, mt') -> v = ninf \/ missing v.
Proof.
  intros Hk Hg Hm Hn Eb Hr E. pose proof (bad_gaps a b Ha Hb Hg) as Hbad.
  assert (H11 : (ts_length a = 1 /\ ts_length b = 1) \/ ~ (ts_length a = 1 /\ ts_length b = 1)) by lia.
  destruct H11 as [[H1 H2]|H11].
  - right. unfold warpedDistance in E. rewrite Eb in E. cbn [bind] in E. rewrite (proj2 (Z.eqb_eq _ _) H1), (proj2 (Z.eqb_eq _ _) H2) in E. cbn [andb] in E.
    rewrite (ts_get_pt a 0 Ha ltac:(lia)), (ts_get_pt b 0 Hb ltac:(lia)) in E. cbn [bind] in E. injection E as <- _.
    assert (Hx : missing (pt a 0) \/ missing (pt b 0)).
    { destruct Hbad as [(j & Hj & Hx)|(j & Hj & Hx)]; [left|right]; replace 0 with j by lia; exact Hx. }
    destruct k; [| |exfalso; apply Hk; reflexivity]; cbn [metric_of].
    + apply gap_div, gap_sqrt. destruct Hx as [Hx|Hx]; [apply euc_x|apply euc_y]; exact Hx.
    + apply gap_div. destruct Hx as [Hx|Hx]; [apply man_x|apply man_y]; exact Hx.
  - destruct k; [| |exfalso; apply Hk; reflexivity]; cbn [metric_of] in E.
    + refine (warped_gap Euclidean missing n0 eq_refl _ euc_x euc_y _ a b Ha Hb r Hm Hn Hr H11 ratio cut mt v mt' Eb Hbad E).
      * intros w x y H. apply gap_add_l, H.
      * intros w i j H. apply gap_div, gap_sqrt, H.
    + refine (warped_gap Manhattan missing n0 eq_refl _ man_x man_y _ a b Ha Hb r Hm Hn Hr H11 ratio cut mt v mt' Eb Hbad E).
      * intros w x y H. apply gap_add_l, H.
      * intros w i j H. apply gap_div, H.
Qed.

Lemma warped_stuck_k k r (ratio cut : D N) mt : spoils k -> early_gaps a \/ early_gaps b -> 2 <= ts_length a -> 2 <= ts_length b ->
  band ratio (Z.max (ts_length a) (ts_length b)) = Ret r -> Z.max (ts_length a) (ts_length b) - 1 <= r -> (forall x, nltb cut x = false) ->
  warpedDistance (metric_of k) a b ratio cut mt = Hang.
Proof.
  intros Hk Hg Hm Hn Eb Hr Hc. pose proof (bad_early a b Ha Hb Hg) as Hbad.
  assert (Hm1 : 1 <= ts_length a) by lia. assert (Hn1 : 1 <= ts_length b) by lia. assert (H11 : ~ (ts_length a = 1 /\ ts_length b = 1)) by lia.
  destruct k; [| |exfalso; apply Hk; reflexivity]; cbn [metric_of].
  - refine (warped_stuck Euclidean missing n0 eq_refl _ euc_x euc_y _ a b Ha Hb r Hm1 Hn1 Hr H11 ratio cut mt Eb Hm Hn Hc Hbad).
    + intros w x y H. apply gap_add_l, H.
    + intros w i j H. apply gap_div, gap_sqrt, H.
  - refine (warped_stuck Manhattan missing n0 eq_refl _ man_x man_y _ a b Ha Hb r Hm1 Hn1 Hr H11 ratio cut mt Eb Hm Hn Hc Hbad).
    + intros w x y H. apply gap_add_l, H.
    + intros w i j H. apply gap_div, H.
Qed.

Context {L : NumLaws N}.
Lemma straight_gap_k k (cut : D N) mt : spoils k -> gaps a \/ gaps b -> ts_length a = ts_length b ->
  (exists v, pairwiseDistance (metric_of k) a b cut mt = Ret (v, mt) /\ missing v) \/
  (pairwiseDistance (metric_of k) a b cut mt = Ret (ninf, mt) /\ exists t, pw_exceeds (metric_of k) a cut t = true).
Proof.
  intros Hk Hg Hl.
  assert (Hm : 0 <= ts_length a) by (rewrite <- (DtwPaths.ts_points_length a Ha); lia).
  assert (HP : exists c, In c (diag (Z.to_nat (ts_length a))) /\ (missing (pt a (fst c)) \/ missing (pt b (snd c)))).
  { destruct (bad_gaps a b Ha Hb Hg) as [(i & Hi & Hx)|(i & Hi & Hx)]; exists (i, i); (split; [|cbn; auto]);
      unfold diag; apply in_map_iff; exists (Z.to_nat i); rewrite in_seq; split; try lia; f_equal; lia. }
  destruct (pw_run (metric_of k) a b Ha Hb Hl cut mt Hm) as (j & _ & [(E & _)|(E & _ & Hx)]); rewrite E.
  - left. eexists. split; [reflexivity|]. unfold pw_full. destruct k; [| |exfalso; apply Hk; reflexivity]; cbn [metric_of].
    + apply gap_sqrt, gap_div. apply (path_gap Euclidean missing); [|exact euc_x|exact euc_y|exact HP]. intros w x y H. apply gap_add_l, H.
    + apply gap_div. apply (path_gap Manhattan missing); [|exact man_x|exact man_y|exact HP]. intros w x y H. apply gap_add_l, H.
  - right. split; [reflexivity|]. eexists. exact Hx.
Qed.
End Metrics.

(** Chebyshev: std::max(total, nan) is total *)
Lemma max_gap (s x : D N) : missing x -> nmax s x = s.
Proof. intros H. unfold nmax. rewrite (gap_ltb_r s x H). reflexivity. Qed.

Definition gap_step (s : D N) (c : D N * D N) : D N := nmax s (nabs (nsub (fst c) (snd c))).

Lemma fold_known (ps : list (D N * D N)) : forall s, fold_left gap_step ps s = fold_left gap_step (filter (fun c => known (fst c) && known (snd c)) ps) s.
Proof.
  induction ps as [|[x y] ps IH]; intros s; [reflexivity|]. cbn [fold_left filter fst snd]. destruct (known x && known y) eqn:E; [apply IH|].
  rewrite <- IH. f_equal. unfold gap_step. cbn [fst snd]. apply max_gap, gap_abs. apply andb_false_iff in E as [E|E]; [apply gap_sub_l, E|apply gap_sub_r, E].
Qed.
End Any.

(** ** Theorems *)

(** Point to point: with a missing value in either series, "euclidean" and "manhattan" give no
    number; they give infinity only when the cut-off was passed before. *)
Theorem C78_straight : forall (k : kind) (a b : TS B64) (ratio cut : b64) mt, spoils k ->
  ts_ok a -> ts_ok b -> ts_length a = ts_length b -> ts_length a <= 2 ^ 30 -> gaps a \/ gaps b ->
  (exists v : b64, dist_call (N := B64) (kind_name k) ratio a b cut mt = Ret (v, mt) /\ (v = B754_nan \/ v = pinf)) /\
  dist_call (N := B64) (kind_name k) ratio a b pinf mt = Ret (B754_nan, mt).
Proof.
  intros k a b ratio cut mt Hk Ha Hb Hl Hm Hg. rewrite !call_pw. split.
  - destruct (straight_gap_k (N := B64) a b Ha Hb k cut mt Hk Hg Hl) as [(v & E & Hv)|[E _]].
    + exists v. split; [exact E|]. left. apply missing_nan, Hv.
    + exists pinf. split; [exact E|]. right. reflexivity.
  - destruct (straight_gap_k (N := B64) a b Ha Hb k pinf mt Hk Hg Hl) as [(v & E & Hv)|[_ (t & Ht)]].
    + apply missing_nan in Hv. subst v. exact E.
    + exfalso. assert (H1 : 1 <= ts_length a) by (destruct Hg as [H|H]; [exact (gap_nonempty a Ha H)|rewrite Hl; exact (gap_nonempty b Hb H)]).
      destruct k; [| |apply Hk; reflexivity]; unfold pw_exceeds in Ht; cbn [metric_of m_inv Euclidean Manhattan] in Ht.
      * rewrite Z.max_id in Ht. pose proof (inf_scaled (ts_length a) ltac:(lia)) as Hi.
        refine (Bool.diff_true_false (eq_trans (eq_sym Ht) (eq_trans (f_equal (fun u => nltb (n := B64) u t) Hi) _))). apply (lw_inf_top (N := B64)).
      * refine (Bool.diff_true_false (eq_trans (eq_sym Ht) _)). apply (lw_inf_top (N := B64)).
Qed.
Print Assumptions C78_straight.

(** "chebyshev" passes over them: it is the largest difference of the pairs that are known (and
    minus infinity when there are none). *)
Theorem C78_chebyshev : forall (a b : TS B64) (ratio : b64) mt, ts_ok a -> ts_ok b -> ts_length a = ts_length b ->
  dist_call (N := B64) "chebyshev" ratio a b pinf mt =
    Ret (fold_left (gap_step (N := B64)) (known_pairs (N := B64) (ts_points a) (ts_points b)) (B754_infinity true : b64), mt).
Proof.
  intros a b ratio mt Ha Hb Hl. change (dist_call (N := B64) "chebyshev" ratio a b pinf mt) with (pairwiseDistance (@Chebyshev B64) a b (@ninf B64) mt).
  pose proof (DtwPaths.ts_points_length a Ha) as La. pose proof (DtwPaths.ts_points_length b Hb) as Lb.
  destruct (pw_run (@Chebyshev B64) a b Ha Hb Hl (@ninf B64) mt ltac:(lia)) as (j & _ & [(E & _)|(_ & _ & Hx)]).
  2:{ exfalso. unfold pw_exceeds in Hx. cbn [m_inv Chebyshev] in Hx. refine (Bool.diff_true_false (eq_trans (eq_sym Hx) _)). apply (lw_inf_top (N := B64)). }
  rewrite E. f_equal. f_equal. unfold pw_full. cbn [m_norm Chebyshev]. unfold known_pairs. rewrite <- (fold_known (N := B64)).
  replace (Z.to_nat (ts_length a)) with (length (ts_points a)) by lia.
  assert (Hll : length (ts_points a) = length (ts_points b)) by lia.
  rewrite <- (PropsCosine.met_diag (N := B64) _ _ Hll). unfold path_acc, CosineSpec.met. cbn [m_init Chebyshev m_reduce].
  assert (Hs : forall p (s : D B64), fold_left (fun s c => nmax (N := B64) s (nabs (n := B64) (nsub (n := B64) (pt a (fst c)) (pt b (snd c))))) p s =
    fold_left (gap_step (N := B64)) (map (fun c => (nthd (N := B64) (ts_points a) (fst c), nthd (N := B64) (ts_points b) (snd c))) p) s).
  { clear. induction p as [|c p IH]; intros s; [reflexivity|]. cbn [map fold_left]. apply IH. }
  apply Hs.
Qed.
Print Assumptions C78_chebyshev.

(** Warped, with the whole matrix allowed: "euclidean_dtw" and "manhattan_dtw" never give a
    number. *)
Theorem C78_warped : forall (k : kind) (a b : TS B64) (ratio cut : b64) mt (v : b64) mt', spoils k ->
  ts_ok a -> ts_ok b -> 1 <= ts_length a -> 1 <= ts_length b -> gaps a \/ gaps b ->
  (exists r, band (N := B64) ratio (Z.max (ts_length a) (ts_length b)) = Ret r /\ Z.max (ts_length a) (ts_length b) - 1 <= r) ->
  dist_call (N := B64) (dtw_name k) ratio a b cut mt = Ret (v, mt') -> v = B754_nan \/ v = pinf.
Proof.
  intros k a b ratio cut mt v mt' Hk Ha Hb Hm Hn Hg (r & Eb & Hr) E. rewrite call_dtw in E.
  destruct (warped_gap_k (N := B64) a b Ha Hb k r ratio cut mt v mt' Hk Hg Hm Hn Eb Hr E) as [H|H]; [right; exact H|left; apply missing_nan, H].
Qed.
Print Assumptions C78_warped.

(** And through the interface they never return at all: after any history, for any two stretches
    of at least two points of which one has a missing value before its last point, the distance
    and the matching are computed forever. *)
Theorem C78_endless_refuted : forall (r0 : b64) h (s : api B64) e (k : kind) n1 i1 s1 e1 (xs : list (D B64)) n2 i2 s2 e2 (ys : list (D B64)),
  run (N := B64) r0 h s -> stretch s n1 i1 s1 e1 xs -> stretch s n2 i2 s2 e2 ys -> spoils k ->
  (2 <= length xs)%nat -> (2 <= length ys)%nat ->
  Exists (missing (N := B64)) (removelast xs) \/ Exists (missing (N := B64)) (removelast ys) ->
  let len := Z.max (Z.of_nat (length xs)) (Z.of_nat (length ys)) in
  band (N := B64) (ratio_after (N := B64) r0 h) len = Ret (len - 1) ->
  exec e (CDistance n1 i1 s1 e1 n2 i2 s2 e2 (dtw_name k)) s = (s, Hang) /\
  exec e (CMatching n1 i1 s1 e1 n2 i2 s2 e2 (dtw_name k)) s = (s, Hang).
Proof.
  intros r0 h s e k n1 i1 s1 e1 xs n2 i2 s2 e2 ys Hrun H1 H2 Hk Hx Hy Hg len Eb.
  destruct (named_calls (N := B64) r0 h s e _ _ _ _ _ _ _ _ _ _ Hrun H1 H2) as (a & b & (Ha & Hb & Pa & Pb & La & Lb) & ED & EM).
  assert (EH : dist_call (N := B64) (dtw_name k) (ratio_after (N := B64) r0 h) a b (@ninf B64) [] = Hang).
  { rewrite call_dtw. apply (warped_stuck_k (N := B64) a b Ha Hb k (len - 1) _ _ _ Hk).
    - unfold early_gaps. rewrite Pa, Pb. exact Hg.
    - rewrite La. lia.
    - rewrite Lb. lia.
    - rewrite La, Lb. exact Eb.
    - rewrite La, Lb. unfold len. lia.
    - intros x. apply (lw_inf_top (N := B64)). }
  split.
  - rewrite ED, EH. reflexivity.
  - rewrite EM. assert (Ed : ends_in_dtw (dtw_name k) = Ret true) by (destruct k; reflexivity). rewrite Ed. cbn [bind negb]. rewrite EH. reflexivity.
Qed.
Print Assumptions C78_endless_refuted.

(** Normalising passes over missing values: minimum and maximum are those of the known values,
    the known values are scaled by them and the missing ones stay missing. *)
Theorem C78_normalise : forall (d : dataset B64) (rows : list (list b64)), holds d rows ->
  let all := filter (known (N := B64)) (concat rows) in
  all <> [] -> Forall (@nfin B64) all ->
  exists d' mn mx f, normalize d = Ret (d', (mn, mx)) /\ In mn all /\ In mx all /\
    Forall (fun v => nle (N := B64) mn v /\ nle (N := B64) v mx) all /\ holds d' (map (map f) rows) /\
    (neqb (n := B64) (nsub (n := B64) mx mn) (b64_ofZ 0) = false ->
       forall v, f v = ndiv (n := B64) (nsub (n := B64) v mn) (nsub (n := B64) mx mn) /\ (v = B754_nan -> f v = B754_nan)).
Proof.
  intros d rows H all Hne Hf. destruct (gap_normalize (N := B64) d rows H Hne Hf) as (d' & mn & mx & E & I1 & I2 & I3 & Hh).
  exists d', mn, mx, (norm_val (N := B64) mn mx). split; [exact E|]. split; [exact I1|]. split; [exact I2|]. split; [exact I3|]. split; [exact Hh|].
  intros Hd v. assert (Ev : norm_val (N := B64) mn mx v = ndiv (n := B64) (nsub (n := B64) v mn) (nsub (n := B64) mx mn)).
  { unfold norm_val. change (@n0 B64) with (b64_ofZ 0). rewrite Hd. reflexivity. }
  split; [exact Ev|]. intros ->. rewrite Ev. apply missing_nan, gap_div, gap_sub_l, missing_nan. reflexivity.
Qed.
Print Assumptions C78_normalise.

(** ** Examples *)
From Verif Require Import Loader PropsNorm PropsTurn HeapFacts.

(** std::stod: whole numbers, and nan *)
Definition stod_gap (t : string) : parsed b64 := if String.eqb t "nan" then Parsed (B754_nan : b64) else stodZ t.
Definition gap_env : env B64 :=
  mkEnv (N := B64) stod_gap putZ putZ (fun _ => None) (fun p => if String.eqb p "f" then Some (mkFile ("1,nan,2" ++ nl1 ++ "3,4,5" ++ nl1 ++ "nan,1,9") None) else None)
    (fun _ => true) (fun _ => None) (fun _ => false) simple_alg.
Definition gap_rows : list (list (D B64)) :=
  [[b64_ofZ 1; B754_nan; b64_ofZ 2]; [b64_ofZ 3; b64_ofZ 4; b64_ofZ 5]; [B754_nan; b64_ofZ 1; b64_ofZ 9]].
Definition gap_start : api B64 := st_after gap_env [st_load] ex_start.

(** the file is loaded without complaint *)
Example C78_example_loaded : exists h, run (N := B64) (b64_ofZ 1) h gap_start /\ map fst h = [st_load] /\
  stretch gap_start "x" 0 (-1) (-1) (nth 0 gap_rows []) /\ stretch gap_start "x" 1 (-1) (-1) (nth 1 gap_rows []) /\
  Exists (missing (N := B64)) (removelast (nth 0 gap_rows [])).
Proof.
  destruct (st_run gap_env [st_load] [] ex_start (@run_start B64 (b64_ofZ 1))) as (h & Hrun & Hh); [vm_compute; reflexivity|].
  fold gap_start in Hrun. exists h. split; [exact Hrun|]. split; [exact Hh|].
  assert (E : option_map table_seen (held gap_start "x") = Some (Some (map PropsNorm.sf (concat gap_rows)), [3; 3; 3], 3, 3)) by (vm_compute; reflexivity).
  destruct (held gap_start "x") as [g|] eqn:Eh; [|discriminate E]. cbn [option_map] in E. apply some_inj in E.
  assert (Hd : holds (gt_data g) gap_rows) by (apply (table_holds 3); [repeat constructor|vm_compute; discriminate|exact E]).
  split; [|split].
  - exists g, gap_rows, (nth 0 gap_rows []). split; [exact Eh|]. split; [exact Hd|]. split; [reflexivity|]. left. split; [lia|]. split; [lia|reflexivity].
  - exists g, gap_rows, (nth 1 gap_rows []). split; [exact Eh|]. split; [exact Hd|]. split; [reflexivity|]. left. split; [lia|]. split; [lia|reflexivity].
  - right. left. apply missing_nan. reflexivity.
Qed.

(** Grouping such a data set works, but searching its groups goes on forever; the
    "chebyshev" distance of stretches without a common known point is minus infinity. *)
Theorem C78_search_refuted :
  let s1 := fst (exec gap_env (CGroup (N := B64) "x" (b64_ofZ 1) "euclidean" 1 true) gap_start) in
  let answer c s := sight (snd (exec gap_env c s)) in
  answer (CGroup (N := B64) "x" (b64_ofZ 1) "euclidean" 1 true) gap_start = Done /\
  answer (CBest "x" "x" 1 (-1) (-1)) s1 = Endless /\ answer (CKBest 1 3 "x" "x" 1 (-1) (-1)) s1 = Endless /\
  answer (CDistance "x" 0 0 2 "x" 1 0 2 "euclidean_dtw") gap_start = Done /\
  answer (CDistance "x" 0 0 3 "x" 1 0 3 "euclidean_dtw") gap_start = Endless /\
  shown_distance (snd (exec gap_env (CDistance "x" 0 0 2 "x" 2 0 2 "chebyshev") gap_start)) = Some (SpecFloat.S754_infinity true).
Proof. vm_compute. repeat split. Qed.
Print Assumptions C78_search_refuted.
