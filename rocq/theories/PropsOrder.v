(** Property C70: the order of the series in the file, and additional series.  Specifications:
    SearchSpec.v, GroupSpec.v, GroupView.v, DataSpec.v, ApiSpec.v. *)
From Coq Require Import String Reals Lra Lia ZArith Permutation.
From Flocq Require Import Core BinarySingleNaN.
From Verif Require Import Base Num NumB64 NumLaws NumFacts NumB64Laws NumXR NumXRLaws LoopFacts TimeSeries TSSet Distance
  DistSpec DistLink GroupSpace DataSpec DataProofs StdAlg HeapFacts Candidate GroupSpec GroupView SearchSpec SearchCases BruteForce Loader Api ApiSpec ApiProofs
  ApiQuery NamedSpec PropsDistance PropsLoader PropsApi PropsGroup PropsSearch PropsMore PropsApiQuery PropsNorm KBest PropsCount PropsBand DtwPaths GroupDist.
Local Open Scope Z_scope.
Local Open Scope list_scope.

(** [rows'] are the rows [rows] and some others, in any order *)
Definition more_rows {A} (rows rows' : list A) : Prop := exists extra, Permutation (rows ++ extra) rows'.

(** ** where the rows are *)
Lemma more_at {A} (rows rows' : list (list A)) : more_rows rows rows' ->
  exists f : nat -> nat, (forall i j, f i = f j -> i = j) /\ forall i row, nth_error rows i = Some row -> nth_error rows' (f i) = Some row.
Proof.
  intros (extra & H). apply Permutation_sym, Permutation_nth_error in H as (_ & f & Hf & H). exists f. split; [exact Hf|].
  intros i row Hi. rewrite <- H. rewrite nth_error_app1; [exact Hi|]. apply nth_error_Some. congruence.
Qed.

Definition moved (f : nat -> nat) (p : place) : place := (fst p, (Z.of_nat (f (Z.to_nat (fst (snd p)))), snd (snd p))).

Section Moved.
Context {N : Num}.
Variables (rows rows' : list (list (D N))) (f : nat -> nat).
Hypothesis Hinj : forall i j, f i = f j -> i = j.
Hypothesis Hf : forall i row, nth_error rows i = Some row -> nth_error rows' (f i) = Some row.

Lemma moved_row i row : row_of rows i = Some row -> row_of rows' (Z.of_nat (f (Z.to_nat i))) = Some row.
Proof.
  intros H. apply row_of_Some in H as [H0 H]. unfold row_of. destruct (Z.ltb_spec (Z.of_nat (f (Z.to_nat i))) 0); [lia|]. rewrite Nat2Z.id. apply Hf, H.
Qed.
Lemma moved_sub p : is_sub rows (fst p) (snd p) -> is_sub rows' (fst (moved f p)) (snd (moved f p)).
Proof. intros (row & H & H1 & H2). exists row. split; [apply moved_row, H|]. cbn. lia. Qed.
Lemma moved_values p : is_sub rows (fst p) (snd p) -> place_values rows' (moved f p) = place_values rows p.
Proof. intros (row & H & _). unfold place_values, sub_values. rewrite H. cbn [moved fst snd]. rewrite (moved_row _ _ H). reflexivity. Qed.
Lemma moved_long p : long_enough rows p -> long_enough rows' (moved f p).
Proof. intros [H1 H2]. split; [exact H1|apply moved_sub, H2]. Qed.
Lemma moved_inj p p' : is_sub rows (fst p) (snd p) -> is_sub rows (fst p') (snd p') -> moved f p = moved f p' -> p = p'.
Proof.
  destruct p as [l [i j]], p' as [l' [i' j']]. intros (row & H & _) (row' & H' & _). cbn [fst snd] in *. apply row_of_Some in H as [H _]. apply row_of_Some in H' as [H' _].
  unfold moved. cbn [fst snd]. intros E. injection E as -> E ->. apply Nat2Z.inj, Hinj in E. do 2 f_equal. lia.
Qed.
End Moved.

(** ** the best matches among more places *)
Section More.
Context {N : Num} {L : NumLaws N}.
Variables (rows rows' : list (list (D N))) (k : kind) (ratio : D N) (q q' : list (D N)) (P P' : place -> Prop) (F : place -> place).
Hypothesis HP : forall p, P p -> P' (F p).
Hypothesis Hinj : forall p p', P p -> P p' -> F p = F p' -> p = p'.
Hypothesis Hv : forall p v, P p -> dtw_of k ratio q (place_values rows p) = Ret v -> dtw_of k ratio q' (place_values rows' (F p)) = Ret v.
Hypothesis Hval : forall p, P' p -> exists d, dtw_of k ratio q' (place_values rows' p) = Ret d /\ nn d.

Lemma NoDup_moved l : NoDup l -> (forall p, In p l -> P p) -> NoDup (map F l).
Proof.
  induction 1 as [|p l Hp Hl IH]; intros H; cbn; constructor; [|apply IH; intros x Hx; apply H; right; exact Hx].
  intros Hin. apply in_map_iff in Hin as (p' & E & Hp'). apply Hinj in E; [subst; contradiction|apply H; right; exact Hp'|apply H; left; reflexivity].
Qed.

Lemma best_more K best best' : best_matches rows k ratio q P K best -> best_matches rows' k ratio q' P' K best' -> ascending best -> ascending best' ->
  (length best <= length best')%nat /\ forall i c c', nth_error best i = Some c -> nth_error best' i = Some c' -> nle (c_dist c') (c_dist c).
Proof.
  intros (B1 & B2 & B3 & B4) (B1' & B2' & B3' & B4') Ha Ha'.
  assert (Hin : forall c, In c (map place_of best) -> P c) by (intros p Hp; apply in_map_iff in Hp as (c & <- & Hc); apply B1, Hc).
  pose proof (NoDup_moved _ B2 Hin) as ND. split.
  - destruct B3' as [B3'|[B3' A3']]; [lia|].
    assert (I : incl (map F (map place_of best)) (map place_of best')) by (intros p Hp; apply in_map_iff in Hp as (p0 & <- & Hp); apply A3', HP, Hin, Hp).
    pose proof (NoDup_incl_length ND I) as X. rewrite !map_length in X. exact X.
  - intros i c c' Hi Hi'. pose proof (nth_error_In _ _ Hi) as Ic. pose proof (nth_error_In _ _ Hi') as Ic'.
    assert (V : forall d, In d best -> dtw_of k ratio q' (place_values rows' (F (place_of d))) = Ret (c_dist d) /\ nn (c_dist d)).
    { intros d Hd. destruct (B1 d Hd) as (X & Y). apply match_value in Y. apply (Hv _ _ X) in Y. destruct (Hval _ (HP _ X)) as (v & Ev & Nv). rewrite Y in Ev. injection Ev as <-. auto. }
    assert (V' : forall d, In d best' -> dtw_of k ratio q' (place_values rows' (place_of d)) = Ret (c_dist d) /\ nn (c_dist d)).
    { intros d Hd. destruct (B1' d Hd) as (X & Y). apply match_value in Y. destruct (Hval _ X) as (v & Ev & Nv). rewrite Y in Ev. injection Ev as <-. auto. }
    destruct (V c Ic) as [_ Nc]. destruct (V' c' Ic') as [_ Nc'].
    destruct (nltb (c_dist c) (c_dist c')) eqn:Elt; [exfalso|split; auto].
    assert (Hnot : forall v, nle v (c_dist c) -> nle (c_dist c') v -> False).
    { intros v H1 H2. destruct (nle_trans _ _ _ H2 H1) as (_ & _ & X). congruence. }
    set (A := firstn (S i) (map F (map place_of best))).
    assert (Hlt : (i < length best)%nat) by (apply nth_error_Some; congruence).
    assert (LA : length A = S i) by (unfold A; rewrite firstn_length, !map_length; lia).
    assert (HA : forall p, In p A -> P' p /\ exists v, dtw_of k ratio q' (place_values rows' p) = Ret v /\ nle v (c_dist c)).
    { intros p Hp. apply In_nth_error in Hp as [j Hj]. assert (Hj2 : (j < S i)%nat) by (rewrite <- LA; apply nth_error_Some; congruence).
      unfold A in Hj. rewrite nth_error_firstn in Hj by exact Hj2. rewrite !nth_error_map in Hj.
      destruct (nth_error best j) as [d|] eqn:Ej; [|discriminate Hj]. injection Hj as <-. pose proof (nth_error_In _ _ Ej) as Id.
      split; [apply HP, B1, Id|]. destruct (V d Id) as [Ed Nd]. exists (c_dist d). split; [exact Ed|].
      apply (at_rank best j d i c); auto. lia. }
    assert (NA : NoDup A) by (rewrite <- (firstn_skipn (S i) (map F (map place_of best))) in ND; exact (SearchProofs.NoDup_app_l _ _ ND)).
    assert (Hincl : incl A (firstn i (map place_of best'))).
    { intros p Hp. destruct (HA p Hp) as (HPp & v & Ev & Hvv). destruct (in_dec place_dec p (map place_of best')) as [Hr|Hr].
      - apply in_map_iff in Hr as (d & <- & Hdr). destruct (V' d Hdr) as [Ed Nd]. rewrite Ed in Ev. injection Ev as <-.
        apply In_nth_error in Hdr as [j Hj]. destruct (Nat.lt_ge_cases j i) as [Hji|Hji].
        + apply nth_error_In with j. rewrite nth_error_firstn by exact Hji. rewrite nth_error_map, Hj. reflexivity.
        + exfalso. apply (Hnot (c_dist d)); auto. apply (at_rank best' i c' j d); auto.
      - exfalso. apply (Hnot v Hvv). apply (B4' p v c'); auto. }
    pose proof (NoDup_incl_length NA Hincl) as X. rewrite firstn_length in X. lia.
Qed.
End More.

(** fewer places, fewer ties *)
Lemma fewer_ties {N : Num} (rows rows' : list (list (D N))) k (ratio : D N) q : more_rows rows rows' ->
  no_near_ties rows' k ratio q (long_enough rows') -> no_near_ties rows k ratio q (long_enough rows).
Proof.
  intros H T p p' v v' Hp Hp' E E'. destruct (more_at rows rows' H) as (f & Hi & Hf).
  apply (T (moved f p) (moved f p')); try (apply (moved_long rows rows' f Hf); assumption).
  - rewrite (moved_values rows rows' f Hf); [exact E|apply Hp].
  - rewrite (moved_values rows rows' f Hf); [exact E'|apply Hp'].
Qed.

(** ** C70 *)

(** Two data sets are loaded, of which the second has all the series of the first, possibly more and
    in any order.  The exhaustive search in the second finds at least as many matches, and each is at
    least as near, rank by rank.  In doubles. *)
Theorem C70_more_series : forall (r0 : b64) h (s : api B64) t t' g g' rows rows' qn i st en (xs : list (D B64)) (k : kind) K e,
  run (N := B64) r0 h s -> held s t = Some g -> held s t' = Some g' -> holds (gt_data g) rows -> holds (gt_data g') rows' ->
  more_rows rows rows' -> moderate_data rows' -> asks_for s qn i st en xs -> moderate_ratio (a_ratio s) -> std_ok (e_alg e) -> 1 <= K ->
  no_near_ties (N := B64) rows' k (a_ratio s) xs (long_enough rows') ->
  exists best best',
    exec e (CBrute K t qn i st en (kind_name k)) s = (s, Ret (ACands best)) /\
    exec e (CBrute K t' qn i st en (kind_name k)) s = (s, Ret (ACands best')) /\
    (length best <= length best')%nat /\
    forall j c c', nth_error best j = Some c -> nth_error best' j = Some c' -> @nle B64 (c_dist c') (c_dist c).
Proof.
  intros r0 h s t t' g g' rows rows' qn i st en xs k K e Hrun Hh Hh' Hd Hd' Hmore Hm' Hq Hr Hok HK T'.
  pose proof (fewer_ties (N := B64) rows rows' k (a_ratio s) xs Hmore T') as T.
  destruct (more_at rows rows' Hmore) as (f & Hi & Hf).
  assert (Hm : moderate_data rows).
  { intros row Hrow. apply In_nth_error in Hrow as [n Hn]. apply Hm'. apply (nth_error_In _ (f n)), Hf, Hn. }
  destruct (C34_brute_force_partial r0 h s t g rows qn i st en xs k K e Hrun Hh Hd Hm Hq Hr Hok HK T) as (best & B1 & B2 & B3).
  destruct (C34_brute_force_partial r0 h s t' g' rows' qn i st en xs k K e Hrun Hh' Hd' Hm' Hq Hr Hok HK T') as (best' & B1' & B2' & B3').
  exists best, best'. split; [exact B1|]. split; [exact B1'|].
  destruct (asks_series s qn i st en xs (run_good _ _ _ Hrun) Hq) as (q & _ & Hmq & Eq & _).
  assert (S : searchable (N := B64) rows' k (a_ratio s) xs (long_enough rows')) by (rewrite <- Eq; apply searchable_moderate; auto).
  refine (best_more (N := B64) rows rows' k (a_ratio s) xs xs (long_enough rows) (long_enough rows') (moved f) _ _ _ _ K best best' B2 B2' B3 B3').
  - apply moved_long, Hf.
  - intros p p' Hp Hp'. apply (moved_inj rows f Hi); [apply Hp|apply Hp'].
  - intros p v Hp Ev. rewrite (moved_values rows rows' f Hf p (proj2 Hp)). exact Ev.
  - intros p Hp. destruct (S p Hp) as (r & Ok). destruct (dtw_values k _ _ _ r [] Ok) as (d & E & Hdd). exists d. split; [exact E|]. apply (nle_nn_r (N := B64) _ _ Hdd).
Qed.
Print Assumptions C70_more_series.

(** The same series in another order: as many matches, at the same distances. *)
Theorem C70_any_order : forall (r0 : b64) h (s : api B64) t t' g g' rows rows' qn i st en (xs : list (D B64)) (k : kind) K e,
  run (N := B64) r0 h s -> held s t = Some g -> held s t' = Some g' -> holds (gt_data g) rows -> holds (gt_data g') rows' ->
  Permutation rows rows' -> moderate_data rows -> asks_for s qn i st en xs -> moderate_ratio (a_ratio s) -> std_ok (e_alg e) -> 1 <= K ->
  no_near_ties (N := B64) rows k (a_ratio s) xs (long_enough rows) ->
  exists best best',
    exec e (CBrute K t qn i st en (kind_name k)) s = (s, Ret (ACands best)) /\
    exec e (CBrute K t' qn i st en (kind_name k)) s = (s, Ret (ACands best')) /\
    Forall2 (fun c c' : cand B64 => @neqv B64 (c_dist c) (c_dist c')) best best'.
Proof.
  intros r0 h s t t' g g' rows rows' qn i st en xs k K e Hrun Hh Hh' Hd Hd' Hp Hm Hq Hr Hok HK T.
  assert (M1 : more_rows rows rows') by (exists []; rewrite app_nil_r; exact Hp).
  assert (M2 : more_rows rows' rows) by (exists []; rewrite app_nil_r; apply Permutation_sym, Hp).
  assert (Hm' : moderate_data rows') by (intros row Hrow; apply Hm; apply (Permutation_in row (Permutation_sym Hp) Hrow)).
  pose proof (fewer_ties (N := B64) rows' rows k (a_ratio s) xs M2 T) as T'.
  destruct (C70_more_series r0 h s t t' g g' rows rows' qn i st en xs k K e Hrun Hh Hh' Hd Hd' M1 Hm' Hq Hr Hok HK T') as (best & best' & B1 & B2 & B3 & B4).
  destruct (C70_more_series r0 h s t' t g' g rows' rows qn i st en xs k K e Hrun Hh' Hh Hd' Hd M2 Hm Hq Hr Hok HK T) as (x & y & X1 & X2 & X3 & X4).
  rewrite B2 in X1. injection X1 as <-. rewrite B1 in X2. injection X2 as <-. exists best, best'. split; [exact B1|]. split; [exact B2|].
  assert (El : length best = length best') by lia. clear - El B4 X4. revert best' El B4 X4.
  induction best as [|c best IH]; intros [|c' best'] El B4 X4; try discriminate El; constructor.
  - split; [exact (X4 0%nat c' c eq_refl eq_refl)|exact (B4 0%nat c c' eq_refl eq_refl)].
  - apply IH; [injection El as El; exact El|intros j x y; apply (B4 (S j))|intros j x y; apply (X4 (S j))].
Qed.
Print Assumptions C70_any_order.

(** ** groups *)

(** Grouping with twice the threshold a data set whose series all occur in another one: of no length
    are there more groups than the other one has.  Exact arithmetic. *)
Theorem C70_groups_of_more : forall (k : kind) (d d' : dataset XR) (rows rows' : list (list R))
    old1 old2 clock1 clock2 (ratio1 ratio2 : D XR) (t1 t2 : R) threads1 threads2 whole,
  holds d (map (map Fin) rows) -> holds d' (map (map Fin) rows') -> more_rows rows rows' -> (0 <= t1)%R -> (2 * t1 <= t2)%R ->
  1 <= ds_maxcol d <= 2 ^ 30 -> 1 <= ds_maxcol d' <= 2 ^ 30 -> 1 <= threads1 -> 1 <= threads2 -> log_safe d' clock1 -> log_safe d clock2 ->
  exists g1 n1 g2 n2,
    groupAllLengths clock1 ratio1 (mkGS d' old1) (kind_name k) (Fin t1 : D XR) threads1 whole = (g1, Ret n1) /\
    groupAllLengths clock2 ratio2 (mkGS d old2) (kind_name k) (Fin t2 : D XR) threads2 whole = (g2, Ret n2) /\
    (forall l, grouped_length d' whole l -> groups_at g2 l <= groups_at g1 l) /\
    (ds_maxcol d = ds_maxcol d' -> n2 <= n1).
Proof.
  intros k d d' rows rows' old1 old2 clock1 clock2 ratio1 ratio2 t1 t2 th1 th2 whole Hd Hd' Hmore H1 H2 Hm Hm' Hth1 Hth2 L1 L2.
  destruct (grouping_real k d' rows' old1 clock1 ratio1 t1 th1 whole Hd' H1 Hm' Hth1 L1) as (g1 & n1 & E1 & _ & S1 & N1 & V1).
  destruct (grouping_real k d rows old2 clock2 ratio2 t2 th2 whole Hd ltac:(lra) Hm Hth2 L2) as (g2 & n2 & E2 & _ & S2 & N2 & V2).
  destruct (more_at rows rows' Hmore) as (f & Hi & Hf).
  assert (Hf' : forall i row, nth_error (map (map Fin) rows) i = Some row -> nth_error (map (map Fin) rows') (f i) = Some row).
  { intros i row. rewrite !nth_error_map. destruct (nth_error rows i) as [x|] eqn:Ex; [|discriminate]. intros Er. injection Er as <-. rewrite (Hf i x Ex). reflexivity. }
  assert (Hreal : forall l c, is_sub (N := XR) (map (map Fin) rows) l c -> real_sub rows' l (snd (moved f (l, c))) = real_sub rows l c).
  { intros l c (row & Hrow & _). apply row_of_Some in Hrow as [H0 Hrow]. rewrite nth_error_map in Hrow.
    destruct (nth_error rows (Z.to_nat (fst c))) as [x|] eqn:Ex; [|discriminate Hrow]. pose proof (Hf _ _ Ex) as Ex'.
    unfold real_sub. cbn [moved fst snd].
    rewrite Nat2Z.id, Ex, Ex'. reflexivity. }
  assert (Hle : forall l, grouped_length d' whole l -> groups_at g2 l <= groups_at g1 l).
  { intros l Hl'. destruct (V1 l Hl') as (vs1 & A1 & A2 & A3 & _). rewrite (groups_at_view _ _ _ A1).
    destruct (grouped_dec d whole l) as [Hl|Hl]; [|rewrite (groups_at_none _ _ (N2 l Hl)); lia].
    destruct (V2 l Hl) as (vs2 & B1 & B2 & _ & B4). rewrite (groups_at_view _ _ _ B1). apply inj_le.
    apply (injects (fun v i => is_sub (N := XR) (map (map Fin) rows) l (v_rep v) /\ exists v1, nth_error vs1 i = Some v1 /\ In (snd (moved f (l, v_rep v))) (v_members v1))).
    - intros v Hv. destruct (rep_member _ _ _ _ B2 Hv) as [_ Hs]. pose proof (moved_sub (N := XR) _ _ f Hf' (l, v_rep v) Hs) as Hs'. cbn [fst] in Hs'.
      apply A2 in Hs'. apply in_concat in Hs' as (ms & Hms & Hc).
      apply in_map_iff in Hms as (v1 & <- & Hv1). apply In_nth_error in Hv1 as [i Ei]. exists i. split; [apply nth_error_Some; rewrite Ei; discriminate|].
      split; [exact Hs|]. exists v1. auto.
    - intros i j v v' m Hij Ei Ej (Hs & w & Ew & Hw) (Hs' & w' & Ew' & Hw'). rewrite Ew in Ew'. injection Ew' as <-.
      pose proof (B4 i j v v' Hij Ei Ej). destruct (A3 w _ _ (nth_error_In _ _ Ew) Hw Hw') as [_ X]. pose proof (Hreal l _ Hs) as Z1. pose proof (Hreal l _ Hs') as Z2. cbn [moved fst snd] in X, Z1, Z2. rewrite Z1, Z2 in X. lra. }
  exists g1, n1, g2, n2. split; [exact E1|]. split; [exact E2|]. split; [exact Hle|]. intros Em. rewrite S1, S2, Em. apply sum_le.
  intros l. destruct (grouped_dec d' whole l) as [Hl|Hl]; [apply Hle, Hl|]. rewrite (groups_at_none _ _ (N1 l Hl)).
  rewrite (groups_at_none g2 l); [lia|]. apply N2. unfold grouped_length in *. rewrite Em. exact Hl.
Qed.
Print Assumptions C70_groups_of_more.

(** *** in another order: other groups, another match *)

(** three constant series in two orders and a query *)
Definition orders_env : env B64 :=
  mkEnv (N := B64) stodZ putZ putZ (fun _ => None)
    (fun p => if String.eqb p "f" then Some (mkFile ("10,10" ++ nl1 ++ "0,0" ++ nl1 ++ "20,20") None)%string
              else if String.eqb p "g" then Some (mkFile ("0,0" ++ nl1 ++ "10,10" ++ nl1 ++ "20,20") None)%string
              else if String.eqb p "h" then Some (mkFile ("0,0" ++ nl1 ++ "20,20") None)%string
              else if String.eqb p "q" then Some (mkFile "14,14" None) else None)
    (fun _ => true) (fun _ => None) (fun _ => false) simple_alg.
Definition order_load (n p : string) : call B64 := CLoad (N := B64) n p "," 0 0 false.
Definition order_group (n : string) : call B64 := CGroup (N := B64) n (b64_ofZ 20) "chebyshev" 1 true.
Definition order_best (n : string) : call B64 := CBest (N := B64) n "query" 0 0 2.
Definition order_loads : list (call B64) := [order_load "x" "f"; order_load "y" "g"; order_load "z" "h"; order_load "query" "q"].
Definition count_seen (r : res (answer B64)) : option Z := match r with Ret (AInt n) => Some n | _ => None end.
Lemma count_seen_inv r n : count_seen r = Some n -> r = Ret (AInt n).
Proof. destruct r as [[]| | |]; try discriminate. cbn. intros H. injection H as <-. reflexivity. Qed.

(** The same three series in two orders are one group in one order and two in the other; and two of
    them alone are two groups. *)
Theorem C70_groups_refuted : exists e h (s : api B64),
  run (N := B64) (b64_ofZ 1) h s /\ map fst h = order_loads /\
  snd (exec e (order_group "x") s) = Ret (AInt 1) /\
  snd (exec e (order_group "y") s) = Ret (AInt 2) /\
  snd (exec e (order_group "z") s) = Ret (AInt 2).
Proof.
  destruct (st_run orders_env order_loads [] ex_start (@run_start B64 (b64_ofZ 1))) as (h & Hrun & Hh); [vm_compute; reflexivity|].
  exists orders_env, h, (st_after orders_env order_loads ex_start). split; [exact Hrun|]. split; [exact Hh|].
  split; [|split]; apply count_seen_inv; vm_compute; reflexivity.
Qed.
Print Assumptions C70_groups_refuted.

(** The best match of 14 14 is 10 10 in one order (distance 4) and 20 20 (distance 6) in the other. *)
Theorem C70_best_match_refuted : exists e h (s : api B64) (c c' : cand B64),
  run (N := B64) (b64_ofZ 1) h s /\ map fst h = order_loads ++ [order_group "x"; order_group "y"] /\
  snd (exec e (order_best "x") s) = Ret (ACand c) /\ snd (exec e (order_best "y") s) = Ret (ACand c') /\
  place_of c = (2, (0, 0)) /\ place_of c' = (2, (2, 0)) /\ @nlt B64 (c_dist c) (c_dist c').
Proof.
  destruct (st_run orders_env (order_loads ++ [order_group "x"; order_group "y"]) [] ex_start (@run_start B64 (b64_ofZ 1))) as (h & Hrun & Hh); [vm_compute; reflexivity|].
  set (s := st_after orders_env (order_loads ++ [order_group "x"; order_group "y"]) ex_start) in *.
  set (x := snd (exec orders_env (order_best "x") s)). set (y := snd (exec orders_env (order_best "y") s)).
  assert (E1 : best_seen x = Some (2, (0, 0), B2SF (b64_ofZ 4))) by (vm_compute; reflexivity).
  assert (E2 : best_seen y = Some (2, (2, 0), B2SF (b64_ofZ 6))) by (vm_compute; reflexivity).
  destruct (best_seen_inv x _ _ _ E1) as (c & C1 & C2 & C3). destruct (best_seen_inv y _ _ _ E2) as (c' & C1' & C2' & C3').
  exists orders_env, h, s, c, c'. split; [exact Hrun|]. split; [exact Hh|]. split; [exact C1|]. split; [exact C1'|]. split; [exact C2|]. split; [exact C2'|].
  assert (D0 : (c_dist c : b64) = b64_ofZ 4) by (apply (B2SF_inj prec64 emax64); exact C3).
  assert (D1 : (c_dist c' : b64) = b64_ofZ 6) by (apply (B2SF_inj prec64 emax64); exact C3').
  unfold nlt. rewrite D0, D1. vm_compute. reflexivity.
Qed.
Print Assumptions C70_best_match_refuted.

(** ** a case that meets the hypotheses: the files above *)
Definition data_seen (g : gset B64) :=
  (option_map (map PropsNorm.sf) (ds_data (gt_data g)), ds_lengths (gt_data g), ds_count (gt_data g), ds_maxcol (gt_data g)).
Lemma data_seen_inv g buf lens n m : data_seen g = (Some (map PropsNorm.sf buf), lens, n, m) ->
  ds_data (gt_data g) = Some buf /\ ds_lengths (gt_data g) = lens /\ ds_count (gt_data g) = n /\ ds_maxcol (gt_data g) = m.
Proof.
  unfold data_seen. intros E. injection E as E1 E2 E3 E4. destruct (ds_data (gt_data g)) as [b|]; [|discriminate E1].
  cbn [option_map] in E1. injection E1 as E1. apply sf_inj in E1. subst b. auto.
Qed.

Definition order_rows (l : list Z) : list (list (D B64)) := map (fun z => map b64_ofZ [z; z]) l.
Definition order_places : list place := [(2, (0, 0)); (2, (1, 0)); (2, (2, 0))].
Definition order_apart : bool :=
  forallb (fun p => forallb (fun p' =>
      match dtw_of (N := B64) KChebyshev (b64_ofZ 1) (map b64_ofZ [14; 14]) (place_values (order_rows [10; 0; 20]) p),
            dtw_of (N := B64) KChebyshev (b64_ofZ 1) (map b64_ofZ [14; 14]) (place_values (order_rows [10; 0; 20]) p') with
      | Ret v, Ret v' => sepb v v' | _, _ => false end) order_places) order_places.

Example C70_example : exists h (s : api B64) g g' g'',
  run (N := B64) (b64_ofZ 1) h s /\ map fst h = order_loads /\
  held s "x" = Some g /\ held s "y" = Some g' /\ held s "z" = Some g'' /\
  holds (gt_data g) (order_rows [10; 0; 20]) /\ holds (gt_data g') (order_rows [0; 10; 20]) /\ holds (gt_data g'') (order_rows [0; 20]) /\
  more_rows (order_rows [0; 20]) (order_rows [10; 0; 20]) /\ Permutation (order_rows [10; 0; 20]) (order_rows [0; 10; 20]) /\
  moderate_data (order_rows [10; 0; 20]) /\ asks_for s "query" 0 0 2 (map b64_ofZ [14; 14]) /\ moderate_ratio (a_ratio s) /\
  no_near_ties (N := B64) (order_rows [10; 0; 20]) KChebyshev (a_ratio s) (map b64_ofZ [14; 14]) (long_enough (order_rows [10; 0; 20])).
Proof.
  destruct (st_run orders_env order_loads [] ex_start (@run_start B64 (b64_ofZ 1))) as (h & Hrun & Hh); [vm_compute; reflexivity|].
  set (s := st_after orders_env order_loads ex_start) in *.
  assert (Er : a_ratio s = b64_ofZ 1).
  { apply (B2SF_inj prec64 emax64). vm_compute. reflexivity. }
  assert (E1 : option_map data_seen (held s "x") = Some (Some (map PropsNorm.sf (concat (order_rows [10; 0; 20]))), [2; 2; 2], 3, 2)) by (vm_compute; reflexivity).
  assert (E2 : option_map data_seen (held s "y") = Some (Some (map PropsNorm.sf (concat (order_rows [0; 10; 20]))), [2; 2; 2], 3, 2)) by (vm_compute; reflexivity).
  assert (E3 : option_map data_seen (held s "z") = Some (Some (map PropsNorm.sf (concat (order_rows [0; 20]))), [2; 2], 2, 2)) by (vm_compute; reflexivity).
  assert (E4 : option_map data_seen (held s "query") = Some (Some (map PropsNorm.sf (concat (order_rows [14]))), [2], 1, 2)) by (vm_compute; reflexivity).
  clearbody s.
  destruct (held s "x") as [g|] eqn:Eg; [|discriminate E1]. destruct (held s "y") as [g'|] eqn:Eg'; [|discriminate E2].
  destruct (held s "z") as [g''|] eqn:Eg''; [|discriminate E3]. destruct (held s "query") as [gq|] eqn:Egq; [|discriminate E4].
  cbn [option_map] in E1, E2, E3, E4. apply some_inj in E1, E2, E3, E4.
  apply data_seen_inv in E1 as (A1 & A2 & A3 & A4). apply data_seen_inv in E2 as (B1 & B2 & B3 & B4).
  apply data_seen_inv in E3 as (C1 & C2 & C3 & C4). apply data_seen_inv in E4 as (Q1 & Q2 & Q3 & Q4).
  assert (Hq : holds (gt_data gq) (order_rows [14])).
  { eexists. split; [exact Q1|]. rewrite Q3, Q4. split; [reflexivity|]. split; [lia|]. split; [split; vm_compute; discriminate|].
    intros i row Erow. rewrite Q2.
    destruct i as [|i]; [|destruct i; discriminate Erow]; injection Erow as <-; (split; [reflexivity|]); (split; [vm_compute; discriminate|]);
      intros j v Ej; repeat (destruct j as [|j]; [injection Ej as <-; reflexivity|]); destruct j; discriminate Ej. }
  assert (Hmod : forall l, Forall (fun z => In z [0; 10; 14; 20]) l -> moderate_data (order_rows l)).
  { intros l Hl row Hin. unfold order_rows in Hin. apply in_map_iff in Hin as (z & <- & Hz). rewrite Forall_forall in Hl. specialize (Hl z Hz). split; [|vm_compute; discriminate].
    destruct Hl as [<-|[<-|[<-|[<-|[]]]]]; apply leb64_all; vm_compute; reflexivity. }
  exists h, s, g, g', g''. split; [exact Hrun|]. split; [exact Hh|]. split; [exact Eg|]. split; [exact Eg'|]. split; [exact Eg''|].
  split; [|split; [|split; [|split; [|split; [|split; [|split; [|split]]]]]]].
  - eexists. split; [exact A1|]. rewrite A3, A4. split; [reflexivity|]. split; [lia|]. split; [split; vm_compute; discriminate|].
    intros i row Erow. rewrite A2.
    destruct i as [|[|[|i]]]; [| | |destruct i; discriminate Erow]; injection Erow as <-; (split; [reflexivity|]); (split; [vm_compute; discriminate|]);
      intros j v Ej; repeat (destruct j as [|j]; [injection Ej as <-; reflexivity|]); destruct j; discriminate Ej.
  - eexists. split; [exact B1|]. rewrite B3, B4. split; [reflexivity|]. split; [lia|]. split; [split; vm_compute; discriminate|].
    intros i row Erow. rewrite B2.
    destruct i as [|[|[|i]]]; [| | |destruct i; discriminate Erow]; injection Erow as <-; (split; [reflexivity|]); (split; [vm_compute; discriminate|]);
      intros j v Ej; repeat (destruct j as [|j]; [injection Ej as <-; reflexivity|]); destruct j; discriminate Ej.
  - eexists. split; [exact C1|]. rewrite C3, C4. split; [reflexivity|]. split; [lia|]. split; [split; vm_compute; discriminate|].
    intros i row Erow. rewrite C2.
    destruct i as [|[|i]]; [| |destruct i; discriminate Erow]; injection Erow as <-; (split; [reflexivity|]); (split; [vm_compute; discriminate|]);
      intros j v Ej; repeat (destruct j as [|j]; [injection Ej as <-; reflexivity|]); destruct j; discriminate Ej.
  - exists (order_rows [10]). change (order_rows [0; 20] ++ order_rows [10]) with (order_rows [0; 20; 10]). apply Permutation_map.
    apply Permutation_sym, (Permutation_cons_append [0; 20] 10).
  - apply Permutation_map, perm_swap.
  - apply Hmod. repeat (apply Forall_cons; [cbn; auto 10|]); apply Forall_nil.
  - exists gq, (order_rows [14]), (map b64_ofZ [14; 14]). split; [exact Egq|]. split; [exact Hq|]. split; [apply Hmod; repeat (apply Forall_cons; [cbn; auto 10|]); apply Forall_nil|]. split; [reflexivity|].
    split; [lia|]. split; [lia|]. split; [cbn; lia|reflexivity].
  - rewrite Er. split; (split; [reflexivity|split; reflexivity]).
  - rewrite Er. intros p p' v v' Hp Hp' E E'.
    assert (S : order_apart = true) by (vm_compute; reflexivity).
    assert (In3 : forall p, long_enough (order_rows [10; 0; 20]) p -> In p order_places).
    { intros [l [i j]] [H1 (row & Hr & H2)]. cbn [fst snd] in *. apply row_of_Some in Hr as [H0 Hr].
      assert (Hi : (Z.to_nat i < 3)%nat) by (apply (nth_error_Some (order_rows [10; 0; 20])); congruence).
      assert (Ll : Z.of_nat (length row) = 2).
      { apply nth_error_In in Hr. destruct Hr as [<-|[<-|[<-|[]]]]; reflexivity. }
      assert (l = 2) by lia. assert (j = 0) by lia. subst l j.
      assert (Ci : i = 0 \/ i = 1 \/ i = 2) by lia. destruct Ci as [->|[->| ->]]; cbn; auto. }
    unfold order_apart in S. rewrite forallb_forall in S. specialize (S p (In3 p Hp)). rewrite forallb_forall in S. specialize (S p' (In3 p' Hp')).
    cbv beta in S. rewrite E, E' in S. unfold sepb in S. apply orb_true_iff in S as [S|S].
    + left. apply (neqb_true (N := B64)). exact S.
    + right. apply negb_true_iff in S. exact S.
Qed.
