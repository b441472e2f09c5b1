(** Properties C81 and C82: how the approximate answers compare with the exhaustive
    ones and with each other.
    Specification: ErrorSpec.v, SearchSpec.v, QuerySpec.v. *)
From Coq Require Import String Reals Lra Permutation.
From Flocq Require Import IEEE754.BinarySingleNaN Core.Raux.
From Verif Require Import Base Num NumB64 NumB64Laws NumLaws NumFacts NumMore NumXR NumXRLaws LoopFacts TimeSeries Lemire Distance
  DtwReal DistSpec DistLink TSSet StdAlg HeapFacts Candidate Group GroupSpace Band DataSpec DataProofs GroupSpec GroupView GroupDist
  BruteForce BruteProofs SearchSpec SearchProofs SearchCases QueryCases Traverse QueryState QuerySpec QueryProofs PropsDistance PropsData PropsGroup PropsSearch PropsQuery
  PropsKSim PropsGuarantee ErrorSpec Rank.
Local Open Scope Z_scope.
Local Open Scope list_scope.

Lemma searched_long {N : Num} (d : dataset N) rows whole ratio ql p : ds_maxcol d >= 2 ->
  searched_place d rows whole ratio ql p -> long_enough rows p.
Proof. intros Hm [[Hg _] Hs]. split; auto. unfold grouped_length in Hg. destruct whole; lia. Qed.

Lemma place_length {N : Num} (rows : list (list (D N))) p : long_enough rows p -> Z.of_nat (length (place_values rows p)) = fst p.
Proof. intros [H1 H2]. apply (place_len rows p); auto. lia. Qed.

Section Generic.
Context {N : Num} {LW : NumLaws N}.
Variables (d : dataset N) (rows : list (list (D N))) (k : kind) (ratio : D N) (q : list (D N)) (whole : bool) (ql K h : Z) (g : gset N).
Hypothesis Hm : ds_maxcol d >= 2.
Hypothesis Hrow : forall l c, is_sub rows l c -> l <= ds_maxcol d.
Hypothesis Hql : Z.of_nat (length q) = ql.
Hypothesis Hs : searchable rows k ratio q (long_enough rows).
Notation S := (searched d whole ratio ql).
Notation P := (searched_place d rows whole ratio ql).
Variables (C : list place) (cs best : list (cand N)).
Hypothesis Hat : at_least P K.
Hypothesis HC : considered rows k ratio q S P g h C.
Hypothesis Hcs : best_matches rows k ratio q (fun p => In p C) K cs.
Hypothesis Hcsa : ascending cs.
Hypothesis Hcsl : Z.of_nat (length cs) = K.
Hypothesis Hbest : best_matches rows k ratio q (long_enough rows) K best.
Hypothesis Hbesta : ascending best.

Lemma C_long p : In p C -> long_enough rows p.
Proof. intros Hp. apply (searched_long d rows whole ratio ql); auto. destruct HC as (_ & X & _). auto. Qed.

Lemma cs_nn c : In c cs -> nn (c_dist c).
Proof.
  intros Hc. destruct Hcs as (B1 & _). destruct (B1 c Hc) as [Hp Ht]. apply (searchable_nn rows k ratio q (long_enough rows)); auto. apply C_long; auto.
Qed.

Lemma never_better : Z.of_nat (length best) = K /\ dominated best cs.
Proof.
  split.
  - apply (full_answer rows k ratio q (long_enough rows) P); auto. intros p Hp. apply (searched_long d rows whole ratio ql); auto.
  - apply (rank_dominates rows k ratio q (long_enough rows) (fun p => In p C) K K); auto; [exact cs_nn|].
    apply no_worse_sub. exact C_long.
Qed.

(** everything looked at *)
Lemma all_looked_at : whole = false -> (forall ps, NoDup ps -> (forall p, In p ps -> P p) -> Z.of_nat (length ps) <= h) -> dominated cs best.
Proof.
  intros Hw Hall.
  assert (HCP : forall p, P p -> In p C).
  { intros p Hp. destruct HC as (N1 & P1 & [[_ A]|[L _]]); auto. destruct (in_dec place_dec p C) as [|Hno]; auto. exfalso.
    assert (X : Z.of_nat (length (p :: C)) <= h).
    { apply Hall; [constructor; auto|]. intros z [<-|Hz]; auto. }
    cbn [length] in X. lia. }
  assert (HCP' : forall p, In p C -> P p) by (destruct HC as (_ & X & _); exact X).
  destruct never_better as [Hlen Hdom].
  assert (Hin : forall c, In c best -> P (place_of c)).
  { intros c Hc. apply In_nth_error in Hc as [i Ei].
    assert (Hi : (i < length cs)%nat) by (assert (i < length best)%nat by (apply nth_error_Some; congruence); lia).
    destruct (nth_error cs i) as [y|] eqn:Ey; [|apply nth_error_None in Ey; lia].
    pose proof (Hdom i c y Ei Ey) as Hle.
    destruct Hcs as (B1 & _). destruct (B1 y (nth_error_In _ _ Ey)) as [Py Ty].
    pose proof (proj2 (proj1 (HCP' _ Py))) as Hband.
    assert (Fy : nlt (c_dist y) ninf).
    { apply (near_finite rows k ratio q (long_enough rows) (place_of y) ql); auto; [apply C_long; auto|apply place_length, C_long; auto|].
      apply match_dist; auto. }
    destruct Hbest as (B1' & _). destruct (B1' c (nth_error_In _ _ Ei)) as [Pc Tc].
    assert (Wc : within_band ratio ql (fst (place_of c))).
    { apply (finite_length rows k ratio q (long_enough rows) (place_of c) ql (c_dist c)); auto; [apply place_length; auto|apply match_dist; auto|].
      apply nle_lt_trans with (c_dist y); auto. }
    destruct Pc as [Pc1 Pc2]. split; [split|]; auto. unfold grouped_length. rewrite Hw. split; auto. eapply Hrow; eauto. }
  apply (rank_dominates rows k ratio q (fun p => In p C) P K K); auto.
  - apply (best_among rows k ratio q (long_enough rows) P K best); auto. intros p Hp. apply C_long; auto.
  - intros c Hc. destruct Hbest as (B1 & _). destruct (B1 c Hc) as [Pc Tc]. apply (searchable_nn rows k ratio q (long_enough rows)); auto.
  - apply no_worse_sub. exact HCP.
Qed.
End Generic.

(** ** C81 *)

Lemma sub_length {N : Num} (d : dataset N) rows l c : holds d rows -> is_sub rows l c -> l <= ds_maxcol d.
Proof.
  intros (buf & _ & _ & _ & _ & H) (row & Er & H1 & H2). unfold row_of in Er. destruct (fst c <? 0); [discriminate|].
  destruct (H _ _ Er) as (_ & X & _). lia.
Qed.

(** At no position of the answer is the distance smaller than at this position of
    the answer of the exhaustive search. *)
Theorem C81_never_better_ieee : forall (H : std_alg) (k : kind) (d : dataset B64) (rows : list (list (D B64)))
    old clock (ratio0 thr : D B64) threads whole g0 total g (query : TS B64) (ratio : D B64) K h,
  std_ok H ->
  holds d rows -> moderate_data rows -> nltb (n := B64) (ndiv (n := B64) thr (nofZ 2)) ninf = true ->
  1 <= threads -> log_safe d clock -> ds_maxcol d <= 2 ^ 26 ->
  groupAllLengths (N := B64) clock ratio0 (mkGS d old) (kind_name k) thr threads whole = (g0, Ret total) ->
  asked (N := B64) H g0 g ->
  moderate_query query -> ts_length query <= ds_maxcol d -> moderate_ratio ratio ->
  1 <= K <= h ->
  no_near_ties (N := B64) rows k ratio (ts_points query) (long_enough rows) ->
  at_least (searched_place (N := B64) d rows whole ratio (ts_length query)) K ->
  exists g' cs best, getKBestMatches (N := B64) H ratio g query K h = Ret (g', cs) /\
    getKBestMatchesBruteForce (N := B64) H ratio d query K (kind_name k) = Ret best /\
    Z.of_nat (length cs) = K /\ Z.of_nat (length best) = K /\ dominated best cs /\
    (* and if all subsequences of the searched lengths are looked at, nothing is lost *)
    (whole = false ->
     (forall ps, NoDup ps -> (forall p, In p ps -> searched_place (N := B64) d rows whole ratio (ts_length query) p) -> Z.of_nat (length ps) <= h) ->
     dominated cs best).
Proof.
  intros H k d rows old clock ratio0 thr threads whole g0 total g query ratio K h Hok Hd Hmod Hthr Ht Hlog Hmax E Ha Hq Hql Hr HK Hties Hat.
  assert (H2 : 2 <= ts_length query) by apply Hq.
  assert (Hsub : forall p, searched_place (N := B64) d rows whole ratio (ts_length query) p -> long_enough rows p).
  { intros p. apply (searched_long (N := B64)). lia. }
  destruct (C24_k_similar_ieee H k d rows old clock ratio0 thr threads whole g0 total g query ratio K h Hok Hd Hmod Hthr Ht Hlog Hmax E Ha Hq Hql Hr HK)
    as (g' & C & cs & Ek & HC & Hcs & Hcsa & Hcsl); auto.
  { intros p p' v v' Hp Hp'. apply Hties; auto. }
  destruct (C26_brute_force_exact_ieee H k d rows query ratio K Hok Hd Hmod Hq Hr ltac:(lia) Hties) as (best & Eb & Hb & Hba).
  assert (Hs : searchable (N := B64) rows k ratio (ts_points query) (long_enough rows)) by (apply searchable_moderate; auto).
  assert (Lq : Z.of_nat (length (ts_points query)) = ts_length query) by (apply (DtwPaths.ts_points_length (N := B64)), Hq).
  destruct (never_better (N := B64) d rows k ratio (ts_points query) whole (ts_length query) K h g ltac:(lia) Hs C cs best Hat HC Hcs Hcsa Hb Hba)
    as [Hlen Hdom].
  exists g', cs, best. splits; auto.
  intros Hw Hall. refine (all_looked_at (N := B64) d rows k ratio (ts_points query) whole (ts_length query) K h g ltac:(lia) _ Lq Hs C cs best Hat HC Hcs Hcsa Hcsl Hb Hba Hw Hall).
  intros l c. apply sub_length. exact Hd.
Qed.
Print Assumptions C81_never_better_ieee.

(** The mean of differences that are not negative. *)
Lemma sum_nonneg (xs : list R) : Forall (fun x => 0 <= x)%R xs -> (0 <= fold_right Rplus 0 xs)%R /\ forall x, In x xs -> (x <= fold_right Rplus 0 xs)%R.
Proof.
  induction 1 as [|x xs Hx _ [IH1 IH2]]; cbn [fold_right].
  - split; [lra|]. intros x [].
  - split; [lra|]. intros y [<-|Hy]; [lra|]. specialize (IH2 y Hy). lra.
Qed.

Lemma mean_error_facts (xs ys : list R) : length xs = length ys -> (0 < length xs)%nat ->
  (forall i x y, nth_error xs i = Some x -> nth_error ys i = Some y -> (y <= x)%R) ->
  (0 <= mean_error xs ys)%R /\
  (mean_error xs ys = 0%R <-> xs = ys) /\
  forall i x y, nth_error xs i = Some x -> nth_error ys i = Some y -> (x - y <= INR (length xs) * mean_error xs ys)%R.
Proof.
  intros Hl Hn Hle. set (ds := map (fun p => (fst p - snd p)%R) (combine xs ys)).
  assert (Hi : forall i x y, nth_error xs i = Some x -> nth_error ys i = Some y -> In (x - y)%R ds).
  { intros i x y Ex Ey. unfold ds. apply in_map_iff. exists (x, y). split; auto. revert ys i Ex Ey Hl Hle ds. clear.
    induction xs as [|a xs IH]; intros [|b ys] [|i] Ex Ey Hl Hle ds; try discriminate.
    - cbn in *. injection Ex as <-. injection Ey as <-. left. reflexivity.
    - cbn in *. right. apply (IH ys i); auto. intros j u v Eu Ev. apply (Hle (S j)); auto. }
  assert (Hf : Forall (fun x => 0 <= x)%R ds).
  { apply Forall_forall. intros z Hz. unfold ds in Hz. apply in_map_iff in Hz as ([x y] & <- & Hz). cbn [fst snd].
    assert (X : exists i, nth_error xs i = Some x /\ nth_error ys i = Some y).
    { revert ys Hl Hle ds Hi Hz. clear. induction xs as [|a xs IH]; intros [|b ys] Hl Hle ds Hi Hz; try contradiction.
      cbn in Hz. destruct Hz as [Hz|Hz].
      - injection Hz as -> ->. exists 0%nat. auto.
      - destruct (IH ys) as (i & X1 & X2); auto.
        + intros j u v Eu Ev. apply (Hle (S j)); auto.
        + intros j u v Eu Ev. clear - Eu Ev. revert j ys Eu Ev. induction xs as [|a xs IH]; intros [|j] [|b ys] Eu Ev; try discriminate; cbn in *.
          * injection Eu as ->. injection Ev as ->. left. reflexivity.
          * right. apply (IH j); auto.
        + exists (S i). auto. }
    destruct X as (i & X1 & X2). specialize (Hle i x y X1 X2). lra. }
  destruct (sum_nonneg ds Hf) as [S1 S2].
  assert (Pn : (0 < INR (length xs))%R) by (apply lt_0_INR; auto).
  assert (Em : (INR (length xs) * mean_error xs ys)%R = fold_right Rplus 0%R ds) by (unfold mean_error; fold ds; field; lra).
  split; [|split].
  - unfold mean_error. fold ds. apply Rmult_le_pos; [auto|]. apply Rlt_le, Rinv_0_lt_compat. auto.
  - split.
    + intros E0. rewrite E0, Rmult_0_r in Em. rewrite <- Em in S2. clear Em E0.
      apply (nth_ext xs ys 0%R 0%R Hl). intros n Hn'.
      destruct (nth_error xs n) as [x|] eqn:Ex; [|apply nth_error_None in Ex; lia].
      destruct (nth_error ys n) as [y|] eqn:Ey; [|apply nth_error_None in Ey; lia].
      rewrite (nth_error_nth _ _ _ Ex), (nth_error_nth _ _ _ Ey). specialize (S2 _ (Hi n x y Ex Ey)). specialize (Hle n x y Ex Ey). lra.
    + intros <-. unfold mean_error. assert (Z : fold_right Rplus 0%R (map (fun p => (fst p - snd p)%R) (combine xs xs)) = 0%R).
      { clear. induction xs as [|x xs IH]; [reflexivity|]. cbn in *. lra. }
      rewrite Z. lra.
  - intros i x y Ex Ey. rewrite Em. apply S2. apply (Hi i); auto.
Qed.

Lemma all_real (cs : list (cand XR)) : (forall c, In c cs -> nle (N := XR) n0 (c_dist c) /\ nlt (N := XR) (c_dist c) ninf) -> exists xs, distances cs xs.
Proof.
  induction cs as [|c cs IH]; intros H; [exists []; reflexivity|].
  destruct IH as [xs Hx]; [intros c' Hc'; apply H; right; auto|].
  destruct (H c (or_introl eq_refl)) as [H1 H2]. destruct (XR_pos _ H1) as [E|(r & E & _)].
  - exfalso. rewrite E in H2. discriminate H2.
  - exists (r :: xs). unfold distances in *. cbn [map]. rewrite Hx, E. reflexivity.
Qed.

Lemma distances_nth (cs : list (cand XR)) xs i x : distances cs xs -> nth_error xs i = Some x -> exists c, nth_error cs i = Some c /\ c_dist c = Fin x.
Proof.
  unfold distances. intros E Ex. pose proof (map_nth_error Fin i xs Ex) as X. rewrite <- E in X.
  destruct (nth_error cs i) as [c|] eqn:Ec.
  - exists c. split; auto. pose proof (eq_trans (eq_sym (map_nth_error (fun c : cand XR => c_dist c) i cs Ec)) X) as Y. injection Y as ->. reflexivity.
  - exfalso. apply nth_error_None in Ec. assert (i < length (map Fin xs))%nat by (apply nth_error_Some; congruence).
    rewrite <- E, map_length in H. lia.
Qed.

Lemma distances_length (cs : list (cand XR)) xs : distances cs xs -> length xs = length cs.
Proof. intros E. apply (f_equal (@length _)) in E. rewrite !map_length in E. auto. Qed.

(** Exact arithmetic: so the error the experiments compute is never negative; it is
    zero only if all distances agree; and no distance is off by more than the
    number of answers times the error. *)
Theorem C81_error_exact : forall (H : std_alg) (k : kind) (d : dataset XR) (rows : list (list R))
    old clock (ratio0 : D XR) (t : R) threads whole g0 total g (query : TS XR) (xs : list R) (ratio : R) K h,
  std_ok H ->
  holds d (real_rows rows) -> 1 <= threads -> log_safe d clock -> ds_maxcol d <= 2 ^ 30 ->
  groupAllLengths (N := XR) clock ratio0 (mkGS d old) (kind_name k) (Fin t) threads whole = (g0, Ret total) ->
  asked (N := XR) H g0 g ->
  is_series query xs -> 2 <= ts_length query <= ds_maxcol d -> (0 <= ratio <= 1)%R ->
  1 <= K <= h ->
  no_near_ties (N := XR) (real_rows rows) k (Fin ratio) (map Fin xs) (long_enough (real_rows rows)) ->
  at_least (searched_place (N := XR) d (real_rows rows) whole (Fin ratio) (ts_length query)) K ->
  exists g' cs best a b, getKBestMatches (N := XR) H (Fin ratio) g query K h = Ret (g', cs) /\
    getKBestMatchesBruteForce (N := XR) H (Fin ratio) d query K (kind_name k) = Ret best /\
    distances cs a /\ distances best b /\ Z.of_nat (length a) = K /\ Z.of_nat (length b) = K /\
    (0 <= mean_error a b)%R /\ (mean_error a b = 0%R <-> a = b) /\
    (forall i x y, nth_error a i = Some x -> nth_error b i = Some y -> (0 <= x - y <= IZR K * mean_error a b)%R) /\
    (whole = false ->
     (forall ps, NoDup ps -> (forall p, In p ps -> searched_place (N := XR) d (real_rows rows) whole (Fin ratio) (ts_length query) p) -> Z.of_nat (length ps) <= h) ->
     mean_error a b = 0%R).
Proof.
  intros H k d rows old clock ratio0 t threads whole g0 total g query xs ratio K h Hok Hd Ht Hlog Hmax E Ha Hq Hql Hr HK Hties Hat.
  set (rr := real_rows rows) in *.
  assert (Hsub : forall p, searched_place (N := XR) d rr whole (Fin ratio) (ts_length query) p -> long_enough rr p).
  { intros p. apply (searched_long (N := XR)). lia. }
  destruct (C24_k_similar_exact H k d rows old clock ratio0 t threads whole g0 total g query xs ratio K h Hok Hd Ht Hlog Hmax E Ha Hq Hql Hr HK)
    as (g' & C & cs & Ek & HC & Hcs & Hcsa & Hcsl); auto.
  { intros p p' v v' Hp Hp'. apply Hties; auto. }
  assert (Lq : Z.of_nat (length (map Fin xs)) = ts_length query).
  { destruct Hq as [Hq1 Hq2]. rewrite <- Hq2. apply (DtwPaths.ts_points_length (N := XR) query Hq1). }
  assert (Lx : Z.of_nat (length xs) = ts_length query) by (rewrite map_length in Lq; exact Lq).
  assert (Hrows : forall row, In row rows -> Z.of_nat (length row) <= 2 ^ 30).
  { intros row Hrow. apply In_nth_error in Hrow as [i Ei]. pose proof Hd as (buf & _ & _ & _ & _ & X).
    destruct (X i (map Fin row)) as (_ & Y & _); [unfold rr, real_rows; apply map_nth_error; auto|]. rewrite map_length in Y. lia. }
  destruct (C26_brute_force_exact_reals H k d rows query xs ratio K Hok Hd Hq ltac:(lia) Hrows Hr ltac:(lia) Hties) as (best & Eb & Hb & Hba).
  assert (Hs : searchable (N := XR) rr k (Fin ratio) (map Fin xs) (long_enough rr)).
  { pose proof Hq as [_ Hq2]. rewrite <- Hq2. apply (searchable_real k rows ratio query xs); auto. lia. }
  destruct (never_better (N := XR) d rr k (Fin ratio) (map Fin xs) whole (ts_length query) K h g ltac:(lia) Hs C cs best Hat HC Hcs Hcsa Hb Hba)
    as [Hlen Hdom].
  assert (Fc : forall c, In c cs -> nle (N := XR) n0 (c_dist c) /\ nlt (N := XR) (c_dist c) ninf).
  { intros c Hc. pose proof (proj1 Hcs c Hc) as [Pc Tc]. pose proof HC as (_ & X & _). specialize (X _ Pc).
    pose proof (match_dist rr k (Fin ratio : D XR) (map Fin xs) c Tc) as Ed.
    destruct (searchable_value (N := XR) rr k (Fin ratio) (map Fin xs) _ _ Hs (Hsub _ X)) as (v & Ev & Hv). rewrite Ed in Ev. injection Ev as <-.
    split; auto. refine (near_finite (N := XR) rr k (Fin ratio) (map Fin xs) (long_enough rr) (place_of c) (ts_length query) _ Hs (Hsub _ X) Lq _ _ Ed).
    - apply (place_length rr). exact (Hsub _ X).
    - apply X. }
  assert (Fb : forall c, In c best -> nle (N := XR) n0 (c_dist c) /\ nlt (N := XR) (c_dist c) ninf).
  { intros c Hc. pose proof (proj1 Hb c Hc) as [Pc Tc]. pose proof (match_dist rr k (Fin ratio : D XR) (map Fin xs) c Tc) as Ed.
    destruct (searchable_value (N := XR) rr k (Fin ratio) (map Fin xs) _ _ Hs Pc) as (v & Ev & Hv). rewrite Ed in Ev. injection Ev as <-.
    split; auto. apply In_nth_error in Hc as [i Ei].
    assert (Hi : (i < length cs)%nat) by (assert (i < length best)%nat by (apply nth_error_Some; congruence); lia).
    destruct (nth_error cs i) as [y|] eqn:Ey; [|apply nth_error_None in Ey; lia].
    apply (nle_lt_trans (N := XR) _ (c_dist y)); [apply (Hdom i); auto|]. apply Fc. eapply nth_error_In; eauto. }
  destruct (all_real cs Fc) as [a Da]. destruct (all_real best Fb) as [b Db].
  pose proof (distances_length _ _ Da) as La. pose proof (distances_length _ _ Db) as Lb.
  assert (Hle : forall i x y, nth_error a i = Some x -> nth_error b i = Some y -> (y <= x)%R).
  { intros i x y Ex Ey. destruct (distances_nth cs a i x Da Ex) as (c & Ec & Dc). destruct (distances_nth best b i y Db Ey) as (c' & Ec' & Dc').
    pose proof (Hdom i c' c Ec' Ec) as X. rewrite Dc, Dc' in X. apply nle_Fin in X. exact X. }
  destruct (mean_error_facts a b ltac:(lia) ltac:(lia) Hle) as (M1 & M2 & M3).
  exists g', cs, best, a, b. refine (conj Ek (conj Eb (conj Da (conj Db (conj _ (conj _ (conj M1 (conj M2 (conj _ _))))))))).
  - lia.
  - lia.
  - intros i x y Ex Ey. specialize (Hle _ _ _ Ex Ey). specialize (M3 _ _ _ Ex Ey).
    replace (IZR K) with (INR (length a)); [lra|]. rewrite INR_IZR_INZ. f_equal. lia.
  - intros Hw Hall. apply M2.
    pose proof (all_looked_at (N := XR) d rr k (Fin ratio) (map Fin xs) whole (ts_length query) K h g ltac:(lia)
      (fun l c => sub_length (N := XR) d rr l c Hd) Lq Hs C cs best Hat HC Hcs Hcsa Hcsl Hb Hba Hw Hall) as Hdom'.
    apply (nth_ext a b 0%R 0%R ltac:(lia)). intros n Hn.
    destruct (nth_error a n) as [x|] eqn:Ex; [|apply nth_error_None in Ex; lia].
    destruct (nth_error b n) as [y|] eqn:Ey; [|apply nth_error_None in Ey; lia].
    rewrite (nth_error_nth _ _ _ Ex), (nth_error_nth _ _ _ Ey). specialize (Hle n x y Ex Ey).
    destruct (distances_nth cs a n x Da Ex) as (c & Ec & Dc). destruct (distances_nth best b n y Db Ey) as (c' & Ec' & Dc').
    pose proof (Hdom' n c c' Ec Ec') as X. rewrite Dc, Dc' in X. apply nle_Fin in X. lra.
Qed.
Print Assumptions C81_error_exact.

(** ** C82 *)
Section Extent.
Context {N : Num} {LW : NumLaws N}.
Variables (d : dataset N) (rows : list (list (D N))) (k : kind) (ratio : D N) (q : list (D N)) (whole : bool) (ql : Z) (g0 : gset N).
Hypothesis Hm : ds_maxcol d >= 2.
Notation S := (searched d whole ratio ql).
Notation P := (searched_place d rows whole ratio ql).
Hypothesis Hs : searchable rows k ratio q P.
Hypothesis Hf : searchable_from rows k ratio q P.
Hypothesis Hviews : forall l, grouped_length d whole l -> exists vs, level_view g0 l = Some (Ret vs) /\ partitions rows l vs.

Lemma considered_ext g h C : (forall l, grouped_length d whole l -> level_view g l = level_view g0 l) ->
  considered rows k ratio q S P g h C -> considered rows k ratio q S P g0 h C.
Proof.
  intros He (N1 & P1 & D1). split; [auto|split; [auto|]]. destruct D1 as [D1|(L1 & inner & far & outer & part & G1 & D1)]; [left; auto|right].
  split; auto. exists inner, far, outer, part. split; auto. intros l v. rewrite <- (G1 l v). unfold group_in.
  split; intros [Sl X]; (split; [auto|]); rewrite (He l (proj1 Sl)) in *; auto.
Qed.

Lemma rep_dist l v : S l -> group_in g0 l v -> exists x, group_dist rows k ratio q l v x /\ nn x.
Proof.
  intros Sl (vs & E & Hv). destruct (Hviews l (proj1 Sl)) as (vs' & E' & V1 & V2 & V3). rewrite E in E'. injection E' as <-.
  destruct (V3 v Hv) as (Q1 & _ & Q2).
  assert (Hp : P (l, v_rep v)).
  { split; auto. cbn [fst snd]. apply V2. apply in_concat. exists (v_members v). split; [apply in_map; auto|]. rewrite Q2.
    destruct (exists_last Q1) as (i & a & ->). rewrite last_last. apply in_or_app. right. left. reflexivity. }
  destruct (Hf _ Hp) as [r Hr]. destruct (dtw_val_ok k _ _ ratio r Hr) as (E1 & E0 & _). rewrite !points_of_list in E1, E0.
  eexists. split; [exact E1|]. apply E0.
Qed.

Lemma place_nn p : P p -> exists v, dtw_of k ratio q (place_values rows p) = Ret v /\ nn v.
Proof. intros Hp. destruct (searchable_value rows k ratio q P p Hs Hp) as (v & E & Hv). exists v. split; auto. apply Hv. Qed.

Lemma wider_no_worse ga gb h h' K K' C C' cs cs' :
  (forall l, grouped_length d whole l -> level_view ga l = level_view g0 l) ->
  (forall l, grouped_length d whole l -> level_view gb l = level_view g0 l) ->
  groups_apart rows k ratio q S g0 -> h <= h' ->
  considered rows k ratio q S P ga h C -> considered rows k ratio q S P gb h' C' ->
  best_matches rows k ratio q (fun p => In p C) K cs -> ascending cs ->
  best_matches rows k ratio q (fun p => In p C') K' cs' -> ascending cs' ->
  dominated cs' cs.
Proof.
  intros Ea Eb Hg Hh HC HC' Hcs Ha Hcs' Ha'.
  apply (rank_dominates rows k ratio q (fun p => In p C') (fun p => In p C) K' K); auto.
  - intros c Hc. destruct Hcs as (B1 & _). destruct (B1 c Hc) as [Hp Ht]. apply (searchable_nn rows k ratio q P); auto.
    destruct HC as (_ & X & _). auto.
  - apply (considered_no_worse rows k ratio q S P g0 rep_dist place_nn Hg h h'); auto; [apply (considered_ext ga)|apply (considered_ext gb)]; auto.
Qed.
End Extent.

(** Looking at more subsequences never makes an answer worse, at any position, and
    asking for more answers does not change the distances of the first ones — if no
    two groups of the searched lengths are at the same distance from the query. *)
Theorem C82_wider_ieee : forall (H : std_alg) (k : kind) (d : dataset B64) (rows : list (list (D B64)))
    old clock (ratio0 thr : D B64) threads whole g0 total ga gb (query : TS B64) (ratio : D B64) K h K' h',
  std_ok H ->
  holds d rows -> moderate_data rows -> nltb (n := B64) (ndiv (n := B64) thr (nofZ 2)) ninf = true ->
  1 <= threads -> log_safe d clock -> ds_maxcol d <= 2 ^ 26 ->
  groupAllLengths (N := B64) clock ratio0 (mkGS d old) (kind_name k) thr threads whole = (g0, Ret total) ->
  asked (N := B64) H g0 ga -> asked (N := B64) H g0 gb ->
  moderate_query query -> ts_length query <= ds_maxcol d -> moderate_ratio ratio ->
  1 <= K <= h -> 1 <= K' <= h' -> h <= h' ->
  let S := searched (N := B64) d whole ratio (ts_length query) in
  let P := searched_place (N := B64) d rows whole ratio (ts_length query) in
  no_near_ties (N := B64) rows k ratio (ts_points query) P -> at_least P K -> at_least P K' ->
  groups_apart (N := B64) rows k ratio (ts_points query) S g0 ->
  exists ga' gb' cs cs', getKBestMatches (N := B64) H ratio ga query K h = Ret (ga', cs) /\
    getKBestMatches (N := B64) H ratio gb query K' h' = Ret (gb', cs') /\
    Z.of_nat (length cs) = K /\ Z.of_nat (length cs') = K' /\
    dominated cs' cs /\ (h = h' -> dominated cs cs').
Proof.
  intros H k d rows old clock ratio0 thr threads whole g0 total ga gb query ratio K h K' h' Hok Hd Hmod Hthr Ht Hlog Hmax E Ha Hb Hq Hql Hr HK HK' Hh S P Hties Hat Hat' Hg.
  assert (H2 : 2 <= ts_length query) by apply Hq.
  assert (Hsub : forall p, P p -> long_enough rows p) by (intros p; apply (searched_long (N := B64)); lia).
  destruct (C24_k_similar_ieee H k d rows old clock ratio0 thr threads whole g0 total ga query ratio K h Hok Hd Hmod Hthr Ht Hlog Hmax E Ha Hq Hql Hr HK Hties Hat)
    as (ga' & C & cs & Ek & HC & Hcs & Hcsa & Hcsl).
  destruct (C24_k_similar_ieee H k d rows old clock ratio0 thr threads whole g0 total gb query ratio K' h' Hok Hd Hmod Hthr Ht Hlog Hmax E Hb Hq Hql Hr HK' Hties Hat')
    as (gb' & C' & cs' & Ek' & HC' & Hcs' & Hcsa' & Hcsl').
  assert (Va : forall g, asked (N := B64) H g0 g -> forall l, grouped_length d whole l -> level_view g l = level_view g0 l).
  { intros g Hag. apply (asked_views (N := B64) d rows H old clock ratio0 k thr threads whole g0 total g); auto. lia. }
  assert (V0 : forall l, grouped_length d whole l -> exists vs, level_view g0 l = Some (Ret vs) /\ partitions (N := B64) rows l vs).
  { assert (Hn : In (kind_name k) groupable) by (destruct k; cbn; tauto).
    destruct (C16_grouping_partitions B64 _ d rows old clock ratio0 (kind_name k) thr threads whole Hd Hn Hthr ltac:(lia) Ht Hlog) as (g1 & t1 & E1 & _ & _ & _ & V & _).
    rewrite E in E1. injection E1 as <- _. exact V. }
  assert (Hs : searchable (N := B64) rows k ratio (ts_points query) P) by (apply searchable_moderate; auto).
  assert (Hf : searchable_from (N := B64) rows k ratio (ts_points query) P) by (apply searchable_from_moderate; auto).
  exists ga', gb', cs, cs'. refine (conj Ek (conj Ek' (conj Hcsl (conj Hcsl' (conj _ _))))).
  - apply (wider_no_worse (N := B64) d rows k ratio (ts_points query) whole (ts_length query) g0 Hs Hf V0 ga gb h h' K K' C C'); auto.
  - intros Eh. apply (wider_no_worse (N := B64) d rows k ratio (ts_points query) whole (ts_length query) g0 Hs Hf V0 gb ga h' h K' K C' C); auto. lia.
Qed.
Print Assumptions C82_wider_ieee.

Theorem C82_wider_exact : forall (H : std_alg) (k : kind) (d : dataset XR) (rows : list (list R))
    old clock (ratio0 : D XR) (t : R) threads whole g0 total ga gb (query : TS XR) (xs : list R) (ratio : R) K h K' h',
  std_ok H ->
  holds d (real_rows rows) -> 1 <= threads -> log_safe d clock -> ds_maxcol d <= 2 ^ 30 ->
  groupAllLengths (N := XR) clock ratio0 (mkGS d old) (kind_name k) (Fin t) threads whole = (g0, Ret total) ->
  asked (N := XR) H g0 ga -> asked (N := XR) H g0 gb ->
  is_series query xs -> 2 <= ts_length query <= ds_maxcol d -> (0 <= ratio <= 1)%R ->
  1 <= K <= h -> 1 <= K' <= h' -> h <= h' ->
  let S := searched (N := XR) d whole (Fin ratio) (ts_length query) in
  let P := searched_place (N := XR) d (real_rows rows) whole (Fin ratio) (ts_length query) in
  no_near_ties (N := XR) (real_rows rows) k (Fin ratio) (map Fin xs) P -> at_least P K -> at_least P K' ->
  groups_apart (N := XR) (real_rows rows) k (Fin ratio) (map Fin xs) S g0 ->
  exists ga' gb' cs cs', getKBestMatches (N := XR) H (Fin ratio) ga query K h = Ret (ga', cs) /\
    getKBestMatches (N := XR) H (Fin ratio) gb query K' h' = Ret (gb', cs') /\
    Z.of_nat (length cs) = K /\ Z.of_nat (length cs') = K' /\
    dominated cs' cs /\ (h = h' -> dominated cs cs').
Proof.
  intros H k d rows old clock ratio0 t threads whole g0 total ga gb query xs ratio K h K' h' Hok Hd Ht Hlog Hmax E Ha Hb Hq Hql Hr HK HK' Hh S P Hties Hat Hat' Hg.
  assert (Hsub : forall p, P p -> long_enough (real_rows rows) p) by (intros p; apply (searched_long (N := XR)); lia).
  destruct (C24_k_similar_exact H k d rows old clock ratio0 t threads whole g0 total ga query xs ratio K h Hok Hd Ht Hlog Hmax E Ha Hq Hql Hr HK Hties Hat)
    as (ga' & C & cs & Ek & HC & Hcs & Hcsa & Hcsl).
  destruct (C24_k_similar_exact H k d rows old clock ratio0 t threads whole g0 total gb query xs ratio K' h' Hok Hd Ht Hlog Hmax E Hb Hq Hql Hr HK' Hties Hat')
    as (gb' & C' & cs' & Ek' & HC' & Hcs' & Hcsa' & Hcsl').
  assert (Hthr : nltb (n := XR) (ndiv (n := XR) (Fin t) (nofZ 2)) ninf = true) by apply half_fin.
  assert (Va : forall g, asked (N := XR) H g0 g -> forall l, grouped_length d whole l -> level_view g l = level_view g0 l).
  { intros g Hag. apply (asked_views (N := XR) d (real_rows rows) H old clock ratio0 k (Fin t) threads whole g0 total g); auto. lia. }
  assert (V0 : forall l, grouped_length d whole l -> exists vs, level_view g0 l = Some (Ret vs) /\ partitions (N := XR) (real_rows rows) l vs).
  { assert (Hn : In (kind_name k) groupable) by (destruct k; cbn; tauto).
    destruct (C16_grouping_partitions XR _ d (real_rows rows) old clock ratio0 (kind_name k) (Fin t) threads whole Hd Hn Hthr ltac:(lia) Ht Hlog) as (g1 & t1 & E1 & _ & _ & _ & V & _).
    rewrite E in E1. injection E1 as <- _. exact V. }
  assert (Lq : Z.of_nat (length xs) = ts_length query).
  { destruct Hq as [Hq1 Hq2]. pose proof (DtwPaths.ts_points_length (N := XR) query Hq1) as L. rewrite Hq2, map_length in L. lia. }
  assert (Hrows : forall row, In row rows -> Z.of_nat (length row) <= 2 ^ 30).
  { intros row Hrow. apply In_nth_error in Hrow as [i Ei]. pose proof Hd as (buf & _ & _ & _ & _ & X).
    destruct (X i (map Fin row)) as (_ & Y & _); [unfold real_rows; apply map_nth_error; auto|]. rewrite map_length in Y. lia. }
  assert (Hs : searchable (N := XR) (real_rows rows) k (Fin ratio) (map Fin xs) P).
  { pose proof Hq as [_ Hq2]. rewrite <- Hq2. apply (searchable_real k rows ratio query xs); auto. lia. }
  assert (Hf : searchable_from (N := XR) (real_rows rows) k (Fin ratio) (map Fin xs) P).
  { pose proof Hq as [_ Hq2]. rewrite <- Hq2. apply (searchable_from_real k rows ratio query xs); auto. lia. }
  exists ga', gb', cs, cs'. refine (conj Ek (conj Ek' (conj Hcsl (conj Hcsl' (conj _ _))))).
  - apply (wider_no_worse (N := XR) d (real_rows rows) k (Fin ratio) (map Fin xs) whole (ts_length query) g0 Hs Hf V0 ga gb h h' K K' C C'); auto.
  - intros Eh. apply (wider_no_worse (N := XR) d (real_rows rows) k (Fin ratio) (map Fin xs) whole (ts_length query) g0 Hs Hf V0 gb ga h' h K' K C' C); auto. lia.
Qed.
Print Assumptions C82_wider_exact.

(** ** the example data meet the hypotheses *)
Example C81_example_run :
  show_k (getKBestMatches (N := B64) simple_alg (b64_ofZ 1) (fst ex2_grouped) bf_query 3 3) =
    Some [(2, 0, 1, B2SF (b64_ofZ 0)); (3, 1, 0, B2SF (b64_lit 1 6)); (2, 1, 1, B2SF (b64_lit 1 4))] /\
  show_k (getKBestMatches (N := B64) simple_alg (b64_ofZ 1) (fst ex2_grouped) bf_query 3 4) =
    Some [(2, 0, 1, B2SF (b64_ofZ 0)); (3, 0, 0, B2SF (b64_lit 1 6)); (3, 1, 0, B2SF (b64_lit 1 6))] /\
  show_cands (getKBestMatchesBruteForce (N := B64) simple_alg (b64_ofZ 1) ex2_data bf_query 3 "manhattan") =
    Some [(2, 0, 1, B2SF (b64_ofZ 0)); (3, 0, 0, B2SF (b64_lit 1 6)); (3, 1, 0, B2SF (b64_lit 1 6))].
Proof. split; [|split]; vm_compute; reflexivity. Qed.

Lemma show_views o l : show o = Some l -> exists vs, o = Some (Ret vs) /\ map show_view vs = l.
Proof. destruct o as [[vs| | |]|]; try discriminate. cbn. intros E. injection E as <-. eauto. Qed.

Lemma show_view_rep vs (v : gview) (l : list (coord * Z * list coord)) : map show_view vs = l -> In v vs -> In (show_view v) l.
Proof. intros <- Hv. apply in_map. exact Hv. Qed.

Lemma show_view_inj (v w : gview) : show_view v = show_view w -> v = w.
Proof. destruct v, w. unfold show_view. cbn. intros E. injection E as -> -> ->. reflexivity. Qed.

Definition far_apart (x y : res b64) : bool := match x, y with Ret x, Ret y => negb (Beqb x y) | _, _ => false end.
Definition group_value (p : place) : res b64 := dtw_of (N := B64) KManhattan (b64_ofZ 1) (place_values ex2_rows p) (ts_points bf_query).

Lemma far_apart_not (x y : b64) : far_apart (Ret x) (Ret y) = true -> ~ neqv (N := B64) x y.
Proof. cbn [far_apart]. intros E Q. apply (neqb_of_eqv (N := B64)) in Q. change (Beqb x y = true) in Q. rewrite Q in E. discriminate. Qed.

Example C82_example_pre :
  groups_apart (N := B64) ex2_rows KManhattan (b64_ofZ 1) (ts_points bf_query)
    (searched (N := B64) ex2_data false (b64_ofZ 1) (ts_length bf_query)) (fst ex2_grouped) /\
  at_least (searched_place (N := B64) ex2_data ex2_rows false (b64_ofZ 1) (ts_length bf_query)) 3.
Proof.
  split.
  - assert (G1 : far_apart (group_value (2, (0, 0))) (group_value (2, (0, 1))) = true) by (vm_compute; reflexivity).
    assert (G2 : far_apart (group_value (2, (0, 0))) (group_value (3, (0, 0))) = true) by (vm_compute; reflexivity).
    assert (G3 : far_apart (group_value (2, (0, 1))) (group_value (3, (0, 0))) = true) by (vm_compute; reflexivity).
    assert (G4 : far_apart (group_value (2, (0, 1))) (group_value (2, (0, 0))) = true) by (vm_compute; reflexivity).
    assert (G5 : far_apart (group_value (3, (0, 0))) (group_value (2, (0, 0))) = true) by (vm_compute; reflexivity).
    assert (G6 : far_apart (group_value (3, (0, 0))) (group_value (2, (0, 1))) = true) by (vm_compute; reflexivity).
    pose proof C16_example as (_ & _ & _ & _ & V2 & V3).
    assert (HG : forall l v, searched (N := B64) ex2_data false (b64_ofZ 1) (ts_length bf_query) l -> group_in (fst ex2_grouped) l v ->
      (l, show_view v) = (2, ((0, 0), 2, [(1, 0); (0, 0)])) \/ (l, show_view v) = (2, ((0, 1), 2, [(1, 1); (0, 1)])) \/
      (l, show_view v) = (3, ((0, 0), 2, [(1, 0); (0, 0)]))).
    { intros l v [Hl _] (vs & E & Hv). assert (Hl' : l = 2 \/ l = 3) by (revert Hl; unfold grouped_length; cbn; lia).
      destruct Hl' as [-> | ->].
      - apply show_views in V2 as (vs' & E' & Hm). rewrite E in E'. injection E' as <-. apply (show_view_rep _ _ _ Hm) in Hv.
        destruct Hv as [<-|[<-|[]]]; auto.
      - apply show_views in V3 as (vs' & E' & Hm). rewrite E in E'. injection E' as <-. apply (show_view_rep _ _ _ Hm) in Hv.
        destruct Hv as [<-|[]]; auto. }
    intros l v l' v' x x' Sl Gv Sl' Gv' Ex Ex' Q.
    change (group_value (l, v_rep v) = Ret (x : b64)) in Ex. change (group_value (l', v_rep v') = Ret (x' : b64)) in Ex'.
    specialize (HG l v Sl Gv) as A. specialize (HG l' v' Sl' Gv') as B. clear HG Sl Gv Sl' Gv' V2 V3.
    assert (Same : (l, show_view v) = (l', show_view v') -> (l, v) = (l', v')).
    { intros X. injection X as -> X1 X2 X3. f_equal. apply show_view_inj. unfold show_view. rewrite X1, X2, X3. reflexivity. }
    assert (Rep : forall a r n ms, (l, show_view v) = (a, (r, n, ms)) -> group_value (a, r) = Ret (x : b64)).
    { intros a r n ms X. injection X as <- <- _ _. exact Ex. }
    assert (Rep' : forall a r n ms, (l', show_view v') = (a, (r, n, ms)) -> group_value (a, r) = Ret (x' : b64)).
    { intros a r n ms X. injection X as <- <- _ _. exact Ex'. }
    clear Ex Ex'.
    destruct A as [A|[A|A]], B as [B|[B|B]]; try (apply Same; rewrite A, B; reflexivity); exfalso;
      apply Rep in A; apply Rep' in B; clear Rep Rep' Same; revert Q; apply far_apart_not;
      first [exact (eq_trans (f_equal2 far_apart (eq_sym A) (eq_sym B)) G1)|exact (eq_trans (f_equal2 far_apart (eq_sym A) (eq_sym B)) G2)|exact (eq_trans (f_equal2 far_apart (eq_sym A) (eq_sym B)) G3)|exact (eq_trans (f_equal2 far_apart (eq_sym A) (eq_sym B)) G4)|exact (eq_trans (f_equal2 far_apart (eq_sym A) (eq_sym B)) G5)|exact (eq_trans (f_equal2 far_apart (eq_sym A) (eq_sym B)) G6)].
  - assert (W : forall c, is_sub ex2_rows 2 c -> searched_place (N := B64) ex2_data ex2_rows false (b64_ofZ 1) (ts_length bf_query) (2, c)).
    { intros c Hc. split; auto. split.
      - vm_compute. split; discriminate.
      - exists 1. split; vm_compute; [reflexivity|discriminate]. }
    exists [(2, (0, 0)); (2, (0, 1)); (2, (1, 0))]. split; [|split; [|simpl; lia]].
    + repeat constructor; simpl; intuition congruence.
    + intros p [<-|[<-|[<-|[]]]]; apply W; [exists (map b64_ofZ [0; 1; 9])|exists (map b64_ofZ [0; 1; 9])|exists (map b64_ofZ [1; 1; 8])];
        (split; [reflexivity|]); vm_compute; split; discriminate.
Qed.

(** ** groups at the same distance *)

(** two groups, {10 10; 8 8} and {-10 -10; -11 -11; -12 -12}, represented by their
    first members, at the same distance from the query 0 0 *)
Definition w_rows : list (list (D B64)) := map (map b64_ofZ) [[10; 10]; [8; 8]; [-10; -10]; [-11; -11]; [-12; -12]].
Definition w_data : dataset B64 := mkDS (N := B64) (Some (concat w_rows)) [] [2; 2; 2; 2; 2] 5 2 "f"%string false.
Definition w_grouped : gset B64 * res Z :=
  groupAllLengths (N := B64) (fun _ => false) (b64_ofZ 1) (mkGS w_data None) "manhattan" (b64_ofZ 6) 1 false.
Definition w_places : list place := [(2, (0, 0)); (2, (1, 0)); (2, (2, 0)); (2, (3, 0)); (2, (4, 0))].

Lemma w_holds : holds w_data w_rows.
Proof.
  exists (concat w_rows). splits; try reflexivity; try (unfold int_max; simpl; lia).
  intros i row E. do 5 (destruct i as [|i]; [injection E as <-; splits; try reflexivity;
    try (simpl; lia); intros j v Ej; repeat (destruct j as [|j]; [injection Ej as <-; reflexivity|]);
    destruct j; discriminate|]). destruct i; discriminate.
Qed.

Lemma w_moderate : moderate_data w_rows /\ moderate_query (zs [0; 0]) /\ moderate_ratio (b64_ofZ 1).
Proof.
  split; [|split].
  - intros row Hr. do 5 (destruct Hr as [<-|Hr]; [split; [apply leb64_all; vm_compute; reflexivity|vm_compute; discriminate]|]). destruct Hr.
  - split; [apply zs_ok|]. split; [|vm_compute; split; discriminate]. apply leb64_all. vm_compute. reflexivity.
  - split; (split; [reflexivity|split; reflexivity]).
Qed.

Lemma w_in p : long_enough w_rows p -> In p w_places.
Proof. intros Hp. apply (BruteProofs.bf_places_In (N := B64) w_rows) in Hp. exact Hp. Qed.

Lemma w_ties : no_near_ties (N := B64) w_rows KManhattan (b64_ofZ 1) (ts_points (zs [0; 0])) (long_enough w_rows).
Proof.
  intros p p' v v' Hp Hp' Ev Ev'. apply w_in in Hp, Hp'.
  assert (G : forallb (fun p => forallb (fun p' =>
    match dtw_of (N := B64) KManhattan (b64_ofZ 1) (ts_points (zs [0; 0])) (place_values w_rows p),
          dtw_of (N := B64) KManhattan (b64_ofZ 1) (ts_points (zs [0; 0])) (place_values w_rows p') with
    | Ret v, Ret v' => sepb v v' | _, _ => false end) w_places) w_places = true) by (vm_compute; reflexivity).
  rewrite forallb_forall in G. specialize (G p Hp). rewrite forallb_forall in G. specialize (G p' Hp').
  cbv beta in G. rewrite Ev, Ev' in G. unfold sepb in G. apply orb_true_iff in G as [G|G].
  - left. apply (neqb_true (N := B64)). exact G.
  - right. apply negb_true_iff in G. exact G.
Qed.

Lemma w_run :
  snd w_grouped = Ret 2 /\
  show_k (getKBestMatches (N := B64) simple_alg (b64_ofZ 1) (fst w_grouped) (zs [0; 0]) 1 2) = Some [(2, 1, 0, B2SF (b64_ofZ 4))] /\
  show_k (getKBestMatches (N := B64) simple_alg (b64_ofZ 1) (fst w_grouped) (zs [0; 0]) 1 3) = Some [(2, 2, 0, B2SF (b64_ofZ 5))].
Proof. split; [|split]; vm_compute; reflexivity. Qed.

Lemma show_k_ret {A} (r : res (A * list (cand B64))) l : show_k r = Some l -> exists a cs, r = Ret (a, cs) /\
  map (fun c : cand B64 => (ts_length (c_data c), ts_index (c_data c), ts_start (c_data c), B2SF (c_dist c : b64))) cs = l.
Proof. destruct r as [[a cs]| | |]; try discriminate. cbn. intros E. injection E as <-. eauto. Qed.

(** Looking at three subsequences instead of two gives a worse answer: the whole
    first group is dropped for the second one. *)
Theorem C82_ties_refuted : exists (H : std_alg) (k : kind) (d : dataset B64) rows (thr : D B64) g0 total (query : TS B64) (ratio : D B64) g1 g2 cs cs',
  std_ok H /\ holds d rows /\ moderate_data rows /\ moderate_query query /\ ts_length query <= ds_maxcol d /\ moderate_ratio ratio /\
  no_near_ties (N := B64) rows k ratio (ts_points query) (long_enough rows) /\
  groupAllLengths (N := B64) (fun _ => false) ratio (mkGS d None) (kind_name k) thr 1 false = (g0, Ret total) /\
  getKBestMatches (N := B64) H ratio g0 query 1 2 = Ret (g1, cs) /\
  getKBestMatches (N := B64) H ratio g0 query 1 3 = Ret (g2, cs') /\
  length cs = 1%nat /\ length cs' = 1%nat /\ ~ dominated cs' cs.
Proof.
  pose proof w_run as (E0 & E1 & E2). apply show_k_ret in E1 as (g1 & cs & E1 & S1). apply show_k_ret in E2 as (g2 & cs' & E2 & S2).
  exists simple_alg, KManhattan, w_data, w_rows, (b64_ofZ 6), (fst w_grouped), 2, (zs [0; 0]), (b64_ofZ 1), g1, g2, cs, cs'.
  destruct w_moderate as (M1 & M2 & M3).
  split; [apply simple_alg_ok|]. split; [apply w_holds|]. split; [exact M1|]. split; [exact M2|]. split; [vm_compute; discriminate|].
  split; [exact M3|]. split; [exact w_ties|]. split.
  { change (w_grouped = (fst w_grouped, Ret 2)). rewrite <- E0. apply surjective_pairing. }
  split; [exact E1|]. split; [exact E2|]. clear E0 E1 E2 M1 M2 M3.
  destruct cs as [|c [|? ?]]; [discriminate S1| |discriminate S1]. destruct cs' as [|c' [|? ?]]; [discriminate S2| |discriminate S2].
  split; [reflexivity|]. split; [reflexivity|]. intros Hd. specialize (Hd 0%nat c' c eq_refl eq_refl).
  set (last_of := fun l : list (Z * Z * Z * SpecFloat.spec_float) => match l with (_, x) :: _ => x | [] => SpecFloat.S754_nan end).
  apply (f_equal last_of) in S1. apply (f_equal last_of) in S2.
  change (B2SF (c_dist c : b64) = B2SF (b64_ofZ 4)) in S1. change (B2SF (c_dist c' : b64) = B2SF (b64_ofZ 5)) in S2.
  apply (B2SF_inj prec64 emax64) in S1. apply (B2SF_inj prec64 emax64) in S2. destruct Hd as (_ & _ & Hd).
  assert (X : nltb (n := B64) (b64_ofZ 4) (b64_ofZ 5) = true) by (vm_compute; reflexivity).
  rewrite <- S1, <- S2 in X. pose proof (eq_trans (eq_sym Hd) X) as Y. discriminate Y.
Qed.
Print Assumptions C82_ties_refuted.

(** ** C81: more answers than subsequences of the searched lengths *)
Definition ex2_whole : gset B64 * res Z :=
  groupAllLengths (N := B64) (fun _ => false) (b64_ofZ 1) (mkGS ex2_data None) "manhattan" (b64_ofZ 6) 1 true.

Lemma ex2_whole_run : snd ex2_whole = Ret 1 /\
  show_k (getKBestMatches (N := B64) simple_alg (b64_ofZ 1) (fst ex2_whole) bf_query 3 3) =
    Some [(3, 0, 0, B2SF (b64_lit 1 6)); (3, 1, 0, B2SF (b64_lit 1 6)); (0, 0, 0, B2SF (b64_ofZ 0))].
Proof. split; vm_compute; reflexivity. Qed.

(** Then a distance can be smaller than that of the exhaustive search: the made-up
    entries have distance 0.  Here the answers of the exhaustive search are at
    distances 0, 1/6 and 1/6, and the approximate ones at 1/6, 1/6 and 0, so that
    the differences even add up to 0. *)
Theorem C81_made_up_refuted : exists (H : std_alg) (k : kind) (d : dataset B64) rows (thr : D B64) g0 total (query : TS B64) (ratio : D B64) g1 cs best,
  std_ok H /\ holds d rows /\ moderate_data rows /\ moderate_query query /\ ts_length query <= ds_maxcol d /\ moderate_ratio ratio /\
  no_near_ties (N := B64) rows k ratio (ts_points query) (long_enough rows) /\
  groupAllLengths (N := B64) (fun _ => false) ratio (mkGS d None) (kind_name k) thr 1 true = (g0, Ret total) /\
  getKBestMatches (N := B64) H ratio g0 query 3 3 = Ret (g1, cs) /\
  getKBestMatchesBruteForce (N := B64) H ratio d query 3 (kind_name k) = Ret best /\
  map (fun c : cand B64 => B2SF (c_dist c : b64)) cs = [B2SF (b64_lit 1 6); B2SF (b64_lit 1 6); B2SF (b64_ofZ 0)] /\
  map (fun c : cand B64 => B2SF (c_dist c : b64)) best = [B2SF (b64_ofZ 0); B2SF (b64_lit 1 6); B2SF (b64_lit 1 6)].
Proof.
  pose proof ex2_whole_run as (E0 & E1). apply show_k_ret in E1 as (g1 & cs & E1 & S1).
  pose proof C81_example_run as (_ & _ & E2).
  destruct (getKBestMatchesBruteForce (N := B64) simple_alg (b64_ofZ 1) ex2_data bf_query 3 "manhattan") as [best| | |] eqn:Eb; try discriminate E2.
  cbn [show_cands] in E2. assert (E3 := f_equal (fun o => match o with Some l => l | None => [] end) E2). cbv beta iota in E3. clear E2.
  destruct C26_example_pre as (H1 & H2 & H3 & H4 & H5).
  exists simple_alg, KManhattan, ex2_data, ex2_rows, (b64_ofZ 6), (fst ex2_whole), 1, bf_query, (b64_ofZ 1), g1, cs, best.
  split; [apply simple_alg_ok|]. split; [exact H1|]. split; [exact H2|]. split; [exact H3|]. split; [vm_compute; discriminate|].
  split; [exact H4|]. split; [exact H5|]. split.
  { change (ex2_whole = (fst ex2_whole, Ret 1)). rewrite <- E0. apply surjective_pairing. }
  split; [exact E1|]. split; [exact Eb|]. split.
  - apply (f_equal (map snd)) in S1. rewrite map_map in S1. exact S1.
  - apply (f_equal (map snd)) in E3. rewrite map_map in E3. exact E3.
Qed.
Print Assumptions C81_made_up_refuted.
