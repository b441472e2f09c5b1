(** Property C34: searches through the interface, over all histories of calls.
    Specification: ApiSpec.v, QuerySpec.v, SearchSpec.v, DataSpec.v. *)
From Coq Require Import String.
From Verif Require Import Base Num NumB64 NumB64Laws NumLaws NumFacts LoopFacts TimeSeries Distance DistSpec TSSet StdAlg HeapFacts Candidate Group GroupSpace Loader Archive
  BruteForce PAA DataSpec DataProofs GroupSpec GroupView GroupDist SearchSpec Traverse QueryState QuerySpec QueryProofs QueryUB PropsDistance PropsData
  PropsGroup PropsSearch PropsQuery PropsKSim Api ApiSpec ApiProofs ApiQuery PropsLoader PropsApi.
Local Open Scope Z_scope.
Local Open Scope list_scope.

(** In [s] the data set [t], which holds [rows] of moderate values, is grouped: at some
    time it was grouped with the distance [k] and a threshold that is not NaN or infinite,
    and since then it was not normalised, grouped again, loaded groups for or unloaded. *)
Definition grouped_since (H : std_alg) (s : api B64) (t : string) (k : kind) (whole : bool) (d : dataset B64) (rows : list (list (D B64))) : Prop :=
  exists (r0 : D B64) h s0 e (thr : D B64) threads s1 n g, @run B64 r0 h s0 /\ held s0 t = Some g /\ gt_data g = d /\
    holds d rows /\ moderate_data rows /\ ds_maxcol d <= 2 ^ 26 /\
    nltb (n := B64) (ndiv (n := B64) thr (nofZ 2)) ninf = true /\ log_safe d (e_clock e) /\
    exec e (CGroup t thr (kind_name k) threads whole) s0 = (s1, Ret n) /\ later H t s1 s.

(** points [st] to [en] of series [i] in the data set [qn]: at least two of them *)
Definition asks_for (s : api B64) (qn : string) (i st en : Z) (xs : list (D B64)) : Prop :=
  exists gq qrows row, held s qn = Some gq /\ holds (gt_data gq) qrows /\ moderate_data qrows /\
    row_of qrows i = Some row /\ 0 <= st /\ st + 2 <= en /\ en <= Z.of_nat (length row) /\ xs = slice row st en.

Lemma asks_series s qn i st en xs : good s -> asks_for s qn i st en xs ->
  exists q, (exists gq, held s qn = Some gq /\ getTimeSeries (gt_data gq) i st en = Ret q) /\
    moderate_query q /\ ts_points q = xs /\ ts_length q = en - st.
Proof.
  intros G (gq & qrows & row & Hq & Hd & Hm & Er & H0 & H2 & Hl & ->).
  destruct (getTimeSeries_ok (gt_data gq) qrows i st en row Hd Er ltac:(lia) Hl) as (q & E & Ep & Ht & _ & _ & Elen).
  exists q. split; [eauto|]. split; [|split; [exact Ep|exact Elen]].
  apply row_of_Some in Er as [_ Er]. destruct (Hm row (nth_error_In _ _ Er)) as [Hv Hlr].
  split; [exact Ht|]. split; [|lia]. rewrite Ep. unfold slice. apply Forall_forall. intros x Hx. rewrite Forall_forall in Hv. apply Hv.
  eapply (incl_tran (m := skipn (Z.to_nat st) row)); [| |exact Hx].
  - intros y Hy. rewrite <- (firstn_skipn (Z.to_nat (en - st)) (skipn (Z.to_nat st) row)). apply in_or_app. left. exact Hy.
  - intros y Hy. rewrite <- (firstn_skipn (Z.to_nat st) row). apply in_or_app. right. exact Hy.
Qed.

Lemma since_ready H s t k whole d rows : grouped_since H s t k whole d rows -> 1 <= ds_maxcol d ->
  good s /\ exists g, held s t = Some g /\ gt_data g = d /\ ready (N := B64) (RP := founder) d rows k whole g.
Proof.
  intros (r0 & h & s0 & e & thr & threads & s1 & n & g0 & Hrun & Hh & <- & Hd & Hm & Hmax & Hthr & Hlog & E & Hl) H1.
  pose proof (run_good r0 h s0 Hrun) as G0.
  destruct (group_spec e s0 t thr (kind_name k) threads whole s1 _ g0 G0 Hh E) as (G1 & _ & g1 & Eg & Hh1 & Hn & _).
  destruct (Hn n eq_refl) as [tot ->].
  destruct (later_asked H t s1 s g1 G1 Hh1 Hl) as (G & g & Hg & Ha). split; [exact G|]. exists g. split; [exact Hg|].
  assert (Ht : 1 <= threads).
  { revert Eg. unfold groupAllLengths. destruct (negb _); [discriminate|]. destruct (Z.leb_spec 1 threads); [auto|discriminate]. }
  destruct g0 as [d0 old]. cbn [gt_data] in *.
  assert (R : ready (N := B64) (RP := founder) d0 rows k whole g).
  { eapply (ready_asked (N := B64)); [|exact Ha]. eapply (ready_grouped (N := B64)); eauto. }
  split; [|exact R]. destruct R as (_ & gss & (Ed & _) & _). exact Ed.
Qed.

Lemma moderate_fin (ratio : D B64) : moderate_ratio ratio -> nfin (N := B64) ratio.
Proof. intros [H0 H1]. apply (nfin_between (N := B64) (nofZ 0) ratio (nofZ 1)); auto; split; reflexivity. Qed.

(** getBestMatch answers whenever there is a subsequence of a length that it looks at, and
    answers with a member of the closest group that is closest to the query. *)
Theorem C34_best_match_partial : forall (H : std_alg) (s : api B64) t k whole d rows qn i st en xs,
  grouped_since H s t k whole d rows -> asks_for s qn i st en xs -> moderate_ratio (a_ratio s) ->
  en - st <= ds_maxcol d ->
  (exists p, searched_place (N := B64) d rows whole (a_ratio s) (en - st) p) ->
  forall e, exists s' c g, exec e (CBest t qn i st en) s = (s', Ret (ACand c)) /\ held s t = Some g /\
    best_of_closest (N := B64) rows k (a_ratio s) xs (searched (N := B64) d whole (a_ratio s) (en - st)) g c.
Proof.
  intros H s t k whole d rows qn i st en xs Hg Hq Hr Hlen Hex e. pose proof Hq as (_ & _ & _ & _ & _ & _ & _ & _ & H2 & _).
  destruct (since_ready H s t k whole d rows Hg ltac:(lia)) as (G & g & Hh & Ed & HR).
  destruct (asks_series s qn i st en xs G Hq) as (q & (gq & Hgq & Eq) & Hmq & Ep & Elen).
  destruct Hg as (_ & _ & _ & _ & _ & _ & _ & _ & _ & _ & _ & _ & Hd & Hm & Hmax & _).
  rewrite <- Elen in Hex, Hlen |- *.
  destruct (ready_best_ieee (RP := founder) k d rows whole g q (a_ratio s) Hd Hm Hmax HR Hmq Hlen Hr Hex) as (g' & c & Eb & Hb).
  rewrite Ep in Hb. destruct (exec e (CBest t qn i st en) s) as [s' r] eqn:E. cbn [exec] in E.
  rewrite (query_series_ok s t qn i st en g gq G Hh Hgq), Eq in E.
  destruct (search_spec s t q (fun g t0 => '(g', c) <- getBestMatch (a_ratio s) g t0 ;; Ret (g', ACand c)) s' r g G Hh E) as (_ & _ & _ & Hf).
  rewrite Eb in Hf. cbn in Hf. destruct Hf as [-> _]. exists s', c, g. auto.
Qed.
Print Assumptions C34_best_match_partial.

(** the lengths that a search looks at *)
Lemma order_near (ratio : D B64) (d : dataset B64) (q : TS B64) : moderate_ratio ratio -> ds_maxcol d <= 2 ^ 26 -> ts_ok q -> 2 <= ts_length q <= ds_maxcol d ->
  exists order, generateTraverseOrder (N := B64) ratio (ts_length q) (ds_maxcol d) = Ret order /\
    forall l, In l order <-> 2 <= l <= ds_maxcol d /\ within_band (N := B64) ratio (ts_length q) l.
Proof.
  intros Hr Hmax Hqo Hql. pose proof (moderate_fin _ Hr) as Fr. pose proof Hr as [Hr0 Hr1].
  destruct (order_ok (N := B64) d ratio Fr Hr0) with (query := q) as (order & Eo & _ & _ & Hin); [| | |lia|exists order; auto].
  - lia.
  - apply ratio_product; auto. unfold int_max. lia.
  - intros h' b b' Hb1 Hb2. apply band_slow_b64; auto. lia.
Qed.

(** a group has members, which are subsequences of its length *)
Lemma group_member d rows k g gss l ms gs : set_q (N := B64) (RP := founder) d rows k g gss -> 0 <= l <= ds_maxcol d -> gss l = Some (ms :: gs) ->
  exists c, is_sub (N := B64) rows l c.
Proof.
  intros (_ & gsr & _ & _ & _ & _ & HL) Hl E. specialize (HL l Hl). rewrite E in HL. destruct HL as [_ (L & _ & HLq)].
  pose proof (lq_cent _ _ _ _ _ HLq) as HF. inversion HF as [|g0 ms' gr gs' [Hne _] HF']. subst ms' gs'.
  destruct ms as [|c ms]; [contradiction|]. exists c. pose proof (lq_subs _ _ _ _ _ HLq) as Hs. cbn in Hs. inversion Hs. assumption.
Qed.

(** C34 is false.  If there is no subsequence of a length that getBestMatch looks at, it
    dereferences a null pointer. *)
Theorem C34_nothing_near_refuted : forall (H : std_alg) (s : api B64) t k whole d rows qn i st en xs,
  grouped_since H s t k whole d rows -> asks_for s qn i st en xs -> moderate_ratio (a_ratio s) ->
  en - st <= ds_maxcol d ->
  ~ (exists p, searched_place (N := B64) d rows whole (a_ratio s) (en - st) p) ->
  forall e, snd (exec e (CBest t qn i st en) s) = UB NullDeref.
Proof.
  intros H s t k whole d rows qn i st en xs Hg Hq Hr Hlen Hno e. pose proof Hq as (_ & _ & _ & _ & _ & _ & _ & _ & H2 & _).
  destruct (since_ready H s t k whole d rows Hg ltac:(lia)) as (G & g & Hh & Ed & Htx & gss & Hset & Hgss & Hcov).
  destruct (asks_series s qn i st en xs G Hq) as (q & (gq & Hgq & Eq) & Hmq & Ep & Elen).
  destruct Hg as (_ & _ & _ & _ & _ & _ & _ & _ & _ & _ & _ & _ & Hd & Hm & Hmax & _).
  rewrite <- Elen in Hno, Hlen. pose proof Hmq as (Hqo & _ & Hq2).
  destruct (order_near (a_ratio s) d q Hr Hmax Hqo ltac:(lia)) as (order & Eo & Hin).
  assert (Eb : getBestMatch (N := B64) (a_ratio s) g q = UB NullDeref).
  { apply (best_none (N := B64) (RP := founder) d rows k (a_ratio s) q order Eo gss g Hset).
    - intros l Hl. apply Hin in Hl. lia.
    - lia.
    - intros l Hl. apply Hin in Hl as [Hl Hb]. destruct (gss l) as [gs|] eqn:Egs; [|auto]. right. f_equal.
      destruct gs as [|ms gs]; [reflexivity|]. exfalso. apply Hno.
      assert (Hgl : grouped_length d whole l) by (apply Hgss; [lia|congruence]).
      destruct (group_member d rows k g gss l ms gs Hset ltac:(lia) Egs) as [c Hc]. exists (l, c). split; [split; auto|exact Hc]. }
  destruct (exec e (CBest t qn i st en) s) as [s' r] eqn:E. cbn [exec] in E.
  rewrite (query_series_ok s t qn i st en g gq G Hh Hgq), Eq in E.
  destruct (search_spec s t q (fun g t0 => '(g', c) <- getBestMatch (a_ratio s) g t0 ;; Ret (g', ACand c)) s' r g G Hh E) as (_ & _ & _ & Hf).
  rewrite Eb in Hf. cbn in Hf. exact Hf.
Qed.
Print Assumptions C34_nothing_near_refuted.

(** A query with more points than the longest series of the grouped data set takes both
    searches out of defined behaviour (or they do not end). *)
Theorem C34_long_query_refuted : forall (H : std_alg) (s : api B64) t k whole d rows qn i st en xs,
  grouped_since H s t k whole d rows -> asks_for s qn i st en xs -> 1 <= ds_maxcol d < en - st ->
  forall e, ~ ends (snd (exec e (CBest t qn i st en) s)) /\
    forall K ke, K <= ke -> ~ ends (snd (exec e (CKBest K ke t qn i st en) s)).
Proof.
  intros H s t k whole d rows qn i st en xs Hg Hq Hlen e.
  destruct (since_ready H s t k whole d rows Hg ltac:(lia)) as (G & g & Hh & Ed & Htx & gss & Hset & _).
  destruct (asks_series s qn i st en xs G Hq) as (q & (gq & Hgq & Eq) & (_ & _ & Hq2) & Ep & Elen).
  destruct Hset as (_ & gs & Egs & _ & _ & Hl & _).
  split.
  - pose proof (best_beyond (N := B64) (a_ratio s) g gs q Egs ltac:(lia) ltac:(lia)) as Hb.
    destruct (exec e (CBest t qn i st en) s) as [s' r] eqn:E. cbn [exec] in E.
    rewrite (query_series_ok s t qn i st en g gq G Hh Hgq), Eq in E.
    destruct (search_spec s t q (fun g t0 => '(g', c) <- getBestMatch (a_ratio s) g t0 ;; Ret (g', ACand c)) s' r g G Hh E) as (_ & _ & _ & Hf).
    destruct (getBestMatch (a_ratio s) g q) as [[? ?]| | |]; cbn in Hf, Hb; try (exfalso; exact (Hb I)); subst r; exact Hb.
  - intros K ke HK. pose proof (kbest_beyond (N := B64) (e_alg e) (a_ratio s) g gs q K ke Egs HK ltac:(lia)) as Hb.
    destruct (exec e (CKBest K ke t qn i st en) s) as [s' r] eqn:E. cbn [exec] in E.
    rewrite (query_series_ok s t qn i st en g gq G Hh Hgq), Eq in E.
    destruct (search_spec s t q (fun g t0 => '(g', cs) <- getKBestMatches (e_alg e) (a_ratio s) g t0 K ke ;; Ret (g', ACands cs)) s' r g G Hh E) as (_ & _ & _ & Hf).
    destruct (getKBestMatches (e_alg e) (a_ratio s) g q K ke) as [[? ?]| | |]; cbn in Hf, Hb; try (exfalso; exact (Hb I)); subst r; exact Hb.
Qed.
Print Assumptions C34_long_query_refuted.

(** Examining no subsequences reads the front of an empty queue. *)
Theorem C34_nothing_examined_refuted : forall (H : std_alg) (s : api B64) t k whole d rows qn i st en xs,
  grouped_since H s t k whole d rows -> asks_for s qn i st en xs -> moderate_ratio (a_ratio s) ->
  en - st <= ds_maxcol d ->
  (exists p, searched_place (N := B64) d rows whole (a_ratio s) (en - st) p) ->
  forall e K ke, K <= ke <= 0 -> snd (exec e (CKBest K ke t qn i st en) s) = UB EmptyFront.
Proof.
  intros H s t k whole d rows qn i st en xs Hg Hq Hr Hlen Hex e K ke HK. pose proof Hq as (_ & _ & _ & _ & _ & _ & _ & _ & H2 & _).
  destruct (since_ready H s t k whole d rows Hg ltac:(lia)) as (G & g & Hh & Ed & Htx & gss & Hset & Hgss & Hcov).
  destruct (asks_series s qn i st en xs G Hq) as (q & (gq & Hgq & Eq) & Hmq & Ep & Elen).
  destruct Hg as (_ & _ & _ & _ & _ & _ & _ & _ & _ & _ & _ & _ & Hd & Hm & Hmax & _).
  rewrite <- Elen in Hex, Hlen. pose proof Hmq as (Hqo & _ & Hq2).
  destruct (order_near (a_ratio s) d q Hr Hmax Hqo ltac:(lia)) as (order & Eo & Hin).
  assert (Eb : getKBestMatches (N := B64) (e_alg e) (a_ratio s) g q K ke = UB EmptyFront).
  { apply (kbest_stuck (N := B64) (RP := founder) d rows k (a_ratio s) q order Eo gss g Hset).
    - intros l Hl. apply Hin in Hl. lia.
    - exact HK.
    - destruct Hex as [[l c] [[Hgl Hb] Hc]]. cbn [fst snd] in *.
      assert (Hl : 2 <= l <= ds_maxcol d) by (revert Hgl; unfold grouped_length; destruct whole; lia).
      destruct (gss l) as [gs|] eqn:Egs; [|destruct (proj2 (Hgss l ltac:(lia)) Hgl Egs)].
      exists l, gs. split; [apply Hin; auto|]. split; [exact Egs|]. intros ->. destruct (Hcov l [] c ltac:(lia) Egs Hc). }
  destruct (exec e (CKBest K ke t qn i st en) s) as [s' r] eqn:E. cbn [exec] in E.
  rewrite (query_series_ok s t qn i st en g gq G Hh Hgq), Eq in E.
  destruct (search_spec s t q (fun g t0 => '(g', cs) <- getKBestMatches (e_alg e) (a_ratio s) g t0 K ke ;; Ret (g', ACands cs)) s' r g G Hh E) as (_ & _ & _ & Hf).
  rewrite Eb in Hf. cbn in Hf. exact Hf.
Qed.
Print Assumptions C34_nothing_examined_refuted.

(** getKBestMatches answers with entries for the best of the subsequences it considered
    ([k_answer], as in C24 and C25). *)
Theorem C34_k_best_partial : forall (H : std_alg) (s : api B64) t k whole d rows qn i st en xs,
  std_ok H -> grouped_since H s t k whole d rows -> asks_for s qn i st en xs -> moderate_ratio (a_ratio s) ->
  en - st <= ds_maxcol d ->
  no_near_ties (N := B64) rows k (a_ratio s) xs (searched_place (N := B64) d rows whole (a_ratio s) (en - st)) ->
  forall e K ke, e_alg e = H -> 1 <= K <= ke ->
  exists s' C real g, exec e (CKBest K ke t qn i st en) s = (s', Ret (ACands (real ++ repeat cand_default (Z.to_nat K - length C)))) /\
    held s t = Some g /\
    considered (N := B64) rows k (a_ratio s) xs (searched (N := B64) d whole (a_ratio s) (en - st))
      (searched_place (N := B64) d rows whole (a_ratio s) (en - st)) g ke C /\
    best_matches (N := B64) rows k (a_ratio s) xs (fun p => In p C) K real /\ ascending real /\
    Z.of_nat (length real) = Z.min K (Z.of_nat (length C)).
Proof.
  intros H s t k whole d rows qn i st en xs Hok Hg Hq Hr Hlen Hties e K ke EH HK. pose proof Hq as (_ & _ & _ & _ & _ & _ & _ & _ & H2 & _).
  destruct (since_ready H s t k whole d rows Hg ltac:(lia)) as (G & g & Hh & Ed & HR).
  destruct (asks_series s qn i st en xs G Hq) as (q & (gq & Hgq & Eq) & Hmq & Ep & Elen).
  destruct Hg as (_ & _ & _ & _ & _ & _ & _ & _ & _ & _ & _ & _ & Hd & Hm & Hmax & _).
  rewrite <- Elen, <- Ep in Hties. rewrite <- Elen in Hlen.
  destruct (ready_k_ieee (RP := founder) H k d rows whole g q (a_ratio s) K ke Hok Hd Hm Hmax HR Hmq Hlen Hr HK Hties)
    as (g' & C & real & Eb & Hc & Hbm & Ha & Hl).
  rewrite Elen, Ep in *.
  destruct (exec e (CKBest K ke t qn i st en) s) as [s' r] eqn:E. cbn [exec] in E.
  rewrite (query_series_ok s t qn i st en g gq G Hh Hgq), Eq in E.
  destruct (search_spec s t q (fun g t0 => '(g', cs) <- getKBestMatches (e_alg e) (a_ratio s) g t0 K ke ;; Ret (g', ACands cs)) s' r g G Hh E) as (_ & _ & _ & Hf).
  rewrite EH, Eb in Hf. cbn in Hf. destruct Hf as [-> _]. exists s', C, real, g. auto 8.
Qed.
Print Assumptions C34_k_best_partial.

(** The exhaustive search answers with the best subsequences. *)
Theorem C34_brute_force_partial : forall (r0 : D B64) h (s : api B64) t g rows qn i st en xs k K e,
  @run B64 r0 h s -> held s t = Some g -> holds (gt_data g) rows -> moderate_data rows ->
  asks_for s qn i st en xs -> moderate_ratio (a_ratio s) -> std_ok (e_alg e) -> 1 <= K ->
  no_near_ties (N := B64) rows k (a_ratio s) xs (long_enough rows) ->
  exists best, exec e (CBrute K t qn i st en (kind_name k)) s = (s, Ret (ACands best)) /\
    best_matches (N := B64) rows k (a_ratio s) xs (long_enough rows) K best /\ ascending best.
Proof.
  intros r0 h s t g rows qn i st en xs k K e Hrun Hh Hd Hm Hq Hr Hok HK Ht. pose proof (run_good r0 h s Hrun) as G.
  destruct (asks_series s qn i st en xs G Hq) as (q & (gq & Hgq & Eq) & Hmq & Ep & Elen). rewrite <- Ep in *.
  destruct (C26_brute_force_exact_ieee (e_alg e) k (gt_data g) rows q (a_ratio s) K Hok Hd Hm Hmq Hr HK Ht) as (best & E & Hb & Ha).
  exists best. split; [|auto]. cbn [exec]. rewrite (query_series_ok s t qn i st en g gq G Hh Hgq), Eq. unfold pure. cbn [bind].
  destruct (held_find s t g G Hh) as (id & _ & _ & Fs). rewrite Fs. cbn [bind]. rewrite E. reflexivity.
Qed.
Print Assumptions C34_brute_force_partial.

(** Wrong arguments raise the library's exception and leave everything as it is: a query
    series that does not exist, a data set that is not grouped, a query of one point, more
    results wanted than examined. *)
Theorem C34_bad_arguments_partial : forall (N : Num) (r0 : D N) h (s : api N) t gt qn gq qrows i st en, run r0 h s ->
  held s t = Some gt -> held s qn = Some gq -> holds (gt_data gq) qrows ->
  (forall e, ~ (exists row, row_of qrows i = Some row /\ ((st < 0 /\ en < 0) \/ (0 <= st < en /\ en <= Z.of_nat (length row)))) ->
     forall c, (c = CBest t qn i st en \/ (exists K ke, c = CKBest K ke t qn i st en) \/ (exists K dist, c = CBrute K t qn i st en dist) \/
                c = CSeries qn i st en) ->
     exists s' m, exec e c s = (s', Throw (GenexExc m)) /\ forall n, held s' n = held s n) /\
  (forall e row, row_of qrows i = Some row -> 0 <= st < en -> en <= Z.of_nat (length row) ->
     (gt_groups gt = None -> exists s' m, exec e (CBest t qn i st en) s = (s', Throw (GenexExc m)) /\ forall n, held s' n = held s n) /\
     (en - st = 1 -> exists s' m, exec e (CBest t qn i st en) s = (s', Throw (GenexExc m)) /\ forall n, held s' n = held s n) /\
     (forall K ke, gt_groups gt = None \/ ke < K ->
        exists s' m, exec e (CKBest K ke t qn i st en) s = (s', Throw (GenexExc m)) /\ forall n, held s' n = held s n) /\
     (forall K dist, K <= 0 -> exists m, exec e (CBrute K t qn i st en dist) s = (s, Throw (GenexExc m)))).
Proof.
  intros N r0 h s t gt qn gq qrows i st en Hrun Ht Hq Hd. pose proof (run_good r0 h s Hrun) as G.
  destruct (held_find s qn gq G Hq) as (idq & _ & _ & Fq). destruct (held_find s t gt G Ht) as (idt & _ & _ & Ft).
  split.
  - intros e Hbad c Hc.
    assert (E : exists m, getTimeSeries (gt_data gq) i st en = Throw (GenexExc m)).
    { eapply getTimeSeries_bad; [exact Hd|]. destruct (row_of qrows i) as [row|] eqn:Er; [|auto]. right. exists row. split; [reflexivity|].
      split; intros Hx; apply Hbad; exists row; auto. }
    destruct E as [m E].
    assert (Qs : query_series s t qn i st en = Throw (GenexExc m)) by (rewrite (query_series_ok s t qn i st en gt gq G Ht Hq); exact E).
    exists s, m. split; [|auto]. destruct Hc as [->|[(K & ke & ->)|[(K & dist & ->)| ->]]]; cbn [exec]; unfold pure; try (rewrite Qs; reflexivity).
    rewrite Fq. cbn [bind]. rewrite E. reflexivity.
  - intros e row Er Hse Hen. destruct (getTimeSeries_ok (gt_data gq) qrows i st en row Hd Er Hse Hen) as (q & Eq & _ & _ & _ & _ & Elen).
    assert (Qs : query_series s t qn i st en = Ret q) by (rewrite (query_series_ok s t qn i st en gt gq G Ht Hq); exact Eq).
    assert (Best : forall m, getBestMatch (a_ratio s) gt q = Throw (GenexExc m) ->
      exists s' m, exec e (CBest t qn i st en) s = (s', Throw (GenexExc m)) /\ forall n, held s' n = held s n).
    { intros m Em. destruct (exec e (CBest t qn i st en) s) as [s' r] eqn:E. cbn [exec] in E. rewrite Qs in E.
      destruct (search_spec s t q (fun g t0 => '(g', c) <- getBestMatch (a_ratio s) g t0 ;; Ret (g', ACand c)) s' r gt G Ht E) as (_ & Ho & _ & Hf).
      rewrite Em in Hf. cbn in Hf. destruct Hf as [-> Hh]. exists s', m. split; [reflexivity|]. intros n.
      destruct (string_dec n t) as [->|Hne]; [congruence|auto]. }
    assert (KBest : forall K ke m, getKBestMatches (e_alg e) (a_ratio s) gt q K ke = Throw (GenexExc m) ->
      exists s' m, exec e (CKBest K ke t qn i st en) s = (s', Throw (GenexExc m)) /\ forall n, held s' n = held s n).
    { intros K ke m Em. destruct (exec e (CKBest K ke t qn i st en) s) as [s' r] eqn:E. cbn [exec] in E. rewrite Qs in E.
      destruct (search_spec s t q (fun g t0 => '(g', cs) <- getKBestMatches (e_alg e) (a_ratio s) g t0 K ke ;; Ret (g', ACands cs)) s' r gt G Ht E) as (_ & Ho & _ & Hf).
      rewrite Em in Hf. cbn in Hf. destruct Hf as [-> Hh]. exists s', m. split; [reflexivity|]. intros n.
      destruct (string_dec n t) as [->|Hne]; [congruence|auto]. }
    split; [|split; [|split]].
    + intros Hg. eapply Best. unfold getBestMatch. rewrite Hg. reflexivity.
    + intros H1. destruct (gt_groups gt) as [gs|] eqn:Hg.
      * eapply Best. unfold getBestMatch. rewrite Hg. unfold gg_getBestMatch. destruct (Z.leb_spec (ts_length q) 1); [reflexivity|lia].
      * eapply Best. unfold getBestMatch. rewrite Hg. reflexivity.
    + intros K ke Hx. destruct (gt_groups gt) as [gs|] eqn:Hg.
      * eapply KBest. unfold getKBestMatches. rewrite Hg. destruct Hx as [Hx|Hx]; [discriminate|]. destruct (Z.ltb_spec ke K); [reflexivity|lia].
      * eapply KBest. unfold getKBestMatches. rewrite Hg. reflexivity.
    + intros K dist HK. exists "K must be positive"%string. cbn [exec]. rewrite Qs. unfold pure. cbn [bind]. rewrite Ft. cbn [bind].
      rewrite C26_nonpositive_k_throws by exact HK. reflexivity.
Qed.
Print Assumptions C34_bad_arguments_partial.

(** ** Examples *)
Definition ex_group := fst (exec ex_env (CGroup (N := B64) "x" (b64_ofZ 1) "euclidean" 1 false) ex_s1).

Example C34_example : exists d, grouped_since simple_alg ex_group "x" KEuclidean false d ex_rows /\ ds_maxcol d = 2 /\
  (exists xs, asks_for ex_group "x" 1 0 2 xs) /\ moderate_ratio (a_ratio ex_group) /\
  exists p, searched_place (N := B64) d ex_rows false (a_ratio ex_group) (2 - 0) p.
Proof.
  destruct ex_history as (a1 & _ & _ & _ & H1 & _). destruct ex_held as (d & Hh & Hd & Hm & Hc). exists d.
  destruct (exec ex_env (CGroup (N := B64) "x" (b64_ofZ 1) "euclidean" 1 false) ex_s1) as [s1 r] eqn:E.
  assert (Hr : is_ret r = true) by (replace r with (snd (exec ex_env (CGroup (N := B64) "x" (b64_ofZ 1) "euclidean" 1 false) ex_s1)) by (rewrite E; reflexivity);
    vm_compute; reflexivity).
  destruct r as [n| | |]; try discriminate Hr.
  assert (Eg : ex_group = s1) by (unfold ex_group; rewrite E; reflexivity).
  assert (Hmod : moderate_data ex_rows).
  { intros row [<-|[<-|[<-|[]]]]; (split; [|vm_compute; discriminate]); apply leb64_all; vm_compute; reflexivity. }
  pose proof (run_good _ _ _ H1) as G.
  destruct (group_spec ex_env ex_s1 "x" (b64_ofZ 1) "euclidean" 1 false s1 (Ret n) _ G Hh E) as (G1 & Er & g1 & Eg1 & Hg1 & _).
  pose proof (gg_group_data _ _ _ _ _ _ _ _ _ Eg1) as Ed. cbn in Ed.
  assert (Hratio : moderate_ratio (a_ratio s1)).
  { rewrite Er. replace (a_ratio ex_s1) with (b64_ofZ 1 : D B64) by reflexivity. split; (split; [|split]); vm_compute; reflexivity. }
  rewrite Eg. split; [|split; [exact Hm|split; [|split; [exact Hratio|]]]].
  - exists (b64_ofZ 1), [(ex_load "x", Ret a1)], ex_s1, ex_env, (b64_ofZ 1), 1, s1, n, (mkGS d None). splits; auto.
    + rewrite Hm. lia.
    + intros l Hl. left. reflexivity.
    + constructor.
  - eexists. exists g1, ex_rows, [b64_ofZ 3; b64_ofZ 4]. rewrite Ed. splits; auto; try reflexivity; try lia.
  - exists (2, (0, 0)). split; [split|].
    + cbn. lia.
    + exists 1. split; [|cbn; lia]. replace (a_ratio s1) with (b64_ofZ 1 : D B64) by (rewrite Er; reflexivity). vm_compute. reflexivity.
    + exists [b64_ofZ 1; b64_ofZ 2]. splits; try reflexivity; cbn; lia.
Qed.

(** a second data set of one series of four points, grouped whole, and a band of width 0 *)
Definition ex_both := fst (exec ex_env (CLoad "y" "g" "," 0 0 false) ex_group).
Definition ex_whole := fst (exec ex_env (CGroup (N := B64) "y" (b64_ofZ 1) "euclidean" 1 true) ex_both).
Definition ex_narrow := fst (exec ex_env (CRatio (N := B64) (b64_ofZ 0)) ex_whole).
Example C34_refuted_example :
  after ex_group (CBest "x" "x" 1 0 2) = Done /\
  after ex_group (CKBest 1 1 "x" "x" 1 0 2) = Done /\
  after ex_group (CKBest 0 0 "x" "x" 1 0 2) = Undefined EmptyFront /\
  after ex_both (CBest "x" "y" 0 0 4) = Undefined OutOfBounds /\
  after ex_whole (CBest "y" "y" 0 0 4) = Done /\
  after ex_narrow (CBest "y" "y" 0 0 2) = Undefined NullDeref /\
  after ex_s1 (CBest "x" "x" 1 0 2) = Raised "Dataset is not grouped" /\
  after ex_group (CBest "x" "x" 1 0 1) = Raised "Length of query must be larger than 1".
Proof. vm_compute. auto 9. Qed.
