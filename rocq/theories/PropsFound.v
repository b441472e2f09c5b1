(** C73, continued: in doubles, a subsequence that represents a group is found when it is searched for.
    Specifications: ApiSpec.v, QuerySpec.v, SearchSpec.v and the beginning of PropsSelf.v. *)
From Coq Require Import String Reals Lra.
From Flocq Require Import Core IEEE754.BinarySingleNaN.
From Verif Require Import Base Num NumB64 NumB64Laws NumLaws NumFacts NumXR NumXRLaws LoopFacts TimeSeries Distance DtwSpec DtwReal DistSpec DistLink
  TSSet StdAlg HeapFacts Candidate Group GroupSpace Loader Archive BruteForce PAA DataSpec DataProofs GroupSpec GroupView GroupDist SearchSpec SearchCases
  QuerySpec GapReal DtwResults AccKinds AccPair PropsAccuracy PropsDistance PropsData PropsGroup PropsSearch PropsQuery PropsGuarantee Api ApiSpec ApiProofs ApiQuery PropsLoader PropsApi PropsApiQuery PropsNorm PropsBand PropsZero PropsSelf.
Local Open Scope Z_scope.
Local Open Scope list_scope.

Lemma small_n : (0 < 1 / IZR (2 ^ 400))%R /\ (5 * (1 / IZR (2 ^ 400)) <= 1 / IZR (2 ^ 397))%R.
Proof.
  assert (P : forall m, 0 <= m -> (0 < IZR (2 ^ m))%R) by (intros m Hm; apply (IZR_lt 0); apply Z.pow_pos_nonneg; lia).
  pose proof (P 397 ltac:(lia)) as P1. replace (2 ^ 400) with (8 * 2 ^ 397) by reflexivity. rewrite mult_IZR.
  assert (Hq : (1 / (8 * IZR (2 ^ 397)) = / 8 * (1 / IZR (2 ^ 397)))%R) by (field; lra).
  assert (Q : (0 < 1 / IZR (2 ^ 397))%R) by (apply Rdiv_lt_0_compat; lra).
  rewrite Hq. set (x := (1 / IZR (2 ^ 397))%R) in *. clearbody x. lra.
Qed.

(** The answer's distance is zero up to 2^-397: the distances of the query to the representative and of
    the representative to the query need not be the same (C90), and squares of very small differences vanish. *)
Theorem C73_representative_ieee_partial : forall (r0 : D B64) h s0 (e : env B64) (thr : D B64) threads s1 n g0 t d rows k whole (H : std_alg) s g qn i st en xs p v,
  @run B64 r0 h s0 -> held s0 t = Some g0 -> gt_data g0 = d -> holds d rows -> moderate_data rows -> ds_maxcol d <= 2 ^ 26 ->
  nltb (n := B64) (ndiv (n := B64) thr (nofZ 2)) ninf = true -> log_safe d (e_clock e) ->
  exec e (CGroup t thr (kind_name k) threads whole) s0 = (s1, Ret n) -> later H t s1 s ->
  asks_for s qn i st en xs -> occurs_at rows xs p -> grouped_length d whole (fst p) -> moderate_ratio (a_ratio s) ->
  held s t = Some g -> group_in g (fst p) v -> v_rep v = snd p ->
  forall e', exists s' c, exec e' (CBest t qn i st en) s = (s', Ret (ACand c)) /\
    true_match (N := B64) rows k (a_ratio s) xs c /\
    is_finite (c_dist c : b64) = true /\ (B2R (c_dist c : b64) <= 1 / IZR (2 ^ 397))%R.
Proof.
  intros r0 h s0 e thr threads s1 n g0 t d rows k whole H s g qn i st en xs p v Hrun Hh Ed Hd Hm Hmax Hinf Hlog E Hl Hq Hp Hgl Hr Hg Hv Hrep e'.
  pose proof (run_good r0 h s0 Hrun) as G0.
  destruct (group_spec e s0 t thr (kind_name k) threads whole s1 _ g0 G0 Hh E) as (G1 & _ & g1 & Eg & Hh1 & Hn & _).
  destruct (Hn n eq_refl) as [tot ->].
  destruct (later_asked H t s1 s g1 G1 Hh1 Hl) as (G & g2 & Hg2 & Ha). rewrite Hg in Hg2. injection Hg2 as <-.
  assert (Ht : 1 <= threads).
  { revert Eg. unfold groupAllLengths. destruct (negb _); [discriminate|]. destruct (Z.leb_spec 1 threads); [auto|discriminate]. }
  destruct g0 as [d0 old]. cbn [gt_data] in Ed. subst d0.
  destruct (asks_series s qn i st en xs G Hq) as (q & (gq & Hgq & Eq) & Hmq & Ep & Elen). rewrite <- Ep in *.
  pose proof Hp as [[Hl2 Hsub] Epv].
  assert (Lq : Z.of_nat (length (ts_points q)) = ts_length q) by (apply (DtwPaths.ts_points_length (N := B64)), Hmq).
  assert (Lp : ts_length q = fst p) by (rewrite <- (place_len rows p ltac:(lia) Hsub), Epv; symmetry; exact Lq).
  assert (Hle : fst p <= ds_maxcol d) by (revert Hgl; unfold grouped_length; destruct whole; lia).
  destruct (searchable_moderate k rows (a_ratio s) q (fun p' => p' = p) Hm Hmq Hr) with (p := p) as (r & Hio); [intros p' ->; auto|reflexivity|].
  assert (Hb : band (N := B64) (a_ratio s) (fst p) = Ret r).
  { pose proof (io_band _ _ _ _ _ Hio) as Hb. rewrite Epv in Hb. cbn [ts_of_list ts_length] in Hb.
    change (Z.of_nat (length (ts_points q))) with (Z.of_nat (length (ts_points q))) in Hb.
    rewrite Lq, Z.max_id, Lp in Hb. exact Hb. }
  assert (Hsl : searched (N := B64) d whole (a_ratio s) (ts_length q) (fst p)).
  { split; [exact Hgl|]. exists r. rewrite Lp, Z.max_id. split; [exact Hb|]. pose proof (io_r _ _ _ _ _ Hio). lia. }
  assert (Hsp : searched_place (N := B64) d rows whole (a_ratio s) (ts_length q) p) by (split; [exact Hsl|exact Hsub]).
  destruct (C23_best_match_ieee H k d rows old (e_clock e) (a_ratio s0) thr threads whole g1 tot g q (a_ratio s) Hd Hm Hinf Ht Hlog Hmax Eg Ha Hmq ltac:(lia) Hr (ex_intro _ p Hsp))
    as (g' & c & Eb & Htm & l0 & v0 & x0 & Hl0 & Hv0 & Hx0 & Elc & _ & Hclo & Hbest).
  destruct (C17_group_radius k d rows old (e_clock e) (a_ratio s0) thr threads whole Hd Hinf ltac:(lia) Ht Hlog) as (g3 & total3 & E3 & Hrad).
  rewrite Eg in E3. injection E3 as <- _.
  pose proof (proj1 Hl0) as Hg0. destruct (Hrad l0 Hg0) as (vs0 & V1 & V2 & _).
  assert (V1' : level_view g l0 = Some (Ret vs0)).
  { rewrite <- V1. apply (asked_views (N := B64) d rows H old (e_clock e) (a_ratio s0) k thr threads whole g1 tot g); auto; lia. }
  destruct Hv0 as (vs0' & V1'' & Hin0). rewrite V1' in V1''. injection V1'' as <-.
  assert (Hl02 : 2 <= l0 <= ds_maxcol d) by (revert Hg0; unfold grouped_length; destruct whole; lia).
  destruct V2 as (_ & P2 & P3). destruct (P3 v0 Hin0) as (Q1 & _ & Q2).
  assert (Hr0 : In (v_rep v0) (v_members v0)).
  { rewrite Q2. destruct (exists_last Q1) as (i0 & a & ->). rewrite last_last. apply in_or_app. right. left. reflexivity. }
  assert (Hs0 : is_sub rows l0 (v_rep v0)).
  { apply P2. apply in_concat. exists (v_members v0). split; auto. apply in_map. auto. }
  destruct (self_zero k rows q (a_ratio s) p Hm Hmq Hr Hp) as (z & Ez & Hz).
  assert (Hx : @nle B64 x0 n0).
  { eapply (nle_trans (N := B64)); [|apply Hz]. apply (Hclo (fst p) v); [exact Hsl|exact Hv|]. unfold group_dist. rewrite Hrep, <- surjective_pairing.
    rewrite Epv in Ez |- *. exact Ez. }
  assert (Hval : forall m, is_sub rows l0 m -> exists d1 d2 x, (0 <= x)%R /\
     dtw_of (N := B64) k (a_ratio s) (ts_points q) (place_values rows (l0, m)) = Ret d1 /\
     dtw_of (N := B64) k (a_ratio s) (place_values rows (l0, m)) (ts_points q) = Ret d2 /\
     let f := (IZR (ds_maxcol d) / IZR (2 ^ 44))%R in let n := (1 / IZR (2 ^ 400))%R in
     (is_finite (d1 : b64) = true /\ (B2R (d1 : b64) <= x * (1 + f) + n)%R) /\
     (is_finite (d2 : b64) = true /\ (x * (1 - f) - n <= B2R (d2 : b64))%R)).
  { intros m Hsm. pose proof (place_len rows (l0, m) ltac:(cbn; lia) Hsm) as Lm. cbn [fst] in Lm.
    destruct (searchable_moderate k rows (a_ratio s) q (fun p => p = (l0, m)) Hm Hmq Hr) with (p := (l0, m)) as (r' & Hok).
    { intros p' ->. split; [cbn; lia|exact Hsm]. } { reflexivity. }
    destruct Hl0 as (_ & r1 & Er & Hab).
    assert (Er' : r' = r1).
    { pose proof (io_band _ _ _ _ _ Hok) as Eb'.
      change (ts_length (ts_of_list (N := B64) (ts_points q))) with (Z.of_nat (length (ts_points q))) in Eb'.
      change (ts_length (ts_of_list (N := B64) (place_values rows (l0, m)))) with (Z.of_nat (length (place_values rows (l0, m)))) in Eb'.
      rewrite Lq, Lm, Z.max_comm in Eb'. rewrite Er in Eb'. injection Eb' as ->. reflexivity. }
    subst r'. destruct (both_near k (a_ratio s) (ts_points q) (place_values rows (l0, m)) r1 Hok) as (pp & d1 & d2 & _ & _ & _ & D1 & A1 & D2 & A2).
    { rewrite Lq, Lm. lia. }
    rewrite Lq, Lm in A1, A2.
    pose proof (cost_pos k (map (fun x : b64 => B2R x) (ts_points q)) (map (fun x : b64 => B2R x) (place_values rows (l0, m))) pp) as PP.
    exists d1, d2. eexists. split; [exact PP|]. split; [exact D1|]. split; [exact D2|]. cbv zeta. split.
    - destruct (agrees_within (ts_length q + l0) (ds_maxcol d) d1 _ ltac:(lia) PP A1) as (F1 & F2 & _). split; [exact F1|exact F2].
    - destruct (agrees_within (ts_length q + l0) (ds_maxcol d) d2 _ ltac:(lia) PP A2) as (F1 & _ & F2). split; [exact F1|exact F2]. }
  destruct (Hval _ Hs0) as (w1 & w2 & x & X0 & W1 & W2 & (Fw1 & Uw1) & (Fw2 & Lw2)).
  pose proof (Hbest _ _ Hr0 W1) as Hle0. unfold group_dist in Hx0. pose proof (eq_trans (eq_sym W2) Hx0) as Hx1. injection Hx1 as <-.
  pose proof Htm as (Ts & Tp & Td). rewrite Tp in Td. destruct (place_of c) as [lc mc] eqn:Ec. cbn [fst snd] in *. subst lc.
  destruct (Hval mc Ts) as (dd & _ & _ & _ & Dd & _ & (Fd & _) & _).
  pose proof (eq_trans (eq_sym Dd) Td) as Td'. injection Td' as Td'. rewrite Td' in Fd. clear Dd.
  pose proof (nle_reals _ _ Fd Fw1 Hle0) as Hle1.
  assert (Fz : is_finite (b64_ofZ 0) = true) by reflexivity.
  pose proof (nle_reals _ (b64_ofZ 0) Fw2 Fz Hx) as Hle2.
  assert (Z0 : AccKinds.bval (b64_ofZ 0) = 0%R) by reflexivity.
  destruct (exec e' (CBest t qn i st en) s) as [s' rr] eqn:Ex. cbn [exec] in Ex.
  rewrite (query_series_ok s t qn i st en g gq G Hg Hgq), Eq in Ex.
  destruct (search_spec s t q (fun g t0 => '(g', c) <- getBestMatch (a_ratio s) g t0 ;; Ret (g', ACand c)) s' rr g G Hg Ex) as (_ & _ & _ & Hf).
  rewrite Eb in Hf. cbn in Hf. destruct Hf as [-> _]. exists s', c. split; [reflexivity|]. split; [exact Htm|]. split; [exact Fd|].
  destruct small_n as [N1 N2].
  assert (Hf : (0 <= IZR (ds_maxcol d) / IZR (2 ^ 44) <= 1 / 4)%R).
  { assert (P : (0 < IZR (2 ^ 44))%R) by (apply (IZR_lt 0); reflexivity). split.
    - apply Rmult_le_pos; [apply (IZR_le 0); lia|left; apply Rinv_0_lt_compat; exact P].
    - apply Rmult_le_reg_r with (IZR (2 ^ 44)); [exact P|]. replace (IZR (ds_maxcol d) / IZR (2 ^ 44) * IZR (2 ^ 44))%R with (IZR (ds_maxcol d)) by (field; lra).
      apply Rle_trans with (IZR (2 ^ 26)); [apply IZR_le; lia|]. cbn. lra. }
  change (B2R (c_dist c : b64) <= B2R (w1 : b64))%R in Hle1. change (B2R (w2 : b64) <= 0)%R in Hle2.
  revert Uw1 Lw2 N1 N2 Hf Hle1 Hle2 X0. clear. generalize (B2R (c_dist c : b64)) (B2R (w1 : b64)) (B2R (w2 : b64)) (IZR (ds_maxcol d) / IZR (2 ^ 44))%R (1 / IZR (2 ^ 400))%R (1 / IZR (2 ^ 397))%R.
  intros dc a1 a2 f n n' U L N1 N2 Hf H1 H2 X0.
  assert (A : (x * f <= x * (1 / 4))%R) by (apply Rmult_le_compat_l; lra). lra.
Qed.
Print Assumptions C73_representative_ieee_partial.

(** three series, 1 2, 3 4 and 5 6, grouped with the threshold 1: one of them represents the group of the second *)
Example C73_representative_ieee_example : exists h d s1 n g1 i xs v,
  @run B64 (b64_ofZ 1) h ex_s1 /\ held ex_s1 "x" = Some (mkGS d None) /\ holds d ex_rows /\ moderate_data ex_rows /\ ds_maxcol d <= 2 ^ 26 /\
  nltb (n := B64) (ndiv (n := B64) (b64_ofZ 1) (nofZ 2)) ninf = true /\ log_safe d (e_clock ex_env) /\
  exec ex_env (CGroup (N := B64) "x" (b64_ofZ 1) (kind_name KManhattan) 1 false) ex_s1 = (s1, Ret n) /\
  asks_for s1 "x" i 0 2 xs /\ occurs_at (N := B64) ex_rows xs (2, (i, 0)) /\ grouped_length d false 2 /\ moderate_ratio (a_ratio s1) /\
  held s1 "x" = Some g1 /\ group_in g1 2 v /\ v_rep v = (i, 0).
Proof.
  destruct ex_history as (a1 & _ & _ & _ & H1 & _). destruct ex_held as (d & Hh & Hd & Hm & Hc).
  destruct (exec ex_env (CGroup (N := B64) "x" (b64_ofZ 1) (kind_name KManhattan) 1 false) ex_s1) as [s1 r] eqn:E.
  assert (Hr : is_ret r = true) by (replace r with (snd (exec ex_env (CGroup (N := B64) "x" (b64_ofZ 1) (kind_name KManhattan) 1 false) ex_s1)) by (rewrite E; reflexivity);
    vm_compute; reflexivity).
  destruct r as [n| | |]; try discriminate Hr. 
  assert (Hmod : moderate_data ex_rows).
  { intros row [<-|[<-|[<-|[]]]]; (split; [|vm_compute; discriminate]); apply leb64_all; vm_compute; reflexivity. }
  pose proof (run_good _ _ _ H1) as G.
  destruct (group_spec ex_env ex_s1 "x" (b64_ofZ 1) (kind_name KManhattan) 1 false s1 (Ret n) _ G Hh E) as (G1 & Er & g1 & Eg1 & Hg1 & Hn & _).
  pose proof (gg_group_data _ _ _ _ _ _ _ _ _ Eg1) as Ed. cbn in Ed. destruct (Hn n eq_refl) as [tot ->].
  assert (Er1 : a_ratio ex_s1 = (b64_ofZ 1 : D B64)) by reflexivity.
  assert (Hratio : moderate_ratio (a_ratio ex_s1)) by (rewrite Er1; split; (split; [|split]); vm_compute; reflexivity).
  assert (Hlog : log_safe d (e_clock ex_env)) by (intros l Hl; left; reflexivity).
  assert (Hinf : nltb (n := B64) (ndiv (n := B64) (b64_ofZ 1) (nofZ 2)) ninf = true) by (vm_compute; reflexivity).
  assert (Hgl : grouped_length d false 2) by (cbn; lia).
  destruct (C17_group_radius KManhattan d ex_rows None (e_clock ex_env) (a_ratio ex_s1) (b64_ofZ 1) 1 false Hd Hinf ltac:(lia) ltac:(lia) Hlog) as (g3 & tot3 & E3 & Hrad).
  rewrite E3 in Eg1. injection Eg1 as -> _. destruct (Hrad 2 Hgl) as (vs & V1 & (_ & P2 & P3) & _).
  assert (S0 : is_sub ex_rows 2 (1, 0)) by (eexists; split; [reflexivity|cbn; lia]).
  apply P2 in S0. apply in_concat in S0 as (ms & M1 & M2). apply in_map_iff in M1 as (v & <- & Hv).
  destruct (P3 v Hv) as (Q1 & _ & Q2).
  assert (Hrp : In (v_rep v) (v_members v)).
  { rewrite Q2. destruct (exists_last Q1) as (i & a & ->). rewrite last_last. apply in_or_app. right. left. reflexivity. }
  assert (Hs : is_sub ex_rows 2 (v_rep v)) by (apply P2, in_concat; exists (v_members v); split; [apply in_map; exact Hv|exact Hrp]).
  destruct Hs as (row & Hrow & Hs). destruct (v_rep v) as [i st] eqn:Ev. cbn [fst snd] in *.
  pose proof (row_of_Some _ _ _ Hrow) as [Hi Hnth]. pose proof (nth_error_In _ _ Hnth) as Hin.
  assert (Hlen : Z.of_nat (length row) = 2) by (destruct Hin as [<-|[<-|[<-|[]]]]; reflexivity).
  assert (st = 0) by lia. subst st.
  assert (Esl : slice row 0 2 = row) by (destruct Hin as [<-|[<-|[<-|[]]]]; reflexivity).
  exists [(ex_load "x", Ret a1)], d, s1, (AInt tot), g1, i, row, v.
  split; [exact H1|]. split; [exact Hh|]. split; [exact Hd|]. split; [exact Hmod|]. split; [lia|]. split; [exact Hinf|]. split; [exact Hlog|]. split; [reflexivity|].
  split.
  { exists g1, ex_rows, row. rewrite Ed. split; [exact Hg1|]. split; [exact Hd|]. split; [exact Hmod|]. split; [exact Hrow|]. split; [lia|]. split; [lia|]. split; [lia|]. symmetry. exact Esl. }
  split.
  { split; [split; [cbn; lia|]; exists row; split; [exact Hrow|cbn [fst snd]; lia]|]. unfold place_values, sub_values. cbn [fst snd]. rewrite Hrow. exact Esl. }
  split; [exact Hgl|]. split; [rewrite Er; exact Hratio|]. split; [exact Hg1|]. split; [exists vs; split; assumption|exact Ev].
Qed.
