(** Queries that run into undefined behaviour. *)
From Verif Require Import Base Num NumLaws LoopFacts TimeSeries Distance TSSet StdAlg Candidate Group GroupSpace
  DistSpec DataSpec DataProofs GroupSpec GroupView Members GroupProofs GroupAll SearchSpec QueryState Traverse QuerySpec QueryProofs ApiSpec.
Local Open Scope Z_scope.
Local Open Scope list_scope.

(** ** queries longer than the longest series *)
Section Long.
Context {N : Num}.
Notation D := (D N).

Lemma traverse_head (ratio : D) q total : forall fuel low high ls hs order rest,
  order = q :: rest -> 
  match traverse_loop ratio q total fuel low high ls hs order with
  | Ret o => exists r, o = q :: r
  | Throw _ => False
  | _ => True
  end.
Proof.
  assert (Hb : forall l, match band ratio l with Throw _ => False | _ => True end).
  { intros l. unfold band. destruct (nfloor _) as [b|]; auto. destruct (_ && _); auto. }
  induction fuel as [|fuel IH]; intros low high ls hs order rest Ho; cbn [traverse_loop].
  - destruct (ls && hs); [eauto|exact I].
  - destruct (ls && hs); [eauto|]. pose proof (Hb q) as Hbq. pose proof (Hb high) as Hbh.
    destruct (negb (ls || (low <? 2))).
    + destruct (band ratio q) as [r| | |]; cbn; auto.
      destruct (q <=? low + r); cbn.
      * destruct (negb (hs || (total <? high))).
        -- destruct (band ratio high) as [r'| | |]; cbn; auto. destruct (high <=? q + r'); cbn;
             (eapply IH; rewrite Ho; reflexivity).
        -- cbn. eapply IH; rewrite Ho; reflexivity.
      * destruct (negb (hs || (total <? high))).
        -- destruct (band ratio high) as [r'| | |]; cbn; auto. destruct (high <=? q + r'); cbn;
             (eapply IH; rewrite Ho; reflexivity).
        -- cbn. eapply IH; rewrite Ho; reflexivity.
    + cbn. destruct (negb (hs || (total <? high))).
      * destruct (band ratio high) as [r'| | |]; cbn; auto. destruct (high <=? q + r'); cbn;
          (eapply IH; rewrite Ho; reflexivity).
      * cbn. eapply IH; rewrite Ho; reflexivity.
Qed.

Lemma aget_beyond {A} (l : list A) i : Z.of_nat (length l) <= i -> aget l i = UB OutOfBounds.
Proof.
  intros Hi. unfold aget. destruct (Z.leb_spec 0 i); [|reflexivity].
  rewrite (proj2 (nth_error_None l (Z.to_nat i))) by lia. reflexivity.
Qed.

Lemma each_level_beyond {S} (body : llgs N -> S -> res (llgs N * S)) q rest levels s : Z.of_nat (length levels) <= q ->
  each_level (q :: rest) levels body s = UB OutOfBounds.
Proof. intros Hq. cbn. rewrite aget_beyond by exact Hq. reflexivity. Qed.

Lemma best_beyond (ratio : D) g gs query : gt_groups g = Some gs -> 2 <= ts_length query ->
  Z.of_nat (length (gg_levels gs)) <= ts_length query -> ~ ends (getBestMatch ratio g query).
Proof.
  intros Eg H2 Hl. unfold getBestMatch. rewrite Eg. unfold gg_getBestMatch.
  destruct (Z.leb_spec (ts_length query) 1); [lia|].
  pose proof (traverse_head ratio (ts_length query) (gg_totalLength gs)
    (Z.to_nat (Z.abs (ts_length query) + Z.max 0 (gg_totalLength gs) + 2)) (ts_length query - 1) (ts_length query + 1) false false
    [ts_length query] [] eq_refl) as Ht.
  unfold generateTraverseOrder. destruct (traverse_loop _ _ _ _ _ _ _ _ _) as [order| | |]; cbn; auto.
  destruct Ht as [r ->].
  destruct (gg_warp gs); rewrite each_level_beyond by exact Hl; cbn; auto.
Qed.

Lemma kbest_beyond H (ratio : D) g gs query k h : gt_groups g = Some gs -> k <= h ->
  Z.of_nat (length (gg_levels gs)) <= ts_length query -> ~ ends (getKBestMatches H ratio g query k h).
Proof.
  intros Eg Hk Hl. unfold getKBestMatches. rewrite Eg. unfold gg_getKBestMatches.
  destruct (Z.ltb_spec h k); [lia|].
  pose proof (traverse_head ratio (ts_length query) (gg_totalLength gs)
    (Z.to_nat (Z.abs (ts_length query) + Z.max 0 (gg_totalLength gs) + 2)) (ts_length query - 1) (ts_length query + 1) false false
    [ts_length query] [] eq_refl) as Ht.
  unfold generateTraverseOrder. destruct (traverse_loop _ _ _ _ _ _ _ _ _) as [order| | |]; cbn; auto.
  destruct Ht as [r ->].
  destruct (gg_warp gs); rewrite each_level_beyond by exact Hl; cbn; auto.
Qed.
End Long.

(** ** nothing to look at, and nothing asked for *)
Section None_.
Context {N : Num} {LW : NumLaws N}.
Notation D := (D N).
Context {RP : Rep}.
Variable d : dataset N.
Variable rows : list (list D).
Variable k : kind.
Variable ratio : D.
Variable query : TS N.
Variable order : list Z.
Hypothesis Eo : generateTraverseOrder ratio (ts_length query) (ds_maxcol d) = Ret order.
Variable whole : bool.
Variable gss : Z -> option (list (list coord)).
Variable g : gset N.
Hypothesis Hg : set_q d rows k g gss.
Hypothesis Hrange : forall l, In l order -> 2 <= l <= ds_maxcol d.

Lemma total_length gs : levels_q d rows (gg_levels gs) gss -> gg_totalLength gs = ds_maxcol d.
Proof. intros [H _]. unfold gg_totalLength. lia. Qed.

Lemma no_groups_skip {S} (body : llgs N -> S -> res (llgs N * S)) s :
  (forall L, ll_groups L = [] -> exists L', body L s = Ret (L', s) /\ ll_groups L' = [] /\
     forall l, level_q d rows l L [] -> level_q d rows l L' []) ->
  forall ls levels, incl ls order -> (forall l, In l ls -> gss l = None \/ gss l = Some []) ->
  levels_q d rows levels gss -> exists levels', each_level ls levels body s = Ret (levels', s) /\ levels_q d rows levels' gss.
Proof.
  intros Hb. induction ls as [|l ls IH]; intros levels Hi Hn HL; cbn [each_level]; [eauto|].
  assert (Hl : 2 <= l <= ds_maxcol d) by (apply Hrange, Hi; left; reflexivity).
  assert (Hls : incl ls order) by (intros x Hx; apply Hi; right; exact Hx).
  assert (Hn' : forall x, In x ls -> gss x = None \/ gss x = Some []) by (intros x Hx; apply Hn; right; exact Hx).
  pose proof HL as [H1 H2]. specialize (H2 l ltac:(lia)).
  destruct (Hn l (or_introl eq_refl)) as [E|E]; rewrite E in H2.
  - unfold aget at 1. destruct (Z.leb_spec 0 l); [|lia]. rewrite H2. cbn. apply IH; auto.
  - destruct H2 as [_ (L & EL0 & HLq)].
    unfold aget at 1. destruct (Z.leb_spec 0 l); [|lia]. rewrite EL0. cbn [bind].
    assert (Egr : ll_groups L = []).
    { pose proof (lq_cent _ _ _ _ _ HLq) as HF. inversion HF. reflexivity. }
    destruct (Hb L Egr) as (L' & Eb & Egr' & Hq'). rewrite Eb. cbn [bind].
    rewrite aset_in by lia. cbn [bind]. apply IH; auto.
    apply (levels_set d rows levels gss l [] L'); auto. lia.
Qed.

Lemma level_same l L : level_q d rows l L [] -> ll_groups L = [] -> level_q d rows l (mkLL (ll_length L) (ll_sub L) [] (ll_map L)) [].
Proof. intros [A1 A2 A3 A4 A5] E. rewrite E in A3, A4. split; cbn; auto. Qed.

Lemma best_step_none L : ll_groups L = [] ->
  bestLevel_step d (warp_of k) ratio query L (ninf, None) =
    Ret (mkLL (ll_length L) (ll_sub L) [] (ll_map L), (ninf, None)).
Proof. intros E. unfold bestLevel_step, getBestGroup. rewrite E. cbn. rewrite lw_inf_top. reflexivity. Qed.

Lemma inter_step_none H L (s : list (gindex N) * Z) : ll_groups L = [] ->
  interLevel_step H d (warp_of k) ratio query L s = Ret (mkLL (ll_length L) (ll_sub L) [] (ll_map L), s).
Proof. intros E. unfold interLevel_step, interLevelKSim. rewrite E. destruct s. reflexivity. Qed.

Lemma best_none : 2 <= ts_length query -> (forall l, In l order -> gss l = None \/ gss l = Some []) ->
  getBestMatch ratio g query = UB NullDeref.
Proof.
  intros H2 Hn. destruct Hg as (Ed & gs & Eg & Ew & _ & HL).
  unfold getBestMatch. rewrite Eg, Ed. unfold gg_getBestMatch. destruct (Z.leb_spec (ts_length query) 1); [lia|].
  rewrite (total_length gs HL), Eo. cbn [bind]. rewrite Ew.
  destruct (no_groups_skip (bestLevel_step d (warp_of k) ratio query) (ninf, None)) with (ls := order) (levels := gg_levels gs)
    as (levels' & E & _); auto.
  - intros L EL. eexists. split; [apply best_step_none, EL|]. split; [reflexivity|]. intros l Hl. apply level_same; auto.
  - intros x Hx. exact Hx.
  - rewrite E. reflexivity.
Qed.

(** looking at no subsequences while there are groups *)
Lemma each_level_stuck H h : h <= 0 -> forall ls levels, incl ls order ->
  (exists l gs, In l ls /\ gss l = Some gs /\ gs <> []) -> levels_q d rows levels gss ->
  each_level ls levels (interLevel_step H d (warp_of k) ratio query) ([], h) = UB EmptyFront.
Proof.
  intros Hh. induction ls as [|l ls IH]; intros levels Hi (l0 & gs0 & Hl0 & E0 & Hne) HL; [destruct Hl0|]. cbn [each_level].
  assert (Hl : 2 <= l <= ds_maxcol d) by (apply Hrange, Hi; left; reflexivity).
  assert (Hls : incl ls order) by (intros x Hx; apply Hi; right; exact Hx).
  pose proof HL as [H1 H2]. specialize (H2 l ltac:(lia)).
  destruct (gss l) as [gs|] eqn:E.
  - destruct H2 as [_ (L & EL0 & HLq)].
    unfold aget at 1. destruct (Z.leb_spec 0 l); [|lia]. rewrite EL0. cbn [bind].
    pose proof (Forall2_length _ _ _ (lq_cent _ _ _ _ _ HLq)) as Hlen.
    destruct gs as [|ms gs].
    + destruct (ll_groups L) eqn:Egr; [|discriminate]. rewrite inter_step_none by exact Egr. cbn [bind].
      rewrite aset_in by lia. cbn [bind]. apply IH; auto.
      * destruct Hl0 as [->|Hl0]; [congruence|eauto].
      * apply (levels_set d rows levels gss l [] _); auto; [lia|]. apply level_same; auto.
    + destruct (ll_groups L) as [|g0 gr] eqn:Egr; [discriminate|].
      unfold interLevel_step, interLevelKSim. rewrite Egr. cbn [fst snd length].
      unfold for_. replace (Z.to_nat (Z.of_nat (S (length gr)) - 0)) with (S (length gr)) by lia. cbn [for_n].
      unfold inter_step at 1. unfold aget at 1. cbn. destruct (Z.leb_spec h 0); [|lia]. reflexivity.
  - unfold aget at 1. destruct (Z.leb_spec 0 l); [|lia]. rewrite H2. cbn. apply IH; auto.
    destruct Hl0 as [->|Hl0]; [congruence|eauto].
Qed.

Lemma kbest_stuck H K h : K <= h <= 0 -> (exists l gs, In l order /\ gss l = Some gs /\ gs <> []) ->
  getKBestMatches H ratio g query K h = UB EmptyFront.
Proof.
  intros Hh Hex. destruct Hg as (Ed & gs & Eg & Ew & _ & HL).
  unfold getKBestMatches. rewrite Eg, Ed. destruct (Z.ltb_spec h K); [lia|]. unfold gg_getKBestMatches.
  rewrite (total_length gs HL), Eo. cbn [bind]. rewrite Ew.
  rewrite (each_level_stuck H h); auto; [lia|]. intros x Hx. exact Hx.
Qed.
End None_.
