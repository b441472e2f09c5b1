(** The point-to-point distances used in grouping meet the assumptions of
    GroupProofs.v. *)
From Coq Require Import String Reals Lra.
From Flocq Require Import Core.Raux.
From Verif Require Import Base Num NumLaws NumFacts NumXR NumXRLaws LoopFacts TimeSeries Lemire Distance DtwSpec DtwPaths DtwProofs
  Metrics DtwReal Pairwise DistSpec DistFacts DistLink TSSet StdAlg Candidate Group GroupSpace
  DataSpec DataProofs GroupSpec Members GroupProofs GroupAll GroupView.
Local Open Scope Z_scope.
Local Open Scope list_scope.

(** the names usable for grouping *)
Definition groupable : list string := ["euclidean"; "manhattan"; "chebyshev"; "cosine"; "sorensen"]%string.

Section G.
Context {N : Num} {LW : NumLaws N}.
Notation D := (D N).

Lemma groupable_pw name : In name groupable -> exists (M : Metric N) (w : warped N),
  getDistanceFromName name = Ret (fun _ a b dr mt => pairwiseDistance M a b dr mt) /\ warpedFor name = Ret w.
Proof.
  intros H. repeat (destruct H as [<-|H]; [eexists _, _; split; reflexivity|]). destruct H.
Qed.

Lemma kind_groupable k : In (kind_name k) groupable.
Proof. destruct k; simpl; auto. Qed.

Lemma kind_pw k : @getDistanceFromName N (kind_name k) = Ret (fun _ a b dr mt => pairwiseDistance (metric_of k) a b dr mt).
Proof. destruct k; reflexivity. Qed.

Variable d : dataset N.
Variable rows : list (list D).
Hypothesis Hd : holds d rows.
Notation pwf M := (fun _ a b dr mt => pairwiseDistance M a b dr mt).

Lemma P0_all (M : Metric N) ratio l c c' cut : 1 <= l <= ds_maxcol d -> is_sub rows l c -> is_sub rows l c' ->
  exists v, pwc d (pwf M) ratio l c c' cut = Ret v.
Proof.
  intros Hl H1 H2. destruct (sub_ts d rows Hd l Hl c H1) as (t & Et & _ & Ho & _ & _ & Hlen).
  destruct (sub_ts d rows Hd l Hl c' H2) as (t' & Et' & _ & Ho' & _ & _ & Hlen').
  unfold pwc. rewrite Et, Et'. cbn [bind].
  destruct (pw_full_or_inf M t t' cut []) as [-> | ->]; auto; try congruence; try lia; cbn [bind]; eauto.
Qed.

(** the distance of two subsequences *)
Definition sub_dist (k : kind) (l : Z) (c c' : coord) : D :=
  pair_value k (sub_values rows l c) (sub_values rows l c').

Lemma Q1_kind k ratio l : 1 <= l <= ds_maxcol d ->
  Q1 d rows (pwf (metric_of k)) ratio l (sub_dist k l).
Proof.
  intros Hl c c' cut v H1 H2 E. destruct (sub_ts d rows Hd l Hl c H1) as (t & Et & Ep & Ho & _ & _ & Hlen).
  destruct (sub_ts d rows Hd l Hl c' H2) as (t' & Et' & Ep' & Ho' & _ & _ & Hlen').
  unfold pwc in E. rewrite Et, Et' in E. cbn [bind] in E.
  unfold sub_dist. rewrite <- Ep, <- Ep'. rewrite pair_value_eq by (auto; congruence).
  destruct (pw_full_or_inf (metric_of k) t t' cut []) as [E1 | E1]; auto; try congruence; try lia;
    rewrite E1 in E; cbn [bind] in E; injection E as <-; auto.
Qed.

(** a sufficient condition for sound cut-offs *)
Lemma Q2_of (M : Metric N) ratio l (full : coord -> coord -> D) :
  Q1 d rows (pwf M) ratio l full ->
  (forall c c', is_sub rows l c -> is_sub rows l c' -> nn (full c c')) ->
  (forall c c' cut v, is_sub rows l c -> is_sub rows l c' -> nle (full c c') cut -> pwc d (pwf M) ratio l c c' cut = Ret v ->
     v = full c c') ->
  Q2 d rows (pwf M) ratio l full.
Proof.
  intros H1 Hn Hcut c c' cut v Hc Hc' Hcn E. splits; auto.
  - intros Hf. apply (Hcut c c' cut v); auto. apply nltb_false_le; auto.
  - intros Hf. destruct (H1 _ _ _ _ Hc Hc' E) as [-> | ->]; [apply nlt_asym; auto|apply lw_inf_top].
Qed.

Lemma In_slice {A} (row : list A) s e x : In x (firstn (Z.to_nat (e - s)) (skipn (Z.to_nat s) row)) -> In x row.
Proof.
  intros H. rewrite <- (firstn_skipn (Z.to_nat s) row). apply in_or_app. right.
  rewrite <- (firstn_skipn (Z.to_nat (e - s)) (skipn (Z.to_nat s) row)). apply in_or_app. left. exact H.
Qed.

Lemma sub_values_In l c x : In x (sub_values rows l c) -> In x (concat rows).
Proof.
  unfold sub_values. destruct (row_of rows (fst c)) as [row|] eqn:E; [|intros []].
  intros H. apply In_slice in H. apply row_of_Some in E as [_ E]. apply in_concat. exists row.
  split; auto. eapply nth_error_In; eauto.
Qed.

Lemma sub_values_fin l c : Forall nfin (concat rows) -> Forall nfin (sub_values rows l c).
Proof. rewrite !Forall_forall. intros H x Hx. apply H. eapply sub_values_In; eauto. Qed.

Lemma Q2_kind k ratio l : k <> KEuclidean -> 1 <= l <= ds_maxcol d -> l <= 2 ^ 30 -> Forall nfin (concat rows) ->
  Q2 d rows (pwf (metric_of k)) ratio l (sub_dist k l).
Proof.
  intros Hk Hl Hl' Hf.
  assert (G : forall c c' cut, is_sub rows l c -> is_sub rows l c' -> nn cut ->
    nn (sub_dist k l c c') /\
    pwc d (pwf (metric_of k)) ratio l c c' cut
      = Ret (if nltb cut (sub_dist k l c c') then ninf else sub_dist k l c c')).
  { intros c c' cut H1 H2 Hn. destruct (sub_ts d rows Hd l Hl c H1) as (t & Et & Ep & Ho & _ & _ & Hlen).
    destruct (sub_ts d rows Hd l Hl c' H2) as (t' & Et' & Ep' & Ho' & _ & _ & Hlen').
    unfold pwc, sub_dist. rewrite Et, Et'. cbn [bind].
    pose proof (sub_values_fin l c Hf) as F. pose proof (sub_values_fin l c' Hf) as F'.
    rewrite <- Ep in *. rewrite <- Ep' in *. rewrite pair_value_eq by (auto; congruence).
    destruct k; [contradiction| |].
    - split; [apply (pw_full_nn Manhattan Manhattan_nice manhattan_norm_mono); auto; try congruence; lia|].
      cbn [metric_of]. rewrite (pw_cutoff Manhattan Manhattan_nice eq_refl manhattan_norm_mono); auto; try congruence; lia.
    - split; [apply (pw_full_nn Chebyshev Chebyshev_nice chebyshev_norm_mono); auto; try congruence; lia|].
      cbn [metric_of]. rewrite (pw_cutoff Chebyshev Chebyshev_nice eq_refl chebyshev_norm_mono); auto; try congruence; lia. }
  apply Q2_of.
  - apply Q1_kind; auto.
  - intros c c' H1 H2. apply (G c c' ninf H1 H2 lw_inf_nn).
  - intros c c' cut v H1 H2 Hle E. destruct (G c c' cut H1 H2 (nle_nn_r _ _ Hle)) as [_ E2].
    rewrite E2 in E. rewrite (nle_ltb _ _ Hle) in E. congruence.
Qed.

(** from a level to its view *)
Lemma group_views_ok count sub mm (groups : list (group N)) gs : groups_are count sub mm groups gs -> Forall2 cent_is groups gs ->
  group_views sub mm groups = Ret (map view_of gs).
Proof.
  intros Ha Hc.
  assert (G : forall i j gr gl, groups = (i ++ gr) -> gs = (j ++ gl) -> length i = length j ->
     group_views sub mm gr = Ret (map view_of gl)).
  { intros i j gr. revert i j. induction gr as [|g gr IH]; intros i j gl E1 E2 Hij.
    - destruct gl as [|ms gl]; [reflexivity|]. apply Forall2_length in Hc. subst. rewrite !app_length in Hc. simpl in Hc. lia.
    - destruct gl as [|ms gl]; [apply Forall2_length in Hc; subst; rewrite !app_length in Hc; simpl in Hc; lia|].
      assert (Eg : nth_error groups (length i) = Some g) by (rewrite E1, nth_error_app2, Nat.sub_diag by lia; reflexivity).
      assert (Em : nth_error gs (length i) = Some ms) by (rewrite E2, Hij, nth_error_app2, Nat.sub_diag by lia; reflexivity).
      simpl. unfold group_view. rewrite (memberCoords_ok _ _ _ _ _ _ _ _ Ha Eg Em). cbn [bind].
      destruct (Forall2_nth _ _ _ _ _ _ Hc Eg Em) as (_ & -> & _).
      rewrite (IH (i ++ [g]) (j ++ [ms]) gl).
      + cbn [bind]. destruct Ha as (HF & _). destruct (Forall2_nth _ _ _ _ _ _ HF Eg Em) as [_ ->].
        unfold view_of at 2. destruct (rep ms); reflexivity.
      + rewrite <- app_assoc. exact E1.
      + rewrite <- app_assoc. exact E2.
      + rewrite !app_length. simpl. lia. }
  apply (G [] []); auto.
Qed.
End G.

(** ** euclidean in exact arithmetic *)
Section Exact.
Variable d : dataset XR.
Variable rows : list (list R).
Hypothesis Hd : holds d (map (map Fin) rows).
Notation frows := (map (map Fin) rows : list (list (D XR))).

(** values of a subsequence of real data *)
Definition real_sub (l : Z) (c : coord) : list R :=
  match nth_error rows (Z.to_nat (fst c)) with
  | Some row => firstn (Z.to_nat l) (skipn (Z.to_nat (snd c)) row)
  | None => []
  end.

Lemma real_sub_values l c : is_sub frows l c -> sub_values frows l c = map Fin (real_sub l c).
Proof.
  intros (row & Er & _ & _). unfold sub_values. rewrite Er. apply row_of_Some in Er as [_ Er].
  rewrite nth_error_map in Er. unfold real_sub. destruct (nth_error rows (Z.to_nat (fst c))) as [r|]; [|discriminate].
  simpl in Er. injection Er as <-. unfold slice. replace (snd c + l - snd c) with l by lia.
  rewrite skipn_map, firstn_map. reflexivity.
Qed.

Lemma real_sub_len l c : 0 <= l -> is_sub frows l c -> Z.of_nat (length (real_sub l c)) = l.
Proof.
  intros Hl (row & Er & Hs & He). apply row_of_Some in Er as [_ Er].
  rewrite nth_error_map in Er. unfold real_sub. destruct (nth_error rows (Z.to_nat (fst c))) as [r|]; [|discriminate].
  simpl in Er. injection Er as <-. rewrite map_length in He. rewrite firstn_length, skipn_length. lia.
Qed.

Lemma full_real k (a b : TS XR) xs ys : is_series a xs -> is_series b ys -> xs <> [] -> length xs = length ys ->
  pw_full (metric_of k) a b = Fin (real_pair k xs ys).
Proof.
  intros Ha Hb Hx Hl. destruct k; cbn [metric_of real_pair].
  - apply full_euclidean; auto.
  - apply full_manhattan; auto.
  - apply full_chebyshev; auto.
Qed.

Lemma sub_dist_real k l c c' : 1 <= l <= ds_maxcol d -> is_sub frows l c -> is_sub frows l c' ->
  sub_dist (N := XR) frows k l c c' = Fin (real_pair k (real_sub l c) (real_sub l c')).
Proof.
  intros Hl H1 H2. destruct (sub_ts d frows Hd l Hl c H1) as (t & Et & Ep & Ho & _ & _ & Hlen).
  destruct (sub_ts d frows Hd l Hl c' H2) as (t' & Et' & Ep' & Ho' & _ & _ & Hlen').
  unfold sub_dist. rewrite <- Ep, <- Ep'. rewrite pair_value_eq by (auto; congruence).
  pose proof (real_sub_len l c ltac:(lia) H1) as L1. pose proof (real_sub_len l c' ltac:(lia) H2) as L2.
  apply full_real.
  - split; auto. rewrite Ep. apply real_sub_values; auto.
  - split; auto. rewrite Ep'. apply real_sub_values; auto.
  - intros E. rewrite E in L1. simpl in L1. lia.
  - lia.
Qed.

Lemma Q2_real k ratio l : 1 <= l <= ds_maxcol d -> l <= 2 ^ 30 ->
  Q2 d frows (fun _ a b dr mt => pairwiseDistance (metric_of k) a b dr mt) ratio l (sub_dist (N := XR) frows k l).
Proof.
  intros Hl Hl'. destruct k.
  2,3: apply Q2_kind; auto; [discriminate|]; rewrite Forall_forall; intros x Hx; apply in_concat in Hx as (r & Hr & Hx);
    apply in_map_iff in Hr as (r0 & <- & _); apply in_map_iff in Hx as (x0 & <- & _); apply XR_fin; eexists; reflexivity.
  apply Q2_of.
  - apply (Q1_kind d frows Hd KEuclidean); auto.
  - intros c c' H1 H2. rewrite (sub_dist_real KEuclidean) by auto. reflexivity || apply XR_nn; discriminate.
  - intros c c' cut v H1 H2 Hle E.
    destruct (sub_ts d frows Hd l Hl c H1) as (t & Et & Ep & Ho & _ & _ & Hlen).
    destruct (sub_ts d frows Hd l Hl c' H2) as (t' & Et' & Ep' & Ho' & _ & _ & Hlen').
    rewrite (sub_dist_real KEuclidean) in * by auto. cbn [real_pair] in *.
    unfold pwc in E. rewrite Et, Et' in E. cbn [bind metric_of] in E.
    pose proof (real_sub_len l c ltac:(lia) H1) as L1. pose proof (real_sub_len l c' ltac:(lia) H2) as L2.
    assert (S1 : is_series t (real_sub l c)) by (split; auto; rewrite Ep; apply real_sub_values; auto).
    assert (S2 : is_series t' (real_sub l c')) by (split; auto; rewrite Ep'; apply real_sub_values; auto).
    assert (Hne : real_sub l c <> []) by (intros E0; rewrite E0 in L1; simpl in L1; lia).
    destruct cut as [x| | |].
    + assert (Hx : (rms_distance (real_sub l c) (real_sub l c') <= x)%R).
      { destruct Hle as (_ & _ & Hlt). simpl in Hlt. destruct (Rlt_bool_spec x (rms_distance (real_sub l c) (real_sub l c'))); [discriminate|auto]. }
      rewrite (euclidean_cutoff t t' (real_sub l c) (real_sub l c')) in E; auto; [|lia|pose proof (rms_pos (real_sub l c) (real_sub l c')); lra].
      rewrite Rlt_bool_false in E by auto. cbn [bind] in E. congruence.
    + rewrite (euclidean_nocut t t' (real_sub l c) (real_sub l c')) in E; auto; [|lia]. cbn [bind] in E. congruence.
    + destruct Hle as (_ & _ & Hlt). discriminate.
    + destruct Hle as (_ & Hn & _). discriminate.
Qed.
End Exact.
