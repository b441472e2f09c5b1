(** Further facts on the distances: the matching argument never influences the
    value, the shared default matching grows, self distances of the
    point-to-point distances in IEEE arithmetic, the registry of names. *)
From Coq Require Import String.
From Verif Require Import Base Num NumLaws NumFacts LoopFacts TimeSeries Lemire Distance DtwSpec DtwPaths
  DtwProofs Metrics DtwMain DtwResults Pairwise.
Local Open Scope Z_scope.
Local Open Scope list_scope.

(** the three metrics with a plain double accumulator *)
Inductive basic_metric {N : Num} : Metric N -> Prop :=
| bm_euclidean : basic_metric Euclidean
| bm_manhattan : basic_metric Manhattan
| bm_chebyshev : basic_metric Chebyshev.

Section History.
Context {N : Num}.
Notation D := (D N).

Lemma backtrack_app (nc : list (list D)) fuel : forall i j mt,
  backtrack nc fuel i j mt = (q <- backtrack nc fuel i j [] ;; Ret (mt ++ q)).
Proof.
  assert (B : forall (r : res matching) mt x, (q <- (q <- r ;; Ret ([x] ++ q)) ;; Ret (mt ++ q))
              = (q <- r ;; Ret ((mt ++ [x]) ++ q))).
  { intros [q| | |] mt x; simpl; auto. rewrite <- app_assoc. reflexivity. }
  induction fuel as [|fuel IH]; intros i j mt; cbn [backtrack]; destruct ((i =? 0) && (j =? 0)).
  - simpl. rewrite app_nil_r. reflexivity.
  - reflexivity.
  - simpl. rewrite app_nil_r. reflexivity.
  - destruct (i =? 0); [rewrite (IH _ _ ([] ++ _)), (IH _ _ (mt ++ _)); symmetry; apply B|].
    destruct (j =? 0); [rewrite (IH _ _ ([] ++ _)), (IH _ _ (mt ++ _)); symmetry; apply B|].
    destruct (mget nc (i - 1) (j - 1)) as [d| | |]; auto. destruct (mget nc (i - 1) j) as [u| | |]; auto.
    destruct (mget nc i (j - 1)) as [l| | |]; auto. cbn [bind]. cbv zeta.
    destruct (neqb d _); [rewrite (IH _ _ ([] ++ _)), (IH _ _ (mt ++ _)); symmetry; apply B|].
    destruct (neqb u _); [rewrite (IH _ _ ([] ++ _)), (IH _ _ (mt ++ _)); symmetry; apply B|].
    destruct (neqb l _); [rewrite (IH _ _ ([] ++ _)), (IH _ _ (mt ++ _)); symmetry; apply B|]. reflexivity.
Qed.

(** what a distance call with matching [mt] does, given what it does with [] *)
Definition outcome {A} (r : res (D * A)) : res D :=
  match r with Ret (d, _) => Ret d | Throw e => Throw e | UB u => UB u | Hang => Hang end.

Lemma warped_history (M : Metric N) a b (ratio dropout : D) mt :
  outcome (warpedDistance M a b ratio dropout mt) = outcome (warpedDistance M a b ratio dropout []).
Proof.
  unfold warpedDistance. destruct (band _ _) as [r| | |]; auto. cbn [bind].
  destruct ((ts_length a =? 1) && (ts_length b =? 1)).
  - destruct (ts_get a 0); auto. destruct (ts_get b 0); auto.
  - destruct (warped_fill M a b r dropout) as [[c v]| | |]; auto. cbn [bind].
    rewrite backtrack_app. destruct (backtrack _ _ _ _ []); auto.
Qed.

Lemma pairwise_history (M : Metric N) a b (dropout : D) mt :
  outcome (pairwiseDistance M a b dropout mt) = outcome (pairwiseDistance M a b dropout []).
Proof.
  unfold pairwiseDistance. destruct (negb _); auto. destruct (forb_ _ _ _ _) as [[t x]| | |]; auto.
Qed.

Lemma cascade_history a b (ratio dropout : D) mt :
  outcome (cascadeDistance ratio a b dropout mt) = outcome (cascadeDistance ratio a b dropout []).
Proof.
  unfold cascadeDistance. destruct (kimLowerBound a b) as [lb| | |]; auto. cbn [bind].
  destruct (nltb dropout lb); auto. destruct (crossKeoghLowerBound ratio a b dropout) as [lb2| | |]; auto. cbn [bind].
  destruct (nltb dropout lb2); auto. apply warped_history.
Qed.

Lemma named_history (nm : string) (f : dist_fn N) (ratio : D) a b (dropout : D) mt :
  In (nm, f) allDistances -> outcome (f ratio a b dropout mt) = outcome (f ratio a b dropout []).
Proof.
  unfold allDistances. cbn [app]. intros H.
  repeat (destruct H as [H|H]; [injection H as _ <-; first [apply pairwise_history|apply warped_history]|]).
  destruct H.
Qed.

(** [k] calls in a row with the default argument gNoMatching,
    genex/distance/Distance.cpp:164 and Distance.hpp:32: what is left in it *)
Fixpoint calls (f : matching -> res (D * matching)) (k : nat) (mt : matching) : res matching :=
  match k with
  | O => Ret mt
  | S k => '(_, mt') <- f mt ;; calls f k mt'
  end.
End History.

Section Growth.
Context {N : Num} {L : NumLaws N}.
Notation D := (D N).

Lemma warping_len m n p : warping_path m n p -> 1 <= Z.of_nat (length p).
Proof. destruct p; simpl; [tauto|lia]. Qed.

Lemma calls_grow (M : Metric N) (ng : Nice M) a b (ratio : D) r (dropout : D) k : dtw_pre M a b ratio r -> nn dropout ->
  forall mt, exists mt', calls (fun mt => warpedDistance M a b ratio dropout mt) k mt = Ret mt' /\
  (length mt + k <= length mt')%nat.
Proof.
  intros H Hd. induction k as [|k IH]; intros mt; [exists mt; split; [reflexivity|lia]|].
  cbn [calls]. destruct (dtw_run M ng a b ratio r H) as (dF & _ & Hrun).
  destruct (Hrun dropout mt Hd) as (d & p & Hp & E & _). rewrite E. cbn [bind].
  destruct (IH (p ++ rev mt)) as (mt' & E' & Hlen). exists mt'. split; [exact E'|].
  rewrite app_length, rev_length in Hlen. pose proof (warping_len _ _ _ Hp). lia.
Qed.
End Growth.

(** ** point-to-point self distance *)
Section Self.
Context {N : Num} {L : NumLaws N}.
Notation D := (D N).

Lemma sub_self_abs (x : D) : nfin x -> neqv (nabs (nsub x x)) n0.
Proof.
  intros Hx. destruct (lw_sub_self x Hx) as [H1 H2].
  pose proof (lw_abs_pos _ H2) as H3. apply (neqv_trans _ (nsub x x)); auto. split; auto.
Qed.
Lemma euc_self (x : D) : nfin x -> neqv (euc_dist x x) n0.
Proof.
  intros Hx. unfold euc_dist. set (d := nsub x x).
  assert (Hd : nn d) by (apply lw_sub_nn; auto).
  split; [|apply lw_sq_pos, Hd].
  assert (A0 : neqv (nabs (@n0 N)) n0) by (apply lw_abs_pos, nle_refl, n0_nn).
  apply (nle_trans _ (nmul n0 n0)).
  - apply lw_sq_mono; [exact Hd|apply n0_nn|]. apply (nle_trans _ n0); [apply sub_self_abs, Hx|apply A0].
  - pose proof (lw_mul_mono_r (@n0 N) n0 (nofZ 1)) as H. 
    apply (nle_trans _ (nmul n0 (nofZ 1))).
    + apply H; [apply n0_fin|apply lw_ofZ_fin; simpl; lia|apply nle_refl, n0_nn|apply nle_refl, n0_nn|apply lw_ofZ_le; lia].
    + apply lw_mul_1, n0_fin.
Qed.

Lemma add_zero_eqv (s t : D) : neqv s n0 -> neqv t n0 -> neqv (nadd s t) n0.
Proof.
  intros [S1 S2] [T1 T2]. split; [|apply nadd_pos; auto].
  apply (nle_trans _ (nadd n0 n0)); [apply lw_add_mono; auto|]. apply lw_add_0, nle_refl, n0_nn.
Qed.

Variables a b : TS N.
Hypothesis Ha : ts_ok a.
Hypothesis Hb : ts_ok b.
Hypothesis Hm : 1 <= ts_length a <= 2 ^ 30.
Hypothesis Fa : Forall nfin (ts_points a).
Hypothesis Hab : ts_points a = ts_points b.

Lemma self_len : ts_length a = ts_length b.
Proof. rewrite <- (ts_points_length a), <- (ts_points_length b), Hab by auto. reflexivity. Qed.

Lemma self_pt i : pt b i = pt a i. Proof. unfold pt. rewrite Hab. reflexivity. Qed.
Lemma self_fin i : 0 <= i < ts_length a -> nfin (pt a i).
Proof. intros Hi. rewrite Forall_forall in Fa. apply Fa, pt_in; auto. Qed.

Lemma acc_self_euc k : Z.of_nat k <= ts_length a -> neqv (path_acc Euclidean a b (diag k)) n0.
Proof.
  induction k as [|k IH]; intros Hk; [apply neqv_refl, n0_nn|].
  rewrite diag_S, path_acc_snoc. rewrite self_pt. apply add_zero_eqv; [apply IH; lia|]. apply euc_self, self_fin. lia.
Qed.
Lemma acc_self_man k : Z.of_nat k <= ts_length a -> neqv (path_acc Manhattan a b (diag k)) n0.
Proof.
  induction k as [|k IH]; intros Hk; [apply neqv_refl, n0_nn|].
  rewrite diag_S, path_acc_snoc. rewrite self_pt. apply add_zero_eqv; [apply IH; lia|]. apply sub_self_abs, self_fin. lia.
Qed.
Lemma acc_self_che k : 1 <= Z.of_nat k <= ts_length a -> neqv (path_acc Chebyshev a b (diag k)) n0.
Proof.
  assert (M0 : forall s t : D, nle s n0 -> neqv t n0 -> neqv (nmax s t) n0).
  { intros s t Hs [T1 T2]. split; [apply nmax_lub; auto|].
    apply (nle_trans _ t); auto. apply nmax_r; [apply (nle_nn_l _ _ Hs)|apply (nle_nn_l _ _ T1)]. }
  intros [H1 H2]. assert (G : forall k, Z.of_nat k <= ts_length a -> nle (path_acc Chebyshev a b (diag k)) n0).
  { clear k H1 H2. induction k as [|k IH]; intros Hk; [apply ninf_le, n0_nn|].
    rewrite diag_S, path_acc_snoc, self_pt. apply M0; [apply IH; lia|apply sub_self_abs, self_fin; lia]. }
  destruct k as [|k]; [lia|]. rewrite diag_S, path_acc_snoc, self_pt.
  apply M0; [apply G; lia|apply sub_self_abs, self_fin; lia].
Qed.

Lemma div_zero_eqv (s : D) k : 1 <= k <= 2 ^ 53 -> neqv s n0 -> neqv (ndiv s (nofZ k)) n0.
Proof.
  intros Hk [S1 S2]. split.
  - apply (nle_trans _ (ndiv n0 (nofZ k))); [apply lw_div_mono; auto|apply lw_div_0, Hk].
  - apply (nle_trans _ (ndiv n0 (nofZ k))); [apply lw_div_0, Hk|apply lw_div_mono; auto; apply nle_refl, n0_nn].
Qed.
Lemma sqrt_zero_eqv (s : D) : neqv s n0 -> neqv (nsqrt s) n0.
Proof.
  intros [S1 S2]. split.
  - apply (nle_trans _ (nsqrt n0)); [apply lw_sqrt_mono; auto|apply lw_sqrt_0].
  - apply (nle_trans _ (nsqrt n0)); [apply lw_sqrt_0|apply lw_sqrt_mono; auto; apply nle_refl, n0_nn].
Qed.

Lemma pw_self (M : Metric N) mt : basic_metric M ->
  (forall k, 1 <= k <= 2 ^ 53 -> nmul (nmul ninf ninf) (@nofZ N k) = ninf) ->
  exists d : D, pairwiseDistance M a b ninf mt = Ret (d, mt) /\ neqv d n0.
Proof.
  intros HM Hi. destruct (pw_run M a b Ha Hb self_len ninf mt ltac:(lia)) as (k & Hk & [(E & _)|(E & Hk1 & Hx)]).
  - exists (pw_full M a b). split; [exact E|]. unfold pw_full.
    destruct HM; cbn [m_norm Euclidean Manhattan Chebyshev].
    + apply sqrt_zero_eqv, div_zero_eqv; [lia|]. apply acc_self_euc. lia.
    + apply div_zero_eqv; [lia|]. apply acc_self_man. lia.
    + apply acc_self_che. lia.
  - exfalso. unfold pw_exceeds in Hx. destruct HM; cbn [m_inv m_norm Euclidean Manhattan Chebyshev] in Hx.
    + rewrite Hi, lw_inf_top in Hx by lia. discriminate.
    + rewrite lw_inf_top in Hx. discriminate.
    + rewrite lw_inf_top in Hx. discriminate.
Qed.

End Self.

Lemma pw_full_or_inf {N : Num} (M : Metric N) a b (dropout : D N) mt :
  ts_ok a -> ts_ok b -> ts_length a = ts_length b -> 0 <= ts_length a ->
  pairwiseDistance M a b dropout mt = Ret (pw_full M a b, mt) \/
  pairwiseDistance M a b dropout mt = Ret (ninf, mt).
Proof.
  intros Ha Hb Hl Hm. destruct (pw_run M a b Ha Hb Hl dropout mt Hm) as (k & _ & [(E & _)|(E & _)]); auto.
Qed.

(** ** the registry *)
Section Registry.
Context {N : Num}.

Definition names : list string :=
  ["euclidean"; "euclidean_dtw"; "manhattan"; "manhattan_dtw"; "chebyshev"; "chebyshev_dtw";
   "cosine"; "cosine_dtw"; "sorensen"; "sorensen_dtw"]%string.

Lemma assoc_None {A} k (l : list (string * A)) : ~ In k (map fst l) -> assoc k l = None.
Proof.
  induction l as [|[k' v] l IH]; intros H; [reflexivity|]. simpl in *. destruct (String.eqb_spec k k') as [->|Hne].
  - exfalso. apply H. auto.
  - apply IH. tauto.
Qed.

Lemma registry_names : map fst (@allDistances N) = names.
Proof. reflexivity. Qed.

Lemma registry_unknown s : ~ In s names ->
  getDistanceFromName (N := N) s = Throw (GenexExc ("Cannot find distance with name: " ++ s)%string).
Proof.
  intros H. unfold getDistanceFromName. rewrite assoc_None; [reflexivity|]. rewrite registry_names. exact H.
Qed.

Lemma registry_known s : In s names -> exists f, getDistanceFromName (N := N) s = Ret f.
Proof.
  intros H. simpl in H. repeat (destruct H as [<-|H]; [eexists; reflexivity|]). destruct H.
Qed.
End Registry.
