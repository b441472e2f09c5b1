(** Property C89: asking for fewer matches.
    Specification: SearchSpec.v, DataSpec.v; model: Api.v, GroupSpace.v, TSSet.v. *)
From Coq Require Import String Reals.
From Flocq Require Import IEEE754.BinarySingleNaN.
From Verif Require Import Base Num NumB64 NumB64Laws NumLaws NumFacts NumMore NumXR NumXRLaws LoopFacts TimeSeries Lemire Distance
  DistSpec DistLink DtwReal DtwPaths TSSet StdAlg HeapFacts Candidate Group GroupSpace Api DtwExt DataSpec DataProofs
  BruteForce SearchSpec SearchProofs SearchCases PropsDistance PropsData PropsGroup PropsSearch PropsQuery PropsKSim.
Local Open Scope Z_scope.
Local Open Scope list_scope.

(** ** The search of the groups: the beginning of the longer list *)

Lemma resize_fewer {A} (l r : list A) k k' dflt : 0 <= k <= k' -> resize l k' dflt = Ret r ->
  resize l k dflt = Ret (firstn (Z.to_nat k) r).
Proof.
  intros Hk. unfold resize. destruct (Z.ltb_spec k' 0); [lia|]. destruct (Z.ltb_spec k 0); [lia|]. intros [= <-]. f_equal.
  assert (Hn : (Z.to_nat k <= Z.to_nat k')%nat) by lia. revert Hn. generalize (Z.to_nat k) (Z.to_nat k'). clear.
  intros n n' Hn. rewrite firstn_app, firstn_firstn, firstn_length. replace (Nat.min n n') with n by lia. f_equal.
  destruct (Nat.le_gt_cases (length l) n') as [Hl|Hl].
  - replace (n - Nat.min n' (length l))%nat with (n - length l)%nat by lia.
    assert (G : forall a b (x : A), (a <= b)%nat -> repeat x a = firstn a (repeat x b)).
    { induction a as [|a IH]; intros b x Hab; [reflexivity|]. destruct b as [|b]; [lia|]. simpl. f_equal. apply IH. lia. }
    apply G. lia.
  - replace (n - length l)%nat with 0%nat by lia. replace (n' - length l)%nat with 0%nat by lia.
    replace (n - Nat.min n' (length l))%nat with 0%nat by lia. reflexivity.
Qed.

Lemma kbest_fewer {N : Num} (H : std_alg) (ratio : D N) (g g' : gset N) query k k' h cs : 0 <= k <= k' ->
  getKBestMatches H ratio g query k' h = Ret (g', cs) -> getKBestMatches H ratio g query k h = Ret (g', firstn (Z.to_nat k) cs).
Proof.
  intros Hk. unfold getKBestMatches. destruct (gt_groups g) as [gs|]; [|discriminate].
  destruct (Z.ltb_spec h k'); [discriminate|]. destruct (Z.ltb_spec h k); [lia|].
  destruct (gg_getKBestMatches H (gt_data g) ratio gs query h) as [[gs' r]| | |]; try discriminate. cbn [bind].
  destruct (sort H cand_lt r) as [r'| | |]; try discriminate. cbn [bind].
  destruct (resize r' k' cand_default) as [r2| | |] eqn:E; try discriminate. cbn [bind]. intros [= <- <-].
  rewrite (resize_fewer r' r2 k k' cand_default Hk E). reflexivity.
Qed.

(** Any state, any arithmetic, any implementation of the standard algorithms: if
    the call for [k'] matches answers, the call for fewer matches that looks at as
    many subsequences answers the beginning of that answer, and leaves the same
    state. *)
Theorem C89_group_search : forall (N : Num) (e : env N) (s s' : api N) k k' ke target qn i st en cs,
  0 <= k <= k' ->
  exec e (CKBest k' ke target qn i st en) s = (s', Ret (ACands cs)) ->
  exec e (CKBest k ke target qn i st en) s = (s', Ret (ACands (firstn (Z.to_nat k) cs))).
Proof.
  intros N e s s' k k' ke target qn i st en cs Hk. cbn [exec]. unfold search_groups.
  destruct (query_series s target qn i st en) as [t| | |]; try discriminate.
  unfold on_set.
  destruct (find_id s target) as [id| | |]; try discriminate. destruct (deref_set s id) as [g| | |]; try discriminate.
  unfold or_same.
  destruct (getKBestMatches (e_alg e) (a_ratio s) g t k' ke) as [[g' cs']| | |] eqn:E; cbn [bind]; try discriminate.
  intros [= <- <-]. rewrite (kbest_fewer (e_alg e) (a_ratio s) g g' t k k' ke cs' Hk E). reflexivity.
Qed.
Print Assumptions C89_group_search.

(** the data of C24 *)
Example C89_example_groups :
  show_k (getKBestMatches (N := B64) simple_alg (b64_ofZ 1) (fst ex2_grouped) bf_query 2 6) =
    Some [(2, 0, 1, B2SF (b64_ofZ 0)); (3, 0, 0, B2SF (b64_lit 1 6))] /\
  show_k (getKBestMatches (N := B64) simple_alg (b64_ofZ 1) (fst ex2_grouped) bf_query 4 6) =
    Some [(2, 0, 1, B2SF (b64_ofZ 0)); (3, 0, 0, B2SF (b64_lit 1 6)); (3, 1, 0, B2SF (b64_lit 1 6)); (2, 1, 1, B2SF (b64_lit 1 4))].
Proof. split; vm_compute; reflexivity. Qed.

(** Looking at fewer subsequences is another search: its answer need not be the
    beginning of the answer that looked at more. *)
Theorem C89_examined_refuted : exists (H : std_alg) (g : gset B64) (query : TS B64) (ratio : D B64) k h h' l l',
  std_ok H /\ 1 <= k <= h /\ h <= h' /\
  show_k (getKBestMatches (N := B64) H ratio g query k h) = Some l /\ show_k (getKBestMatches (N := B64) H ratio g query k h') = Some l' /\
  l <> l'.
Proof.
  exists simple_alg, (fst ex2_grouped), bf_query, (b64_ofZ 1), 2, 3, 6.
  eexists _, _. split; [apply simple_alg_ok|]. split; [lia|]. split; [lia|]. split; [vm_compute; reflexivity|]. split; [vm_compute; reflexivity|].
  intros [=].
Qed.
Print Assumptions C89_examined_refuted.

(** ** The search of everything: the same distances *)

Section Rank.
Context {N : Num} {LW : NumLaws N}.
Variables (rows : list (list (D N))) (k : kind) (ratio : D N) (q : list (D N)) (P : place -> Prop).
Hypothesis Hs : searchable rows k ratio q P.

Lemma match_nn c : P (place_of c) -> true_match rows k ratio q c -> nn (c_dist c).
Proof.
  intros Hp (_ & Ep & Ed). destruct (Hs _ Hp) as [r Hr]. destruct (dtw_val_ok _ _ _ _ _ Hr) as (E1 & E2 & _).
  rewrite !ts_of_list_points in *. rewrite Ep, E1 in Ed. injection Ed as <-. apply (nle_nn_r _ _ E2).
Qed.

Lemma place_dec (p p' : place) : {p = p'} + {p <> p'}.
Proof. repeat decide equality. Qed.

Lemma some_missing (l l' : list place) : NoDup l -> (length l' < length l)%nat -> exists p, In p l /\ ~ In p l'.
Proof.
  intros Hn Hlt. destruct (Forall_Exists_dec (fun p => In p l') (fun p => in_dec place_dec p l') l) as [Ha|Ha].
  - exfalso. rewrite Forall_forall in Ha. pose proof (NoDup_incl_length Hn Ha). lia.
  - apply Exists_exists in Ha. exact Ha.
Qed.

Lemma In_firstn_nth {A} (l : list A) n x : In x (firstn n l) -> exists j, (j < n)%nat /\ nth_error l j = Some x.
Proof.
  intros Hx. apply In_nth_error in Hx as [j Ej]. exists j. pose proof (nth_error_Some_lt _ _ _ Ej) as Hl. rewrite firstn_length in Hl.
  split; [lia|]. rewrite nth_error_firstn_all in Ej. destruct (Nat.ltb_spec j n); [exact Ej|discriminate].
Qed.

(** the [i]th of one list of best matches is not farther than the [i]th of another *)
Lemma rank_le K K' cs cs' i c c' : best_matches rows k ratio q P K cs -> ascending cs -> best_matches rows k ratio q P K' cs' -> ascending cs' ->
  nth_error cs i = Some c -> nth_error cs' i = Some c' -> nle (c_dist c) (c_dist c').
Proof.
  intros (B1 & B2 & B3 & B4) A (B1' & B2' & B3' & B4') A' Ec Ec'.
  pose proof (nth_error_Some_lt _ _ _ Ec) as Hi. pose proof (nth_error_Some_lt _ _ _ Ec') as Hi'.
  assert (Asc : forall (xs : list (cand N)) i j x y, ascending xs -> (forall z, In z xs -> nn (c_dist z)) -> (i <= j)%nat ->
    nth_error xs i = Some x -> nth_error xs j = Some y -> nle (c_dist x) (c_dist y)).
  { intros xs a b x y Hx Hn Hab Ex Ey. destruct (Nat.eq_dec a b) as [->|Hne]; [|apply (Hx a b); auto; lia].
    rewrite Ex in Ey. injection Ey as <-. apply nle_refl, Hn. eapply nth_error_In; eauto. }
  assert (Nn : forall z, In z cs -> nn (c_dist z)) by (intros z Hz; apply match_nn; apply B1, Hz).
  assert (Nn' : forall z, In z cs' -> nn (c_dist z)) by (intros z Hz; apply match_nn; apply B1', Hz).
  destruct (some_missing (firstn (S i) (map place_of cs')) (firstn i (map place_of cs))) as (p & Hp & Hnp).
  { rewrite <- (firstn_skipn (S i)) in B2'. apply NoDup_app_l in B2'. exact B2'. }
  { rewrite !firstn_length, !map_length. lia. }
  apply In_firstn_nth in Hp as (j & Hj & Ej). rewrite nth_error_map in Ej. destruct (nth_error cs' j) as [x|] eqn:Ex; [|discriminate].
  injection Ej as <-. pose proof (nth_error_In _ _ Ex) as Hx. destruct (B1' x Hx) as [Px (Sx & Ptx & Dx)].
  pose proof (Asc cs' j i x c' A' Nn' ltac:(lia) Ex Ec') as Hxc'. eapply nle_trans; [|exact Hxc'].
  destruct (in_dec place_dec (place_of x) (map place_of cs)) as [Hin|Hni].
  - apply in_map_iff in Hin as (y & Ey & Hy). apply In_nth_error in Hy as [m Em].
    assert (Hm : (i <= m)%nat).
    { destruct (Nat.le_gt_cases i m) as [|Hlt]; auto. exfalso. apply Hnp. apply nth_error_In with m.
      rewrite nth_error_firstn_all. destruct (Nat.ltb_spec m i); [|lia]. rewrite nth_error_map, Em. cbn [option_map]. f_equal. exact Ey. }
    destruct (B1 y (nth_error_In _ _ Em)) as [Py (Sy & Pty & Dy)].
    assert (E : c_dist y = c_dist x).
    { rewrite Pty, Ey, <- Ptx, Dx in Dy. injection Dy as <-. reflexivity. }
    rewrite <- E. apply (Asc cs i m); auto.
  - apply (B4 (place_of x)); auto; [|eapply nth_error_In; eauto]. rewrite <- Ptx. exact Dx.
Qed.

(** [cs] are the distances at the beginning of [cs'] *)
Definition begins (cs cs' : list (cand N)) : Prop :=
  (length cs <= length cs')%nat /\
  forall i c c', nth_error cs i = Some c -> nth_error cs' i = Some c' -> neqv (c_dist c) (c_dist c').

Lemma best_begins K K' cs cs' : K <= K' -> best_matches rows k ratio q P K cs -> ascending cs ->
  best_matches rows k ratio q P K' cs' -> ascending cs' -> begins cs cs'.
Proof.
  intros HK B A B' A'. split.
  - pose proof B as (B1 & B2 & B3 & _). pose proof B' as (B1' & _ & B3' & _).
    destruct B3' as [E'|[Hlt Hall]].
    + destruct B3 as [E|[Hlt _]]; lia.
    + rewrite <- (map_length place_of cs), <- (map_length place_of cs'). apply NoDup_incl_length; auto.
      intros p Hp. apply in_map_iff in Hp as (c & <- & Hc). apply Hall, B1, Hc.
  - intros i c c' Ec Ec'. split; [apply (rank_le K K' cs cs' i)|apply (rank_le K' K cs' cs i)]; auto.
Qed.
End Rank.

(** IEEE doubles.  The subsequences may differ where distances are equal. *)
Theorem C89_brute_force_ieee : forall (H : std_alg) (k : kind) (d : dataset B64) (rows : list (list (D B64)))
    (query : TS B64) (ratio : D B64) K K',
  std_ok H -> holds d rows -> moderate_data rows -> moderate_query query -> moderate_ratio ratio -> 1 <= K <= K' ->
  no_near_ties (N := B64) rows k ratio (ts_points query) (long_enough rows) ->
  exists cs cs', getKBestMatchesBruteForce (N := B64) H ratio d query K (kind_name k) = Ret cs /\
    getKBestMatchesBruteForce (N := B64) H ratio d query K' (kind_name k) = Ret cs' /\ begins (N := B64) cs cs'.
Proof.
  intros H k d rows query ratio K K' Hok Hd Hm Hq Hr HK Ht.
  destruct (C26_brute_force_exact_ieee H k d rows query ratio K Hok Hd Hm Hq Hr ltac:(lia) Ht) as (cs & E & B & A).
  destruct (C26_brute_force_exact_ieee H k d rows query ratio K' Hok Hd Hm Hq Hr ltac:(lia) Ht) as (cs' & E' & B' & A').
  exists cs, cs'. split; [exact E|]. split; [exact E'|].
  apply (best_begins (N := B64) rows k ratio (ts_points query) (long_enough rows)) with (K := K) (K' := K'); auto; [|lia].
  apply searchable_moderate; auto.
Qed.
Print Assumptions C89_brute_force_ieee.

(** Exact arithmetic. *)
Theorem C89_brute_force_exact : forall (H : std_alg) (k : kind) (d : dataset XR) (rows : list (list R))
    (query : TS XR) (xs : list R) (ratio : R) K K',
  std_ok H -> holds d (real_rows rows) -> is_series query xs -> 2 <= Z.of_nat (length xs) <= 2 ^ 30 ->
  (forall row, In row rows -> Z.of_nat (length row) <= 2 ^ 30) -> (0 <= ratio <= 1)%R -> 1 <= K <= K' ->
  no_near_ties (N := XR) (real_rows rows) k (Fin ratio) (map Fin xs) (long_enough (real_rows rows)) ->
  exists cs cs', getKBestMatchesBruteForce (N := XR) H (Fin ratio) d query K (kind_name k) = Ret cs /\
    getKBestMatchesBruteForce (N := XR) H (Fin ratio) d query K' (kind_name k) = Ret cs' /\ begins (N := XR) cs cs'.
Proof.
  intros H k d rows query xs ratio K K' Hok Hd Hq Hl Hrows Hr HK Ht.
  destruct (C26_brute_force_exact_reals H k d rows query xs ratio K Hok Hd Hq Hl Hrows Hr ltac:(lia) Ht) as (cs & E & B & A).
  destruct (C26_brute_force_exact_reals H k d rows query xs ratio K' Hok Hd Hq Hl Hrows Hr ltac:(lia) Ht) as (cs' & E' & B' & A').
  exists cs, cs'. split; [exact E|]. split; [exact E'|].
  assert (Ex : ts_points query = map Fin xs) by apply Hq.
  apply (best_begins (N := XR) (real_rows rows) k (Fin ratio) (map Fin xs) (long_enough (real_rows rows))) with (K := K) (K' := K'); auto; [|lia].
  rewrite <- Ex. apply (searchable_real k rows ratio query xs); auto.
Qed.
Print Assumptions C89_brute_force_exact.

Example C89_example_brute :
  show_cands (getKBestMatchesBruteForce (N := B64) simple_alg (b64_ofZ 1) ex2_data bf_query 2 "manhattan") =
    Some [(2, 0, 1, B2SF (b64_ofZ 0)); (3, 0, 0, B2SF (b64_lit 1 6))] /\
  show_cands (getKBestMatchesBruteForce (N := B64) simple_alg (b64_ofZ 1) ex2_data bf_query 4 "manhattan") =
    Some [(2, 0, 1, B2SF (b64_ofZ 0)); (3, 0, 0, B2SF (b64_lit 1 6)); (3, 1, 0, B2SF (b64_lit 1 6)); (2, 1, 1, B2SF (b64_lit 1 4))].
Proof. split; vm_compute; reflexivity. Qed.
