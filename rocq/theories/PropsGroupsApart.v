(** Property C93: groups influence nothing but the calls about groups.
    Specification: ApartSpec.v and the following two definitions. *)
From Coq Require Import String Ascii Lia.
From Verif Require Import Base Num NumB64 LoopFacts TimeSeries Distance TSSet StdAlg Candidate Group GroupSpace Loader Archive OldFormat BruteForce PAA
  DataSpec DataProofs GroupDist QuerySpec PAAProofs Api ApiSpec ApartSpec ApiProofs ApiQuery HeapFacts PropsLoader PropsApi.
Local Open Scope Z_scope.
Local Open Scope list_scope.

Section Spec.
Context {N : Num}.
(** calls that are not about groups: all but making, saving, loading and searching them and asking for the
    description of data sets, which includes that of their groups *)
Definition not_on_groups (c : call N) : bool :=
  match c with
  | CGroup _ _ _ _ _ | CSaveGroups _ _ | CLoadGroups _ _ | CSaveText _ _ _ | CLoadText _ _
  | CBest _ _ _ _ _ | CKBest _ _ _ _ _ _ _ | CInfo _ | CAllInfo => false
  | _ => true
  end.
(** of the replies [rs] to the calls [cs] those to such calls *)
Fixpoint replies_not_on_groups (cs : list (env N * call N)) (rs : list (res (answer N))) : list (res (answer N)) :=
  match cs, rs with
  | (_, c) :: cs', r :: rs' => if not_on_groups c then r :: replies_not_on_groups cs' rs' else replies_not_on_groups cs' rs'
  | _, _ => []
  end.
End Spec.

(** ** from here on proofs *)
Section Proofs.
Context {N : Num}.
Implicit Types (s : api N) (g : gset N).

Definition bare_set (o : option (gset N)) : option (gset N) := option_map (fun g => mkGS (gt_data g) None) o.
Definition bare s : api N := mkApi (a_sets s) (map bare_set (a_objs s)) (a_paa s) (a_count s) (a_ratio s).

Lemma map_upd_at {A B} (f : A -> B) (l : list A) : forall k x, map f (upd l k x) = upd (map f l) k (f x).
Proof. induction l as [|a l IH]; intros [|k] x; cbn; auto. f_equal. apply IH. Qed.
Lemma upd_idle {A} (l : list A) : forall k x, nth_error l k = Some x -> upd l k x = l.
Proof. induction l as [|a l IH]; intros [|k] x E; cbn in *; try congruence. f_equal. apply IH. exact E. Qed.
Lemma assoc_put_same {A} k (v : A) l : assoc k (map_put k v l) = Some v.
Proof.
  induction l as [|[k' v'] l IH]; cbn [map_put assoc]; [rewrite String.eqb_refl; reflexivity|].
  destruct (String.compare k k') eqn:E; cbn [assoc]; [rewrite String.eqb_refl; reflexivity..|].
  destruct (String.eqb_spec k k') as [->|]; [rewrite compare_refl in E; discriminate|exact IH].
Qed.
Lemma bare_id s n : find_id (bare s) n = find_id s n.
Proof. reflexivity. Qed.
Lemma bare_deref s id : deref_set (bare s) id = (g <- deref_set s id ;; Ret (mkGS (gt_data g) None)).
Proof. unfold deref_set, bare. cbn [a_objs]. rewrite nth_error_map. destruct (nth_error (a_objs s) id) as [[g|]|]; reflexivity. Qed.
Lemma bare_find s n : find_set (bare s) n = (g <- find_set s n ;; Ret (mkGS (gt_data g) None)).
Proof. unfold find_set. rewrite bare_id. destruct (find_id s n); try reflexivity. cbn [bind]. apply bare_deref. Qed.
Lemma bare_query s t qn i st en : query_series (bare s) t qn i st en = query_series s t qn i st en.
Proof. unfold query_series. rewrite bare_id, bare_find. destruct (find_id s t); try reflexivity. cbn [bind]. destruct (find_set s qn); reflexivity. Qed.
Lemma bare_two s n1 i1 b1 e1 n2 i2 b2 e2 : two_series (bare s) n1 i1 b1 e1 n2 i2 b2 e2 = two_series s n1 i1 b1 e1 n2 i2 b2 e2.
Proof.
  unfold two_series. rewrite !bare_id. destruct (find_id s n1) as [id1| | |]; try reflexivity. destruct (find_id s n2) as [id2| | |]; try reflexivity.
  cbn [bind]. rewrite !bare_deref. destruct (deref_set s id1) as [g1| | |]; try reflexivity. cbn [bind gt_data].
  destruct (getTimeSeries (gt_data g1) i1 b1 e1); try reflexivity. cbn [bind]. destruct (deref_set s id2); reflexivity.
Qed.
Lemma bare_obj s k : nth_error (a_objs (bare s)) k = option_map bare_set (nth_error (a_objs s) k).
Proof. unfold bare. cbn [a_objs]. apply nth_error_map. Qed.

(** a call that changes nothing but groups *)
Lemma on_set_bare s n f : (forall g, gt_data (fst (f g)) = gt_data g) -> bare (fst (on_set s n f)) = bare s.
Proof.
  intros H. unfold on_set, find_id, deref_set. destruct (assoc n (a_sets s)) as [id|]; [|reflexivity].
  destruct (nth_error (a_objs s) id) as [[g|]|] eqn:E; [|reflexivity..]. specialize (H g). destruct (f g) as [g' r]. cbn [fst] in *.
  unfold bare, put_obj. cbn [a_sets a_objs a_paa a_count a_ratio]. f_equal. rewrite map_upd_at. apply upd_idle.
  rewrite nth_error_map, E. cbn [option_map bare_set]. rewrite H. reflexivity.
Qed.
Lemma groups_only e c s : not_on_groups c = false -> bare (fst (exec e c s)) = bare s.
Proof.
  intros Hc. destruct c; try discriminate Hc; cbn [exec]; try reflexivity.
  - apply on_set_bare. intros g. destruct (groupAllLengths _ _ g _ _ _ _) as [g2 r2] eqn:Eg. exact (gg_group_data _ _ _ _ _ _ _ _ _ Eg).
  - apply on_set_bare. intros g. destruct (loadFromFile _ g) as [g2 r2] eqn:Eg. exact (load_data_same _ _ _ _ Eg).
  - apply on_set_bare. intros g. destruct (loadGroupsOld _ _ g) as [g2 r2] eqn:Eg. exact (load_text_data_same _ _ _ _ _ Eg).
  - destruct (query_series _ _ _ _ _ _) as [q| | |]; try reflexivity. apply on_set_bare. intros g.
    destruct (getBestMatch _ g q) as [[g2 c]| | |] eqn:Eb; try reflexivity. exact (best_data _ _ _ _ _ Eb).
  - destruct (query_series _ _ _ _ _ _) as [q| | |]; try reflexivity. apply on_set_bare. intros g.
    destruct (getKBestMatches _ _ g q _ _) as [[g2 c]| | |] eqn:Eb; try reflexivity. exact (kbest_data _ _ _ _ _ _ _ _ Eb).
Qed.

(** the other calls do the same with and without groups *)
Lemma bare_exec e c s : not_on_groups c = true -> exec e c (bare s) = (bare (fst (exec e c s)), snd (exec e c s)).
Proof.
  intros Hc. destruct c; try discriminate Hc; cbn [exec]; try reflexivity.
  - (* load *) cbn [bare a_sets a_objs a_paa a_count a_ratio]. destruct (assoc name (a_sets s)); [reflexivity|].
    destruct (loadData _ _ _ _ _ _ _ _) as [d [u|[]| |]]; try reflexivity.
    + unfold pure. cbn [fst snd]. f_equal.
      * unfold bare. cbn [a_sets a_objs a_paa a_count a_ratio]. rewrite map_app, map_length. reflexivity.
      * f_equal. unfold getDatasetInfo, find_set, find_id. cbn [a_sets]. rewrite map_length.
        rewrite assoc_put_same. cbn [bind]. unfold deref_set. cbn [a_objs].
        rewrite nth_error_app2 by (rewrite map_length; lia). rewrite nth_error_app2 by lia. rewrite map_length, Nat.sub_diag. reflexivity.
    + unfold bare. cbn [fst snd a_sets a_objs a_paa a_count a_ratio]. rewrite map_app. reflexivity.
    + unfold bare. cbn [fst snd a_sets a_objs a_paa a_count a_ratio]. rewrite map_app. reflexivity.
  - unfold pure. rewrite bare_find. destruct (find_set s name); reflexivity.
  - rewrite bare_id. destruct (find_id s name) as [id| | |]; try reflexivity. rewrite bare_deref. destruct (deref_set s id) as [g| | |]; try reflexivity.
    cbn [bind fst snd]. unfold bare. cbn [a_sets a_objs a_paa a_count a_ratio]. rewrite map_upd_at. reflexivity.
  - cbn [fst snd]. f_equal. unfold bare. cbn [a_sets a_objs a_paa a_count a_ratio]. f_equal.
    generalize (a_objs s). induction (a_sets s) as [|p l IH]; intros objs; cbn [fold_left]; [reflexivity|]. rewrite <- IH, map_upd_at. reflexivity.
  - unfold pure. rewrite bare_find. destruct (find_set s name); reflexivity.
  - unfold pure. rewrite bare_find. destruct (find_set s name); reflexivity.
  - unfold pure. rewrite bare_find. destruct (find_set s name); reflexivity.
  - unfold on_set. rewrite bare_id. destruct (find_id s name) as [id| | |]; try reflexivity. rewrite bare_deref. destruct (deref_set s id) as [g| | |] eqn:Eg; try reflexivity.
    assert (Hg : nth_error (a_objs s) id = Some (Some g)) by (unfold deref_set in Eg; destruct (nth_error (a_objs s) id) as [[g0|]|]; congruence).
    cbn [bind gt_data]. destruct (normalize (gt_data g)) as [[d [a b]]| | |]; cbn [bind or_same fst snd gt_groups]; f_equal;
      unfold bare, put_obj; cbn [a_sets a_objs a_paa a_count a_ratio]; rewrite map_upd_at; reflexivity.
  - unfold pure. rewrite bare_query, bare_find. destruct (query_series _ _ _ _ _ _); try reflexivity. cbn [bind]. destruct (find_set s target); reflexivity.
  - rewrite bare_id. destruct (find_id s name) as [id| | |]; try reflexivity. change (a_paa (bare s)) with (a_paa s). rewrite bare_deref.
    assert (Ew : (match assoc name (a_paa s) with Some w => Ret w | None => g <- (g <- deref_set s id ;; Ret (mkGS (gt_data g) None)) ;; p <- paa_new (gt_data g) ;; Ret (id, p) end) =
      (match assoc name (a_paa s) with Some w => Ret w | None => g <- deref_set s id ;; p <- paa_new (gt_data g) ;; Ret (id, p) end)).
    { destruct (assoc name (a_paa s)); [reflexivity|]. destruct (deref_set s id); reflexivity. }
    rewrite Ew. clear Ew. set (W := match assoc name (a_paa s) with Some w => Ret w | None => g <- deref_set s id ;; p <- paa_new (gt_data g) ;; Ret (id, p) end).
    destruct W as [w| | |]; [|reflexivity..].
    assert (Eg : wrapper_generate (bare s) w blockSize = wrapper_generate s w blockSize).
    { unfold wrapper_generate. rewrite bare_obj. destruct (nth_error (a_objs s) (fst w)) as [[g|]|]; reflexivity. }
    rewrite Eg. destruct (wrapper_generate s w blockSize). reflexivity.
  - unfold pure. rewrite !bare_id. destruct (find_id s target); try reflexivity. destruct (find_id s query) as [q| | |]; try reflexivity. cbn [bind]. change (a_paa (bare s)) with (a_paa s).
    destruct (assoc target (a_paa s)) as [w|]; [|reflexivity]. rewrite bare_deref. destruct (deref_set s q) as [g| | |]; try reflexivity. cbn [bind gt_data].
    destruct (getTimeSeries _ _ _ _) as [t| | |]; try reflexivity. cbn [bind fst snd]. f_equal. f_equal.
    unfold wrapper_search. rewrite bare_obj. destruct (nth_error (a_objs s) (fst w)) as [[g1|]|]; reflexivity.
  - unfold pure. rewrite bare_two. reflexivity.
  - unfold pure. rewrite bare_two. reflexivity.
Qed.

Lemma play_bare cs : forall s s', bare s' = bare s -> Forall ends (play cs s) ->
  replies_not_on_groups cs (play cs s) = play (filter (fun p => not_on_groups (snd p)) cs) s'.
Proof.
  induction cs as [|[e c] cs IH]; intros s s' Es He; [reflexivity|]. cbn [play filter snd] in *. destruct (exec e c s) as [s1 r] eqn:E.
  inversion He as [|r1 l1 Hr Hl]; subst. cbn [replies_not_on_groups].
  assert (Er : (match r with Ret _ | Throw _ => play cs s1 | _ => [] end) = play cs s1) by (destruct r; try contradiction; reflexivity).
  rewrite Er in *. destruct (not_on_groups c) eqn:Ec.
  - cbn [play]. destruct (exec e c s') as [s2 r2] eqn:E2. pose proof (bare_exec e c s Ec) as B1. pose proof (bare_exec e c s' Ec) as B2.
    rewrite Es, E2 in B2. cbn [fst snd] in *. rewrite E in B1. cbn [fst snd] in B1. rewrite B1 in B2.
    assert (Eb := f_equal fst B2). assert (Ere := f_equal snd B2). cbn [fst snd] in Eb, Ere. subst r2.
    f_equal. destruct r; try contradiction; apply IH; auto.
  - apply IH; auto. rewrite Es. pose proof (groups_only e c s Ec) as B. rewrite E in B. symmetry. exact B.
Qed.
End Proofs.

(** Leaving the calls about groups out of a sequence of calls (which all end) changes no reply to the others. *)
Theorem C93_groups_apart : forall (N : Num) (s : api N) cs, Forall ends (play cs s) ->
  replies_not_on_groups cs (play cs s) = play (filter (fun p => not_on_groups (snd p)) cs) s.
Proof. intros N s cs He. apply play_bare; auto. Qed.
Print Assumptions C93_groups_apart.

(** Grouping, a search, a grouping that fails and loading groups that are missing, between other calls. *)
Definition mixed : list (env B64 * call B64) :=
  [(ex_env, CGroup (N := B64) "x" (b64_ofZ 1) "euclidean" 1 false); (ex_env, CBrute 2 "x" "x" 0 (-1) (-1) "euclidean"); (ex_env, CBest "x" "x" 0 (-1) (-1));
   (ex_env, CNormalize "x"); (ex_env, CGroup (N := B64) "x" (b64_ofZ 1) "no such" 1 false); (ex_env, CDistance "x" 0 0 2 "x" 1 0 2 "euclidean_dtw");
   (ex_env, CLoadGroups "x" "missing"); (ex_env, CUnload "x"); (ex_env, CSeries "x" 0 0 2)].
Lemma every_ends (rs : list (res (answer B64))) : forallb (fun r => match r with Ret _ | Throw _ => true | _ => false end) rs = true -> Forall ends rs.
Proof. intros H. apply Forall_forall. intros r Hr. apply (proj1 (forallb_forall _ _) H) in Hr. destruct r; try discriminate; exact I. Qed.
Example C93_example : Forall ends (play mixed ex_s1) /\
  map sight (play mixed ex_s1) = [Done; Done; Done; Done; Raised "Cannot find distance with name: no such"; Done; Raised "Cannot open file"; Done;
    Raised "There is no dataset with the given name"] /\
  map sight (replies_not_on_groups mixed (play mixed ex_s1)) = [Done; Done; Done; Done; Raised "There is no dataset with the given name"].
Proof. split; [apply every_ends; vm_compute; reflexivity|]. split; vm_compute; reflexivity. Qed.
