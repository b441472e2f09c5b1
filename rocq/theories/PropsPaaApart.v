(** Property C94: preparing PAA and searching with it influence nothing else.
    Specification: ApartSpec.v and the following two definitions. *)
From Coq Require Import String Ascii Lia.
From Verif Require Import Base Num NumB64 LoopFacts TimeSeries Distance TSSet StdAlg Candidate Group GroupSpace Loader Archive OldFormat BruteForce PAA
  Api ApiSpec ApartSpec PropsLoader PropsApi.
Local Open Scope Z_scope.
Local Open Scope list_scope.

Section Spec.
Context {N : Num}.
(** calls that neither prepare PAA nor search with it *)
Definition not_on_paa (c : call N) : bool := match c with CPrepare _ _ | CPAA _ _ _ _ _ _ _ => false | _ => true end.
(** of the replies [rs] to the calls [cs] those to such calls *)
Fixpoint replies_not_on_paa (cs : list (env N * call N)) (rs : list (res (answer N))) : list (res (answer N)) :=
  match cs, rs with
  | (_, c) :: cs', r :: rs' => if not_on_paa c then r :: replies_not_on_paa cs' rs' else replies_not_on_paa cs' rs'
  | _, _ => []
  end.
End Spec.

(** ** from here on proofs *)
Section Proofs.
Context {N : Num}.
Implicit Types (s : api N).
Definition unprepared s : api N := mkApi (a_sets s) (a_objs s) [] (a_count s) (a_ratio s).

Lemma paa_only e c s : not_on_paa c = false -> unprepared (fst (exec e c s)) = unprepared s.
Proof.
  intros Hc. destruct c; try discriminate Hc; cbn [exec]; [|reflexivity].
  destruct (find_id s name) as [id| | |]; try reflexivity.
  set (W := match assoc name (a_paa s) with Some w => Ret w | None => g <- deref_set s id ;; p <- paa_new (gt_data g) ;; Ret (id, p) end).
  destruct W as [w| | |]; [|reflexivity..]. destruct (wrapper_generate s w blockSize). reflexivity.
Qed.
Lemma infos_unprepared s ns : each_info (unprepared s) ns = each_info s ns.
Proof. induction ns as [|n ns IH]; cbn [each_info]; [reflexivity|]. rewrite IH. reflexivity. Qed.
Lemma on_set_unprepared s n f : on_set (unprepared s) n f = (unprepared (fst (on_set s n f)), snd (on_set s n f)).
Proof.
  unfold on_set, find_id, deref_set, unprepared. cbn [a_sets a_objs]. destruct (assoc n (a_sets s)) as [id|]; [|reflexivity].
  destruct (nth_error (a_objs s) id) as [[g|]|]; [|reflexivity..]. destruct (f g). reflexivity.
Qed.
Lemma unprepared_exec e c s : not_on_paa c = true -> exec e c (unprepared s) = (unprepared (fst (exec e c s)), snd (exec e c s)).
Proof.
  intros Hc. destruct c; try discriminate Hc; try reflexivity; cbn [exec]; try apply on_set_unprepared.
  - cbn [unprepared a_sets]. destruct (assoc name (a_sets s)); [reflexivity|]. destruct (loadData _ _ _ _ _ _ _ _) as [d [u|[]| |]]; reflexivity.
  - unfold find_id, deref_set, unprepared. cbn [a_sets a_objs a_paa]. destruct (assoc name (a_sets s)) as [id|]; [|reflexivity].
    destruct (nth_error (a_objs s) id) as [[g|]|]; reflexivity.
  - unfold pure. rewrite infos_unprepared. reflexivity.
  - change (query_series (unprepared s)) with (query_series s). destruct (query_series s _ _ _ _ _) as [q| | |]; try reflexivity. apply on_set_unprepared.
  - change (query_series (unprepared s)) with (query_series s). destruct (query_series s _ _ _ _ _) as [q| | |]; try reflexivity. apply on_set_unprepared.
Qed.
Lemma play_unprepared cs : forall s s', unprepared s' = unprepared s -> Forall ends (play cs s) ->
  replies_not_on_paa cs (play cs s) = play (filter (fun p => not_on_paa (snd p)) cs) s'.
Proof.
  induction cs as [|[e c] cs IH]; intros s s' Es He; [reflexivity|]. cbn [play filter snd] in *. destruct (exec e c s) as [s1 r] eqn:E.
  inversion He as [|r1 l1 Hr Hl]; subst. cbn [replies_not_on_paa].
  assert (Er : (match r with Ret _ | Throw _ => play cs s1 | _ => [] end) = play cs s1) by (destruct r; try contradiction; reflexivity).
  rewrite Er in *. destruct (not_on_paa c) eqn:Ec.
  - cbn [play]. destruct (exec e c s') as [s2 r2] eqn:E2. pose proof (unprepared_exec e c s Ec) as B1. pose proof (unprepared_exec e c s' Ec) as B2.
    rewrite Es, E2 in B2. cbn [fst snd] in *. rewrite E in B1. cbn [fst snd] in B1. rewrite B1 in B2.
    assert (Eb := f_equal fst B2). assert (Ere := f_equal snd B2). cbn [fst snd] in Eb, Ere. subst r2.
    f_equal. destruct r; try contradiction; apply IH; auto.
  - apply IH; auto. rewrite Es. pose proof (paa_only e c s Ec) as B. rewrite E in B. symmetry. exact B.
Qed.
End Proofs.

(** Leaving the calls about PAA out of a sequence of calls (which all end) changes no reply to the others. *)
Theorem C94_paa_apart : forall (N : Num) (s : api N) cs, Forall ends (play cs s) ->
  replies_not_on_paa cs (play cs s) = play (filter (fun p => not_on_paa (snd p)) cs) s.
Proof. intros N s cs He. apply play_unprepared; auto. Qed.
Print Assumptions C94_paa_apart.

(** Preparing PAA, refusing to, and searching with it, between other calls. *)
Definition mixed_paa : list (env B64 * call B64) :=
  [(ex_env, CPrepare "x" 1); (ex_env, CNormalize "x"); (ex_env, CPrepare "x" 0); (ex_env, CGroup (N := B64) "x" (b64_ofZ 1) "euclidean" 1 false);
   (ex_env, CPAA 1 "x" "x" 0 (-1) (-1) "euclidean"); (ex_env, CBest "x" "x" 0 (-1) (-1)); (ex_env, CUnload "x"); (ex_env, CInfo "x")].
Lemma all_end (rs : list (res (answer B64))) : forallb (fun r => match r with Ret _ | Throw _ => true | _ => false end) rs = true -> Forall ends rs.
Proof. intros H. apply Forall_forall. intros r Hr. apply (proj1 (forallb_forall _ _) H) in Hr. destruct r; try discriminate; exact I. Qed.
Example C94_example : Forall ends (play mixed_paa ex_s1) /\
  map sight (replies_not_on_paa mixed_paa (play mixed_paa ex_s1)) = [Done; Done; Done; Done; Raised "There is no dataset with the given name"].
Proof. split; [apply all_end; vm_compute; reflexivity|vm_compute; reflexivity]. Qed.
