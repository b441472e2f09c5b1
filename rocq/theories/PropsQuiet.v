(** Property C64: queries leave no trace.
    Specification: QuietSpec.v, ApartSpec.v, ApiSpec.v. *)
From Coq Require Import String SpecFloat.
From Verif Require Import Base Num NumB64 NumLaws LoopFacts TSSet Group GroupSpace Api ApiSpec ApiProofs ApartSpec Quiet QuietApi QuietSpec QuietFresh PropsApi PropsNorm.
Local Open Scope Z_scope.
Local Open Scope list_scope.
Local Open Scope string_scope.

(** After any history, a call that only asks - whatever its answer, also an exception - has
    no influence on the replies to any later calls.  For searches of groups this holds if
    the searched data set was not normalised since its groups were made, and is not
    normalised later. *)
Theorem C64_queries_leave_no_trace {N : Num} r0 h (s : api N) e c s' r cs :
  run r0 h s -> asks c -> exec e c s = (s', r) -> ends r ->
  (forall t, searches c t -> settled h t /\ forall e', ~ In (e', CNormalize t) cs) ->
  play cs s' = play cs s.
Proof.
  intros Hrun Ha E En H. pose proof (run_good _ _ _ Hrun) as G.
  assert (D : (exists t, searches c t) \/ forall t, ~ searches c t).
  { destruct c; cbn; eauto. }
  destruct D as [[t Ht]|D]; [|rewrite (asks_same e c s s' r Ha D E); reflexivity].
  destruct (H t Ht) as [Hs Hn]. destruct (query_rel e c s s' r t G (settled_fine _ _ _ _ Hrun Hs) Ht E) as [->|[k R]]; [reflexivity|].
  symmetry. exact (play_sim k t cs s s' G R Hn).
Qed.
Print Assumptions C64_queries_leave_no_trace.

(** Normalising makes earlier searches visible: two histories that differ in one search,
    and later calls answered differently. *)
Definition last_best (rs : list (res (answer B64))) : option (Z * coord * spec_float) := best_seen (last rs Hang).

Lemma differ (a b : list (res (answer B64))) x y : last_best a = x -> last_best b = y -> x <> y -> a <> b.
Proof. intros <- <- H ->. apply H. reflexivity. Qed.

Lemma st_run_ret e (l : list (call B64)) : forall h s, run (N := B64) (b64_ofZ 1) h s -> st_fine e l s = true ->
  exists h', run (N := B64) (b64_ofZ 1) (h ++ h') (st_after e l s) /\ map fst h' = l /\ Forall (fun p => ok (snd p)) h'.
Proof.
  induction l as [|c l IH]; intros h s Hrun Hf; [exists []; rewrite app_nil_r; auto|].
  cbn [st_fine] in Hf. apply andb_prop in Hf as [H1 H2]. destruct (run_ret _ _ _ e c Hrun H1) as [a Ha].
  destruct (IH _ _ Ha H2) as (h' & Hr & Em & Ho). exists ((c, Ret a) :: h'). rewrite <- app_assoc in Hr. split; [exact Hr|]. split; [cbn; rewrite Em; reflexivity|].
  constructor; [exists a; reflexivity|exact Ho].
Qed.

Lemma two_settled (h : list (event (N := B64))) c1 c2 t : map fst h = [c1; c2] -> Forall (fun p => ok (snd p)) h -> makes c2 t -> settled h t.
Proof.
  intros Hh Ho Hm. destruct h as [|[d1 o1] [|[d2 o2] [|]]]; try discriminate Hh. cbn in Hh. injection Hh as -> ->.
  inversion Ho as [|? ? _ Ho1]. inversion Ho1 as [|? ? [a Ea] _]. cbn in Ea. subst. exists [(c1, o1)], c2, a, []. split; [reflexivity|]. split; [exact Hm|]. intros r0 [].
Qed.

Theorem C64_normalise_refuted : exists (h : list (event (N := B64))) s s' r,
  run (N := B64) (b64_ofZ 1) h s /\ settled h "x" /\ asks st_query /\ exec st_env st_query s = (s', r) /\ is_ret r = true /\
  play [(st_env, CNormalize "x"); (st_env, st_query)] s' <> play [(st_env, CNormalize "x"); (st_env, st_query)] s.
Proof.
  set (l := [st_load; st_group]).
  destruct (st_run_ret st_env l [] ex_start (@run_start B64 (b64_ofZ 1))) as (h & Hrun & Hh & Ho); [vm_compute; reflexivity|].
  set (s := st_after st_env l ex_start) in *. exists h, s, (fst (exec st_env st_query s)), (snd (exec st_env st_query s)).
  split; [exact Hrun|]. split; [|split; [exact I|split; [apply surjective_pairing|split; [vm_compute; reflexivity|]]]].
  - exact (two_settled h _ _ "x" Hh Ho eq_refl).
  - apply (differ _ _ (Some (3, (0, 0), S754_finite false 6004799503160661 (-55))) (Some (3, (1, 0), S754_zero false))).
    + vm_compute; reflexivity.
    + vm_compute; reflexivity.
    + intros X. injection X as X _. discriminate X.
Qed.
Print Assumptions C64_normalise_refuted.

(** the hypotheses of [C64_queries_leave_no_trace] are met by a search that fills the caches
    of its data set: the data set is loaded, grouped and searched; later it is searched again,
    saved and listed *)
Definition some_best (r : res (answer B64)) : bool := match best_seen r with Some _ => true | None => false end.
Definition cached (g : gset B64) : nat :=
  match gt_groups g with
  | None => 0%nat
  | Some gs => length (filter (fun g => match g_cache g with Some _ => true | None => false end)
                 (flat_map (fun o => match o with Some L => ll_groups L | None => [] end) (gg_levels gs)))
  end.
Definition caches (s : api B64) (n : string) : nat := match held s n with Some g => cached g | None => 0%nat end.

Definition ex_later : list (env B64 * call B64) :=
  [(st_env, st_query); (st_env, CKBest 2 2 "x" "x" 0 (-1) (-1)); (st_env, CSaveGroups "x" "out"); (st_env, CAllInfo);
   (st_env, CUnload "x"); (st_env, st_query)].

Example C64_example : exists (h : list (event (N := B64))) s s' r,
  run (N := B64) (b64_ofZ 1) h s /\ exec st_env st_query s = (s', r) /\ is_ret r = true /\
  caches s "x" = 0%nat /\ caches s' "x" = 2%nat /\ play ex_later s' = play ex_later s /\ map is_ret (play ex_later s') = [true; true; true; true; true; false].
Proof.
  set (l := [st_load; st_group]).
  destruct (st_run_ret st_env l [] ex_start (@run_start B64 (b64_ofZ 1))) as (h & Hrun & Hh & Ho); [vm_compute; reflexivity|].
  set (s := st_after st_env l ex_start) in *. exists h, s, (fst (exec st_env st_query s)), (snd (exec st_env st_query s)).
  split; [exact Hrun|]. split; [apply surjective_pairing|]. split; [vm_compute; reflexivity|]. split; [vm_compute; reflexivity|]. split; [vm_compute; reflexivity|]. split.
  - refine (C64_queries_leave_no_trace _ h s st_env st_query _ (snd (exec st_env st_query s)) ex_later Hrun I (surjective_pairing _) _ _).
    + assert (X : is_ret (snd (exec st_env st_query s)) = true) by (vm_compute; reflexivity). destruct (snd (exec st_env st_query s)); try discriminate X. exact I.
    + intros t Ht. cbn in Ht. subst t. split; [exact (two_settled h _ _ "x" Hh Ho eq_refl)|].
      intros e' H. cbn in H. repeat destruct H as [H|H]; try contradiction H; apply (f_equal snd) in H; discriminate H.
  - vm_compute. reflexivity.
Qed.
