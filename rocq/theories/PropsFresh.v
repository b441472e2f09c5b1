(** Property C95: what happens with data sets does not depend on what was done before with other data sets or
    earlier ones of the same names.
    Specification: ApiSpec.v, ApartSpec.v. *)
From Coq Require Import String Ascii Lia.
From Verif Require Import Base Num NumB64 LoopFacts TimeSeries Distance TSSet StdAlg Candidate Group GroupSpace Loader Archive OldFormat BruteForce PAA
  Api ApiSpec ApiProofs ApiPaa ApiLocal ApartSpec PropsLoader PropsApi PropsApart.
Local Open Scope Z_scope.
Local Open Scope list_scope.

Lemma filter_every {A} (f : A -> bool) l : (forall x, In x l -> f x = true) -> filter f l = l.
Proof. induction l as [|x l IH]; intros H; cbn [filter]; [reflexivity|]. rewrite (H x (or_introl eq_refl)), IH; [reflexivity|]. intros y Hy. apply H. right. exact Hy. Qed.
Lemma every_reply {N : Num} (V : string -> bool) (cs : list (env N * call N)) : forall rs, (forall e c, In (e, c) cs -> own V c = true) -> (length rs <= length cs)%nat ->
  replies_to_own V cs rs = rs.
Proof.
  unfold replies_to_own. induction cs as [|[e c] cs IH]; intros [|r rs] H L; cbn [length combine filter map fst snd] in *; try reflexivity; [lia|].
  rewrite (H e c (or_introl eq_refl)). cbn [map snd]. f_equal. apply IH; [|lia]. intros e' c' Hi. apply (H e' c'). right. exact Hi.
Qed.
Lemma play_short {N : Num} (cs : list (env N * call N)) : forall s, (length (play cs s) <= length cs)%nat.
Proof.
  induction cs as [|[e c] cs IH]; intros s; cbn [play]; [auto|]. destruct (exec e c s) as [s' r]. cbn [length]. apply le_n_S.
  destruct r; cbn [length]; try lia; apply IH.
Qed.

(** Two sessions with any histories, in which the same warping band is in force and the names in [V] are not in use
    and were never prepared for PAA: the same calls about data sets with names in [V] get the same replies. *)
Theorem C95_fresh : forall (N : Num) (r1 r2 : D N) (h1 h2 : list event) (s1 s2 : api N) (V : string -> bool) cs,
  run r1 h1 s1 -> run r2 h2 s2 -> a_ratio s1 = a_ratio s2 ->
  (forall n, V n = true -> held s1 n = None /\ held s2 n = None /\ forall b r, ~ In (CPrepare n b, r) h1 /\ ~ In (CPrepare n b, r) h2) ->
  (forall e c, In (e, c) cs -> own V c = true) -> Forall ends (play cs s1) ->
  play cs s1 = play cs s2.
Proof.
  intros N r1 r2 h1 h2 s1 s2 V cs R1 R2 Er HV Hc He.
  assert (W : forall n r h s, run r h s -> (forall b x, ~ In (CPrepare n b, x) h) -> wst (N := N) s n = None).
  { intros n r h s R H. unfold wst. destruct (assoc n (a_paa s)) as [w|] eqn:E; [|reflexivity].
    destruct (has_origin r h s n R) as (b & x & Hi); [eauto|]. destruct (H b x Hi). }
  pose proof (apart V cs s1 s2 (run_good _ _ _ R1) (run_good _ _ _ R2) (run_paas _ _ _ R1) (run_paas _ _ _ R2) Er) as A.
  rewrite every_reply in A; [|exact Hc|apply play_short]. rewrite filter_every in A by (intros [e c] Hi; exact (Hc e c Hi)).
  apply A; [|intros e c Hi; left; exact (Hc e c Hi)|exact He].
  intros n Hn. destruct (HV n Hn) as (H1 & H2 & H3). split; [congruence|].
  rewrite (W n r1 h1 s1 R1), (W n r2 h2 s2 R2); [reflexivity| |]; intros b x; apply H3.
Qed.
Print Assumptions C95_fresh.

(** A data set that is unloaded and loaded again answers like one loaded by a new process. *)
Corollary C95_reloaded : forall (N : Num) (r : D N) (h : list event) (s s' : api N) n e1 e2 c cs a,
  run r h s -> a_ratio s = r -> (forall b x, ~ In (CPrepare n b, x) h) -> exec e1 (CUnload n) s = (s', Ret a) ->
  (exists path seps rows col named, c = CLoad n path seps rows col named) ->
  (forall e c', In (e, c') cs -> own (String.eqb n) c' = true) ->
  Forall ends (play ((e2, c) :: cs) s') -> play ((e2, c) :: cs) s' = play ((e2, c) :: cs) (api_new r).
Proof.
  intros N r h s s' n e1 e2 c cs a R Er Hp Eu Hl Hc He.
  pose proof (run_good _ _ _ R) as G.
  destruct (unload_spec e1 s n s' (Ret a) G Eu) as [(_ & _ & X)|(_ & _ & _ & Hn & _ & _ & Er')]; [discriminate|].
  apply (C95_fresh N r r (h ++ [(CUnload n, Ret a)]) [] s' (api_new r) (String.eqb n)).
  - econstructor; [exact R|exact Eu|exact I].
  - constructor.
  - rewrite Er', Er. reflexivity.
  - intros m Hm. apply String.eqb_eq in Hm as <-. split; [exact Hn|]. split; [reflexivity|]. intros b x. split; [|intros []].
    intros Hi. apply in_app_or in Hi as [Hi|[Hi|[]]]; [exact (Hp b x Hi)|discriminate].
  - intros e c' [Hi|Hi]; [|exact (Hc e c' Hi)]. injection Hi as <- <-. destruct Hl as (path & seps & rows & col & named & ->). cbn [own]. apply String.eqb_refl.
  - exact He.
Qed.
Print Assumptions C95_reloaded.

(** False if the name was prepared for PAA: the preparation of the old data set is still there. *)
Definition again : list (env B64 * call B64) := [(ex_env, ex_load "x"); (ex_env, CPAA 1 "x" "x" 0 (-1) (-1) "euclidean")].
Lemma all_ended (rs : list (res (answer B64))) : forallb (fun r => match r with Ret _ | Throw _ => true | _ => false end) rs = true -> Forall ends rs.
Proof. intros H. apply Forall_forall. intros r Hr. apply (proj1 (forallb_forall _ _) H) in Hr. destruct r; try discriminate; exact I. Qed.
Lemma all_own (V : string -> bool) (cs : list (env B64 * call B64)) : forallb (fun p => own V (snd p)) cs = true -> forall e c, In (e, c) cs -> own V c = true.
Proof. intros H e c Hi. exact (proj1 (forallb_forall _ _) H (e, c) Hi). Qed.
Theorem C95_prepared_refuted : exists (h : list (event (N := B64))) s (V : string -> bool),
  run (N := B64) (b64_ofZ 1) h s /\ (forall n, V n = true -> held s n = None) /\ a_ratio s = a_ratio ex_start /\
  (forall e c, In (e, c) again -> own V c = true) /\ Forall ends (play again ex_start) /\ play again ex_start <> play again s.
Proof.
  destruct ex_history as (a1 & a2 & a3 & _ & _ & _ & H3 & _). eexists _, ex_s3, (String.eqb "x"). split; [exact H3|]. split.
  { intros n E. apply String.eqb_eq in E as <-. exact (eq_refl (@None (gset B64)) <: held ex_s3 "x" = None). }
  split; [exact (eq_refl (a_ratio ex_start) <: a_ratio ex_s3 = a_ratio ex_start)|]. split; [|split; [apply all_ended; vm_compute; reflexivity|]].
  - apply all_own. vm_compute. reflexivity.
  - intros E. apply (f_equal (map sight)) in E. vm_compute in E. discriminate E.
Qed.
Print Assumptions C95_prepared_refuted.

(** The data set of the examples of C32 is unloaded, loaded again, grouped and searched. *)
Definition once_more : list (env B64 * call B64) :=
  [(ex_env, CGroup (N := B64) "x" (b64_ofZ 1) "euclidean" 1 false); (ex_env, CBest "x" "x" 0 (-1) (-1)); (ex_env, CInfo "x")].
Definition fresh_s : api B64 := fst (exec ex_env (CUnload "x") ex_s1).
Example C95_example : (exists h, run (N := B64) (b64_ofZ 1) h ex_s1 /\ forall b x, ~ In (CPrepare "x" b, x) h) /\
  sight (snd (exec ex_env (CUnload "x") ex_s1)) = Done /\
  (forall e c, In (e, c) once_more -> own (String.eqb "x") c = true) /\
  map sight (play ((ex_env, ex_load "x") :: once_more) fresh_s) = [Done; Done; Done; Done].
Proof.
  split; [|split; [vm_compute; reflexivity|split; [|vm_compute; reflexivity]]].
  - destruct ex_history as (a1 & _ & _ & _ & H1 & _). eexists. split; [exact H1|]. intros b x [E|[]]. discriminate E.
  - apply all_own. vm_compute. reflexivity.
Qed.
