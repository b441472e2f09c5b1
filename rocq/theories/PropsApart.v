(** Properties C62 (a call that ends with an exception changes nothing) and C63 (data
    sets do not influence each other).
    Specification: ApartSpec.v, ApiSpec.v. *)
From Coq Require Import Sorted.
From Verif Require Import Base Num NumB64 NumLaws LoopFacts TimeSeries TSSet Distance StdAlg HeapFacts Candidate Group GroupSpace PAA PAAProofs Archive OldFormat
  Loader DataSpec Api ApiSpec ApiProofs ApiQuery ApiPaa ApiLocal ApartSpec PropsPAA DistFacts PropsDistance PropsApi.
Local Open Scope Z_scope.
Local Open Scope list_scope.

Section Step.
Context {N : Num}.
Implicit Types s : api N.

Lemma sorted_same : forall l l' : list string, ascending_names l -> ascending_names l' -> (forall n, In n l <-> In n l') -> l = l'.
Proof.
  assert (T : forall a b c, String.compare a b = Lt -> String.compare b c = Lt -> String.compare a c = Lt) by exact lts_trans.
  assert (I : forall a, String.compare a a <> Lt) by (intros a C; exact (lts_neq a a C eq_refl)).
  induction l as [|a l IH]; intros l' Hl Hl' H.
  - destruct l' as [|b l']; [reflexivity|]. destruct (proj2 (H b) (or_introl eq_refl)).
  - destruct l' as [|b l']; [destruct (proj1 (H a) (or_introl eq_refl))|].
    inversion Hl as [|? ? Sl Fl]; subst. inversion Hl' as [|? ? Sl' Fl']; subst. rewrite Forall_forall in Fl, Fl'.
    assert (E : a = b).
    { destruct (proj1 (H a) (or_introl eq_refl)) as [E|Hin]; [auto|].
      destruct (proj2 (H b) (or_introl eq_refl)) as [E|Hin']; [auto|].
      exfalso. apply (I a). exact (T a b a (Fl b Hin') (Fl' a Hin)). }
    subst b. f_equal. apply IH; auto. intros n. split; intros Hn.
    + destruct (proj1 (H n) (or_intror Hn)) as [<-|X]; auto. exfalso. exact (I a (Fl a Hn)).
    + destruct (proj2 (H n) (or_intror Hn)) as [<-|X]; auto. exfalso. exact (I a (Fl' a Hn)).
Qed.

Lemma ends_dec {A} (r : res A) : ends r \/ ~ ends r.
Proof. destruct r; cbn; auto. Qed.

Definition inside (V : string -> Prop) (c : call N) : Prop :=
  match c with
  | CLoad n _ _ _ _ _ => V n
  | CCount | CAllInfo => forall n, V n
  | _ => forall n, In n (needs c) -> V n
  end.

Lemma each_info_local s1 s2 ns : good s1 -> good s2 -> (forall n, In n ns -> held s1 n = held s2 n) -> each_info s1 ns = each_info s2 ns.
Proof.
  intros G1 G2. induction ns as [|n ns IH]; intros H; cbn [each_info]; [reflexivity|].
  rewrite (info_local s1 s2 n G1 G2) by (apply H; left; reflexivity). rewrite IH by (intros; apply H; right; auto). reflexivity.
Qed.

Lemma local_step (V : string -> Prop) e c s1 s2 t1 r1 t2 r2 : good s1 -> good s2 -> paas s1 -> paas s2 -> a_ratio s1 = a_ratio s2 ->
  (forall n, V n -> same_local s1 s2 n) -> inside V c ->
  exec e c s1 = (t1, r1) -> exec e c s2 = (t2, r2) ->
  r1 = r2 /\ (ends r1 -> a_ratio t1 = a_ratio t2 /\ forall n, V n -> same_local t1 t2 n).
Proof.
  intros G1 G2 P1 P2 Hr HV Hc E1 E2.
  assert (HH : forall n, V n -> held s1 n = held s2 n) by (intros n Hn; apply HV, Hn).
  assert (FS : forall n, V n -> find_set s1 n = find_set s2 n) by (intros n Hn; rewrite !find_set_held by auto; rewrite HH by auto; reflexivity).
  assert (Pure : forall A (q1 q2 : res A) f, q1 = q2 -> pure s1 q1 f = (t1, r1) -> pure s2 q2 f = (t2, r2) ->
    r1 = r2 /\ (ends r1 -> a_ratio t1 = a_ratio t2 /\ forall n, V n -> same_local t1 t2 n)).
  { intros A q1 q2 f -> X1 X2. unfold pure in *. injection X1 as <- <-. injection X2 as <- <-. auto. }
  assert (Post : forall n, r1 = r2 /\ a_ratio t1 = a_ratio t2 /\ (forall m, same_local s1 s2 m -> same_local t1 t2 m) ->
    V n -> r1 = r2 /\ (ends r1 -> a_ratio t1 = a_ratio t2 /\ forall n, V n -> same_local t1 t2 n)).
  { intros n (X & Y & Z) _. auto. }
  destruct c; cbn [inside needs] in Hc; cbn [exec] in E1, E2;
    try (assert (Vn : V name) by (apply Hc; left; reflexivity));
    try (assert (Vt : V target) by (apply Hc; left; reflexivity)); try (assert (Vq : V query) by (apply Hc; right; left; reflexivity)).
  - (* load *) destruct (local_load e s1 s2 name path separators maxNumRow startCol hasName t1 r1 t2 r2 G1 G2 P1 P2 (HH _ Hc) Hr E1 E2) as [X Y].
    split; [exact X|]. intros He. destruct (Y He) as [Y1 Y2]. auto.
  - eapply Pure; [|exact E1|exact E2]. rewrite FS by auto. reflexivity.
  - destruct (local_unload e s1 s2 name t1 r1 t2 r2 G1 G2 P1 P2 (HV _ Vn) Hr E1 E2) as (X & Y & Z). auto.
  - destruct (local_unload_all e s1 s2 t1 r1 t2 r2 G1 G2 P1 P2 Hr E1 E2) as (X & Y & Z). auto.
  - (* count *) injection E1 as <- <-. injection E2 as <- <-. split; [|auto]. do 2 f_equal. rewrite (g_count s1 G1), (g_count s2 G2).
    assert (K : keys (a_sets s1) = keys (a_sets s2)).
    { apply sorted_same; [apply G1|apply G2|]. intros n. rewrite <- !held_name by auto. rewrite HH by auto. reflexivity. }
    apply (f_equal (@length string)) in K. unfold keys in K. rewrite !map_length in K. congruence.
  - eapply Pure; [|exact E1|exact E2]. rewrite FS by auto. reflexivity.
  - eapply Pure; [|exact E1|exact E2]. rewrite FS by auto. reflexivity.
  - eapply Pure; [|exact E1|exact E2]. apply info_local; auto.
  - (* all *) eapply Pure; [|exact E1|exact E2].
    assert (K : keys (a_sets s1) = keys (a_sets s2)).
    { apply sorted_same; [apply G1|apply G2|]. intros n. rewrite <- !held_name by auto. rewrite HH by auto. reflexivity. }
    unfold keys in K. rewrite K. apply each_info_local; auto.
  - injection E1 as <- <-. injection E2 as <- <-. auto.
  - eapply Pure; [|exact E1|exact E2]. rewrite FS by auto. reflexivity.
  - eapply Post; [|exact Vn]. eapply (local_on_set s1 s2 name _ _ t1 r1 t2 r2 G1 G2 (HH _ Vn) Hr); [|exact E1|exact E2]. reflexivity.
  - eapply Post; [|exact Vn]. eapply (local_on_set s1 s2 name _ _ t1 r1 t2 r2 G1 G2 (HH _ Vn) Hr); [|exact E1|exact E2]. intros g. cbv beta. rewrite Hr. reflexivity.
  - eapply Pure; [|exact E1|exact E2]. rewrite FS by auto. reflexivity.
  - eapply Post; [|exact Vn]. eapply (local_on_set s1 s2 name _ _ t1 r1 t2 r2 G1 G2 (HH _ Vn) Hr); [|exact E1|exact E2]. reflexivity.
  - eapply Pure; [|exact E1|exact E2]. rewrite FS by auto. reflexivity.
  - eapply Post; [|exact Vn]. eapply (local_on_set s1 s2 name _ _ t1 r1 t2 r2 G1 G2 (HH _ Vn) Hr); [|exact E1|exact E2]. reflexivity.
  - (* ratio *) injection E1 as <- <-. injection E2 as <- <-. split; [reflexivity|]. intros _. split; [reflexivity|]. intros n Hn. exact (HV n Hn).
  - eapply Post; [|exact Vt]. eapply (local_search s1 s2 target _ _ _ _ t1 r1 t2 r2 G1 G2 (HH _ Vt) Hr); [| |exact E1|exact E2].
    + apply query_series_local; auto.
    + intros g q. cbv beta. rewrite Hr. reflexivity.
  - eapply Post; [|exact Vt]. eapply (local_search s1 s2 target _ _ _ _ t1 r1 t2 r2 G1 G2 (HH _ Vt) Hr); [| |exact E1|exact E2].
    + apply query_series_local; auto.
    + intros g q. cbv beta. rewrite Hr. reflexivity.
  - eapply Pure; [|exact E1|exact E2]. rewrite (query_series_local s1 s2), FS, Hr by auto. reflexivity.
  - destruct (local_prepare e s1 s2 name blockSize t1 r1 t2 r2 G1 G2 P1 P2 (HV _ Vn) Hr E1 E2) as (X & Y & Z). auto.
  - eapply Pure; [|exact E1|exact E2].
    pose proof (find_id_held s1 target G1) as A1. pose proof (find_id_held s2 target G2) as A2. rewrite HH in A1 by auto.
    pose proof (find_id_held s1 query G1) as B1. pose proof (find_id_held s2 query G2) as B2. rewrite HH in B1 by auto.
    destruct (held s2 target) as [g|]; [|rewrite A1, A2; reflexivity].
    destruct A1 as (a1 & -> & A1), A2 as (a2 & -> & A2). cbn [bind].
    destruct (held s2 query) as [g'|]; [|rewrite B1, B2; reflexivity].
    destruct B1 as (b1 & -> & B1), B2 as (b2 & -> & B2). cbn [bind].
    pose proof (proj2 (HV target Vt)) as W. unfold wst in W.
    destruct (assoc target (a_paa s1)) as [w1|] eqn:Q1; destruct (assoc target (a_paa s2)) as [w2|] eqn:Q2; cbn in W; try discriminate; [|reflexivity].
    rewrite B1, B2. cbn [bind]. destruct (getTimeSeries _ _ _ _); cbn [bind]; try reflexivity.
    apply (wrapper_search_local _ s1 s2 target); auto.
  - assert (V1 : V name1) by (apply Hc; left; reflexivity). assert (V2 : V name2) by (apply Hc; right; left; reflexivity).
    eapply Pure; [|exact E1|exact E2]. rewrite (two_series_local s1 s2), Hr by auto. reflexivity.
  - assert (V1 : V name1) by (apply Hc; left; reflexivity). assert (V2 : V name2) by (apply Hc; right; left; reflexivity).
    eapply Pure; [|exact E1|exact E2]. rewrite (two_series_local s1 s2), Hr by auto. reflexivity.
Qed.

(** sequences *)
Lemma play_local (V : string -> Prop) : forall cs s1 s2, good s1 -> good s2 -> paas s1 -> paas s2 -> a_ratio s1 = a_ratio s2 ->
  (forall n, V n -> same_local s1 s2 n) -> (forall e c, In (e, c) cs -> inside V c) -> play cs s1 = play cs s2.
Proof.
  induction cs as [|[e c] cs IH]; intros s1 s2 G1 G2 P1 P2 Hr HV Hc; cbn [play]; [reflexivity|].
  destruct (exec e c s1) as [t1 r1] eqn:E1. destruct (exec e c s2) as [t2 r2] eqn:E2.
  destruct (local_step V e c s1 s2 t1 r1 t2 r2) as [<- Hn]; auto; [apply (Hc e c); left; reflexivity|].
  destruct (ends_dec r1) as [He|He].
  - destruct (Hn He) as [Hr' HV']. f_equal.
    assert (X : play cs t1 = play cs t2).
    { apply IH; auto.
      - exact (proj1 (exec_good e c s1 t1 r1 G1 E1 He)).
      - exact (proj1 (exec_good e c s2 t2 r1 G2 E2 He)).
      - eapply step_paas; [exact G1| |exact E1|exact He]; exact P1.
      - eapply step_paas; [exact G2| |exact E2|exact He]; exact P2.
      - intros e' c' Hin. apply (Hc e' c'). right. exact Hin. }
    destruct r1; auto.
  - destruct r1; try reflexivity; exfalso; apply He; exact I.
Qed.

(** ** exceptions *)
Lemma or_same_throw (g : gset N) q g' x : or_same g q = (g', Throw x) -> g' = g.
Proof. destruct q as [[a b]| | |]; cbn; intros E; injection E; congruence. Qed.

Lemma throw_on_set s n f s' x : good s -> (forall g g' y, f g = (g', Throw y) -> g' = g) -> on_set s n f = (s', Throw x) ->
  a_ratio s' = a_ratio s /\ forall m, same_local s' s m.
Proof.
  intros G Hf E. pose proof (on_set_wst s n f s' (Throw x)) as W.
  destruct (on_set_spec s n f s' _ G E) as [(_ & -> & _)|(g & g' & Hg & Ef & _ & Hg' & Ho & _ & _ & _ & Hr)]; [split; [reflexivity|split; reflexivity]|].
  split; [exact Hr|]. intros m. split; [|apply W; auto]. destruct (string_dec m n) as [->|Hne]; [|auto].
  rewrite Hg', Hg, (Hf _ _ _ Ef). reflexivity.
Qed.

Lemma throw_local e c s s' x : good s -> paas s -> ~ builds c -> exec e c s = (s', Throw x) ->
  a_ratio s' = a_ratio s /\ forall n, same_local s' s n.
Proof.
  intros G P Hb E.
  assert (Same : s' = s -> a_ratio s' = a_ratio s /\ forall n, same_local s' s n) by (intros ->; split; [reflexivity|split; reflexivity]).
  assert (Search : forall t q f, search_groups s t q f = (s', Throw x) -> a_ratio s' = a_ratio s /\ forall n, same_local s' s n).
  { intros t q f X. destruct q as [q| | |]; cbn in X; try (apply Same; injection X; congruence); try (apply Same; congruence).
    eapply throw_on_set; [exact G| |exact X]. intros g g' y Y. eapply or_same_throw, Y. }
  destruct c; cbn [builds] in Hb; try (exfalso; apply Hb; exact I);
    try (cbn [exec] in E; unfold pure in E; apply Same; injection E as <- _; reflexivity); try (cbn [exec] in E; discriminate).
  - destruct (load_reply e s name _ _ _ _ _ s' _ G P E) as [(_ & -> & _)|(Hn & Hr & Hw & _)]; [apply Same; reflexivity|].
    split; [exact Hr|]. intros m. split; [|apply Hw].
    destruct (load_spec e s name _ _ _ _ _ s' _ G E I) as [(_ & -> & _)|(_ & _ & d & o & _ & [(y & _ & _ & Hh & _)|(i & _ & C & _)])];
      [reflexivity|apply Hh|discriminate].
  - destruct (unload_spec e s name s' _ G E) as [(_ & -> & _)|(_ & C & _)]; [apply Same; reflexivity|discriminate].
  - cbn [exec] in E. eapply throw_on_set; [exact G| |exact E]. intros g g' y Y. eapply or_same_throw, Y.
  - cbn [exec] in E. eapply Search; exact E.
  - cbn [exec] in E. eapply Search; exact E.
Qed.

(** ** foreign calls *)
Lemma foreign_local (V : string -> bool) e c s s' r : good s -> paas s -> foreign V c -> exec e c s = (s', r) -> ends r ->
  a_ratio s' = a_ratio s /\ forall n, V n = true -> same_local s' s n.
Proof.
  intros G P Hf E Hr.
  assert (Same : s' = s -> a_ratio s' = a_ratio s /\ forall n, V n = true -> same_local s' s n)
    by (intros ->; split; [reflexivity|split; reflexivity]).
  assert (Hne : forall n m, V n = false -> V m = true -> m <> n) by congruence.
  assert (OnSet : forall n f, V n = false -> on_set s n f = (s', r) -> a_ratio s' = a_ratio s /\ forall n, V n = true -> same_local s' s n).
  { intros n f Hn X. pose proof (on_set_wst s n f s' r) as W.
    destruct (on_set_spec s n f s' _ G X) as [(_ & -> & _)|(g & g' & Hg & Ef & _ & Hg' & Ho & _ & _ & _ & Hr')]; [auto|].
    split; [exact Hr'|]. intros m Hm. split; [apply Ho, Hne; auto|apply W; auto]. }
  assert (Search : forall t q f, V t = false -> search_groups s t q f = (s', r) -> a_ratio s' = a_ratio s /\ forall n, V n = true -> same_local s' s n).
  { intros t q f Ht X. destruct q as [q| | |]; cbn in X; try (injection X as <- _; auto; fail); eapply OnSet; eauto. }
  destruct c; cbn [foreign] in Hf; try contradiction;
    try (cbn [exec] in E; unfold pure in E; apply Same; injection E as <- _; reflexivity);
    try (cbn [exec] in E; eapply OnSet; [exact Hf|exact E]); try (cbn [exec] in E; eapply Search; [exact Hf|exact E]).
  - destruct (load_reply e s name _ _ _ _ _ s' _ G P E) as [(_ & -> & _)|(Hn & Hrt & Hw & _)]; [apply Same; reflexivity|].
    split; [exact Hrt|]. intros m Hm. split; [|apply Hw].
    destruct (load_spec e s name _ _ _ _ _ s' _ G E Hr) as [(_ & -> & _)|(_ & _ & d & o & _ & [(y & _ & _ & Hh & _)|(i & _ & _ & _ & _ & Hh & _)])];
      [reflexivity|apply Hh|apply Hh, Hne; auto].
  - pose proof (unload_wst e s name s' r G P) as W.
    destruct (unload_spec e s name s' _ G E) as [(_ & -> & _)|(Hn & _ & _ & _ & Hh & _ & Hrt)]; [apply Same; reflexivity|].
    split; [exact Hrt|]. intros m Hm. split; [apply Hh, Hne; auto|]. rewrite W by auto.
    destruct (String.eqb_spec m name) as [->|_]; [congruence|reflexivity].
  - destruct (prepare_spec e s name blockSize s' r G E) as (_ & Hh & _ & Hrt & _ & Ha & _).
    destruct (step_prepare e name blockSize s s' r G P E Hr) as (_ & Eo & _).
    split; [exact Hrt|]. intros m Hm. split; [apply Hh|]. unfold wst, alive_at. rewrite Ha by (apply Hne; auto). rewrite Eo. reflexivity.
Qed.

Lemma own_inside V c : own V c = true -> inside (fun n => V n = true) c.
Proof.
  assert (F : forallb V (needs c) = true -> forall n, In n (needs c) -> V n = true) by (intros H; apply forallb_forall, H).
  destruct c; cbn [own inside]; intros H; try discriminate; auto; intros n Hn; apply F; auto.
Qed.

Lemma apart V : forall cs s1 s2, good s1 -> good s2 -> paas s1 -> paas s2 -> a_ratio s1 = a_ratio s2 ->
  (forall n, V n = true -> same_local s1 s2 n) -> (forall e c, In (e, c) cs -> own V c = true \/ foreign V c) ->
  Forall ends (play cs s1) ->
  replies_to_own V cs (play cs s1) = play (filter (fun p => own V (snd p)) cs) s2.
Proof.
  induction cs as [|[e c] cs IH]; intros s1 s2 G1 G2 P1 P2 Hr HV Hc He; cbn [play filter]; [reflexivity|].
  cbn [play] in He. destruct (exec e c s1) as [t1 r1] eqn:E1.
  inversion He as [|? ? He1 He2]; subst. clear He.
  assert (He2' : Forall ends (play cs t1)) by (destruct r1; auto; destruct He1). clear He2.
  assert (Er : match r1 with Ret _ | Throw _ => play cs t1 | _ => [] end = play cs t1) by (destruct r1; auto; destruct He1).
  rewrite Er. pose proof (proj1 (exec_good e c s1 t1 r1 G1 E1 He1)) as G1'. pose proof (step_paas e c s1 t1 r1 G1 P1 E1 He1) as P1'.
  assert (Hc' : forall e' c', In (e', c') cs -> own V c' = true \/ foreign V c') by (intros e' c' Hin; apply (Hc e' c'); right; exact Hin).
  unfold replies_to_own. cbn [combine filter map fst snd]. destruct (own V c) eqn:Eo.
  - cbn [map snd play]. destruct (exec e c s2) as [t2 r2] eqn:E2.
    destruct (local_step (fun n => V n = true) e c s1 s2 t1 r1 t2 r2) as [<- Hn]; auto; [apply own_inside, Eo|].
    destruct (Hn He1) as [Hr' HV'].
    assert (Er2 : match r1 with Ret _ | Throw _ => play (filter (fun p => own V (snd p)) cs) t2 | _ => [] end = play (filter (fun p => own V (snd p)) cs) t2)
      by (destruct r1; auto; destruct He1).
    rewrite Er2. f_equal. apply (IH t1 t2); auto.
    + exact (proj1 (exec_good e c s2 t2 r1 G2 E2 He1)).
    + exact (step_paas e c s2 t2 r1 G2 P2 E2 He1).
  - destruct (Hc e c (or_introl eq_refl)) as [C|Hf]; [congruence|].
    destruct (foreign_local V e c s1 t1 r1 G1 P1 Hf E1 He1) as [Hrt Hl].
    apply (IH t1 s2); auto; [congruence|]. intros n Hn. destruct (Hl n Hn) as [X Y], (HV n Hn) as [X' Y']. split; congruence.
Qed.
End Step.

(** A call that ends with an exception changes nothing: whatever is called afterwards,
    the replies are those that would have been given without it.  Grouping, loading
    groups and preparing for PAA are excepted (see C33, C42 and below). *)
Theorem C62_exception_changes_nothing : forall (N : Num) (r0 : D N) (h : list event) (s s' : api N) e c x, run r0 h s ->
  exec e c s = (s', Throw x) -> ~ builds c ->
  forall cs, play cs s' = play cs s.
Proof.
  intros N r0 h s s' e c x Hrun E Hb cs. pose proof (run_good r0 h s Hrun) as G. pose proof (run_paas r0 h s Hrun) as P.
  destruct (throw_local e c s s' x G P Hb E) as [Hr Hl].
  apply (play_local (fun _ => True)); auto.
  - exact (proj1 (exec_good e c s s' (Throw x) G E I)).
  - exact (step_paas e c s s' (Throw x) G P E I).
  - intros e' c' _. destruct c'; cbn; auto.
Qed.
Print Assumptions C62_exception_changes_nothing.

(** Calls about other data sets do not influence a data set: leaving them out of a
    sequence of calls (which all end) changes no reply to the others. *)
Theorem C63_data_sets_apart : forall (N : Num) (r0 : D N) (h : list event) (s : api N) (V : string -> bool) cs, run r0 h s ->
  (forall e c, In (e, c) cs -> own V c = true \/ foreign V c) ->
  Forall ends (play cs s) ->
  replies_to_own V cs (play cs s) = play (filter (fun p => own V (snd p)) cs) s.
Proof.
  intros N r0 h s V cs Hrun Hc He. pose proof (run_good r0 h s Hrun) as G. pose proof (run_paas r0 h s Hrun) as P.
  apply apart; auto. intros n _. split; reflexivity.
Qed.
Print Assumptions C63_data_sets_apart.

(** False for preparePAA: with a block size below 1 it throws, but leaves a preparation
    behind that was never filled.  Before, a search was refused with an exception; now it
    reads the block size that was never set. *)
Theorem C62_prepare_refuted : forall (N : Num) (r0 : D N) (h : list event) (s : api N) n g rows qn gq, run r0 h s ->
  held s n = Some g -> holds (gt_data g) rows -> wide_enough (gt_data g) rows -> held s qn = Some gq ->
  (forall b r, ~ In (CPrepare n b, r) h) ->
  forall e B, B < 1 -> exists s',
    exec e (CPrepare n B) s = (s', Throw (GenexExc "Block size for PAA must be positive")) /\
    forall e' k i a b dist f q, 1 <= k -> @getDistanceFromName N (dist ++ "_dtw") = Ret f -> getTimeSeries (gt_data gq) i a b = Ret q ->
      play [(e', CPAA k n qn i a b dist)] s = [Throw (GenexExc "Dataset is not prepared for PAA")] /\
      play [(e', CPAA k n qn i a b dist)] s' = [UB Uninit].
Proof.
  intros N r0 h s n g rows qn gq Hrun Hh Hrows Hwide Hq Hn e B HB. pose proof (run_good _ _ _ Hrun) as G.
  assert (Ep : assoc n (a_paa s) = None).
  { destruct (assoc n (a_paa s)) as [w|] eqn:E; [|reflexivity]. destruct (has_origin r0 h s n Hrun) as (b & r & Hi); [eauto|]. destruct (Hn b r Hi). }
  destruct (held_find s n g G Hh) as (id & Fi & Fd & _). destruct (held_find s qn gq G Hq) as (idq & Fq & Fdq & _).
  destruct (paa_new_ok (gt_data g) rows Hrows) as (p & Enew & Hp & _).
  exists (mkApi (a_sets s) (a_objs s) (map_put n (id, p) (a_paa s)) (a_count s) (a_ratio s)). split.
  - cbn [exec]. rewrite Fi, Ep, Fd. cbn [bind]. rewrite Enew. cbn [bind]. unfold wrapper_generate. cbn [fst snd].
    unfold deref_set in Fd. destruct (nth_error (a_objs s) id) as [[g0|]|] eqn:En; try discriminate.
    unfold generatePAAMatrix. rewrite (proj2 (Z.ltb_lt B 1) HB). cbn [bind]. reflexivity.
  - intros e' k i a b dist f q Hk Hf Et.
    assert (Hk' : (k <=? 0) = false) by (apply Z.leb_gt; lia).
    split; cbn [play exec].
    + rewrite Fi, Fq. unfold pure. cbn [bind]. rewrite Ep. reflexivity.
    + unfold find_id in *. cbn [a_sets a_paa]. destruct (assoc n (a_sets s)) as [i1|]; [|discriminate]. destruct (assoc qn (a_sets s)) as [i2|]; [|discriminate].
      injection Fi as ->. injection Fq as ->. unfold pure. cbn [bind]. rewrite assoc_put, String.eqb_refl.
      unfold deref_set in *. cbn [a_objs]. rewrite Fdq. cbn [bind]. rewrite Et. cbn [bind]. unfold wrapper_search. cbn [fst snd a_objs].
      destruct (nth_error (a_objs s) id) as [[g0|]|] eqn:En; try discriminate. injection Fd as ->.
      unfold getKBestMatchesPAA. rewrite Hk', Hf. cbn [bind]. rewrite (wide_item _ _ Hrows Hwide). cbn [bind]. rewrite Hp. reflexivity.
      apply (g_psorted _ G).
Qed.
Print Assumptions C62_prepare_refuted.

(** Wrong values of k and unknown distances are refused by the search with PAA in every
    state, also when the preparation is stale (C37). *)
Theorem C37_refused : forall (N : Num) (r0 : D N) (h : list event) (s : api N) n g qn gq, run r0 h s ->
  held s n = Some g -> held s qn = Some gq ->
  forall e k i a b dist q, k <= 0 \/ ~ In (dist ++ "_dtw")%string documented_names -> getTimeSeries (gt_data gq) i a b = Ret q ->
  exists m, exec e (CPAA k n qn i a b dist) s = (s, Throw (GenexExc m)).
Proof.
  intros N r0 h s n g qn gq Hrun Hh Hq e k i a b dist q Hbad Et. pose proof (run_good _ _ _ Hrun) as G.
  destruct (held_find s n g G Hh) as (id & Fi & Fd & _). destruct (held_find s qn gq G Hq) as (idq & Fq & Fdq & _).
  cbn [exec]. rewrite Fi, Fq. unfold pure. cbn [bind]. destruct (assoc n (a_paa s)) as [w|]; [|eexists; reflexivity].
  rewrite Fdq. cbn [bind]. rewrite Et. cbn [bind]. unfold wrapper_search.
  assert (X : k <= 0 \/ exists m, @getDistanceFromName N (dist ++ "_dtw") = Throw (GenexExc m)).
  { destruct Hbad as [Hk|Hd]; [auto|right]. eexists. apply registry_unknown, Hd. }
  destruct (nth_error (a_objs s) (fst w)) as [[g0|]|]; unfold getKBestMatchesPAA;
    (destruct (Z.leb_spec k 0) as [Hk|Hk]; [eexists; reflexivity|]); (destruct X as [X|[m X]]; [lia|]); rewrite X; eexists; reflexivity.
Qed.
Print Assumptions C37_refused.

(** ** Examples *)

(** C62: a call that throws, and calls after it that are answered *)
Definition ex_calls : list (env B64 * call B64) :=
  [(ex_env, CGroup (N := B64) "x" (b64_ofZ 1) "euclidean" 1 false); (ex_env, CBest "x" "x" 0 (-1) (-1)); (ex_env, CPrepare "x" 1);
   (ex_env, CPAA 1 "x" "x" 0 (-1) (-1) "euclidean"); (ex_env, CInfo "y"); (ex_env, ex_load "y"); (ex_env, CInfo "y")].
Definition ex_thrown := fst (exec ex_env (CLoad "y" "missing" "," 0 0 false) ex_s1).
Example C62_example :
  after ex_s1 (CLoad "y" "missing" "," 0 0 false) = Raised "Cannot open missing" /\
  map sight (play ex_calls ex_thrown) = map sight (play ex_calls ex_s1) /\
  map sight (play ex_calls ex_s1) = [Done; Done; Done; Done; Raised "There is no dataset with the given name"; Done; Done].
Proof. split; [|split]; vm_compute; reflexivity. Qed.

(** the hypotheses of C62_prepare_refuted and what it says, there *)
Example C62_prepare_example : exists h g, run (N := B64) (b64_ofZ 1) h ex_s1 /\ held ex_s1 "x" = Some g /\
  holds (gt_data g) ex_rows /\ wide_enough (gt_data g) ex_rows /\ forall b r, ~ In (CPrepare "x" b, r) h.
Proof. exact C37_prepare_example. Qed.
Definition ex_half := fst (exec ex_env (CPrepare "x" 0) ex_s1).
Example C62_prepare_replies :
  after ex_s1 (CPrepare "x" 0) = Raised "Block size for PAA must be positive" /\
  map sight (play [(ex_env, CPAA 1 "x" "x" 0 (-1) (-1) "euclidean")] ex_s1) = [Raised "Dataset is not prepared for PAA"] /\
  map sight (play [(ex_env, CPAA 1 "x" "x" 0 (-1) (-1) "euclidean")] ex_half) = [Undefined Uninit].
Proof. split; [|split]; vm_compute; reflexivity. Qed.

(** C37_refused, with a stale preparation *)
Example C37_refused_example :
  after ex_s4 (CPAA 0 "x" "x" 0 (-1) (-1) "euclidean") = Raised "K must be positive" /\
  after ex_s4 (CPAA 1 "x" "x" 0 (-1) (-1) "cosine") = Undefined UseAfterFree /\
  after ex_s4 (CPAA 1 "x" "x" 0 (-1) (-1) "no such") = Raised "Cannot find distance with name: no such_dtw".
Proof. split; [|split]; vm_compute; reflexivity. Qed.

(** C63: calls about "x" between calls about "y"; a name is unloaded, loaded again and
    prepared in between *)
Definition ex_between : list (env B64 * call B64) :=
  [(ex_env, ex_load "y"); (ex_env, CPrepare "x" 1); (ex_env, CGroup (N := B64) "y" (b64_ofZ 1) "euclidean" 1 false); (ex_env, CUnload "x");
   (ex_env, CBest "y" "y" 0 (-1) (-1)); (ex_env, ex_load "x"); (ex_env, CNormalize "x"); (ex_env, CCount); (ex_env, CPrepare "y" 1);
   (ex_env, CDistance "x" 0 0 2 "y" 1 0 2 "euclidean"); (ex_env, CUnload "y"); (ex_env, CInfo "y")].
Definition is_y (n : string) : bool := String.eqb n "y".
Definition ends_b {A} (r : res A) : bool := match r with Ret _ | Throw _ => true | _ => false end.
Lemma ends_b_all (rs : list (res (answer B64))) : forallb ends_b rs = true -> Forall ends rs.
Proof. intros H. apply Forall_forall. intros r Hr. apply (proj1 (forallb_forall _ _) H) in Hr. destruct r; try discriminate; exact I. Qed.

Example C63_example :
  (forall e c, In (e, c) ex_between -> own is_y c = true \/ foreign is_y c) /\
  Forall ends (play ex_between ex_s1) /\
  map sight (replies_to_own is_y ex_between (play ex_between ex_s1)) =
    [Done; Done; Done; Done; Done; Raised "There is no dataset with the given name"].
Proof.
  split; [|split].
  - intros e c H. cbn [In ex_between] in H.
    repeat (destruct H as [H|H]; [injection H as _ <-; cbn; auto|]). destruct H.
  - apply ends_b_all. vm_compute. reflexivity.
  - vm_compute. reflexivity.
Qed.
