(** What the interface answers depends on the data sets named in the call, on whether
    they are prepared for PAA and on the band ratio, and on nothing else. *)
From Coq Require Import Sorted.
From Verif Require Import Base Num NumLaws LoopFacts TimeSeries TSSet Distance StdAlg Candidate Group GroupSpace PAA PAAProofs Archive OldFormat
  Loader Api ApiSpec ApiProofs ApiQuery ApiPaa.
Local Open Scope Z_scope.
Local Open Scope list_scope.

Section Local.
Context {N : Num}.
Implicit Types s : api N.

Definition alive_at s (id : nat) : bool := match nth_error (a_objs s) id with Some (Some _) => true | _ => false end.

(** the wrapper called [n]: whether its data set is alive, and its contents *)
Definition wst s (n : string) : option (bool * paa N) :=
  option_map (fun w => (alive_at s (fst w), snd w)) (assoc n (a_paa s)).

Definition same_local s1 s2 (n : string) : Prop := held s1 n = held s2 n /\ wst s1 n = wst s2 n.

Lemma find_set_held s n : good s -> find_set s n = match held s n with Some g => Ret g | None => Throw no_dataset end.
Proof.
  intros G. destruct (find_alive s n G) as [(id & g & Ha & Hi & Hg & Hf & Hd & Hs & Hh)|(Ha & Hf & Hs & Hh)]; rewrite Hh, Hs; reflexivity.
Qed.

Lemma find_id_held s n : good s ->
  match held s n with Some g => exists id, find_id s n = Ret id /\ deref_set s id = Ret g | None => find_id s n = Throw no_dataset end.
Proof.
  intros G. destruct (find_alive s n G) as [(id & g & Ha & Hi & Hg & Hf & Hd & Hs & Hh)|(Ha & Hf & Hs & Hh)]; rewrite Hh; eauto.
Qed.

Lemma query_series_local s1 s2 t q i st en : good s1 -> good s2 -> held s1 t = held s2 t -> held s1 q = held s2 q ->
  query_series s1 t q i st en = query_series s2 t q i st en.
Proof.
  intros G1 G2 Ht Hq. unfold query_series. rewrite (find_set_held s1 q G1), (find_set_held s2 q G2), Hq.
  pose proof (find_id_held s1 t G1) as H1. pose proof (find_id_held s2 t G2) as H2. rewrite Ht in H1.
  destruct (held s2 t) as [g|].
  - destruct H1 as (i1 & -> & _), H2 as (i2 & -> & _). reflexivity.
  - rewrite H1, H2. reflexivity.
Qed.

Lemma two_series_local s1 s2 n1 i1 st1 en1 n2 i2 st2 en2 : good s1 -> good s2 -> held s1 n1 = held s2 n1 -> held s1 n2 = held s2 n2 ->
  two_series s1 n1 i1 st1 en1 n2 i2 st2 en2 = two_series s2 n1 i1 st1 en1 n2 i2 st2 en2.
Proof.
  intros G1 G2 Ha Hb. unfold two_series.
  pose proof (find_id_held s1 n1 G1) as A1. pose proof (find_id_held s2 n1 G2) as A2. rewrite Ha in A1.
  pose proof (find_id_held s1 n2 G1) as B1. pose proof (find_id_held s2 n2 G2) as B2. rewrite Hb in B1.
  destruct (held s2 n1) as [g|].
  - destruct A1 as (a1 & -> & A1), A2 as (a2 & -> & A2). cbn [bind].
    destruct (held s2 n2) as [g'|].
    + destruct B1 as (b1 & -> & B1), B2 as (b2 & -> & B2). cbn [bind]. rewrite A1, A2, B1, B2. reflexivity.
    + rewrite B1, B2. reflexivity.
  - rewrite A1, A2. reflexivity.
Qed.

Lemma info_local s1 s2 n : good s1 -> good s2 -> held s1 n = held s2 n -> getDatasetInfo s1 n = getDatasetInfo s2 n.
Proof. intros G1 G2 Hn. unfold getDatasetInfo. rewrite (find_set_held s1 n G1), (find_set_held s2 n G2), Hn. reflexivity. Qed.

(** ** the wrappers *)
Lemma wst_alive s n w : good s -> paas s -> assoc n (a_paa s) = Some w -> alive_at s (fst w) = true ->
  exists g, nth_error (a_objs s) (fst w) = Some (Some g) /\ held s n = Some g.
Proof.
  intros G P Hw Ha. unfold alive_at in Ha. destruct (nth_error (a_objs s) (fst w)) as [[g|]|] eqn:Eg; try discriminate.
  exists g. split; [reflexivity|]. destruct (proj2 (P n w Hw) g Eg) as [Hs _].
  unfold held, find_set, find_id, deref_set. rewrite Hs. cbn [bind]. rewrite Eg. reflexivity.
Qed.

Lemma wrapper_cases s1 s2 n w1 w2 : good s1 -> good s2 -> paas s1 -> paas s2 -> same_local s1 s2 n ->
  assoc n (a_paa s1) = Some w1 -> assoc n (a_paa s2) = Some w2 ->
  snd w1 = snd w2 /\
  ((alive_at s1 (fst w1) = true /\ alive_at s2 (fst w2) = true /\
    exists g, nth_error (a_objs s1) (fst w1) = Some (Some g) /\ nth_error (a_objs s2) (fst w2) = Some (Some g)) \/
   (alive_at s1 (fst w1) = false /\ alive_at s2 (fst w2) = false)).
Proof.
  intros G1 G2 P1 P2 [Hh Hw] H1 H2. unfold wst in Hw. rewrite H1, H2 in Hw. cbn in Hw. injection Hw as Ha Hp. split; [exact Hp|].
  destruct (alive_at s1 (fst w1)) eqn:A1; [left|right; auto]. symmetry in Ha.
  destruct (wst_alive s1 n w1 G1 P1 H1 A1) as (g1 & E1 & F1). destruct (wst_alive s2 n w2 G2 P2 H2 Ha) as (g2 & E2 & F2).
  assert (g1 = g2) by congruence. subst. splits; auto. exists g2. auto.
Qed.

Lemma dead_match {A} s id (a : gset N -> A) (b : A) : alive_at s id = false ->
  match nth_error (a_objs s) id with Some (Some g) => a g | _ => b end = b.
Proof. unfold alive_at. destruct (nth_error (a_objs s) id) as [[g|]|]; auto. discriminate. Qed.

Lemma wrapper_search_local H s1 s2 n w1 w2 q k dist : good s1 -> good s2 -> paas s1 -> paas s2 -> same_local s1 s2 n ->
  a_ratio s1 = a_ratio s2 -> assoc n (a_paa s1) = Some w1 -> assoc n (a_paa s2) = Some w2 ->
  wrapper_search H s1 w1 q k dist = wrapper_search H s2 w2 q k dist.
Proof.
  intros G1 G2 P1 P2 Hl Hr H1 H2. destruct (wrapper_cases s1 s2 n w1 w2 G1 G2 P1 P2 Hl H1 H2) as [Ep [(_ & _ & g & E1 & E2)|[A1 A2]]];
    unfold wrapper_search.
  - rewrite E1, E2, Ep, Hr. reflexivity.
  - rewrite !dead_match by auto. reflexivity.
Qed.

Lemma wrapper_generate_local s1 s2 n w1 w2 b : good s1 -> good s2 -> paas s1 -> paas s2 -> same_local s1 s2 n ->
  assoc n (a_paa s1) = Some w1 -> assoc n (a_paa s2) = Some w2 ->
  snd (wrapper_generate s1 w1 b) = snd (wrapper_generate s2 w2 b) /\
  snd (fst (wrapper_generate s1 w1 b)) = snd (fst (wrapper_generate s2 w2 b)).
Proof.
  intros G1 G2 P1 P2 Hl H1 H2. destruct (wrapper_cases s1 s2 n w1 w2 G1 G2 P1 P2 Hl H1 H2) as [Ep [(_ & _ & g & E1 & E2)|[A1 A2]]];
    unfold wrapper_generate.
  - rewrite E1, E2, Ep. destruct (generatePAAMatrix (snd w2) (gt_data g) b) as [p r]. split; reflexivity.
  - rewrite (dead_match s1 (fst w1)), (dead_match s2 (fst w2)) by auto. cbn [fst snd]. auto.
Qed.

Lemma wrapper_generate_id s w b : fst (fst (wrapper_generate s w b)) = fst w.
Proof.
  unfold wrapper_generate. destruct (nth_error (a_objs s) (fst w)) as [[g|]|]; try reflexivity.
  destruct (generatePAAMatrix (snd w) (gt_data g) b); reflexivity.
Qed.

(** ** steps *)
Lemma on_set_objs s n f s' r : good s -> on_set s n f = (s', r) -> (forall id, alive_at s' id = alive_at s id) /\ a_paa s' = a_paa s.
Proof.
  intros G E. unfold on_set in E.
  destruct (find_alive s n G) as [(id & g & Ha & Hi & Hg & Hf & Hd & _ & Hh)|(Ha & Hf & _ & Hh)]; rewrite Hf in E.
  - rewrite Hd in E. destruct (f g) as [g' r'] eqn:Efg. injection E as <- <-. split; [|reflexivity].
    intros k. unfold alive_at, put_obj. cbn [a_objs]. destruct (Nat.eq_dec k id) as [->|Hne].
    + rewrite nth_error_upd_same by (apply nth_error_Some; congruence). rewrite Hg. reflexivity.
    + rewrite nth_error_upd_neq by exact Hne. reflexivity.
  - injection E as <- <-. auto.
Qed.

Lemma on_set_wst s n f s' r m : good s -> on_set s n f = (s', r) -> wst s' m = wst s m.
Proof.
  intros G E. destruct (on_set_objs s n f s' r G E) as [Ha Hp]. unfold wst. rewrite Hp. destruct (assoc m (a_paa s)); cbn; [|reflexivity].
  rewrite Ha. reflexivity.
Qed.

Lemma local_on_set s1 s2 n f1 f2 t1 r1 t2 r2 : good s1 -> good s2 -> held s1 n = held s2 n -> a_ratio s1 = a_ratio s2 ->
  (forall g, f1 g = f2 g) -> on_set s1 n f1 = (t1, r1) -> on_set s2 n f2 = (t2, r2) ->
  r1 = r2 /\ a_ratio t1 = a_ratio t2 /\ forall m, same_local s1 s2 m -> same_local t1 t2 m.
Proof.
  intros G1 G2 Hn Hr Hf E1 E2. pose proof (on_set_wst s1 n f1 t1 r1) as W1. pose proof (on_set_wst s2 n f2 t2 r2) as W2.
  destruct (on_set_spec s1 n f1 t1 r1 G1 E1) as [(H1 & -> & ->)|(g1 & g1' & H1 & F1 & G1' & L1 & O1 & _ & _ & _ & R1)];
  destruct (on_set_spec s2 n f2 t2 r2 G2 E2) as [(H2 & -> & ->)|(g2 & g2' & H2 & F2 & G2' & L2 & O2 & _ & _ & _ & R2)]; try congruence.
  - splits; auto.
  - assert (g1 = g2) by congruence. subst g2. rewrite Hf, F2 in F1. injection F1 as -> ->.
    split; [reflexivity|]. split; [congruence|]. intros m [Hm Hw]. split.
    + destruct (string_dec m n) as [->|Hne]; [congruence|]. rewrite O1, O2 by auto. exact Hm.
    + rewrite W1, W2 by auto. exact Hw.
Qed.

Lemma local_search s1 s2 n q1 q2 f1 f2 t1 r1 t2 r2 : good s1 -> good s2 -> held s1 n = held s2 n -> a_ratio s1 = a_ratio s2 ->
  q1 = q2 -> (forall g q, f1 g q = f2 g q) -> search_groups s1 n q1 f1 = (t1, r1) -> search_groups s2 n q2 f2 = (t2, r2) ->
  r1 = r2 /\ a_ratio t1 = a_ratio t2 /\ forall m, same_local s1 s2 m -> same_local t1 t2 m.
Proof.
  intros G1 G2 Hn Hr -> Hf E1 E2. destruct q2 as [q| | |]; cbn in E1, E2;
    try (injection E1 as <- <-; injection E2 as <- <-; splits; auto; fail).
  refine (local_on_set s1 s2 n _ _ t1 r1 t2 r2 G1 G2 Hn Hr _ E1 E2). intros g. cbv beta. rewrite Hf. reflexivity.
Qed.

Lemma wst_grow s s' n o : paas s -> a_paa s' = a_paa s -> a_objs s' = a_objs s ++ [o] -> wst s' n = wst s n.
Proof.
  intros P Ep Eo. unfold wst. rewrite Ep. destruct (assoc n (a_paa s)) as [w|] eqn:E; cbn; [|reflexivity].
  destruct (P n w E) as [Hl _]. unfold alive_at. rewrite Eo, nth_error_app1 by exact Hl. reflexivity.
Qed.

(** *** loading *)
Definition loaded_reply (d : dataset N) (n : string) (o : res unit) : res (answer N) :=
  match o with
  | Ret _ => i <- (thr <- getThreshold (mkGS d None) ;;
                   Ret (mkInfo n (ds_count d) (ds_maxcol d) (ds_normalized d) (isGrouped (mkGS d None)) (getDistanceName (mkGS d None)) thr)) ;;
             Ret (AInfo i)
  | Throw x => Throw x | UB u => UB u | Hang => Hang
  end.

Lemma load_reply e s n path seps mr sc hn s' r : good s -> paas s -> exec e (CLoad n path seps mr sc hn) s = (s', r) ->
  (held s n <> None /\ s' = s /\ r = Throw name_used) \/
  (held s n = None /\ a_ratio s' = a_ratio s /\ (forall m, wst s' m = wst s m) /\
   exists d o, loadData (e_stod e) (e_files e) ds_new path mr sc seps hn = (d, o) /\ r = loaded_reply d n o).
Proof.
  intros G P E. cbn [exec] in E.
  destruct (find_alive s n G) as [(id & g & Ha & Hi & Hg & Hf & Hd & _ & Hh)|(Ha & Hf & _ & Hh)]; rewrite Ha in E.
  - left. injection E as <- <-. rewrite Hh. repeat split; auto. discriminate.
  - right. split; [exact Hh|]. destruct (loadData _ _ _ _ _ _ _ _) as [d o] eqn:El.
    destruct o as [[]|x| |].
    + unfold pure in E. injection E as <- <-. split; [reflexivity|]. split; [intros m; eapply wst_grow; [exact P|reflexivity|reflexivity]|].
      exists d, (Ret tt). split; [reflexivity|]. cbn [loaded_reply]. f_equal. unfold getDatasetInfo, find_set, find_id, deref_set.
      cbn [a_sets a_objs]. rewrite assoc_put by apply G. rewrite String.eqb_refl. cbn [bind].
      rewrite nth_error_app2 by lia. rewrite Nat.sub_diag. reflexivity.
    + destruct x as [msg|w]; injection E as <- <-; (split; [reflexivity|]);
        (split; [intros m; eapply wst_grow; [exact P|reflexivity|reflexivity]|]); eexists _, _; split; reflexivity.
    + injection E as <- <-. split; [reflexivity|]. split; [reflexivity|]. eexists _, _. split; reflexivity.
    + injection E as <- <-. split; [reflexivity|]. split; [reflexivity|]. eexists _, _. split; reflexivity.
Qed.

Lemma local_load e s1 s2 n path seps mr sc hn t1 r1 t2 r2 : good s1 -> good s2 -> paas s1 -> paas s2 -> held s1 n = held s2 n ->
  a_ratio s1 = a_ratio s2 -> exec e (CLoad n path seps mr sc hn) s1 = (t1, r1) -> exec e (CLoad n path seps mr sc hn) s2 = (t2, r2) ->
  r1 = r2 /\ (ends r1 -> a_ratio t1 = a_ratio t2 /\ forall m, same_local s1 s2 m -> same_local t1 t2 m).
Proof.
  intros G1 G2 P1 P2 Hn Hr E1 E2.
  destruct (load_reply e s1 n _ _ _ _ _ t1 r1 G1 P1 E1) as [(H1 & -> & ->)|(H1 & R1 & W1 & d1 & o1 & L1 & Q1)];
  destruct (load_reply e s2 n _ _ _ _ _ t2 r2 G2 P2 E2) as [(H2 & -> & ->)|(H2 & R2 & W2 & d2 & o2 & L2 & Q2)]; try congruence; auto.
  rewrite L1 in L2. injection L2 as <- <-. split; [congruence|]. intros He. split; [congruence|]. intros m [Hm Hw]. split.
  - rewrite <- Q1 in Q2. subst r2.
    destruct (load_spec e s1 n _ _ _ _ _ t1 r1 G1 E1 He) as [(C & _)|(_ & _ & d & o & L & C1)]; [congruence|].
    destruct (load_spec e s2 n _ _ _ _ _ t2 r1 G2 E2 He) as [(C & _)|(_ & _ & d' & o' & L' & C2)]; [congruence|].
    rewrite L1 in L, L'. injection L as <- <-. injection L' as <- <-.
    destruct C1 as [(x & -> & _ & F1 & _)|(i & -> & _ & _ & F1 & O1 & _)]; destruct C2 as [(y & C & _ & F2 & _)|(j & C & _ & _ & F2 & O2 & _)]; try congruence.
    destruct (string_dec m n) as [->|Hne]; [congruence|]. rewrite O1, O2 by auto. exact Hm.
  - rewrite W1, W2. exact Hw.
Qed.

(** *** unloading *)
Lemma unload_wst e s n s' r : good s -> paas s -> held s n <> None -> exec e (CUnload n) s = (s', r) ->
  forall m, wst s' m = if String.eqb m n then option_map (fun w => (false, snd w)) (wst s n) else wst s m.
Proof.
  intros G P Hn E m. cbn [exec] in E.
  destruct (find_alive s n G) as [(id & g & Ha & Hi & Hg & Hf & Hd & _ & Hh)|(Ha & Hf & _ & Hh)]; [|contradiction]. rewrite Hf, Hd in E.
  injection E as <- <-. unfold wst. cbn [a_paa].
  assert (Hp : match assoc n (a_paa s) with None => map_erase n (a_paa s) | Some _ => a_paa s end = a_paa s)
    by (destruct (assoc n (a_paa s)) eqn:E; [reflexivity|apply erase_none, E]).
  rewrite Hp. destruct (String.eqb_spec m n) as [->|Hne].
  - destruct (assoc n (a_paa s)) as [w|] eqn:Ew; cbn; [|reflexivity]. do 2 f_equal. unfold alive_at. cbn [a_objs].
    destruct (P n w Ew) as [Hl Hw]. destruct (Nat.eq_dec (fst w) id) as [->|Hid].
    + rewrite nth_error_upd_same by (apply nth_error_Some; congruence). reflexivity.
    + rewrite nth_error_upd_neq by exact Hid. destruct (nth_error (a_objs s) (fst w)) as [[gw|]|] eqn:Eg; try reflexivity.
      destruct (Hw gw eq_refl) as [C _]. congruence.
  - destruct (assoc m (a_paa s)) as [w|] eqn:Ew; cbn; [|reflexivity]. do 2 f_equal. unfold alive_at. cbn [a_objs].
    destruct (P m w Ew) as [Hl Hw]. destruct (Nat.eq_dec (fst w) id) as [Hid|Hid].
    + destruct (Hw g) as [C _]; [rewrite Hid; exact Hg|]. rewrite Hid in C. exfalso. apply Hne. exact (g_apart s G _ _ _ (assoc_some_in _ _ _ C) Hi).
    + rewrite nth_error_upd_neq by exact Hid. reflexivity.
Qed.

Lemma local_unload e s1 s2 n t1 r1 t2 r2 : good s1 -> good s2 -> paas s1 -> paas s2 -> same_local s1 s2 n ->
  a_ratio s1 = a_ratio s2 -> exec e (CUnload n) s1 = (t1, r1) -> exec e (CUnload n) s2 = (t2, r2) ->
  r1 = r2 /\ a_ratio t1 = a_ratio t2 /\ forall m, same_local s1 s2 m -> same_local t1 t2 m.
Proof.
  intros G1 G2 P1 P2 [Hn Hwn] Hr E1 E2. pose proof (unload_wst e s1 n t1 r1 G1 P1) as W1. pose proof (unload_wst e s2 n t2 r2 G2 P2) as W2.
  destruct (unload_spec e s1 n t1 r1 G1 E1) as [(H1 & -> & ->)|(H1 & -> & _ & F1 & O1 & _ & R1)];
  destruct (unload_spec e s2 n t2 r2 G2 E2) as [(H2 & -> & ->)|(H2 & -> & _ & F2 & O2 & _ & R2)]; try congruence; auto.
  split; [reflexivity|]. split; [congruence|]. intros m [Hm Hw]. split.
  - destruct (string_dec m n) as [->|Hne]; [congruence|]. rewrite O1, O2 by auto. exact Hm.
  - rewrite W1, W2 by auto. rewrite Hwn, Hw. reflexivity.
Qed.

Lemma unload_all_wst e s s' r m : good s -> paas s -> exec e CUnloadAll s = (s', r) ->
  wst s' m = option_map (fun w => (false, snd w)) (wst s m).
Proof.
  intros G P E. cbn [exec] in E. injection E as <- <-. unfold wst. cbn [a_paa]. destruct (assoc m (a_paa s)) as [w|] eqn:Ew; cbn; [|reflexivity].
  do 2 f_equal. unfold alive_at. cbn [a_objs].
  destruct (nth_error (fold_left _ (a_sets s) (a_objs s)) (fst w)) as [[g|]|] eqn:Eg; try reflexivity.
  apply unload_all_objs in Eg as [Eg Hno]. destruct (proj2 (P m w Ew) g Eg) as [C _]. destruct (Hno m). exact (assoc_some_in _ _ _ C).
Qed.

Lemma local_unload_all e s1 s2 t1 r1 t2 r2 : good s1 -> good s2 -> paas s1 -> paas s2 ->
  a_ratio s1 = a_ratio s2 -> exec e CUnloadAll s1 = (t1, r1) -> exec e CUnloadAll s2 = (t2, r2) ->
  r1 = r2 /\ a_ratio t1 = a_ratio t2 /\ forall m, same_local s1 s2 m -> same_local t1 t2 m.
Proof.
  intros G1 G2 P1 P2 Hr E1 E2. destruct (unload_all_spec e s1 t1 r1 G1 E1) as (-> & _ & F1 & _ & _ & R1).
  destruct (unload_all_spec e s2 t2 r2 G2 E2) as (-> & _ & F2 & _ & _ & R2). split; [reflexivity|]. split; [congruence|].
  intros m [_ Hw]. split; [rewrite F1, F2; reflexivity|].
  rewrite (unload_all_wst e s1 t1 _ m G1 P1 E1), (unload_all_wst e s2 t2 _ m G2 P2 E2), Hw. reflexivity.
Qed.

(** *** preparing *)
Lemma put_wst s n w m : good s ->
  wst (mkApi (a_sets s) (a_objs s) (map_put n w (a_paa s)) (a_count s) (a_ratio s)) m
  = if String.eqb m n then Some (alive_at s (fst w), snd w) else wst s m.
Proof.
  intros G. unfold wst. cbn [a_paa]. rewrite assoc_put by apply G. destruct (String.eqb m n); reflexivity.
Qed.

Lemma put_held s n w m : held (mkApi (a_sets s) (a_objs s) (map_put n w (a_paa s)) (a_count s) (a_ratio s)) m = held s m.
Proof. reflexivity. Qed.

Lemma local_prepare e s1 s2 n b t1 r1 t2 r2 : good s1 -> good s2 -> paas s1 -> paas s2 -> same_local s1 s2 n ->
  a_ratio s1 = a_ratio s2 -> exec e (CPrepare n b) s1 = (t1, r1) -> exec e (CPrepare n b) s2 = (t2, r2) ->
  r1 = r2 /\ a_ratio t1 = a_ratio t2 /\ forall m, same_local s1 s2 m -> same_local t1 t2 m.
Proof.
  intros G1 G2 P1 P2 Hl Hr E1 E2. pose proof Hl as [Hn Hw]. cbn [exec] in E1, E2.
  destruct (find_alive s1 n G1) as [(id1 & g1 & A1 & _ & N1 & F1 & D1 & _ & H1)|(_ & F1 & _ & H1)];
  destruct (find_alive s2 n G2) as [(id2 & g2 & A2 & _ & N2 & F2 & D2 & _ & H2)|(_ & F2 & _ & H2)]; try congruence;
  rewrite F1 in E1; rewrite F2 in E2.
  2:{ injection E1 as <- <-. injection E2 as <- <-. auto. }
  assert (g2 = g1) by congruence. subst g2.
  assert (Fin : forall w1 w2, snd w1 = snd w2 -> alive_at s1 (fst w1) = alive_at s2 (fst w2) ->
    snd (wrapper_generate s1 w1 b) = snd (wrapper_generate s2 w2 b) ->
    snd (fst (wrapper_generate s1 w1 b)) = snd (fst (wrapper_generate s2 w2 b)) ->
    (let '(w', r) := wrapper_generate s1 w1 b in
       (mkApi (a_sets s1) (a_objs s1) (map_put n w' (a_paa s1)) (a_count s1) (a_ratio s1), _ <- r ;; Ret AUnit)) = (t1, r1) ->
    (let '(w', r) := wrapper_generate s2 w2 b in
       (mkApi (a_sets s2) (a_objs s2) (map_put n w' (a_paa s2)) (a_count s2) (a_ratio s2), _ <- r ;; Ret AUnit)) = (t2, r2) ->
    r1 = r2 /\ a_ratio t1 = a_ratio t2 /\ forall m, same_local s1 s2 m -> same_local t1 t2 m).
  { intros w1 w2 Ep Ea Er Ec X1 X2. pose proof (wrapper_generate_id s1 w1 b) as I1. pose proof (wrapper_generate_id s2 w2 b) as I2.
    destruct (wrapper_generate s1 w1 b) as [v1 q1]. destruct (wrapper_generate s2 w2 b) as [v2 q2]. cbn [fst snd] in *.
    injection X1 as <- <-. injection X2 as <- <-. split; [congruence|]. split; [exact Hr|]. intros m [Hm Hwm]. split; [exact Hm|].
    rewrite !put_wst by auto. destruct (String.eqb m n); [|exact Hwm]. congruence. }
  unfold wst in Hw. destruct (assoc n (a_paa s1)) as [w1|] eqn:Q1; destruct (assoc n (a_paa s2)) as [w2|] eqn:Q2; cbn in Hw; try discriminate.
  - pose proof (wrapper_generate_local s1 s2 n w1 w2 b G1 G2 P1 P2 Hl Q1 Q2) as [X Y]. injection Hw as Ha Hp.
    exact (Fin w1 w2 Hp Ha X Y E1 E2).
  - rewrite D1 in E1. rewrite D2 in E2. cbn [bind] in E1, E2. destruct (paa_new (gt_data g1)) as [p| | |];
      try (injection E1 as <- <-; injection E2 as <- <-; auto; fail). cbn [bind] in E1, E2.
    refine (Fin (id1, p) (id2, p) eq_refl _ _ _ E1 E2); unfold alive_at, wrapper_generate; cbn [fst snd]; rewrite N1, N2; try reflexivity;
      destruct (generatePAAMatrix p (gt_data g1) b); reflexivity.
Qed.
End Local.
