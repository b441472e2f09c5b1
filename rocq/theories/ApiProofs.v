(** The registry of data sets: invariant of all histories. *)
From Coq Require Import Sorted OrderedTypeEx.
From Verif Require Import Base Num TimeSeries Distance TSSet StdAlg Candidate Group GroupSpace Loader Archive BruteForce PAA
  Api ApiSpec LoopFacts PAAProofs.
Local Open Scope Z_scope.
Local Open Scope list_scope.

(** ** sorted association lists *)
Definition lts (a b : string) : Prop := String.compare a b = Lt.

Lemma compare_refl a : String.compare a a = Eq.
Proof. pose proof (String.compare_antisym a a). destruct (String.compare a a); auto; discriminate. Qed.

Lemma lts_trans a b c : lts a b -> lts b c -> lts a c.
Proof.
  unfold lts. change String.compare with String_as_OT.cmp. rewrite !String_as_OT.cmp_lt. apply String_as_OT.lt_trans.
Qed.

Lemma lts_neq a b : lts a b -> a <> b.
Proof. unfold lts. intros E ->. rewrite compare_refl in E. discriminate. Qed.

Lemma gt_lts a b : String.compare a b = Gt -> lts b a.
Proof. unfold lts. intros E. rewrite String.compare_antisym, E. reflexivity. Qed.

Definition keys {A} (l : list (string * A)) : list string := map fst l.

Lemma assoc_none {A} k (l : list (string * A)) : assoc k l = None <-> ~ In k (keys l).
Proof.
  induction l as [|[k' v] l IH]; cbn [assoc keys map fst In]; [tauto|].
  destruct (String.eqb_spec k k') as [->|Hn]; [split; [discriminate|intros H; exfalso; auto]|].
  rewrite IH. unfold keys. split; intros H; [intros [->|H']; tauto|tauto].
Qed.

Lemma assoc_some_in {A} k (v : A) l : assoc k l = Some v -> In (k, v) l.
Proof.
  induction l as [|[k' v'] l IH]; cbn [assoc]; [discriminate|].
  destruct (String.eqb_spec k k') as [->|Hn]; [intros [= ->]; left; reflexivity|intros E; right; auto].
Qed.

Lemma sorted_nodup {A} (l : list (string * A)) : ascending_names (keys l) -> NoDup (keys l).
Proof.
  unfold ascending_names. induction (keys l) as [|k ks IH]; intros H; [constructor|].
  inversion_clear H as [|? ? Hs Hf]. constructor; [|auto].
  intros Hin. rewrite Forall_forall in Hf. exact (lts_neq _ _ (Hf _ Hin) eq_refl).
Qed.

Lemma in_assoc {A} k (v : A) l : NoDup (keys l) -> In (k, v) l -> assoc k l = Some v.
Proof.
  induction l as [|[k' v'] l IH]; intros Hn Hi; [destruct Hi|].
  inversion_clear Hn as [|? ? Hnk Hn']. cbn [assoc].
  destruct Hi as [[= -> ->]|Hi]; [rewrite String.eqb_refl; reflexivity|].
  destruct (String.eqb_spec k k') as [->|]; [|auto].
  exfalso. apply Hnk. change k' with (fst (k', v)). apply in_map, Hi.
Qed.

Lemma keys_put {A} k (v : A) l x : In x (keys (map_put k v l)) <-> x = k \/ In x (keys l).
Proof.
  induction l as [|[k' v'] l IH]; cbn [map_put].
  - cbn. intuition.
  - destruct (String.compare k k') eqn:E.
    + apply String.compare_eq_iff in E as ->. cbn. intuition.
    + cbn. intuition.
    + cbn [keys map fst In]. fold (keys (map_put k v l)). fold (keys l). rewrite IH. intuition.
Qed.

Lemma put_sorted {A} k (v : A) l : ascending_names (keys l) -> ascending_names (keys (map_put k v l)).
Proof.
  unfold ascending_names. induction l as [|[k' v'] l IH]; cbn [map_put]; intros Hs.
  - cbn. repeat constructor.
  - destruct (String.compare k k') eqn:E.
    + apply String.compare_eq_iff in E as ->. exact Hs.
    + cbn [keys map fst]. constructor; [exact Hs|].
      inversion_clear Hs as [|? ? Hs' Hf]. constructor; [exact E|].
      eapply Forall_impl; [|exact Hf]. intros a Ha. exact (lts_trans _ _ _ E Ha).
    + cbn [keys map fst] in *. inversion_clear Hs as [|? ? Hs' Hf]. constructor; [apply IH, Hs'|].
      rewrite Forall_forall in *. intros x Hx. apply keys_put in Hx as [->|Hx]; [exact (gt_lts _ _ E)|auto].
Qed.

Lemma assoc_put {A} k (v : A) l x : ascending_names (keys l) ->
  assoc x (map_put k v l) = if String.eqb x k then Some v else assoc x l.
Proof.
  unfold ascending_names. induction l as [|[k' v'] l IH]; cbn [map_put]; intros Hs; [reflexivity|].
  destruct (String.compare k k') eqn:E.
  - apply String.compare_eq_iff in E as ->. cbn [assoc]. destruct (String.eqb x k'); reflexivity.
  - reflexivity.
  - cbn [keys map fst] in Hs. inversion_clear Hs as [|? ? Hs' Hf]. cbn [assoc]. rewrite (IH Hs').
    destruct (String.eqb_spec x k') as [->|]; [|reflexivity].
    destruct (String.eqb_spec k' k) as [->|]; [|reflexivity].
    rewrite compare_refl in E. discriminate.
Qed.

Lemma length_put {A} k (v : A) l : ~ In k (keys l) -> length (map_put k v l) = S (length l).
Proof.
  induction l as [|[k' v'] l IH]; cbn [map_put]; intros Hn; [reflexivity|].
  cbn [keys map fst In] in Hn. destruct (String.compare k k') eqn:E; [|reflexivity|].
  - apply String.compare_eq_iff in E. exfalso. auto.
  - cbn [length]. rewrite IH; auto.
Qed.

Lemma in_put {A} k (v : A) l p : In p (map_put k v l) -> p = (k, v) \/ In p l.
Proof.
  induction l as [|[k' v'] l IH]; cbn [map_put]; [cbn; intuition|].
  destruct (String.compare k k') eqn:E; cbn [In]; intuition.
Qed.

Lemma put_same {A} k (v : A) l : ascending_names (keys l) -> assoc k l = Some v -> map_put k v l = l.
Proof.
  unfold ascending_names. induction l as [|[k' v'] l IH]; cbn [map_put assoc]; intros Hs Ha; [discriminate|].
  cbn [keys map fst] in Hs. inversion_clear Hs as [|? ? Hs' Hf].
  destruct (String.eqb_spec k k') as [->|Hn].
  - injection Ha as ->. rewrite compare_refl. reflexivity.
  - destruct (String.compare k k') eqn:E.
    + apply String.compare_eq_iff in E. contradiction.
    + exfalso. apply assoc_some_in in Ha. rewrite Forall_forall in Hf.
      assert (Hk : In k (keys l)) by (change k with (fst (k, v)); apply in_map, Ha).
      exact (lts_neq _ _ (lts_trans _ _ _ E (Hf _ Hk)) eq_refl).
    + rewrite IH; auto.
Qed.

Lemma in_erase {A} k (l : list (string * A)) p : In p (map_erase k l) <-> In p l /\ fst p <> k.
Proof.
  unfold map_erase. rewrite filter_In. destruct (String.eqb_spec k (fst p)) as [->|]; cbn; intuition; discriminate.
Qed.

Lemma erase_sorted {A} k (l : list (string * A)) : ascending_names (keys l) -> ascending_names (keys (map_erase k l)).
Proof.
  unfold ascending_names. induction l as [|p l IH]; cbn; intros Hs; [constructor|].
  inversion_clear Hs as [|? ? Hs' Hf]. destruct (negb (String.eqb k (fst p))); cbn; [|auto].
  constructor; [auto|]. rewrite Forall_forall in *. intros x Hx. apply Hf. clear Hf.
  apply in_map_iff in Hx as (q & Eq & Hq). apply filter_In in Hq as [Hq _]. rewrite <- Eq. apply in_map, Hq.
Qed.

Lemma assoc_erase {A} k (l : list (string * A)) x :
  assoc x (map_erase k l) = if String.eqb x k then None else assoc x l.
Proof.
  induction l as [|[k' v'] l IH]; cbn; [destruct (String.eqb x k); reflexivity|].
  fold (map_erase k l). destruct (String.eqb_spec k k') as [Ek|Ek]; cbn; rewrite IH;
    destruct (String.eqb_spec x k') as [Ex|Ex]; destruct (String.eqb_spec x k) as [Ex'|Ex']; congruence.
Qed.

Lemma erase_none {A} k (l : list (string * A)) : assoc k l = None -> map_erase k l = l.
Proof.
  induction l as [|[k' v'] l IH]; cbn; [reflexivity|].
  destruct (String.eqb_spec k k') as [->|Hn]; [discriminate|]. cbn. intros E. f_equal. apply IH, E.
Qed.

Lemma length_erase {A} k (v : A) l : NoDup (keys l) -> assoc k l = Some v -> length l = S (length (map_erase k l)).
Proof.
  induction l as [|[k' v'] l IH]; cbn; [discriminate|]. intros Hn. inversion_clear Hn as [|? ? Hnk Hn'].
  destruct (String.eqb_spec k k') as [->|]; cbn.
  - intros _. fold (map_erase k' l). rewrite erase_none; [reflexivity|]. apply assoc_none, Hnk.
  - intros E. fold (map_erase k l). rewrite <- (IH Hn' E). reflexivity.
Qed.

Section Proofs.
Context {N : Num}.
Implicit Types s : api N.

(** ** invariant *)
Record good s : Prop := {
  g_sorted : ascending_names (keys (a_sets s));
  g_alive : forall n id, In (n, id) (a_sets s) -> exists g, nth_error (a_objs s) id = Some (Some g);
  g_apart : forall n m id, In (n, id) (a_sets s) -> In (m, id) (a_sets s) -> n = m;
  g_count : a_count s = Z.of_nat (length (a_sets s));
  g_psorted : ascending_names (keys (a_paa s))
}.

Lemma good_nodup s : good s -> NoDup (keys (a_sets s)).
Proof. intros G. apply sorted_nodup, (g_sorted s G). Qed.

Lemma find_alive s n : good s ->
  (exists id g, assoc n (a_sets s) = Some id /\ In (n, id) (a_sets s) /\ nth_error (a_objs s) id = Some (Some g) /\
     find_id s n = Ret id /\ deref_set s id = Ret g /\ find_set s n = Ret g /\ held s n = Some g)
  \/ (assoc n (a_sets s) = None /\ find_id s n = Throw no_dataset /\ find_set s n = Throw no_dataset /\ held s n = None).
Proof.
  intros G. unfold held, find_set, find_id. destruct (assoc n (a_sets s)) as [id|] eqn:E.
  - left. pose proof (assoc_some_in _ _ _ E) as Hi. destruct (g_alive s G n id Hi) as [g Hg].
    exists id, g. unfold bind, deref_set. rewrite Hg. repeat split; auto.
  - right. repeat split; reflexivity.
Qed.

Lemma held_of s n id g : assoc n (a_sets s) = Some id -> nth_error (a_objs s) id = Some (Some g) -> held s n = Some g.
Proof. intros E E'. unfold held, find_set, find_id, bind, deref_set. rewrite E, E'. reflexivity. Qed.

Lemma held_none s n : assoc n (a_sets s) = None -> held s n = None.
Proof. intros E. unfold held, find_set, find_id, bind. rewrite E. reflexivity. Qed.

(** [s'] has the same names for the same objects, and the objects other than [id] *)
Lemma held_same s s' n : a_sets s' = a_sets s -> a_objs s' = a_objs s -> held s' n = held s n.
Proof. intros E1 E2. unfold held, find_set, find_id, bind, deref_set. rewrite E1, E2. reflexivity. Qed.

Lemma held_put s id g' n : good s -> (forall m, In (m, id) (a_sets s) -> m <> n) ->
  held (put_obj s id (Some g')) n = held s n.
Proof.
  intros G Hm. destruct (find_alive s n G) as [(k & g & Ha & Hi & Hg & _ & _ & _ & Hh)|(Ha & _ & _ & Hh)].
  - rewrite Hh. eapply held_of; [exact Ha|]. cbn. rewrite nth_error_upd_neq; [exact Hg|].
    intros ->. exact (Hm n Hi eq_refl).
  - rewrite Hh. apply held_none. exact Ha.
Qed.

Lemma held_put_same s id g' n : assoc n (a_sets s) = Some id -> (id < length (a_objs s))%nat ->
  held (put_obj s id (Some g')) n = Some g'.
Proof. intros E Hl. eapply held_of; [exact E|]. cbn. apply nth_error_upd_same. exact Hl. Qed.

Lemma good_put s id g' : good s -> good (put_obj s id (Some g')).
Proof.
  intros [G1 G2 G3 G4 G5]. split; cbn; auto.
  intros n k Hi. destruct (G2 n k Hi) as [g Hg]. destruct (Nat.eq_dec k id) as [->|Hn].
  - exists g'. apply nth_error_upd_same. apply nth_error_Some. rewrite Hg. discriminate.
  - exists g. rewrite nth_error_upd_neq; auto.
Qed.

Lemma alive_lt s id g : nth_error (a_objs s) id = Some (Some g) -> (id < length (a_objs s))%nat.
Proof. intros E. apply nth_error_Some. rewrite E. discriminate. Qed.

(** [on_set] *)
Lemma on_set_spec s n f s' r : good s -> on_set s n f = (s', r) ->
  (held s n = None /\ s' = s /\ r = Throw no_dataset) \/
  exists g g', held s n = Some g /\ f g = (g', r) /\ good s' /\ held s' n = Some g' /\
    (forall m, m <> n -> held s' m = held s m) /\ a_sets s' = a_sets s /\ a_paa s' = a_paa s /\ a_count s' = a_count s /\
    a_ratio s' = a_ratio s.
Proof.
  intros G E. unfold on_set in E.
  destruct (find_alive s n G) as [(id & g & Ha & Hi & Hg & Hf & Hd & _ & Hh)|(Ha & Hf & _ & Hh)]; rewrite Hf in E.
  - right. rewrite Hd in E. destruct (f g) as [g' r'] eqn:Efg. injection E as <- <-.
    exists g, g'. split; [exact Hh|]. split; [exact Efg|].
    split; [apply good_put, G|]. split; [eapply held_put_same; [exact Ha|eapply alive_lt; exact Hg]|].
    split; [|cbn; auto]. intros m Hm. apply held_put; [exact G|].
    intros m' Hm'. rewrite (g_apart s G _ _ _ Hm' Hi). auto.
  - left. injection E as <- <-. auto.
Qed.

(** objects are only ever added, overwritten or marked as deleted *)
Lemma good_app s o : good s -> good (mkApi (a_sets s) (a_objs s ++ [o]) (a_paa s) (a_count s) (a_ratio s)).
Proof.
  intros [G1 G2 G3 G4 G5]. split; cbn; auto. intros n id Hi. destruct (G2 n id Hi) as [g Hg]. exists g.
  rewrite nth_error_app1; [exact Hg|]. apply nth_error_Some. rewrite Hg. discriminate.
Qed.

Lemma held_app s o n : good s -> held (mkApi (a_sets s) (a_objs s ++ [o]) (a_paa s) (a_count s) (a_ratio s)) n = held s n.
Proof.
  intros G. destruct (find_alive s n G) as [(k & g & Ha & Hi & Hg & _ & _ & _ & Hh)|(Ha & _ & _ & Hh)]; rewrite Hh.
  - eapply held_of; [exact Ha|]. cbn. rewrite nth_error_app1; [exact Hg|eapply alive_lt; exact Hg].
  - apply held_none. exact Ha.
Qed.

Lemma info_fresh s n g : held s n = Some g -> gt_groups g = None -> exists i, getDatasetInfo s n = Ret i /\ i_name i = n.
Proof.
  unfold held, getDatasetInfo, getThreshold. destruct (find_set s n) as [g0| | |]; try discriminate.
  intros [= ->] E. cbn. rewrite E. cbn. eexists. split; reflexivity.
Qed.

(** loading *)
Lemma load_spec e s n path seps mr sc hn s' r : good s -> exec e (CLoad n path seps mr sc hn) s = (s', r) -> ends r ->
  (held s n <> None /\ s' = s /\ r = Throw name_used) \/
  (held s n = None /\ good s' /\
   exists d o, loadData (e_stod e) (e_files e) ds_new path mr sc seps hn = (d, o) /\
    ((exists x, o = Throw x /\ r = Throw x /\ (forall m, held s' m = held s m) /\ a_sets s' = a_sets s /\ a_paa s' = a_paa s /\
        a_count s' = a_count s /\ a_ratio s' = a_ratio s) \/
     (exists i, o = Ret tt /\ r = Ret (AInfo i) /\ i_name i = n /\ held s' n = Some (mkGS d None) /\
        (forall m, m <> n -> held s' m = held s m) /\ a_sets s' = map_put n (length (a_objs s)) (a_sets s) /\
        a_paa s' = a_paa s /\ a_ratio s' = a_ratio s))).
Proof.
  intros G E Hr. cbn [exec] in E.
  destruct (find_alive s n G) as [(id & g & Ha & Hi & Hg & Hf & Hd & _ & Hh)|(Ha & Hf & _ & Hh)]; rewrite Ha in E.
  - left. injection E as <- <-. rewrite Hh. repeat split; auto. discriminate.
  - right. split; [exact Hh|]. destruct (loadData _ _ _ _ _ _ _ _) as [d o] eqn:El.
    destruct o as [[]|x| |]; cbn [exec] in E.
    + set (s1 := mkApi _ _ _ _ _) in E.
      assert (G1 : good s1).
      { destruct G as [G1 G2 G3 G4 G5]. unfold s1. split; cbn.
        - apply put_sorted, G1.
        - intros m id Hin. apply in_put in Hin as [[= -> ->]|Hin].
          + exists (mkGS d None). rewrite nth_error_app2 by lia. rewrite Nat.sub_diag. reflexivity.
          + destruct (G2 m id Hin) as [g Hg]. exists g. rewrite nth_error_app1; [exact Hg|].
            apply nth_error_Some. rewrite Hg. discriminate.
        - intros m1 m2 id H1 H2.
          apply in_put in H1 as [E1|H1]; apply in_put in H2 as [E2|H2].
          + congruence.
          + injection E1 as -> ->. destruct (G2 m2 _ H2) as [g Hg].
            assert (length (a_objs s) < length (a_objs s))%nat by (apply nth_error_Some; rewrite Hg; discriminate). lia.
          + injection E2 as -> ->. destruct (G2 m1 _ H1) as [g Hg].
            assert (length (a_objs s) < length (a_objs s))%nat by (apply nth_error_Some; rewrite Hg; discriminate). lia.
          + eauto.
        - rewrite length_put; [lia|]. apply assoc_none, Ha.
        - exact G5. }
      assert (Hn : held s1 n = Some (mkGS d None)).
      { eapply held_of with (id := length (a_objs s)).
        - unfold s1. cbn. rewrite assoc_put; [rewrite String.eqb_refl; reflexivity|apply G].
        - unfold s1. cbn. rewrite nth_error_app2 by lia. rewrite Nat.sub_diag. reflexivity. }
      destruct (info_fresh s1 n _ Hn eq_refl) as (i & Ei & Hni). unfold pure in E. rewrite Ei in E. cbn in E.
      injection E as <- <-. split; [exact G1|].
      exists d, (Ret tt). split; [reflexivity|]. right. exists i.
      split; [reflexivity|]. split; [reflexivity|]. split; [exact Hni|]. split; [exact Hn|]. split; [|unfold s1; cbn; auto].
      intros m Hm. destruct (find_alive s m G) as [(k & g & Hma & Hmi & Hmg & _ & _ & _ & Hmh)|(Hma & _ & _ & Hmh)]; rewrite Hmh.
      * eapply held_of.
        -- unfold s1. cbn. rewrite assoc_put by apply G. destruct (String.eqb_spec m n); [contradiction|exact Hma].
        -- unfold s1. cbn. rewrite nth_error_app1; [exact Hmg|eapply alive_lt; exact Hmg].
      * apply held_none. unfold s1. cbn. rewrite assoc_put by apply G. destruct (String.eqb_spec m n); [contradiction|exact Hma].
    + destruct x as [msg|w]; injection E as <- <-.
      * split; [apply good_app, G|]. exists d, (Throw (GenexExc msg)). split; [reflexivity|]. left. exists (GenexExc msg).
        repeat split; auto. intros m. apply held_app, G.
      * split; [apply good_app, G|]. exists d, (Throw (StdExc w)). split; [reflexivity|]. left. exists (StdExc w).
        repeat split; auto. intros m. apply held_app, G.
    + injection E as <- <-. destruct Hr.
    + injection E as <- <-. destruct Hr.
Qed.

(** unloading *)
Lemma unload_spec e s n s' r : good s -> exec e (CUnload n) s = (s', r) ->
  (held s n = None /\ s' = s /\ r = Throw no_dataset) \/
  (held s n <> None /\ r = Ret AUnit /\ good s' /\ held s' n = None /\ (forall m, m <> n -> held s' m = held s m) /\
   a_paa s' = a_paa s /\ a_ratio s' = a_ratio s).
Proof.
  intros G E. cbn [exec] in E.
  destruct (find_alive s n G) as [(id & g & Ha & Hi & Hg & Hf & Hd & _ & Hh)|(Ha & Hf & _ & Hh)]; rewrite Hf in E.
  - right. rewrite Hd in E. injection E as <- <-. rewrite Hh. split; [discriminate|]. split; [reflexivity|].
    assert (Hp : match assoc n (a_paa s) with None => map_erase n (a_paa s) | Some _ => a_paa s end = a_paa s)
      by (destruct (assoc n (a_paa s)) eqn:E; [reflexivity|apply erase_none, E]).
    split.
    { destruct G as [G1 G2 G3 G4 G5]. split; cbn.
      - apply erase_sorted, G1.
      - intros m k Hk. apply in_erase in Hk as [Hk Hne]. destruct (G2 m k Hk) as [gm Hgm]. exists gm.
        rewrite nth_error_upd_neq; [exact Hgm|]. intros ->. apply Hne. cbn. exact (G3 _ _ _ Hk Hi).
      - intros m1 m2 k H1 H2. apply in_erase in H1 as [H1 _]. apply in_erase in H2 as [H2 _]. eauto.
      - rewrite G4, (length_erase n id) by (auto; apply sorted_nodup, G1). lia.
      - rewrite Hp. exact G5. }
    split; [apply held_none; cbn; rewrite assoc_erase, String.eqb_refl; reflexivity|].
    split; [|cbn; rewrite Hp; auto].
    intros m Hm. destruct (find_alive s m G) as [(k & gm & Hma & Hmi & Hmg & _ & _ & _ & Hmh)|(Hma & _ & _ & Hmh)]; rewrite Hmh.
    + eapply held_of.
      * cbn. rewrite assoc_erase. destruct (String.eqb_spec m n); [contradiction|exact Hma].
      * cbn. rewrite nth_error_upd_neq; [exact Hmg|]. intros ->. apply Hm. exact (g_apart s G _ _ _ Hmi Hi).
    + apply held_none. cbn. rewrite assoc_erase. destruct (String.eqb_spec m n); [contradiction|exact Hma].
  - left. injection E as <- <-. auto.
Qed.

Lemma unload_all_spec e s s' r : good s -> exec e CUnloadAll s = (s', r) ->
  r = Ret AUnit /\ good s' /\ (forall m, held s' m = None) /\ a_sets s' = [] /\ a_paa s' = a_paa s /\ a_ratio s' = a_ratio s.
Proof.
  intros G E. cbn [exec] in E. injection E as <- <-. repeat split; cbn; try tauto; try constructor.
  apply G.
Qed.

(** preparing *)
Lemma prepare_spec e s n b s' r : good s -> exec e (CPrepare n b) s = (s', r) ->
  good s' /\ (forall m, held s' m = held s m) /\ a_sets s' = a_sets s /\ a_ratio s' = a_ratio s /\
  a_count s' = a_count s /\ (forall m, m <> n -> assoc m (a_paa s') = assoc m (a_paa s)) /\
  (held s n = None -> s' = s /\ r = Throw no_dataset).
Proof.
  intros G E. cbn [exec] in E.
  destruct (find_alive s n G) as [(id & g & Ha & Hi & Hg & Hf & Hd & _ & Hh)|(Ha & Hf & _ & Hh)]; rewrite Hf in E.
  - assert (H : s' = s \/ exists w', s' = mkApi (a_sets s) (a_objs s) (map_put n w' (a_paa s)) (a_count s) (a_ratio s)).
    { destruct (match assoc n (a_paa s) with Some w => _ | None => _ end) as [w| | |] in E; try (injection E as <- <-; auto).
      destruct (wrapper_generate s w b) as [w' r']. injection E as <- <-. right. exists w'. reflexivity. }
    rewrite Hh. destruct H as [->|[w' ->]].
    + repeat split; auto; try apply G; discriminate.
    + split; [destruct G as [G1 G2 G3 G4 G5]; split; cbn; auto; apply put_sorted, G5|]. cbn.
      repeat split; auto; try discriminate.
      intros m Hm. rewrite assoc_put by apply G. destruct (String.eqb_spec m n); [contradiction|reflexivity].
  - injection E as <- <-. repeat split; auto; apply G.
Qed.

Lemma query_spec s t qs f s' r : good s -> search_groups s t qs f = (s', r) ->
  s' = s \/ exists q, qs = Ret q /\ on_set s t (fun g => or_same g (f g q)) = (s', r).
Proof. intros G E. destruct qs as [q| | |]; cbn in E; try (injection E as <- <-; auto). right. exists q. auto. Qed.

(** every call *)
Lemma exec_good e c s s' r : good s -> exec e c s = (s', r) -> ends r -> good s' /\ forall n, ~ concerns c n -> held s' n = held s n.
Proof.
  intros G E Hr.
  assert (Same : s' = s -> good s' /\ forall n, ~ concerns c n -> held s' n = held s n) by (intros ->; auto).
  assert (Set_ : forall n f, (forall m, ~ concerns c m -> m <> n) -> on_set s n f = (s', r) ->
            good s' /\ forall m, ~ concerns c m -> held s' m = held s m).
  { intros n f Hc Eo. destruct (on_set_spec s n f s' r G Eo) as [(_ & -> & _)|(g & g' & _ & _ & G' & _ & Ho & _)]; [auto|].
    split; [exact G'|]. intros m Hm. apply Ho, Hc, Hm. }
  destruct c; cbn [concerns] in *; try (cbn [exec] in E; unfold pure in E; injection E as <- <-; auto; fail).
  - destruct (load_spec e s _ _ _ _ _ _ s' r G E Hr) as [(_ & -> & _)|(Hn & G' & d & o & El & [(x & _ & _ & Hh & _)|(i & _ & _ & _ & _ & Hh & _)])];
      [auto|split; auto|split; [auto|]]. intros n Hc. apply Hh. congruence.
  - destruct (unload_spec e s _ s' r G E) as [(_ & -> & _)|(_ & _ & G' & _ & Hh & _)]; [auto|].
    split; [auto|]. intros n Hc. apply Hh. congruence.
  - destruct (unload_all_spec e s s' r G E) as (_ & G' & _). split; [auto|]. intros n Hc. exfalso. auto.
  - cbn [exec] in E. eapply Set_; [|exact E]. congruence.
  - cbn [exec] in E. eapply Set_; [|exact E]. congruence.
  - cbn [exec] in E. eapply Set_; [|exact E]. congruence.
  - cbn [exec] in E. eapply Set_; [|exact E]. congruence.
  - cbn [exec] in E. injection E as <- <-. split; [destruct G; split; auto|reflexivity].
  - cbn [exec] in E. destruct (query_spec _ _ _ _ _ _ G E) as [->|(q & _ & Eo)]; [auto|]. eapply Set_; [|exact Eo]. congruence.
  - cbn [exec] in E. destruct (query_spec _ _ _ _ _ _ G E) as [->|(q & _ & Eo)]; [auto|]. eapply Set_; [|exact Eo]. congruence.
  - destruct (prepare_spec e s _ _ s' r G E) as (G' & Hh & _). auto.
Qed.

Lemma run_good r0 h s : run r0 h s -> good s.
Proof.
  induction 1 as [|h s e c s' r _ IH E Hr]; [split; cbn; try tauto; try constructor|].
  exact (proj1 (exec_good e c s s' r IH E Hr)).
Qed.

(** ** names in use *)
Lemma on_set_held s n f s' r m : good s -> on_set s n f = (s', r) -> (held s' m = None <-> held s m = None).
Proof.
  intros G Eo. destruct (on_set_spec s n f s' r G Eo) as [(_ & -> & _)|(g & g' & Hg & _ & _ & Hg' & Ho & _)]; [tauto|].
  destruct (string_dec m n) as [->|Hm]; [|rewrite (Ho m Hm); tauto].
  rewrite Hg, Hg'. split; discriminate.
Qed.

Lemma run_in_use r0 h s : run r0 h s -> forall n, in_use h n = true <-> held s n <> None.
Proof.
  induction 1 as [|h s e c s' r Hrun IH E Hr]; intros n.
  - cbn. split; [discriminate|]. intros H. exfalso. apply H. reflexivity.
  - pose proof (run_good _ _ _ Hrun) as G. specialize (IH n).
    unfold in_use in *. rewrite fold_left_app. cbn [fold_left].
    assert (Keep : in_use_after n (fold_left (in_use_after n) h false) (c, r) = fold_left (in_use_after n) h false ->
              (held s' n = None <-> held s n = None) ->
              in_use_after n (fold_left (in_use_after n) h false) (c, r) = true <-> held s' n <> None)
      by (intros -> Hh; rewrite IH; tauto).
    assert (Same : forall m, ~ concerns c m -> held s' m = held s m) by exact (proj2 (exec_good e c s s' r G E Hr)).
    destruct c; try (apply Keep; [reflexivity|rewrite Same by (cbn; tauto); tauto]).
    + clear Keep Same.
      destruct (load_spec e s _ _ _ _ _ _ s' r G E Hr) as
        [(_ & -> & ->)|(Hn & G' & d & o & El & [(x & _ & -> & Hh & _)|(i & _ & -> & _ & Hh' & Hh & _)])].
      * exact IH.
      * cbn. rewrite (Hh n). exact IH.
      * cbn. destruct (String.eqb_spec name n) as [->|Hne]; [rewrite Hh'; split; [discriminate|reflexivity]|].
        rewrite Hh by congruence. exact IH.
    + clear Keep Same. destruct (unload_spec e s _ s' r G E) as [(_ & -> & ->)|(_ & -> & G' & Hnone & Hh & _)].
      * exact IH.
      * cbn. destruct (String.eqb_spec name n) as [->|Hne]; [rewrite Hnone; split; [discriminate|intros H; exfalso; apply H; reflexivity]|].
        rewrite Hh by congruence. exact IH.
    + destruct (unload_all_spec e s s' r G E) as (-> & G' & Hh & _). cbn. rewrite Hh.
      split; [discriminate|intros H; exfalso; apply H; reflexivity].
    + apply Keep; [reflexivity|]. eapply on_set_held; [exact G|exact E].
    + apply Keep; [reflexivity|]. eapply on_set_held; [exact G|exact E].
    + apply Keep; [reflexivity|]. eapply on_set_held; [exact G|exact E].
    + apply Keep; [reflexivity|]. eapply on_set_held; [exact G|exact E].
    + apply Keep; [reflexivity|]. cbn [exec] in E. destruct (query_spec _ _ _ _ _ _ G E) as [->|(q & _ & Eo)]; [tauto|].
      eapply on_set_held; [exact G|exact Eo].
    + apply Keep; [reflexivity|]. cbn [exec] in E. destruct (query_spec _ _ _ _ _ _ G E) as [->|(q & _ & Eo)]; [tauto|].
      eapply on_set_held; [exact G|exact Eo].
Qed.

Lemma held_name s n : good s -> held s n <> None <-> In n (keys (a_sets s)).
Proof.
  intros G. destruct (find_alive s n G) as [(k & g & Ha & Hi & Hg & _ & _ & _ & Hh)|(Ha & _ & _ & Hh)]; rewrite Hh.
  - split; [|discriminate]. intros _. change n with (fst (n, k)). apply in_map, Hi.
  - apply assoc_none in Ha. split; [intros H; exfalso; apply H; reflexivity|intros H; exfalso; auto].
Qed.

Lemma two_held s n m : good s -> (held s n = None \/ held s m = None) ->
  (_ <- find_id s n ;; _ <- find_id s m ;; Ret tt) = Throw no_dataset.
Proof.
  intros G. destruct (find_alive s n G) as [(k & g & _ & _ & _ & Hf & _ & _ & Hh)|(_ & Hf & _ & Hh)]; rewrite Hh, Hf; cbn.
  - destruct (find_alive s m G) as [(k' & g' & _ & _ & _ & Hf' & _ & _ & Hh')|(_ & Hf' & _ & Hh')]; rewrite Hh', Hf'; cbn;
      [intros [?|?]; discriminate|reflexivity].
  - reflexivity.
Qed.

(** a call that needs a name not in use *)
Lemma unknown_name e c s n : good s -> In n (needs c) -> held s n = None -> exec e c s = (s, Throw no_dataset).
Proof.
  intros G Hn Hh.
  assert (One : find_id s n = Throw no_dataset /\ find_set s n = Throw no_dataset).
  { destruct (find_alive s n G) as [(k & g & _ & _ & _ & _ & _ & _ & Hh')|(_ & Hf & Hf' & _)]; [congruence|auto]. }
  destruct One as [F1 F2].
  assert (Two : forall t q, In n [t; q] -> (exists k, find_id s t = Ret k /\ find_id s q = Throw no_dataset /\ find_set s q = Throw no_dataset) \/
             find_id s t = Throw no_dataset).
  { intros t q Hi. destruct (find_alive s t G) as [(k & g & _ & _ & _ & Hft & _ & _ & Hht)|(_ & Hft & _ & _)]; [|right; exact Hft].
    destruct Hi as [->|[->|[]]]; [congruence|]. left. exists k. auto. }
  destruct c; cbn [needs] in Hn; try (destruct Hn as [->|Hf]; [|solve [destruct Hf]]); cbn [exec];
    try (unfold pure; rewrite F2; reflexivity); try (rewrite F1; reflexivity);
    try (unfold on_set; rewrite F1; reflexivity); try contradiction.
  - unfold pure, getDatasetInfo. rewrite F2. reflexivity.
  - destruct (Two _ _ Hn) as [(k & H1 & H2 & H3)|H1]; unfold search_groups, query_series; rewrite H1; cbn; [rewrite H3|]; reflexivity.
  - destruct (Two _ _ Hn) as [(i & H1 & H2 & H3)|H1]; unfold search_groups, query_series; rewrite H1; cbn; [rewrite H3|]; reflexivity.
  - destruct (Two _ _ Hn) as [(i & H1 & H2 & H3)|H1]; unfold pure, query_series; rewrite H1; cbn; [rewrite H3|]; reflexivity.
  - destruct (Two _ _ Hn) as [(i & H1 & H2 & H3)|H1]; unfold pure; rewrite H1; cbn; [rewrite H2|]; reflexivity.
  - destruct (Two _ _ Hn) as [(i & H1 & H2 & H3)|H1]; unfold pure, two_series; rewrite H1; cbn; [rewrite H2|]; reflexivity.
  - destruct (Two _ _ Hn) as [(i & H1 & H2 & H3)|H1]; unfold pure, two_series; rewrite H1; cbn; [rewrite H2|]; reflexivity.
Qed.

Lemma used_name e s n path seps mr sc hn : good s -> held s n <> None -> exec e (CLoad n path seps mr sc hn) s = (s, Throw name_used).
Proof.
  intros G Hh. cbn [exec]. destruct (find_alive s n G) as [(k & g & Ha & _)|(_ & _ & _ & Hh')]; [rewrite Ha; reflexivity|contradiction].
Qed.

(** all data sets are listed in the order of their names *)
Lemma each_info_names s : forall ns l, each_info s ns = Ret l -> map i_name l = ns.
Proof.
  induction ns as [|n ns IH]; intros l E; cbn in E; [injection E as <-; reflexivity|].
  unfold getDatasetInfo in E. destruct (find_set s n) as [g| | |]; cbn in E; try discriminate.
  destruct (getThreshold g) as [t| | |]; cbn in E; try discriminate.
  destruct (each_info s ns) as [is| | |]; cbn in E; try discriminate. injection E as <-. cbn. f_equal. auto.
Qed.
End Proofs.
