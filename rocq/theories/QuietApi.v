(** Two states of the interface that differ in valid caches of one data set reply alike;
    where the caches are valid. *)
From Coq Require Import String.
From Verif Require Import Base Num NumLaws LoopFacts TimeSeries Lemire Distance TSSet StdAlg Candidate Group GroupSpace PAA PAAProofs Archive OldFormat Loader
  BruteForce DistSpec DistLink QueryState Api ApiSpec ApiProofs ApiQuery ApiPaa Quiet.
Local Open Scope Z_scope.
Local Open Scope list_scope.

Section Saving.
Context {N : Num}.
Variable d : dataset N.

(** ** what is saved does not depend on the caches *)
Lemma save_groups_same len sub mm (gs1 gs2 : list (group N)) : Forall2 (ag d len) gs1 gs2 -> save_groups sub mm gs1 = save_groups sub mm gs2.
Proof.
  induction 1 as [|g1 g2 gs1 gs2 (A & B & C & _) H IH]; cbn [save_groups]; [reflexivity|].
  unfold save_group, memberCoords. rewrite A, B, C, IH. reflexivity.
Qed.

Lemma save_space_same (gs1 gs2 : ggs N) : aS d gs1 gs2 -> save_space gs1 = save_space gs2.
Proof.
  intros [A B]. destruct (aS_fields _ _ A) as (F1 & F2 & F3 & F4 & F5 & F6). unfold save_space, gg_minLength.
  rewrite <- (Forall2_len _ _ _ B), <- F1, <- F4, <- F6. destruct (init_get (gg_threshold gs1)) as [th| | |]; cbn [bind]; auto.
  apply rr_eq_inv. eapply rr_bind with (R := eq); [|intros a b <-; apply rr_eq; reflexivity].
  apply rr_for; [reflexivity|]. intros i a b <-. eapply rr_bind; [apply rr_aget, B|].
  intros [L1|] [L2|] Y; cbn in Y; try contradiction; cbn [deref bind rr]; auto. destruct Y as (Y1 & Y2 & Y3 & Y4).
  unfold save_level. rewrite <- Y2, <- Y3, (save_groups_same _ _ _ _ _ Y4), (Forall2_len _ _ _ Y4). apply rr_eq. reflexivity.
Qed.

Lemma old_groups_same put16 len sub mm (gs1 gs2 : list (group N)) : Forall2 (ag d len) gs1 gs2 ->
  save_groups_old put16 d len sub mm gs1 = save_groups_old put16 d len sub mm gs2.
Proof.
  induction 1 as [|g1 g2 gs1 gs2 (A & B & C & _) H IH]; cbn [save_groups_old]; [reflexivity|].
  unfold save_group_old, memberCoords. rewrite A, B, C, IH. reflexivity.
Qed.

Lemma counts_same (f : Z -> string) len (gs1 gs2 : list (group N)) : Forall2 (ag d len) gs1 gs2 ->
  map (fun g => f (Group.g_count g)) gs1 = map (fun g => f (Group.g_count g)) gs2.
Proof. induction 1 as [|g1 g2 gs1 gs2 (A & B & C & _) H IH]; cbn [map]; congruence. Qed.

Lemma old_space_same put16 sizeOnly (gs1 gs2 : ggs N) : aS d gs1 gs2 -> save_space_old put16 d sizeOnly gs1 = save_space_old put16 d sizeOnly gs2.
Proof.
  intros [A B]. destruct (aS_fields _ _ A) as (F1 & F2 & F3 & F4 & F5 & F6). unfold save_space_old, gg_minLength.
  rewrite <- (Forall2_len _ _ _ B), <- F1, <- F6.
  apply rr_eq_inv. eapply rr_bind with (R := eq); [|intros a b <-; apply rr_eq; reflexivity].
  apply rr_for; [reflexivity|]. intros i a b <-. eapply rr_bind; [apply rr_aget, B|].
  intros [L1|] [L2|] Y; cbn in Y; try contradiction; cbn [rr]; auto. destruct Y as (Y1 & Y2 & Y3 & Y4). apply rr_eq.
  unfold save_level_old. rewrite <- Y1, <- Y2, <- Y3, (old_groups_same _ _ _ _ _ _ Y4), (Forall2_len _ _ _ Y4).
  rewrite (counts_same (fun c => (put_int c ++ " ")%string) _ _ _ Y4). reflexivity.
Qed.
End Saving.

Section Api.
Context {N : Num}.
Implicit Types s : api N.

Lemma save_same (g1 g2 : gset N) : alike g1 g2 -> save g1 = save g2.
Proof.
  intros [A B]. unfold save. destruct (gt_groups g1), (gt_groups g2); try contradiction; auto.
  rewrite (save_space_same _ _ _ B), A. reflexivity.
Qed.
Lemma save_old_same put put16 w so (g1 g2 : gset N) : alike g1 g2 -> saveGroupsOld put put16 w so g1 = saveGroupsOld put put16 w so g2.
Proof.
  intros [A B]. unfold saveGroupsOld. destruct (gt_groups g1), (gt_groups g2); try contradiction; auto. destruct w; auto.
  pose proof (aS_fields _ _ (proj1 B)) as (_ & _ & _ & F & _). rewrite <- F, (old_space_same _ _ _ _ _ B), A. reflexivity.
Qed.
Lemma load_alike file (g1 g2 : gset N) : alike g1 g2 ->
  snd (loadFromFile file g1) = snd (loadFromFile file g2) /\
  (fst (loadFromFile file g1) = fst (loadFromFile file g2) \/ (fst (loadFromFile file g1) = g1 /\ fst (loadFromFile file g2) = g2)).
Proof.
  intros [A B]. unfold loadFromFile. destruct file as [ts|]; [|cbn; auto]. unfold load, and_then.
  destruct ('(cnt, ts0) <- get_int ts ;; '(len, ts1) <- get_int ts0 ;; Ret (cnt, len, ts1)) as [[[cnt len] ts']| | |]; try (cbn; auto; fail).
  rewrite <- A. destruct (negb _); [cbn; auto|]. destruct (negb _); [cbn; auto|]. destruct (load_space _ _ _). cbn. auto.
Qed.
Lemma load_old_alike scan file (g1 g2 : gset N) : alike g1 g2 ->
  snd (loadGroupsOld scan file g1) = snd (loadGroupsOld scan file g2) /\
  (fst (loadGroupsOld scan file g1) = fst (loadGroupsOld scan file g2) \/ (fst (loadGroupsOld scan file g1) = g1 /\ fst (loadGroupsOld scan file g2) = g2)).
Proof.
  intros [A B]. unfold loadGroupsOld. destruct file as [ts|]; [|cbn; auto].
  destruct (read_int None _) as [version s1]. destruct (read_dbl _ _ s1) as [x s2]. destruct (read_int None s2) as [cnt s3]. destruct (read_int None s3) as [y s4].
  unfold and_then. destruct (init_get version) as [v| | |]; try (cbn; auto; fail). destruct (negb _); [cbn; auto|].
  destruct (init_get cnt) as [c| | |]; try (cbn; auto; fail). rewrite <- A. destruct (negb _); [cbn; auto|]. destruct (load_space_old _ _ _). cbn. auto.
Qed.

(** ** states *)
Definition relo (o1 o2 : option (option (gset N))) : Prop :=
  o1 = o2 \/ exists g1 g2, o1 = Some (Some g1) /\ o2 = Some (Some g2) /\ alike g1 g2.

(** [k] is the object that may differ; [t] is the only name it has ever had *)
Record rel (k : nat) (t : string) (s1 s2 : api N) : Prop := {
  r_sets : a_sets s1 = a_sets s2;
  r_paa : a_paa s1 = a_paa s2;
  r_count : a_count s1 = a_count s2;
  r_ratio : a_ratio s1 = a_ratio s2;
  r_len : length (a_objs s1) = length (a_objs s2);
  r_in : (k < length (a_objs s1))%nat;
  r_same : forall i, i <> k -> nth_error (a_objs s1) i = nth_error (a_objs s2) i;
  r_at : relo (nth_error (a_objs s1) k) (nth_error (a_objs s2) k);
  r_name : forall n, assoc n (a_sets s1) = Some k -> n = t
}.

Definition Rg (g1 g2 : gset N) : Prop := g1 = g2 \/ alike g1 g2.
Lemma Rg_data g1 g2 : Rg g1 g2 -> gt_data g1 = gt_data g2.
Proof. intros [->|[A _]]; auto. Qed.

Section Rel.
Variable k : nat.
Variable t : string.

Lemma rel_at s1 s2 i : rel k t s1 s2 -> relo (nth_error (a_objs s1) i) (nth_error (a_objs s2) i).
Proof. intros R. destruct (Nat.eq_dec i k) as [->|Hi]; [apply (r_at _ _ _ _ R)|left; apply (r_same _ _ _ _ R), Hi]. Qed.

Lemma deref_sim s1 s2 id : rel k t s1 s2 -> rr Rg (deref_set s1 id) (deref_set s2 id).
Proof.
  intros R. unfold deref_set. destruct (rel_at s1 s2 id R) as [->|(g1 & g2 & -> & -> & A)].
  - destruct (nth_error (a_objs s2) id) as [[g|]|]; cbn; auto. left. reflexivity.
  - cbn. right. exact A.
Qed.
Lemma find_id_sim s1 s2 n : rel k t s1 s2 -> find_id s1 n = find_id s2 n.
Proof. intros R. unfold find_id. rewrite (r_sets _ _ _ _ R). reflexivity. Qed.
Lemma find_set_sim s1 s2 n : rel k t s1 s2 -> rr Rg (find_set s1 n) (find_set s2 n).
Proof.
  intros R. unfold find_set. rewrite (find_id_sim s1 s2 n R). eapply rr_bind; [apply rr_eq; reflexivity|]. intros id id' <-. apply deref_sim, R.
Qed.

Lemma on_data {A} s1 s2 n (f : dataset N -> res A) : rel k t s1 s2 ->
  (g <- find_set s1 n ;; f (gt_data g)) = (g <- find_set s2 n ;; f (gt_data g)).
Proof.
  intros R. apply rr_eq_inv. eapply rr_bind; [apply find_set_sim, R|]. intros g1 g2 Hg. apply rr_eq. rewrite (Rg_data _ _ Hg). reflexivity.
Qed.

Lemma query_sim s1 s2 a q i st en : rel k t s1 s2 -> query_series s1 a q i st en = query_series s2 a q i st en.
Proof.
  intros R. unfold query_series. rewrite (find_id_sim s1 s2 a R). destruct (find_id s2 a) as [id| | |]; cbn [bind]; auto.
  apply (on_data s1 s2 q (fun d => getTimeSeries d i st en) R).
Qed.

Lemma two_sim s1 s2 n1 i1 p1 e1 n2 i2 p2 e2 : rel k t s1 s2 -> two_series s1 n1 i1 p1 e1 n2 i2 p2 e2 = two_series s2 n1 i1 p1 e1 n2 i2 p2 e2.
Proof.
  intros R. unfold two_series. rewrite (find_id_sim s1 s2 n1 R), (find_id_sim s1 s2 n2 R).
  destruct (find_id s2 n1) as [id1| | |]; cbn [bind]; auto. destruct (find_id s2 n2) as [id2| | |]; cbn [bind]; auto.
  apply rr_eq_inv. eapply rr_bind; [apply deref_sim, R|]. intros g1 g2 Hg. rewrite (Rg_data _ _ Hg).
  eapply rr_bind; [apply rr_eq; reflexivity|]. intros a a' <-. eapply rr_bind; [apply deref_sim, R|]. intros g3 g4 Hg'. rewrite (Rg_data _ _ Hg').
  apply rr_eq. reflexivity.
Qed.

Lemma Rg_info (g1 g2 : gset N) : Rg g1 g2 -> getThreshold g1 = getThreshold g2 /\ isGrouped g1 = isGrouped g2 /\ getDistanceName g1 = getDistanceName g2 /\
  getTotalNumberOfGroups g1 = getTotalNumberOfGroups g2.
Proof.
  intros [->|[A B]]; [splits; auto|]. unfold getThreshold, isGrouped, getDistanceName, getTotalNumberOfGroups.
  destruct (gt_groups g1), (gt_groups g2); try contradiction; [|splits; auto].
  destruct (aS_fields _ _ (proj1 B)) as (F1 & F2 & F3 & F4 & F5 & F6). rewrite F1, F4, F5. splits; auto.
Qed.
Lemma info_sim s1 s2 n : rel k t s1 s2 -> getDatasetInfo s1 n = getDatasetInfo s2 n.
Proof.
  intros R. unfold getDatasetInfo. apply rr_eq_inv. eapply rr_bind; [apply find_set_sim, R|]. intros g1 g2 Hg.
  destruct (Rg_info _ _ Hg) as (-> & -> & -> & _). rewrite (Rg_data _ _ Hg). apply rr_eq. reflexivity.
Qed.
Lemma each_info_sim s1 s2 : rel k t s1 s2 -> forall ns, each_info s1 ns = each_info s2 ns.
Proof. intros R. induction ns as [|n ns IH]; cbn [each_info]; [reflexivity|]. rewrite (info_sim s1 s2 n R), IH. reflexivity. Qed.

Lemma wrapper_search_sim s1 s2 H w q kk dist : rel k t s1 s2 -> wrapper_search H s1 w q kk dist = wrapper_search H s2 w q kk dist.
Proof.
  intros R. unfold wrapper_search. rewrite (r_ratio _ _ _ _ R). destruct (rel_at s1 s2 (fst w) R) as [->|(g1 & g2 & -> & -> & A)]; [reflexivity|].
  rewrite (proj1 A). reflexivity.
Qed.
Lemma wrapper_generate_sim s1 s2 w b : rel k t s1 s2 -> wrapper_generate s1 w b = wrapper_generate s2 w b.
Proof.
  intros R. unfold wrapper_generate. destruct (rel_at s1 s2 (fst w) R) as [->|(g1 & g2 & -> & -> & A)]; [reflexivity|].
  rewrite (proj1 A). reflexivity.
Qed.

(** replacing the same object in both *)
Lemma rel_upd s1 s2 id o1 o2 sets paa cnt ratio : rel k t s1 s2 -> o1 = o2 \/ (id = k /\ exists g1 g2, o1 = Some g1 /\ o2 = Some g2 /\ alike g1 g2) ->
  (forall n, assoc n sets = Some k -> n = t) ->
  rel k t (mkApi sets (upd (a_objs s1) id o1) paa cnt ratio) (mkApi sets (upd (a_objs s2) id o2) paa cnt ratio).
Proof.
  intros R Ho Hn. constructor; cbn [a_sets a_paa a_count a_ratio a_objs]; auto.
  - rewrite !upd_length. apply (r_len _ _ _ _ R).
  - rewrite upd_length. apply (r_in _ _ _ _ R).
  - intros i Hi. destruct (Nat.eq_dec i id) as [->|Hne]; [|rewrite !nth_error_upd_neq by auto; apply (r_same _ _ _ _ R), Hi].
    destruct Ho as [->|[-> _]]; [|contradiction]. destruct (Nat.lt_ge_cases id (length (a_objs s1))) as [Hl|Hl].
    + rewrite !nth_error_upd_same; auto. rewrite <- (r_len _ _ _ _ R). exact Hl.
    + rewrite !(proj2 (nth_error_None _ _)); auto; rewrite upd_length; auto. rewrite <- (r_len _ _ _ _ R). exact Hl.
  - pose proof (r_in _ _ _ _ R) as Hk. destruct (Nat.eq_dec k id) as [E|Hne]; [|rewrite !nth_error_upd_neq by auto; apply (r_at _ _ _ _ R)].
    rewrite <- E. rewrite !nth_error_upd_same; auto; [|rewrite <- (r_len _ _ _ _ R); exact Hk].
    destruct Ho as [->|(_ & g1 & g2 & -> & -> & A)]; [left; reflexivity|right; eauto 6].
Qed.

Lemma on_set_sim s1 s2 n f1 f2 s1' s2' r1 r2 : rel k t s1 s2 ->
  (forall g, f1 g = f2 g) -> (n = t -> forall g1 g2, alike g1 g2 -> snd (f1 g1) = snd (f2 g2) /\ Rg (fst (f1 g1)) (fst (f2 g2))) ->
  on_set s1 n f1 = (s1', r1) -> on_set s2 n f2 = (s2', r2) -> r1 = r2 /\ rel k t s1' s2'.
Proof.
  intros R Hf Ha E1 E2. unfold on_set in E1, E2. rewrite (find_id_sim s1 s2 n R) in E1.
  assert (Hid : forall id, find_id s2 n = Ret id -> id = k -> n = t).
  { intros id E ->. apply (r_name _ _ _ _ R). unfold find_id in E. rewrite (r_sets _ _ _ _ R). destruct (assoc n (a_sets s2)); congruence. }
  destruct (find_id s2 n) as [id| | |] eqn:Ei; try (injection E1 as <- <-; injection E2 as <- <-; auto; fail).
  specialize (Hid id eq_refl).
  assert (G : rr (fun g1 g2 => g1 = g2 \/ (id = k /\ alike g1 g2)) (deref_set s1 id) (deref_set s2 id)).
  { unfold deref_set. destruct (Nat.eq_dec id k) as [->|Hne].
    - destruct (r_at _ _ _ _ R) as [->|(g1 & g2 & -> & -> & A)]; [|cbn; auto]. destruct (nth_error _ k) as [[g|]|]; cbn; auto.
    - rewrite (r_same _ _ _ _ R id Hne). destruct (nth_error _ id) as [[g|]|]; cbn; auto. }
  destruct (deref_set s1 id) as [g1| | |], (deref_set s2 id) as [g2| | |]; cbn in G; try contradiction;
    try (injection E1 as <- <-; injection E2 as <- <-; split; [congruence|assumption]).
  assert (Put : forall g1' g2', g1' = g2' \/ (id = k /\ alike g1' g2') -> rel k t (put_obj s1 id (Some g1')) (put_obj s2 id (Some g2'))).
  { intros g1' g2' Hg. unfold put_obj. rewrite <- (r_sets _ _ _ _ R), <- (r_paa _ _ _ _ R), <- (r_count _ _ _ _ R), <- (r_ratio _ _ _ _ R).
    apply rel_upd; [exact R| |apply (r_name _ _ _ _ R)]. destruct Hg as [->|[Hg A]]; [left; reflexivity|right; eauto 6]. }
  destruct G as [<-|[G1 G2]].
  - rewrite <- Hf in E2. destruct (f1 g1) as [g' r]. injection E1 as <- <-. injection E2 as <- <-. split; [reflexivity|]. apply Put. auto.
  - destruct (Ha (Hid G1) g1 g2 G2) as [Hr Hg]. destruct (f1 g1) as [g1' r1'], (f2 g2) as [g2' r2']. cbn [fst snd] in *.
    injection E1 as <- <-. injection E2 as <- <-. split; [exact Hr|]. apply Put. destruct Hg; auto.
Qed.

Lemma or_same_sim (g1 g2 : gset N) q1 q2 : alike g1 g2 -> rr (fun a b => snd a = snd b /\ alike g1 (fst a) /\ alike g1 (fst b)) q1 q2 ->
  snd (or_same g1 q1) = snd (or_same g2 q2) /\ Rg (fst (or_same g1 q1)) (fst (or_same g2 q2)).
Proof.
  intros A. destruct q1 as [[a x]| | |], q2 as [[b y]| | |]; cbn; intros X; try contradiction; try (split; [congruence|right; exact A]).
  destruct X as (-> & X1 & X2). split; [reflexivity|]. right. eapply alike_trans; [apply alike_sym, X1|exact X2].
Qed.

Lemma search_sim s1 s2 n q1 q2 f1 f2 s1' s2' r1 r2 : rel k t s1 s2 -> q1 = q2 -> (forall g x, f1 g x = f2 g x) ->
  (forall g1 g2 x, alike g1 g2 -> rr (fun a b => snd a = snd b /\ alike g1 (fst a) /\ alike g1 (fst b)) (f1 g1 x) (f2 g2 x)) ->
  search_groups s1 n q1 f1 = (s1', r1) -> search_groups s2 n q2 f2 = (s2', r2) -> r1 = r2 /\ rel k t s1' s2'.
Proof.
  intros R <- Hf Ha E1 E2. destruct q1 as [q| | |]; cbn [search_groups] in *; try (injection E1 as <- <-; injection E2 as <- <-; auto; fail).
  refine (on_set_sim s1 s2 n _ _ s1' s2' r1 r2 R _ _ E1 E2).
  - intros g. rewrite Hf. reflexivity.
  - intros _ g1 g2 A. apply or_same_sim; auto.
Qed.

Lemma rel_clear sets0 paa cnt ratio : forall s1 s2, rel k t s1 s2 ->
  rel k t (mkApi [] (fold_left (fun objs (p : string * nat) => upd objs (snd p) None) sets0 (a_objs s1)) paa cnt ratio)
          (mkApi [] (fold_left (fun objs p => upd objs (snd p) None) sets0 (a_objs s2)) paa cnt ratio).
Proof.
  induction sets0 as [|[n id] l IH]; intros s1 s2 R; cbn [fold_left snd].
  - destruct R. constructor; cbn; auto. discriminate.
  - apply (IH (mkApi [] (upd (a_objs s1) id None) paa cnt ratio) (mkApi [] (upd (a_objs s2) id None) paa cnt ratio)).
    apply rel_upd; auto. discriminate.
Qed.

Lemma rel_grow s1 s2 o sets paa cnt ratio : rel k t s1 s2 -> (forall n, assoc n sets = Some k -> n = t) ->
  rel k t (mkApi sets (a_objs s1 ++ [o]) paa cnt ratio) (mkApi sets (a_objs s2 ++ [o]) paa cnt ratio).
Proof.
  intros R Hn. pose proof (r_in _ _ _ _ R) as Hk. pose proof (r_len _ _ _ _ R) as Hl. constructor; cbn [a_sets a_paa a_count a_ratio a_objs]; auto.
  - rewrite !app_length, Hl. reflexivity.
  - rewrite app_length. cbn. lia.
  - intros i Hi. destruct (Nat.lt_ge_cases i (length (a_objs s1))) as [H|H].
    + rewrite !nth_error_app1 by lia. apply (r_same _ _ _ _ R), Hi.
    + rewrite !nth_error_app2 by lia. rewrite Hl. reflexivity.
  - rewrite !nth_error_app1 by lia. apply (r_at _ _ _ _ R).
Qed.

Lemma with_data (g1 g2 : gset N) gs : alike g1 g2 -> Rg (mkGS (gt_data g1) gs) (mkGS (gt_data g2) gs).
Proof. intros [-> _]. left. reflexivity. Qed.

Theorem step_sim e c s1 s2 s1' s2' r1 r2 : good s1 -> rel k t s1 s2 -> c <> CNormalize t ->
  exec e c s1 = (s1', r1) -> exec e c s2 = (s2', r2) -> r1 = r2 /\ rel k t s1' s2'.
Proof.
  intros G R Hc E1 E2.
  assert (Pure : forall {A} (x1 x2 : res A) f, x1 = x2 -> pure s1 x1 f = (s1', r1) -> pure s2 x2 f = (s2', r2) -> r1 = r2 /\ rel k t s1' s2').
  { intros A x1 x2 f <- X1 X2. unfold pure in *. injection X1 as <- <-. injection X2 as <- <-. auto. }
  destruct c; cbn [exec] in E1, E2.
  - (* CLoad *) rewrite <- (r_sets _ _ _ _ R), <- (r_paa _ _ _ _ R), <- (r_count _ _ _ _ R), <- (r_ratio _ _ _ _ R), <- (r_len _ _ _ _ R) in E2.
    destruct (assoc name (a_sets s1)) eqn:Ea; [injection E1 as <- <-; injection E2 as <- <-; auto|].
    destruct (loadData _ _ _ _ _ _ _ _) as [d r]. destruct r as [x|x| |]; [| |injection E1 as <- <-; injection E2 as <- <-; auto|injection E1 as <- <-; injection E2 as <- <-; auto].
    + assert (R' : rel k t (mkApi (map_put name (length (a_objs s1)) (a_sets s1)) (a_objs s1 ++ [Some (mkGS d None)]) (a_paa s1) (a_count s1 + 1) (a_ratio s1))
                           (mkApi (map_put name (length (a_objs s1)) (a_sets s1)) (a_objs s2 ++ [Some (mkGS d None)]) (a_paa s1) (a_count s1 + 1) (a_ratio s1))).
      { apply rel_grow; [exact R|]. intros n. rewrite assoc_put by apply (g_sorted _ G). destruct (String.eqb_spec n name) as [->|Hn]; [|apply (r_name _ _ _ _ R)].
        intros X. injection X as X. pose proof (r_in _ _ _ _ R). lia. }
      unfold pure in *. rewrite <- (info_sim _ _ name R') in E2. injection E1 as <- <-. injection E2 as <- <-. auto.
    + destruct x; injection E1 as <- <-; injection E2 as <- <-; (split; [reflexivity|]); apply rel_grow; auto; apply (r_name _ _ _ _ R).
  - refine (Pure _ _ _ _ _ E1 E2). apply (on_data s1 s2 name (fun d => saveData (e_put e) (e_writable e path) d path separator) R).
  - (* CUnload *) rewrite <- (find_id_sim s1 s2 name R) in E2. destruct (find_id s1 name) as [id| | |]; try (injection E1 as <- <-; injection E2 as <- <-; auto; fail).
    pose proof (deref_sim s1 s2 id R) as X. destruct (deref_set s1 id), (deref_set s2 id); cbn in X; try contradiction;
      try (injection E1 as <- <-; injection E2 as <- <-; split; [congruence|assumption]).
    rewrite <- (r_sets _ _ _ _ R), <- (r_paa _ _ _ _ R), <- (r_count _ _ _ _ R), <- (r_ratio _ _ _ _ R) in E2.
    injection E1 as <- <-. injection E2 as <- <-. split; [reflexivity|]. apply rel_upd; auto.
    intros n. rewrite assoc_erase. destruct (String.eqb n name); [discriminate|apply (r_name _ _ _ _ R)].
  - rewrite <- (r_sets _ _ _ _ R), <- (r_paa _ _ _ _ R), <- (r_ratio _ _ _ _ R) in E2. injection E1 as <- <-. injection E2 as <- <-. split; [reflexivity|].
    apply rel_clear, R.
  - injection E1 as <- <-. injection E2 as <- <-. rewrite (r_count _ _ _ _ R). auto.
  - refine (Pure _ _ _ _ _ E1 E2). apply (on_data s1 s2 name (fun d => getTimeSeriesName d index) R).
  - refine (Pure _ _ _ _ _ E1 E2). apply (on_data s1 s2 name (fun d => getItemLength d index) R).
  - refine (Pure _ _ _ _ _ E1 E2). apply info_sim, R.
  - refine (Pure _ _ _ _ _ E1 E2). rewrite (r_sets _ _ _ _ R). apply each_info_sim, R.
  - injection E1 as <- <-. injection E2 as <- <-. auto.
  - refine (Pure _ _ _ _ _ E1 E2). apply (on_data s1 s2 name (fun d => getTimeSeries d index start end_) R).
  - refine (on_set_sim s1 s2 name _ _ s1' s2' r1 r2 R _ _ E1 E2); [reflexivity|]. intros ->. contradiction.
  - rewrite <- (r_ratio _ _ _ _ R) in E2. refine (on_set_sim s1 s2 name _ _ s1' s2' r1 r2 R _ _ E1 E2); [reflexivity|].
    intros _ g1 g2 A. unfold groupAllLengths. rewrite <- (proj1 A). destruct (negb _); [cbn; split; [reflexivity|right; exact A]|].
    destruct (1 <=? numThreads); [|cbn; split; [reflexivity|left; reflexivity]]. destruct (gg_group _ _ _ _ _ _ _). cbn. split; [reflexivity|left; reflexivity].
  - refine (Pure _ _ _ _ _ E1 E2). apply rr_eq_inv. eapply rr_bind; [apply find_set_sim, R|]. intros g1 g2 [->|A]; [apply rr_eq; reflexivity|].
    apply rr_eq. unfold saveToFile. rewrite (save_same _ _ A). reflexivity.
  - refine (on_set_sim s1 s2 name _ _ s1' s2' r1 r2 R _ _ E1 E2); [reflexivity|]. intros _ g1 g2 A.
    destruct (load_alike (e_groups e path) g1 g2 A) as [H1 H2]. destruct (loadFromFile _ g1) as [g1' r], (loadFromFile _ g2) as [g2' r']. cbn [fst snd] in *. subst r'.
    assert (Hg : Rg g1' g2') by (destruct H2 as [->|[-> ->]]; [left; reflexivity|right; exact A]).
    split; [|exact Hg]. destruct (Rg_info _ _ Hg) as (_ & _ & _ & ->). reflexivity.
  - refine (Pure _ _ _ _ _ E1 E2). apply rr_eq_inv. eapply rr_bind; [apply find_set_sim, R|]. intros g1 g2 [->|A]; [apply rr_eq; reflexivity|].
    apply rr_eq. apply save_old_same, A.
  - refine (on_set_sim s1 s2 name _ _ s1' s2' r1 r2 R _ _ E1 E2); [reflexivity|]. intros _ g1 g2 A.
    destruct (load_old_alike (e_scan e) (option_map tf_text (e_files e path)) g1 g2 A) as [H1 H2].
    destruct (loadGroupsOld _ _ g1) as [g1' r], (loadGroupsOld _ _ g2) as [g2' r']. cbn [fst snd] in *. subst r'.
    split; [reflexivity|]. destruct H2 as [->|[-> ->]]; [left; reflexivity|right; exact A].
  - injection E1 as <- <-. injection E2 as <- <-. split; [reflexivity|]. destruct R. constructor; cbn; auto.
  - rewrite <- (r_ratio _ _ _ _ R) in E2.
    refine (search_sim s1 s2 target _ _ _ _ s1' s2' r1 r2 R (query_sim _ _ _ _ _ _ _ R) _ _ E1 E2); [reflexivity|].
    intros g1 g2 x A. eapply rr_bind; [apply best_sim, A|]. intros [a y] [b z] (Hy & H1 & H2). cbn [fst snd] in *. subst. cbn. auto.
  - rewrite <- (r_ratio _ _ _ _ R) in E2.
    refine (search_sim s1 s2 target _ _ _ _ s1' s2' r1 r2 R (query_sim _ _ _ _ _ _ _ R) _ _ E1 E2); [reflexivity|].
    intros g1 g2 x A. eapply rr_bind; [apply kbest_sim, A|]. intros [a y] [b z] (Hy & H1 & H2). cbn [fst snd] in *. subst. cbn. auto.
  - rewrite <- (r_ratio _ _ _ _ R) in E2. refine (Pure _ _ _ _ _ E1 E2). rewrite (query_sim s1 s2 _ _ _ _ _ R).
    destruct (query_series s2 target query index start end_) as [q| | |]; cbn [bind]; auto.
    apply (on_data s1 s2 target (fun d => getKBestMatchesBruteForce (e_alg e) (a_ratio s1) d q k0 distance) R).
  - (* CPrepare *) rewrite <- (find_id_sim s1 s2 name R), <- (r_paa _ _ _ _ R) in E2. destruct (find_id s1 name) as [id| | |]; try (injection E1 as <- <-; injection E2 as <- <-; auto; fail).
    assert (Ew : match assoc name (a_paa s1) with Some w => Ret w | None => g <- deref_set s1 id ;; p <- paa_new (gt_data g) ;; Ret (id, p) end =
                 match assoc name (a_paa s1) with Some w => Ret w | None => g <- deref_set s2 id ;; p <- paa_new (gt_data g) ;; Ret (id, p) end).
    { destruct (assoc name (a_paa s1)) as [w|]; [reflexivity|]. apply rr_eq_inv. eapply rr_bind; [apply deref_sim, R|].
      intros g1 g2 Hg. rewrite (Rg_data _ _ Hg). apply rr_eq. reflexivity. }
    rewrite Ew in E1. destruct (match assoc name (a_paa s1) with Some w => Ret w | None => g <- deref_set s2 id ;; p <- paa_new (gt_data g) ;; Ret (id, p) end) as [w| | |];
      try (injection E1 as <- <-; injection E2 as <- <-; auto; fail).
    rewrite (wrapper_generate_sim s1 s2 w blockSize R) in E1. destruct (wrapper_generate s2 w blockSize) as [w' r].
    injection E1 as <- <-. injection E2 as <- <-. split; [reflexivity|]. destruct R. constructor; cbn; auto.
  - refine (Pure _ _ _ _ _ E1 E2). rewrite <- (find_id_sim s1 s2 target R), <- (find_id_sim s1 s2 query R), <- (r_paa _ _ _ _ R).
    destruct (find_id s1 target) as [i1| | |]; cbn [bind]; auto. destruct (find_id s1 query) as [i2| | |]; cbn [bind]; auto.
    destruct (assoc target (a_paa s1)) as [w|]; auto. apply rr_eq_inv. eapply rr_bind; [apply deref_sim, R|]. intros g1 g2 Hg. rewrite (Rg_data _ _ Hg).
    eapply rr_bind; [apply rr_eq; reflexivity|]. intros q q' <-. apply rr_eq, wrapper_search_sim, R.
  - rewrite <- (r_ratio _ _ _ _ R) in E2. refine (Pure _ _ _ _ _ E1 E2). rewrite (two_sim s1 s2 _ _ _ _ _ _ _ _ R). reflexivity.
  - rewrite <- (r_ratio _ _ _ _ R) in E2. refine (Pure _ _ _ _ _ E1 E2). rewrite (two_sim s1 s2 _ _ _ _ _ _ _ _ R). reflexivity.
Qed.
End Rel.
End Api.
