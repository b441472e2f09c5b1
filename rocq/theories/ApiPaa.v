(** The life of PAA wrappers in the interface. *)
From Coq Require Import String.
From Verif Require Import Base Num LoopFacts TimeSeries Distance TSSet StdAlg Candidate Group GroupSpace Loader Archive OldFormat BruteForce PAA
  DataSpec DataProofs PAAProofs QuerySpec Api ApiSpec ApiProofs ApiQuery.
Local Open Scope Z_scope.
Local Open Scope list_scope.

Section P.
Context {N : Num}.
Implicit Types s : api N.

Lemma paa_new_length (d : dataset N) w : paa_new d = Ret w -> Z.of_nat (length (paa_mat w)) = Z.max 0 (ds_count d).
Proof.
  unfold paa_new. intros E. apply bind_Ret in E as (mat & Em & E). injection E as <-. cbn.
  destruct (Z.le_gt_cases (ds_count d) 0) as [Hc|Hc].
  - rewrite for_empty in Em by lia. injection Em as <-. cbn. lia.
  - rewrite Z.max_r by lia.
    apply (for_partial (fun k (mat : list (list (TS N))) => Z.of_nat (length mat) = k) _ 0 (ds_count d) [] mat) in Em; auto; try lia.
    intros k m m' Hk Hm Eb. cbn beta in Eb. apply bind_Ret in Eb as (t & _ & Eb). injection Eb as <-. rewrite app_length. cbn. lia.
Qed.

Lemma generate_rows_length (d : dataset N) il b : forall n i mat, length (fst (gen_rows d il b n i mat)) = length mat.
Proof.
  induction n as [|n IH]; intros i mat; cbn [gen_rows]; [reflexivity|]. destruct (_ <=? _); [reflexivity|].
  destruct (gen_row _ _ _ _ _ _ _) as [row r]. destruct r; cbn [fst]; try apply upd_length. rewrite IH. apply upd_length.
Qed.

Lemma generate_length (w : paa N) d b w' r : generatePAAMatrix w d b = (w', r) -> length (paa_mat w') = length (paa_mat w).
Proof.
  unfold generatePAAMatrix. destruct (b <? 1); [intros [= <- _]; reflexivity|].
  destruct (getItemLength _ _) as [il| | |]; try (intros [= <- _]; reflexivity).
  pose proof (generate_rows_length d il (Z.min b il) (Z.to_nat (ds_count d)) 0 (paa_mat w)) as Hl.
  destruct (gen_rows _ _ _ _ _ _) as [mat rr]. cbn [fst] in Hl. destruct rr; intros E; injection E as <- <-; exact Hl.
Qed.

(** A wrapper belongs to an object; as long as that lives it is the data set of that name,
    and the wrapper has a row for each of its series. *)
Definition paas s : Prop := forall n w, assoc n (a_paa s) = Some w -> (fst w < length (a_objs s))%nat /\
  forall g, nth_error (a_objs s) (fst w) = Some (Some g) -> assoc n (a_sets s) = Some (fst w) /\
    Z.of_nat (length (paa_mat (snd w))) = Z.max 0 (ds_count (gt_data g)).

(** calls that leave the wrappers alone *)
Definition keep s s' : Prop := a_paa s' = a_paa s /\ (length (a_objs s) <= length (a_objs s'))%nat /\
  forall id g', (id < length (a_objs s))%nat -> nth_error (a_objs s') id = Some (Some g') ->
    exists g, nth_error (a_objs s) id = Some (Some g) /\ ds_count (gt_data g') = ds_count (gt_data g) /\
      forall n, assoc n (a_sets s) = Some id -> assoc n (a_sets s') = Some id.

Lemma keep_refl s : keep s s.
Proof. repeat split; auto. intros id g' _ H. exists g'. auto. Qed.

Lemma keep_paas s s' : keep s s' -> paas s -> paas s'.
Proof.
  intros (Ep & El & Hk) P n w Hw. rewrite Ep in Hw. destruct (P n w Hw) as [Hl Hg]. split; [lia|].
  intros g' Hg'. destruct (Hk _ _ Hl Hg') as (g & Hgs & Ec & Hn). destruct (Hg g Hgs) as [Ha Hlen]. rewrite Ec. auto.
Qed.

Lemma keep_put s id g g' : nth_error (a_objs s) id = Some (Some g) -> ds_count (gt_data g') = ds_count (gt_data g) ->
  keep s (put_obj s id (Some g')).
Proof.
  intros Hg Ec. split; [reflexivity|]. split; [cbn; rewrite upd_length; lia|]. cbn. intros k gk Hl Hk.
  destruct (Nat.eq_dec k id) as [->|Hne].
  - rewrite nth_error_upd_same in Hk by exact Hl. injection Hk as <-. exists g. auto.
  - rewrite nth_error_upd_neq in Hk by exact Hne. exists gk. auto.
Qed.

Lemma keep_on_set s n f s' r : good s -> on_set s n f = (s', r) ->
  (forall g g' r', f g = (g', r') -> ds_count (gt_data g') = ds_count (gt_data g)) -> keep s s'.
Proof.
  intros G E Hf. unfold on_set in E.
  destruct (find_alive s n G) as [(id & g & Ha & Hi & Hg & Hfi & Hd & _ & Hh)|(Ha & Hfi & _ & Hh)]; rewrite Hfi in E.
  - rewrite Hd in E. destruct (f g) as [g' r'] eqn:Ef. injection E as <- <-. eapply keep_put; [exact Hg|]. eapply Hf, Ef.
  - injection E as <- <-. apply keep_refl.
Qed.

Lemma normalize_count (d d' : dataset N) m : normalize d = Ret (d', m) -> ds_count d' = ds_count d.
Proof.
  unfold normalize. destruct (ds_count d =? 0); [discriminate|]. intros E. apply bind_Ret in E as (buf & _ & E).
  apply bind_Ret in E as ([mn mx] & _ & E). cbv zeta in E. apply bind_Ret in E as (buf' & _ & E). injection E as <- _. reflexivity.
Qed.

Lemma unload_all_objs : forall (sets : list (string * nat)) (objs : list (option (gset N))) id g,
  nth_error (fold_left (fun o p => upd o (snd p) None) sets objs) id = Some (Some g) ->
  nth_error objs id = Some (Some g) /\ forall n, ~ In (n, id) sets.
Proof.
  induction sets as [|[m k] sets IH]; intros objs id g; cbn [fold_left].
  - intros H. split; [exact H|]. intros n [].
  - intros H. apply IH in H as [H Hn]. cbn in H. destruct (Nat.eq_dec id k) as [->|Hne].
    + destruct (Nat.lt_ge_cases k (length objs)) as [Hl|Hl].
      * rewrite nth_error_upd_same in H by exact Hl. discriminate.
      * assert (nth_error (upd objs k None) k = None) by (apply nth_error_None; rewrite upd_length; exact Hl). congruence.
    + rewrite nth_error_upd_neq in H by exact Hne. split; [exact H|]. intros n [[= _ Hk]|Hi]; [congruence|exact (Hn n Hi)].
Qed.

Lemma fold_upd_length : forall (sets : list (string * nat)) (objs : list (option (gset N))),
  length (fold_left (fun o p => upd o (snd p) None) sets objs) = length objs.
Proof. induction sets as [|p sets IH]; intros objs; cbn [fold_left]; [reflexivity|]. rewrite IH. apply upd_length. Qed.

Lemma app_keep s s' o : a_paa s' = a_paa s -> a_objs s' = a_objs s ++ [o] ->
  (forall n id, assoc n (a_sets s) = Some id -> assoc n (a_sets s') = Some id) -> keep s s'.
Proof.
  intros Ep Eo Hn. split; [exact Ep|]. rewrite Eo, app_length. split; [lia|]. intros id g' Hl Hg'.
  rewrite nth_error_app1 in Hg' by exact Hl. exists g'. auto.
Qed.

Lemma step_keep e c s s' r : good s -> exec e c s = (s', r) -> ends r -> (forall n b, c <> CPrepare n b) -> keep s s'.
Proof.
  intros G E Hr Hp.
  assert (Q : forall t qn i st en f, search_groups s t (query_series s t qn i st en) f = (s', r) ->
     (forall g q g' a, f g q = Ret (g', a) -> gt_data g' = gt_data g) -> keep s s').
  { intros t qn i st en f Eq Hf. unfold search_groups in Eq. destruct (query_series _ _ _ _ _ _) as [q| | |];
      try (injection Eq as <- <-; apply keep_refl).
    eapply keep_on_set; [exact G|exact Eq|]. intros g g' r' Ef. cbn beta in Ef. destruct (f g q) as [[g1 a]| | |] eqn:Efq; cbn in Ef;
      injection Ef as <- _; auto. rewrite (Hf _ _ _ _ Efq). reflexivity. }
  destruct c; cbn [exec] in E; try (unfold pure in E; injection E as <- _; apply keep_refl); try (exfalso; eapply Hp; reflexivity).
  - (* load *)
    destruct (assoc name (a_sets s)) eqn:Ea; [injection E as <- _; apply keep_refl|].
    destruct (loadData _ _ _ _ _ _ _ _) as [d o]. destruct o as [u|x|u|].
    + unfold pure in E. injection E as <- _. eapply app_keep; cbn; [reflexivity|reflexivity|].
      intros n id Hn. rewrite assoc_put by apply G. destruct (String.eqb_spec n name); [congruence|exact Hn].
    + destruct x; injection E as <- _; eapply app_keep; cbn; try reflexivity; auto.
    + injection E as <- _. apply keep_refl.
    + injection E as <- _. apply keep_refl.
  - (* unload *)
    destruct (find_alive s name G) as [(id & g & Ha & Hi & Hg & Hfi & Hd & _ & Hh)|(Ha & Hfi & _ & Hh)]; rewrite Hfi in E.
    + rewrite Hd in E. injection E as <- _. split; [cbn; destruct (assoc name (a_paa s)) eqn:E; [reflexivity|apply erase_none, E]|].
      cbn. rewrite upd_length. split; [lia|]. intros k gk Hl Hk. destruct (Nat.eq_dec k id) as [->|Hne].
      * rewrite nth_error_upd_same in Hk by exact Hl. discriminate.
      * rewrite nth_error_upd_neq in Hk by exact Hne. exists gk. split; [exact Hk|]. split; [reflexivity|]. intros n Hn.
        rewrite assoc_erase. destruct (String.eqb_spec n name); [congruence|exact Hn].
    + injection E as <- _. apply keep_refl.
  - (* unload all *)
    injection E as <- _. split; [reflexivity|]. cbn. rewrite fold_upd_length. split; [lia|]. intros id g' Hl Hg'.
    apply unload_all_objs in Hg' as [Hg' Hn]. exists g'. split; [exact Hg'|]. split; [reflexivity|]. intros n Ha.
    apply assoc_some_in in Ha. destruct (Hn n Ha).
  - (* normalise *)
    eapply keep_on_set; [exact G|exact E|]. intros g g' r' Ef. cbn beta in Ef.
    destruct (normalize (gt_data g)) as [[d [a b]]| | |] eqn:En; cbn in Ef; injection Ef as <- _; auto. cbn. exact (normalize_count _ _ _ En).
  - eapply keep_on_set; [exact G|exact E|]. intros g g' r' Ef. cbn beta in Ef.
    destruct (groupAllLengths _ _ g _ _ _ _) as [g2 r2] eqn:Eg. injection Ef as <- _. rewrite (gg_group_data _ _ _ _ _ _ _ _ _ Eg). reflexivity.
  - eapply keep_on_set; [exact G|exact E|]. intros g g' r' Ef. cbn beta in Ef.
    destruct (loadFromFile _ g) as [g2 r2] eqn:Eg. injection Ef as <- _. rewrite (load_data_same _ _ _ _ Eg). reflexivity.
  - eapply keep_on_set; [exact G|exact E|]. intros g g' r' Ef. cbn beta in Ef.
    destruct (loadGroupsOld _ _ g) as [g2 r2] eqn:Eg. injection Ef as <- _. rewrite (load_text_data_same _ _ _ _ _ Eg). reflexivity.
  - injection E as <- _. repeat split; cbn; auto. intros id g' _ H. exists g'. auto.
  - eapply Q; [exact E|]. intros g q g' a Ef. cbn beta in Ef. apply bind_Ret in Ef as ([g1 c] & Eb & Ef). injection Ef as <- _.
    exact (best_data _ _ _ _ _ Eb).
  - eapply Q; [exact E|]. intros g q g' a Ef. cbn beta in Ef. apply bind_Ret in Ef as ([g1 c] & Eb & Ef). injection Ef as <- _.
    exact (kbest_data _ _ _ _ _ _ _ _ Eb).
Qed.

(** what preparing does to the wrappers *)
Lemma step_prepare e n b s s' r : good s -> paas s -> exec e (CPrepare n b) s = (s', r) -> ends r ->
  paas s' /\ a_objs s' = a_objs s /\ a_sets s' = a_sets s /\
  (forall m, m <> n -> assoc m (a_paa s') = assoc m (a_paa s)) /\
  (forall w, assoc n (a_paa s) = Some w -> exists w', assoc n (a_paa s') = Some w' /\ fst w' = fst w) /\
  (forall a, r = Ret a -> exists w, assoc n (a_paa s') = Some w) /\
  (assoc n (a_paa s) = None -> forall w, assoc n (a_paa s') = Some w -> exists g, nth_error (a_objs s') (fst w) = Some (Some g)).
Proof.
  intros G P E Hr. cbn [exec] in E.
  destruct (find_alive s n G) as [(id & g & Ha & Hi & Hg & Hf & Hd & _ & Hh)|(Ha & Hf & _ & Hh)]; rewrite Hf in E.
  2:{ injection E as <- <-. splits; auto; [|discriminate|congruence]. intros w Hw. exists w. auto. }
  assert (W : (exists w, assoc n (a_paa s) = Some w) \/ assoc n (a_paa s) = None) by (destruct (assoc n (a_paa s)); eauto).
  assert (Go : forall w, (fst w < length (a_objs s))%nat -> (forall g, nth_error (a_objs s) (fst w) = Some (Some g) ->
       assoc n (a_sets s) = Some (fst w) /\ Z.of_nat (length (paa_mat (snd w))) = Z.max 0 (ds_count (gt_data g))) ->
     (let '(w', r) := wrapper_generate s w b in
      (mkApi (a_sets s) (a_objs s) (map_put n w' (a_paa s)) (a_count s) (a_ratio s), _ <- r ;; Ret AUnit)) = (s', r) ->
     paas s' /\ a_objs s' = a_objs s /\ a_sets s' = a_sets s /\ (forall m, m <> n -> assoc m (a_paa s') = assoc m (a_paa s)) /\
     exists w', assoc n (a_paa s') = Some w' /\ fst w' = fst w).
  { intros w Hl Hw Ew. destruct (wrapper_generate s w b) as [w' rr] eqn:Eg.
    assert (Hw' : fst w' = fst w /\ length (paa_mat (snd w')) = length (paa_mat (snd w))).
    { unfold wrapper_generate in Eg. destruct (nth_error (a_objs s) (fst w)) as [[g0|]|]; try (injection Eg as <- <-; auto).
      destruct (generatePAAMatrix _ _ _) as [p rp] eqn:Ep. injection Eg as <- <-. cbn. split; [reflexivity|]. exact (generate_length _ _ _ _ _ Ep). }
    injection Ew as <- _. destruct Hw' as [E1 E2].
    assert (Hput : forall m, assoc m (map_put n w' (a_paa s)) = if String.eqb m n then Some w' else assoc m (a_paa s))
      by (intros m; apply assoc_put, G).
    splits; try reflexivity.
    - intros m v Hv. cbn in Hv |- *. rewrite Hput in Hv. destruct (String.eqb_spec m n) as [->|Hne]; [|exact (P m v Hv)].
      injection Hv as <-. rewrite E1, E2. split; [exact Hl|exact Hw].
    - intros m Hm. cbn. rewrite Hput. destruct (String.eqb_spec m n); [contradiction|reflexivity].
    - exists w'. cbn. rewrite Hput, String.eqb_refl. auto. }
  destruct W as [[w Ew]|Ew].
  - rewrite Ew in E. destruct (P n w Ew) as [Hl Hw]. destruct (Go w Hl Hw E) as (P' & Eo & Es & Hm & w' & Ew' & E1).
    splits; auto. { intros v Hv. exists w'. split; [exact Ew'|congruence]. } { intros a _. eauto. } congruence.
  - rewrite Ew, Hd in E. cbn [bind] in E. destruct (paa_new (gt_data g)) as [p| | |] eqn:Ep; cbn [bind] in E.
    2,3,4: injection E as <- <-; splits; auto; (intros w Hw; congruence) || (intros a Hx; discriminate) || congruence.
    destruct (Go (id, p)) as (P' & Eo & Es & Hm & w' & Ew' & E1); auto.
    + cbn. eapply alive_lt; exact Hg.
    + cbn. intros g0 Hg0. split; [exact Ha|]. assert (g0 = g) by congruence. subst g0. exact (paa_new_length _ _ Ep).
    + splits; auto; [intros v Hv; congruence| |]; [intros a _; eauto|]. intros _ v Hv. assert (v = w') by congruence. subst v.
      rewrite E1, Eo. exists g. exact Hg.
Qed.

Lemma step_paas e c s s' r : good s -> paas s -> exec e c s = (s', r) -> ends r -> paas s'.
Proof.
  intros G P E Hr.
  assert (D : (exists n b, c = CPrepare n b) \/ forall n b, c <> CPrepare n b) by (destruct c; eauto; right; discriminate).
  destruct D as [(n & b & ->)|D]; [exact (proj1 (step_prepare _ _ _ _ _ _ G P E Hr))|].
  eapply keep_paas; [eapply step_keep; eauto|exact P].
Qed.

Lemma run_paas r0 h s : run r0 h s -> paas s.
Proof.
  induction 1 as [|h s e c s' r Hrun IH E Hr]; [intros n w; discriminate|].
  eapply step_paas; eauto. eapply run_good; eauto.
Qed.

(** a wrapper whose data set is deleted *)
Definition stale s n : Prop := exists w, assoc n (a_paa s) = Some w /\ (fst w < length (a_objs s))%nat /\
  nth_error (a_objs s) (fst w) = Some None.

Lemma dead_lookup {A} (l : list (option A)) k : (k < length l)%nat -> (forall g, nth_error l k <> Some (Some g)) -> nth_error l k = Some None.
Proof.
  intros Hl Hn. destruct (nth_error l k) as [[g|]|] eqn:E; [destruct (Hn g eq_refl)|reflexivity|].
  apply nth_error_None in E. lia.
Qed.

Lemma stale_step e c s s' r n : good s -> paas s -> exec e c s = (s', r) -> ends r -> stale s n -> stale s' n.
Proof.
  intros G P E Hr (w & Ew & Hl & Hd).
  assert (D : (exists n b, c = CPrepare n b) \/ forall n b, c <> CPrepare n b) by (destruct c; eauto; right; discriminate).
  destruct D as [(m & b & ->)|D].
  - destruct (step_prepare _ _ _ _ _ _ G P E Hr) as (P' & Eo & Es & Hm & Hw & _ & _). unfold stale. rewrite Eo.
    destruct (string_dec n m) as [->|Hne].
    + destruct (Hw w Ew) as (w' & Ew' & E1). exists w'. rewrite E1. auto.
    + exists w. rewrite (Hm n Hne). auto.
  - destruct (step_keep e c s s' r G E Hr D) as (Ep & El & Hk). exists w. rewrite Ep. split; [exact Ew|]. split; [lia|].
    apply dead_lookup; [lia|]. intros g Hg. destruct (Hk _ _ Hl Hg) as (g0 & Hg0 & _). congruence.
Qed.

Lemma has_step e c s s' r n : good s -> paas s -> exec e c s = (s', r) -> ends r ->
  (exists w, assoc n (a_paa s) = Some w) -> exists w, assoc n (a_paa s') = Some w.
Proof.
  intros G P E Hr (w & Ew).
  assert (D : (exists n b, c = CPrepare n b) \/ forall n b, c <> CPrepare n b) by (destruct c; eauto; right; discriminate).
  destruct D as [(m & b & ->)|D].
  - destruct (step_prepare _ _ _ _ _ _ G P E Hr) as (P' & Eo & Es & Hm & Hw & _ & _).
    destruct (string_dec n m) as [->|Hne].
    + destruct (Hw w Ew) as (w' & Ew' & E1). eauto.
    + rewrite (Hm n Hne). eauto.
  - destruct (step_keep e c s s' r G E Hr D) as (Ep & El & Hk). rewrite Ep. eauto.
Qed.

(** unloading makes the wrapper stale *)
Lemma unload_stale e c s s' r n : good s -> paas s -> exec e c s = (s', r) -> (exists a, r = Ret a) -> c = CUnload n \/ c = CUnloadAll ->
  (exists w, assoc n (a_paa s) = Some w) -> stale s' n.
Proof.
  intros G P E [a ->] Hc (w & Ew). destruct (P n w Ew) as [Hl Hw].
  destruct (step_keep e c s s' (Ret a) G E I) as (Ep & El & Hk); [intros m b; destruct Hc as [->| ->]; discriminate|].
  exists w. rewrite Ep. split; [exact Ew|]. split; [lia|]. apply dead_lookup; [lia|]. intros g Hg.
  destruct (Hk _ _ Hl Hg) as (g0 & Hg0 & _ & Hn). destruct (Hw g0 Hg0) as [Ha _]. apply Hn in Ha.
  assert (Hnone : held s' n = None).
  { destruct Hc as [->| ->].
    - destruct (unload_spec e s n s' _ G E) as [(_ & _ & Hx)|(_ & _ & _ & Hx & _)]; [discriminate|exact Hx].
    - apply (unload_all_spec e s s' _ G E). }
  assert (G' : good s').
  { destruct Hc as [->| ->]; eapply exec_good; eauto; exact I. }
  destruct (find_alive s' n G') as [(k & g1 & _ & _ & _ & _ & _ & _ & Hh)|(Hx & _)]; congruence.
Qed.

(** an object dies only by being unloaded *)
Lemma put_alive s k g' id g : nth_error (a_objs s) id = Some (Some g) ->
  exists g1, nth_error (a_objs (put_obj s k (Some g'))) id = Some (Some g1).
Proof.
  intros Hg. cbn. destruct (Nat.eq_dec id k) as [->|Hne].
  - rewrite nth_error_upd_same by (eapply alive_lt; exact Hg). eauto.
  - rewrite nth_error_upd_neq by exact Hne. eauto.
Qed.

Lemma on_set_alive s n f s' r id g : good s -> on_set s n f = (s', r) -> nth_error (a_objs s) id = Some (Some g) ->
  exists g1, nth_error (a_objs s') id = Some (Some g1).
Proof.
  intros G E Hg. unfold on_set in E.
  destruct (find_alive s n G) as [(k & g0 & Ha & Hi & Hg0 & Hfi & Hd & _ & Hh)|(Ha & Hfi & _ & Hh)]; rewrite Hfi in E.
  - rewrite Hd in E. destruct (f g0) as [g' r']. injection E as <- <-. eapply put_alive, Hg.
  - injection E as <- <-. eauto.
Qed.

Lemma stays_alive e c s s' r id g : good s -> paas s -> exec e c s = (s', r) -> ends r -> nth_error (a_objs s) id = Some (Some g) ->
  (exists g', nth_error (a_objs s') id = Some (Some g')) \/
  ((exists a, r = Ret a) /\ (c = CUnloadAll \/ exists n, c = CUnload n /\ assoc n (a_sets s) = Some id)).
Proof.
  intros G P E Hr Hg.
  assert (Q : forall t qn i st en f, search_groups s t (query_series s t qn i st en) f = (s', r) ->
     exists g', nth_error (a_objs s') id = Some (Some g')).
  { intros t qn i st en f Eq. unfold search_groups in Eq. destruct (query_series _ _ _ _ _ _) as [q| | |];
      try (injection Eq as <- <-; eauto). eapply on_set_alive; eauto. }
  destruct c; cbn [exec] in E; try (unfold pure in E; injection E as <- _; solve [left; eauto]); try (left; eapply on_set_alive; solve [eauto]);
    try (left; eapply Q; solve [eauto]).
  - left. destruct (assoc name (a_sets s)); [injection E as <- _; eauto|].
    assert (Happ : forall o, nth_error (a_objs s ++ [o]) id = Some (Some g)) by
      (intros o; rewrite nth_error_app1; [exact Hg|eapply alive_lt; exact Hg]).
    destruct (loadData _ _ _ _ _ _ _ _) as [d o]. destruct o as [u|x|u|];
      [unfold pure in E|destruct x| |]; injection E as <- _; cbn; eauto.
  - destruct (find_alive s name G) as [(k & g0 & Ha & Hi & Hg0 & Hfi & Hd & _ & Hh)|(Ha & Hfi & _ & Hh)]; rewrite Hfi in E.
    + rewrite Hd in E. injection E as <- <-. destruct (Nat.eq_dec id k) as [->|Hne]; [right; eauto 6|left].
      cbn. rewrite nth_error_upd_neq by exact Hne. eauto.
    + injection E as <- _. eauto.
  - right. injection E as _ <-. split; eauto.
  - left. pose proof (step_prepare e name blockSize s s' r G P E Hr) as (_ & -> & _). eauto.
Qed.

(** ** parts of histories *)
Inductive steps s : list event -> api N -> Prop :=
| steps_none : steps s [] s
| steps_more h s1 e c s2 r : steps s h s1 -> exec e c s1 = (s2, r) -> ends r -> steps s (h ++ [(c, r)]) s2.

Lemma run_split r0 h1 : forall h2 s, run r0 (h1 ++ h2) s -> exists s1, run r0 h1 s1 /\ steps s1 h2 s.
Proof.
  induction h2 as [|ev h2 IH] using rev_ind; intros s H.
  - rewrite app_nil_r in H. exists s. split; [exact H|constructor].
  - rewrite app_assoc in H. inversion H as [Hn|h' s1 e c s2 r Hrun E Hr Hh Es].
    + exfalso. eapply app_cons_not_nil. exact Hn.
    + apply app_inj_tail in Hh as [-> <-]. destruct (IH s1 Hrun) as (s0 & H0 & H1). exists s0. split; [exact H0|].
      eapply steps_more; eauto.
Qed.

Lemma run_last r0 h c r s : run r0 (h ++ [(c, r)]) s -> exists s1 e, run r0 h s1 /\ exec e c s1 = (s, r) /\ ends r.
Proof.
  intros H. inversion H as [Hn|h' s1 e c' s2 r' Hrun E Hr Hh Es].
  - exfalso. eapply app_cons_not_nil. exact Hn.
  - apply app_inj_tail in Hh as [-> Hx]. injection Hx as -> ->. eauto.
Qed.

Lemma steps_inv (P : api N -> Prop) : (forall e c s s' r, good s -> paas s -> exec e c s = (s', r) -> ends r -> P s -> P s') ->
  forall s h s', good s -> paas s -> steps s h s' -> P s -> good s' /\ paas s' /\ P s'.
Proof.
  intros HP s h s' G Pa Hs Ps. induction Hs as [|h s1 e c s2 r _ IH E Hr]; [auto|]. destruct IH as (G1 & P1 & Q1).
  split; [exact (proj1 (exec_good _ _ _ _ _ G1 E Hr))|]. split; [eapply step_paas; eauto|eapply HP; eauto].
Qed.

Lemma unloaded_stale r0 h s n c : run r0 h s -> c = CUnload n \/ c = CUnloadAll -> prepared_then_unloaded h n c -> stale s n.
Proof.
  intros Hrun Hc (h1 & b & a & h2 & a' & h3 & ->).
  replace (h1 ++ (CPrepare n b, Ret a) :: h2 ++ (c, Ret a') :: h3) with
    (((h1 ++ [(CPrepare n b, Ret a)]) ++ h2) ++ [(c, Ret a')] ++ h3) in Hrun by (repeat rewrite <- app_assoc; reflexivity).
  rewrite app_assoc in Hrun. apply run_split in Hrun as (s3 & Hrun & H3). apply run_last in Hrun as (s2 & e2 & Hrun & E2 & _).
  apply run_split in Hrun as (s1 & Hrun & H2). pose proof (run_good _ _ _ Hrun) as G1. pose proof (run_paas _ _ _ Hrun) as P1.
  apply run_last in Hrun as (s0 & e0 & Hrun & E0 & Hr0).
  pose proof (step_prepare _ _ _ _ _ _ (run_good _ _ _ Hrun) (run_paas _ _ _ Hrun) E0 Hr0) as (_ & _ & _ & _ & _ & Hw & _).
  destruct (steps_inv (fun s => exists w, assoc n (a_paa s) = Some w)) with (s := s1) (h := h2) (s' := s2) as (G2 & P2 & W2); auto.
  { intros. eapply has_step; eauto. } { eapply Hw; reflexivity. }
  assert (S3 : stale s3 n) by (eapply unload_stale; eauto).
  assert (GP : good s3 /\ paas s3) by (split; [eapply exec_good; eauto; exact I|eapply step_paas; eauto; exact I]).
  apply (steps_inv (fun s => stale s n)) with (s := s3) (h := h3); try tauto.
  intros. eapply stale_step; eauto.
Qed.

(** the other way round *)
Lemma has_origin r0 h s n : run r0 h s -> (exists w, assoc n (a_paa s) = Some w) -> exists b r, In (CPrepare n b, r) h.
Proof.
  induction 1 as [|h s e c s' r Hrun IH E Hr]; intros [w Hw]; [discriminate|].
  pose proof (run_good _ _ _ Hrun) as G. pose proof (run_paas _ _ _ Hrun) as P.
  assert (Old : assoc n (a_paa s) = Some w -> exists b r0, In (CPrepare n b, r0) (h ++ [(c, r)])).
  { intros Hx. destruct IH as (b & r1 & Hi); eauto. exists b, r1. apply in_or_app. auto. }
  assert (D : (exists n b, c = CPrepare n b) \/ forall n b, c <> CPrepare n b) by (destruct c; eauto; right; discriminate).
  destruct D as [(m & b & ->)|D].
  - destruct (string_dec n m) as [->|Hne]; [exists b, r; apply in_or_app; right; left; reflexivity|].
    destruct (step_prepare _ _ _ _ _ _ G P E Hr) as (_ & _ & _ & Hm & _). apply Old. rewrite <- (Hm n Hne). exact Hw.
  - apply Old. destruct (step_keep e c s s' r G E Hr D) as (Ep & _). congruence.
Qed.

Lemma stale_origin r0 h s n : run r0 h s -> stale s n ->
  exists h1 b r h2 c a h3, h = h1 ++ (CPrepare n b, r) :: h2 ++ (c, Ret a) :: h3 /\ (c = CUnload n \/ c = CUnloadAll).
Proof.
  induction 1 as [|h s e c s' r Hrun IH E Hr]; intros (w & Hw & Hl & Hd); [discriminate|].
  pose proof (run_good _ _ _ Hrun) as G. pose proof (run_paas _ _ _ Hrun) as P.
  assert (Old : stale s n -> exists h1 b r0 h2 c0 a h3, h ++ [(c, r)] = h1 ++ (CPrepare n b, r0) :: h2 ++ (c0, Ret a) :: h3 /\
     (c0 = CUnload n \/ c0 = CUnloadAll)).
  { intros Hs. destruct (IH Hs) as (h1 & b & r1 & h2 & c0 & a & h3 & -> & Hc). exists h1, b, r1, h2, c0, a, (h3 ++ [(c, r)]).
    split; [|exact Hc]. rewrite <- app_assoc. cbn [app]. rewrite <- app_assoc. reflexivity. }
  assert (D : (exists n b, c = CPrepare n b) \/ forall n b, c <> CPrepare n b) by (destruct c; eauto; right; discriminate).
  destruct D as [(m & b & ->)|D].
  - pose proof (step_prepare _ _ _ _ _ _ G P E Hr) as (_ & Eo & _ & Hm & Hsame & _ & Hnew). apply Old.
    destruct (string_dec n m) as [->|Hne].
    + destruct (assoc m (a_paa s)) as [v|] eqn:Ev.
      * destruct (Hsame v eq_refl) as (w' & Ew' & E1). assert (w' = w) by congruence. subst w'. exists v. rewrite <- E1, <- Eo. auto.
      * destruct (Hnew eq_refl w Hw) as [g Hg]. congruence.
    + exists w. rewrite <- (Hm n Hne), <- Eo. auto.
  - destruct (step_keep e c s s' r G E Hr D) as (Ep & El & Hk). rewrite Ep in Hw. destruct (P n w Hw) as [Hl0 Halive].
    destruct (nth_error (a_objs s) (fst w)) as [[g|]|] eqn:Ew.
    + destruct (stays_alive e c s s' r (fst w) g G P E Hr Ew) as [[g' Hg']|([a ->] & Hc)]; [congruence|].
      destruct (has_origin r0 h s n Hrun) as (b & r1 & Hi); eauto. apply in_split in Hi as (h1 & h2 & ->).
      exists h1, b, r1, h2, c, a, []. split; [rewrite <- app_assoc; reflexivity|].
      destruct Hc as [->|(m & -> & Hm)]; [auto|]. left. destruct (Halive g eq_refl) as [Hn _].
      f_equal. apply assoc_some_in in Hm, Hn. exact (g_apart s G _ _ _ Hm Hn).
    + apply Old. exists w. auto.
    + apply nth_error_None in Ew. lia.
Qed.
End P.
