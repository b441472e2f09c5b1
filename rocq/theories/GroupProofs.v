(** Grouping one length: every subsequence is put into exactly one group, by the
    leader clustering rule. *)
From Coq Require Import Permutation.
From Verif Require Import Base Num NumLaws NumFacts LoopFacts TimeSeries Lemire Distance TSSet StdAlg Candidate Group
  DataSpec DataProofs GroupSpec Members.

Lemma fold_res_inv {A S} (P : list A -> S -> Prop) (body : A -> S -> res S) l s :
  P [] s ->
  (forall pre x post s, l = (pre ++ x :: post)%list -> P pre s -> exists s', body x s = Ret s' /\ P (pre ++ [x])%list s') ->
  exists s', fold_res body l s = Ret s' /\ P l s'.
Proof.
  intros H0 Hs.
  assert (G : forall post pre s, l = (pre ++ post)%list -> P pre s -> exists s', fold_res body post s = Ret s' /\ P l s').
  { induction post as [|x post IH]; intros pre s1 El Hp; simpl.
    - rewrite app_nil_r in El. subst. eauto.
    - destruct (Hs pre x post s1 El Hp) as (s2 & E & Hp2). rewrite E. simpl.
      apply (IH (pre ++ [x])%list); auto. rewrite <- app_assoc. exact El. }
  apply (G l []); auto.
Qed.

Section Gen.
Context {N : Num} {LW : NumLaws N}.
Notation D := (D N).
Variable d : dataset N.
Variable rows : list (list D).
Hypothesis Hd : holds d rows.
Variable pw : dist_fn N.
Variables ratio thr : D.
Variable len : Z.
Hypothesis Hlen : 1 <= len <= ds_maxcol d.
Notation half := (ndiv thr (nofZ 2)).
Hypothesis Hthr : nltb half ninf = true.
Notation sub := (ds_maxcol d - len + 1).
Notation count := (ds_count d).

Lemma count_rows : count = Z.of_nat (length rows).
Proof. destruct Hd as (buf & _ & E & _). exact E. Qed.

Lemma sub_inb c : is_sub rows len c -> inb count sub c.
Proof.
  intros (row & Er & H1 & H2). destruct (holds_row _ _ _ _ Hd Er) as (buf & _ & Hi & _ & Hl & _).
  split; lia.
Qed.

Lemma cent_view c t : is_sub rows len c -> getTimeSeries d (fst c) (snd c) (snd c + len) = Ret t ->
  cent_ts d len (CView (fst c) (snd c)) = Ret t.
Proof.
  intros (row & Er & H1 & H2) E. destruct (holds_row _ _ _ _ Hd Er) as (buf & Eb & Hi & Eil & Hl & Hm & Ep & _).
  unfold getTimeSeries in E. destruct (Z.ltb_spec (fst c) 0); [lia|].
  destruct (Z.leb_spec count (fst c)); [lia|]. cbn [orb] in E.
  destruct (Z.ltb_spec (snd c) 0); [lia|]. cbn [andb orb] in E.
  destruct (Z.leb_spec (snd c + len) (snd c)); [lia|]. rewrite Eil in E. cbn [bind] in E.
  destruct (Z.ltb_spec (Z.of_nat (length row)) (snd c + len)); [lia|].
  unfold cent_ts. exact E.
Qed.

Lemma sub_ts c : is_sub rows len c -> exists t, getTimeSeries d (fst c) (snd c) (snd c + len) = Ret t /\
  ts_points t = sub_values rows len c /\ ts_ok t /\ ts_index t = fst c /\ ts_start t = snd c /\ ts_length t = len.
Proof.
  intros (row & Er & H1 & H2).
  destruct (getTimeSeries_ok d rows (fst c) (snd c) (snd c + len) row Hd Er ltac:(lia) ltac:(lia))
    as (t & E & Hp & Hok & Hi & Hs & Hl).
  exists t. splits; auto; [|lia]. unfold sub_values. rewrite Er. exact Hp.
Qed.

(** the distance of two subsequences as the library computes it with cut-off [cut] *)
Definition pwc (c c' : coord) (cut : D) : res D :=
  t <- getTimeSeries d (fst c) (snd c) (snd c + len) ;;
  t' <- getTimeSeries d (fst c') (snd c') (snd c' + len) ;;
  '(v, _) <- pw ratio t t' cut [] ;; Ret v.

Hypothesis P0 : forall c c' cut, is_sub rows len c -> is_sub rows len c' -> exists v, pwc c c' cut = Ret v.
Variable full : coord -> coord -> D.
Definition Q1 : Prop := forall c c' cut v, is_sub rows len c -> is_sub rows len c' ->
  pwc c c' cut = Ret v -> v = full c c' \/ v = ninf.
Definition Q2 : Prop := forall c c' cut v, is_sub rows len c -> is_sub rows len c' -> nn cut ->
  pwc c c' cut = Ret v -> nn (full c c') /\ (nltb cut (full c c') = false -> v = full c c') /\
    (nltb cut (full c c') = true -> nltb v cut = false).

(** the groups so far *)
Definition cent_is (g : group N) (ms : list coord) : Prop :=
  ms <> [] /\ g_cent g = CView (fst (rep ms)) (snd (rep ms)) /\ g_cache g = None.

Record state_ok (L : llgs N) (gs : list (list coord)) : Prop := {
  so_len : ll_length L = len;
  so_sub : ll_sub L = sub;
  so_are : groups_are count sub (ll_map L) (ll_groups L) gs;
  so_cent : Forall2 cent_is (ll_groups L) gs;
  so_subs : Forall (is_sub rows len) (concat gs)
}.

Lemma rep_in (g : list coord) : g <> [] -> In (rep g) g.
Proof.
  unfold rep. induction g as [|x g IH]; intros H; [contradiction|].
  destruct g as [|y g]; [left; reflexivity|]. right. apply IH. discriminate.
Qed.

Lemma rep_cons c (g : list coord) : g <> [] -> rep (c :: g) = rep g.
Proof. destruct g; [contradiction|reflexivity]. Qed.

Lemma nearest_ok L gs c query : state_ok L gs -> is_sub rows len c ->
  getTimeSeries d (fst c) (snd c) (snd c + len) = Ret query ->
  exists best bi,
    for_ 0 (Z.of_nat (length (ll_groups L))) (nearest_step d (ll_length L) pw ratio (ll_groups L) query) (ninf, None)
      = Ret (best, bi) /\ nn best /\
    ((bi = None /\ best = ninf) \/
     (exists k g, bi = Some (Z.of_nat k) /\ nth_error gs k = Some g /\ nltb best ninf = true /\
        (Q1 -> best = full (rep g) c) /\
        (Q2 -> best = full (rep g) c /\
           forall j g', (j < k)%nat -> nth_error gs j = Some g' -> nlt best (full (rep g') c)))) /\
    (Q2 -> forall g, In g gs -> nle best (full (rep g) c)).
Proof.
  intros [El Es Ha Hc Hs] Hsub Eq. rewrite El.
  assert (Hlg : length (ll_groups L) = length gs) by (eapply Forall2_length; eauto).
  destruct (for_inv (fun i (st : D * option Z) => let '(best, bi) := st in
     nn best /\
    ((bi = None /\ best = ninf) \/
     (exists k g, bi = Some (Z.of_nat k) /\ nth_error gs k = Some g /\ nltb best ninf = true /\
        (Q1 -> best = full (rep g) c) /\
        (Q2 -> best = full (rep g) c /\
           forall j g', (j < k)%nat -> nth_error gs j = Some g' -> nlt best (full (rep g') c)))) /\
    (Q2 -> forall j g, Z.of_nat j < i -> nth_error gs j = Some g -> nle best (full (rep g) c)))
    (nearest_step d len pw ratio (ll_groups L) query) 0 (Z.of_nat (length (ll_groups L))) (ninf, None))
    as ([best bi] & E & Hn & HA & HB).
  - lia.
  - splits; [apply lw_inf_nn|left; auto|intros _ j g Hj; lia].
  - intros i [best bi] Hi (Hn & HA & HB). unfold nearest_step.
    destruct (nth_error (ll_groups L) (Z.to_nat i)) as [g|] eqn:Eg; [|apply nth_error_None in Eg; lia].
    destruct (Forall2_nth_ex _ _ _ _ _ Hc Eg) as (ms & Em & Hne & Ecent & _).
    assert (Hr : is_sub rows len (rep ms)).
    { rewrite Forall_forall in Hs. apply Hs. eapply In_concat; eauto. apply rep_in; auto. }
    destruct (sub_ts _ Hr) as (t & Et & _).
    assert (Eag : aget (ll_groups L) i = Ret g).
    { apply aget_Ret. split; [lia|exact Eg]. }
    rewrite Eag. cbn [bind]. rewrite Ecent, (cent_view _ t Hr Et). cbn [bind fst].
    destruct (P0 (rep ms) c best Hr Hsub) as [v Ev]. pose proof Ev as Ev0.
    unfold pwc in Ev. rewrite Et, Eq in Ev. cbn [bind] in Ev.
    destruct (pw ratio t query best []) as [[v' mt]| | |]; try discriminate. cbn [bind] in *.
    injection Ev as ->.
    destruct (nltb v best) eqn:Evb.
    + eexists. split; [reflexivity|]. cbn beta iota.
      assert (Hinf : nltb v ninf = true).
      { destruct HA as [[_ ->]|(k & g0 & _ & _ & Hb & _)]; auto. eapply lw_trans; eauto. }
      splits.
      * apply (nlt_nn_l _ _ Evb).
      * right. exists (Z.to_nat i), ms. splits; auto; [f_equal; lia| |].
        -- intros H1. destruct (H1 _ _ _ _ Hr Hsub Ev0) as [?|Hx]; auto.
           rewrite Hx, lw_irrefl in Hinf. discriminate.
        -- intros H2. destruct (H2 _ _ _ _ Hr Hsub Hn Ev0) as (Hf & Hlo & Hhi).
           destruct (nltb best (full (rep ms) c)) eqn:Eb; [rewrite Hhi in Evb; discriminate || auto|].
           split; [auto|]. intros j g' Hj Ej. apply (nlt_le_trans _ best); [exact Evb|].
           apply (HB H2 j); auto; lia.
      * intros H2 j g0 Hj Ej. destruct (H2 _ _ _ _ Hr Hsub Hn Ev0) as (Hf & Hlo & Hhi).
        destruct (nltb best (full (rep ms) c)) eqn:Eb; [rewrite Hhi in Evb; discriminate || auto|].
        specialize (Hlo eq_refl). destruct (Z.eq_dec (Z.of_nat j) i) as [Hji|Hji].
        -- replace (Z.to_nat i) with j in Em by lia. rewrite Em in Ej. injection Ej as <-. rewrite <- Hlo. apply nle_refl.
           apply (nlt_nn_l _ _ Evb).
        -- apply nlt_le, (nlt_le_trans _ best); [exact Evb|]. apply (HB H2 j); auto; lia.
    + eexists. split; [reflexivity|]. cbn beta iota. splits; auto.
      intros H2 j g0 Hj Ej. destruct (Z.eq_dec (Z.of_nat j) i) as [Hji|Hji].
      * destruct (H2 _ _ _ _ Hr Hsub Hn Ev0) as (Hf & Hlo & Hhi).
        replace (Z.to_nat i) with j in Em by lia. rewrite Em in Ej. injection Ej as <-.
        destruct (nltb best (full (rep ms) c)) eqn:Eb.
        -- apply nlt_le. exact Eb.
        -- rewrite (Hlo eq_refl) in Evb. apply nltb_false_le; auto.
      * apply (HB H2 j); auto; lia.
  - exists best, bi. splits; auto. intros H2 g Hg. apply In_nth_error in Hg as [j Ej].
    apply (HB H2 j); auto. apply nth_error_Some_lt in Ej. lia.
Qed.

(** one step, as strong as what is known of the distance *)
Definition gstep (gs : list (list coord)) (c : coord) (gs' : list (list coord)) : Prop :=
  (gs' = (gs ++ [[c]])%list /\ (Q2 -> founds full thr gs c)) \/
  (exists k g, nth_error gs k = Some g /\ gs' = add_to gs k c /\
     (Q1 -> nle (full (rep g) c) half) /\ (Q2 -> joins full thr gs c k)).

Lemma upd_snoc_last {A} (l : list A) x y : upd (l ++ [x])%list (length l) y = (l ++ [y])%list.
Proof. induction l; simpl; [reflexivity|f_equal; auto]. Qed.

Lemma Forall2_upd {A B} (R : A -> B -> Prop) : forall l l' k x y, Forall2 R l l' -> R x y ->
  Forall2 R (upd l k x) (upd l' k y).
Proof.
  intros l l' k x y H. revert k. induction H; intros [|k] Hxy; simpl; constructor; auto.
Qed.

Lemma place_ok L gs c : state_ok L gs -> is_sub rows len c -> ~ In c (concat gs) ->
  exists L' gs', place d pw ratio thr (fst c) (snd c) L = Ret L' /\ state_ok L' gs' /\ gstep gs c gs'.
Proof.
  intros HS Hsub Hni. pose proof HS as [El Es Ha Hc Hs].
  assert (Hlg : length (ll_groups L) = length gs) by (eapply Forall2_length; eauto).
  destruct (sub_ts c Hsub) as (query & Eq & _).
  destruct (nearest_ok L gs c query HS Hsub Eq) as (best & bi & En & Hn & HA & HB).
  unfold place. rewrite El, Eq in *. cbn [bind]. rewrite En. cbn [bind]. rewrite Es.
  set (n := Z.of_nat (length (ll_groups L))) in *.
  destruct (nltb half best || (n =? 0)) eqn:Enew.
  - (* a new group *)
    unfold setCentroid. rewrite Eq. cbn [bind group_new g_cache g_last g_count].
    set (g0 := mkGroup (CView (fst c) (snd c)) None (-1, -1) 0).
    assert (Hs1 : groups_are count sub (ll_map L) (ll_groups L ++ [g0])%list (gs ++ [[]])%list)
      by (apply groups_snoc; auto).
    assert (Eg0 : nth_error (ll_groups L ++ [g0])%list (length (ll_groups L)) = Some g0).
    { rewrite nth_error_app2 by lia. rewrite Nat.sub_diag. reflexivity. }
    assert (Em0 : nth_error (gs ++ [[]])%list (length (ll_groups L)) = Some []).
    { rewrite Hlg, nth_error_app2 by lia. rewrite Nat.sub_diag. reflexivity. }
    destruct (addMember_ok count sub (ll_map L) _ _ _ g0 [] c Hs1 Eg0 Em0 (sub_inb c Hsub)) as (mm' & Eadd & Hare).
    { rewrite concat_app. simpl. rewrite app_nil_r. exact Hni. }
    unfold aget. destruct (Z.leb_spec 0 n); [|unfold n in *; lia].
    replace (Z.to_nat n) with (length (ll_groups L)) by (unfold n; lia). rewrite Eg0. cbn [bind].
    rewrite Eadd. cbn [bind]. rewrite aset_in by (rewrite app_length; simpl; unfold n; lia). cbn [bind].
    replace (Z.to_nat n) with (length (ll_groups L)) by (unfold n; lia).
    eexists _, (gs ++ [[c]])%list. split; [reflexivity|]. split; [|left; split; auto].
    + rewrite !upd_snoc_last in *. rewrite Hlg, upd_snoc_last in Hare. constructor; simpl; auto.
      * apply Forall2_app; auto. constructor; [|constructor]. unfold cent_is. splits; try reflexivity. discriminate.
      * rewrite concat_snoc. apply Forall_app. split; auto.
    + intros H2 g Hg. destruct (nltb half best) eqn:Eb.
      * apply (nlt_le_trans _ best); auto.
      * simpl in Enew. apply Z.eqb_eq in Enew. unfold n in Enew. destruct gs; [destruct Hg|simpl in Hlg; lia].
  - (* an existing group *)
    apply orb_false_iff in Enew as [Eb En0].
    destruct HA as [[-> ->]|(k & ms & -> & Ek & Hinf & H1 & H2)]; [congruence|].
    cbn [init_get bind]. destruct (Forall2_nth_ex_r _ _ _ _ _ Hc Ek) as (g & Eg & Hne & Ecent & Ecache).
    unfold aget. destruct (Z.leb_spec 0 (Z.of_nat k)); [|lia]. rewrite Nat2Z.id, Eg. cbn [bind].
    destruct (addMember_ok count sub (ll_map L) _ _ _ g ms c Ha Eg Ek (sub_inb c Hsub) Hni) as (mm' & Eadd & Hare).
    rewrite Eadd. cbn [bind]. pose proof (nth_error_Some_lt _ _ _ Eg) as Hkl.
    rewrite aset_in by lia. cbn [bind]. rewrite Nat2Z.id.
    assert (Eadd_to : add_to gs k c = upd gs k (c :: ms)).
    { unfold add_to. rewrite (nth_error_nth _ _ _ Ek). reflexivity. }
    assert (Hle : nle best half).
    { apply nltb_false_le; auto. apply (nlt_nn_l _ _ Hthr). }
    eexists _, (add_to gs k c). split; [reflexivity|]. split.
    + rewrite Eadd_to. constructor; simpl; auto.
      * apply Forall2_upd; auto. unfold cent_is. splits; simpl; auto; [discriminate|]. destruct ms; [contradiction|]. exact Ecent.
      * rewrite Forall_forall in *. intros x Hx.
        apply (Permutation_in x (Permutation_sym (concat_upd_perm gs k ms c Ek))) in Hx as [<-|Hx]; auto.
    + right. exists k, ms. splits; auto.
      * intros HQ. rewrite <- (H1 HQ). exact Hle.
      * intros HQ. destruct (H2 HQ) as [Ebest Hlt]. rewrite Ebest in *.
        exists ms. splits; auto.
Qed.

(** *** all of them *)
Definition fitb (c : coord) : bool :=
  match row_of rows (fst c) with Some row => snd c + len <=? Z.of_nat (length row) | None => false end.

Definition all_pos : list coord :=
  flat_map (fun s => map (fun i => (i, s)) (zseq 0 (length rows))) (zseq 0 (Z.to_nat sub)).
Definition all_subs : list coord := filter fitb all_pos.

Lemma all_pos_In c : In c all_pos <-> 0 <= fst c < Z.of_nat (length rows) /\ 0 <= snd c < sub.
Proof.
  unfold all_pos. rewrite in_flat_map. destruct c as [i s]. simpl. split.
  - intros (s' & Hs & Hi). apply in_map_iff in Hi as (i' & E & Hi). injection E as -> ->.
    apply zseq_In in Hs, Hi. lia.
  - intros [H1 H2]. exists s. split; [apply zseq_In; lia|]. apply in_map_iff. exists i. split; auto.
    apply zseq_In. lia.
Qed.

Lemma fitb_iff c : In c all_pos -> fitb c = true <-> is_sub rows len c.
Proof.
  intros H. apply all_pos_In in H as [H1 H2]. unfold fitb, is_sub. split.
  - destruct (row_of rows (fst c)) as [row|]; [|discriminate]. intros E. apply Z.leb_le in E.
    exists row. splits; auto. lia.
  - intros (row & -> & _ & H). apply Z.leb_le. exact H.
Qed.

Lemma all_subs_In c : In c all_subs <-> is_sub rows len c.
Proof.
  unfold all_subs. rewrite filter_In. split.
  - intros [H1 H2]. apply fitb_iff; auto.
  - intros H. assert (Hp : In c all_pos).
    { apply all_pos_In. destruct (sub_inb c H) as [H1 H2]. rewrite <- count_rows. lia. }
    split; auto. apply fitb_iff; auto.
Qed.

Lemma NoDup_flat {A B} (f : A -> list B) l : NoDup l -> (forall x, In x l -> NoDup (f x)) ->
  (forall x y z, In x l -> In y l -> In z (f x) -> In z (f y) -> x = y) -> NoDup (flat_map f l).
Proof.
  induction l as [|x l IH]; intros Hn Hf Hd'; simpl; [constructor|].
  inversion Hn as [|? ? Hx Hn']; subst. apply NoDup_app.
  - apply Hf; left; auto.
  - apply IH; auto; [intros; apply Hf; right; auto|]. intros a b z Ha Hb. apply Hd'; right; auto.
  - intros z Hz Hz'. apply in_flat_map in Hz' as (y & Hy & Hz').
    assert (x = y) by (apply (Hd' x y z); simpl; auto). subst. contradiction.
Qed.

Lemma all_pos_NoDup : NoDup all_pos.
Proof.
  apply NoDup_flat.
  - apply zseq_NoDup.
  - intros s _. apply NoDup_map_inj; [intros x y _ _ E; congruence|apply zseq_NoDup].
  - intros s s' z _ _ H1 H2. apply in_map_iff in H1 as (? & <- & _). apply in_map_iff in H2 as (? & E & _). congruence.
Qed.

Lemma all_subs_NoDup : NoDup all_subs.
Proof. apply NoDup_filter, all_pos_NoDup. Qed.

Lemma gstep_perm gs c gs' : gstep gs c gs' -> Permutation (c :: concat gs) (concat gs').
Proof.
  intros [[-> _]|(k & g & Ek & -> & _)].
  - rewrite concat_snoc. apply Permutation_cons_append.
  - unfold add_to. rewrite (nth_error_nth _ _ _ Ek). apply concat_upd_perm; auto.
Qed.

Lemma runs_perm cs gs : runs gstep cs gs -> Permutation cs (concat gs).
Proof.
  induction 1 as [|cs gs c gs' H IH Hs]; [constructor|].
  apply (Permutation_trans (l' := c :: cs)); [apply Permutation_sym, Permutation_cons_append|].
  eapply Permutation_trans; [|apply gstep_perm; eauto]. constructor; auto.
Qed.

Lemma count_sub : 0 <= count * sub <= int_max.
Proof. destruct Hd as (buf & _ & Ec & Hm & Hb & _). nia. Qed.

Lemma ll_new_ok : exists L, ll_new d len = Ret L /\ state_ok L [].
Proof.
  pose proof count_sub as Hcs. rewrite count_rows in Hcs.
  unfold ll_new. rewrite count_rows. rewrite imul_ok by (unfold int_min; nia). cbn [bind].
  destruct (Z.ltb_spec (Z.of_nat (length rows) * sub) 0); [nia|].
  eexists. split; [reflexivity|]. constructor; simpl; auto. unfold groups_are. splits; simpl; auto; try constructor.
  all: try rewrite repeat_length; rewrite count_rows; lia.
Qed.

Lemma log_ok doLog total counter : doLog = false \/ 5 <= total < 21474840 -> 0 < counter <= total ->
  log_step doLog total counter = Ret tt.
Proof.
  intros H Hc. unfold log_step. destruct doLog; auto. destruct H as [|H]; [discriminate|].
  unfold cmod. rewrite Z.quot_div_nonneg by lia.
  assert (1 <= total / 5) by (apply Z.div_le_lower_bound; lia).
  destruct (Z.eqb_spec (total / 5) 0); [lia|]. cbn [bind].
  rewrite Z.rem_mod_nonneg by lia.
  destruct (Z.eqb_spec (counter mod (total / 5)) 0) as [E|E]; [|reflexivity].
  assert (Hx : counter * 100 <= int_max).
  { apply Z.div_exact in E; [|lia]. unfold int_max.
    pose proof (Z.div_mod total 5 ltac:(lia)) as Hq. pose proof (Z.mod_pos_bound total 5 ltac:(lia)) as Hr.
    remember (counter / (total / 5)) as k. remember (total / 5) as q.
    destruct (Z.le_gt_cases counter 21474836); [lia|].
    assert (q = 4294967) by lia. assert (k <= 5) by nia. nia. }
  rewrite imul_ok by (unfold int_min; lia). cbn [bind].
  destruct (Z.eqb_spec total 0); [lia|reflexivity].
Qed.

Lemma all_pos_length : Z.of_nat (length all_pos) = sub * count.
Proof.
  unfold all_pos. rewrite count_rows.
  assert (E : forall l : list Z, length (flat_map (fun s : Z => map (fun i => (i, s)) (zseq 0 (length rows))) l) = (length l * length rows)%nat).
  { induction l as [|s l IH]; [reflexivity|]. cbn [flat_map length]. rewrite app_length, IH, map_length, zseq_length. lia. }
  rewrite E, zseq_length, Nat2Z.inj_mul, Z2Nat.id by lia. reflexivity.
Qed.

(** LocalLengthGroupSpace::generateGroups *)
Theorem generate_ok doLog L : doLog = false \/ sub * count = 0 \/ 5 <= sub * count < 21474840 ->
  state_ok L [] ->
  exists L' gs, generateGroups doLog d pw ratio thr L = Ret L' /\ state_ok L' gs /\ runs gstep all_subs gs.
Proof.
  intros Hlog HS0. unfold generateGroups. rewrite (so_sub _ _ HS0).
  pose proof count_sub as Hcs. rewrite imul_ok by (unfold int_min; lia). cbn [bind].
  set (total := sub * count) in *.
  rewrite for_fold. replace (sub - 0) with sub by lia.
  set (body := fun (c : coord) (st : Z * llgs N) =>
      let counter := fst st + 1 in
      _ <- log_step doLog total counter ;;
      ln <- getItemLength d (fst c) ;;
      if ln <? snd c + ll_length (snd st) then Ret (counter, snd st)
      else L' <- place d pw ratio thr (fst c) (snd c) (snd st) ;; Ret (counter, L')).
  assert (E : forall st, fold_res (fun start st => for_ 0 count (fun idx (st : Z * llgs N) =>
      let counter := fst st + 1 in
      _ <- log_step doLog total counter ;;
      ln <- getItemLength d idx ;;
      if ln <? start + ll_length (snd st) then Ret (counter, snd st)
      else L' <- place d pw ratio thr idx start (snd st) ;; Ret (counter, L')) st) (zseq 0 (Z.to_nat sub)) st
     = fold_res body all_pos st).
  { intros st. unfold all_pos. rewrite fold_res_flat. apply fold_res_ext. intros s st' _.
    rewrite for_fold, fold_res_map. replace (Z.to_nat (count - 0)) with (length rows) by (rewrite count_rows; lia).
    reflexivity. }
  rewrite E. clear E.
  destruct (fold_res_inv (fun pre (st : Z * llgs N) => fst st = Z.of_nat (length pre) /\
     exists gs, state_ok (snd st) gs /\ runs gstep (filter fitb pre) gs) body all_pos (0, L))
    as ([cnt L'] & E & Hcnt & gs & HS & HR).
  - split; simpl; [reflexivity|]. exists []. split; auto. constructor.
  - intros pre c post [cnt L1] Ep (Hcnt & gs & HS & HR). simpl in Hcnt, HS.
    assert (Hc : In c all_pos) by (rewrite Ep; apply in_or_app; right; left; auto).
    pose proof Hc as Hc'. apply all_pos_In in Hc' as [Hi Hs].
    unfold body. cbn [fst snd].
    assert (Hcl : cnt + 1 <= total).
    { pose proof all_pos_length as Hal. rewrite Ep, app_length in Hal. cbn [length] in Hal. unfold total. lia. }
    assert (Ht : doLog = false \/ 5 <= total < 21474840).
    { destruct Hlog as [?|[?|?]]; auto. exfalso. unfold total in *. rewrite count_rows in *. nia. }
    rewrite log_ok by (auto; lia). cbn [bind].
    destruct (row_of_in rows (fst c) Hi) as [row Er].
    destruct (holds_row _ _ _ _ Hd Er) as (buf & _ & _ & Eil & _). rewrite Eil. cbn [bind].
    rewrite (so_len _ _ HS).
    assert (Hfe : fitb c = negb (Z.of_nat (length row) <? snd c + len)).
    { unfold fitb. rewrite Er. destruct (Z.leb_spec (snd c + len) (Z.of_nat (length row))),
        (Z.ltb_spec (Z.of_nat (length row)) (snd c + len)); auto; lia. }
    rewrite filter_app. simpl. rewrite Hfe.
    destruct (Z.of_nat (length row) <? snd c + len).
    + simpl. eexists. split; [reflexivity|]. simpl. split; [rewrite app_length; simpl; lia|]. exists gs. rewrite app_nil_r. auto.
    + simpl in *. assert (Hsub : is_sub rows len c) by (apply fitb_iff; auto).
      assert (Hni : ~ In c (concat gs)).
      { intros Hx. apply (Permutation_in c (Permutation_sym (runs_perm _ _ HR))) in Hx.
        apply filter_In in Hx as [Hx _]. pose proof all_pos_NoDup as Hnd. rewrite Ep in Hnd.
        apply NoDup_remove_2 in Hnd. apply Hnd. apply in_or_app. auto. }
      destruct (place_ok L1 gs c HS Hsub Hni) as (L2 & gs' & Epl & HS' & Hst).
      rewrite Epl. simpl. eexists. split; [reflexivity|]. simpl. split; [rewrite app_length; simpl; lia|]. exists gs'. split; auto.
      econstructor; eauto.
  - rewrite E. cbn [bind snd]. exists L', gs. splits; auto.
Qed.

(** *** consequences *)
Lemma runs_mono (P R : list (list coord) -> coord -> list (list coord) -> Prop) cs gs :
  (forall gs c gs', P gs c gs' -> R gs c gs') -> runs P cs gs -> runs R cs gs.
Proof. intros H. induction 1; econstructor; eauto. Qed.

Lemma gstep_leader : Q2 -> forall gs c gs', gstep gs c gs' -> leader_step full thr gs c gs'.
Proof.
  intros H gs c gs' [[-> Hf]|(k & g & Ek & -> & _ & Hj)]; [left|right; exists k]; split; auto.
Qed.

Lemma gstep_nonempty gs c gs' : gstep gs c gs' -> Forall (fun g => g <> []) gs -> Forall (fun g => g <> []) gs'.
Proof.
  intros [[-> Hf]|(k & g & Ek & -> & _ & Hj)] H.
  - apply Forall_app. split; auto. constructor; [discriminate|constructor].
  - rewrite Forall_forall in *. intros x Hx. apply In_nth_error in Hx as [j Ej]. unfold add_to in Ej.
    rewrite nth_error_upd_eq in Ej. destruct (j =? k)%nat.
    + destruct (k <? length gs)%nat; [|discriminate]. injection Ej as <-. discriminate.
    + apply H. eapply nth_error_In; eauto.
Qed.

(** every member is the representative or was within half the threshold of it *)
Lemma runs_radius cs gs : Q1 -> runs gstep cs gs ->
  forall g c, In g gs -> In c g -> c = rep g \/ nle (full (rep g) c) half.
Proof.
  intros HQ Hr. assert (HN : Forall (fun g => g <> []) gs).
  { induction Hr; [constructor|]. eapply gstep_nonempty; eauto. }
  induction Hr as [|cs gs c gs' Hr IH Hs]; intros g x Hg Hx; [destruct Hg|].
  assert (HN' : Forall (fun g => g <> []) gs) by (clear - Hr; induction Hr; [constructor|eapply gstep_nonempty; eauto]).
  specialize (IH HN'). destruct Hs as [[-> _]|(k & g0 & Ek & -> & H1 & _)].
  - apply in_app_or in Hg as [Hg|[<-|[]]]; [apply IH; auto|].
    destruct Hx as [<-|[]]. left. reflexivity.
  - apply In_nth_error in Hg as [j Ej]. unfold add_to in Ej. rewrite (nth_error_nth _ _ _ Ek) in Ej.
    rewrite nth_error_upd_eq in Ej. destruct (j =? k)%nat.
    + destruct (k <? length gs)%nat; [|discriminate]. injection Ej as <-.
      assert (Hne : g0 <> []) by (rewrite Forall_forall in HN'; apply HN'; eapply nth_error_In; eauto).
      rewrite rep_cons by auto. destruct Hx as [<-|Hx]; [right; auto|].
      apply IH; auto. eapply nth_error_In; eauto.
    + apply IH; auto. eapply nth_error_In; eauto.
Qed.

(** a founder is farther than half the threshold from all earlier founders *)
Lemma leader_separation cs gs : runs (leader_step full thr) cs gs ->
  forall j k g g', (j < k)%nat -> nth_error gs j = Some g -> nth_error gs k = Some g' ->
  nlt half (full (rep g) (rep g')).
Proof.
  intros Hr. assert (HN : Forall (fun g => g <> []) gs /\ forall j k g g', (j < k)%nat ->
    nth_error gs j = Some g -> nth_error gs k = Some g' -> nlt half (full (rep g) (rep g'))).
  { induction Hr as [|cs gs c gs' Hr [IHn IH] Hs].
    - split; [constructor|]. intros j k g g' _ E. destruct j; discriminate.
    - destruct Hs as [[Hf ->]|(k0 & (g0 & Ek & _ & _) & ->)].
      + split.
        * apply Forall_app. split; auto. constructor; [discriminate|constructor].
        * intros j k g g' Hjk Ej Ek. destruct (Nat.lt_ge_cases k (length gs)) as [Hk|Hk].
          -- rewrite nth_error_app1 in Ej, Ek by lia. eauto.
          -- rewrite nth_error_app2 in Ek by lia. destruct (k - length gs)%nat as [|[|]] eqn:E; try discriminate.
             injection Ek as <-. rewrite nth_error_app1 in Ej by (rewrite ?app_length in *; lia).
             apply Hf. eapply nth_error_In; eauto.
      + assert (Hne : g0 <> []) by (rewrite Forall_forall in IHn; apply IHn; eapply nth_error_In; eauto).
        unfold add_to. rewrite (nth_error_nth _ _ _ Ek).
        assert (HR : forall j g, nth_error (upd gs k0 (c :: g0)) j = Some g ->
          g <> [] /\ exists g1, nth_error gs j = Some g1 /\ rep g = rep g1).
        { intros j g Ej. rewrite nth_error_upd_eq in Ej. destruct (Nat.eqb_spec j k0) as [->|].
          - destruct (k0 <? length gs)%nat; [|discriminate]. injection Ej as <-. split; [discriminate|].
            exists g0. split; auto. apply rep_cons; auto.
          - split; eauto. rewrite Forall_forall in IHn. apply IHn. eapply nth_error_In; eauto. }
        split.
        * rewrite Forall_forall. intros g Hg. apply In_nth_error in Hg as [j Ej]. apply (HR j g Ej).
        * intros j k g g' Hjk Ej Ek'. apply HR in Ej as (_ & g1 & Ej & ->). apply HR in Ek' as (_ & g2 & Ek2 & ->). eauto. }
  apply HN.
Qed.
End Gen.
