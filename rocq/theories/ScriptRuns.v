(** Further proofs about the grouping script: what a run does and does not touch. *)
From Coq Require Import String Ascii Permutation Sorting.
From Verif Require Import Base Num OldFormat Script ScriptSpec ScriptProofs.
Local Open Scope string_scope.
Local Open Scope Z_scope.
Local Open Scope list_scope.

(** an event of a run that started with the records [r] *)
Definition clean (r : infos) (e : event) : Prop :=
  match e with
  | EGroup ds d t | EWrite (PGroups ds d t) _ | EWrite (PSizes ds d t) _ => ~ recorded r ds d t
  | EWrite PRecords c => exists r', c = DRecords r' /\ grows r r'
  | _ => True
  end.

Lemma clean_grows r r' e : grows r r' -> clean r' e -> clean r e.
Proof.
  intros Hg. destruct e as [ds|ds d t|[ds d t|ds d t|ds s|] c|ds]; simpl; auto; try (intros H H'; apply H; apply (proj2 Hg); exact H').
  intros (q & E & H). exists q. split; [exact E|exact (grows_trans _ _ _ Hg H)].
Qed.

Lemma in_groupings es x : In x (groupings es) <-> exists ds d t, x = (ds, d, t) /\ In (EGroup ds d t) es.
Proof.
  unfold groupings. rewrite in_flat_map. split.
  - intros (e & He & H). destruct e as [ds|ds d t|p c|ds]; simpl in H; try contradiction. destruct H as [H|[]]. exists ds, d, t. split; [symmetry; exact H|exact He].
  - intros (ds & d & t & -> & H). exists (EGroup ds d t). split; [exact H|left; reflexivity].
Qed.
Lemma groupings_app x y : groupings (x ++ y) = groupings x ++ groupings y.
Proof. unfold groupings. apply flat_map_app. Qed.

Lemma nodup_app {A} (x y : list A) : NoDup x -> NoDup y -> (forall z, In z x -> ~ In z y) -> NoDup (x ++ y).
Proof.
  induction x as [|a x IH]; intros Hx Hy H; [exact Hy|]. inversion Hx as [|a0 x0 Ha Hx0 E]; subst. simpl. constructor.
  - rewrite in_app_iff. intros [G|G]; [exact (Ha G)|exact (H a (or_introl eq_refl) G)].
  - apply IH; [exact Hx0|exact Hy|]. intros z Hz. apply H. right; exact Hz.
Qed.

Section Runs.
Variables (a : args) (l : lib).
Hypothesis Hover : a_start_over a = false.
Hypothesis Hdry : a_dry a = false.

Lemma job_run ds js r rows : okjobs js -> lookup ds r <> None ->
  let es := fst (each_job a l ds js r rows) in
  Forall (clean r) es /\ NoDup (groupings es) /\
  (forall ds' d t, In (EGroup ds' d t) es -> ds' = ds /\ In (d, t) js) /\
  (forall r', snd (each_job a l ds js r rows) = Some r' -> grows r r' /\
     (forall ds' d t, In (EGroup ds' d t) es -> recorded r' ds' d t) /\
     (forall ds' d t, plain d -> recorded r' ds' d t -> recorded r ds' d t \/ In (EGroup ds' d t) es)) /\
  ((forall d t, In (d, t) js -> l_group l ds d t <> None) -> snd (each_job a l ds js r rows) <> None).
Proof.
  revert r rows. induction js as [|[d t] js IH]; intros r rows Hj Hl.
  - simpl. split; [constructor|split; [constructor|split; [intros ds' d t []|split; [|discriminate]]]].
    intros r' E. injection E as <-. split; [apply grows_refl|split; [intros ds' d t []|intros ds' d t _ H; left; exact H]].
  - cbn [each_job]. inversion Hj as [|x y [Hd Ht0] Hj' E]; subst. simpl in Hd, Ht0.
    destruct (exclude a r ds d t) eqn:Ex.
    + destruct (IH r rows Hj' Hl) as (H1 & H2 & H3 & H4 & H5). split; [exact H1|split; [exact H2|split]].
      * intros ds' d' t' H. destruct (H3 _ _ _ H) as [E H']. split; [exact E|right; exact H'].
      * split; [exact H4|]. intros H. apply H5. intros d' t' H'. apply H. right; exact H'.
    + rewrite Hdry. assert (Hn : ~ recorded r ds d t) by (rewrite <- (exclude_recorded a) by exact Hover; congruence).
      destruct (l_group l ds d t) as [[g z]|] eqn:Eg.
      * specialize (IH (progress r ds d t) (rows ++ [(d, t)]) Hj').
        destruct (each_job a l ds js (progress r ds d t) (rows ++ [(d, t)])) as [es o]. simpl.
        destruct IH as (H1 & H2 & H3 & H4 & H5); [apply (lookup_shape r); [symmetry; apply shape_progress|exact Hl]|].
        simpl in H1, H2, H3, H4, H5.
        assert (Hr : recorded (progress r ds d t) ds d t) by (apply recorded_progress; right; auto).
        split; [|split; [|split; [|split]]].
        -- repeat (apply Forall_cons; [simpl; try exact Hn; try exact I|]).
           ++ exists (progress r ds d t). split; [reflexivity|apply grows_progress].
           ++ eapply Forall_impl; [|exact H1]. intros e He. exact (clean_grows _ _ _ (grows_progress r ds d t) He).
        -- constructor; [|exact H2]. intros H. apply in_groupings in H as (ds' & d' & t' & E & H). injection E as <- <- <-.
           rewrite Forall_forall in H1. exact (H1 _ H Hr).
        -- intros ds' d' t' [H|[H|[H|[H|[H|H]]]]]; try discriminate H; [injection H as <- <- <-; split; [reflexivity|left; reflexivity]|].
           destruct (H3 _ _ _ H) as [E H']. split; [exact E|right; exact H'].
        -- intros r' E. destruct (H4 r' E) as (A & B & C). split; [exact (grows_trans _ _ _ (grows_progress r ds d t) A)|split].
           ++ intros ds' d' t' [H|[H|[H|[H|[H|H]]]]]; try discriminate H; [injection H as <- <- <-; apply (proj2 A); exact Hr|exact (B _ _ _ H)].
           ++ intros ds' d' t' Hp H. destruct (C _ _ _ Hp H) as [H'|H']; [|right; do 5 right; exact H'].
              apply recorded_progress in H'. destruct H' as [H'|(-> & _ & Hk)]; [left; exact H'|].
              apply key_inj in Hk; [|exact Hp|exact Hd]. destruct Hk as [-> ->]. right; left; reflexivity.
        -- intros H. apply H5. intros d' t' H'. apply H. right; exact H'.
      * simpl. split; [repeat constructor; exact Hn|split; [repeat constructor; intros []|split; [|split]]].
        -- intros ds' d' t' [H|[]]. injection H as <- <- <-. split; [reflexivity|left; reflexivity].
        -- intros r' E. discriminate E.
        -- intros H. contradiction (H d t (or_introl eq_refl)).
Qed.

Lemma set_run ds r : proper a -> lookup ds r <> None ->
  let es := fst (group_dataset a l ds r) in
  Forall (clean r) es /\ NoDup (groupings es) /\
  (forall ds' d t, In (EGroup ds' d t) es -> ds' = ds /\ In (d, t) (jobs a) /\ l_load l ds = true) /\
  (forall r', snd (group_dataset a l ds r) = Some r' -> grows r r' /\
     (forall ds' d t, In (EGroup ds' d t) es -> recorded r' ds' d t) /\
     (forall ds' d t, plain d -> recorded r' ds' d t -> recorded r ds' d t \/ In (EGroup ds' d t) es)) /\
  (l_load l ds = true -> (forall d t, In (d, t) (jobs a) -> l_group l ds d t <> None) -> snd (group_dataset a l ds r) <> None) /\
  (l_load l ds = false -> snd (group_dataset a l ds r) = None).
Proof.
  intros Hp Hl. unfold group_dataset. destruct (l_load l ds).
  - destruct (job_run ds (jobs a) r [] (ok_jobs a Hp) Hl) as (H1 & H2 & H3 & H4 & H5).
    destruct (each_job a l ds (jobs a) r []) as [es [r'|]]; simpl in *.
    + assert (I1 : forall ds' d t, In (EGroup ds' d t) (es ++ [EUnload ds]) -> In (EGroup ds' d t) es).
      { intros ds' d t H. apply in_app_iff in H. destruct H as [H|[H|[]]]; [exact H|discriminate H]. }
      split; [|split; [|split; [|split; [|split]]]].
      * constructor; [exact I|]. apply Forall_app. split; [exact H1|]. repeat constructor.
      * change (NoDup (groupings (es ++ [EUnload ds]))). rewrite groupings_app. simpl. rewrite app_nil_r. exact H2.
      * intros ds' d t [H|H]; [discriminate H|]. apply I1 in H. destruct (H3 _ _ _ H). auto.
      * intros q E. injection E as <-. destruct (H4 r' eq_refl) as (A & B & C). split; [exact A|split].
        -- intros ds' d t [H|H]; [discriminate H|]. apply I1 in H. auto.
        -- intros ds' d t Hd H. destruct (C _ _ _ Hd H) as [H'|H']; [left; exact H'|right; right; apply in_app_iff; left; exact H'].
      * discriminate.
      * discriminate.
    + split; [|split; [|split; [|split; [|split]]]].
      * constructor; [exact I|exact H1].
      * exact H2.
      * intros ds' d t [H|H]; [discriminate H|]. destruct (H3 _ _ _ H). auto.
      * intros q E. discriminate E.
      * intros _ H. exact (H5 H).
      * discriminate.
  - simpl. split; [repeat constructor|split; [constructor|split; [|split; [|split; [discriminate|reflexivity]]]]].
    + intros ds' d t [H|[]]. discriminate H.
    + intros r' E. discriminate E.
Qed.

Definition ranged (x : Z * string) : Prop := check_range (fst x) (a_min a) (a_max a) = true.

Lemma sets_run ord r : proper a -> (forall n ds, In (n, ds) ord -> lookup ds r <> None) ->
  let es := fst (each_set a l ord r) in
  Forall (clean r) es /\ NoDup (groupings es) /\
  (forall ds d t, In (EGroup ds d t) es -> (exists n, In (n, ds) ord /\ ranged (n, ds)) /\ In (d, t) (jobs a)) /\
  (forall r', snd (each_set a l ord r) = Some r' -> grows r r' /\
     (forall ds d t, In (EGroup ds d t) es -> recorded r' ds d t) /\
     (forall ds d t, plain d -> recorded r' ds d t -> recorded r ds d t \/ In (EGroup ds d t) es)) /\
  ((forall n ds, In (n, ds) ord -> ranged (n, ds) -> l_load l ds = true /\ forall d t, In (d, t) (jobs a) -> l_group l ds d t <> None) ->
     snd (each_set a l ord r) <> None).
Proof.
  intros Hp. revert r. induction ord as [|[n ds] ord IH]; intros r Hl.
  - simpl. split; [constructor|split; [constructor|split; [intros ds' d t []|split; [|discriminate]]]].
    intros r' E. injection E as <-. split; [apply grows_refl|split; [intros ds' d t []|intros ds' d t _ H; left; exact H]].
  - cbn [each_set]. destruct (check_range n (a_min a) (a_max a)) eqn:Ec.
    + destruct (set_run ds r Hp (Hl n ds (or_introl eq_refl))) as (H1 & H2 & H3 & H4 & H5 & _).
      destruct (group_dataset a l ds r) as [es [r1|]]; simpl in H1, H2, H3, H4, H5.
      * destruct (H4 r1 eq_refl) as (A & B & C).
        destruct (IH r1) as (I1 & I2 & I3 & I4 & I5).
        { intros n' ds' Hin. apply (lookup_shape r); [symmetry; apply (proj1 A)|]. apply (Hl n'). right. exact Hin. }
        destruct (each_set a l ord r1) as [es' o']. simpl in I1, I2, I3, I4, I5. simpl.
        split; [|split; [|split; [|split]]].
        -- apply Forall_app. split; [exact H1|]. eapply Forall_impl; [|exact I1]. intros e. apply clean_grows. exact A.
        -- rewrite groupings_app. apply nodup_app; [exact H2|exact I2|]. intros x Hx Hy.
           apply in_groupings in Hx as (ds1 & d1 & t1 & -> & Hx). apply in_groupings in Hy as (ds2 & d2 & t2 & E & Hy). injection E as <- <- <-.
           rewrite Forall_forall in I1. exact (I1 _ Hy (B _ _ _ Hx)).
        -- intros ds' d t H. apply in_app_iff in H. destruct H as [H|H].
           ++ destruct (H3 _ _ _ H) as (-> & Hj & _). split; [exists n; split; [left; reflexivity|exact Ec]|exact Hj].
           ++ destruct (I3 _ _ _ H) as [(m & Hm & Hr) Hj]. split; [exists m; split; [right; exact Hm|exact Hr]|exact Hj].
        -- intros r' E. destruct (I4 r' E) as (A' & B' & C'). split; [exact (grows_trans _ _ _ A A')|split].
           ++ intros ds' d t H. apply in_app_iff in H. destruct H as [H|H]; [apply (proj2 A'); exact (B _ _ _ H)|exact (B' _ _ _ H)].
           ++ intros ds' d t Hd H. rewrite in_app_iff. destruct (C' _ _ _ Hd H) as [H'|H']; [|tauto]. destruct (C _ _ _ Hd H'); tauto.
        -- intros H. apply I5. intros n' ds' Hin. apply H. right; exact Hin.
      * simpl. split; [exact H1|split; [exact H2|split; [|split]]].
        -- intros ds' d t H. destruct (H3 _ _ _ H) as (-> & Hj & _). split; [exists n; split; [left; reflexivity|exact Ec]|exact Hj].
        -- intros r' E. discriminate E.
        -- intros H. destruct (H n ds (or_introl eq_refl) Ec) as [Hload Hgr]. exact (H5 Hload Hgr).
    + destruct (IH r) as (I1 & I2 & I3 & I4 & I5).
      { intros n' ds' Hin. apply (Hl n'). right. exact Hin. }
      split; [exact I1|split; [exact I2|split; [|split; [exact I4|]]]].
      * intros ds' d t H. destruct (I3 _ _ _ H) as [(m & Hm & Hr) Hj]. split; [exists m; split; [right; exact Hm|exact Hr]|exact Hj].
      * intros H. apply I5. intros n' ds' Hin. apply H. right; exact Hin.
Qed.
End Runs.

(** what comes after a data set that cannot be loaded is not grouped; any command line *)
Lemma jobs_names a l ds js r rows ds' d t : In (EGroup ds' d t) (fst (each_job a l ds js r rows)) -> ds' = ds.
Proof.
  revert r rows. induction js as [|[d0 t0] js IH]; intros r rows; cbn [each_job]; [intros []|].
  destruct (exclude a r ds d0 t0); [apply IH|]. destruct (a_dry a); [apply IH|].
  destruct (l_group l ds d0 t0) as [[g z]|]; [|intros [H|[]]; injection H as <- <- <-; reflexivity].
  specialize (IH (progress r ds d0 t0) (rows ++ [(d0, t0)])). destruct (each_job a l ds js _ _) as [es o]. simpl in *.
  intros [H|[H|[H|[H|[H|H]]]]]; try discriminate H; [injection H as <- <- <-; reflexivity|exact (IH H)].
Qed.
Lemma set_names a l ds r ds' d t : In (EGroup ds' d t) (fst (group_dataset a l ds r)) -> ds' = ds.
Proof.
  unfold group_dataset. destruct (l_load l ds); [|intros [H|[]]; discriminate H].
  pose proof (jobs_names a l ds (jobs a) r [] ds' d t) as J. destruct (each_job a l ds (jobs a) r []) as [es [r'|]]; simpl in *.
  - intros [H|H]; [discriminate H|]. apply in_app_iff in H. destruct H as [H|[H|[]]]; [exact (J H)|discriminate H].
  - intros [H|H]; [discriminate H|exact (J H)].
Qed.
Lemma sets_blocked a l n ds l1 l2 r ds' d t : l_load l ds = false -> check_range n (a_min a) (a_max a) = true ->
  In (EGroup ds' d t) (fst (each_set a l (l1 ++ (n, ds) :: l2) r)) -> In ds' (map snd l1).
Proof.
  intros Hload Hc. revert r. induction l1 as [|[m e] l1 IH]; intros r; simpl.
  - rewrite Hc. unfold group_dataset. rewrite Hload. simpl. intros [H|[]]. discriminate H.
  - destruct (check_range m (a_min a) (a_max a)); [|intros H; right; exact (IH r H)].
    pose proof (set_names a l e r ds' d t) as J. destruct (group_dataset a l e r) as [es [r1|]]; simpl in *; [|intros H; left; symmetry; exact (J H)].
    specialize (IH r1). destruct (each_set a l (l1 ++ (n, ds) :: l2) r1) as [es' o']. simpl in *.
    intros H. apply in_app_iff in H. destruct H as [H|H]; [left; symmetry; exact (J H)|right; exact (IH H)].
Qed.

(** a whole run *)
Lemma script_run a l k r : resuming a -> readable k r ->
  let es := fst (script a l k) in
  Forall (clean r) es /\ NoDup (groupings es) /\
  (forall ds d t, In (EGroup ds d t) es -> (exists n, In (n, ds) (order r) /\ ranged a (n, ds)) /\ In (d, t) (jobs a)) /\
  (forall r', snd (script a l k) = Some r' -> grows r r' /\
     (forall ds d t, In (EGroup ds d t) es -> recorded r' ds d t) /\
     (forall ds d t, plain d -> recorded r' ds d t -> recorded r ds d t \/ In (EGroup ds d t) es)) /\
  (order r <> [] -> (forall n ds, In (n, ds) (order r) -> ranged a (n, ds) -> l_load l ds = true /\ forall d t, In (d, t) (jobs a) -> l_group l ds d t <> None) ->
     snd (script a l k) <> None).
Proof.
  intros (Hp & Ho & Hd) Hr. unfold script. unfold readable in Hr. rewrite Hr.
  assert (L : forall n ds, In (n, ds) (order r) -> lookup ds r <> None).
  { intros n ds H. apply in_order in H as (i & H & _). exact (in_lookup _ _ _ H). }
  destruct (order r) as [|x ord] eqn:E.
  - simpl. split; [constructor|split; [constructor|split; [intros ds d t []|split; [discriminate|]]]]. intros H. contradiction H. reflexivity.
  - destruct (sets_run a l Ho Hd (x :: ord) r Hp L) as (H1 & H2 & H3 & H4 & H5). repeat (split; [assumption|]). intros _. exact H5.
Qed.

(** files after an interrupted run *)
Lemma left_file es k k' p : left_by es k k' -> (forall c, ~ In (EWrite p c) es) -> k' p = k p.
Proof.
  induction 1 as [es k|p' c es k|e es k k' H IH]; intros Hp.
  - reflexivity.
  - apply put_file_other. intros ->. exact (Hp c (or_introl eq_refl)).
  - rewrite IH by (intros c Hc; exact (Hp c (or_intror Hc))). destruct e as [ds|ds d t|q c|ds]; try reflexivity.
    apply put_file_other. intros ->. exact (Hp c (or_introl eq_refl)).
Qed.
Lemma left_whole es k k' p c : left_by es k k' -> k' p = Some (Whole c) -> k p = Some (Whole c) \/ In (EWrite p c) es.
Proof.
  induction 1 as [es k|p' c' es k|e es k k' H IH]; intros E.
  - left; exact E.
  - destruct (path_eqb p' p) eqn:Ep.
    + apply path_eqb_spec in Ep. subst. rewrite put_file_same in E. discriminate E.
    + left. unfold put_file in E. rewrite Ep in E. exact E.
  - destruct (IH E) as [G|G]; [|right; right; exact G]. destruct e as [ds|ds d t|q c'|ds]; try (left; exact G).
    simpl in G. unfold put_file in G. destruct (path_eqb q p) eqn:Ep; [|left; exact G].
    apply path_eqb_spec in Ep. subst. injection G as ->. right; left; reflexivity.
Qed.

Lemma left_records a l k k' r r' : resuming a -> readable k r -> left_by (fst (script a l k)) k k' -> readable k' r' -> grows r r'.
Proof.
  intros Ha Hr H Hr'. destruct (left_whole _ _ _ _ _ H Hr') as [E|E].
  - unfold readable in Hr. rewrite Hr in E. injection E as <-. apply grows_refl.
  - destruct (script_run a l k r Ha Hr) as (H1 & _). rewrite Forall_forall in H1. destruct (H1 _ E) as (q & Eq & Hq). injection Eq as <-. exact Hq.
Qed.

Lemma history_stuck l k k' : (forall r, ~ readable k r) -> history l k k' -> k' = k.
Proof.
  intros Hn H. induction H as [k|a k k1 k2 Ha Hl H IH]; [reflexivity|].
  rewrite (script_blank a l k Hn) in Hl. apply left_nil in Hl. subst. exact (IH Hn).
Qed.

Lemma history_records l k k' r r' : history l k k' -> readable k r -> readable k' r' -> grows r r'.
Proof.
  intros H. revert r. induction H as [k|a k k1 k2 Ha Hl H IH]; intros r Hr Hr'.
  - unfold readable in *. rewrite Hr in Hr'. injection Hr' as <-. apply grows_refl.
  - destruct (readable_dec k1) as [[r1 H1]|Hn].
    + exact (grows_trans _ _ _ (left_records _ _ _ _ _ _ Ha Hr Hl H1) (IH _ H1 Hr')).
    + rewrite (history_stuck _ _ _ Hn H) in Hr'. contradiction (Hn r' Hr').
Qed.

Lemma history_trusty l k k' : history l k k' -> trusty l k -> trusty l k'.
Proof. induction 1 as [k|a k k1 k2 Ha Hl H IH]; intros Ht; [exact Ht|]. apply IH. exact (script_trusty _ _ _ _ Ha Ht Hl). Qed.

(** a recorded grouping is left alone *)
Lemma history_kept l k k' r ds d t : history l k k' -> readable k r -> recorded r ds d t ->
  k' (PGroups ds d t) = k (PGroups ds d t) /\ k' (PSizes ds d t) = k (PSizes ds d t).
Proof.
  intros H. revert r. induction H as [k|a k k1 k2 Ha Hl H IH]; intros r Hr Hrec; [auto|].
  destruct (script_run a l k r Ha Hr) as (H1 & _). rewrite Forall_forall in H1.
  assert (E1 : k1 (PGroups ds d t) = k (PGroups ds d t)) by (apply (left_file _ _ _ _ Hl); intros c Hc; exact (H1 _ Hc Hrec)).
  assert (E2 : k1 (PSizes ds d t) = k (PSizes ds d t)) by (apply (left_file _ _ _ _ Hl); intros c Hc; exact (H1 _ Hc Hrec)).
  destruct (readable_dec k1) as [[r1 R1]|Hn].
  - destruct (IH r1 R1 (proj2 (left_records _ _ _ _ _ _ Ha Hr Hl R1) _ _ _ Hrec)) as [A B]. split; congruence.
  - rewrite (history_stuck _ _ _ Hn H). auto.
Qed.
