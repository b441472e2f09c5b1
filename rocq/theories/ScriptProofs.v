(** Proofs about the grouping script. *)
From Coq Require Import String Ascii Permutation Sorting DecimalString DecimalZ.
From Verif Require Import Base Num OldFormat LoaderSpec OldProofs Script ScriptSpec.
Local Open Scope string_scope.
Local Open Scope Z_scope.
Local Open Scope list_scope.

(** ** keys *)
Lemma app_cancel (s x y : string) : (s ++ x)%string = (s ++ y)%string -> x = y.
Proof. induction s as [|c s IH]; simpl; intros H; [exact H|injection H as H; exact (IH H)]. Qed.

Lemma split_at c (x y u v : string) : every (fun z => z <> c) x -> every (fun z => z <> c) y ->
  (x ++ String c u)%string = (y ++ String c v)%string -> x = y /\ u = v.
Proof.
  revert y. induction x as [|a x IH]; intros [|b y] Hx Hy E; simpl in *.
  - injection E as E. auto.
  - injection E as E1 E2. destruct Hy as [Hy _]. congruence.
  - injection E as E1 E2. destruct Hx as [Hx _]. congruence.
  - injection E as E1 E2. destruct (IH y) as [-> ->]; [tauto|tauto|exact E2|]. subst. auto.
Qed.

Lemma plain_every s : plain s -> every (fun z => z <> " "%char) s.
Proof. induction s as [|c s IH]; simpl; [auto|intros [H1 H2]; split; [exact H1|auto]]. Qed.

Lemma uint_no_dot u : every (fun z => z <> "."%char) (NilEmpty.string_of_uint u).
Proof. induction u; simpl; try exact I; split; auto; discriminate. Qed.

Lemma put_int_no_dot z : every (fun z => z <> "."%char) (put_int z).
Proof.
  assert (G : forall u, every (fun z => z <> "."%char) (NilZero.string_of_uint u)).
  { intros u. destruct u; try apply (uint_no_dot (_ u)). simpl. split; [discriminate|exact I]. }
  unfold put_int, NilZero.string_of_int. destruct (Z.to_int z) as [u|u]; [apply G|]. split; [discriminate|apply G].
Qed.

Lemma put_int_inj x y : put_int x = put_int y -> x = y.
Proof.
  intros E. unfold put_int in E. apply (f_equal NilZero.int_of_string) in E.
  destruct (to_int_ok x) as [X1 X2], (to_int_ok y) as [Y1 Y2].
  rewrite (NilZero.isi _ X1 X2), (NilZero.isi _ Y1 Y2) in E. injection E as E. apply (f_equal Z.of_int) in E.
  rewrite !of_to in E. exact E.
Qed.

Lemma tenths_inj x y : tenths x = tenths y -> x = y.
Proof.
  unfold tenths. intros E. apply (split_at "."%char) in E; try apply put_int_no_dot. destruct E as [E1 E2].
  apply put_int_inj in E1. apply put_int_inj in E2. rewrite (Z.div_mod x 10), (Z.div_mod y 10) by lia. congruence.
Qed.

Lemma key_inj ds d t d' t' : plain d -> plain d' -> key ds d t = key ds d' t' -> d = d' /\ t = t'.
Proof.
  unfold key. intros P P' E. apply app_cancel in E. apply (app_cancel " ") in E.
  apply (split_at " "%char) in E; try (apply plain_every; assumption). destruct E as [E1 E2].
  split; [exact E1|]. apply tenths_inj. exact E2.
Qed.

(** ** files *)
Lemma path_eqb_spec p q : path_eqb p q = true <-> p = q.
Proof.
  destruct p, q; simpl; try (split; [discriminate|intros E; discriminate E]); try tauto;
    rewrite ?andb_true_iff, ?String.eqb_eq, ?Z.eqb_eq; split; intros H; try (injection H as -> -> ->; auto);
    try (injection H as -> ->; auto); try (destruct H as [[-> ->] ->]; reflexivity); destruct H as [-> ->]; reflexivity.
Qed.

Lemma put_file_same p f k : put_file p f k p = Some f.
Proof. unfold put_file. destruct (path_eqb p p) eqn:E; [reflexivity|]. assert (path_eqb p p = true) by (apply path_eqb_spec; reflexivity). congruence. Qed.
Lemma put_file_other p q f k : p <> q -> put_file p f k q = k q.
Proof. intros H. unfold put_file. destruct (path_eqb p q) eqn:E; [apply path_eqb_spec in E; contradiction|reflexivity]. Qed.

Lemma left_app es1 es2 k k' : left_by (es1 ++ es2) k k' -> left_by es1 k k' \/ left_by es2 (finished es1 k) k'.
Proof.
  revert k. induction es1 as [|e es1 IH]; intros k H; [right; exact H|].
  inversion H as [|p c es0 k0 E1 E2|e0 es0 k0 k1 H1]; subst; [left; constructor|left; constructor|].
  destruct (IH _ H1) as [H2|H2]; [left; constructor; exact H2|right; exact H2].
Qed.
Lemma finished_app es1 es2 k : finished (es1 ++ es2) k = finished es2 (finished es1 k).
Proof. unfold finished. apply fold_left_app. Qed.
Lemma left_finished es k : left_by es k (finished es k).
Proof. revert k. induction es as [|e es IH]; intros k; [constructor|]. constructor. apply IH. Qed.
Lemma left_nil k k' : left_by [] k k' -> k' = k.
Proof. intros H. inversion H; reflexivity. Qed.

(** ** records *)
Lemma lookup_progress r ds d t n :
  lookup n (progress r ds d t) = if String.eqb n ds then option_map (noted (key ds d t)) (lookup n r) else lookup n r.
Proof.
  unfold progress. induction r as [|[m i] r IH]; simpl; [destruct (String.eqb n ds); reflexivity|].
  destruct (String.eqb m ds) eqn:E1; simpl; destruct (String.eqb m n) eqn:E2; rewrite ?IH; try reflexivity.
  - apply String.eqb_eq in E1, E2. subst. rewrite String.eqb_refl. reflexivity.
  - apply String.eqb_eq in E2. subst. rewrite E1. reflexivity.
Qed.

Lemma in_noted k k' i : (exists l, i_progress (noted k i) = Some l /\ In k' l) <-> k' = k \/ exists l, i_progress i = Some l /\ In k' l.
Proof.
  unfold noted; simpl. split.
  - intros (l & E & Hl). injection E as <-. destruct (i_progress i) as [p|].
    + destruct (existsb (String.eqb k) p) eqn:Ex; [right; eauto|]. apply in_app_iff in Hl. destruct Hl as [Hl|[Hl|[]]]; [right; eauto|left; congruence].
    + simpl in Hl. destruct Hl as [Hl|[]]. left; congruence.
  - intros H. eexists. split; [reflexivity|]. destruct (i_progress i) as [p|].
    + destruct (existsb (String.eqb k) p) eqn:Ex.
      * apply existsb_exists in Ex as (x & Hx & Ek). apply String.eqb_eq in Ek. subst x.
        destruct H as [->|(l & E & Hl)]; [exact Hx|]. injection E as <-. exact Hl.
      * apply in_app_iff. destruct H as [->|(l & E & Hl)]; [right; left; reflexivity|]. injection E as <-. left; exact Hl.
    + destruct H as [->|(l & E & Hl)]; [left; reflexivity|discriminate E].
Qed.

Lemma recorded_progress r ds d t ds' d' t' : recorded (progress r ds d t) ds' d' t' <->
  recorded r ds' d' t' \/ (ds' = ds /\ lookup ds r <> None /\ key ds d' t' = key ds d t).
Proof.
  unfold recorded. rewrite lookup_progress. destruct (String.eqb ds' ds) eqn:E.
  - apply String.eqb_eq in E. subst ds'. destruct (lookup ds r) as [i|]; simpl.
    + split.
      * intros (j & l & Ej & El & Hl). injection Ej as <-.
        destruct (proj1 (in_noted (key ds d t) (key ds d' t') i)) as [H|(l' & H1 & H2)]; [eauto|right; split; [auto|split; [discriminate|exact H]]|left; eauto].
      * intros H. assert (H' : key ds d' t' = key ds d t \/ exists l, i_progress i = Some l /\ In (key ds d' t') l).
        { destruct H as [(j & l & Ej & El & Hl)|(_ & _ & H)]; [injection Ej as <-; right; eauto|left; exact H]. }
        apply in_noted in H'. destruct H' as (l & H1 & H2). eauto.
    + split; [intros (j & l & Ej & _); discriminate Ej|intros [(j & l & Ej & _)|(_ & H & _)]; [discriminate Ej|congruence]].
  - split; [intros H; left; exact H|]. intros [H|(-> & _)]; [exact H|]. rewrite String.eqb_refl in E. discriminate E.
Qed.

Definition shape (r : infos) : list (string * Z) := map (fun e => (fst e, i_subseq (snd e))) r.
Lemma shape_progress r ds d t : shape (progress r ds d t) = shape r.
Proof. unfold shape, progress. rewrite map_map. apply map_ext. intros [n i]. simpl. destruct (String.eqb n ds); reflexivity. Qed.

Lemma order_shape r r' : shape r = shape r' -> order r = order r'.
Proof.
  intros E. unfold order. f_equal.
  assert (G : forall q : infos, map (fun e : string * info => (i_subseq (snd e), fst e)) (filter (fun e => negb (is_out (fst e))) q)
     = map (fun e : string * Z => (snd e, fst e)) (filter (fun e => negb (is_out (fst e))) (shape q))).
  { induction q as [|[n i] q IH]; simpl; [reflexivity|]. destruct (is_out n); simpl; [exact IH|rewrite IH; reflexivity]. }
  rewrite !G, E. reflexivity.
Qed.

Definition grows (r r' : infos) : Prop := shape r' = shape r /\ (forall ds d t, recorded r ds d t -> recorded r' ds d t).
Lemma grows_refl r : grows r r.
Proof. split; auto. Qed.
Lemma grows_trans r s u : grows r s -> grows s u -> grows r u.
Proof. intros [E1 H1] [E2 H2]. split; [congruence|auto]. Qed.
Lemma grows_progress r ds d t : grows r (progress r ds d t).
Proof. split; [apply shape_progress|]. intros ds' d' t' H. apply recorded_progress. left; exact H. Qed.

Lemma lookup_shape r r' ds : shape r = shape r' -> lookup ds r <> None -> lookup ds r' <> None.
Proof.
  revert r'. induction r as [|[n i] r IH]; intros [|[n' i'] r'] E; simpl in *; try discriminate E; [auto|].
  injection E as -> _ E. destruct (String.eqb n' ds); [discriminate|]. apply IH. exact E.
Qed.

Lemma exclude_recorded a r ds d t : a_start_over a = false -> exclude a r ds d t = true <-> recorded r ds d t.
Proof.
  intros Ha. unfold exclude, recorded. rewrite Ha. simpl. destruct (lookup ds r) as [i|].
  - destruct (i_progress i) as [l|] eqn:El.
    + rewrite existsb_exists. split.
      * intros (x & Hx & E). apply String.eqb_eq in E. subst x. eauto.
      * intros (j & l' & Ej & El' & Hl). injection Ej as <-. rewrite El in El'. injection El' as <-. exists (key ds d t). split; [exact Hl|apply String.eqb_refl].
    + split; [discriminate|]. intros (j & l' & Ej & El' & _). congruence.
  - split; [discriminate|]. intros (j & l' & Ej & _). discriminate Ej.
Qed.

(** ** one data set *)
Lemma finished_cons e es k : finished (e :: es) k = finished es (after e k).
Proof. reflexivity. Qed.

Section Runs.
Variables (a : args) (l : lib).
Hypothesis Hover : a_start_over a = false.
Hypothesis Hdry : a_dry a = false.

Definition okjobs (js : list (string * Z)) : Prop := Forall (fun j => plain (fst j) /\ 0 <= snd j) js.

(** a write that is not to the records or to recorded groups *)
Lemma trusty_put p f k r : readable k r -> trusty l k -> p <> PRecords ->
  (forall ds d t, plain d -> 0 <= t -> recorded r ds d t -> p <> PGroups ds d t /\ p <> PSizes ds d t) ->
  readable (put_file p f k) r /\ trusty l (put_file p f k).
Proof.
  intros Hr Ht Hp Hf. assert (R : readable (put_file p f k) r) by (unfold readable; rewrite put_file_other by exact Hp; exact Hr).
  split; [exact R|]. intros r1 ds d t H1 Hd Ht0 Hrec. unfold readable in H1, R. rewrite R in H1. injection H1 as <-.
  destruct (Hf _ _ _ Hd Ht0 Hrec) as [N1 N2]. destruct (Ht _ _ _ _ Hr Hd Ht0 Hrec) as (g & z & E & G & Z).
  exists g, z. rewrite !put_file_other by assumption. auto.
Qed.

Lemma trusty_cut c k : trusty l (put_file PRecords (Cut c) k).
Proof. intros r ds d t Hr. unfold readable in Hr. rewrite put_file_same in Hr. discriminate Hr. Qed.

Lemma job_inv ds js r rows k : okjobs js -> lookup ds r <> None -> readable k r -> trusty l k ->
  let es := fst (each_job a l ds js r rows) in
  (forall k', left_by es k k' -> trusty l k') /\
  (forall r', snd (each_job a l ds js r rows) = Some r' ->
     readable (finished es k) r' /\ grows r r' /\ (forall d t, In (d, t) js -> recorded r' ds d t)).
Proof.
  revert r rows k. induction js as [|[d t] js IH]; intros r rows k Hj Hl Hr Ht.
  - simpl. split; [intros k' H; apply left_nil in H; subst; exact Ht|].
    intros r' E. injection E as <-. split; [exact Hr|split; [apply grows_refl|intros d t []]].
  - cbn [each_job]. inversion Hj as [|x y [Hd Ht0] Hj' E]; subst. simpl in Hd, Ht0.
    destruct (exclude a r ds d t) eqn:Ex.
    + destruct (IH r rows k Hj' Hl Hr Ht) as [H1 H2]. split; [exact H1|]. intros r' E. destruct (H2 r' E) as (A & B & C).
      split; [exact A|split; [exact B|]]. intros d' t' [H|H]; [|apply C; exact H]. injection H as <- <-.
      apply (proj2 B). apply (exclude_recorded a); assumption.
    + rewrite Hdry. assert (Hn : ~ recorded r ds d t) by (rewrite <- (exclude_recorded a) by exact Hover; congruence).
      destruct (l_group l ds d t) as [[g z]|] eqn:Eg.
      * specialize (IH (progress r ds d t) (rows ++ [(d, t)])).
        destruct (each_job a l ds js (progress r ds d t) (rows ++ [(d, t)])) as [es o]. simpl.
        assert (P : forall p f k0, (exists x, p = PGroups ds d t /\ x = tt) \/ p = PSizes ds d t \/ p = PRows ds (a_stamp a) ->
          readable k0 r -> trusty l k0 -> readable (put_file p f k0) r /\ trusty l (put_file p f k0)).
        { intros p f k0 Hp R T. apply trusty_put; auto.
          - intros ->. destruct Hp as [(_ & Hp & _)|[Hp|Hp]]; discriminate Hp.
          - intros ds' d' t' _ _ Hrec. split; intros ->; destruct Hp as [(_ & Hp & _)|[Hp|Hp]]; try discriminate Hp; injection Hp as -> -> ->; contradiction. }
        destruct (P (PGroups ds d t) (Whole (DBytes g)) k) as [R1 T1]; [left; exists tt; auto|exact Hr|exact Ht|].
        destruct (P (PSizes ds d t) (Whole (DBytes z)) _ ltac:(auto) R1 T1) as [R2 T2].
        destruct (P (PRows ds (a_stamp a)) (Whole (DRows (rows ++ [(d, t)]))) _ ltac:(auto) R2 T2) as [R3 T3].
        set (k3 := put_file (PRows ds (a_stamp a)) (Whole (DRows (rows ++ [(d, t)]))) (put_file (PSizes ds d t) (Whole (DBytes z)) (put_file (PGroups ds d t) (Whole (DBytes g)) k))) in *.
        assert (S : saved l k3 ds d t).
        { exists g, z. split; [exact Eg|]. unfold k3. split.
          - rewrite !put_file_other by discriminate. apply put_file_same.
          - rewrite put_file_other by discriminate. apply put_file_same. }
        set (k4 := put_file PRecords (Whole (DRecords (progress r ds d t))) k3) in *.
        assert (R4 : readable k4 (progress r ds d t)) by (unfold readable, k4; apply put_file_same).
        assert (T4 : trusty l k4).
        { intros r1 ds' d' t' H1 Hd' Ht' Hrec. unfold readable in H1, R4. rewrite R4 in H1. injection H1 as <-.
          apply recorded_progress in Hrec.
          assert (Hs : saved l k3 ds' d' t').
          { destruct Hrec as [Hrec|(-> & _ & Hk)]; [exact (T3 _ _ _ _ R3 Hd' Ht' Hrec)|].
            apply key_inj in Hk; [|exact Hd'|exact Hd]. destruct Hk as [-> ->]. exact S. }
          destruct Hs as (g' & z' & A & B & C). exists g', z'. unfold k4. rewrite !put_file_other by discriminate. auto. }
        destruct (IH k4 Hj') as [H1 H2]; [apply (lookup_shape r); [symmetry; apply shape_progress|exact Hl]|exact R4|exact T4|].
        simpl in H1, H2. split.
        -- intros k' H. inversion H as [|p0 c0 e0 k0 E1 E2|e0 es0 k0 k1 H']; subst; [exact Ht|]. cbn [after] in H'. clear H.
           inversion H' as [|p0 c0 e0 k0 E1 E2|e0 es0 k0 k1 H]; subst; [exact Ht|apply P; [left; exists tt; auto|exact Hr|exact Ht]|]. cbn [after] in H. clear H'.
           inversion H as [|p0 c0 e0 k0 E1 E2|e0 es0 k0 k1 H']; subst; [exact T1|apply P; auto|]. cbn [after] in H'. clear H.
           inversion H' as [|p0 c0 e0 k0 E1 E2|e0 es0 k0 k1 H]; subst; [exact T2|apply P; auto|]. cbn [after] in H. clear H'.
           inversion H as [|p0 c0 e0 k0 E1 E2|e0 es0 k0 k1 H']; subst; [exact T3|apply trusty_cut|]. cbn [after] in H'.
           apply H1. exact H'.
        -- intros r' E. destruct (H2 r' E) as (A & B & C). split; [exact A|].
           split; [apply (grows_trans r (progress r ds d t)); [apply grows_progress|exact B]|].
           intros d' t' [H|H]; [|apply C; exact H]. injection H as <- <-. apply (proj2 B). apply recorded_progress. right. auto.
      * simpl. split; [|intros r' E; discriminate E]. intros k' H. inversion H as [|p0 c0 e0 k0 E1 E2|e0 es0 k0 k1 H']; subst; [exact Ht|].
        apply left_nil in H'. subst. exact Ht.
Qed.

Lemma ok_jobs : proper a -> okjobs (jobs a).
Proof.
  intros (H1 & H2 & _). apply Forall_forall. intros [d t] H. apply in_flat_map in H as (x & Hx & H). apply in_map_iff in H as (y & E & Hy).
  injection E as <- <-. rewrite Forall_forall in H1, H2. simpl. auto.
Qed.
Lemma in_jobs d t : In (d, t) (jobs a) <-> In d (a_dist a) /\ In t (a_tenths a).
Proof.
  unfold jobs. rewrite in_flat_map. split.
  - intros (x & Hx & H). apply in_map_iff in H as (y & E & Hy). injection E as <- <-. auto.
  - intros [H1 H2]. exists d. split; [exact H1|]. apply in_map_iff. exists t. auto.
Qed.

Lemma set_inv ds r k : proper a -> lookup ds r <> None -> readable k r -> trusty l k ->
  let es := fst (group_dataset a l ds r) in
  (forall k', left_by es k k' -> trusty l k') /\
  (forall r', snd (group_dataset a l ds r) = Some r' ->
     readable (finished es k) r' /\ grows r r' /\ (forall d t, In (d, t) (jobs a) -> recorded r' ds d t)).
Proof.
  intros Hp Hl Hr Ht. unfold group_dataset.
  assert (N : forall e k', (match e with EWrite _ _ => False | _ => True end) -> left_by [e] k k' -> k' = k).
  { intros e k' He H. inversion H as [|p0 c0 e0 k0 E1 E2|e0 es0 k0 k1 H']; subst; [reflexivity|destruct He|].
    apply left_nil in H'. subst. destruct e; try reflexivity. destruct He. }
  destruct (l_load l ds).
  - destruct (job_inv ds (jobs a) r [] k (ok_jobs Hp) Hl Hr Ht) as [H1 H2].
    destruct (each_job a l ds (jobs a) r []) as [es [r'|]]; simpl in *.
    + split.
      * intros k' H. inversion H as [|p0 c0 e0 k0 E1 E2|e0 es0 k0 k1 H']; subst; [exact Ht|]. simpl in H'.
        apply left_app in H'. destruct H' as [H'|H']; [exact (H1 _ H')|].
        inversion H' as [|p0 c0 e0 k0 E1 E2|e0 es0 k0 k1 H'']; subst; [apply H1; apply left_finished|]. simpl in H''. apply left_nil in H''. subst. apply H1. apply left_finished.
      * intros q E. injection E as <-. destruct (H2 r' eq_refl) as (A & B & C).
        change (finished (ELoad ds :: es ++ [EUnload ds]) k) with (finished (es ++ [EUnload ds]) k). rewrite finished_app. simpl. auto.
    + split; [|intros q E; discriminate E]. intros k' H. inversion H as [|p0 c0 e0 k0 E1 E2|e0 es0 k0 k1 H']; subst; [exact Ht|]. apply H1. exact H'.
  - simpl. split; [|intros q E; discriminate E]. intros k' H. apply N in H; [subst; exact Ht|exact I].
Qed.

Lemma sets_inv ord r k : proper a -> (forall n ds, In (n, ds) ord -> lookup ds r <> None) -> readable k r -> trusty l k ->
  let es := fst (each_set a l ord r) in
  (forall k', left_by es k k' -> trusty l k') /\
  (forall r', snd (each_set a l ord r) = Some r' ->
     readable (finished es k) r' /\ grows r r' /\
     (forall n ds d t, In (n, ds) ord -> check_range n (a_min a) (a_max a) = true -> In (d, t) (jobs a) -> recorded r' ds d t)).
Proof.
  intros Hp. revert r k. induction ord as [|[n ds] ord IH]; intros r k Hl Hr Ht.
  - simpl. split; [intros k' H; apply left_nil in H; subst; exact Ht|]. intros r' E. injection E as <-.
    split; [exact Hr|split; [apply grows_refl|intros n ds d t []]].
  - cbn [each_set]. destruct (check_range n (a_min a) (a_max a)) eqn:Ec.
    + destruct (set_inv ds r k Hp (Hl n ds (or_introl eq_refl)) Hr Ht) as [H1 H2].
      destruct (group_dataset a l ds r) as [es [r1|]]; simpl in H1, H2.
      * destruct (H2 r1 eq_refl) as (A & B & C).
        assert (T1 : trusty l (finished es k)) by (apply H1; apply left_finished).
        destruct (IH r1 (finished es k)) as [H3 H4]; [|exact A|exact T1|].
        { intros n' ds' Hin. apply (lookup_shape r); [symmetry; apply (proj1 B)|]. apply (Hl n'). right. exact Hin. }
        destruct (each_set a l ord r1) as [es' o']. simpl in H3, H4. simpl. split.
        -- intros k' H. apply left_app in H. destruct H as [H|H]; [exact (H1 _ H)|exact (H3 _ H)].
        -- intros r' E. destruct (H4 r' E) as (A' & B' & C'). rewrite finished_app. split; [exact A'|].
           split; [exact (grows_trans _ _ _ B B')|]. intros n' ds' d t [H|H] Hc Hj; [injection H as <- <-|exact (C' n' ds' d t H Hc Hj)].
           apply (proj2 B'). apply C. exact Hj.
      * simpl. split; [exact H1|intros r' E; discriminate E].
    + destruct (IH r k) as [H3 H4]; [|exact Hr|exact Ht|].
      { intros n' ds' Hin. apply (Hl n'). right. exact Hin. }
      split; [exact H3|]. intros r' E. destruct (H4 r' E) as (A' & B' & C'). split; [exact A'|split; [exact B'|]].
      intros n' ds' d t [H|H] Hc Hj; [injection H as <- <-; congruence|exact (C' n' ds' d t H Hc Hj)].
Qed.
End Runs.

(** ** the order *)
Lemma insert_perm x l : Permutation (insert x l) (x :: l).
Proof.
  induction l as [|y l IH]; simpl; [reflexivity|]. destruct (pair_leb x y); [reflexivity|].
  rewrite IH. apply perm_swap.
Qed.
Lemma sorted_perm l : Permutation (sorted l) l.
Proof. induction l as [|x l IH]; simpl; [reflexivity|]. rewrite insert_perm. constructor. exact IH. Qed.

Lemma in_order r n ds : In (n, ds) (order r) <-> exists i, In (ds, i) r /\ i_subseq i = n /\ is_out ds = false.
Proof.
  unfold order. split.
  - intros H. apply (Permutation_in _ (sorted_perm _)) in H. apply in_map_iff in H as ([m i] & E & H).
    apply filter_In in H as [H1 H2]. simpl in *. injection E as <- <-. exists i. apply negb_true_iff in H2. auto.
  - intros (i & H & <- & Ho). apply (Permutation_in _ (Permutation_sym (sorted_perm _))). apply in_map_iff.
    exists (ds, i). split; [reflexivity|]. apply filter_In. simpl. rewrite Ho. auto.
Qed.

Lemma in_lookup (r : infos) ds i : In (ds, i) r -> lookup ds r <> None.
Proof.
  induction r as [|[n j] r IH]; intros H; simpl; [destruct H|]. destruct (String.eqb n ds) eqn:E; [discriminate|].
  destruct H as [H|H]; [injection H as -> ->; rewrite String.eqb_refl in E; discriminate E|auto].
Qed.

Lemma order_nodup r : NoDup (map fst r) -> NoDup (map snd (order r)).
Proof.
  intros H. unfold order. apply (Permutation_NoDup (l := map fst (filter (fun e => negb (is_out (fst e))) r))).
  - rewrite (Permutation_map snd (sorted_perm _)). rewrite map_map. simpl. reflexivity.
  - induction r as [|e r IH]; simpl in *; [constructor|]. inversion H as [|x y Hx Hy E]; subst.
    destruct (negb (is_out (fst e))); simpl; [|apply IH; exact Hy]. constructor; [|apply IH; exact Hy].
    intros Hin. apply Hx. apply in_map_iff in Hin as (z & E & Hz). apply filter_In in Hz. apply in_map_iff. exists z. tauto.
Qed.

Lemma range_within n lo hi : 0 <= n -> check_range n lo hi = true <-> within n lo hi.
Proof.
  intros Hn. unfold check_range, within. rewrite !orb_true_iff, !andb_true_iff, !Z.ltb_lt, !Z.leb_le. lia.
Qed.

(** ** a whole run *)
Lemma script_inv a l k r : resuming a -> readable k r -> trusty l k ->
  let es := fst (script a l k) in
  (forall k', left_by es k k' -> trusty l k') /\
  (forall r', snd (script a l k) = Some r' ->
     readable (finished es k) r' /\ grows r r' /\
     (forall n ds d t, In (n, ds) (order r) -> check_range n (a_min a) (a_max a) = true -> In (d, t) (jobs a) -> recorded r' ds d t)).
Proof.
  intros (Hp & Ho & Hd) Hr Ht. unfold script. pose proof Hr as Hr'. unfold readable in Hr. rewrite Hr.
  assert (L : forall n ds, In (n, ds) (order r) -> lookup ds r <> None).
  { intros n ds H. apply in_order in H as (i & H & _). exact (in_lookup _ _ _ H). }
  destruct (order r) as [|x ord] eqn:E.
  - simpl. split; [intros k' H; apply left_nil in H; subst; exact Ht|intros r' E'; discriminate E'].
  - apply (sets_inv a l Ho Hd (x :: ord) r k Hp L Hr' Ht).
Qed.

Lemma script_blank a l k : (forall r, ~ readable k r) -> script a l k = ([], None).
Proof.
  intros H. unfold script. destruct (k PRecords) as [[[s|rows|r]|c]|] eqn:E; try reflexivity. exfalso. apply (H r). exact E.
Qed.

Lemma readable_dec k : {r | readable k r} + {forall r, ~ readable k r}.
Proof.
  unfold readable. destruct (k PRecords) as [[[s|rows|r]|c]|]; try (right; intros r' H; discriminate H).
  left. exists r. reflexivity.
Defined.

Lemma script_trusty a l k k' : resuming a -> trusty l k -> left_by (fst (script a l k)) k k' -> trusty l k'.
Proof.
  intros Ha Ht H. destruct (readable_dec k) as [[r Hr]|Hn].
  - destruct (script_inv a l k r Ha Hr Ht) as [H1 _]. exact (H1 _ H).
  - rewrite (script_blank a l k Hn) in H. apply left_nil in H. subst. exact Ht.
Qed.
