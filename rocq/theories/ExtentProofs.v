(** What a run of the experiments with queries against groups does. *)
From Coq Require Import String Lia.
From Verif Require Import Base Experiment Extent ExtentSpec ExtentNum.
Local Open Scope string_scope.
Local Open Scope Z_scope.
Local Open Scope list_scope.

Lemma rows_at_add {X} d d' (x : X) r : rows_at d' (add_row d x r) = rows_at d' r ++ (if String.eqb d d' then [x] else []).
Proof.
  induction r as [|[n l] r IH]; cbn [add_row rows_at].
  - destruct (String.eqb d d'); reflexivity.
  - destruct (String.eqb_spec n d) as [->|Hn]; cbn [rows_at].
    + destruct (String.eqb d d'); [reflexivity|]. rewrite app_nil_r. reflexivity.
    + destruct (String.eqb_spec n d') as [->|Hn'].
      * assert (Hd : String.eqb d d' = false) by (apply String.eqb_neq; congruence). rewrite Hd, app_nil_r. reflexivity.
      * exact IH.
Qed.

Lemma query_eqb_eq q q' : query_eqb q q' = true <-> q = q'.
Proof.
  unfold query_eqb. rewrite !andb_true_iff, !Z.eqb_eq. destruct q, q'; simpl. split; [intros [[[-> ->] ->] ->]; reflexivity|intros H; injection H as -> -> -> ->; auto].
Qed.

Section Run.
Variables (T A E : Type) (l : glib T A E) (k n : Z).
Hypothesis Hn : 0 <= n <= 2 ^ 39.

Lemma one_run_true m q (o : one A) : one_run A m q o = true <-> o_method _ o = m /\ o_query _ o = q.
Proof. unfold one_run. rewrite andb_true_iff, String.eqb_eq, query_eqb_eq. reflexivity. Qed.
Lemma many_run_true m q (o : many E) : many_run E m q o = true <-> m_method _ o = m /\ m_query _ o = q.
Proof. unfold many_run. rewrite andb_true_iff, String.eqb_eq, query_eqb_eq. reflexivity. Qed.

(** the errors of the extents *)
Definition trail (q : query) (bf : A) (kes : list Z) (es : list E) : Prop :=
  (length es <= length kes)%nat /\ (kes <> [] -> es <> []) /\
  forall i e, nth_error es i = Some e ->
    (exists ke t t' a, nth_error kes i = Some ke /\ g_ksim _ _ _ l t k ke q = Some (a, t') /\ g_err _ _ _ l a bf = Some e) /\
    ((S i < length es)%nat -> g_tiny _ _ _ l e = false) /\
    (S i = length es -> g_tiny _ _ _ l e = true \/ length es = length kes).

Lemma try_trail q bf : forall kes t es t', try_extents T A E l t k q bf kes = Some (es, t') -> trail q bf kes es.
Proof.
  induction kes as [|ke kes IH]; intros t es t' H; cbn [try_extents] in H.
  - injection H as <- <-. split; [cbn; lia|]. split; [congruence|]. intros [|i] e Hi; discriminate Hi.
  - destruct (g_ksim _ _ _ l t k ke q) as [[a t1]|] eqn:Ek; [|discriminate H].
    destruct (g_err _ _ _ l a bf) as [e|] eqn:Ee; [|discriminate H].
    destruct (g_tiny _ _ _ l e) eqn:Et.
    + injection H as <- <-. split; [cbn; lia|]. split; [congruence|]. intros [|i] e' Hi; [|destruct i; discriminate Hi].
      injection Hi as <-. split; [|split].
      * exists ke, t, t1, a. auto.
      * cbn. lia.
      * intros _. left. exact Et.
    + destruct (try_extents T A E l t1 k q bf kes) as [[es' t2]|] eqn:Er; [|discriminate H]. injection H as <- <-.
      destruct (IH t1 es' t2 Er) as (L & Ne & P). split; [cbn; lia|]. split; [congruence|].
      intros [|i] e' Hi.
      * injection Hi as <-. split; [|split].
        -- exists ke, t, t1, a. auto.
        -- intros _. exact Et.
        -- intros Hl. right. cbn [length] in *. destruct kes; [cbn in *; lia|]. destruct es'; [exfalso; apply Ne; congruence|cbn in Hl; lia].
      * cbn [nth_error] in Hi. destruct (P i e' Hi) as (P1 & P2 & P3). split; [exact P1|]. cbn [length]. split; [intros; apply P2; lia|]. intros Hl. destruct P3; [lia|left; assumption|right; lia].
Qed.

Lemma try_explored q bf t es t' : try_extents T A E l t k q bf (extents n) = Some (es, t') -> explored T A E l k n q bf es.
Proof.
  intros H. apply try_trail in H. destruct H as (L & Ne & P). pose proof (extents_length n) as Ln.
  assert (es <> []) as Hne by (apply Ne; intros C; rewrite C in Ln; discriminate Ln).
  split; [destruct es; [congruence|cbn [length] in *; lia]|].
  intros i e Hi. destruct (P i e Hi) as ((ke & t1 & t2 & a & H1 & H2 & H3) & P2 & P3). split; [|split].
  - exists ke, t1, t2, a. split; [apply (extents_nth n); assumption|]. auto.
  - exact P2.
  - intros Hl. rewrite <- Ln. auto.
Qed.

(** an extent with which the search raises ends the loop with an exception *)
Lemma try_raises q bf t ke kes : g_ksim _ _ _ l t k ke q = None -> try_extents T A E l t k q bf (ke :: kes) = None.
Proof. intros H. cbn [try_extents]. rewrite H. reflexivity. Qed.

(** ** one query *)
Notation F := (files A E).
Definition key (st : string) : string := ("genex_" ++ st)%string.

(** what a step may do: entries are added for the methods of groups that are there *)
Record step (f f' : F) : Prop := {
  st_grown : grown A E f f';
  st_once : once A E f -> once A E f';
  st_one : forall d o, in_one A E f' d o -> in_one A E f d o \/
     (exists st t t', g_exists _ _ _ l d st = true /\ o_method _ o = key st /\ g_sim _ _ _ l t (o_query _ o) = Some (o_answer _ o, t'));
  st_many : forall d o, in_many A E f' d o -> in_many A E f d o \/
     (exists st b, g_exists _ _ _ l d st = true /\ m_method _ o = key st /\ in_one A E f d b /\ o_method _ b = "bf" /\ o_query _ b = m_query _ o /\
        explored T A E l k n (m_query _ o) (o_answer _ b) (m_errs _ o)) }.

Lemma grown_refl (f : F) : grown A E f f.
Proof. intros d. exists [], []. rewrite !app_nil_r. auto. Qed.
Lemma grown_trans (f f1 f2 : F) : grown A E f f1 -> grown A E f1 f2 -> grown A E f f2.
Proof.
  intros G1 G2 d. destruct (G1 d) as (x1 & y1 & X1 & Y1). destruct (G2 d) as (x2 & y2 & X2 & Y2).
  exists (x1 ++ x2), (y1 ++ y2). rewrite X2, X1, Y2, Y1, !app_assoc. auto.
Qed.
Lemma grown_one (f f' : F) d o : grown A E f f' -> in_one A E f d o -> in_one A E f' d o.
Proof. intros G H. destruct (G d) as (x & y & X & _). unfold in_one. rewrite X. apply in_or_app. auto. Qed.
Lemma grown_many (f f' : F) d o : grown A E f f' -> in_many A E f d o -> in_many A E f' d o.
Proof. intros G H. destruct (G d) as (x & y & _ & Y). unfold in_many. rewrite Y. apply in_or_app. auto. Qed.

Lemma not_bf st : key st <> "bf".
Proof. unfold key. cbn. congruence. Qed.

Lemma step_refl (f : F) : step f f.
Proof. split; auto using grown_refl. Qed.
Lemma step_trans (f f1 f2 : F) : step f f1 -> step f1 f2 -> step f f2.
Proof.
  intros S1 S2. split.
  - exact (grown_trans _ _ _ (st_grown _ _ S1) (st_grown _ _ S2)).
  - intros O. apply (st_once _ _ S2), (st_once _ _ S1), O.
  - intros d o Ho. destruct (st_one _ _ S2 d o Ho) as [H|H]; [apply (st_one _ _ S1 d o H)|right; exact H].
  - intros d o Ho. destruct (st_many _ _ S2 d o Ho) as [H|(st & b & He & Hm & Hb & Hbf & Hq & Hx)]; [apply (st_many _ _ S1 d o H)|].
    right. exists st, b. destruct (st_one _ _ S1 d b Hb) as [Hb'|(st' & t & t' & _ & Hm' & _)]; [auto 10|].
    exfalso. rewrite Hbf in Hm'. apply (not_bf st'). congruence.
Qed.

Lemma NoDup_snoc {X Y} (g : X -> Y) xs x : NoDup (map g xs) -> (forall y, In y xs -> g y <> g x) -> NoDup (map g (xs ++ [x])).
Proof.
  intros Hnd Hnot. rewrite map_app. cbn [map]. apply NoDup_Add with (a := g x) (l := map g xs).
  - pose proof (Add_app (g x) (map g xs) []) as P. rewrite app_nil_r in P. exact P.
  - split; [exact Hnd|]. intros C. apply in_map_iff in C as (y & Hy & Hin). exact (Hnot y Hin Hy).
Qed.

Notation served := (ExtentSpec.served A E).

Lemma served_step d st q (f f' : F) : step f f' -> served d st q f -> served d st q f'.
Proof.
  intros S [(o & Ho & Hm & Hq) Hb]. split.
  - exists o. split; [exact (grown_one _ _ _ _ (st_grown _ _ S) Ho)|auto].
  - intros (b & Hb1 & Hb2 & Hb3). destruct (st_one _ _ S d b Hb1) as [Hin|(st' & t & t' & _ & Hm' & _)].
    + destruct Hb as (w & Hw & Hw1 & Hw2); [exists b; auto|]. exists w. split; [exact (grown_many _ _ _ _ (st_grown _ _ S) Hw)|auto].
    + exfalso. rewrite Hb2 in Hm'. apply (not_bf st'). congruence.
Qed.

Definition left_by (o : F + T * F) : F := match o with inl f => f | inr (_, f) => f end.

Lemma existsb_not {X} (g : X -> bool) xs : existsb g xs = false -> forall x, In x xs -> g x = false.
Proof. intros H x Hx. destruct (g x) eqn:E'; [|reflexivity]. assert (existsb g xs = true) by (apply existsb_exists; exists x; auto). congruence. Qed.

Lemma add_one_step d st q a t t' (f : F) : g_exists _ _ _ l d st = true -> g_sim _ _ _ l t q = Some (a, t') ->
  existsb (one_run A (key st) q) (rows_at d (f_one _ _ f)) = false ->
  step f (mkFiles A E (add_row d (mkOne A q (key st) a) (f_one _ _ f)) (f_many _ _ f)).
Proof.
  intros He Hs Hnew. split.
  - intros d'. exists (if String.eqb d d' then [mkOne A q (key st) a] else []), []. cbn [f_one f_many]. rewrite rows_at_add, app_nil_r. auto.
  - intros O d'. destruct (O d') as [O1 O2]. cbn [f_one f_many]. split; [|exact O2]. rewrite rows_at_add.
    destruct (String.eqb_spec d d') as [->|]; [|rewrite app_nil_r; exact O1]. apply NoDup_snoc; [exact O1|].
    intros y Hy C. pose proof (existsb_not _ _ Hnew y Hy) as Hf. injection C as C1 C2.
    assert (one_run A (key st) q y = true) by (apply one_run_true; auto). congruence.
  - intros d' o Ho. unfold in_one in Ho |- *. cbn [f_one] in Ho. rewrite rows_at_add in Ho. apply in_app_or in Ho as [Ho|Ho]; [left; exact Ho|].
    destruct (String.eqb_spec d d') as [<-|]; [|destruct Ho]. destruct Ho as [<-|[]]. right. exists st, t, t'. auto.
  - intros d' o Ho. left. exact Ho.
Qed.

Lemma add_many_step d st q es b (f : F) : g_exists _ _ _ l d st = true ->
  in_one A E f d b -> o_method _ b = "bf" -> o_query _ b = q -> explored T A E l k n q (o_answer _ b) es ->
  existsb (many_run E (key st) q) (rows_at d (f_many _ _ f)) = false ->
  step f (mkFiles A E (f_one _ _ f) (add_row d (mkMany E q (key st) es) (f_many _ _ f))).
Proof.
  intros He Hb1 Hb2 Hb3 Hx Hnew. split.
  - intros d'. exists [], (if String.eqb d d' then [mkMany E q (key st) es] else []). cbn [f_one f_many]. rewrite rows_at_add, app_nil_r. auto.
  - intros O d'. destruct (O d') as [O1 O2]. cbn [f_one f_many]. split; [exact O1|]. rewrite rows_at_add.
    destruct (String.eqb_spec d d') as [->|]; [|rewrite app_nil_r; exact O2]. apply NoDup_snoc; [exact O2|].
    intros y Hy C. pose proof (existsb_not _ _ Hnew y Hy) as Hf. injection C as C1 C2.
    assert (many_run E (key st) q y = true) by (apply many_run_true; auto). congruence.
  - intros d' o Ho. left. exact Ho.
  - intros d' o Ho. unfold in_many in Ho |- *. cbn [f_many] in Ho. rewrite rows_at_add in Ho. apply in_app_or in Ho as [Ho|Ho]; [left; exact Ho|].
    destruct (String.eqb_spec d d') as [<-|]; [|destruct Ho]. destruct Ho as [<-|[]]. right. exists st, b. auto 10.
Qed.

Lemma one_query_step d st q t (f : F) : g_exists _ _ _ l d st = true ->
  let o := one_query T A E l k n d (key st) q t f in
  step f (left_by o) /\ (forall t' f', o = inr (t', f') -> served d st q f').
Proof.
  intros He. cbv zeta. unfold one_query.
  set (first := if existsb (one_run A (key st) q) (rows_at d (f_one A E f)) then _ else _).
  assert (P1 : forall t1 f1, first = Some (t1, f1) -> step f f1 /\ exists o, in_one A E f1 d o /\ o_method _ o = key st /\ o_query _ o = q).
  { intros t1 f1 Hf. unfold first in Hf. clear first. destruct (existsb (one_run A (key st) q) (rows_at d (f_one A E f))) eqn:Ex.
    - injection Hf as <- <-. split; [apply step_refl|]. apply existsb_exists in Ex as (o & Ho & Hr). apply one_run_true in Hr. exists o. auto.
    - destruct (g_sim _ _ _ l t q) as [[a t2]|] eqn:Es; [|discriminate Hf]. injection Hf as <- <-. split.
      + eapply add_one_step; eauto.
      + exists (mkOne A q (key st) a). split; [|auto]. unfold in_one. cbn [f_one]. rewrite rows_at_add, String.eqb_refl. apply in_or_app. right. left. reflexivity. }
  clearbody first. destruct first as [[t1 f1]|]; [|split; [apply step_refl|intros; discriminate]].
  destruct (P1 t1 f1 eq_refl) as [S1 V1]. clear P1.
  destruct (filter (one_run A "bf" q) (rows_at d (f_one A E f1))) as [|b bs] eqn:Ef.
  - cbn [left_by]. split; [exact S1|]. intros t' f' [= <- <-]. split; [exact V1|]. intros (b & Hb & Hm & Hq). exfalso.
    assert (In b (filter (one_run A "bf" q) (rows_at d (f_one A E f1)))) as C by (apply filter_In; split; [exact Hb|apply one_run_true; auto]). rewrite Ef in C. destruct C.
  - assert (Hb : In b (filter (one_run A "bf" q) (rows_at d (f_one A E f1)))) by (rewrite Ef; left; reflexivity).
    apply filter_In in Hb as [Hb Hr]. apply one_run_true in Hr as [Hr1 Hr2]. clear Ef bs.
    destruct (existsb (many_run E (key st) q) (rows_at d (f_many A E f1))) eqn:Em.
    + cbn [left_by]. split; [exact S1|]. intros t' f' [= <- <-]. split; [exact V1|]. intros _. apply existsb_exists in Em as (o & Ho & Hr). apply many_run_true in Hr. exists o. auto.
    + destruct (try_extents T A E l t1 k q (o_answer A b) (extents n)) as [[es t2]|] eqn:Et; cbn [left_by]; [|split; [exact S1|intros; discriminate]].
      assert (S2 : step f1 (mkFiles A E (f_one A E f1) (add_row d (mkMany E q (key st) es) (f_many A E f1)))).
      { eapply add_many_step; eauto. eapply try_explored; eauto. }
      split; [exact (step_trans _ _ _ S1 S2)|]. intros t' f' [= <- <-]. split; [exact V1|]. intros _.
      exists (mkMany E q (key st) es). split; [|auto]. unfold in_many. cbn [f_many]. rewrite rows_at_add, String.eqb_refl. apply in_or_app. right. left. reflexivity.
Qed.

Lemma each_query_step d st : g_exists _ _ _ l d st = true -> forall qs t (f : F),
  let o := each_query T A E l k n d (key st) qs t f in
  step f (left_by o) /\ (forall t' f', o = inr (t', f') -> forall q, In q qs -> served d st q f').
Proof.
  intros He. induction qs as [|q qs IH]; intros t f; cbv zeta; cbn [each_query].
  - split; [apply step_refl|]. intros t' f' _ q [].
  - destruct (one_query_step d st q t f He) as [S1 V1]. destruct (one_query T A E l k n d (key st) q t f) as [f1|[t1 f1]].
    + split; [exact S1|]. intros; discriminate.
    + destruct (IH t1 f1) as [S2 V2]. split; [exact (step_trans _ _ _ S1 S2)|]. intros t' f' Hr q' [<-|Hq]; [|exact (V2 t' f' Hr q' Hq)].
      rewrite Hr in S2. exact (served_step _ _ _ _ _ S2 (V1 t1 f1 eq_refl)).
Qed.

Lemma each_st_step d qs : forall sts t (f : F),
  let o := each_st T A E l k n d sts qs t f in
  step f (left_by o) /\ (forall t' f', o = inr (t', f') -> forall st q, In st sts -> g_exists _ _ _ l d st = true -> In q qs -> served d st q f').
Proof.
  induction sts as [|st sts IH]; intros t f; cbv zeta; cbn [each_st].
  - split; [apply step_refl|]. intros t' f' _ st q [].
  - destruct (g_exists T A E l d st) eqn:He.
    + destruct (g_groups T A E l t d st) as [t0|]; [|split; [apply step_refl|intros; discriminate]].
      destruct (each_query_step d st He qs t0 f) as [S1 V1]. change ("genex_" ++ st)%string with (key st).
      destruct (each_query T A E l k n d (key st) qs t0 f) as [f1|[t1 f1]].
      * split; [exact S1|]. intros; discriminate.
      * destruct (IH t1 f1) as [S2 V2]. split; [exact (step_trans _ _ _ S1 S2)|]. intros t' f' Hr st' q' [<-|Hst] He' Hq; [|exact (V2 t' f' Hr st' q' Hst He' Hq)].
        rewrite Hr in S2. exact (served_step _ _ _ _ _ S2 (V1 t1 f1 eq_refl q' Hq)).
    + destruct (IH t f) as [S2 V2]. split; [exact S2|]. intros t' f' Hr st' q' [<-|Hst] He' Hq; [congruence|exact (V2 t' f' Hr st' q' Hst He' Hq)].
Qed.

Lemma each_dist_step sts qs : forall ds t (f : F),
  let o := each_dist T A E l k n ds sts qs t f in
  step f (left_by o) /\ (forall t' f', o = inr (t', f') -> forall d st q, In d ds -> In st sts -> g_exists _ _ _ l d st = true -> In q qs -> served d st q f').
Proof.
  induction ds as [|d ds IH]; intros t f; cbv zeta; cbn [each_dist].
  - split; [apply step_refl|]. intros t' f' _ d st q [].
  - destruct (each_st_step d qs sts t f) as [S1 V1]. destruct (each_st T A E l k n d sts qs t f) as [f1|[t1 f1]].
    + split; [exact S1|]. intros; discriminate.
    + destruct (IH t1 f1) as [S2 V2]. split; [exact (step_trans _ _ _ S1 S2)|]. intros t' f' Hr d' st' q' [<-|Hd] Hst He' Hq; [|exact (V2 t' f' Hr d' st' q' Hd Hst He' Hq)].
      rewrite Hr in S2. exact (served_step _ _ _ _ _ S2 (V1 t1 f1 eq_refl st' q' Hst He' Hq)).
Qed.

Lemma run_step ds qs (f f' : F) ok : run_genex T A E l k n ds qs f = (f', ok) ->
  step f f' /\ (ok = true -> forall d st q, In d ds -> In st thresholds -> g_exists _ _ _ l d st = true -> In q qs -> served d st q f').
Proof.
  unfold run_genex. destruct (g_load T A E l) as [t|]; [|intros [= <- <-]; split; [apply step_refl|discriminate]].
  destruct (each_dist_step thresholds qs ds t f) as [S V]. destruct (each_dist T A E l k n ds thresholds qs t f) as [f1|[t1 f1]]; intros [= <- <-].
  - split; [exact S|discriminate].
  - split; [exact S|]. intros _. exact (V t1 f1 eq_refl).
Qed.
End Run.

(** ** runs without exceptions *)
Section Works.
Variables (T A E : Type) (l : glib T A E) (k n : Z).
Hypothesis Hn : 0 <= n <= 2 ^ 39.
Notation F := (files A E).

Lemma works_step f f' : works T A E l k f -> step T A E l k n f f' -> works T A E l k f'.
Proof.
  intros W S. destruct W as [W1 W2 W3 W4 W5]. split; auto. intros t ke q a t' d b Hk Hb Hbf.
  destruct (st_one _ _ _ _ _ _ _ _ S d b Hb) as [Hin|(st' & t1 & t1' & _ & Hm & _)]; [eapply W5; eauto|].
  exfalso. rewrite Hbf in Hm. apply (not_bf st'). congruence.
Qed.

Hypothesis Hk : 1000 * k - 500 < n.

Lemma large_extents i ke : nth_error (extents n) i = Some ke -> k <= ke.
Proof. intros H. apply extents_nth in H; [|exact Hn]. unfold thousandths in H. nia. Qed.

Lemma try_works q bf : forall kes t, (forall ke, In ke kes -> k <= ke) ->
  (forall t ke q, k <= ke -> g_ksim _ _ _ l t k ke q <> None) ->
  (forall t ke a t', g_ksim _ _ _ l t k ke q = Some (a, t') -> g_err _ _ _ l a bf <> None) ->
  try_extents T A E l t k q bf kes <> None.
Proof.
  induction kes as [|ke kes IH]; intros t Hke W1 W2; cbn [try_extents]; [discriminate|].
  destruct (g_ksim T A E l t k ke q) as [[a t1]|] eqn:Ek; [|exfalso; apply (W1 t ke q); auto; apply Hke; left; reflexivity].
  destruct (g_err T A E l a bf) as [e|] eqn:Ee; [|exfalso; apply (W2 t ke a t1); auto].
  destruct (g_tiny T A E l e); [discriminate|].
  specialize (IH t1 ltac:(intros; apply Hke; right; assumption) W1 W2). destruct (try_extents T A E l t1 k q bf kes) as [[es t2]|]; [discriminate|congruence].
Qed.

Lemma one_query_works d st q t f : g_exists _ _ _ l d st = true -> works T A E l k f -> exists p, one_query T A E l k n d (key st) q t f = inr p.
Proof.
  intros He W. unfold one_query.
  set (first := if existsb (one_run A (key st) q) (rows_at d (f_one A E f)) then _ else _).
  assert (P : exists t1 f1, first = Some (t1, f1) /\ step T A E l k n f f1).
  { unfold first. destruct (existsb (one_run A (key st) q) (rows_at d (f_one A E f))) eqn:Ex.
    - exists t, f. split; [reflexivity|]. apply step_refl.
    - destruct (g_sim T A E l t q) as [[a t1]|] eqn:Es; [|exfalso; exact (w_sim _ _ _ _ _ _ W t q Es)].
      exists t1, (mkFiles A E (add_row d (mkOne A q (key st) a) (f_one A E f)) (f_many A E f)). split; [reflexivity|]. eapply add_one_step; eauto. }
  destruct P as (t1 & f1 & -> & P).
  destruct (filter (one_run A "bf" q) (rows_at d (f_one A E f1))) as [|b bs] eqn:Ef; [eauto|].
  destruct (existsb (many_run E (key st) q) (rows_at d (f_many A E f1))); [eauto|].
  assert (Hb : In b (filter (one_run A "bf" q) (rows_at d (f_one A E f1)))) by (rewrite Ef; left; reflexivity).
  apply filter_In in Hb as [Hb Hr]. apply one_run_true in Hr as [Hr1 Hr2].
  pose proof (works_step _ _ W P) as W'.
  destruct (try_extents T A E l t1 k q (o_answer A b) (extents n)) as [[es t2]|] eqn:Et; [eauto|].
  exfalso. revert Et. apply try_works.
  - intros ke Hke. apply In_nth_error in Hke as [i Hi]. exact (large_extents i ke Hi).
  - exact (w_ksim _ _ _ _ _ _ W').
  - intros t0 ke a t' Hk'. exact (w_err _ _ _ _ _ _ W' t0 ke q a t' d b Hk' Hb Hr1).
Qed.

Lemma each_query_works d st : g_exists _ _ _ l d st = true -> forall qs t f, works T A E l k f -> exists p, each_query T A E l k n d (key st) qs t f = inr p.
Proof.
  intros He. induction qs as [|q qs IH]; intros t f W; cbn [each_query]; [eauto|].
  destruct (one_query_works d st q t f He W) as ([t1 f1] & Eq). pose proof (one_query_step T A E l k n Hn d st q t f He) as [S _]. rewrite Eq in *.
  apply IH. exact (works_step _ _ W S).
Qed.

Lemma each_st_works d qs : forall sts t f, works T A E l k f -> exists p, each_st T A E l k n d sts qs t f = inr p.
Proof.
  induction sts as [|st sts IH]; intros t f W; cbn [each_st]; [eauto|].
  destruct (g_exists T A E l d st) eqn:He; [|apply IH; exact W].
  destruct (g_groups T A E l t d st) as [t0|] eqn:Eg; [|exfalso; exact (w_groups _ _ _ _ _ _ W t d st He Eg)].
  change ("genex_" ++ st)%string with (key st).
  destruct (each_query_works d st He qs t0 f W) as ([t1 f1] & Eq). pose proof (each_query_step T A E l k n Hn d st He qs t0 f) as [S _]. rewrite Eq in *.
  apply IH. exact (works_step _ _ W S).
Qed.

Lemma each_dist_works sts qs : forall ds t f, works T A E l k f -> exists p, each_dist T A E l k n ds sts qs t f = inr p.
Proof.
  induction ds as [|d ds IH]; intros t f W; cbn [each_dist]; [eauto|].
  destruct (each_st_works d qs sts t f W) as ([t1 f1] & Eq). pose proof (each_st_step T A E l k n Hn d qs sts t f) as [S _]. rewrite Eq in *.
  apply IH. exact (works_step _ _ W S).
Qed.

Lemma run_works ds qs f : works T A E l k f -> snd (run_genex T A E l k n ds qs f) = true.
Proof.
  intros W. unfold run_genex. destruct (g_load T A E l) as [t|] eqn:El; [|exfalso; exact (w_load _ _ _ _ _ _ W El)].
  destruct (each_dist_works thresholds qs ds t f W) as ([t1 f1] & ->). reflexivity.
Qed.
End Works.
