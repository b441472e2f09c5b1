(** The thread pool: invariants, absence of deadlock, bounded runs. *)
From Coq Require Import String Bool Arith Permutation.
From Verif Require Import Base Num TimeSeries TSSet StdAlg Candidate Group GroupSpace LoopFacts ThreadPool.
Local Open Scope nat_scope.

Section Pool.
Context {V : Type}.
Variable new : nat -> res V.
Variable gen : nat -> V -> res V.
Variable size : V -> Z.
Variables ntasks nthreads : nat.
Notation step := (step new gen size ntasks nthreads).
Notation run := (run new gen size ntasks nthreads).
Notation pool := (pool V).

(** what task [t] leaves in its slot, and its outcome *)
Definition tmem (t : nat) : option V :=
  match new t with
  | Ret v => match gen t v with Ret v' => Some v' | _ => Some v end
  | _ => None
  end.
Definition tres (t : nat) : res Z := (v <- new t ;; v' <- gen t v ;; Ret (size v'))%Z.
Hypothesis safe : forall t, t < ntasks -> (exists c, tres t = Ret c) \/ (exists e, tres t = Throw e).

Definition enq (s : pool) : nat :=
  match p_main s with MLock t | MPush t => t | MNotify t => S t | _ => ntasks end.

Lemma fset_eq {A} (f : nat -> A) k v : fset f k v k = v.
Proof. unfold fset. rewrite Nat.eqb_refl. reflexivity. Qed.
Lemma fset_neq {A} (f : nat -> A) k v i : i <> k -> fset f k v i = f i.
Proof. intros H. unfold fset. destruct (Nat.eqb_spec i k); auto. contradiction. Qed.

(** ** the mutex and the flow of control *)
Definition main_holds (s : pool) : Prop := match p_main s with MPush _ | MStop _ _ => True | _ => False end.
Definition stopping (s : pool) : bool := match p_main s with MNotifyAll _ _ | MJoin _ _ _ | MDone _ _ => true | _ => false end.

Record inv1 (s : pool) : Prop := {
  i_lock_m : p_lock s = Some Main -> main_holds s;
  i_lock_m' : main_holds s -> p_lock s = Some Main;
  i_lock_w : forall w, p_lock s = Some (Worker w) -> w < nthreads /\ p_work s w = WCheck;
  i_lock_w' : forall w, w < nthreads -> p_work s w = WCheck -> p_lock s = Some (Worker w);
  i_stop : p_stop s = stopping s;
  i_main : match p_main s with
           | MLock t | MPush t | MNotify t => t < ntasks
           | MGet t _ => t <= ntasks
           | MJoin w _ _ => w <= nthreads /\ forall w', w' < w -> p_work s w' = WExit
           | MDone _ _ => forall w', w' < nthreads -> p_work s w' = WExit
           | _ => True
           end;
  i_exit : forall w, w < nthreads -> p_work s w = WExit -> p_stop s = true /\ p_queue s = [];
  i_nowait : (match p_main s with MJoin _ _ _ | MDone _ _ => True | _ => False end) ->
             forall w, w < nthreads -> p_work s w <> WWait
}.

Ltac fsets := repeat match goal with
  | |- context [fset ?f ?k ?v ?i] => destruct (Nat.eq_dec i k); [subst; rewrite ?fset_eq in *|rewrite !(fset_neq f k v i) in * by assumption]
  | H : context [fset ?f ?k ?v ?i] |- _ => destruct (Nat.eq_dec i k); [subst; rewrite ?fset_eq in *|rewrite !(fset_neq f k v i) in * by assumption]
  end.
Ltac red_pool := unfold with_main, with_work, with_lock, with_queue, with_fut, with_mem, with_stop, main_holds, stopping, wake_all in *;
  cbn [p_main p_work p_lock p_queue p_stop p_fut p_mem] in *.

Lemma inv1_init : inv1 (pool_init ntasks).
Proof.
  unfold pool_init. constructor; red_pool; try discriminate.
  all: destruct (Nat.eqb_spec ntasks 0); auto; try contradiction; lia.
Qed.

Lemma next_main t : exists m, (if S t =? ntasks then MGet 0 0 else MLock (S t)) = m /\
  ((m = MGet 0 0%Z /\ S t = ntasks) \/ (m = MLock (S t) /\ S t <> ntasks)).
Proof. eexists. split; [reflexivity|]. destruct (Nat.eqb_spec (S t) ntasks); auto. Qed.

Ltac spec_w w := repeat match goal with
  | H : forall w', p_lock ?s = Some (Worker w') -> _ |- _ => pose proof (H w); clear H
  | H : forall w', w' < nthreads -> p_work ?s w' = _ -> _ |- _ => pose proof (H w); clear H
  end.

Lemma after_cases {A} (r : res A) t (k : A -> wstate V) : (forall a, r <> Ret a) ->
  (exists e, r = Throw e /\ after r t k = WSet t (Throw e)) \/ after r t k = WDead.
Proof. intros H. destruct r; cbn; eauto. destruct (H a eq_refl). Qed.

Lemma inv1_step s b s' : inv1 s -> step s b s' -> inv1 s'.
Proof.
  intros [L1 L1' L2 L2' L3 L4 L5 L6] Hs. destruct Hs.
  all: try match goal with |- context [if S ?t =? ntasks then _ else _] =>
    destruct (next_main t) as (m & Em & [[-> Ht]|[-> Ht]]); rewrite Em; clear Em end.
  all: try match goal with Ha : forall v, _ <> Ret v |- context [after ?r ?t ?k] =>
    destruct (after_cases r t k Ha) as [(e & Ee & Ea)|Ea]; rewrite Ea; clear Ea end.
  all: red_pool.
  all: try match goal with E : p_main _ = _ |- _ => rewrite E in * end.
  all: constructor; red_pool.
  all: try (intros; fsets; try congruence; eauto; fail).
  all: try (intros; fsets; try congruence; try lia; firstorder congruence).
  all: try (destruct (p_main s); auto;
    [ split; [apply L4|]; intros w1 Hw1; pose proof (proj2 L4 _ Hw1); fsets; congruence
    | intros w1 Hw1; specialize (L4 _ Hw1); fsets; congruence ]; fail).
  all: try (intros; destruct (p_main s); try contradiction; congruence).
  - intros w Hw. destruct (L2 w Hw) as [Ha Hb]. rewrite Hb. auto.
  - intros w Hw. destruct (p_work s w) eqn:E; try discriminate. auto.
  - split; lia.
  - intros w Hw. destruct (p_work s w) eqn:E; try discriminate. eauto.
  - intros _ w Hw. destruct (p_work s w); discriminate.
  - destruct L4 as [La Lb]. split; [lia|]. intros w' Hw'.
    destruct (Nat.eq_dec w' w) as [->|Hne]; [auto|apply Lb; lia].
  - destruct L4 as [La Lb]. intros w' Hw'. apply Lb. lia.
Qed.

(** ** the tasks *)
Definition runs (x : wstate V) : option nat :=
  match x with WNew t | WGen t _ | WSet t _ => Some t | _ => None end.

Fixpoint tally (t : nat) : Z :=
  match t with O => 0%Z | S t' => (tally t' + match tres t' with Ret c => c | _ => 0 end)%Z end.

(** the tasks below [t] have succeeded *)
Definition good (t : nat) : Prop := forall t', t' < t -> exists c, tres t' = Ret c.
Definition outcome_is (total : Z) (r : res Z) : Prop :=
  exists t, t <= ntasks /\ good t /\ total = tally t /\
    ((t = ntasks /\ r = Ret total) \/ (t < ntasks /\ exists e, tres t = Throw e /\ r = Throw e)).

Definition main_res (m : mstate) : Prop :=
  match m with
  | MLock _ | MPush _ | MNotify _ => True
  | MGet t total => good t /\ total = tally t
  | MStopLock total r | MStop total r | MNotifyAll total r | MJoin _ total r | MDone total r => outcome_is total r
  end.

Definition run_ok (s : pool) (x : wstate V) : Prop :=
  match x with
  | WNew t => t < enq s /\ p_fut s t = None /\ p_mem s t = None
  | WGen t v => t < enq s /\ p_fut s t = None /\ p_mem s t = Some v /\ new t = Ret v
  | WSet t r => t < enq s /\ p_fut s t = None /\ p_mem s t = tmem t /\ r = tres t
  | WDead => False
  | _ => True
  end.

Record inv2 (s : pool) : Prop := {
  q_nodup : NoDup (p_queue s);
  q_in : forall t, In t (p_queue s) -> t < enq s /\ p_fut s t = None /\ p_mem s t = None /\
    forall w, w < nthreads -> runs (p_work s w) <> Some t;
  r_ok : forall w, w < nthreads -> run_ok s (p_work s w);
  r_uniq : forall w w' t, w < nthreads -> w' < nthreads -> runs (p_work s w) = Some t -> runs (p_work s w') = Some t -> w = w';
  t_all : forall t, t < enq s -> In t (p_queue s) \/ (exists w, w < nthreads /\ runs (p_work s w) = Some t) \/ p_fut s t <> None;
  t_none : forall t, enq s <= t -> p_mem s t = None /\ p_fut s t = None;
  f_done : forall t r, p_fut s t = Some r -> t < enq s /\ r = tres t /\ p_mem s t = tmem t;
  m_res : main_res (p_main s)
}.

Lemma inv2_init : inv2 (pool_init ntasks).
Proof.
  constructor; cbn; try discriminate; try contradiction; auto.
  - constructor.
  - unfold enq. cbn. destruct (Nat.eqb_spec ntasks 0); intros; lia.
  - destruct (ntasks =? 0); cbn; auto. split; [intros t Ht; lia|reflexivity].
Qed.

Lemma inv2_same s s' : inv2 s -> p_queue s' = p_queue s -> p_fut s' = p_fut s -> p_mem s' = p_mem s -> enq s' = enq s ->
  (forall w, w < nthreads -> p_work s' w = p_work s w \/
     (runs (p_work s' w) = None /\ runs (p_work s w) = None /\ p_work s' w <> WDead)) ->
  main_res (p_main s') -> inv2 s'.
Proof.
  intros [I1 I2 I3 I4 I5 I6 I7 I8] Eq Ef Em Ee Ew Hr.
  assert (Er : forall w, w < nthreads -> runs (p_work s' w) = runs (p_work s w)).
  { intros w Hw. destruct (Ew w Hw) as [E|[E [E' _]]]; congruence. }
  constructor; rewrite ?Eq, ?Ef, ?Em, ?Ee; auto.
  - intros t Ht. destruct (I2 t Ht) as (Ha & Hb & Hc & Hd). splits; auto. intros w Hw. rewrite Er by auto. auto.
  - intros w Hw. specialize (I3 w Hw). destruct (Ew w Hw) as [E|(E & _ & E')].
    + rewrite E. unfold run_ok in *. rewrite Ef, Em, Ee. auto.
    + destruct (p_work s' w); cbn in *; try discriminate; auto.
  - intros w w' t Hw Hw'. rewrite !Er by auto. eauto.
  - intros t Ht. destruct (I5 t Ht) as [H|[[w [H H']]|H]]; auto.
    right. left. exists w. rewrite Er by auto. auto.
Qed.

Lemma inv2_go s s' w t x : inv2 s -> w < nthreads -> runs (p_work s w) = Some t -> runs x = Some t ->
  p_main s' = p_main s -> p_queue s' = p_queue s -> p_fut s' = p_fut s -> p_work s' = fset (p_work s) w x ->
  (forall t', t' <> t -> p_mem s' t' = p_mem s t') -> run_ok s' x -> inv2 s'.
Proof.
  intros [I1 I2 I3 I4 I5 I6 I7 I8] Hw Hr Hx Em Eq Ef Ew Emm Hok.
  assert (Ee : enq s' = enq s) by (unfold enq; rewrite Em; reflexivity).
  assert (Er : forall w, runs (p_work s' w) = runs (p_work s w)).
  { intros w'. rewrite Ew. unfold fset. destruct (Nat.eqb_spec w' w); [subst; congruence|reflexivity]. }
  assert (Ht : t < enq s /\ p_fut s t = None).
  { specialize (I3 w Hw). destruct (p_work s w); try discriminate; cbn in *; injection Hr as ->; tauto. }
  constructor; rewrite ?Eq, ?Ef, ?Ee, ?Em; auto.
  - intros t' Ht'. destruct (I2 t' Ht') as (Ha & Hb & Hc & Hd). splits; auto.
    + rewrite Emm; [auto|]. intros ->. exact (Hd w Hw Hr).
    + intros w' Hw'. rewrite Er. auto.
  - intros w' Hw'. rewrite Ew. unfold fset. destruct (Nat.eqb_spec w' w); [exact Hok|].
    pose proof (I3 w' Hw') as H3. pose proof (I4 w w') as H4.
    destruct (p_work s w') as [| | | |t'|t' v'|t' r'| |]; cbn in *; auto; rewrite Ef, Ee.
    all: rewrite Emm; [exact H3|]; intros ->; specialize (H4 t Hw Hw' Hr eq_refl); congruence.
  - intros w1 w2 t'. rewrite !Er. eauto.
  - intros t' H'. destruct (I5 t' H') as [Ha|[(w' & Ha & Hb)|Ha]]; auto. right. left. exists w'. rewrite Er. auto.
  - intros t' H'. rewrite Emm by lia. auto.
  - intros t' r' H'. rewrite Emm; [eauto|]. intros ->. destruct Ht as [_ Ht]. congruence.
Qed.

Lemma tres_new t : (forall v, new t <> Ret v) -> forall e, new t = Throw e -> tres t = Throw e /\ tmem t = None.
Proof. intros _ e E. unfold tres, tmem. rewrite E. auto. Qed.

Lemma inv2_step s b s' : inv1 s -> inv2 s -> step s b s' -> inv2 s'.
Proof.
  intros I1 I2 Hs. pose proof (m_res _ I2) as Hm. pose proof (r_ok _ I2) as Hr.
  assert (Hlt : forall t, t < enq s -> t < ntasks).
  { intros t. unfold enq. pose proof (i_main _ I1) as H. destruct (p_main s); lia. }
  destruct Hs.
  all: try match goal with |- context [if S ?t =? ntasks then _ else _] =>
    destruct (next_main t) as (m & Em & [[-> Ht]|[-> Ht]]) eqn:En; rewrite Em; clear En end.
  all: red_pool.
  all: try (apply (inv2_same s); auto; cbn; 
    [ intros w' Hw'; fsets; auto; right; splits; try congruence; try reflexivity;
      match goal with E : p_work _ _ = _ |- _ => rewrite E end; reflexivity ]; fail).
  all: try match goal with H : ?ww < nthreads, E : p_work _ ?ww = _ |- _ => specialize (Hr ww H); rewrite E in Hr; cbn in Hr end.
  all: try (apply (inv2_same s); cbn; auto; unfold enq; cbn;
    match goal with E : p_main _ = _ |- _ => rewrite E in *; cbn in * end; auto;
    try (intros w' Hw'; fsets; auto; right; splits; try congruence; try reflexivity;
      match goal with E : p_work _ _ = _ |- _ => rewrite E end; reflexivity); fail).
  - (* w_take *)
    destruct I2 as [J1 J2 J3 J4 J5 J6 J7 J8]. rewrite H2 in *. inversion J1 as [|? ? Hnt Hq]; subst.
    destruct (J2 t) as (Ha & Hb & Hc & Hd); [left; reflexivity|].
    constructor; cbn; auto.
    + intros t' Ht'. destruct (J2 t') as (Ha' & Hb' & Hc' & Hd'); [right; auto|]. splits; auto.
      intros w' Hw'. fsets; auto. cbn. intros E. injection E as ->. contradiction.
    + intros w' Hw'. fsets; [cbn; auto|]. apply J3. auto.
    + intros w1 w2 t' H1' H2'. fsets; auto.
      * intros E E'. cbn in E. injection E as ->. exfalso. exact (Hd _ H2' E').
      * intros E E'. cbn in E'. injection E' as ->. exfalso. exact (Hd _ H1' E).
      * eauto.
    + intros t' Ht'. destruct (J5 t' Ht') as [[->|Hi]|[(w' & Hw' & Hr')|Hf]]; auto.
      * right. left. exists w. rewrite fset_eq. auto.
      * right. left. exists w'. rewrite fset_neq; [auto|]. intros ->. rewrite H0 in Hr'. discriminate.
  - (* w_new *)
    apply (inv2_go s _ w t (WGen t v)); auto; cbn.
    + rewrite H0. reflexivity.
    + intros t' Ht'. rewrite fset_neq; auto.
    + rewrite fset_eq. destruct Hr as (Ha & Hb & Hc). auto.
  - (* w_new_fails *)
    destruct Hr as (Ha & Hb & Hc).
    destruct (after_cases (new t) t (fun v => WGen t v) H1) as [(e & Ee & Ea)|Ea].
    + rewrite Ea. apply (inv2_go s _ w t (WSet t (Throw e))); auto; cbn.
      * rewrite H0. reflexivity.
      * splits; auto; unfold tmem, tres; rewrite Ee; auto.
    + exfalso. destruct (safe t (Hlt t Ha)) as [[c Hc']|[e He]]; unfold tres in *; destruct (new t); cbn in *; try discriminate; exact (H1 _ eq_refl).
  - (* w_gen *)
    destruct Hr as (Ha & Hb & Hc & Hd). apply (inv2_go s _ w t (WSet t (Ret (size v')))); auto; cbn.
    + rewrite H0. reflexivity.
    + intros t' Ht'. rewrite fset_neq; auto.
    + rewrite fset_eq. splits; auto; unfold tmem, tres; rewrite Hd; cbn; rewrite H1; auto.
  - (* w_gen_fails *)
    destruct Hr as (Ha & Hb & Hc & Hd).
    destruct (after_cases (gen t v) t (fun v' => WSet t (Ret (size v'))) H1) as [(e & Ee & Ea)|Ea].
    + rewrite Ea. apply (inv2_go s _ w t (WSet t (Throw e))); auto; cbn.
      * rewrite H0. reflexivity.
      * splits; auto; unfold tmem, tres; rewrite Hd; cbn; rewrite Ee; auto.
    + exfalso. destruct (safe t (Hlt t Ha)) as [[c Hc']|[e He]]; unfold tres in *; rewrite Hd in *; cbn in *;
        destruct (gen t v); cbn in *; try discriminate; exact (H1 _ eq_refl).
  - (* w_set *)
    destruct Hr as (Ha & Hb & Hc & Hd). destruct I2 as [J1 J2 J3 J4 J5 J6 J7 J8].
    assert (Hw : runs (p_work s w) = Some t) by (rewrite H0; reflexivity).
    constructor; cbn; auto.
    + intros t' Ht'. destruct (J2 t' Ht') as (Ha' & Hb' & Hc' & Hd'). splits; auto.
      * rewrite fset_neq; auto. intros ->. exact (Hd' w H Hw).
      * intros w' Hw'. fsets; auto. discriminate.
    + intros w' Hw'. fsets; [exact I|]. pose proof (J3 w' Hw') as H3.
      assert (Hne : runs (p_work s w') <> Some t). { intros E. apply n. exact (J4 _ _ t Hw' H E Hw). }
      destruct (p_work s w'); cbn in *; auto; rewrite fset_neq; auto; congruence.
    + intros w1 w2 t' H1' H2'. fsets; auto; try discriminate. eauto.
    + intros t' Ht'. destruct (Nat.eq_dec t' t) as [->|Hne].
      { right. right. rewrite fset_eq. discriminate. }
      rewrite fset_neq by auto. destruct (J5 t' Ht') as [Hi|[(w' & Hw' & Hr')|Hf]]; auto.
      right. left. exists w'. rewrite fset_neq; auto. intros ->. congruence.
    + intros t' Ht'. unfold enq in Ht', J6. cbn in Ht'. unfold enq in Ha. rewrite fset_neq; [auto|]. intros ->. lia.
    + intros t' r'. fsets; auto. intros E. injection E as <-. auto.
  - (* m_push *)
    assert (Ee : enq s = t) by (unfold enq; rewrite H; reflexivity).
    destruct I2 as [J1 J2 J3 J4 J5 J6 J7 J8]. rewrite Ee in *.
    assert (Hnq : ~ In t (p_queue s)) by (intros Hi; destruct (J2 t Hi); lia).
    constructor; unfold enq; cbn; auto.
    + apply (Permutation_NoDup (Permutation_cons_append _ _)). constructor; auto.
    + intros t' Ht'. apply in_app_iff in Ht'. destruct Ht' as [Ht'|[<-|[]]].
      * destruct (J2 t' Ht') as (Ha & Hb & Hc & Hd). splits; auto.
      * destruct (J6 t (le_n t)) as [Ha Hb]. splits; auto. intros w Hw E.
        specialize (J3 w Hw). destruct (p_work s w); cbn in *; try discriminate; injection E as ->; lia.
    + intros w Hw. specialize (J3 w Hw). unfold run_ok, enq in *. cbn. rewrite H in J3. destruct (p_work s w); auto; intuition lia.
    + intros t' Ht'. destruct (Nat.eq_dec t' t) as [->|Hne].
      { left. apply in_app_iff. right. left. reflexivity. }
      destruct (J5 t') as [Hi|[Hi|Hi]]; auto; [lia|]. left. apply in_app_iff. auto.
    + intros t' Ht'. apply J6. lia.
    + intros t' r' E. destruct (J7 t' r' E) as (Ha & Hb). split; [lia|auto].
  - (* m_push_stopped *)
    exfalso. pose proof (i_stop _ I1) as Hst. unfold stopping in Hst. rewrite H in Hst. congruence.
  - (* m_notify, the last task *)
    apply (inv2_same s); cbn; auto.
    + unfold enq. cbn. rewrite H. auto.
    + intros w' Hw'. fsets; auto. right. splits; auto; [rewrite H1; reflexivity|discriminate].
    + split; [intros t' Ht'; lia|reflexivity].
  - (* m_notify_none *)
    apply (inv2_same s); cbn; auto.
    + unfold enq. cbn. rewrite H. auto.
    + split; [intros t' Ht'; lia|reflexivity].
  - (* m_get *)
    destruct (f_done _ I2 _ _ H1) as (_ & Hc & _). apply (inv2_same s); cbn; auto.
    + unfold enq. cbn. rewrite H. auto.
    + rewrite H in Hm. cbn in Hm. destruct Hm as [Hg Ht]. split.
      * intros t' Ht'. destruct (Nat.eq_dec t' t) as [->|Hne]; [eauto|apply Hg; lia].
      * rewrite <- Hc, Ht. reflexivity.
  - (* m_get_throws *)
    destruct (f_done _ I2 _ _ H1) as (_ & Hc & _). apply (inv2_same s); cbn; auto.
    + unfold enq. cbn. rewrite H. auto.
    + rewrite H in Hm. cbn in Hm. destruct Hm as [Hg Ht]. exists t. splits; auto; [lia|]. right. eauto.
  - (* m_got_all *)
    apply (inv2_same s); cbn; auto.
    + unfold enq. cbn. rewrite H. auto.
    + rewrite H in Hm. cbn in Hm. destruct Hm as [Hg Ht]. pose proof (i_main _ I1) as Hi. rewrite H in Hi.
      exists t. splits; auto. left. split; [lia|reflexivity].
  - (* m_notify_all *)
    apply (inv2_same s); cbn; auto.
    + unfold enq. cbn. rewrite H. auto.
    + intros w Hw. destruct (p_work s w) eqn:E; auto. right. splits; auto. discriminate.
    + rewrite H in Hm. exact Hm.
Qed.

(** ** no lost wake-up *)
Definition awake (x : wstate V) : Prop := match x with WWait | WExit | WDead => False | _ => True end.
Definition inv3 (s : pool) : Prop :=
  p_queue s <> [] -> (exists w, w < nthreads /\ awake (p_work s w)) \/ (exists t, p_main s = MNotify t).

Hypothesis threads_pos : 0 < nthreads.

Lemma inv3_step s b s' : inv1 s -> inv2 s -> inv3 s -> step s b s' -> inv3 s'.
Proof.
  intros I1 I2 I3 Hs. pose proof (r_ok _ (inv2_step _ _ _ I1 I2 Hs)) as Hr'. pose proof (r_ok _ I2) as Hr.
  unfold inv3 in *. destruct Hs.
  all: try match goal with |- context [if S ?t =? ntasks then _ else _] =>
    destruct (next_main t) as (m & Em & [[-> Ht]|[-> Ht]]); rewrite Em; clear Em end.
  all: red_pool; intros Hq; try congruence.
  all: try (match goal with H : ?w < nthreads |- context [fset _ ?w _] => left; exists w; split; [assumption|rewrite fset_eq; exact I] end; fail).
  all: try (destruct (I3 Hq) as [Ha|[t' Ht']]; [left; exact Ha|congruence]; fail).
  all: try (right; eauto; fail).
  - left. exists w. split; auto. specialize (Hr' w H). cbn in Hr'. rewrite fset_eq in *.
    destruct (after_cases (new t) t (fun v => WGen t v) H1) as [(e & Ee & Ea)|Ea]; rewrite Ea in *; [exact I|contradiction].
  - left. exists w. split; auto. specialize (Hr' w H). cbn in Hr'. rewrite fset_eq in *.
    destruct (after_cases (gen t v) t (fun v' => WSet t (Ret (size v'))) H1) as [(e & Ee & Ea)|Ea]; rewrite Ea in *; [exact I|contradiction].
  - left. exists 0. split; auto. specialize (Hr 0 threads_pos). pose proof (i_exit _ I1 0 threads_pos) as Hx. specialize (H0 0 threads_pos).
    destruct (p_work s 0); cbn in *; try exact I; try contradiction; try congruence. destruct (Hx eq_refl). contradiction.
  - left. exists 0. split; auto. specialize (Hr 0 threads_pos). pose proof (i_exit _ I1 0 threads_pos) as Hx. specialize (H0 0 threads_pos).
    destruct (p_work s 0); cbn in *; try exact I; try contradiction; try congruence. destruct (Hx eq_refl). contradiction.
  - left. destruct (I3 Hq) as [(w & Hw & Ha)|[t' Ht']]; [|congruence]. exists w. split; auto.
    destruct (p_work s w); cbn; auto.
Qed.

Lemma run_inv n k s : run n k s -> inv1 s /\ inv2 s /\ inv3 s.
Proof.
  induction 1 as [|n k s s' b _ (I1 & I2 & I3) Hs].
  - splits; [apply inv1_init|apply inv2_init|]. intros H. exfalso. apply H. reflexivity.
  - splits; [eapply inv1_step|eapply inv2_step|eapply inv3_step]; eauto.
Qed.

(** ** a thread can always go on *)
Lemma search (P : nat -> Prop) : (forall w, P w \/ ~ P w) -> forall n, (exists w, w < n /\ P w) \/ (forall w, w < n -> ~ P w).
Proof.
  intros Hd. induction n as [|n [(w & Hw & Hp)|H]].
  - right. intros w Hw. lia.
  - left. exists w. auto.
  - destruct (Hd n) as [Hp|Hp].
    + left. exists n. auto.
    + right. intros w Hw. destruct (Nat.eq_dec w n) as [->|Hne]; [auto|apply H; lia].
Qed.

Lemma progress n k s : run n k s -> (exists total r, p_main s = MDone total r) \/ exists s', step s false s'.
Proof.
  intros Hrun. destruct (run_inv n k s Hrun) as (I1 & I2 & I3).
  destruct (p_lock s) as [[|w]|] eqn:El.
  - (* the main thread holds the mutex *)
    right. pose proof (i_lock_m _ I1 El) as Hm. unfold main_holds in Hm.
    destruct (p_main s) eqn:Em; try contradiction.
    + destruct (p_stop s) eqn:Es; eexists; [eapply m_push_stopped|eapply m_push]; eauto.
    + eexists. eapply m_stop. eauto.
  - right. destruct (i_lock_w _ I1 w El) as [Hw Hc].
    destruct (p_queue s) as [|t q] eqn:Eq.
    + destruct (p_stop s) eqn:Es; eexists; [eapply w_exit|eapply w_wait]; eauto.
    + eexists. eapply w_take; eauto.
  - set (P := fun w => match p_work s w with WWait | WExit => False | _ => True end).
    destruct (search P) with (n := nthreads) as [(w & Hw & Hp)|Hnone].
    { intros w. unfold P. destruct (p_work s w); auto. }
    { right. unfold P in Hp. pose proof (r_ok _ I2 w Hw) as Hr. destruct (p_work s w) as [| | | |t|t v|t r| |] eqn:Ew; try contradiction.
      - eexists. eapply w_lock; eauto.
      - rewrite (i_lock_w' _ I1 w Hw Ew) in El. discriminate.
      - eexists. eapply w_relock; eauto.
      - destruct (new t) as [v| | |] eqn:En.
        + eexists. eapply w_new; eauto.
        + eexists. eapply w_new_fails; eauto. rewrite En. discriminate.
        + eexists. eapply w_new_fails; eauto. rewrite En. discriminate.
        + eexists. eapply w_new_fails; eauto. rewrite En. discriminate.
      - destruct (gen t v) as [v'| | |] eqn:En.
        + eexists. eapply w_gen; eauto.
        + eexists. eapply w_gen_fails; eauto. rewrite En. discriminate.
        + eexists. eapply w_gen_fails; eauto. rewrite En. discriminate.
        + eexists. eapply w_gen_fails; eauto. rewrite En. discriminate.
      - eexists. eapply w_set; eauto. }
    assert (Hna : forall w, w < nthreads -> ~ awake (p_work s w)).
    { intros w Hw Ha. apply (Hnone w Hw). unfold P. destruct (p_work s w); auto. }
    destruct (p_main s) as [t|t|t|t total|total r|total r|total r|w total r|total r] eqn:Em.
    + right. eexists. eapply m_lock; eauto.
    + exfalso. pose proof (i_lock_m' _ I1) as H. unfold main_holds in H. rewrite Em in H. specialize (H I). congruence.
    + right. destruct (search (fun w => p_work s w = WWait)) with (n := nthreads) as [(w & Hw & Hp)|Hno].
      * intros w. destruct (p_work s w); auto; right; discriminate.
      * eexists. eapply m_notify; eauto.
      * eexists. eapply m_notify_none; eauto.
    + right. destruct (Nat.lt_ge_cases t ntasks) as [Ht|Ht].
      * assert (Ht' : t < enq s) by (unfold enq; rewrite Em; auto).
        destruct (t_all _ I2 t Ht') as [Hi|[(w & Hw & Hr)|Hf]].
        -- exfalso. destruct I3 as [(w & Hw & Ha)|[t' E]].
           ++ intros E. rewrite E in Hi. destruct Hi.
           ++ exact (Hna w Hw Ha).
           ++ congruence.
        -- exfalso. apply (Hna w Hw). destruct (p_work s w); cbn in *; auto; discriminate.
        -- destruct (p_fut s t) as [r|] eqn:Ef; [|contradiction].
           destruct (f_done _ I2 t r Ef) as (_ & -> & _).
           destruct (safe t Ht) as [[c Hc]|[e He]].
           ++ rewrite Hc in Ef. eexists. eapply m_get; eauto.
           ++ rewrite He in Ef. eexists. eapply m_get_throws; eauto.
      * eexists. eapply m_got_all; eauto.
    + right. eexists. eapply m_stop_lock; eauto.
    + exfalso. pose proof (i_lock_m' _ I1) as H. unfold main_holds in H. rewrite Em in H. specialize (H I). congruence.
    + right. eexists. eapply m_notify_all; eauto.
    + right. destruct (Nat.lt_ge_cases w nthreads) as [Hw|Hw].
      * pose proof (i_nowait _ I1) as Hnw. rewrite Em in Hnw. specialize (Hnw I w Hw). specialize (Hnone w Hw).
        unfold P in Hnone. eexists. eapply m_join; eauto. destruct (p_work s w); auto; contradiction.
      * eexists. eapply m_done; eauto.
    + left. eauto.
Qed.

(** ** the number of steps *)
Definition wcost (x : wstate V) : nat :=
  match x with WWait | WExit | WDead => 0 | WCheck => 1 | WLock | WWoken => 2 | WSet _ _ => 3 | WGen _ _ => 4 | WNew _ => 5 end.
Fixpoint wsum (f : nat -> wstate V) (n : nat) : nat := match n with O => 0 | S n' => wsum f n' + wcost (f n') end.
Definition mcost (m : mstate) : nat :=
  let n := nthreads in let g := 3 * n + 5 + ntasks in
  match m with
  | MDone _ _ => 0
  | MJoin w _ _ => (n - w) + 1
  | MNotifyAll _ _ => 3 * n + 2
  | MStop _ _ => 3 * n + 3
  | MStopLock _ _ => 3 * n + 4
  | MGet t _ => 3 * n + 5 + (ntasks - t)
  | MNotify t => 3 + 10 * (ntasks - S t) + g
  | MPush t => 9 + 10 * (ntasks - S t) + g
  | MLock t => 10 + 10 * (ntasks - S t) + g
  end.
Definition cost (s : pool) : nat := mcost (p_main s) + wsum (p_work s) nthreads + 5 * length (p_queue s).

Lemma wsum_ext f g n : (forall w, w < n -> f w = g w) -> wsum f n = wsum g n.
Proof. induction n as [|n IH]; intros H; cbn; auto. rewrite IH, H; auto. Qed.
Lemma wsum_fset f w x n : w < n -> wsum (fset f w x) n + wcost (f w) = wsum f n + wcost x.
Proof.
  induction n as [|n IH]; intros H; [lia|]. cbn. destruct (Nat.eq_dec w n) as [->|Hne].
  - rewrite fset_eq, (wsum_ext _ f); [lia|]. intros w' Hw'. apply fset_neq. lia.
  - rewrite fset_neq by auto. specialize (IH ltac:(lia)). lia.
Qed.
Lemma wsum_wake f n : wsum (wake_all f) n <= wsum f n + 2 * n.
Proof. induction n as [|n IH]; cbn; [lia|]. unfold wake_all at 2. destruct (f n); cbn; lia. Qed.
Lemma wcost_after {A} (r : res A) t (k : A -> wstate V) : (forall a, r <> Ret a) -> wcost (after r t k) <= 3.
Proof. intros H. destruct (after_cases r t k H) as [(e & _ & ->)| ->]; cbn; lia. Qed.

Lemma cost_step s b s' : inv1 s -> step s b s' -> if b then cost s' <= cost s + 2 else S (cost s') <= cost s.
Proof.
  intros I1 Hs. pose proof (i_main _ I1) as Hi. unfold cost. destruct Hs.
  all: try match goal with |- context [if S ?t =? ntasks then _ else _] =>
    destruct (next_main t) as (m & Em & [[-> Ht]|[-> Ht]]); rewrite Em; clear Em end.
  all: try match goal with |- context [wake_all ?f] => pose proof (wsum_wake f nthreads) end.
  all: red_pool.
  all: try match goal with E : p_main _ = _ |- _ => rewrite E in * end.
  all: try match goal with E : p_queue _ = _ |- _ => rewrite E end.
  all: rewrite ?app_length; cbn [length].
  all: try match goal with H : ?w < nthreads, E : p_work ?s ?w = _ |- context [fset (p_work ?s) ?w ?x] =>
    pose proof (wsum_fset (p_work s) w x nthreads H) as Hc; rewrite E in Hc end.
  all: try match goal with H : forall a, _ <> Ret a |- context [after ?r ?t ?k] => pose proof (wcost_after r t k H) end.
  all: cbn [wcost] in *; unfold mcost in *.
  all: lia.
Qed.

Lemma cost_init : cost (pool_init ntasks) = 11 * ntasks + 5 * nthreads + 5.
Proof.
  unfold cost, pool_init. cbn [p_main p_work p_queue length].
  assert (H : forall n, wsum (fun _ => WLock) n = 2 * n) by (induction n as [|n IH]; cbn in *; lia).
  rewrite H. destruct (Nat.eqb_spec ntasks 0); unfold mcost; lia.
Qed.

Lemma run_bound n k s : run n k s -> n + cost s <= 11 * ntasks + 5 * nthreads + 5 + 3 * k.
Proof.
  induction 1 as [|n k s s' b Hr IH Hs].
  - rewrite cost_init. lia.
  - pose proof (cost_step s b s' (proj1 (run_inv _ _ _ Hr)) Hs). destruct b; lia.
Qed.

(** ** the result *)
Lemma run_result n k s total r : run n k s -> p_main s = MDone total r ->
  outcome_is total r /\ (forall t, t < ntasks -> p_mem s t = tmem t) /\ (forall t, ntasks <= t -> p_mem s t = None) /\
  p_queue s = [] /\ (forall w, w < nthreads -> p_work s w = WExit).
Proof.
  intros Hr Em. destruct (run_inv n k s Hr) as (I1 & I2 & I3).
  pose proof (m_res _ I2) as Hm. pose proof (i_main _ I1) as Hw. rewrite Em in Hm, Hw. cbn in Hm.
  assert (He : enq s = ntasks) by (unfold enq; rewrite Em; reflexivity).
  assert (Hq : p_queue s = []) by (apply (i_exit _ I1 0 threads_pos); auto).
  splits; auto.
  - intros t Ht. destruct (t_all _ I2 t) as [Hi|[(w & Hw' & Hrw)|Hf]]; [lia| | |].
    + rewrite Hq in Hi. destruct Hi.
    + rewrite Hw in Hrw by auto. discriminate.
    + destruct (p_fut s t) as [r'|] eqn:Ef; [|contradiction]. apply (f_done _ I2 t r' Ef).
  - intros t Ht. apply (t_none _ I2). lia.
Qed.

(** the tasks started so far *)
Inductive started : list nat -> pool -> Prop :=
| started_none : started [] (pool_init ntasks)
| started_task l s s' w t b : started l s -> step s b s' -> w < nthreads ->
    p_work s w = WCheck -> p_work s' w = WNew t -> started (t :: l) s'
| started_same l s s' b : started l s -> step s b s' ->
    (forall w t, w < nthreads -> p_work s' w = WNew t -> p_work s w = WNew t) -> started l s'.

Lemma starts s b s' : step s b s' ->
  (exists w t, w < nthreads /\ p_work s w = WCheck /\ p_work s' w = WNew t /\ p_queue s = t :: p_queue s' /\ p_main s' = p_main s) \/
  ((forall w t, w < nthreads -> p_work s' w = WNew t -> p_work s w = WNew t) /\
   ((p_queue s' = p_queue s /\ enq s' = enq s) \/
    (p_queue s' = p_queue s ++ [enq s] /\ enq s' = S (enq s)) \/ p_stop s = true /\ exists t, p_main s = MPush t)).
Proof.
  intros Hs. unfold enq. destruct Hs.
  all: try match goal with |- context [if S ?t =? ntasks then _ else _] =>
    destruct (next_main t) as (m & Em & [[-> Ht]|[-> Ht]]); rewrite Em; clear Em end.
  all: try match goal with Ha : forall v, _ <> Ret v |- context [after ?r ?t ?k] =>
    destruct (after_cases r t k Ha) as [(e & Ee & Ea)|Ea]; rewrite Ea; clear Ea end.
  all: red_pool.
  all: try match goal with E : p_main _ = _ |- _ => rewrite E in * end.
  all: try (right; split; [intros; fsets; try congruence; auto|]; auto; fail).
  all: try (right; split; [intros; auto|]; right; eauto; fail).
  - left. exists w, t. rewrite fset_eq. auto.
  - right. split; [|auto]. intros w t _. destruct (p_work s w); congruence.
Qed.

Lemma started_inv l s : started l s -> (exists n k, run n k s) /\ NoDup l /\ (forall t, In t l <-> t < enq s /\ ~ In t (p_queue s)).
Proof.
  induction 1 as [|l s s' w t b _ ((n & k & Hr) & Hn & Hi) Hs Hw Hc Hnw|l s s' b _ ((n & k & Hr) & Hn & Hi) Hs Hsame].
  - split; [exists 0, 0; constructor|]. split; [constructor|]. unfold enq, pool_init. cbn.
    intros t. split; [contradiction|]. destruct (Nat.eqb_spec ntasks 0); lia.
  - split; [exists (S n), (if b then S k else k); econstructor; eauto|].
    destruct (run_inv _ _ _ Hr) as (I1 & I2 & I3).
    destruct (starts s b s' Hs) as [(w' & t' & Hw' & Hc' & Hn' & Hq & Em)|[Hno _]].
    + assert (w' = w).
      { pose proof (i_lock_w' _ I1 w Hw Hc). pose proof (i_lock_w' _ I1 w' Hw' Hc'). congruence. }
      subst w'. assert (t' = t) by congruence. subst t'.
      pose proof (q_nodup _ I2) as Hnd. rewrite Hq in Hnd. inversion Hnd as [|? ? Hnt _]; subst.
      assert (Ee : enq s' = enq s) by (unfold enq; rewrite Em; reflexivity).
      split.
      * constructor; auto. rewrite Hi, Hq. intros [_ Ha]. apply Ha. left. reflexivity.
      * intros t'. cbn. rewrite Hi, Hq, Ee. cbn. split.
        -- intros [<-|[Ha Hb]]; [|tauto]. split; auto. apply (q_in _ I2). rewrite Hq. left. reflexivity.
        -- intros [Ha Hb]. destruct (Nat.eq_dec t t') as [->|Hne]; [auto|]. right. tauto.
    + specialize (Hno w t Hw Hnw). congruence.
  - split; [exists (S n), (if b then S k else k); econstructor; eauto|]. split; auto.
    destruct (run_inv _ _ _ Hr) as (I1 & I2 & I3).
    destruct (starts s b s' Hs) as [(w' & t' & Hw' & Hc' & Hn' & Hq & Em)|[_ [[Eq Ee]|[[Eq Ee]|[E [t E']]]]]].
    + specialize (Hsame w' t' Hw' Hn'). congruence.
    + intros t. rewrite Eq, Ee. apply Hi.
    + intros t. rewrite Eq, Ee, Hi, in_app_iff. cbn. split.
      * intros [Ha Hb]. split; [lia|]. intros [Hc|[Hc|[]]]; [auto|lia].
      * intros [Ha Hb]. split; [|tauto]. destruct (Nat.eq_dec (enq s) t); [tauto|lia].
    + pose proof (i_stop _ I1) as Hst. unfold stopping in Hst. rewrite E' in Hst. congruence.
Qed.

Lemma run_started n k s : run n k s -> exists l, started l s.
Proof.
  induction 1 as [|n k s s' b _ [l IH] Hs].
  - exists []. constructor.
  - destruct (starts s b s' Hs) as [(w & t & Hw & Hc & Hn & _)|[Hno _]].
    + exists (t :: l). eapply started_task; eauto.
    + exists l. eapply started_same; eauto.
Qed.

Lemma started_once l s : started l s -> NoDup l.
Proof. intros H. apply (started_inv l s H). Qed.

Lemma started_all l s total r : started l s -> p_main s = MDone total r -> Permutation l (seq 0 ntasks).
Proof.
  intros H Em. destruct (started_inv l s H) as ((n & k & Hr) & Hn & Hi).
  destruct (run_result _ _ _ _ _ Hr Em) as (_ & _ & _ & Hq & _).
  apply NoDup_Permutation; auto; [apply seq_NoDup|]. intros t. rewrite Hi, Hq, in_seq. unfold enq. rewrite Em. cbn. split; [lia|]. intros [_ Ha]. split; [lia|auto].
Qed.
End Pool.
