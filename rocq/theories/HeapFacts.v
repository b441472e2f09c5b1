(** Facts about the standard heap and sort algorithms of StdAlg.v: strict weak
    orders, the front of a heap is a largest element, and a concrete
    implementation satisfying the contract [std_ok] (so the contract is not
    contradictory). *)
From Coq Require Import Permutation.
From Verif Require Import Base StdAlg.

(** [lt] is a strict weak order on the elements of [l] *)
Definition swo {A} (lt : A -> A -> bool) (l : list A) : Prop :=
  (forall x, In x l -> lt x x = false) /\
  (forall x y z, In x l -> In y l -> In z l -> lt x y = true -> lt y z = true -> lt x z = true) /\
  (forall x y z, In x l -> In y l -> In z l -> lt x y = false -> lt y z = false -> lt x z = false).

Lemma swo_b_iff {A} (lt : A -> A -> bool) l : swo_b lt l = true <-> swo lt l.
Proof.
  unfold swo_b, swo. rewrite forallb_forall. split.
  - intros H. split; [|split].
    + intros x Hx. specialize (H x Hx). apply andb_prop in H as [H _]. apply negb_true_iff, H.
    + intros x y z Hx Hy Hz E1 E2. specialize (H x Hx). apply andb_prop in H as [_ H].
      rewrite forallb_forall in H. specialize (H y Hy). rewrite forallb_forall in H. specialize (H z Hz).
      apply andb_prop in H as [H _]. rewrite E1, E2 in H. exact H.
    + intros x y z Hx Hy Hz E1 E2. specialize (H x Hx). apply andb_prop in H as [_ H].
      rewrite forallb_forall in H. specialize (H y Hy). rewrite forallb_forall in H. specialize (H z Hz).
      apply andb_prop in H as [_ H]. rewrite E1, E2 in H. simpl in H. apply negb_true_iff, H.
  - intros (H1 & H2 & H3) x Hx. apply andb_true_intro. split; [rewrite H1; auto|].
    apply forallb_forall. intros y Hy. apply forallb_forall. intros z Hz.
    destruct (lt x y) eqn:E1, (lt y z) eqn:E2; simpl.
    + rewrite (H2 x y z); auto.
    + reflexivity.
    + reflexivity.
    + rewrite (H3 x y z); auto.
Qed.

Lemma swo_incl {A} (lt : A -> A -> bool) l l' : (forall x, In x l' -> In x l) -> swo lt l -> swo lt l'.
Proof.
  intros Hi (H1 & H2 & H3). split; [|split].
  - intros x Hx. apply H1; auto.
  - intros x y z Hx Hy Hz. apply H2; auto.
  - intros x y z Hx Hy Hz. apply H3; auto.
Qed.

Lemma swo_perm {A} (lt : A -> A -> bool) l l' : Permutation l l' -> swo lt l -> swo lt l'.
Proof. intros P. apply swo_incl. intros x. apply Permutation_in, Permutation_sym, P. Qed.

Lemma swo_asym {A} (lt : A -> A -> bool) l x y : swo lt l -> In x l -> In y l -> lt x y = true -> lt y x = false.
Proof.
  intros (H1 & H2 & _) Hx Hy E. destruct (lt y x) eqn:E2; auto.
  rewrite <- (H1 x Hx). symmetry. apply (H2 x y x); auto.
Qed.

(** the heap property for every index *)
Lemma is_heap_iff {A} (lt : A -> A -> bool) l : is_heap_b lt l = true <->
  forall i p c, (1 <= i)%nat -> nth_error l ((i - 1) / 2) = Some p -> nth_error l i = Some c -> lt p c = false.
Proof.
  unfold is_heap_b. rewrite forallb_forall. split.
  - intros H i p c Hi Ep Ec. assert (Hl : (i < length l)%nat) by (apply nth_error_Some; congruence).
    specialize (H i). rewrite Ep, Ec in H. apply negb_true_iff, H. apply in_seq. lia.
  - intros H i Hi. apply in_seq in Hi.
    destruct (nth_error l ((i - 1) / 2)) as [p|] eqn:Ep; auto.
    destruct (nth_error l i) as [c|] eqn:Ec; auto. apply negb_true_iff. apply (H i); auto; lia.
Qed.

(** no element of a heap is larger than the first *)
Lemma heap_front {A} (lt : A -> A -> bool) x l : swo lt (x :: l) -> is_heap_b lt (x :: l) = true ->
  forall y, In y (x :: l) -> lt x y = false.
Proof.
  intros Hs Hh y Hy. rewrite is_heap_iff in Hh.
  apply In_nth_error in Hy as [k Ek]. revert y Ek.
  induction k as [k IH] using (well_founded_induction lt_wf). intros y Ek.
  destruct k as [|k].
  - injection Ek as <-. apply Hs. left; auto.
  - assert (Hk : ((S k - 1) / 2 < S k)%nat).
    { apply Nat.le_lt_trans with k; [|lia]. replace (S k - 1)%nat with k by lia. apply Nat.div_le_upper_bound; lia. }
    destruct (nth_error (x :: l) ((S k - 1) / 2)) as [p|] eqn:Ep.
    + assert (Ip : In p (x :: l)) by (eapply nth_error_In; eauto).
      assert (Iy : In y (x :: l)) by (eapply nth_error_In; eauto).
      destruct Hs as (H1 & H2 & H3). apply (H3 x p y); auto; [left; auto| |].
      * apply (IH _ Hk p Ep).
      * apply (Hh (S k) p y); auto. lia.
    + apply nth_error_None in Ep. assert (S k < length (x :: l))%nat by (apply nth_error_Some; congruence). lia.
Qed.

(** ** calls whose preconditions hold *)
Section Calls.
Variable H : std_alg.
Hypothesis Hok : std_ok H.
Context {A : Type}.
Variable lt : A -> A -> bool.
Implicit Types (l : list A) (x : A).

Lemma make_heap_ok l : swo lt l -> exists l', make_heap H lt l = Ret l' /\ Permutation l l' /\ is_heap_b lt l' = true.
Proof.
  intros Hs. unfold make_heap. apply swo_b_iff in Hs. rewrite Hs.
  destruct (so_make H Hok A lt l Hs) as [P Hh]. eauto.
Qed.

Lemma push_heap_ok l x : swo lt (l ++ [x])%list -> is_heap_b lt l = true ->
  exists l', push_heap H lt (l ++ [x])%list = Ret l' /\ Permutation (x :: l) l' /\ is_heap_b lt l' = true.
Proof.
  intros Hs Hh. unfold push_heap. apply swo_b_iff in Hs. rewrite Hs, removelast_last, Hh. simpl.
  destruct (so_push H Hok A lt l x Hs Hh) as [P Hh']. eexists. split; [reflexivity|]. split; auto.
  eapply Permutation_trans; [|exact P]. apply Permutation_cons_append.
Qed.

Lemma pop_heap_ok x l : swo lt (x :: l) -> is_heap_b lt (x :: l) = true ->
  exists l', pop_heap H lt (x :: l) = Ret (l' ++ [x])%list /\ Permutation l l' /\ is_heap_b lt l' = true /\
    pop_back (l' ++ [x])%list = Ret l'.
Proof.
  intros Hs Hh. unfold pop_heap. apply swo_b_iff in Hs. rewrite Hs, Hh. simpl.
  destruct (so_pop H Hok A lt x l Hs Hh) as (l' & E & P & Hh'). rewrite E.
  exists l'. split; [reflexivity|]. split; auto. split; auto.
  unfold pop_back. destruct (l' ++ [x])%list eqn:E2; [destruct l'; discriminate|]. rewrite <- E2, removelast_last. reflexivity.
Qed.

(** sorted: no element is smaller than an earlier one *)
Definition sorted l : Prop := forall i j x y, (i < j)%nat -> nth_error l i = Some x -> nth_error l j = Some y -> lt y x = false.

Lemma sorted_adjacent l : swo lt l ->
  (forall i x y, nth_error l i = Some x -> nth_error l (S i) = Some y -> lt y x = false) -> sorted l.
Proof.
  intros (H1 & H2 & H3) Ha i j x y Hij Ex Ey. revert y Ey.
  induction Hij as [|j Hij IH]; intros y Ey; [apply (Ha i); auto|].
  destruct (nth_error l j) as [z|] eqn:Ez.
  - apply (H3 y z x); try (eapply nth_error_In; eauto; fail).
    + apply (Ha j); auto.
    + apply IH; auto.
  - apply nth_error_None in Ez. assert (S j < length l)%nat by (apply nth_error_Some; congruence). lia.
Qed.

Lemma sort_ok l : swo lt l -> exists l', sort H lt l = Ret l' /\ Permutation l l' /\ sorted l'.
Proof.
  intros Hs. unfold sort. pose proof Hs as Hb. apply swo_b_iff in Hb. rewrite Hb.
  destruct (so_sort H Hok A lt l Hb) as [P Ha]. eexists. split; [reflexivity|]. split; auto.
  apply sorted_adjacent; auto. eapply swo_perm; eauto.
Qed.
End Calls.

(** ** a concrete implementation: insertion sort, and descending lists as heaps *)
Section Insertion.
Context {A : Type}.
Variable lt : A -> A -> bool.

Fixpoint ins (x : A) (l : list A) : list A :=
  match l with
  | [] => [x]
  | y :: l' => if lt y x then y :: ins x l' else x :: l
  end.
Fixpoint isort (l : list A) : list A :=
  match l with [] => [] | x :: l' => ins x (isort l') end.

Lemma ins_perm x l : Permutation (x :: l) (ins x l).
Proof.
  induction l as [|y l IH]; simpl; auto. destruct (lt y x); auto.
  eapply Permutation_trans; [apply perm_swap|]. constructor. exact IH.
Qed.
Lemma isort_perm l : Permutation l (isort l).
Proof. induction l as [|x l IH]; simpl; auto. eapply Permutation_trans; [constructor; exact IH|apply ins_perm]. Qed.

Fixpoint lsorted (l : list A) : Prop :=
  match l with [] => True | x :: l' => (forall y, In y l' -> lt y x = false) /\ lsorted l' end.

Lemma ins_sorted x l : swo lt (x :: l) -> lsorted l -> lsorted (ins x l).
Proof.
  induction l as [|y l IH]; intros Hs Hl; simpl; [simpl; tauto|]. destruct Hl as [Hy Hl].
  destruct (lt y x) eqn:E.
  - split.
    + intros z Hz. apply (Permutation_in z (Permutation_sym (ins_perm x l))) in Hz. destruct Hz as [<-|Hz]; [|auto].
      apply (swo_asym lt (x :: y :: l) y x Hs); simpl; auto.
    + apply IH; auto. apply (swo_incl lt (x :: y :: l)); auto. simpl; tauto.
  - split; [|split; auto]. intros z [<-|Hz]; auto.
    destruct Hs as (_ & _ & H3). apply (H3 z y x); simpl; auto.
Qed.

Lemma isort_sorted l : swo lt l -> lsorted (isort l).
Proof.
  induction l as [|x l IH]; intros Hs; simpl; auto.
  assert (Hl : swo lt l) by (apply (swo_incl lt (x :: l)); auto; simpl; auto).
  apply ins_sorted; auto. apply (swo_perm lt (x :: l)); auto. constructor. apply isort_perm.
Qed.

Lemma lsorted_nth l : lsorted l -> forall i j x y, (i < j)%nat -> nth_error l i = Some x -> nth_error l j = Some y -> lt y x = false.
Proof.
  induction l as [|a l IH]; intros Hl i j x y Hij Ex Ey; [destruct i; discriminate|].
  destruct Hl as [Ha Hl]. destruct j as [|j]; [lia|]. destruct i as [|i].
  - injection Ex as <-. apply Ha. eapply nth_error_In; eauto.
  - apply (IH Hl i j x y); auto. lia.
Qed.
End Insertion.

Definition gt_of {A} (lt : A -> A -> bool) (x y : A) : bool := lt y x.

Lemma swo_gt {A} (lt : A -> A -> bool) l : swo lt l -> swo (gt_of lt) l.
Proof.
  intros (H1 & H2 & H3). unfold gt_of. split; [|split]; auto.
  - intros x y z Hx Hy Hz E1 E2. apply (H2 z y x); auto.
  - intros x y z Hx Hy Hz E1 E2. apply (H3 z y x); auto.
Qed.

Definition desc {A} (lt : A -> A -> bool) (l : list A) : list A := isort (gt_of lt) l.

Lemma desc_heap {A} (lt : A -> A -> bool) l : swo lt l -> Permutation l (desc lt l) /\ is_heap_b lt (desc lt l) = true.
Proof.
  intros Hs. split; [apply isort_perm|]. apply is_heap_iff. intros i p c Hi Ep Ec.
  apply (lsorted_nth (gt_of lt) (desc lt l)) with (i := ((i - 1) / 2)%nat) (j := i); auto.
  - apply isort_sorted, swo_gt, Hs.
  - apply Nat.le_lt_trans with (i - 1)%nat; [|lia]. apply Nat.div_le_upper_bound; lia.
Qed.

(** the simple implementation *)
Definition simple_alg : std_alg :=
  mkAlg (fun A lt l => desc lt l) (fun A lt l => desc lt l)
        (fun A lt l => match l with [] => [] | x :: l' => desc lt l' ++ [x] end)%list
        (fun A lt l => isort lt l).

Lemma simple_alg_ok : std_ok simple_alg.
Proof.
  constructor; simpl.
  - intros A lt l Hs. apply desc_heap, swo_b_iff, Hs.
  - intros A lt l x Hs _. apply desc_heap, swo_b_iff, Hs.
  - intros A lt x l Hs _. apply swo_b_iff in Hs.
    assert (Hl : swo lt l) by (apply (swo_incl lt (x :: l)); auto; simpl; auto).
    exists (desc lt l). split; [reflexivity|]. apply desc_heap, Hl.
  - intros A lt l Hs. apply swo_b_iff in Hs. split; [apply isort_perm|].
    intros i x y Ex Ey. apply (lsorted_nth lt (isort lt l) (isort_sorted lt l Hs) i (S i)); auto.
Qed.
