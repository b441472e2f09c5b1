(** Reasoning rules for the loops and arrays of Base.v. *)
From Verif Require Import Base.

(** invariant rule for [for] *)
Lemma for_n_inv {S} (P : Z -> S -> Prop) body n : forall i s,
  P i s ->
  (forall k s, i <= k < i + Z.of_nat n -> P k s -> exists s', body k s = Ret s' /\ P (k + 1) s') ->
  exists s', for_n n i body s = Ret s' /\ P (i + Z.of_nat n) s'.
Proof.
  induction n as [|n IH]; intros i s H0 Hs.
  - exists s. split; [reflexivity|]. replace (i + Z.of_nat 0) with i by lia. exact H0.
  - destruct (Hs i s ltac:(lia) H0) as (s1 & E1 & H1).
    destruct (IH (i + 1) s1 H1) as (s2 & E2 & H2).
    { intros k s' Hk. apply Hs. lia. }
    exists s2. split.
    + simpl. rewrite E1. exact E2.
    + replace (i + Z.of_nat (Datatypes.S n)) with (i + 1 + Z.of_nat n) by lia. exact H2.
Qed.

Lemma for_inv {S} (P : Z -> S -> Prop) body lo hi s :
  lo <= hi -> P lo s ->
  (forall k s, lo <= k < hi -> P k s -> exists s', body k s = Ret s' /\ P (k + 1) s') ->
  exists s', for_ lo hi body s = Ret s' /\ P hi s'.
Proof.
  intros Hle H0 Hs. unfold for_.
  destruct (for_n_inv P body (Z.to_nat (hi - lo)) lo s H0) as (s' & E & H).
  - intros k s1 Hk. apply Hs. lia.
  - exists s'. split; [exact E|]. replace hi with (lo + Z.of_nat (Z.to_nat (hi - lo))) by lia. exact H.
Qed.

Lemma for_empty {S : Type} lo hi body (s : S) : hi <= lo -> for_ lo hi body s = Ret s.
Proof. intros H. unfold for_. replace (Z.to_nat (hi - lo)) with O by lia. reflexivity. Qed.

(** invariant rule for [for] with [break] *)
Lemma forb_n_inv {S} (P : Z -> S -> Prop) (Q : Z -> S -> Prop) (body : Z -> S -> res (S * bool)) n : forall i s,
  P i s ->
  (forall k s, i <= k < i + Z.of_nat n -> P k s ->
     exists s' b, body k s = Ret (s', b) /\ if b then Q k s' else P (k + 1) s') ->
  exists s' b, forb_n n i body s = Ret (s', b) /\
    if b then exists k, i <= k < i + Z.of_nat n /\ Q k s' else P (i + Z.of_nat n) s'.
Proof.
  induction n as [|n IH]; intros i s H0 Hs.
  - exists s, false. split; [reflexivity|]. replace (i + Z.of_nat 0) with i by lia. exact H0.
  - destruct (Hs i s ltac:(lia) H0) as (s1 & b1 & E1 & H1).
    destruct b1.
    + exists s1, true. split; [simpl; rewrite E1; reflexivity|]. exists i. split; [lia|exact H1].
    + destruct (IH (i + 1) s1 H1) as (s2 & b2 & E2 & H2).
      { intros k s' Hk. apply Hs. lia. }
      exists s2, b2. split; [simpl; rewrite E1; exact E2|].
      destruct b2.
      * destruct H2 as (k & Hk & HQ). exists k. split; [lia|exact HQ].
      * replace (i + Z.of_nat (Datatypes.S n)) with (i + 1 + Z.of_nat n) by lia. exact H2.
Qed.

Lemma forb_inv {S} (P Q : Z -> S -> Prop) (body : Z -> S -> res (S * bool)) lo hi s :
  lo <= hi -> P lo s ->
  (forall k s, lo <= k < hi -> P k s ->
     exists s' b, body k s = Ret (s', b) /\ if b then Q k s' else P (k + 1) s') ->
  exists s' b, forb_ lo hi body s = Ret (s', b) /\
    if b then exists k, lo <= k < hi /\ Q k s' else P hi s'.
Proof.
  intros Hle H0 Hs. unfold forb_.
  destruct (forb_n_inv P Q body (Z.to_nat (hi - lo)) lo s H0) as (s' & b & E & H).
  - intros k s1 Hk. apply Hs. lia.
  - exists s', b. split; [exact E|].
    replace (lo + Z.of_nat (Z.to_nat (hi - lo))) with hi in H by lia. exact H.
Qed.

(** partial-correctness versions: nothing is claimed when the loop does not return *)
Lemma for_n_partial {S} (P : Z -> S -> Prop) body n : forall i s s',
  P i s -> (forall k s s', i <= k < i + Z.of_nat n -> P k s -> body k s = Ret s' -> P (k + 1) s') ->
  for_n n i body s = Ret s' -> P (i + Z.of_nat n) s'.
Proof.
  induction n as [|n IH]; intros i s s' H0 Hs E.
  - injection E as <-. replace (i + Z.of_nat 0) with i by lia. exact H0.
  - simpl in E. destruct (body i s) as [s1|e|u|] eqn:E1; try discriminate.
    replace (i + Z.of_nat (Datatypes.S n)) with (i + 1 + Z.of_nat n) by lia.
    apply (IH (i + 1) s1 s'); auto.
    + apply (Hs i s s1); auto. lia.
    + intros k s2 s3 Hk. apply Hs. lia.
Qed.

Lemma for_partial {S} (P : Z -> S -> Prop) body lo hi s s' :
  lo <= hi -> P lo s ->
  (forall k s s', lo <= k < hi -> P k s -> body k s = Ret s' -> P (k + 1) s') ->
  for_ lo hi body s = Ret s' -> P hi s'.
Proof.
  intros Hle H0 Hs E. replace hi with (lo + Z.of_nat (Z.to_nat (hi - lo))) by lia.
  apply (for_n_partial P body _ lo s s'); auto. intros k s1 s2 Hk. apply Hs. lia.
Qed.

Lemma forb_n_partial {S} (P Q : Z -> S -> Prop) (body : Z -> S -> res (S * bool)) n : forall i s s' b,
  P i s ->
  (forall k s s' b, i <= k < i + Z.of_nat n -> P k s -> body k s = Ret (s', b) ->
     if b then Q k s' else P (k + 1) s') ->
  forb_n n i body s = Ret (s', b) ->
  if b then exists k, i <= k < i + Z.of_nat n /\ Q k s' else P (i + Z.of_nat n) s'.
Proof.
  induction n as [|n IH]; intros i s s' b H0 Hs E.
  - injection E as <- <-. replace (i + Z.of_nat 0) with i by lia. exact H0.
  - simpl in E. destruct (body i s) as [[s1 b1]|e|u|] eqn:E1; try discriminate. simpl in E.
    pose proof (Hs i s s1 b1 ltac:(lia) H0 E1) as H1.
    destruct b1.
    + injection E as <- <-. exists i. split; [lia|exact H1].
    + replace (i + Z.of_nat (Datatypes.S n)) with (i + 1 + Z.of_nat n) by lia.
      assert (H2 := IH (i + 1) s1 s' b H1).
      assert (H3 : if b then exists k, i + 1 <= k < i + 1 + Z.of_nat n /\ Q k s'
                   else P (i + 1 + Z.of_nat n) s').
      { apply H2; auto. intros k s2 s3 b3 Hk. apply Hs. lia. }
      destruct b; auto. destruct H3 as (k & Hk & HQ). exists k. split; [lia|exact HQ].
Qed.

Lemma forb_partial {S} (P Q : Z -> S -> Prop) (body : Z -> S -> res (S * bool)) lo hi s s' b :
  lo <= hi -> P lo s ->
  (forall k s s' b, lo <= k < hi -> P k s -> body k s = Ret (s', b) ->
     if b then Q k s' else P (k + 1) s') ->
  forb_ lo hi body s = Ret (s', b) ->
  if b then exists k, lo <= k < hi /\ Q k s' else P hi s'.
Proof.
  intros Hle H0 Hs E.
  assert (H : if b then exists k, lo <= k < lo + Z.of_nat (Z.to_nat (hi - lo)) /\ Q k s'
              else P (lo + Z.of_nat (Z.to_nat (hi - lo))) s').
  { apply (forb_n_partial P Q body _ lo s s' b); auto. intros k s1 s2 b2 Hk. apply Hs. lia. }
  replace (lo + Z.of_nat (Z.to_nat (hi - lo))) with hi in H by lia. exact H.
Qed.

(** splitting a loop *)
Lemma for_n_app {S : Type} (body : Z -> S -> res S) n1 n2 : forall i (s : S),
  for_n (n1 + n2) i body s = (s' <- for_n n1 i body s ;; for_n n2 (i + Z.of_nat n1) body s').
Proof.
  induction n1 as [|n1 IH]; intros i s; simpl.
  - replace (i + 0) with i by lia. reflexivity.
  - destruct (body i s); simpl; auto. rewrite IH.
    replace (i + 1 + Z.of_nat n1) with (i + Z.pos (Pos.of_succ_nat n1)) by lia. reflexivity.
Qed.

(** arrays *)
Section Arrays.
Context {A : Type}.
Implicit Types (l : list A) (v : A).

Lemma aget_Ret l i v : aget l i = Ret v <-> 0 <= i /\ nth_error l (Z.to_nat i) = Some v.
Proof.
  unfold aget. destruct (Z.leb_spec 0 i).
  - destruct (nth_error l (Z.to_nat i)) eqn:E; split; intros H1; try discriminate.
    + injection H1 as <-. auto.
    + destruct H1 as [_ H1]. congruence.
    + destruct H1 as [_ H1]. congruence.
  - split; intros H1; [discriminate|lia].
Qed.

Lemma aget_nth l i d : 0 <= i < Z.of_nat (length l) -> aget l i = Ret (nth (Z.to_nat i) l d).
Proof.
  intros H. apply aget_Ret. split; [lia|]. apply nth_error_nth'. lia.
Qed.

Lemma aget_in l i : 0 <= i < Z.of_nat (length l) -> exists v, aget l i = Ret v.
Proof.
  intros H. destruct (nth_error l (Z.to_nat i)) eqn:E.
  - exists a. apply aget_Ret. auto with zarith.
  - apply nth_error_None in E. lia.
Qed.

Lemma aget_bound l i v : aget l i = Ret v -> 0 <= i < Z.of_nat (length l).
Proof.
  intros H. apply aget_Ret in H as [H1 H2].
  assert (Z.to_nat i < length l)%nat by (apply nth_error_Some; congruence). lia.
Qed.

Lemma aget_out l i : ~ (0 <= i < Z.of_nat (length l)) -> aget l i = UB OutOfBounds.
Proof.
  intros H. unfold aget. destruct (Z.leb_spec 0 i); auto.
  destruct (nth_error l (Z.to_nat i)) eqn:E; auto.
  assert (Z.to_nat i < length l)%nat by (apply nth_error_Some; congruence). lia.
Qed.

Lemma upd_length l n v : length (upd l n v) = length l.
Proof. revert n; induction l as [|x l IH]; intros [|n]; simpl; auto. Qed.

Lemma nth_error_upd l n k v :
  nth_error (upd l n v) k = if Nat.eqb n k then (if Nat.ltb n (length l) then Some v else None)
                            else nth_error l k.
Proof.
  revert n k; induction l as [|x l IH]; intros [|n] [|k]; simpl; auto.
  - destruct (Nat.eqb n k) eqn:E; auto.
  - rewrite IH. destruct (Nat.eqb n k) eqn:E; auto.
Qed.

Lemma aset_Ret l i v l' : aset l i v = Ret l' <->
  0 <= i < Z.of_nat (length l) /\ l' = upd l (Z.to_nat i) v.
Proof.
  unfold aset. destruct (Z.leb_spec 0 i), (Z.ltb_spec i (Z.of_nat (length l))); simpl;
    split; intros H1; try discriminate; try lia.
  - injection H1 as <-. auto.
  - destruct H1 as [_ ->]. reflexivity.
Qed.

Lemma aset_in l i v : 0 <= i < Z.of_nat (length l) -> aset l i v = Ret (upd l (Z.to_nat i) v).
Proof. intros H; apply aset_Ret; auto. Qed.

Lemma aset_out l i v : ~ (0 <= i < Z.of_nat (length l)) -> aset l i v = UB OutOfBounds.
Proof.
  intros H; unfold aset. destruct (Z.leb_spec 0 i), (Z.ltb_spec i (Z.of_nat (length l))); simpl; auto. lia.
Qed.

Lemma aget_upd_same l i v : 0 <= i < Z.of_nat (length l) -> aget (upd l (Z.to_nat i) v) i = Ret v.
Proof.
  intros H. apply aget_Ret. split; [lia|]. rewrite nth_error_upd, Nat.eqb_refl.
  destruct (Nat.ltb_spec (Z.to_nat i) (length l)); auto. lia.
Qed.

Lemma aget_upd_other l i k v : 0 <= i -> i <> k -> aget (upd l (Z.to_nat i) v) k = aget l k.
Proof.
  intros H Hk. unfold aget. destruct (Z.leb_spec 0 k); auto. rewrite nth_error_upd.
  destruct (Nat.eqb_spec (Z.to_nat i) (Z.to_nat k)); auto. lia.
Qed.

End Arrays.

(** matrices of a given shape *)
Definition shape {A} (m n : Z) (M : list (list A)) : Prop :=
  Z.of_nat (length M) = m /\ Forall (fun row => Z.of_nat (length row) = n) M.

Section Mat.
Context {A : Type}.
Implicit Types (M : list (list A)) (v : A).

Lemma shape_mat m n v : 0 <= m -> 0 <= n -> shape m n (mat m n v).
Proof.
  intros Hm Hn. split; unfold mat.
  - rewrite repeat_length. lia.
  - apply Forall_forall. intros row Hr. apply repeat_spec in Hr. subst. rewrite repeat_length. lia.
Qed.

Lemma nth_error_repeat_lt (v : A) n k : (k < n)%nat -> nth_error (repeat v n) k = Some v.
Proof. revert k; induction n; intros [|k] H; simpl; try lia; auto. apply IHn. lia. Qed.

Lemma mget_mat m n v i j : 0 <= i < m -> 0 <= j < n -> mget (mat m n v) i j = Ret v.
Proof.
  intros Hi Hj. unfold mget, mat.
  assert (E : aget (repeat (repeat v (Z.to_nat n)) (Z.to_nat m)) i = Ret (repeat v (Z.to_nat n))).
  { apply aget_Ret. split; [lia|].
    revert Hi. generalize (repeat v (Z.to_nat n)) as x. intros x Hi.
    assert (Hk : (Z.to_nat i < Z.to_nat m)%nat) by lia. revert Hk.
    generalize (Z.to_nat i) as k, (Z.to_nat m) as p. induction k; intros [|p] Hk; simpl; try lia; auto.
    apply IHk; lia. }
  rewrite E. simpl. apply aget_Ret. split; [lia|]. apply nth_error_repeat_lt. lia.
Qed.

Lemma shape_row m n M i row : shape m n M -> aget M i = Ret row -> Z.of_nat (length row) = n.
Proof.
  intros [_ H] E. apply aget_Ret in E as [_ E]. apply nth_error_In in E.
  rewrite Forall_forall in H. auto.
Qed.

Lemma mget_in m n M i j : shape m n M -> 0 <= i < m -> 0 <= j < n -> exists v, mget M i j = Ret v.
Proof.
  intros Hs Hi Hj. destruct (aget_in M i) as [row E]; [destruct Hs; lia|].
  unfold mget. rewrite E. simpl. apply aget_in. rewrite (shape_row m n M i row Hs E). lia.
Qed.

Lemma mget_bound m n M i j v : shape m n M -> mget M i j = Ret v -> 0 <= i < m /\ 0 <= j < n.
Proof.
  intros Hs H. unfold mget in H. destruct (aget M i) as [row| | |] eqn:E; try discriminate.
  simpl in H. apply aget_bound in H. pose proof (shape_row m n M i row Hs E).
  apply aget_bound in E. destruct Hs as [Hl _]. lia.
Qed.

Lemma Forall_upd (P : list A -> Prop) l n row : Forall P l -> P row -> Forall P (upd l n row).
Proof.
  revert n; induction l as [|x l IH]; intros n Hl Hr; destruct n; simpl; auto;
    inversion Hl; subst; constructor; auto.
Qed.

Lemma mset_ok m n M i j v : shape m n M -> 0 <= i < m -> 0 <= j < n ->
  exists M', mset M i j v = Ret M' /\ shape m n M' /\ mget M' i j = Ret v /\
    (forall i' j', (i', j') <> (i, j) -> mget M' i' j' = mget M i' j').
Proof.
  intros Hs Hi Hj. destruct (aget_in M i) as [row E]; [destruct Hs; lia|].
  pose proof (shape_row m n M i row Hs E) as Hrow.
  unfold mset. rewrite E. simpl. rewrite aset_in by lia. simpl.
  rewrite aset_in by (destruct Hs; lia).
  eexists. split; [reflexivity|]. split; [|split].
  - destruct Hs as [Hl Hf]. split; [rewrite upd_length; exact Hl|].
    apply Forall_upd; auto. rewrite upd_length. exact Hrow.
  - unfold mget. rewrite aget_upd_same by (destruct Hs; lia). simpl. apply aget_upd_same. lia.
  - intros i' j' Hne. unfold mget. destruct (Z.eq_dec i i') as [->|Hne'].
    + rewrite aget_upd_same by (destruct Hs; lia). rewrite E. simpl.
      apply aget_upd_other; [lia|]. congruence.
    + rewrite aget_upd_other by lia. reflexivity.
Qed.
End Mat.

(** monad *)
Lemma bind_Ret {A B} (x : res A) (f : A -> res B) b :
  bind x f = Ret b -> exists a, x = Ret a /\ f a = Ret b.
Proof. destruct x; simpl; intros; try discriminate; eauto. Qed.

(** split conjunctions without unfolding definitions *)
Ltac splits := repeat match goal with |- _ /\ _ => split end.

(** two loops whose bodies agree in the states that occur *)
Lemma for_n_ext_inv {S} (P : Z -> S -> Prop) (b1 b2 : Z -> S -> res S) n : forall i s, P i s ->
  (forall k s, i <= k < i + Z.of_nat n -> P k s -> b1 k s = b2 k s /\ forall s', b1 k s = Ret s' -> P (k + 1) s') ->
  for_n n i b1 s = for_n n i b2 s /\ forall s', for_n n i b1 s = Ret s' -> P (i + Z.of_nat n) s'.
Proof.
  induction n as [|n IH]; intros i s Hp H; cbn [for_n].
  - split; [reflexivity|]. intros s' E. injection E as <-. rewrite Z.add_0_r. exact Hp.
  - destruct (H i s ltac:(lia) Hp) as [E1 E2]. rewrite <- E1.
    destruct (b1 i s) as [s1| | |]; cbn [bind]; try (split; [reflexivity|intros; discriminate]).
    destruct (IH (i + 1) s1 (E2 _ eq_refl)) as [A B]; [intros; apply H; auto; lia|]. split; [exact A|].
    intros s' E. replace (i + Z.of_nat (Datatypes.S n)) with (i + 1 + Z.of_nat n) by lia. auto.
Qed.

Lemma for_ext_inv {S} (P : Z -> S -> Prop) (b1 b2 : Z -> S -> res S) lo hi s : P lo s ->
  (forall k s, lo <= k < hi -> P k s -> b1 k s = b2 k s /\ forall s', b1 k s = Ret s' -> P (k + 1) s') ->
  for_ lo hi b1 s = for_ lo hi b2 s /\ forall s', for_ lo hi b1 s = Ret s' -> P (Z.max lo hi) s'.
Proof.
  intros Hp H. unfold for_.
  destruct (for_n_ext_inv P b1 b2 (Z.to_nat (hi - lo)) lo s Hp) as [A B]; [intros; apply H; auto; lia|].
  split; [exact A|]. intros s' E. replace (Z.max lo hi) with (lo + Z.of_nat (Z.to_nat (hi - lo))) by lia. auto.
Qed.
