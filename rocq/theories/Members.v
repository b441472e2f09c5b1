(** The member lists of groups: singly linked lists threaded through one array
    shared by all groups of a length. *)
From Verif Require Import Base Num NumFacts LoopFacts TimeSeries TSSet StdAlg Candidate Group DataProofs.

(** position of a coordinate in the array *)
Definition posc (sub : Z) (c : coord) : Z := fst c * sub + snd c.
(** coordinates with a position of their own in an array for [count] series *)
Definition inb (count sub : Z) (c : coord) : Prop := 0 <= fst c < count /\ 0 <= snd c < sub.

Lemma posc_range count sub c : inb count sub c -> 0 <= posc sub c < count * sub.
Proof. intros [H1 H2]. unfold posc. nia. Qed.

Lemma member_pos_ok count sub c : inb count sub c -> count * sub <= int_max ->
  member_pos sub (fst c) (snd c) = Ret (posc sub c).
Proof.
  intros H Hx. pose proof (posc_range _ _ _ H) as Hp. destruct H as [H1 H2]. unfold posc in *.
  unfold member_pos. rewrite imul_ok by (unfold int_min; nia). cbn [bind]. apply iadd_ok. unfold int_min. lia.
Qed.

Lemma posc_inj count sub c c' : inb count sub c -> inb count sub c' -> posc sub c = posc sub c' -> c = c'.
Proof.
  destruct c as [i s], c' as [i' s']. unfold inb, posc; simpl. intros [H1 H2] [H3 H4] E.
  assert (i = i') by nia. subst. f_equal. lia.
Qed.

(** [ms] (most recent first) is threaded through [mm], starting at [last] *)
Fixpoint linked (sub : Z) (mm : mmap) (last : coord) (ms : list coord) : Prop :=
  match ms with
  | [] => last = (-1, -1)
  | m :: ms' => last = m /\ exists prev, aget mm (posc sub m) = Ret prev /\ linked sub mm prev ms'
  end.

Lemma walk_n_linked {S} count sub mm (body : Z -> Z -> S -> res S) : count * sub <= int_max -> forall ms fuel cur s,
  linked sub mm cur ms -> Forall (inb count sub) ms -> (length ms <= fuel)%nat ->
  walk_n sub mm fuel cur body s = fold_res (fun c => body (fst c) (snd c)) ms s.
Proof.
  intros Hx. induction ms as [|m ms IH]; intros fuel cur s Hl Hf Hn; simpl in Hl.
  - subst cur. destruct fuel; reflexivity.
  - destruct Hl as [-> (prev & Ep & Hl)]. inversion Hf as [|? ? Hm Hf']; subst.
    destruct fuel as [|fuel]; [simpl in Hn; lia|]. simpl.
    destruct (Z.eqb_spec (fst m) (-1)); [destruct Hm; lia|].
    destruct (body (fst m) (snd m) s) as [s'| | |]; simpl; auto.
    rewrite (member_pos_ok count) by auto. cbn [bind]. rewrite Ep. simpl. apply IH; auto. simpl in Hn; lia.
Qed.

Lemma NoDup_map_inj {A B} (f : A -> B) l : (forall x y, In x l -> In y l -> f x = f y -> x = y) ->
  NoDup l -> NoDup (map f l).
Proof.
  induction l as [|x l IH]; intros Hi Hn; simpl; constructor; inversion Hn as [|? ? Hx Hn']; subst.
  - intros Hin. apply in_map_iff in Hin as (y & E & Hy). apply Hx.
    assert (y = x) by (apply Hi; simpl; auto). subst; auto.
  - apply IH; auto. intros a b Ha Hb. apply Hi; simpl; auto.
Qed.

(** distinct members with positions in the array are not more than the array has entries *)
Lemma members_fit count sub (mm : mmap) ms : Z.of_nat (length mm) = count * sub ->
  Forall (inb count sub) ms -> NoDup ms -> (length ms <= length mm)%nat.
Proof.
  intros El Hf Hn. rewrite Forall_forall in Hf.
  assert (Hn' : NoDup (map (posc sub) ms)).
  { apply NoDup_map_inj; auto. intros x y Hx Hy. apply (posc_inj count); auto. }
  assert (Hi : incl (map (posc sub) ms) (zseq 0 (length mm))).
  { intros p Hp. apply in_map_iff in Hp as (c & <- & Hc). apply zseq_In.
    pose proof (posc_range count sub c (Hf c Hc)). lia. }
  apply NoDup_incl_length in Hi; auto. rewrite map_length, zseq_length in Hi. exact Hi.
Qed.

Lemma walk_linked {S} count sub mm (body : Z -> Z -> S -> res S) ms cur s :
  linked sub mm cur ms -> Z.of_nat (length mm) = count * sub /\ count * sub <= int_max ->
  Forall (inb count sub) ms -> NoDup ms ->
  walk sub mm cur body s = fold_res (fun c => body (fst c) (snd c)) ms s.
Proof.
  intros Hl [El Hx] Hf Hn. apply (walk_n_linked count); auto. eapply members_fit; eauto.
Qed.

(** writing at a position of none of the members *)
Lemma linked_upd count sub (mm : mmap) c v : inb count sub c -> forall ms last,
  linked sub mm last ms -> Forall (inb count sub) ms -> ~ In c ms ->
  linked sub (upd mm (Z.to_nat (posc sub c)) v) last ms.
Proof.
  intros Hc. induction ms as [|m ms IH]; intros last Hl Hf Hni; simpl in *; auto.
  destruct Hl as [-> (prev & Ep & Hl)]. inversion Hf as [|? ? Hm Hf']; subst. split; auto.
  exists prev. split.
  - rewrite aget_upd_other; auto; [apply (posc_range count sub c Hc)|].
    intros E. apply Hni. left. symmetry. apply (posc_inj count sub); auto.
  - apply IH; auto.
Qed.

(** a fold that appends the mapped elements *)
Lemma fold_res_collect {A B} (f : A -> res B) : forall l acc,
  (forall x, In x l -> exists y, f x = Ret y) ->
  exists ys, fold_res (fun x acc => y <- f x ;; Ret (acc ++ [y])%list) l acc = Ret (acc ++ ys)%list /\
    Forall2 (fun x y => f x = Ret y) l ys.
Proof.
  induction l as [|x l IH]; intros acc H; simpl.
  - exists []. rewrite app_nil_r. split; [reflexivity|constructor].
  - destruct (H x) as [y Ey]; [left; auto|]. rewrite Ey. simpl.
    destruct (IH (acc ++ [y])%list) as (ys & E & F); [intros; apply H; right; auto|].
    exists (y :: ys). rewrite E, <- app_assoc. split; [reflexivity|constructor; auto].
Qed.

Lemma fold_res_append {A} : forall (l acc : list A),
  fold_res (fun x acc => Ret (acc ++ [x])%list) l acc = Ret (acc ++ l)%list.
Proof.
  induction l as [|x l IH]; intros acc; simpl; [rewrite app_nil_r; reflexivity|].
  rewrite IH, <- app_assoc. reflexivity.
Qed.

Section Rep.
Context {N : Num}.
Notation D := (D N).

(** a group object stands for the member list [ms] with representative [r] *)
Definition group_is (sub : Z) (mm : mmap) (g : group N) (ms : list coord) : Prop :=
  linked sub mm (g_last g) ms /\ g_count g = Z.of_nat (length ms).

(** all groups of a length: member lists [gs], sharing the array *)
Definition groups_are (count sub : Z) (mm : mmap) (groups : list (group N)) (gs : list (list coord)) : Prop :=
  Forall2 (group_is sub mm) groups gs /\
  (Z.of_nat (length mm) = count * sub /\ count * sub <= int_max) /\
  NoDup (concat gs) /\ Forall (inb count sub) (concat gs).

Lemma Forall2_length {A B} (R : A -> B -> Prop) l l' : Forall2 R l l' -> length l = length l'.
Proof. induction 1; simpl; auto. Qed.

Lemma Forall2_nth {A B} (R : A -> B -> Prop) l l' k x y : Forall2 R l l' ->
  nth_error l k = Some x -> nth_error l' k = Some y -> R x y.
Proof.
  intros H. revert k. induction H; intros [|k] E1 E2; try discriminate; simpl in *.
  - congruence.
  - eauto.
Qed.

Lemma Forall2_nth_ex {A B} (R : A -> B -> Prop) l l' k x : Forall2 R l l' ->
  nth_error l k = Some x -> exists y, nth_error l' k = Some y /\ R x y.
Proof.
  intros H. revert k. induction H; intros [|k] E1; try discriminate; simpl in *.
  - injection E1 as <-. eauto.
  - eauto.
Qed.

Lemma Forall2_nth_ex_r {A B} (R : A -> B -> Prop) l l' k y : Forall2 R l l' ->
  nth_error l' k = Some y -> exists x, nth_error l k = Some x /\ R x y.
Proof.
  intros H. revert k. induction H; intros [|k] E1; try discriminate; simpl in *.
  - injection E1 as <-. eauto.
  - eauto.
Qed.

Lemma nth_error_upd_eq {A} (l : list A) n v k :
  nth_error (upd l n v) k = if (k =? n)%nat then (if (n <? length l)%nat then Some v else None) else nth_error l k.
Proof.
  revert n k. induction l as [|x l IH]; intros [|n] [|k]; simpl; auto.
  - destruct (k =? n)%nat; auto.
  - rewrite IH. destruct (Nat.eqb_spec k n); auto.
Qed.

Lemma concat_upd_perm {A} (gs : list (list A)) k g c : nth_error gs k = Some g ->
  Permutation.Permutation (c :: concat gs) (concat (upd gs k (c :: g))).
Proof.
  revert k. induction gs as [|g0 gs IH]; intros [|k] E; try discriminate; simpl in *.
  - injection E as ->. auto.
  - eapply Permutation.perm_trans; [|apply Permutation.Permutation_app_head, IH; eauto].
    apply Permutation.Permutation_middle.
Qed.

Lemma concat_snoc {A} (gs : list (list A)) c : concat (gs ++ [[c]]) = (concat gs ++ [c])%list.
Proof. rewrite concat_app. simpl. reflexivity. Qed.

Lemma In_concat {A} (gs : list (list A)) k g x : nth_error gs k = Some g -> In x g -> In x (concat gs).
Proof. intros E Hx. apply in_concat. exists g. split; auto. eapply nth_error_In; eauto. Qed.

Lemma groups_wf count sub mm groups gs k g : groups_are count sub mm groups gs -> nth_error gs k = Some g ->
  NoDup g /\ Forall (inb count sub) g.
Proof.
  intros (_ & _ & Hn & Hf) Ek. split.
  - apply nth_error_split in Ek as (l1 & l2 & -> & _). rewrite concat_app in Hn. simpl in Hn.
    clear - Hn. induction (concat l1) as [|x l IH]; simpl in Hn.
    + induction g as [|y g IHg]; simpl in *; constructor; inversion Hn; subst.
      * intros Hi. apply H1. apply in_or_app. auto.
      * apply IHg; auto.
    + inversion Hn; auto.
  - rewrite Forall_forall in *. intros x Hx. apply Hf. eapply In_concat; eauto.
Qed.

(** Group::addMember on group [k] *)
Lemma addMember_ok count sub mm groups gs k g ms c :
  groups_are count sub mm groups gs -> nth_error groups k = Some g -> nth_error gs k = Some ms ->
  inb count sub c -> ~ In c (concat gs) ->
  exists mm', addMember sub g mm (fst c) (snd c)
      = Ret (mkGroup (g_cent g) (g_cache g) c (g_count g + 1), mm') /\
    groups_are count sub mm' (upd groups k (mkGroup (g_cent g) (g_cache g) c (g_count g + 1))) (upd gs k (c :: ms)).
Proof.
  intros (HF & El & Hn & Hf) Eg Em Hc Hni.
  pose proof (posc_range count sub c Hc) as Hp.
  exists (upd mm (Z.to_nat (posc sub c)) (g_last g)). split.
  - unfold addMember. rewrite (member_pos_ok count) by (auto; apply El). cbn [bind]. rewrite aset_in by lia. simpl. destruct c; reflexivity.
  - assert (Hg : group_is sub mm g ms) by (eapply Forall2_nth; eauto).
    assert (HP := concat_upd_perm gs k ms c Em).
    split; [|split; [|split]].
    + assert (Hall : forall j gj mj, nth_error groups j = Some gj -> nth_error gs j = Some mj ->
         group_is sub (upd mm (Z.to_nat (posc sub c)) (g_last g)) gj mj).
      { intros j gj mj E1 E2. assert (Hj : group_is sub mm gj mj) by (eapply Forall2_nth; eauto).
        destruct Hj as [Hj1 Hj2]. split; auto. apply (linked_upd count); auto.
        - rewrite Forall_forall in *. intros x Hx. apply Hf. eapply In_concat; eauto.
        - intros Hx. apply Hni. eapply In_concat; eauto. }
      apply Forall2_length in HF as Hlen.
      assert (Hk : (k < length groups)%nat) by (apply nth_error_Some; congruence).
      clear - Hall Eg Em Hlen Hg Hp El Hk.
      assert (Hnew : group_is sub (upd mm (Z.to_nat (posc sub c)) (g_last g))
                (mkGroup (g_cent g) (g_cache g) c (g_count g + 1)) (c :: ms)).
      { destruct (Hall k g ms Eg Em) as [A1 A2]. split; simpl.
        - split; auto. exists (g_last g). split; auto. apply aget_upd_same. lia.
        - rewrite A2. lia. }
      revert Hall Hnew. generalize (group_is sub (upd mm (Z.to_nat (posc sub c)) (g_last g))) as R.
      generalize (mkGroup (g_cent g) (g_cache g) c (g_count g + 1)) as g1. generalize (c :: ms) as m1.
      clear - Hlen. revert k gs Hlen. induction groups as [|g0 groups IH]; intros k [|m0 gs] Hl m1 g1 R Hall Hnew; try discriminate.
      * constructor.
      * destruct k as [|k]; simpl; constructor; auto.
        -- assert (E : forall gs groups, length groups = length gs ->
              (forall j (gj : group N) (mj : list coord), nth_error groups j = Some gj -> nth_error gs j = Some mj -> R gj mj) ->
              Forall2 R groups gs).
           { clear. induction gs as [|m gs IH]; intros [|g groups] Hl H; try discriminate; constructor.
             - apply (H O); reflexivity.
             - apply IH; auto. intros j. apply (H (S j)). }
           apply E; auto. intros j. apply (Hall (S j)).
        -- apply (Hall O); reflexivity.
        -- apply IH; auto. intros j. apply (Hall (S j)).
    + rewrite upd_length. exact El.
    + eapply Permutation.Permutation_NoDup; [exact HP|]. constructor; auto.
    + rewrite Forall_forall in *. intros x Hx.
      apply (Permutation.Permutation_in x (Permutation.Permutation_sym HP)) in Hx as [<-|Hx]; auto.
Qed.

(** enumerating the members of a group *)
Lemma memberCoords_ok count sub mm groups gs k g ms : groups_are count sub mm groups gs ->
  nth_error groups k = Some g -> nth_error gs k = Some ms -> memberCoords sub mm g = Ret ms.
Proof.
  intros H Eg Em. destruct (groups_wf _ _ _ _ _ _ _ H Em) as [Hn Hf].
  destruct H as (HF & El & _). destruct (Forall2_nth _ _ _ _ _ _ HF Eg Em) as [Hl _].
  unfold memberCoords. rewrite (walk_linked count sub mm _ ms) by auto.
  rewrite (fold_res_ext _ (fun c acc => Ret (acc ++ [c])%list)).
  - apply fold_res_append.
  - intros [i s] acc _. reflexivity.
Qed.

Lemma walk_group {S} count sub mm groups gs k g ms (body : Z -> Z -> S -> res S) s : groups_are count sub mm groups gs ->
  nth_error groups k = Some g -> nth_error gs k = Some ms ->
  walk sub mm (g_last g) body s = fold_res (fun c => body (fst c) (snd c)) ms s.
Proof.
  intros H Eg Em. destruct (groups_wf _ _ _ _ _ _ _ H Em) as [Hn Hf].
  destruct H as (HF & El & _). destruct (Forall2_nth _ _ _ _ _ _ HF Eg Em) as [Hl _].
  apply (walk_linked count); auto.
Qed.

(** appending an empty group *)
Lemma groups_snoc count sub mm groups gs (g : group N) : groups_are count sub mm groups gs ->
  g_last g = (-1, -1) -> g_count g = 0 ->
  groups_are count sub mm (groups ++ [g])%list (gs ++ [[]])%list.
Proof.
  intros (HF & El & Hn & Hf) E1 E2.
  assert (Ec : concat (gs ++ [[]]) = concat gs) by (rewrite concat_app; simpl; apply app_nil_r).
  split; [|split; [auto|rewrite Ec; auto]].
  apply Forall2_app; auto. constructor; [|constructor]. split; auto.
Qed.
End Rep.
