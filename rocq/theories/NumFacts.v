(** Derived facts about numbers, from the laws of NumLaws.v. *)
From Verif Require Import Base Num NumLaws.

(** arithmetic on [int] *)
Lemma icheck_ok z : int_min <= z <= int_max -> icheck z = Ret z.
Proof. intros H. unfold icheck. destruct (Z.leb_spec int_min z); [|lia]. destruct (Z.leb_spec z int_max); [reflexivity|lia]. Qed.
Lemma imul_ok a b : int_min <= a * b <= int_max -> imul a b = Ret (a * b).
Proof. apply icheck_ok. Qed.
Lemma iadd_ok a b : int_min <= a + b <= int_max -> iadd a b = Ret (a + b).
Proof. apply icheck_ok. Qed.
Lemma isub_ok a b : int_min <= a - b <= int_max -> isub a b = Ret (a - b).
Proof. apply icheck_ok. Qed.
Lemma icheck_inv z a : icheck z = Ret a -> a = z /\ int_min <= z <= int_max.
Proof.
  unfold icheck. destruct (Z.leb_spec int_min z); [|discriminate]. destruct (Z.leb_spec z int_max); [|discriminate].
  intros E. injection E as <-. auto.
Qed.

Section Facts.
Context {N : Num} {L : NumLaws N}.
Notation D := (D N).
Implicit Types x y z : D.

Lemma nlt_nn_l x y : nlt x y -> nn x. Proof. apply lw_lt_nn. Qed.
Lemma nlt_nn_r x y : nlt x y -> nn y. Proof. apply lw_lt_nn. Qed.
Lemma nle_nn_l x y : nle x y -> nn x. Proof. intros H; apply H. Qed.
Lemma nle_nn_r x y : nle x y -> nn y. Proof. intros H; apply H. Qed.
Lemma nle_ltb x y : nle x y -> nltb y x = false. Proof. intros H; apply H. Qed.

Lemma nlt_irrefl x : ~ nlt x x.
Proof. unfold nlt; rewrite lw_irrefl; discriminate. Qed.

Lemma nlt_trans x y z : nlt x y -> nlt y z -> nlt x z.
Proof. apply lw_trans. Qed.

Lemma nlt_asym x y : nlt x y -> nltb y x = false.
Proof.
  intros H. destruct (nltb y x) eqn:E; auto.
  exfalso. apply (nlt_irrefl x). eapply nlt_trans; eauto.
Qed.

Lemma nlt_le x y : nlt x y -> nle x y.
Proof. intros H. repeat split; [eapply nlt_nn_l|eapply nlt_nn_r|apply nlt_asym]; eauto. Qed.

Lemma nle_refl x : nn x -> nle x x.
Proof. intros H. repeat split; auto. apply lw_irrefl. Qed.

Lemma nltb_false_le x y : nn x -> nn y -> nltb x y = false -> nle y x.
Proof. intros; repeat split; auto. Qed.

Lemma nle_or_lt x y : nn x -> nn y -> nle x y \/ nlt y x.
Proof.
  intros Hx Hy. destruct (nltb y x) eqn:E; [right; exact E|left; repeat split; auto].
Qed.

Lemma nle_trans x y z : nle x y -> nle y z -> nle x z.
Proof.
  intros (Hx & Hy & H1) (_ & Hz & H2). repeat split; auto.
  destruct (nltb z x) eqn:E; auto.
  destruct (lw_cotrans z y x Hz Hy Hx E) as [H|H]; congruence.
Qed.

Lemma nlt_le_trans x y z : nlt x y -> nle y z -> nlt x z.
Proof.
  intros H1 H2. pose proof (nlt_nn_l _ _ H1) as Hx. destruct H2 as (Hy & Hz & H2).
  unfold nlt in *. destruct (lw_cotrans x z y Hx Hz Hy H1) as [H|H]; auto. congruence.
Qed.

Lemma nle_lt_trans x y z : nle x y -> nlt y z -> nlt x z.
Proof.
  intros H1 H2. pose proof (nlt_nn_r _ _ H2) as Hz. destruct H1 as (Hx & Hy & H1).
  unfold nlt in *. destruct (lw_cotrans y x z Hy Hx Hz H2) as [H|H]; auto. congruence.
Qed.

Lemma nle_not_lt x y : nle x y -> ~ nlt y x.
Proof. intros (_&_&H) H'. unfold nlt in H'; congruence. Qed.

Lemma neqv_refl x : nn x -> neqv x x.
Proof. intros; split; apply nle_refl; auto. Qed.
Lemma neqv_sym x y : neqv x y -> neqv y x.
Proof. intros [? ?]; split; auto. Qed.
Lemma neqv_trans x y z : neqv x y -> neqv y z -> neqv x z.
Proof. intros [? ?] [? ?]; split; eapply nle_trans; eauto. Qed.

Lemma nltb_eqv x x' y y' : neqv x x' -> neqv y y' -> nltb x y = nltb x' y'.
Proof.
  intros [H1 H2] [H3 H4]. destruct (nltb x y) eqn:E, (nltb x' y') eqn:E'; auto.
  - rewrite <- E'. symmetry. eapply nle_lt_trans; [apply H2|]. eapply nlt_le_trans; [exact E|]. apply H3.
  - rewrite <- E. eapply nle_lt_trans; [apply H1|]. eapply nlt_le_trans; [exact E'|]. apply H4.
Qed.

Lemma neqb_true x y : neqb x y = true -> neqv x y.
Proof. intros H; apply lw_eqb in H as (?&?&?&?). repeat split; auto. Qed.
Lemma neqb_of_eqv x y : neqv x y -> neqb x y = true.
Proof. intros [(?&?&?) (?&?&?)]. apply lw_eqb; auto. Qed.
Lemma neqb_false_lt x y : nn x -> nn y -> neqb x y = false -> nlt x y \/ nlt y x.
Proof.
  intros Hx Hy H. destruct (nle_or_lt x y Hx Hy) as [H1|H1]; auto.
  destruct (nle_or_lt y x Hy Hx) as [H2|H2]; auto.
  exfalso. assert (neqb x y = true) by (apply neqb_of_eqv; split; auto). congruence.
Qed.

Lemma nfin_nn x : nfin x -> nn x.
Proof. intros [H _]. apply (nlt_nn_r _ _ H). Qed.
Lemma nfin_lt_inf x : nfin x -> nlt x ninf.
Proof. intros [_ H]; exact H. Qed.

Lemma nle_inf x : nn x -> nle x ninf.
Proof. intros H; repeat split; auto using lw_inf_nn. apply lw_inf_top. Qed.
Lemma ninf_le x : nn x -> nle nninf x.
Proof. intros H; repeat split; auto using lw_ninf_nn. apply lw_ninf_bot. Qed.

Lemma ofZ_nn k : nn (@nofZ N k).
Proof. apply (lw_ofZ_le k k). lia. Qed.

Lemma n0_fin : nfin (@n0 N).
Proof. apply lw_ofZ_fin. simpl; lia. Qed.
Lemma n0_nn : nn (@n0 N).
Proof. apply ofZ_nn. Qed.

Lemma nfin_between x y z : nfin x -> nfin z -> nle x y -> nle y z -> nfin y.
Proof.
  intros [H1 _] [_ H2] H3 H4. split.
  - apply (nlt_le_trans _ _ _ H1 H3).
  - apply (nle_lt_trans _ _ _ H4 H2).
Qed.

(** a value at least 0 and below INF is finite *)
Lemma nfin_pos x : nle n0 x -> nlt x ninf -> nfin x.
Proof.
  intros H1 H2. split; [|exact H2]. destruct n0_fin as [H _].
  apply (nlt_le_trans _ _ _ H H1).
Qed.

(* min and max *)
Lemma nmin_cases x y : nmin x y = x \/ nmin x y = y.
Proof. unfold nmin; destruct (nltb y x); auto. Qed.
Lemma nmax_cases x y : nmax x y = x \/ nmax x y = y.
Proof. unfold nmax; destruct (nltb x y); auto. Qed.
Lemma nmin_l x y : nn x -> nn y -> nle (nmin x y) x.
Proof.
  intros; unfold nmin; destruct (nltb y x) eqn:E; [apply nlt_le, E|apply nle_refl; auto].
Qed.
Lemma nmin_r x y : nn x -> nn y -> nle (nmin x y) y.
Proof.
  intros; unfold nmin; destruct (nltb y x) eqn:E; [apply nle_refl; auto|apply nltb_false_le; auto].
Qed.
Lemma nmax_l x y : nn x -> nn y -> nle x (nmax x y).
Proof.
  intros; unfold nmax; destruct (nltb x y) eqn:E; [apply nlt_le, E|apply nle_refl; auto].
Qed.
Lemma nmax_r x y : nn x -> nn y -> nle y (nmax x y).
Proof.
  intros; unfold nmax; destruct (nltb x y) eqn:E; [apply nle_refl; auto|apply nltb_false_le; auto].
Qed.
Lemma nmin_glb x y z : nle z x -> nle z y -> nle z (nmin x y).
Proof. intros; destruct (nmin_cases x y) as [-> | ->]; auto. Qed.
Lemma nmax_lub x y z : nle x z -> nle y z -> nle (nmax x y) z.
Proof. intros; destruct (nmax_cases x y) as [-> | ->]; auto. Qed.
Lemma nmax_mono x x' y y' : nle x x' -> nle y y' -> nle (nmax x y) (nmax x' y').
Proof.
  intros H1 H2. apply nmax_lub.
  - eapply nle_trans; [exact H1|]. apply nmax_l; [apply H1|apply H2].
  - eapply nle_trans; [exact H2|]. apply nmax_r; [apply H1|apply H2].
Qed.

(* sums *)
Lemma nadd_pos x y : nle n0 x -> nle n0 y -> nle n0 (nadd x y).
Proof. intros H1 H2. eapply nle_trans; [exact H1|]. apply lw_add_l; auto. Qed.

End Facts.
