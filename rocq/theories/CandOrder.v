(** The order of search results (candidate_time_series_t::operator<) compares
    distances with a tolerance.  It is a strict weak order on candidates whose
    distances are pairwise equal or at least EPS apart; in general it is not. *)
From Verif Require Import Base Num NumLaws NumFacts NumMore TimeSeries Candidate StdAlg HeapFacts LoopFacts.
Local Open Scope Z_scope.

Section Order.
Context {N : Num} {LW : NumLaws N} {EL : EpsLaws N}.
Notation D := (D N).

(** equal as numbers, or not closer than EPS *)
Definition apart (x y : D) : Prop := neqv x y \/ nltb (nabs (nsub x y)) neps = false.

(** all distances are non-negative, and pairwise equal or at least EPS apart *)
Definition separated (ds : list D) : Prop :=
  (forall x, In x ds -> nle n0 x) /\ (forall x y, In x ds -> In y ds -> apart x y).

Lemma separated_incl ds ds' : (forall x, In x ds' -> In x ds) -> separated ds -> separated ds'.
Proof. intros Hi [H1 H2]. split; auto. Qed.

(** position order: series, then start, then length *)
Definition lex (x y : cand N) : bool :=
  if ts_index (c_data x) =? ts_index (c_data y) then
    if ts_start (c_data x) =? ts_start (c_data y) then
      ts_length (c_data x) <? ts_length (c_data y)
    else ts_start (c_data x) <? ts_start (c_data y)
  else ts_index (c_data x) <? ts_index (c_data y).

Ltac lexs := unfold lex; intros;
  repeat match goal with
  | H : context [?a =? ?b] |- _ => destruct (Z.eqb_spec a b)
  | |- context [?a =? ?b] => destruct (Z.eqb_spec a b)
  | H : context [?a <? ?b] |- _ => destruct (Z.ltb_spec a b)
  | |- context [?a <? ?b] => destruct (Z.ltb_spec a b)
  end; try reflexivity; try discriminate; try lia.

Lemma lex_irrefl x : lex x x = false.
Proof. lexs. Qed.
Lemma lex_trans x y z : lex x y = true -> lex y z = true -> lex x z = true.
Proof. lexs. Qed.
Lemma lex_neg x y z : lex x y = false -> lex y z = false -> lex x z = false.
Proof. lexs. Qed.

Lemma cand_lt_spec x y : nle n0 (c_dist x) -> nle n0 (c_dist y) -> apart (c_dist x) (c_dist y) ->
  cand_lt x y = nltb (c_dist x) (c_dist y) || (neqb (c_dist x) (c_dist y) && nltb (c_dist x) ninf && lex x y).
Proof.
  intros Hx Hy Ha. unfold cand_lt. fold (lex x y). destruct Ha as [He|He].
  - rewrite (neqb_of_eqv _ _ He). rewrite (nle_ltb _ _ (proj2 He)). simpl.
    destruct (nltb (c_dist x) ninf) eqn:Ei; simpl.
    + rewrite lw_eps_eq; auto; apply nfin_pos; auto. apply (nle_lt_trans _ (c_dist x)); [apply He|exact Ei].
    + destruct (nltb (nabs _) neps) eqn:Ee; [|reflexivity]. exfalso.
      assert (Hi : forall z : D, nle n0 z -> nltb z ninf = false -> z = ninf).
      { intros z Hz Hz'. symmetry. apply lw_eqv_pos; [apply nfin_lt_inf, n0_fin|].
        split; [apply nltb_false_le; auto using lw_inf_nn; apply Hz|apply nle_inf; apply Hz]. }
      assert (Ey : nltb (c_dist y) ninf = false).
      { destruct (nltb (c_dist y) ninf) eqn:E; auto. rewrite <- Ei. symmetry.
        apply (nle_lt_trans _ (c_dist y)); [apply He|exact E]. }
      rewrite (Hi _ Hx Ei), (Hi _ Hy Ey), lw_eps_inf in Ee. discriminate.
  - rewrite He. destruct (neqb (c_dist x) (c_dist y)) eqn:Eq; [|rewrite orb_false_r; reflexivity].
    apply neqb_true in Eq. destruct (nltb (c_dist x) ninf) eqn:Ei; [|rewrite orb_false_r; reflexivity].
    exfalso. rewrite lw_eps_eq in He; auto; [discriminate| |]; apply nfin_pos; auto.
    apply (nle_lt_trans _ (c_dist x)); [apply Eq|exact Ei].
Qed.

Theorem cand_swo l : separated (map c_dist l) -> swo cand_lt l.
Proof.
  intros [Hp Ha].
  assert (Hp' : forall x, In x l -> nle n0 (c_dist x)) by (intros; apply Hp, in_map; auto).
  assert (S : forall x y, In x l -> In y l -> cand_lt x y = nltb (c_dist x) (c_dist y) ||
    (neqb (c_dist x) (c_dist y) && nltb (c_dist x) ninf && lex x y)).
  { intros x y Hx Hy. apply cand_lt_spec; auto. apply Ha; apply in_map; auto. }
  split; [|split].
  - intros x Hx. rewrite S by auto. rewrite lw_irrefl, lex_irrefl, andb_false_r. reflexivity.
  - intros x y z Hx Hy Hz. rewrite !S by auto. intros H1 H2.
    apply orb_true_iff in H1, H2. apply orb_true_iff.
    destruct H1 as [H1|H1]; destruct H2 as [H2|H2].
    + left. eapply lw_trans; eauto.
    + left. apply andb_prop in H2 as [[H2 _]%andb_prop _]. apply neqb_true in H2.
      apply (nlt_le_trans _ (c_dist y)); [exact H1|apply H2].
    + left. apply andb_prop in H1 as [[H1 _]%andb_prop _]. apply neqb_true in H1.
      apply (nle_lt_trans _ (c_dist y)); [apply H1|exact H2].
    + right. apply andb_prop in H1 as [[H1 I1]%andb_prop L1]. apply andb_prop in H2 as [[H2 I2]%andb_prop L2].
      apply neqb_true in H1, H2. rewrite (neqb_of_eqv _ _ (neqv_trans _ _ _ H1 H2)), I1. simpl.
      eapply lex_trans; eauto.
  - intros x y z Hx Hy Hz. rewrite !S by auto. intros H1 H2.
    apply orb_false_iff in H1 as [H1 L1]. apply orb_false_iff in H2 as [H2 L2]. apply orb_false_iff.
    assert (Lyx : nle (c_dist y) (c_dist x)) by (apply nltb_false_le; auto; apply Hp'; auto).
    assert (Lzy : nle (c_dist z) (c_dist y)) by (apply nltb_false_le; auto; apply Hp'; auto).
    split; [apply nle_ltb; eapply nle_trans; eauto|].
    destruct (neqb (c_dist x) (c_dist z)) eqn:E; auto. destruct (nltb (c_dist x) ninf) eqn:Ei; auto. simpl.
    apply neqb_true in E.
    assert (Exy : neqv (c_dist x) (c_dist y)) by (split; auto; eapply nle_trans; [apply E|auto]).
    assert (Eyz : neqv (c_dist y) (c_dist z)) by (split; auto; eapply nle_trans; [apply Lyx|apply E]).
    rewrite (neqb_of_eqv _ _ Exy) in L1. rewrite (neqb_of_eqv _ _ Eyz) in L2.
    assert (Ey : nltb (c_dist y) ninf = true) by (apply (nle_lt_trans _ (c_dist x)); auto).
    rewrite Ey in L2. simpl in *. eapply lex_neg; eauto.
Qed.

(** on such candidates "not less" implies "not closer" *)
Lemma cand_lt_dist l x y : separated (map c_dist l) -> In x l -> In y l ->
  cand_lt x y = false -> nle (c_dist y) (c_dist x).
Proof.
  intros [Hp Ha] Hx Hy H. rewrite cand_lt_spec in H; try (apply Hp, in_map; auto; fail).
  - apply orb_false_iff in H as [H _]. apply nltb_false_le; auto; apply Hp, in_map; auto.
  - apply Ha; apply in_map; auto.
Qed.

Lemma cand_dist_lt l x y : separated (map c_dist l) -> In x l -> In y l ->
  nltb (c_dist x) (c_dist y) = true -> cand_lt x y = true.
Proof.
  intros [Hp Ha] Hx Hy H. rewrite cand_lt_spec; try (apply Hp, in_map; auto; fail).
  - rewrite H. reflexivity.
  - apply Ha; apply in_map; auto.
Qed.
End Order.
