(** The outcome [Hang] of [backtrack] stands for a real infinite loop. *)
From Verif Require Import Base Num TimeSeries Distance LoopFacts.

Section Hang.
Context {N : Num}.

(** One iteration of the back-tracking loop, genex/distance/Distance.hpp:183-209
    (the update of [matching] left out): the new (i, j). *)
Definition bt_next (nc : list (list (D N))) (c : Z * Z) : res (Z * Z) :=
  let (i, j) := c in
  if i =? 0 then Ret (i, j - 1)
  else if j =? 0 then Ret (i - 1, j)
  else
    d <- mget nc (i - 1) (j - 1) ;;
    u <- mget nc (i - 1) j ;;
    l <- mget nc i (j - 1) ;;
    let mn := nmin d (nmin u l) in
    if neqb d mn then Ret (i - 1, j - 1)
    else if neqb u mn then Ret (i - 1, j)
    else if neqb l mn then Ret (i, j - 1)
    else Ret (i, j).

(** the loop reaches position [c'] from [c] without terminating *)
Inductive bt_reach (nc : list (list (D N))) (c : Z * Z) : Z * Z -> Prop :=
| btr0 : bt_reach nc c c
| btrS : forall c1 c2, bt_reach nc c c1 -> c1 <> (0, 0) -> bt_next nc c1 = Ret c2 -> bt_reach nc c c2.

Lemma bt_reach_step nc c c1 c2 : c <> (0, 0) -> bt_next nc c = Ret c1 -> bt_reach nc c1 c2 -> bt_reach nc c c2.
Proof.
  intros Hc E H. induction H as [|c3 c4 H IH Hc3 E3].
  - apply (btrS _ _ c c1); auto. constructor.
  - apply (btrS _ _ c3); auto.
Qed.

Lemma mget_no_hang {A} (m : list (list A)) i j : mget m i j <> Hang.
Proof.
  assert (H : forall B (l : list B) k, aget l k <> Hang).
  { intros B l k. unfold aget. destruct (0 <=? k); [destruct (nth_error l (Z.to_nat k))|]; congruence. }
  unfold mget. pose proof (H _ m i). destruct (aget m i); simpl; try congruence.
Qed.

Lemma bt_stuck_forever nc : forall fuel i j mt, 0 <= i -> 0 <= j -> i + j <= Z.of_nat fuel ->
  backtrack nc fuel i j mt = Hang ->
  exists c, bt_reach nc (i, j) c /\ c <> (0, 0) /\ bt_next nc c = Ret c.
Proof.
  induction fuel as [|fuel IH]; intros i j mt Hi Hj Hf E.
  - assert (i = 0) by lia. assert (j = 0) by lia. subst. discriminate.
  - cbn [backtrack] in E. destruct ((i =? 0) && (j =? 0)) eqn:E0; [discriminate|].
    assert (Hne : (i, j) <> (0, 0)). { intros E1. injection E1 as -> ->. discriminate. }
    assert (Hnx : forall c', bt_next nc (i, j) = Ret c' ->
       (exists c, bt_reach nc c' c /\ c <> (0, 0) /\ bt_next nc c = Ret c) ->
       exists c, bt_reach nc (i, j) c /\ c <> (0, 0) /\ bt_next nc c = Ret c).
    { intros c' Ec (c & H1 & H2). exists c. split; auto. apply (bt_reach_step _ _ c'); auto. }
    unfold bt_next in Hnx.
    destruct (Z.eqb_spec i 0) as [Ei|Ei].
    + apply (Hnx _ eq_refl). destruct (Z.eqb_spec j 0); [discriminate|]. apply IH in E; auto; lia.
    + destruct (Z.eqb_spec j 0) as [Ej|Ej].
      * apply (Hnx _ eq_refl). apply IH in E; auto; lia.
      * destruct (mget nc (i - 1) (j - 1)) as [d| | |] eqn:Ed; try discriminate; [|apply mget_no_hang in Ed; contradiction]. cbn [bind] in E, Hnx.
        destruct (mget nc (i - 1) j) as [u| | |] eqn:Eu; try discriminate; [|apply mget_no_hang in Eu; contradiction]. cbn [bind] in E, Hnx.
        destruct (mget nc i (j - 1)) as [l| | |] eqn:El; try discriminate; [|apply mget_no_hang in El; contradiction]. cbn [bind] in E, Hnx. cbv zeta in E, Hnx.
        destruct (neqb d (nmin d (nmin u l))) eqn:C1; [apply (Hnx _ eq_refl); apply IH in E; auto; lia|].
        destruct (neqb u (nmin d (nmin u l))) eqn:C2; [apply (Hnx _ eq_refl); apply IH in E; auto; lia|].
        destruct (neqb l (nmin d (nmin u l))) eqn:C3; [apply (Hnx _ eq_refl); apply IH in E; auto; lia|].
        exists (i, j). split; [constructor|]. split; auto. unfold bt_next.
        destruct (Z.eqb_spec i 0); [contradiction|]. destruct (Z.eqb_spec j 0); [contradiction|].
        rewrite Ed, Eu, El. cbn [bind]. cbv zeta. rewrite C1, C2, C3. reflexivity.
Qed.
End Hang.
