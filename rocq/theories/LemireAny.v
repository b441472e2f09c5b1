(** lower_upper_lemire stays in its arrays, whatever the comparisons of numbers
    say: for any arithmetic and any numbers, NaN included. *)
From Coq Require Import Sorting.Sorted.
From Verif Require Import Base Num Lemire LoopFacts LemireProofs.

Section Any.
Context {N : Num}.
Notation D := (D N).
Variable t : list D.
Variables len r : Z.
Hypothesis Hlen : len <= Z.of_nat (length t).
Hypothesis Hr : 0 <= r <= len - 1.
Notation C := (2 * r + 2).

Lemma tget_any i : 0 <= i < len -> aget t i = Ret (tv t i).
Proof. intros H. apply aget_nth. lia. Qed.

(** the queue for the window [lo, hi] *)
Record QS (lo hi : Z) (q : list Z) : Prop := {
  qs_in : Forall (fun e => lo <= e <= hi) q;
  qs_sorted : StronglySorted Z.lt q;
  qs_last : In hi q
}.

Lemma QS_last lo hi q : QS lo hi q -> exists q', q = q' ++ [hi].
Proof.
  intros [H1 H2 He]. rewrite Forall_forall in H1.
  destruct q as [|x q0] using rev_ind; [destruct He|]. clear IHq0.
  exists q0. f_equal. f_equal. apply in_app_or in He as [He|[He|[]]]; auto.
  pose proof (sorted_app_rel _ _ _ H2 hi x He (or_introl eq_refl)) as Hlt.
  specialize (H1 x ltac:(apply in_or_app; simpl; auto)). lia.
Qed.

Lemma QS_add lo hi q q2 : lo <= hi -> QS lo hi (q ++ q2) -> QS lo (hi + 1) (q ++ [hi + 1]).
Proof.
  intros Hle [H1 H2 He]. rewrite Forall_forall in H1. constructor.
  - apply Forall_forall. intros e Hin. apply in_app_or in Hin as [Hin|[<-|[]]]; [|lia].
    specialize (H1 e ltac:(apply in_or_app; auto)). lia.
  - apply sorted_snoc; [apply (sorted_app_inv _ _ _ H2)|]. intros e Hin.
    specialize (H1 e ltac:(apply in_or_app; auto)). lia.
  - apply in_or_app. simpl. auto.
Qed.

Lemma QS_shift lo hi q : QS lo hi q -> (forall e, In e q -> lo < e) -> QS (lo + 1) hi q.
Proof.
  intros [H1 H2 H3] Hlt. rewrite Forall_forall in H1. constructor; auto.
  apply Forall_forall. intros e He. specialize (H1 e He). specialize (Hlt e He). lia.
Qed.

Lemma QS_pop lo hi q : lo < hi -> QS lo hi (lo :: q) -> QS (lo + 1) hi q.
Proof.
  intros Hlt [H1 H2 H3]. inversion H2 as [|? ? Hs Hf]; subst. rewrite Forall_forall in H1, Hf. constructor; auto.
  - apply Forall_forall. intros e He. specialize (H1 e ltac:(simpl; auto)). specialize (Hf e He). lia.
  - destruct H3; [lia|auto].
Qed.

Lemma QS_len lo hi q : QS lo hi q -> Z.of_nat (length q) <= Z.max 0 (hi - lo + 1).
Proof.
  intros [H1 H2 _]. revert lo H1. induction q as [|x q IH]; intros lo H1; simpl length; [lia|].
  inversion H2 as [|? ? Hs Hf]; subst. inversion H1 as [|? ? Hx Hq]; subst.
  rewrite Forall_forall in Hf, Hq. specialize (IH Hs (x + 1)).
  assert (Z.of_nat (length q) <= Z.max 0 (hi - (x + 1) + 1)).
  { apply IH. apply Forall_forall. intros e He. specialize (Hq e He). specialize (Hf e He). lia. }
  lia.
Qed.

Lemma QS_front lo hi q : QS lo hi q -> exists x q', q = x :: q' /\ lo <= x <= hi /\ forall e, In e q -> x <= e.
Proof.
  intros [H1 H2 H3]. destruct q as [|x q]; [destruct H3|]. exists x, q. rewrite Forall_forall in H1.
  splits; auto; try (apply H1; simpl; auto). inversion H2 as [|? ? Hs Hf]; subst. rewrite Forall_forall in Hf.
  intros e [<-|He]; [lia|]. specialize (Hf e He). lia.
Qed.

Lemma popwhile_any better x : forall fuel d q, dq_rep C d q -> (length q <= fuel)%nat ->
  Forall (fun e => 0 <= e < len) q ->
  exists d' q' q2, lem_popwhile better t x fuel d = Ret d' /\ dq_rep C d' q' /\ q = q' ++ q2.
Proof.
  induction fuel as [|fuel IH]; intros d q Hd Hf Hq.
  - destruct q; [|simpl in Hf; lia]. exists d, [], []. simpl. rewrite (dq_empty_ok _ _ _ Hd). splits; auto.
  - cbn [lem_popwhile]. rewrite (dq_empty_ok _ _ _ Hd).
    destruct q as [|y q0] using rev_ind.
    + exists d, [], []. splits; auto.
    + clear IHq0. replace (match q0 ++ [y] with [] => true | _ => false end) with false by (destruct q0; auto).
      rewrite (dq_back_ok _ _ _ _ Hd). cbn [bind]. apply Forall_app in Hq as [Hq0 Hy].
      inversion Hy as [|? ? Hy1 _]; subst. rewrite tget_any by auto. cbn [bind].
      destruct (better x (tv t y)).
      * destruct (dq_pop_back_ok _ _ _ _ Hd) as (d1 & E1 & Hd1). rewrite E1. cbn [bind].
        rewrite app_length in Hf. simpl in Hf.
        destruct (IH d1 q0 Hd1 ltac:(lia) Hq0) as (d' & q' & q2 & E & Hd' & Eq).
        exists d', q', (q2 ++ [y]). splits; auto. rewrite Eq, app_assoc. reflexivity.
      * exists d, (q0 ++ [y]), []. splits; auto. rewrite app_nil_r; auto.
Qed.

Lemma popped_any better lo i d q : 0 <= lo -> lo <= i - 1 -> i < len -> dq_rep C d q -> QS lo (i - 1) q ->
  exists d1 d' q', dq_pop_back d = Ret d1 /\
    lem_popwhile better t (tv t i) (Z.to_nat (dq_size d1)) d1 = Ret d' /\ dq_rep C d' q' /\
    QS lo i (q' ++ [i]) /\ (forall e, In e q' -> In e q /\ e <> i - 1).
Proof.
  intros H0 Hle Hi Hd HQ. destruct (QS_last _ _ _ HQ) as (q0 & ->).
  destruct (dq_pop_back_ok _ _ _ _ Hd) as (d1 & E1 & Hd1).
  pose proof (qs_in _ _ _ HQ) as Hin. rewrite Forall_forall in Hin.
  destruct (popwhile_any better (tv t i) (Z.to_nat (dq_size d1)) d1 q0 Hd1) as (d' & q' & q2 & E2 & Hd' & Eq).
  { destruct Hd1 as (_ & _ & -> & _). lia. }
  { apply Forall_forall. intros e He. specialize (Hin e ltac:(apply in_or_app; auto)). lia. }
  exists d1, d', q'. splits; auto.
  - replace i with (i - 1 + 1) by lia. apply (QS_add lo (i - 1) q' (q2 ++ [i - 1])); auto.
    rewrite app_assoc, <- Eq. exact HQ.
  - intros e He. split; [apply in_or_app; left; rewrite Eq; apply in_or_app; auto|].
    pose proof (sorted_app_rel _ _ _ (qs_sorted _ _ _ HQ) e (i - 1)) as Hs.
    assert (e < i - 1); [apply Hs|lia]; [rewrite Eq; apply in_or_app; auto|simpl; auto].
Qed.

(** every cell holds a number *)
Definition out_any (i : Z) (s : lem_state (N := N)) : Prop :=
  Z.of_nat (length (le_u s)) = len /\ Z.of_nat (length (le_l s)) = len /\
  forall k, 0 <= k < i - r - 1 -> (exists v, aget (le_u s) k = Ret (Some v)) /\ (exists v, aget (le_l s) k = Ret (Some v)).

Definition LA (i : Z) (s : lem_state (N := N)) : Prop :=
  out_any i s /\ (i <= len + r -> exists qu ql, dq_rep C (le_du s) qu /\ dq_rep C (le_dl s) ql /\
    QS (Z.max 0 (i - 1 - 2 * r)) (Z.min (len - 1) (i - 1)) qu /\
    QS (Z.max 0 (i - 1 - 2 * r)) (Z.min (len - 1) (i - 1)) ql /\
    (i <= len -> forall e, In e qu -> In e ql -> e = i - 1)).

Lemma emit_any i s lo hi qu ql : 0 <= lo -> hi <= len - 1 -> r < i -> i <= len + r -> out_any i s ->
  dq_rep C (le_du s) qu -> dq_rep C (le_dl s) ql -> QS lo hi qu -> QS lo hi ql ->
  exists s', lem_emit t r i s = Ret s' /\ out_any (i + 1) s' /\ le_du s' = le_du s /\ le_dl s' = le_dl s.
Proof.
  intros Elo Ehi Hi Hi2 (O1 & O2 & O3) R1 R2 Q1 Q2.
  destruct (QS_front _ _ _ Q1) as (x & qu' & -> & Bx & _). destruct (QS_front _ _ _ Q2) as (y & ql' & -> & By & _).
  unfold lem_emit. rewrite (dq_front_ok _ _ _ _ R1). cbn [bind]. rewrite tget_any by lia. cbn [bind].
  rewrite aset_in by lia. cbn [bind].
  rewrite (dq_front_ok _ _ _ _ R2). cbn [bind]. rewrite tget_any by lia. cbn [bind].
  rewrite aset_in by lia. cbn [bind]. eexists. split; [reflexivity|].
  cbn [le_du le_dl]. splits; auto. unfold out_any. cbn [le_u le_l]. rewrite !upd_length. splits; auto.
  intros k Hk. destruct (Z.eq_dec k (i - r - 1)) as [->|Hne].
  - rewrite !aget_upd_same by lia. eauto.
  - rewrite !aget_upd_other by lia. apply O3. lia.
Qed.

Lemma step1_any i s : 1 <= i < len -> LA i s -> exists s', lem_step1 t r i s = Ret s' /\ LA (i + 1) s'.
Proof.
  intros Hi (HO & HQ). destruct HQ as (qu & ql & R1 & R2 & Q1 & Q2 & Hd); [lia|]. specialize (Hd ltac:(lia)).
  set (lo := Z.max 0 (i - 1 - 2 * r)) in *. replace (Z.min (len - 1) (i - 1)) with (i - 1) in * by lia.
  assert (E1 : exists s1, (if i >? r then lem_emit t r i s else Ret s) = Ret s1 /\ out_any (i + 1) s1 /\
     le_du s1 = le_du s /\ le_dl s1 = le_dl s).
  { destruct (Z.gtb_spec i r) as [Hg|Hg].
    - apply (emit_any i s lo (i - 1) qu ql); auto; lia.
    - exists s. splits; auto. destruct HO as (O1 & O2 & O3). unfold out_any. splits; auto; intros; lia. }
  destruct E1 as (s1 & E1 & HO1 & Eu & El). unfold lem_step1. rewrite E1. cbn [bind]. clear E1 HO.
  rewrite tget_any by lia. cbn [bind]. rewrite tget_any by lia. cbn [bind].
  assert (Hlo : 0 <= lo /\ lo <= i - 1) by lia.
  assert (E2 : exists s2 qu2 ql2, (if nltb (tv t (i - 1)) (tv t i) then
          du <- dq_pop_back (le_du s1) ;;
          du <- lem_popwhile (fun x y : D => nltb y x) t (tv t i) (Z.to_nat (dq_size du)) du ;;
          Ret (mkLem du (le_dl s1) (le_u s1) (le_l s1))
        else
          dl <- dq_pop_back (le_dl s1) ;;
          dl <- lem_popwhile (fun x y : D => nltb x y) t (tv t i) (Z.to_nat (dq_size dl)) dl ;;
          Ret (mkLem (le_du s1) dl (le_u s1) (le_l s1))) = Ret s2 /\
      le_u s2 = le_u s1 /\ le_l s2 = le_l s1 /\ dq_rep C (le_du s2) qu2 /\ dq_rep C (le_dl s2) ql2 /\
      QS lo i (qu2 ++ [i]) /\ QS lo i (ql2 ++ [i]) /\
      (forall e, In e (qu2 ++ [i]) -> In e (ql2 ++ [i]) -> e = i)).
  { rewrite Eu, El.
    assert (Keep : forall q, QS lo (i - 1) q -> QS lo i (q ++ [i])).
    { intros q HQ. replace i with (i - 1 + 1) by lia. apply (QS_add lo (i - 1) q []); [lia|]. rewrite app_nil_r. exact HQ. }
    destruct (nltb (tv t (i - 1)) (tv t i)).
    - destruct (popped_any (fun x y : D => nltb y x) lo i (le_du s) qu) as (d1 & d' & q' & P1 & P2 & P3 & P4 & P5); auto; try lia.
      rewrite P1. cbn [bind]. rewrite P2. cbn [bind]. eexists _, q', ql. split; [reflexivity|]. cbn [le_u le_l le_du le_dl].
      splits; auto.
      intros e He1 He2. apply in_app_or in He1 as [He1|[<-|[]]]; auto. apply in_app_or in He2 as [He2|[<-|[]]]; auto.
      destruct (P5 e He1) as [He3 Hne]. exfalso. apply Hne. auto.
    - destruct (popped_any (fun x y : D => nltb x y) lo i (le_dl s) ql) as (d1 & d' & q' & P1 & P2 & P3 & P4 & P5); auto; try lia.
      rewrite P1. cbn [bind]. rewrite P2. cbn [bind]. eexists _, qu, q'. split; [reflexivity|]. cbn [le_u le_l le_du le_dl].
      splits; auto.
      intros e He1 He2. apply in_app_or in He1 as [He1|[<-|[]]]; auto. apply in_app_or in He2 as [He2|[<-|[]]]; auto.
      destruct (P5 e He2) as [He3 Hne]. exfalso. apply Hne. auto. }
  destruct E2 as (s2 & qu2 & ql2 & E2 & F1 & F2 & S1 & S2 & Q1' & Q2' & Hd'). rewrite E2. cbn [bind]. clear E2.
  pose proof (QS_len _ _ _ Q1') as L1. pose proof (QS_len _ _ _ Q2') as L2.
  rewrite app_length in L1, L2. simpl in L1, L2.
  destruct (dq_push_ok _ _ _ i S1 ltac:(lia)) as (du & -> & T1). cbn [bind].
  destruct (dq_push_ok _ _ _ i S2 ltac:(lia)) as (dl & -> & T2). cbn [bind].
  destruct (QS_front _ _ _ Q1') as (x & qx & Ex & Bx & Sx).
  destruct (QS_front _ _ _ Q2') as (y & qy & Ey & By & Sy).
  rewrite Ex in *. rewrite Ey in *.
  rewrite (dq_front_ok _ _ _ _ T1). cbn [bind].
  assert (HO2 : forall du dl, out_any (i + 1) (mkLem du dl (le_u s2) (le_l s2))).
  { intros ? ?. unfold out_any in *. cbn [le_u le_l]. rewrite F1, F2. exact HO1. }
  assert (Hhi : Z.min (len - 1) (i + 1 - 1) = i) by lia.
  assert (Sh : forall q, QS lo i q -> (forall e, In e q -> i - 1 - 2 * r < e) -> QS (Z.max 0 (i + 1 - 1 - 2 * r)) i q).
  { intros q HQ Hq. destruct (Z.le_gt_cases 0 (i - 1 - 2 * r)) as [Hc|Hc].
    - replace (Z.max 0 (i + 1 - 1 - 2 * r)) with (lo + 1) by lia. apply QS_shift; auto. intros e He. specialize (Hq e He). lia.
    - replace (Z.max 0 (i + 1 - 1 - 2 * r)) with lo by lia. exact HQ. }
  replace (i + 1 - 1) with i in * by lia.
  destruct (Z.eqb_spec i (2 * r + 1 + x)) as [Ei|Ei].
  - eexists. split; [reflexivity|]. split; [apply HO2|]. intros _. exists qx, (y :: qy). cbn [le_du le_dl].
    replace (i + 1 - 1) with i by lia. replace (Z.min (len - 1) i) with i by lia.
    assert (Exl : x = lo) by lia.
    splits; auto.
    + eapply dq_pop_front_ok; eauto.
    + replace (Z.max 0 (i - 2 * r)) with (lo + 1) by lia. apply QS_pop; [lia|]. rewrite <- Exl at 2. exact Q1'.
    + apply Sh; auto. intros e He. destruct (Z.eq_dec e x) as [->|Hne].
      * specialize (Hd' x ltac:(simpl; auto) He). lia.
      * pose proof (qs_in _ _ _ Q2') as Hin. rewrite Forall_forall in Hin. specialize (Hin e He). lia.
    + intros _ e He1 He2. apply Hd'; simpl; auto.
  - rewrite (dq_front_ok _ _ _ _ T2). cbn [bind]. destruct (Z.eqb_spec i (2 * r + 1 + y)) as [Ej|Ej].
    + eexists. split; [reflexivity|]. split; [apply HO2|]. intros _. exists (x :: qx), qy. cbn [le_du le_dl].
      replace (i + 1 - 1) with i by lia. replace (Z.min (len - 1) i) with i by lia.
      assert (Eyl : y = lo) by lia.
      splits; auto.
      * eapply dq_pop_front_ok; eauto.
      * apply Sh; auto. intros e He. specialize (Sx e He). lia.
      * replace (Z.max 0 (i - 2 * r)) with (lo + 1) by lia. apply QS_pop; [lia|]. rewrite <- Eyl at 2. exact Q2'.
      * intros _ e He1 He2. apply Hd'; simpl; auto.
    + eexists. split; [reflexivity|]. split; [apply HO2|]. intros _. exists (x :: qx), (y :: qy). cbn [le_du le_dl].
      replace (i + 1 - 1) with i by lia. replace (Z.min (len - 1) i) with i by lia.
      splits; auto.
      * apply Sh; auto. intros e He. specialize (Sx e He). lia.
      * apply Sh; auto. intros e He. specialize (Sy e He). lia.
Qed.

Lemma step2_any i s : len <= i < len + r + 1 -> LA i s -> exists s', lem_step2 t r i s = Ret s' /\ LA (i + 1) s'.
Proof.
  intros Hi (HO & HQ). destruct HQ as (qu & ql & R1 & R2 & Q1 & Q2 & _); [lia|].
  set (lo := Z.max 0 (i - 1 - 2 * r)) in *. replace (Z.min (len - 1) (i - 1)) with (len - 1) in * by lia.
  destruct (emit_any i s lo (len - 1) qu ql) as (s' & E & HO' & Eu & El); auto; try lia.
  unfold lem_step2. rewrite E. cbn [bind]. rewrite Eu, El.
  destruct (QS_front _ _ _ Q1) as (x & qx & -> & Bx & Sx). destruct (QS_front _ _ _ Q2) as (y & qy & -> & By & Sy).
  rewrite (dq_front_ok _ _ _ _ R1). cbn [bind]. rewrite (dq_front_ok _ _ _ _ R2). cbn [bind].
  eexists. split; [reflexivity|]. split; [exact HO'|]. intros Hnext. cbn [le_du le_dl].
  replace (Z.min (len - 1) (i + 1 - 1)) with (len - 1) by lia. replace (i + 1 - 1) with i by lia.
  assert (Sh : forall z q, QS lo (len - 1) (z :: q) -> (forall e, In e (z :: q) -> z <= e) -> i - z < 2 * r + 1 ->
                 QS (Z.max 0 (i - 2 * r)) (len - 1) (z :: q)).
  { intros z q HQ Hz Hq. destruct (Z.le_gt_cases 0 (i - 1 - 2 * r)) as [Hc|Hc].
    - replace (Z.max 0 (i - 2 * r)) with (lo + 1) by lia. apply QS_shift; auto. intros e He. specialize (Hz e He). lia.
    - replace (Z.max 0 (i - 2 * r)) with lo by lia. exact HQ. }
  assert (Hp : forall z q, QS lo (len - 1) (z :: q) -> lo <= z -> 2 * r + 1 <= i - z -> QS (Z.max 0 (i - 2 * r)) (len - 1) q).
  { intros z q HQ H1 H2. replace (Z.max 0 (i - 2 * r)) with (lo + 1) by lia.
    assert (z = lo) as Ez by lia. apply QS_pop; [lia|]. rewrite <- Ez at 2. exact HQ. }
  destruct (Z.leb_spec (2 * r + 1) (i - x)) as [Cx|Cx]; destruct (Z.leb_spec (2 * r + 1) (i - y)) as [Cy|Cy].
  - exists qx, qy. splits; eauto using dq_pop_front_ok. + apply (Hp x); auto; lia. + apply (Hp y); auto; lia. + intros; lia.
  - exists qx, (y :: qy). splits; eauto using dq_pop_front_ok. + apply (Hp x); auto; lia. + intros; lia.
  - exists (x :: qx), qy. splits; eauto using dq_pop_front_ok. + apply (Hp y); auto; lia. + intros; lia.
  - exists (x :: qx), (y :: qy). splits; eauto. intros; lia.
Qed.

Lemma lemire_any : exists l u, lower_upper_lemire t len r = Ret (l, u) /\
  Z.of_nat (length l) = len /\ Z.of_nat (length u) = len /\
  forall k, 0 <= k < len -> (exists v, aget u k = Ret (Some v)) /\ (exists v, aget l k = Ret (Some v)).
Proof.
  unfold lower_upper_lemire. destruct (Z.ltb_spec C 0); [lia|].
  destruct (dq_push_ok C (dq_new C) [] 0 (dq_new_rep C ltac:(lia)) ltac:(cbn [length]; lia)) as (d & Ed & Rd).
  cbv zeta. rewrite Ed. cbn [bind]. cbn [app] in Rd.
  destruct (for_inv LA (lem_step1 t r) 1 len (mkLem d d (repeat None (Z.to_nat len)) (repeat None (Z.to_nat len))))
    as (s1 & E1 & H1); [lia| |intros; apply step1_any; auto|].
  { split.
    - unfold out_any. cbn [le_u le_l]. rewrite repeat_length. splits; lia.
    - intros _. exists [0], [0]. cbn [le_du le_dl].
      replace (Z.max 0 (1 - 1 - 2 * r)) with 0 by lia. replace (Z.min (len - 1) (1 - 1)) with 0 by lia.
      assert (HQ : QS 0 0 [0]) by (constructor; [repeat constructor; lia|repeat constructor|simpl; auto]).
      splits; auto. intros _ e [<-|[]] _; auto. }
  rewrite E1. cbn [bind].
  destruct (for_inv LA (lem_step2 t r) len (len + r + 1) s1) as (s2 & E2 & H2); [lia|auto|intros; apply step2_any; auto|].
  rewrite E2. cbn [bind]. exists (le_l s2), (le_u s2). destruct H2 as ((O1 & O2 & O3) & _).
  splits; auto. intros k Hk. apply O3. lia.
Qed.
End Any.
