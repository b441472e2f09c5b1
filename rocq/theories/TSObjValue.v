(** Time series objects: leaks; copies, assignments, sums, comparisons. *)
From Coq Require Import String.
From Verif Require Import Base Num LoopFacts DataProofs PAAProofs TimeSeries Lemire Distance TSObject TSObjSpec TSObjProofs TSObjOwn.
Local Open Scope Z_scope.
Local Open Scope list_scope.

Section P.
Context {N : Num}.
Notation D := (D N).
Implicit Types (h : heap N) (w : world N).

Lemma own_history ok l w : history ok l w -> own w.
Proof. induction 1 as [|l x w w' r H IH Hl Hq E Hd]; [apply own_init|eapply own_step; eauto]. Qed.

(** ** no leaks *)
Lemma wr_alloc w p i v h b : wr (w_heap w) p i v = Ret h -> allocated (with_heap w h) b -> allocated w b.
Proof.
  intros H [cells E]. apply wr_Ret in H as (b' & o & cells' & _ & E' & _ & ->). cbn in E.
  destruct (Nat.eq_dec b b') as [->|Hne]; [eexists; eauto|]. rewrite nth_error_upd_neq in E by auto. eexists; eauto.
Qed.
Lemma app_alloc w c b : allocated (with_heap w (w_heap w ++ [c])) b -> allocated w b \/ b = length (w_heap w).
Proof.
  intros [cells E]. cbn in E. destruct (Nat.lt_ge_cases b (length (w_heap w))) as [Hl|Hl].
  - rewrite nth_error_app1 in E by auto. left. eexists; eauto.
  - right. apply nth_error_Some_lt in E. rewrite app_length in E. cbn in E. lia.
Qed.

Definition kept w w' b : Prop := allocated w b /\ forall i, owns w i b -> exists j, owns w' j b.

Lemma owns_put_other w i x j b : j <> i -> owns w j b -> (i < length (w_objs w))%nat -> owns (put_obj w i x) j b.
Proof.
  intros Hne (o & off & Hg & H) Hi. exists o, off. rewrite get_put by auto. destruct (Nat.eqb_spec j i); [congruence|]. auto.
Qed.
Lemma owns_put_same w i o b off : (i < length (w_objs w))%nat -> o_owner o = true -> o_data o = Some (b, off) -> owns (put_obj w i (Some o)) i b.
Proof. intros Hi Ho Hd. exists o, off. rewrite get_put, Nat.eqb_refl by auto. auto. Qed.
Lemma owns_new_other w o j b : owns w j b -> owns (new_obj w o) j b.
Proof.
  intros (o' & off & Hg & H). exists o', off. rewrite get_new. destruct (Nat.eqb_spec j (length (w_objs w))) as [->|]; auto.
  apply get_lt in Hg. lia.
Qed.
Lemma owns_new_same w o b off : o_owner o = true -> o_data o = Some (b, off) -> owns (new_obj w o) (length (w_objs w)) b.
Proof. intros Ho Hd. exists o, off. rewrite get_new, Nat.eqb_refl. auto. Qed.

Lemma release_alloc w i oi h b : own w -> get_obj w i = Some oi -> release w oi = Ret h -> allocated (with_heap w h) b ->
  allocated w b /\ ~ owns w i b.
Proof.
  intros O Hg Hr Ha. unfold release in Hr. destruct (o_owner oi) eqn:Eo.
  - destruct (del_gone w _ h b Hr Ha) as [H1 H2]. split; auto. intros (o & off & Hg' & _ & Ed). apply (H2 off). congruence.
  - injection Hr as <-. split; [exact Ha|]. intros (o & off & Hg' & Ho & _). congruence.
Qed.

Lemma keogh_kept upper w i band w' r b : ts_keogh upper w i band = (w', r) -> allocated w' b -> kept w w' b.
Proof.
  intros E Ha. unfold ts_keogh in E.
  assert (Same : w' = w -> kept w w' b) by (intros ->; split; eauto).
  destruct (get_obj w i) as [o|] eqn:Eo; [|injection E as <- <-; auto].
  assert (P : forall v lo up bd, w' = put_obj w i (Some (mkObj (o_data o) (o_owner o) (o_index o) (o_start o) (o_end o) (o_length o) v lo up bd)) -> kept w w' b).
  { intros v lo up bd ->. split; [exact Ha|]. intros m Hm. exists m. destruct (Nat.eq_dec m i) as [->|Hne].
    - destruct Hm as (o2 & off & Hg & Ho & Hdo). assert (o2 = o) by congruence. subst o2.
      eapply owns_put_same; cbn; eauto. eapply get_lt; eauto.
    - apply owns_put_other; auto. eapply get_lt; eauto. }
  destruct (cached o band) as [[|]| | |]; try (injection E as <- <-; auto; fail).
  destruct (o_length o <? 0); [injection E as <- <-; eapply P; reflexivity|].
  destruct (generate (w_heap w) o band) as [[lo up]| | |]; injection E as <- <-; auto. eapply P; reflexivity.
Qed.

Lemma leak_step w x w' r b : own w -> exec x w = (w', r) -> defined r -> allocated w' b ->
  (exists cells, x = OBuf cells /\ b = length (w_heap w)) \/ kept w w' b \/ exists j, owns w' j b.
Proof.
  intros O E Hd Ha.
  assert (Same : forall w2, w' = w2 -> (forall j, owns w j b -> owns w2 j b) -> allocated w b -> kept w w' b).
  { intros w2 -> H H2. split; auto. intros i Hi. exists i. auto. }
  destruct x; cbn [exec] in *.
  - injection E as <- <-. apply app_alloc in Ha as [Ha|Ha]; eauto.
  - right. left. unfold buf_write in E. destruct (wr (w_heap w) (Some (b0, 0)) k v) as [h| | |] eqn:Ew; injection E as <- <-; eauto.
    eapply Same; eauto. eapply wr_alloc; eauto.
  - right. left. unfold buf_free in E. destruct (del_block (w_heap w) (Some (b0, 0))) as [h| | |] eqn:Ew; injection E as <- <-; eauto.
    eapply Same; eauto. apply del_gone with (1 := Ew) in Ha. tauto.
  - right. left. injection E as <- <-. eapply Same; eauto. intros j. apply owns_new_other.
  - right. left. injection E as <- <-. eapply Same; eauto. intros j. apply owns_new_other.
  - unfold ts_mk_owned in E. destruct (len <? 0); cbn [new_block] in E; injection E as <- <-; [right; left; eauto|].
    right. apply (app_alloc w) in Ha as [Ha| ->].
    + left. eapply Same; eauto. intros j. apply (owns_new_other (with_heap w _)).
    + right. eexists. eapply owns_new_same; cbn; eauto.
  - unfold ts_copy in E. destruct (get_obj w i) as [o|] eqn:Eo; [|injection E as <- <-; right; left; eauto].
    destruct (o_owner o) eqn:Ho.
    + unfold dup in E. destruct (o_length o <? 0); [injection E as <- <-; right; left; eauto|].
      destruct (rdcells (w_heap w) (o_data o) (Z.to_nat (o_length o)) 0) as [cells| | |]; cbn in E; injection E as <- <-; try (right; left; eauto; fail).
      right. apply (app_alloc w) in Ha as [Ha| ->].
      * left. eapply Same; eauto. intros j. apply (owns_new_other (with_heap w _)).
      * right. eexists. eapply owns_new_same; cbn; eauto.
    + injection E as <- <-. right. left. eapply Same; eauto. intros j. apply owns_new_other.
  - unfold ts_assign in E. destruct (get_obj w i) as [oi|] eqn:Ei; [|injection E as <- <-; right; left; eauto].
    destruct (get_obj w j) as [oj|] eqn:Ej; [|injection E as <- <-; right; left; eauto].
    fold (release w oi) in E. destruct (release_ok w i oi O Ei) as [h Hr]. rewrite Hr in E.
    assert (Li : (i < length (w_objs w))%nat) by (eapply get_lt; eauto).
    assert (RA := release_alloc w i oi h b O Ei Hr).
    assert (K : forall h2 x2, allocated (with_heap w h) b -> kept w (put_obj (with_heap w h2) i x2) b).
    { intros h2 x2 H. apply RA in H as [H1 H2]. split; auto. intros m Hm. exists m. apply owns_put_other; auto. intros ->. auto. }
    destruct (o_owner oj) eqn:Hoj.
    + destruct (Z.ltb_spec (o_length oi) 0) as [Hneg|Hneg].
      * injection E as <- <-. right. left. apply RA in Ha as [Ha1 Ha2]. eapply Same; eauto.
      * destruct (if Nat.eqb i j then Ret (repeat None (Z.to_nat (o_length oi))) else rdcells h (o_data oj) (Z.to_nat (o_length oi)) 0)
          as [cells| | |]; cbn in E; injection E as <- <-; try (right; left; eauto; fail).
        right. apply (app_alloc (with_heap w h)) in Ha as [Ha| ->]; [left; auto|].
        right. exists i. eapply owns_put_same; cbn; eauto.
    + injection E as <- <-. right. left. apply K. exact Ha.
  - unfold ts_move in E. destruct (get_obj w i) as [oi|] eqn:Ei; [|injection E as <- <-; right; left; eauto].
    destruct (get_obj w j) as [oj|] eqn:Ej; [|injection E as <- <-; right; left; eauto].
    fold (release w oi) in E. destruct (release_ok w i oi O Ei) as [h Hr]. rewrite Hr in E. cbv zeta in E.
    assert (Li : (i < length (w_objs w))%nat) by (eapply get_lt; eauto).
    assert (Lj : (j < length (w_objs w))%nat) by (eapply get_lt; eauto).
    assert (RA := release_alloc w i oi h b O Ei Hr).
    rewrite get_put in E by auto. destruct (Nat.eqb_spec j i) as [->|Hne].
    + injection E as <- <-. right. left. apply RA in Ha as [H1 H2]. split; auto. intros m Hm. exists m.
      assert (m <> i) by (intros ->; auto). apply owns_put_other; auto; [|cbn; rewrite upd_length; auto]. apply owns_put_other; auto.
    + rewrite get_heap, Ej in E. injection E as <- <-. right. left. apply RA in Ha as [H1 H2]. split; auto. intros m Hm.
      assert (m <> i) by (intros ->; auto). destruct (Nat.eq_dec m j) as [->|Hmj].
      * exists i. destruct Hm as (o & off & Hg & Ho & Hdo). assert (o = oj) by congruence. subst o.
        apply owns_put_other; auto; [|cbn; rewrite upd_length; auto]. eapply owns_put_same; cbn; eauto.
      * exists m. apply owns_put_other; auto; [|cbn; rewrite upd_length; auto]. apply owns_put_other; auto.
  - unfold ts_destroy in E. destruct (get_obj w i) as [oi|] eqn:Ei; [|injection E as <- <-; right; left; eauto].
    fold (release w oi) in E. destruct (release_ok w i oi O Ei) as [h Hr]. rewrite Hr in E. injection E as <- <-.
    right. left. destruct (release_alloc w i oi h b O Ei Hr Ha) as [H1 H2]. split; auto. intros m Hm. exists m.
    apply owns_put_other; auto; [intros ->; auto|eapply get_lt; eauto].
  - right. left. unfold ts_at in E. destruct (get_obj w i); injection E as <- <-; eauto.
  - right. left. unfold ts_set in E. destruct (get_obj w i) as [o|] eqn:Eo; [|injection E as <- <-; eauto].
    destruct ((k <? 0) || (o_length o <=? k)); [injection E as <- <-; eauto|].
    destruct (wr (w_heap w) (o_data o) (o_start o + k) v) as [h| | |] eqn:Ew; injection E as <- <-; eauto.
    eapply Same; eauto. eapply wr_alloc; eauto.
  - right. left. unfold ts_add in E. destruct (get_obj w i) as [oi|] eqn:Ei; [|injection E as <- <-; eauto].
    destruct (get_obj w j) as [oj|] eqn:Ej; [|injection E as <- <-; eauto].
    destruct (negb (o_length oj =? o_length oi)); [injection E as <- <-; eauto|].
    destruct (for_ 0 (o_length oi) (add_step oi oj) (w_heap w)) as [h| | |] eqn:Ef; injection E as <- <-; eauto.
    assert (Al : allocated (with_heap w h) b -> allocated w b).
    { destruct (Z.le_gt_cases (o_length oi) 0) as [Hl|Hl]; [rewrite for_empty in Ef by lia; injection Ef as <-; auto|].
      refine (for_partial (fun _ h1 => allocated (with_heap w h1) b -> allocated w b)
                (add_step oi oj) 0 (o_length oi) (w_heap w) h _ _ _ Ef); [lia|auto|].
      intros k h1 h2 Hk F1. unfold add_step. destruct (rd h1 (o_data oi) (o_start oi + k)) as [x| | |]; cbn; try discriminate.
      destruct (at_ h1 oj k) as [y| | |]; cbn; try discriminate. intros Hw Hb. apply F1.
      exact (wr_alloc (with_heap w h1) _ _ _ h2 b Hw Hb). }
    split; [exact (Al Ha)|]. intros m Hm. exists m. destruct (Nat.eq_dec m i) as [->|Hmi].
    + destruct Hm as (o & off & Hg & Ho & Hdo). assert (o = oi) by congruence. subst o.
      eapply owns_put_same; cbn; eauto. eapply get_lt; eauto.
    + apply owns_put_other; auto. eapply get_lt; eauto.
  - right. left. unfold ts_eq in E. destruct (get_obj w i) as [oi|]; [|injection E as <- <-; eauto].
    destruct (get_obj w j) as [oj|]; [|injection E as <- <-; eauto].
    destruct (ptr_eqb (o_data oi) (o_data oj)); [injection E as <- <-; eauto|].
    destruct (o_data oi), (o_data oj); [destruct (negb (o_length oi =? o_length oj))| | |]; injection E as <- <-; eauto.
  - right. left. unfold ts_average in E. destruct (get_obj w i); injection E as <- <-; eauto.
  - right. left. eapply keogh_kept; eauto.
  - right. left. eapply keogh_kept; eauto.
Qed.

Lemma no_leak ok l w b : history ok l w -> allocated w b -> program_block ok l b \/ exists i, owns w i b.
Proof.
  intros H. revert b. induction H as [|l x w w' r H IH Hl Hq E Hd]; intros b Ha.
  - destruct Ha as [c E]. destruct b; discriminate.
  - destruct (leak_step w x w' r b (own_history _ _ _ H) E Hd Ha) as [(cells & -> & ->)|[[K1 K2]|K]]; auto.
    + left. exists l, cells, [], w. auto.
    + destruct (IH b K1) as [(l1 & cells & l2 & w1 & -> & H1 & Hb)|[i Hi]].
      * left. exists l1, cells, (l2 ++ [x]), w1. splits; auto. rewrite <- app_assoc. reflexivity.
      * right. eauto.
Qed.

(** ** values through changes of memory *)
Lemma rdcells_value h p pts : forall s, (forall k x, nth_error pts k = Some x -> rd h p (s + Z.of_nat k) = Ret x) ->
  rdcells h p (length pts) s = Ret (map Some pts).
Proof.
  induction pts as [|x pts IH]; intros s Hr; auto.
  cbn [length rdcells map]. pose proof (Hr O x eq_refl) as H0. rewrite Z.add_0_r in H0.
  apply rd_Ret in H0 as (b & o & cells & _ & _ & _ & H0). rewrite H0. cbn [bind]. rewrite IH; auto.
  intros k y Hk. specialize (Hr (S k) y Hk). rewrite <- Hr. f_equal. lia.
Qed.

Lemma value_app h c o pts : value_of h o pts -> value_of (h ++ [c]) o pts.
Proof.
  intros H. destruct pts as [|y pts]; [destruct H; split; auto; intros [|k] x; discriminate|].
  apply (value_sub h (h ++ [c]) o o); auto. intros k x _ Hr. rewrite rd_app; auto. eapply value_known; eauto. discriminate.
Qed.

Lemma value_block h pts idx e len : Z.of_nat (length pts) = len ->
  value_of (h ++ [Some (map Some pts)]) (fresh (Some (length h, 0)) true idx 0 e len) pts.
Proof.
  intros Hl. split; auto. intros k x Hk. unfold rd. cbn. rewrite nth_error_app2, Nat.sub_diag by auto. cbn.
  unfold aget. destruct (Z.leb_spec 0 (Z.of_nat k)); [|lia]. rewrite Nat2Z.id. rewrite map_nth_error with (d := x) by auto. reflexivity.
Qed.

Lemma value_new w o j pts : value w j pts -> value (new_obj w o) j pts.
Proof. intros (o' & Hg & H). exists o'. split; auto. rewrite get_new. destruct (Nat.eqb_spec j (length (w_objs w))) as [->|]; auto. apply get_lt in Hg. lia. Qed.

Lemma copy_value w i pts : own w -> value w i pts -> exists w' n, ts_copy w i = (w', Ret (VId n)) /\
  get_obj w n = None /\ value w' n pts /\ (forall j q, value w j q -> value w' j q) /\
  (forall b, owns w i b -> forall k v w'' r, ts_set w' n k v = (w'', r) -> value w'' i pts).
Proof.
  intros O (o & Hg & Hv). unfold ts_copy. rewrite Hg. destruct (o_owner o) eqn:Eo.
  - destruct (O i o Hg Eo) as (S1 & S2 & S3). unfold dup. destruct (Z.ltb_spec (o_length o) 0); [lia|].
    pose proof Hv as [Hl Hr]. rewrite S1 in Hr. replace (Z.to_nat (o_length o)) with (length pts) by lia. rewrite (rdcells_value _ _ pts 0 Hr). cbn.
    eexists _, _. splits; [reflexivity| | | |].
    + unfold get_obj. rewrite (proj2 (nth_error_None _ _)); auto.
    + eexists. split; [rewrite get_new; cbn; rewrite Nat.eqb_refl; reflexivity|]. rewrite S1. apply value_block. auto.
    + intros j q (oj & Hgj & Hvj). apply value_new. exists oj. split; auto. cbn. apply value_app. auto.
    + intros b _ k v w'' r E. unfold ts_set in E. rewrite get_new in E. cbn in E. rewrite Nat.eqb_refl in E. cbn in E.
      assert (V1 : value (new_obj (with_heap w (w_heap w ++ [Some (map Some pts)]))
          (fresh (Some (length (w_heap w), 0)) true (o_index o) (o_start o) (o_end o) (o_length o))) i pts).
      { apply value_new. exists o. split; auto. cbn. apply value_app. auto. }
      destruct ((k <? 0) || (o_length o <=? k)); [injection E as <- <-; exact V1|].
      match type of E with (match ?t with _ => _ end) = _ => destruct t as [h2| | |] eqn:Ew end; injection E as <- <-; try exact V1.
      destruct V1 as (o1 & Hg1 & Hv1). exists o1. split; [exact Hg1|].
      refine (value_sub _ _ o1 o1 pts eq_refl eq_refl eq_refl _ Hv1). intros k1 x _ Hx.
      rewrite get_new in Hg1. cbn in Hg1. destruct (Nat.eqb_spec i (length (w_objs w))) as [->|]; [apply get_lt in Hg; lia|].
      assert (o1 = o) by (change (get_obj w i = Some o1) in Hg1; congruence). subst o1.
      rewrite <- Hx. cbn [w_heap with_heap new_obj]. 
      eapply (rd_wr_other (w_heap w ++ [Some (map Some pts)]) (Some (length (w_heap w), 0))); [exact Ew|].
      cbn in Hx. destruct (o_data o) as [[b1 off1]|] eqn:Ed; cbn; [|discriminate]. intros Ea. injection Ea as -> _.
      destruct (S3 _ _ eq_refl) as (_ & [c Ec] & _). apply nth_error_Some_lt in Ec. lia.
  - eexists _, _. splits; [reflexivity| | | |].
    + unfold get_obj. rewrite (proj2 (nth_error_None _ _)); auto.
    + eexists. split; [rewrite get_new, Nat.eqb_refl; reflexivity|]. destruct Hv. split; auto.
    + intros j q. apply value_new.
    + intros b (o' & off & Hg' & Ho' & _). congruence.
Qed.

(** the other objects that do not refer to the released block keep their points *)
Lemma release_value w i oi h o pts : get_obj w i = Some oi -> release w oi = Ret h ->
  (forall b off, owns w i b -> o_data o <> Some (b, off)) -> value_of (w_heap w) o pts -> value_of h o pts.
Proof.
  intros Hg Hr Hb Hv. refine (value_sub (w_heap w) h o o pts eq_refl eq_refl eq_refl _ Hv). intros k x _ Hx. rewrite <- Hx. unfold rd. f_equal.
  unfold release in Hr. destruct (o_owner oi) eqn:Eo; [|injection Hr as <-; auto].
  eapply rdcell_del_other; eauto. intros b off b' off' E1 E2 <-. eapply (Hb b off'); [exists oi, off; auto|eauto].
Qed.

Lemma apart_data w i m o : apart_from w i m -> get_obj w m = Some o -> forall b off, owns w i b -> o_data o <> Some (b, off).
Proof. intros H Hg b off Hb E. apply (H b Hb). exists o, off. auto. Qed.

Lemma assign_value w i j oi oj pts : own w -> i <> j -> get_obj w i = Some oi -> get_obj w j = Some oj -> value w j pts ->
  (o_owner oj = true -> o_length oi = Z.of_nat (length pts)) -> (o_owner oj = false -> apart_from w i j) ->
  exists w', ts_assign w i j = (w', Ret VUnit) /\ value w' i pts /\
    forall m q, m <> i -> apart_from w i m -> value w m q -> value w' m q.
Proof.
  intros O Hne Hi Hj (oj' & Hj' & Hv) Hown Hview. assert (oj' = oj) by congruence. subst oj'.
  unfold ts_assign. rewrite Hi, Hj. fold (release w oi). destruct (release_ok w i oi O Hi) as [h Hr]. rewrite Hr.
  assert (Li : (i < length (w_objs w))%nat) by (eapply get_lt; eauto).
  destruct (o_owner oj) eqn:Eo.
  - assert (Ap : forall b off, owns w i b -> o_data oj <> Some (b, off)).
    { intros b off Hb Ed. destruct (O j oj Hj Eo) as (_ & _ & E3). destruct (E3 b off Ed) as (_ & _ & H3). apply Hne. apply H3. auto. }
    specialize (Hown eq_refl). destruct (Z.ltb_spec (o_length oi) 0); [lia|].
    destruct (Nat.eqb_spec i j); [congruence|].
    pose proof (release_value w i oi h oj pts Hi Hr Ap Hv) as Hv2.
    destruct (O j oj Hj Eo) as (S1 & _ & _). pose proof Hv2 as [Hl Hrd]. rewrite S1 in Hrd.
    rewrite Hown, Nat2Z.id, (rdcells_value h _ pts 0 Hrd). cbn. eexists. splits; [reflexivity| |].
    + eexists. split; [rewrite get_put, Nat.eqb_refl by auto; reflexivity|]. cbn.
      destruct (value_block h pts (o_index oj) (o_end oj) (o_length oj) Hl) as [V1 V2]. split; [exact V1|].
      intros k x Hk. specialize (V2 k x Hk). cbn in *. rewrite S1. exact V2.
    + intros m q Hm Hap (om & Hgm & Hvm). exists om. rewrite get_put by auto. destruct (Nat.eqb_spec m i); [congruence|]. split; auto.
      cbn. apply value_app. exact (release_value w i oi h om q Hi Hr (apart_data w i m om Hap Hgm) Hvm).
  - eexists. splits; [reflexivity| |].
    + eexists. split; [rewrite get_put, Nat.eqb_refl by auto; reflexivity|]. cbn.
      assert (V : value_of h oj pts) by exact (release_value w i oi h oj pts Hi Hr (apart_data w i j oj (Hview eq_refl) Hj) Hv). destruct V. split; auto.
    + intros m q Hm Hap (om & Hgm & Hvm). exists om. rewrite get_put by auto. destruct (Nat.eqb_spec m i); [congruence|]. split; auto.
      cbn. exact (release_value w i oi h om q Hi Hr (apart_data w i m om Hap Hgm) Hvm).
Qed.

Lemma move_value w i j oi pts : own w -> i <> j -> get_obj w i = Some oi -> value w j pts -> apart_from w i j ->
  exists w', ts_move w i j = (w', Ret VUnit) /\ value w' i pts /\
    forall m q, m <> i -> m <> j -> apart_from w i m -> value w m q -> value w' m q.
Proof.
  intros O Hne Hi (oj & Hj & Hv) Hap. unfold ts_move. rewrite Hi, Hj. fold (release w oi). destruct (release_ok w i oi O Hi) as [h Hr]. rewrite Hr.
  assert (Li : (i < length (w_objs w))%nat) by (eapply get_lt; eauto).
  assert (Lj : (j < length (w_objs w))%nat) by (eapply get_lt; eauto).
  cbv zeta. rewrite get_put by auto. destruct (Nat.eqb_spec j i); [congruence|]. rewrite get_heap, Hj.
  eexists. splits; [reflexivity| |].
  - eexists. split; [rewrite get_put by (cbn; rewrite upd_length; auto); destruct (Nat.eqb_spec i j); [congruence|];
      rewrite get_put, Nat.eqb_refl by auto; reflexivity|]. cbn.
    assert (V : value_of h oj pts) by exact (release_value w i oi h oj pts Hi Hr (apart_data w i j oj Hap Hj) Hv). destruct V. split; auto.
  - intros m q Hm Hmj Ha (om & Hgm & Hvm). exists om. split.
    + rewrite get_put by (cbn; rewrite upd_length; auto). destruct (Nat.eqb_spec m j); [congruence|].
      rewrite get_put by auto. destruct (Nat.eqb_spec m i); [congruence|]. auto.
    + cbn. exact (release_value w i oi h om q Hi Hr (apart_data w i m om Ha Hgm) Hvm).
Qed.

(** ** += *)
Fixpoint zip_add (xs ys : list D) : list D :=
  match xs, ys with x :: xs', y :: ys' => nadd x y :: zip_add xs' ys' | _, _ => [] end.
Lemma zip_add_nth xs : forall ys k x y, nth_error xs k = Some x -> nth_error ys k = Some y -> nth_error (zip_add xs ys) k = Some (nadd x y).
Proof.
  induction xs as [|a xs IH]; intros [|b ys] [|k] x y; cbn; try discriminate; auto.
  intros H1 H2. injection H1 as ->. injection H2 as ->. reflexivity.
Qed.
Lemma zip_add_length xs : forall ys, length xs = length ys -> length (zip_add xs ys) = length xs.
Proof. induction xs as [|a xs IH]; intros [|b ys]; cbn; try discriminate; auto. Qed.
Lemma zip_add_combine xs : forall ys, zip_add xs ys = map (fun '(x, y) => nadd x y) (combine xs ys).
Proof. induction xs as [|x xs IH]; intros [|y ys]; cbn; auto. f_equal. auto. Qed.

Lemma nth_some {A} (l : list A) k : (k < length l)%nat -> exists x, nth_error l k = Some x.
Proof. intros H. destruct (nth_error l k) eqn:E; eauto. apply nth_error_None in E. lia. Qed.

Lemma add_loop oi oj h xs ys : value_of h oi xs -> value_of h oj ys -> length xs = length ys -> no_overrun oi oj ->
  exists h', for_ 0 (o_length oi) (add_step oi oj) h = Ret h' /\ value_of h' oi (zip_add xs ys).
Proof.
  intros [Lx Rx] [Ly Ry] Ll No.
  destruct (for_inv (fun k h1 =>
     (forall m x y, nth_error xs m = Some x -> nth_error ys m = Some y -> Z.of_nat m < k -> rd h1 (o_data oi) (o_start oi + Z.of_nat m) = Ret (nadd x y)) /\
     (forall m x, nth_error xs m = Some x -> k <= Z.of_nat m -> rd h1 (o_data oi) (o_start oi + Z.of_nat m) = Ret x) /\
     (forall m y, nth_error ys m = Some y -> k <= Z.of_nat m -> rd h1 (o_data oj) (o_start oj + Z.of_nat m) = Ret y))
     (add_step oi oj) 0 (o_length oi) h) as (h' & E & H1 & _ & _).
  - lia.
  - splits; auto. intros; lia.
  - intros k h1 Hk (H1 & H2 & H3). unfold add_step, at_.
    destruct (nth_some xs (Z.to_nat k)) as [x Ex]; [lia|]. destruct (nth_some ys (Z.to_nat k)) as [y Ey]; [lia|].
    pose proof (H2 _ _ Ex) as A1. pose proof (H3 _ _ Ey) as A2. rewrite Z2Nat.id in A1, A2 by lia.
    rewrite A1 by lia. cbn [bind]. destruct (Z.ltb_spec k 0); [lia|]. destruct (Z.leb_spec (o_length oj) k); [lia|]. cbn [orb].
    rewrite A2 by lia. cbn [bind]. destruct (wr_ok h1 (o_data oi) (o_start oi + k) (nadd x y) x (A1 ltac:(lia))) as [h2 Hw].
    exists h2. splits; auto.
    + intros m x' y' Hx Hy Hm. destruct (Z.eq_dec (Z.of_nat m) k) as [Hmk|Hmk].
      * replace m with (Z.to_nat k) in Hx, Hy by lia. assert (x' = x) by congruence. assert (y' = y) by congruence. subst x' y'.
        apply (rd_wr_same _ _ _ _ _ _ _ Hw). rewrite Hmk. reflexivity.
      * rewrite (rd_wr_other _ _ _ _ _ _ _ Hw); [apply H1; auto; lia|].
        apply rd_Ret in A1 as (b & off & cells & -> & _); [|lia]. cbn. intros Ea. injection Ea as Ea. lia.
    + intros m x' Hx Hm. rewrite (rd_wr_other _ _ _ _ _ _ _ Hw); [apply H2; auto; lia|].
      apply rd_Ret in A1 as (b & off & cells & -> & _); [|lia]. cbn. intros Ea. injection Ea as Ea. lia.
    + intros m y' Hy Hm. rewrite (rd_wr_other _ _ _ _ _ _ _ Hw); [apply H3; auto; lia|].
      apply rd_Ret in A1 as (b & off & cells & Ed & _); [|lia]. intros Ea. rewrite Ed in Ea. cbn in Ea.
      destruct (o_data oj) as [[b' off']|] eqn:Edj; [|discriminate]. cbn in Ea. injection Ea as -> Ea.
      apply nth_error_Some_lt in Hy. destruct (No b off _ Ed Edj); lia.
  - exists h'. split; auto. split; [rewrite zip_add_length; auto|]. intros k z Hz.
    assert (Hk : (k < length xs)%nat) by (apply nth_error_Some_lt in Hz; rewrite zip_add_length in Hz; auto).
    destruct (nth_some xs k) as [x Ex]; auto. destruct (nth_some ys k) as [y Ey]; [lia|].
    rewrite (zip_add_nth _ _ _ _ _ Ex Ey) in Hz. injection Hz as <-. apply H1; auto. lia.
Qed.

Lemma add_value w i j oi oj xs ys : get_obj w i = Some oi -> get_obj w j = Some oj -> value w i xs -> value w j ys ->
  length xs = length ys -> no_overrun oi oj ->
  exists w', ts_add w i j = (w', Ret VUnit) /\ value w' i (map (fun '(x, y) => nadd x y) (combine xs ys)) /\
    (forall m om q, get_obj w m = Some om -> m <> i -> (forall b a, covers oi b a -> ~ covers om b a) -> value w m q -> value w' m q).
Proof.
  intros Hi Hj (oi' & Hi' & Vi) (oj' & Hj' & Vj) Ll No. assert (oi' = oi) by congruence. assert (oj' = oj) by congruence. subst oi' oj'.
  unfold ts_add. rewrite Hi, Hj. pose proof Vi as [Li _]. pose proof Vj as [Lj _].
  replace (o_length oj =? o_length oi) with true by (symmetry; apply Z.eqb_eq; lia). cbn [negb].
  destruct (add_loop oi oj (w_heap w) xs ys Vi Vj Ll No) as (h & E & V). rewrite E. eexists. splits; [reflexivity| |].
  - eexists. split; [rewrite get_put, Nat.eqb_refl by (eapply get_lt; eauto); reflexivity|]. rewrite <- zip_add_combine.
    destruct V. split; auto.
  - intros m om q Hm Hne Hc (om' & Hm' & Vm). assert (om' = om) by congruence. subst om'. exists om.
    rewrite get_put by (eapply get_lt; eauto). destruct (Nat.eqb_spec m i); [congruence|]. split; auto.
    cbn. apply add_loop_frame in E as [_ Fr].
    refine (value_sub (w_heap w) h om om q eq_refl eq_refl eq_refl _ Vm). intros k x Hk Hx. rewrite <- Hx. unfold rd. f_equal. apply Fr.
    intros k2 Hk2 Ea. apply rd_Ret in Hx as (b & off & cells & Ed & _). rewrite Ed in Ea. cbn in Ea.
    destruct (o_data oi) as [[b' off']|] eqn:Edi; [|discriminate]. cbn in Ea. injection Ea as <- Ea.
    apply (Hc b (off + (o_start om + k))); [exists off'; split; auto; lia|exists off; split; auto; lia].
Qed.

Lemma add_throws w i j oi oj : get_obj w i = Some oi -> get_obj w j = Some oj -> o_length oi <> o_length oj ->
  ts_add w i j = (w, Throw (GenexExc "Two time series must have the same length for addition")).
Proof.
  intros Hi Hj Hl. unfold ts_add. rewrite Hi, Hj. destruct (Z.eqb_spec (o_length oj) (o_length oi)); [congruence|]. reflexivity.
Qed.

(** ** element access *)
Lemma at_value w i pts k : value w i pts ->
  ts_at w i k = (w, match (if k <? 0 then None else nth_error pts (Z.to_nat k)) with
                    | Some x => Ret (VVal x) | None => Throw (GenexExc "Data point index is out of range") end).
Proof.
  intros (o & Hg & Hl & Hr). unfold ts_at, at_. rewrite Hg. destruct (Z.ltb_spec k 0) as [Hk|Hk]; auto. cbn [orb].
  destruct (Z.leb_spec (o_length o) k) as [Hk2|Hk2].
  - rewrite (proj2 (nth_error_None _ _)) by lia. reflexivity.
  - destruct (nth_some pts (Z.to_nat k)) as [x Ex]; [lia|]. rewrite Ex. specialize (Hr _ _ Ex). rewrite Z2Nat.id in Hr by lia.
    rewrite Hr. reflexivity.
Qed.

Lemma set_value w i pts k v : value w i pts -> 0 <= k < Z.of_nat (length pts) ->
  exists w', ts_set w i k v = (w', Ret VUnit) /\ value w' i (upd pts (Z.to_nat k) v).
Proof.
  intros (o & Hg & Hl & Hr) Hk. unfold ts_set. rewrite Hg. destruct (Z.ltb_spec k 0); [lia|]. destruct (Z.leb_spec (o_length o) k); [lia|]. cbn [orb].
  destruct (nth_some pts (Z.to_nat k)) as [x Ex]; [lia|]. pose proof (Hr _ _ Ex) as Hx. rewrite Z2Nat.id in Hx by lia.
  destruct (wr_ok (w_heap w) (o_data o) (o_start o + k) v x Hx) as [h Hw]. rewrite Hw. eexists. split; [reflexivity|].
  exists o. split; auto. split; [rewrite upd_length; auto|]. cbn. intros m y Hm. destruct (Nat.eq_dec m (Z.to_nat k)) as [->|Hne].
  - rewrite nth_error_upd_same in Hm by lia. injection Hm as <-. apply (rd_wr_same _ _ _ _ _ _ _ Hw). rewrite Z2Nat.id by lia. reflexivity.
  - rewrite nth_error_upd_neq in Hm by auto. rewrite (rd_wr_other _ _ _ _ _ _ _ Hw); auto.
    apply rd_Ret in Hx as (b & off & cells & -> & _). cbn. intros Ea. injection Ea as Ea. lia.
Qed.

(** ** comparison *)
Lemma eq_value w i j oi oj xs ys : get_obj w i = Some oi -> get_obj w j = Some oj -> value w i xs -> value w j ys ->
  o_data oi <> o_data oj -> o_data oi <> None -> o_data oj <> None ->
  exists b, ts_eq w i j = (w, Ret (VBool b)) /\
    (b = true <-> length xs = length ys /\ forall k x y, nth_error xs k = Some x -> nth_error ys k = Some y -> nltb neps (nabs (nsub x y)) = false).
Proof.
  intros Hi Hj (oi' & Hi' & Lx & Rx) (oj' & Hj' & Ly & Ry) Hd Hn Hn'. assert (oi' = oi) by congruence. assert (oj' = oj) by congruence. subst oi' oj'.
  unfold ts_eq. rewrite Hi, Hj.
  assert (Ep : ptr_eqb (o_data oi) (o_data oj) = false).
  { destruct (o_data oi) as [[b o]|], (o_data oj) as [[b' o']|]; cbn; try contradiction.
    destruct (Nat.eqb_spec b b'); auto. destruct (Z.eqb_spec o o'); auto. congruence. }
  rewrite Ep. destruct (o_data oi) as [pi|] eqn:Edi; [|contradiction]. destruct (o_data oj) as [pj|] eqn:Edj; [|contradiction].
  destruct (Z.eqb_spec (o_length oi) (o_length oj)) as [El|El]; cbn [negb].
  2:{ exists false. split; auto. split; [discriminate|]. intros [H _]. lia. }
  destruct (forb_inv (fun k _ => forall m x y, nth_error xs m = Some x -> nth_error ys m = Some y -> Z.of_nat m < k -> nltb neps (nabs (nsub x y)) = false)
                     (fun k _ => exists m x y, nth_error xs m = Some x /\ nth_error ys m = Some y /\ nltb neps (nabs (nsub x y)) = true)
                     (eq_step (w_heap w) oi oj) 0 (o_length oi) tt) as (u & b & E & Hb).
  - lia.
  - intros; lia.
  - intros k u Hk Hinv. unfold eq_step. rewrite Edi, Edj.
    destruct (nth_some xs (Z.to_nat k)) as [x Ex]; [lia|]. destruct (nth_some ys (Z.to_nat k)) as [y Ey]; [lia|].
    pose proof (Rx _ _ Ex) as A1. pose proof (Ry _ _ Ey) as A2. rewrite Z2Nat.id in A1, A2 by lia. rewrite A1, A2. cbn [bind].
    eexists tt, _. split; [reflexivity|]. destruct (nltb neps (nabs (nsub x y))) eqn:Eb.
    + exists (Z.to_nat k), x, y. auto.
    + intros m x' y' Hx Hy Hm. destruct (Z.eq_dec (Z.of_nat m) k) as [Hmk|Hmk].
      * replace m with (Z.to_nat k) in Hx, Hy by lia. congruence.
      * apply (Hinv m); auto. lia.
  - rewrite E. cbn [bind]. exists (negb b). split; auto. destruct b; cbn.
    + split; [discriminate|]. intros [_ H]. destruct Hb as (k0 & _ & m & x & y & H1 & H2 & H3). rewrite (H m x y H1 H2) in H3. discriminate.
    + split; auto. intros _. split; [lia|]. intros k x y Hx Hy. apply (Hb k); auto. apply nth_error_Some_lt in Hx. lia.
Qed.

(** ** the average *)
Lemma average_ub w i pts : value w i pts -> ts_average w i = (w, UB Uninit).
Proof.
  intros (o & Hg & Hl & Hr). unfold ts_average. rewrite Hg. f_equal. destruct pts as [|x pts].
  - cbn in Hl. rewrite <- Hl. reflexivity.
  - unfold for_. replace (Z.to_nat (o_length o - 0)) with (S (length pts)) by (cbn [length] in Hl; lia). cbn [for_n].
    unfold avg_step at 1. specialize (Hr O x eq_refl). rewrite Z.add_0_r in *. rewrite Hr. reflexivity.
Qed.

(** ** the envelope *)
Lemma cached_value upper w i o pts band : inv w -> get_obj w i = Some o -> value_of (w_heap w) o pts ->
  forall lo up, keoghLU (ts_of_list pts) band = Ret (lo, up) -> exists w', ts_keogh upper w i band = (w', Ret (VArr (Some (if upper then up else lo)))) /\
    forall m q, value w m q -> value w' m q.
Proof.
  intros I Hg Hv lo up Ek. unfold ts_keogh. rewrite Hg. destruct (I i o Hg) as [Hk Hc]. pose proof (proj1 Hv) as Hl.
  assert (P : exists w', (if o_length o <? 0 then
            (put_obj w i (Some (mkObj (o_data o) (o_owner o) (o_index o) (o_start o) (o_end o) (o_length o)
                                 (o_valid o) None None (o_band o))), Throw (StdExc "bad_array_new_length")) else
          match generate (w_heap w) o band with
          | Ret (lo, up) =>
              (put_obj w i (Some (mkObj (o_data o) (o_owner o) (o_index o) (o_start o) (o_end o) (o_length o)
                                   true (Some lo) (Some up) (Some band))),
               Ret (VArr (Some (if upper then up else lo))))
          | Throw e => (w, Throw e) | UB u => (w, UB u) | Hang => (w, Hang)
          end) = (w', Ret (VArr (Some (if upper then up else lo)))) /\ forall m q, value w m q -> value w' m q).
  { destruct (Z.ltb_spec (o_length o) 0); [lia|]. unfold generate. rewrite (value_rdpts _ _ _ Hv). cbn [bind]. rewrite Ek.
    eexists. split; [reflexivity|]. intros m q (om & Hm & Vm). 
    unfold value. rewrite get_put by (eapply get_lt; eauto). destruct (Nat.eqb_spec m i) as [->|Hne].
    - eexists. split; [reflexivity|]. assert (om = o) by congruence. subst om. destruct Vm. split; auto.
    - exists om. auto. }
  assert (Cc : cached o band = Ret false \/ cached o band = Ret true /\ o_lower o = Some lo /\ o_upper o = Some up).
  { unfold cached. destruct (o_valid o) eqn:Ev; [|auto]. destruct (Hc Ev) as (_ & b & lo' & up' & E1 & E2 & E3 & Hp).
    rewrite E1. cbn [init_get bind]. destruct (Z.eqb_spec band b) as [->|Hne]; [|auto].
    specialize (Hp pts Hv). rewrite Ek in Hp. injection Hp as <- <-. auto. }
  destruct Cc as [-> |(-> & E2 & E3)]; [exact P|]. exists w. rewrite E2, E3. destruct upper; auto.
Qed.

(** ** destruction *)
Lemma destroy_value w i o : own w -> get_obj w i = Some o ->
  exists w', ts_destroy w i = (w', Ret VUnit) /\ get_obj w' i = None /\
    (forall b, allocated w b -> ~ owns w i b -> allocated w' b) /\
    (forall b, owns w i b -> ~ allocated w' b) /\
    (forall m q, m <> i -> apart_from w i m -> value w m q -> value w' m q) /\
    (forall m q b, m <> i -> owns w m b -> value w m q -> value w' m q).
Proof.
  intros O Hg. unfold ts_destroy. rewrite Hg. fold (release w o). destruct (release_ok w i o O Hg) as [h Hr]. rewrite Hr.
  assert (Li : (i < length (w_objs w))%nat) by (eapply get_lt; eauto).
  assert (V : forall m q, m <> i -> apart_from w i m -> value w m q -> value (put_obj (with_heap w h) i None) m q).
  { intros m q Hm Ha (om & Hgm & Hvm). exists om. rewrite get_put by auto. destruct (Nat.eqb_spec m i); [congruence|]. split; auto.
    exact (release_value w i o h om q Hg Hr (apart_data w i m om Ha Hgm) Hvm). }
  eexists. splits; [reflexivity| | | |exact V|].
  - rewrite get_put, Nat.eqb_refl by auto. reflexivity.
  - intros b Ha Hn. unfold release in Hr. destruct (o_owner o) eqn:Eo; [|injection Hr as <-; exact Ha].
    apply (alloc_del w _ h b Hr); auto. intros off Ed. apply Hn. exists o, off. auto.
  - intros b Hb Ha. apply (release_alloc w i o h b O Hg Hr) in Ha as [_ Ha]. auto.
  - intros m q b Hm (om & off & Hgm & Ho & Hd) Hv. apply V; auto. intros b' Hb' (om' & off' & Hgm' & Hd').
    assert (om' = om) by congruence. subst om'. assert (b' = b) by congruence. subst b'.
    destruct (O m om Hgm Ho) as (_ & _ & H3). destruct (H3 b off Hd) as (_ & _ & Hu). apply Hm. symmetry. auto.
Qed.
Lemma move_ok w i j oi oj : own w -> get_obj w i = Some oi -> get_obj w j = Some oj -> exists w', ts_move w i j = (w', Ret VUnit).
Proof.
  intros O Hi Hj. unfold ts_move. rewrite Hi, Hj. fold (release w oi). destruct (release_ok w i oi O Hi) as [h Hr]. rewrite Hr. cbv zeta.
  rewrite get_put by (eapply get_lt; eauto). destruct (Nat.eqb j i); [eauto|]. rewrite get_heap, Hj. eauto.
Qed.
Lemma assign_view_ok w i j oi oj : own w -> get_obj w i = Some oi -> get_obj w j = Some oj -> o_owner oj = false -> exists w', ts_assign w i j = (w', Ret VUnit).
Proof.
  intros O Hi Hj Ho. unfold ts_assign. rewrite Hi, Hj. fold (release w oi). destruct (release_ok w i oi O Hi) as [h Hr]. rewrite Hr, Ho. eauto.
Qed.
End P.
