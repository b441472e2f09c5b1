(** Time series objects: ownership of memory, over all histories. *)
From Coq Require Import String.
From Verif Require Import Base Num LoopFacts DataProofs PAAProofs TimeSeries Lemire Distance TSObject TSObjSpec TSObjProofs.
Local Open Scope Z_scope.
Local Open Scope list_scope.

Section P.
Context {N : Num}.
Notation D := (D N).
Implicit Types (h : heap N) (w : world N).

Definition own w : Prop := forall i o, get_obj w i = Some o -> o_owner o = true ->
  o_start o = 0 /\ 0 <= o_length o /\
  forall b off, o_data o = Some (b, off) -> off = 0 /\ allocated w b /\ forall j, owns w j b -> j = i.

Lemma own_init : own world0.
Proof. intros i o H. unfold get_obj in H. cbn in H. destruct i; discriminate. Qed.

(** a heap in which the owned blocks are still there *)
Lemma own_heap w h : own w -> (forall i b, owns w i b -> allocated w b -> allocated (with_heap w h) b) -> own (with_heap w h).
Proof.
  intros O H i o Hg Ho. destruct (O i o Hg Ho) as (E1 & E2 & E3). splits; auto.
  intros b off Ed. destruct (E3 b off Ed) as (H1 & H2 & H3). splits; auto. apply (H i); auto. exists o, off. auto.
Qed.
Lemma alloc_app w c b : allocated w b -> allocated (with_heap w (w_heap w ++ [c])) b.
Proof. intros [cells E]. exists cells. cbn. rewrite nth_error_app1; auto. eapply nth_error_Some_lt; eauto. Qed.
Lemma alloc_wr w p i v h b : wr (w_heap w) p i v = Ret h -> allocated w b -> allocated (with_heap w h) b.
Proof.
  intros H [cells E]. apply wr_Ret in H as (b' & o & cells' & _ & E' & _ & ->). unfold allocated. cbn.
  destruct (Nat.eq_dec b b') as [->|Hne].
  - rewrite nth_error_upd_same by (eapply nth_error_Some_lt; eauto). eauto.
  - rewrite nth_error_upd_neq by auto. eauto.
Qed.
Lemma alloc_del w p h b : del_block (w_heap w) p = Ret h -> (forall off, p <> Some (b, off)) -> allocated w b -> allocated (with_heap w h) b.
Proof.
  destruct p as [[b' o]|]; cbn; [|intros E; injection E as <-; auto].
  destruct (nth_error (w_heap w) b') as [[cells|]|] eqn:E; try discriminate. destruct (o =? 0); [|discriminate].
  intros E' Hne [c Ec]. injection E' as <-. exists c. cbn. rewrite nth_error_upd_neq; auto. intros ->. eapply Hne; eauto.
Qed.
Lemma del_gone w p h b : del_block (w_heap w) p = Ret h -> allocated (with_heap w h) b -> allocated w b /\ forall off, p <> Some (b, off).
Proof.
  destruct p as [[b' o]|]; cbn; [|intros E; injection E as <-; intros H; split; [exact H|discriminate]].
  destruct (nth_error (w_heap w) b') as [[cells|]|] eqn:E; try discriminate. destruct (o =? 0); [|discriminate].
  intros E'. injection E' as <-. intros [c Ec]. cbn in Ec.
  destruct (Nat.eq_dec b b') as [->|Hne].
  - rewrite nth_error_upd_same in Ec by (eapply nth_error_Some_lt; eauto). discriminate.
  - rewrite nth_error_upd_neq in Ec by auto. split; [exists c; auto|]. intros off Ep. injection Ep as <-. congruence.
Qed.

Lemma owns_put w i x j b : (i < length (w_objs w))%nat -> owns (put_obj w i x) j b ->
  (j <> i /\ owns w j b) \/ (j = i /\ exists o off, x = Some o /\ o_owner o = true /\ o_data o = Some (b, off)).
Proof.
  intros Hi (o & off & Hg & H). rewrite get_put in Hg by auto. destruct (Nat.eqb_spec j i) as [->|Hne]; [right|left]; split; auto;
    exists o, off; auto.
Qed.
Lemma owns_new w o j b : owns (new_obj w o) j b ->
  owns w j b \/ (j = length (w_objs w) /\ exists off, o_owner o = true /\ o_data o = Some (b, off)).
Proof.
  intros (o' & off & Hg & H). rewrite get_new in Hg. destruct (Nat.eqb_spec j (length (w_objs w))) as [->|Hne].
  - injection Hg as <-. right. eauto.
  - left. exists o', off. auto.
Qed.

(** replacing object [i] *)
Lemma own_put w i x : own w -> (i < length (w_objs w))%nat ->
  (forall o, x = Some o -> o_owner o = true -> o_start o = 0 /\ 0 <= o_length o /\
     forall b off, o_data o = Some (b, off) -> off = 0 /\ allocated w b /\ forall j, owns w j b -> j = i) ->
  own (put_obj w i x).
Proof.
  intros O Hi Hx j o Hg Ho. rewrite get_put in Hg by auto. destruct (Nat.eqb_spec j i) as [->|Hne].
  - subst x. destruct (Hx o eq_refl Ho) as (E1 & E2 & E3). splits; auto. intros b off Ed. destruct (E3 b off Ed) as (H1 & H2 & H3).
    splits; auto. intros m Hm. apply owns_put in Hm as [[Hm1 Hm2]|[Hm _]]; auto.
  - destruct (O j o Hg Ho) as (E1 & E2 & E3). splits; auto. intros b off Ed. destruct (E3 b off Ed) as (H1 & H2 & H3).
    splits; auto. intros m Hm. apply owns_put in Hm as [[Hm1 Hm2]|[-> (o' & off' & Ex & Ho' & Ed')]]; auto.
    exfalso. destruct (Hx o' Ex Ho') as (_ & _ & E3'). destruct (E3' b off' Ed') as (_ & _ & H3'). apply Hne. apply H3'. exists o, off. auto.
Qed.
Lemma own_new w o : own w ->
  (o_owner o = true -> o_start o = 0 /\ 0 <= o_length o /\
     forall b off, o_data o = Some (b, off) -> off = 0 /\ allocated w b /\ forall j, ~ owns w j b) ->
  own (new_obj w o).
Proof.
  intros O Hx j o' Hg Ho. rewrite get_new in Hg. destruct (Nat.eqb_spec j (length (w_objs w))) as [->|Hne].
  - injection Hg as <-. destruct (Hx Ho) as (E1 & E2 & E3). splits; auto. intros b off Ed. destruct (E3 b off Ed) as (H1 & H2 & H3).
    splits; auto. intros m Hm. apply owns_new in Hm as [Hm|[Hm _]]; auto. exfalso. eapply H3; eauto.
  - destruct (O j o' Hg Ho) as (E1 & E2 & E3). splits; auto. intros b off Ed. destruct (E3 b off Ed) as (H1 & H2 & H3).
    splits; auto. intros m Hm. apply owns_new in Hm as [Hm|[-> (off' & Ho' & Ed')]]; auto.
    exfalso. destruct (Hx Ho') as (_ & _ & E3'). destruct (E3' b off' Ed') as (_ & _ & H3'). eapply H3'. exists o', off. eauto.
Qed.

Lemma owns_heap w h j b : owns (with_heap w h) j b <-> owns w j b.
Proof. reflexivity. Qed.
Lemma owned_alloc w i b : own w -> owns w i b -> allocated w b.
Proof. intros O (o & off & Hg & Ho & Ed). apply (O i o Hg Ho) in Ed. tauto. Qed.
Lemma not_owned_new w : own w -> forall j, ~ owns w j (length (w_heap w)).
Proof. intros O j H. apply (owned_alloc w j _ O) in H as [c E]. apply nth_error_Some_lt in E. lia. Qed.

(** giving up what object [i] has *)
Definition release w (o : obj N) : res (heap N) := if o_owner o then del_block (w_heap w) (o_data o) else Ret (w_heap w).
Lemma release_ok w i o : own w -> get_obj w i = Some o -> exists h, release w o = Ret h.
Proof.
  intros O Hg. unfold release. destruct (o_owner o) eqn:Eo; [|eauto]. destruct (O i o Hg Eo) as (_ & _ & E3).
  destruct (o_data o) as [[b off]|] eqn:Ed; cbn; [|eauto]. destruct (E3 b off eq_refl) as (-> & [c Ec] & _). rewrite Ec. cbn. eauto.
Qed.
(** object [i] no longer matters; all other owners keep their blocks *)
Lemma release_own w i o h x : own w -> get_obj w i = Some o -> release w o = Ret h ->
  (forall o', x = Some o' -> o_owner o' = false) -> own (put_obj (with_heap w h) i x).
Proof.
  intros O Hg Hr Hx j o' Hj Ho'. rewrite get_put in Hj by (eapply get_lt; eauto).
  destruct (Nat.eqb_spec j i) as [->|Hne]; [apply Hx in Hj; congruence|].
  destruct (O j o' Hj Ho') as (E1 & E2 & E3). splits; auto. intros b off Ed. destruct (E3 b off Ed) as (H1 & H2 & H3). splits; auto.
  - unfold release in Hr. destruct (o_owner o) eqn:Eo; [|injection Hr as <-; exact H2].
    apply (alloc_del w _ h b Hr); auto. intros off' Ed'. apply Hne. symmetry. apply H3. exists o, off'. auto.
  - intros m Hm. apply owns_put in Hm as [[Hm1 Hm2]|[-> (o2 & off2 & Ex & Ho2 & _)]]; [auto| |eapply get_lt; eauto].
    apply Hx in Ex. congruence.
Qed.

Lemma put_put w i x y : put_obj (put_obj w i x) i y = put_obj w i y.
Proof.
  unfold put_obj. f_equal. cbn. apply list_ext. intros n. destruct (Nat.eq_dec n i) as [->|Hne].
  - destruct (Nat.lt_ge_cases i (length (w_objs w))).
    + rewrite !nth_error_upd_same; auto. rewrite upd_length. auto.
    + rewrite !(proj2 (nth_error_None _ _)); auto; rewrite !upd_length; auto.
  - rewrite !nth_error_upd_neq; auto.
Qed.

Lemma own_keogh upper w i band w' r : own w -> ts_keogh upper w i band = (w', r) -> own w'.
Proof.
  intros O E. unfold ts_keogh in E. destruct (get_obj w i) as [o|] eqn:Eo; [|injection E as <- <-; auto].
  assert (P : forall v lo up b, own (put_obj w i (Some (mkObj (o_data o) (o_owner o) (o_index o) (o_start o) (o_end o) (o_length o) v lo up b)))).
  { intros v lo up b. apply own_put; [auto|eapply get_lt; eauto|]. intros o' Ho. injection Ho as <-. cbn. intros Hw. apply (O i o Eo Hw). }
  destruct (cached o band) as [[|]| | |]; try (injection E as <- <-; auto; fail).
  destruct (o_length o <? 0); [injection E as <- <-; auto|].
  destruct (generate (w_heap w) o band) as [[lo up]| | |]; injection E as <- <-; auto.
Qed.

Lemma own_step w x w' r : own w -> legal w x -> exec x w = (w', r) -> defined r -> own w'.
Proof.
  intros O Hleg E Hd. destruct x; cbn [exec legal] in *.
  - (* OBuf *) injection E as <- <-. apply own_heap; auto. intros _ b _. apply alloc_app.
  - (* OWrite *) unfold buf_write in E. destruct (wr (w_heap w) (Some (b, 0)) k v) as [h| | |] eqn:Ew; injection E as <- <-; auto.
    apply own_heap; auto. intros _ b' _. eapply alloc_wr; eauto.
  - (* OFree *) unfold buf_free in E. destruct (del_block (w_heap w) (Some (b, 0))) as [h| | |] eqn:Ew; injection E as <- <-; auto.
    apply own_heap; auto. intros i b' Hi. eapply alloc_del; eauto. intros off Ep. injection Ep as -> _. eapply Hleg; eauto.
  - injection E as <- <-. apply own_new; auto. discriminate.
  - injection E as <- <-. apply own_new; auto. discriminate.
  - (* OOwned *) unfold ts_mk_owned in E. destruct (Z.ltb_spec len 0); cbn [new_block] in E; injection E as <- <-; auto.
    apply own_new; [apply own_heap; auto; intros _ b _; apply alloc_app|]. intros _. cbn. splits; auto.
    intros b off Ed. injection Ed as <- <-. splits; auto.
    + exists (repeat (Some n0) (Z.to_nat len)). cbn. rewrite nth_error_app2, Nat.sub_diag; auto.
    + intros j. apply (not_owned_new w O).
  - (* OCopy *) unfold ts_copy in E. destruct (get_obj w i) as [o|] eqn:Eo; [|injection E as <- <-; auto].
    destruct (o_owner o) eqn:Ho.
    + unfold dup in E. destruct (o_length o <? 0); [injection E as <- <-; auto|].
      destruct (rdcells (w_heap w) (o_data o) (Z.to_nat (o_length o)) 0) as [cells| | |]; cbn in E; injection E as <- <-; auto.
      destruct (O i o Eo Ho) as (E1 & E2 & _).
      apply own_new; [apply own_heap; auto; intros _ b _; apply alloc_app|]. intros _. cbn. splits; auto.
      intros b off Ed. injection Ed as <- <-. splits; auto.
      * exists cells. cbn. rewrite nth_error_app2, Nat.sub_diag; auto.
      * intros j. apply (not_owned_new w O).
    + injection E as <- <-. apply own_new; auto. discriminate.
  - (* OAssign *) unfold ts_assign in E. destruct (get_obj w i) as [oi|] eqn:Ei; [|injection E as <- <-; auto].
    destruct (get_obj w j) as [oj|] eqn:Ej; [|injection E as <- <-; auto].
    fold (release w oi) in E. destruct (release_ok w i oi O Ei) as [h Hr]. rewrite Hr in E.
    destruct (o_owner oj) eqn:Hoj.
    + destruct (O j oj Ej Hoj) as (S1 & S2 & S3).
      destruct (Z.ltb_spec (o_length oi) 0) as [Hneg|Hneg].
      * injection E as <- <-. unfold release in Hr. destruct (o_owner oi) eqn:Hoi.
        -- destruct (O i oi Ei Hoi) as (_ & ? & _). lia.
        -- injection Hr as <-. destruct w; auto.
      * destruct (if Nat.eqb i j then Ret (repeat None (Z.to_nat (o_length oi))) else rdcells h (o_data oj) (Z.to_nat (o_length oi)) 0)
          as [cells| | |]; cbn in E; injection E as <- <-; auto.
        assert (Lh : length h = length (w_heap w)).
        { unfold release in Hr. destruct (o_owner oi); [eapply del_length; eauto|injection Hr as <-; auto]. }
        rewrite <- (put_put (with_heap w (h ++ [Some cells])) i None).
        assert (Oh : own (put_obj (with_heap w h) i None)) by (eapply release_own; eauto; discriminate).
        assert (Li : (i < length (w_objs w))%nat) by (eapply get_lt; eauto).
        assert (Oh2 : own (put_obj (with_heap w (h ++ [Some cells])) i None)).
        { change (own (with_heap (put_obj (with_heap w h) i None) (w_heap (put_obj (with_heap w h) i None) ++ [Some cells]))).
          apply own_heap; auto. intros _ b _. apply alloc_app. }
        apply own_put; auto; [cbn; rewrite upd_length; auto|].
        intros o Eo _. injection Eo as <-. cbn. splits; auto. intros b off Ed. injection Ed as <- <-. splits; auto.
        -- exists cells. cbn. rewrite nth_error_app2, Nat.sub_diag; auto.
        -- intros m Hm. exfalso. apply (not_owned_new _ Oh m). exact Hm.
    + injection E as <- <-. eapply release_own; eauto. intros o' Eo. injection Eo as <-. cbn. auto.
  - (* OMove *) unfold ts_move in E. destruct (get_obj w i) as [oi|] eqn:Ei; [|injection E as <- <-; auto].
    destruct (get_obj w j) as [oj|] eqn:Ej; [|injection E as <- <-; auto].
    fold (release w oi) in E. destruct (release_ok w i oi O Ei) as [h Hr]. rewrite Hr in E. cbv zeta in E.
    assert (Li : (i < length (w_objs w))%nat) by (eapply get_lt; eauto).
    assert (Lj : (j < length (w_objs w))%nat) by (eapply get_lt; eauto).
    rewrite get_put in E by auto. destruct (Nat.eqb_spec j i) as [->|Hne].
    + assert (oi = oj) as <- by congruence. cbn [taken o_owner o_index o_start o_end o_length o_valid o_lower o_upper o_band] in E.
      rewrite put_put in E. injection E as <- <-.
      rewrite <- (put_put (with_heap w h) i None).
      apply own_put; [eapply release_own; eauto; discriminate|cbn; rewrite upd_length; auto|].
      intros o Eo. injection Eo as <-. cbn. intros Ho. destruct (O i oi Ei Ho) as (S1 & S2 & _). splits; auto. discriminate.
    + rewrite get_heap, Ej in E. injection E as <- <-.
      intros m o Hm Ho. rewrite get_put in Hm by (cbn; rewrite upd_length; auto).
      assert (Ow : forall k b, owns (put_obj (put_obj (with_heap w h) i (Some (taken oi oj (o_data oj)))) j
              (Some (mkObj None (o_owner oj) (o_index oj) (o_start oj) (o_end oj) (o_length oj) (o_valid oj) (o_lower oj) (o_upper oj) (o_band oj)))) k b ->
              (k = i /\ owns w j b) \/ (k <> i /\ k <> j /\ owns w k b)).
      { intros k b Hk. apply owns_put in Hk as [[K1 K2]|[K (o2 & off2 & Eo2 & _ & Ed2)]]; [|injection Eo2 as <-; discriminate Ed2|cbn; rewrite upd_length; auto].
        apply owns_put in K2 as [[K3 K4]|[K3 (o2 & off2 & Eo2 & Ho2 & Ed2)]]; auto.
        left. injection Eo2 as <-. cbn in *. split; auto. exists oj, off2. auto. }
      assert (Al : forall k b, k <> i -> owns w k b -> allocated w b -> allocated (with_heap w h) b).
      { intros k b Hk Hkb Ha. unfold release in Hr. destruct (o_owner oi) eqn:Eoi; [|injection Hr as <-; exact Ha].
        eapply alloc_del; eauto. intros off' Ed'. apply Hk.
        destruct Hkb as (ok & offk & Gk & Hok & Edk). destruct (O k ok Gk Hok) as (_ & _ & E3). destruct (E3 b offk Edk) as (_ & _ & H3).
        symmetry. apply H3. exists oi, off'. auto. }
      destruct (Nat.eqb_spec m j) as [->|Hmj].
      * injection Hm as <-. cbn in *. destruct (O j oj Ej Ho) as (S1 & S2 & _). splits; auto. discriminate.
      * rewrite get_put in Hm by auto. destruct (Nat.eqb_spec m i) as [->|Hmi].
        -- injection Hm as <-. cbn in *. destruct (O j oj Ej Ho) as (S1 & S2 & S3). splits; auto.
           intros b off Ed. destruct (S3 b off Ed) as (H1 & H2 & H3). splits; auto.
           ++ apply (Al j b); auto. exists oj, off. auto.
           ++ intros k Hk. apply Ow in Hk as [[-> _]|(K1 & K2 & K3)]; auto. exfalso. apply K2. auto.
        -- rewrite get_heap in Hm. destruct (O m o Hm Ho) as (S1 & S2 & S3). splits; auto.
           intros b off Ed. destruct (S3 b off Ed) as (H1 & H2 & H3). splits; auto.
           ++ apply (Al m b); auto. exists o, off. auto.
           ++ intros k Hk. apply Ow in Hk as [[-> K1]|(K1 & K2 & K3)]; auto. exfalso. apply Hmj. symmetry. auto.
  - (* ODestroy *) unfold ts_destroy in E. destruct (get_obj w i) as [oi|] eqn:Ei; [|injection E as <- <-; auto].
    fold (release w oi) in E. destruct (release_ok w i oi O Ei) as [h Hr]. rewrite Hr in E. injection E as <- <-.
    eapply release_own; eauto. discriminate.
  - (* OAt *) unfold ts_at in E. destruct (get_obj w i); injection E as <- <-; auto.
  - (* OSet *) unfold ts_set in E. destruct (get_obj w i) as [o|] eqn:Eo; [|injection E as <- <-; auto].
    destruct ((k <? 0) || (o_length o <=? k)); [injection E as <- <-; auto|].
    destruct (wr (w_heap w) (o_data o) (o_start o + k) v) as [h| | |] eqn:Ew; injection E as <- <-; auto.
    apply own_heap; auto. intros _ b' _. eapply alloc_wr; eauto.
  - (* OAdd *) unfold ts_add in E. destruct (get_obj w i) as [oi|] eqn:Ei; [|injection E as <- <-; auto].
    destruct (get_obj w j) as [oj|] eqn:Ej; [|injection E as <- <-; auto].
    destruct (negb (o_length oj =? o_length oi)); [injection E as <- <-; auto|].
    destruct (for_ 0 (o_length oi) (add_step oi oj) (w_heap w)) as [h| | |] eqn:Ef; injection E as <- <-; auto.
    assert (Al : forall b, allocated w b -> allocated (with_heap w h) b).
    { destruct (Z.le_gt_cases (o_length oi) 0) as [Hl|Hl]; [rewrite for_empty in Ef by lia; injection Ef as <-; auto|].
      refine (for_partial (fun _ h1 => forall b, allocated w b -> allocated (with_heap w h1) b)
                (add_step oi oj) 0 (o_length oi) (w_heap w) h _ _ _ Ef); [lia|auto|].
      intros k h1 h2 Hk F1. unfold add_step. destruct (rd h1 (o_data oi) (o_start oi + k)) as [x| | |]; cbn; try discriminate.
      destruct (at_ h1 oj k) as [y| | |]; cbn; try discriminate. intros Hw b Hb.
      apply (alloc_wr (with_heap w h1) _ _ _ h2 b Hw). auto. }
    assert (Oh : own (with_heap w h)) by (apply own_heap; auto).
    apply own_put; [auto|eapply get_lt; eauto|].
    intros o Eo. injection Eo as <-. cbn. intros Ho. destruct (Oh i oi Ei Ho) as (S1 & S2 & S3). splits; auto.
  - (* OEq *) unfold ts_eq in E. destruct (get_obj w i) as [oi|]; [|injection E as <- <-; auto].
    destruct (get_obj w j) as [oj|]; [|injection E as <- <-; auto].
    destruct (ptr_eqb (o_data oi) (o_data oj)); [injection E as <- <-; auto|].
    destruct (o_data oi), (o_data oj); [destruct (negb (o_length oi =? o_length oj))| | |]; injection E as <- <-; auto.
  - (* OAverage *) unfold ts_average in E. destruct (get_obj w i); injection E as <- <-; auto.
  - (* OLower *) exact (own_keogh _ _ _ _ _ _ O E).
  - (* OUpper *) exact (own_keogh _ _ _ _ _ _ O E).
Qed.
End P.
