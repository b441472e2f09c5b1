(** Time series objects: memory lemmas, the invariant of the cached envelopes, values. *)
From Coq Require Import String.
From Verif Require Import Base Num LoopFacts DataProofs PAAProofs TimeSeries Lemire Distance TSObject TSObjSpec.
Local Open Scope Z_scope.
Local Open Scope list_scope.

Section P.
Context {N : Num}.
Notation D := (D N).
Implicit Types (h : heap N) (w : world N).

Definition addr (p : ptr) (i : Z) : option (nat * Z) :=
  match p with None => None | Some (b, o) => Some (b, o + i) end.

Lemma rdcell_addr h p q i k : addr p i = addr q k -> rdcell h p i = rdcell h q k.
Proof.
  destruct p as [[b o]|], q as [[b' o']|]; cbn; intros H; try discriminate; auto.
  injection H as -> H. rewrite H. reflexivity.
Qed.

Lemma wr_Ret h p i v h' : wr h p i v = Ret h' -> exists b o cells, p = Some (b, o) /\ nth_error h b = Some (Some cells) /\
  0 <= o + i < Z.of_nat (length cells) /\ h' = upd h b (Some (upd cells (Z.to_nat (o + i)) (Some v))).
Proof.
  destruct p as [[b o]|]; cbn; [|discriminate]. destruct (nth_error h b) as [[cells|]|] eqn:E; try discriminate.
  destruct (aset cells (o + i) (Some v)) as [c'| | |] eqn:Ea; cbn; try discriminate.
  intros H. injection H as <-. apply aset_Ret in Ea as [Hr ->]. eauto 8.
Qed.

Lemma aget_upd_other {A} (l : list A) n v k : k <> Z.of_nat n -> aget (upd l n v) k = aget l k.
Proof. intros H. unfold aget. destruct (Z.leb_spec 0 k); auto. rewrite nth_error_upd_neq by lia. reflexivity. Qed.
Lemma aget_upd_same {A} (l : list A) n v : (n < length l)%nat -> aget (upd l n v) (Z.of_nat n) = Ret v.
Proof. intros H. unfold aget. destruct (Z.leb_spec 0 (Z.of_nat n)); [|lia]. rewrite Nat2Z.id, nth_error_upd_same by auto. reflexivity. Qed.

Lemma rdcell_wr_same h p i v h' q k : wr h p i v = Ret h' -> addr q k = addr p i -> rdcell h' q k = Ret (Some v).
Proof.
  intros H Ha. rewrite (rdcell_addr h' q p k i Ha). apply wr_Ret in H as (b & o & cells & -> & E & Hr & ->). cbn.
  rewrite nth_error_upd_same by (eapply nth_error_Some_lt; eauto).
  rewrite <- (Z2Nat.id (o + i)) at 2 by lia. apply aget_upd_same. lia.
Qed.

Lemma rdcell_wr_other h p i v h' q k : wr h p i v = Ret h' -> addr q k <> addr p i -> rdcell h' q k = rdcell h q k.
Proof.
  intros H Ha. apply wr_Ret in H as (b & o & cells & -> & E & Hr & ->). destruct q as [[b' o']|]; cbn in *; auto.
  destruct (Nat.eq_dec b' b) as [->|Hne].
  - rewrite nth_error_upd_same by (eapply nth_error_Some_lt; eauto). rewrite E. apply aget_upd_other.
    intros E'. apply Ha. f_equal. f_equal. lia.
  - rewrite nth_error_upd_neq by auto. reflexivity.
Qed.

Lemma rd_wr_same h p i v h' q k : wr h p i v = Ret h' -> addr q k = addr p i -> rd h' q k = Ret v.
Proof. intros H Ha. unfold rd. rewrite (rdcell_wr_same _ _ _ _ _ _ _ H Ha). reflexivity. Qed.
Lemma rd_wr_other h p i v h' q k : wr h p i v = Ret h' -> addr q k <> addr p i -> rd h' q k = rd h q k.
Proof. intros H Ha. unfold rd. rewrite (rdcell_wr_other _ _ _ _ _ _ _ H Ha). reflexivity. Qed.

Lemma rd_Ret h p i x : rd h p i = Ret x -> exists b o cells, p = Some (b, o) /\ nth_error h b = Some (Some cells) /\
  0 <= o + i < Z.of_nat (length cells) /\ rdcell h p i = Ret (Some x).
Proof.
  unfold rd. destruct p as [[b o]|]; cbn; [|discriminate]. destruct (nth_error h b) as [[cells|]|] eqn:E; try discriminate.
  destruct (aget cells (o + i)) as [c| | |] eqn:Ea; cbn; try discriminate. destruct c; cbn; try discriminate.
  intros H. injection H as ->. exists b, o, cells. splits; auto; apply aget_bound in Ea; lia.
Qed.

Lemma wr_ok h p i v x : rd h p i = Ret x -> exists h', wr h p i v = Ret h'.
Proof.
  intros H. apply rd_Ret in H as (b & o & cells & -> & E & Hr & _). cbn. rewrite E.
  rewrite (proj2 (aset_Ret cells (o + i) (Some v) _) (conj Hr eq_refl)). cbn. eauto.
Qed.

Lemma rdcell_app h c p i : known h p -> rdcell (h ++ [c]) p i = rdcell h p i.
Proof. destruct p as [[b o]|]; cbn; auto. intros H. rewrite nth_error_app1 by auto. reflexivity. Qed.

Lemma known_rd h p i x : rdcell h p i = Ret x -> known h p.
Proof. destruct p as [[b o]|]; cbn; auto. destruct (nth_error h b) eqn:E; [|discriminate]. intros _. eapply nth_error_Some_lt; eauto. Qed.

Lemma rdcell_del h p h' q k x : del_block h p = Ret h' -> rdcell h' q k = Ret x -> rdcell h q k = Ret x.
Proof.
  destruct p as [[b o]|]; cbn; [|intros E; injection E as <-; auto].
  destruct (nth_error h b) as [[cells|]|] eqn:E; try discriminate. destruct (o =? 0); [|discriminate].
  intros E'. injection E' as <-. destruct q as [[b' o']|]; cbn; auto.
  destruct (Nat.eq_dec b' b) as [->|Hne].
  - rewrite nth_error_upd_same by (eapply nth_error_Some_lt; eauto). discriminate.
  - rewrite nth_error_upd_neq by auto. auto.
Qed.

Lemma rdcell_del_other h p h' q k : del_block h p = Ret h' -> (forall b o b' o', p = Some (b, o) -> q = Some (b', o') -> b <> b') ->
  rdcell h' q k = rdcell h q k.
Proof.
  destruct p as [[b o]|]; cbn; [|intros E; injection E as <-; auto].
  destruct (nth_error h b) as [[cells|]|] eqn:E; try discriminate. destruct (o =? 0); [|discriminate].
  intros E' Hne. injection E' as <-. destruct q as [[b' o']|]; cbn; auto.
  rewrite nth_error_upd_neq; auto. intros ->. exact (Hne b o b o' eq_refl eq_refl eq_refl).
Qed.

Lemma del_length h p h' : del_block h p = Ret h' -> length h' = length h.
Proof.
  destruct p as [[b o]|]; cbn; [|intros E; injection E as <-; auto].
  destruct (nth_error h b) as [[cells|]|]; try discriminate. destruct (o =? 0); [|discriminate].
  intros E. injection E as <-. apply upd_length.
Qed.
Lemma wr_length h p i v h' : wr h p i v = Ret h' -> length h' = length h.
Proof. intros H. apply wr_Ret in H as (b & o & cells & _ & _ & _ & ->). apply upd_length. Qed.

(** objects *)
Lemma get_put w i j x : (i < length (w_objs w))%nat -> get_obj (put_obj w i x) j = if Nat.eqb j i then x else get_obj w j.
Proof.
  intros H. unfold get_obj, put_obj. cbn. destruct (Nat.eqb_spec j i) as [->|Hne].
  - rewrite nth_error_upd_same by auto. reflexivity.
  - rewrite nth_error_upd_neq by auto. reflexivity.
Qed.
Lemma get_lt w i o : get_obj w i = Some o -> (i < length (w_objs w))%nat.
Proof. unfold get_obj. destruct (nth_error (w_objs w) i) eqn:E; [|discriminate]. intros _. eapply nth_error_Some_lt; eauto. Qed.
Lemma get_new w o j : get_obj (new_obj w o) j = if Nat.eqb j (length (w_objs w)) then Some o else get_obj w j.
Proof.
  unfold get_obj, new_obj. cbn. destruct (Nat.eqb_spec j (length (w_objs w))) as [->|Hne].
  - rewrite nth_error_app2, Nat.sub_diag by auto. reflexivity.
  - destruct (Nat.lt_ge_cases j (length (w_objs w))) as [H|H].
    + rewrite nth_error_app1 by auto. reflexivity.
    + rewrite nth_error_app2 by auto. destruct (j - length (w_objs w))%nat as [|n] eqn:E; [lia|]. cbn.
      rewrite (proj2 (nth_error_None (w_objs w) j)) by auto. destruct n; reflexivity.
Qed.
Lemma get_heap w h j : get_obj (with_heap w h) j = get_obj w j.
Proof. reflexivity. Qed.

(** ** values *)
Lemma value_rdpts h o pts : value_of h o pts -> rdpts h (o_data o) (Z.to_nat (o_length o)) (o_start o) = Ret pts.
Proof.
  intros [Hl Hr]. rewrite <- Hl, Nat2Z.id. clear Hl. revert Hr. generalize (o_start o) as s. induction pts as [|x pts IH]; intros s Hr; auto.
  cbn [length rdpts]. pose proof (Hr O x eq_refl) as H0. rewrite Z.add_0_r in H0. rewrite H0. cbn [bind].
  rewrite IH; auto. intros k y Hk. specialize (Hr (S k) y Hk). rewrite <- Hr. f_equal. lia.
Qed.

Lemma rdpts_nth h p n : forall s pts, rdpts h p n s = Ret pts -> length pts = n /\ forall k x, nth_error pts k = Some x -> rd h p (s + Z.of_nat k) = Ret x.
Proof.
  induction n as [|n IH]; intros s pts; cbn.
  - intros E. injection E as <-. split; auto. intros [|k] x; discriminate.
  - destruct (rd h p s) as [x| | |] eqn:E; cbn; try discriminate.
    destruct (rdpts h p n (s + 1)) as [xs| | |] eqn:E'; cbn; try discriminate.
    intros E''. injection E'' as <-. destruct (IH _ _ E') as [Hl Hk]. split; [cbn; auto|].
    intros [|k] y Hy; cbn in Hy.
    + injection Hy as <-. rewrite Z.add_0_r. auto.
    + rewrite <- (Hk k y Hy). f_equal. lia.
Qed.

Lemma value_unique h o pts pts' : value_of h o pts -> value_of h o pts' -> pts = pts'.
Proof. intros H H'. apply value_rdpts in H. apply value_rdpts in H'. congruence. Qed.

Lemma value_known h o pts : value_of h o pts -> pts <> [] -> known h (o_data o).
Proof.
  intros [_ H] Hne. destruct pts as [|x pts]; [contradiction|]. specialize (H O x eq_refl).
  apply rd_Ret in H as (b & off & cells & -> & E & _). cbn. eapply nth_error_Some_lt; eauto.
Qed.

(** heaps with the same (or fewer) readable cells of an object *)
Lemma value_sub h h' o o' pts : o_data o' = o_data o -> o_start o' = o_start o -> o_length o' = o_length o ->
  (forall k x, 0 <= k < o_length o -> rd h (o_data o) (o_start o + k) = Ret x -> rd h' (o_data o) (o_start o + k) = Ret x) ->
  value_of h o pts -> value_of h' o' pts.
Proof.
  intros E1 E2 E3 H [Hl Hr]. split; [congruence|]. intros k x Hk. rewrite E1, E2. apply H; auto.
  apply nth_error_Some_lt in Hk. lia.
Qed.

(** ** the invariant of the cached envelopes *)
Definition coherent h (o : obj N) : Prop := o_valid o = true ->
  0 <= o_length o /\ exists b lo up, o_band o = Some b /\ o_lower o = Some lo /\ o_upper o = Some up /\
  forall pts, value_of h o pts -> keoghLU (ts_of_list pts) b = Ret (lo, up).

Definition inv w : Prop := forall i o, get_obj w i = Some o -> known (w_heap w) (o_data o) /\ coherent (w_heap w) o.

Lemma coherent_sub h h' o : (forall k x, 0 <= k < o_length o -> rd h' (o_data o) (o_start o + k) = Ret x -> rd h (o_data o) (o_start o + k) = Ret x) ->
  coherent h o -> coherent h' o.
Proof.
  intros H Hc Hv. destruct (Hc Hv) as (Hl & b & lo & up & E1 & E2 & E3 & Hp). split; auto. exists b, lo, up. splits; auto.
  intros pts Hpts. apply Hp. eapply value_sub; eauto.
Qed.

Lemma known_app h c p : known h p -> known (h ++ [c]) p.
Proof. destruct p as [[b o]|]; cbn; auto. rewrite app_length. lia. Qed.

Lemma known_same h h' p : length h' = length h -> known h p -> known h' p.
Proof. destruct p as [[b o]|]; cbn; auto. lia. Qed.

Lemma rd_del h p h' q k x : del_block h p = Ret h' -> rd h' q k = Ret x -> rd h q k = Ret x.
Proof.
  intros H. unfold rd. destruct (rdcell h' q k) as [c| | |] eqn:E; cbn; try discriminate.
  rewrite (rdcell_del _ _ _ _ _ _ H E). auto.
Qed.
Lemma rd_app h c p i : known h p -> rd (h ++ [c]) p i = rd h p i.
Proof. intros H. unfold rd. rewrite rdcell_app by auto. reflexivity. Qed.

Lemma inv_init : inv world0.
Proof. intros i o H. unfold get_obj in H. cbn in H. destruct i; discriminate. Qed.

Lemma inv_new_heap w c : inv w -> inv (with_heap w (w_heap w ++ [c])).
Proof.
  intros H i o Hg. destruct (H i o Hg) as [Hk Hc]. cbn. split; [apply known_app; auto|].
  eapply coherent_sub; [|exact Hc]. intros k x _ Hr. rewrite rd_app in Hr; auto.
Qed.
Lemma inv_new_obj w o : inv w -> known (w_heap w) (o_data o) -> o_valid o = false -> inv (new_obj w o).
Proof.
  intros H Hk Hv i o' Hg. rewrite get_new in Hg. destruct (Nat.eqb_spec i (length (w_objs w))); [|apply H in Hg; auto].
  injection Hg as <-. split; auto. intros E. congruence.
Qed.
Lemma inv_put w i o : inv w -> (i < length (w_objs w))%nat -> (forall o', o = Some o' -> known (w_heap w) (o_data o') /\ coherent (w_heap w) o') ->
  inv (put_obj w i o).
Proof.
  intros H Hi Ho j o' Hg. rewrite get_put in Hg by auto. destruct (Nat.eqb_spec j i); [apply Ho; auto|apply (H j); auto].
Qed.
Lemma inv_del w p h' : inv w -> del_block (w_heap w) p = Ret h' -> inv (with_heap w h').
Proof.
  intros H Hd i o Hg. destruct (H i o Hg) as [Hk Hc]. cbn. split; [eapply known_same; [|exact Hk]; eapply del_length; eauto|].
  eapply coherent_sub; [|exact Hc]. intros k x _. apply (rd_del _ _ _ _ _ _ Hd).
Qed.
Lemma inv_wr w p i v h' : inv w -> wr (w_heap w) p i v = Ret h' ->
  (forall b off, p = Some (b, off) -> forall j o, caching w j o -> ~ covers o b (off + i)) -> inv (with_heap w h').
Proof.
  intros H Hw Hq j o Hg. destruct (H j o Hg) as [Hk Hc]. cbn. split; [eapply known_same; [|exact Hk]; eapply wr_length; eauto|].
  intros Hv. revert Hv. apply wr_Ret in Hw as Hw'. destruct Hw' as (b & off & cells & -> & _).
  destruct (o_valid o) eqn:Ev; [|intros E; unfold coherent; congruence]. intros _.
  assert (Hcc : coherent h' o); [|apply Hcc; auto].
  eapply coherent_sub; [|exact Hc]. intros k x Hk' Hr. rewrite (rd_wr_other _ _ _ _ _ _ _ Hw) in Hr; auto.
  destruct (o_data o) as [[b' off']|] eqn:Ed; cbn; [|discriminate].
  intros E. injection E as -> E. apply (Hq b off eq_refl j o (conj Hg Ev)). exists off'. split; auto. lia.
Qed.

(** the loop of += *)
Definition off_target (oi : obj N) (q : ptr) (a : Z) : Prop := forall k, 0 <= k < o_length oi -> addr q a <> addr (o_data oi) (o_start oi + k).
Lemma add_loop_frame oi oj h h' : for_ 0 (o_length oi) (add_step oi oj) h = Ret h' ->
  length h' = length h /\ forall q a, off_target oi q a -> rdcell h' q a = rdcell h q a.
Proof.
  intros H. destruct (Z.le_gt_cases (o_length oi) 0) as [Hl|Hl]; [rewrite for_empty in H by lia; injection H as <-; split; auto|].
  apply (for_partial (fun _ h1 => length h1 = length h /\ forall q a, off_target oi q a -> rdcell h1 q a = rdcell h q a)) in H; auto; [lia|].
  intros k h1 h2 Hk [L1 F1]. unfold add_step.
  destruct (rd h1 (o_data oi) (o_start oi + k)) as [x| | |]; cbn; try discriminate.
  destruct (at_ h1 oj k) as [y| | |]; cbn; try discriminate. intros Hw. split; [rewrite (wr_length _ _ _ _ _ Hw); auto|].
  intros q a Hq. rewrite (rdcell_wr_other _ _ _ _ _ _ _ Hw); auto.
Qed.

Lemma inv_keogh upper w i band w' r : inv w -> ts_keogh upper w i band = (w', r) -> inv w'.
Proof.
  intros I E. unfold ts_keogh in E. destruct (get_obj w i) as [o|] eqn:Eo; [|injection E as <- <-; auto].
  destruct (I i o Eo) as [Hk Hc].
  destruct (cached o band) as [[|]| | |]; try (injection E as <- <-; auto; fail).
  destruct (Z.ltb_spec (o_length o) 0) as [Hl|Hl].
  - injection E as <- <-. apply inv_put; [auto|eapply get_lt; eauto|]. intros o' Ho. injection Ho as <-. cbn. split; auto.
    intros Ev. cbn in Ev. apply Hc in Ev as [Hge _]. lia.
  - unfold generate in E. destruct (rdpts (w_heap w) (o_data o) (Z.to_nat (o_length o)) (o_start o)) as [xs| | |] eqn:Er; cbn in E;
      try (injection E as <- <-; auto; fail).
    destruct (keoghLU (ts_of_list xs) band) as [[lo up]| | |] eqn:Ek; injection E as <- <-; auto.
    apply inv_put; [auto|eapply get_lt; eauto|]. intros o' Ho. injection Ho as <-. cbn. split; auto.
    intros _. cbn. split; auto. exists band, lo, up. splits; auto. intros pts Hpts.
    assert (xs = pts) as <-; auto.
    assert (Hv : value_of (w_heap w) o pts) by (destruct Hpts; split; auto).
    apply value_rdpts in Hv. congruence.
Qed.

Lemma inv_step w x w' r : inv w -> legal w x -> quiet w x -> exec x w = (w', r) -> defined r -> inv w'.
Proof.
  intros I Hleg Hq E Hd. destruct x; cbn [exec legal quiet] in *.
  - (* OBuf *) injection E as <- <-. apply inv_new_heap; auto.
  - (* OWrite *) unfold buf_write in E. destruct (wr (w_heap w) (Some (b, 0)) k v) as [h| | |] eqn:Ew; injection E as <- <-; auto.
    eapply inv_wr; eauto. intros b' off Eb. injection Eb as <- <-. intros j o Hc. rewrite Z.add_0_l. eauto.
  - (* OFree *) unfold buf_free in E. destruct (del_block (w_heap w) (Some (b, 0))) as [h| | |] eqn:Ew; injection E as <- <-; auto.
    eapply inv_del; eauto.
  - injection E as <- <-. apply inv_new_obj; auto.
  - injection E as <- <-. apply inv_new_obj; auto.
  - (* OOwned *) unfold ts_mk_owned in E. destruct (len <? 0); cbn [new_block] in E; injection E as <- <-; auto.
    apply inv_new_obj; auto; [apply inv_new_heap; auto|]. cbn. rewrite app_length. cbn. lia.
  - (* OCopy *) unfold ts_copy in E. destruct (get_obj w i) as [o|] eqn:Eo; [|injection E as <- <-; auto].
    destruct (o_owner o).
    + unfold dup in E. destruct (o_length o <? 0); [injection E as <- <-; auto|].
      destruct (rdcells (w_heap w) (o_data o) (Z.to_nat (o_length o)) 0) as [cells| | |]; cbn in E; injection E as <- <-; auto.
      apply inv_new_obj; auto; [apply inv_new_heap; auto|]. cbn. rewrite app_length. cbn. lia.
    + injection E as <- <-. apply inv_new_obj; auto. exact (proj1 (I i o Eo)).
  - (* OAssign *) unfold ts_assign in E. destruct (get_obj w i) as [oi|] eqn:Ei; [|injection E as <- <-; auto].
    destruct (get_obj w j) as [oj|] eqn:Ej; [|injection E as <- <-; auto].
    assert (IH : forall h, (if o_owner oi then del_block (w_heap w) (o_data oi) else Ret (w_heap w)) = Ret h -> inv (with_heap w h) /\ length h = length (w_heap w)).
    { intros h. destruct (o_owner oi); intros Eh; [split; [eapply inv_del; eauto|eapply del_length; eauto]|injection Eh as <-; destruct w; auto]. }
    destruct (if o_owner oi then del_block (w_heap w) (o_data oi) else Ret (w_heap w)) as [h| | |]; [|injection E as <- <-; auto ..].
    destruct (IH h eq_refl) as [Ih Lh]. specialize (Hq oi eq_refl).
    destruct (o_owner oj).
    + destruct (o_length oi <? 0); [injection E as <- <-; auto|].
      destruct (if Nat.eqb i j then Ret (repeat None (Z.to_nat (o_length oi))) else rdcells h (o_data oj) (Z.to_nat (o_length oi)) 0)
        as [cells| | |]; cbn in E; injection E as <- <-; auto.
      apply inv_put; [exact (inv_new_heap _ _ Ih)|eapply get_lt; eauto|]. intros o' Eo. injection Eo as <-. cbn.
      split; [rewrite app_length; cbn; lia|]. intros Ev. cbn in Ev. congruence.
    + injection E as <- <-. apply inv_put; [auto|eapply get_lt; eauto|]. intros o' Eo. injection Eo as <-. cbn.
      split; [eapply known_same; [exact Lh|exact (proj1 (I j oj Ej))]|]. intros Ev. cbn in Ev. congruence.
  - (* OMove *) unfold ts_move in E. destruct (get_obj w i) as [oi|] eqn:Ei; [|injection E as <- <-; auto].
    destruct (get_obj w j) as [oj|] eqn:Ej; [|injection E as <- <-; auto].
    assert (IH : forall h, (if o_owner oi then del_block (w_heap w) (o_data oi) else Ret (w_heap w)) = Ret h -> inv (with_heap w h) /\ length h = length (w_heap w)).
    { intros h. destruct (o_owner oi); intros Eh; [split; [eapply inv_del; eauto|eapply del_length; eauto]|injection Eh as <-; destruct w; auto]. }
    destruct (if o_owner oi then del_block (w_heap w) (o_data oi) else Ret (w_heap w)) as [h| | |]; [|injection E as <- <-; auto ..].
    destruct (IH h eq_refl) as [Ih Lh]. specialize (Hq oi eq_refl).
    assert (I1 : inv (put_obj (with_heap w h) i (Some (taken oi oj (o_data oj))))).
    { apply inv_put; [auto|eapply get_lt; eauto|]. intros o' Eo. injection Eo as <-. cbn.
      split; [eapply known_same; [exact Lh|exact (proj1 (I j oj Ej))]|]. intros Ev. cbn in Ev. congruence. }
    cbv zeta in E. set (w1 := put_obj (with_heap w h) i (Some (taken oi oj (o_data oj)))) in *.
    destruct (get_obj w1 j) as [oj'|] eqn:Ej'; injection E as <- <-; auto.
    apply inv_put; [auto|eapply get_lt; eauto|]. intros o' Eo. injection Eo as <-. cbn. split; auto.
    destruct (I1 j oj' Ej') as [_ Hc]. intros Ev. cbn in Ev. destruct (Hc Ev) as (Hl & b & lo & up & E1 & E2 & E3 & Hp).
    cbn. split; auto. exists b, lo, up. splits; auto. intros pts [Hlen Hpts].
    (* a null pointer gives no points, so the length is zero *)
    destruct pts as [|x pts]; [|specialize (Hpts O x eq_refl); discriminate Hpts].
    apply Hp. split; [exact Hlen|]. intros [|k] x; discriminate.
  - (* ODestroy *) unfold ts_destroy in E. destruct (get_obj w i) as [oi|] eqn:Ei; [|injection E as <- <-; auto].
    destruct (o_owner oi).
    + destruct (del_block (w_heap w) (o_data oi)) as [h| | |] eqn:Eh; injection E as <- <-; auto.
      apply inv_put; [eapply inv_del; eauto|eapply get_lt; eauto|]. discriminate.
    + injection E as <- <-. apply inv_put; [destruct w; auto|eapply get_lt; eauto|]. discriminate.
  - (* OAt *) unfold ts_at in E. destruct (get_obj w i); injection E as <- <-; auto.
  - (* OSet *) unfold ts_set in E. destruct (get_obj w i) as [o|] eqn:Eo; [|injection E as <- <-; auto].
    destruct ((k <? 0) || (o_length o <=? k)); [injection E as <- <-; auto|].
    destruct (wr (w_heap w) (o_data o) (o_start o + k) v) as [h| | |] eqn:Ew; injection E as <- <-; auto.
    eapply inv_wr; eauto. intros b off Eb j oj Hc. rewrite Z.add_assoc. eapply Hq; eauto.
  - (* OAdd *) unfold ts_add in E. destruct (get_obj w i) as [oi|] eqn:Ei; [|injection E as <- <-; auto].
    destruct (get_obj w j) as [oj|] eqn:Ej; [|injection E as <- <-; auto].
    destruct (negb (o_length oj =? o_length oi)); [injection E as <- <-; auto|].
    destruct (for_ 0 (o_length oi) (add_step oi oj) (w_heap w)) as [h| | |] eqn:Ef; injection E as <- <-; auto.
    apply add_loop_frame in Ef as [Lh Fr].
    intros m o Hg. rewrite get_put in Hg by (eapply get_lt; eauto). destruct (Nat.eqb_spec m i) as [->|Hne].
    + injection Hg as <-. cbn. split; [eapply known_same; [exact Lh|exact (proj1 (I i oi Ei))]|]. intros Ev. discriminate Ev.
    + destruct (I m o Hg) as [Hk Hc]. cbn. split; [eapply known_same; eauto|].
      destruct (o_valid o) eqn:Ev; [|intros Ev'; congruence].
      eapply coherent_sub; [|exact Hc]. intros k x Hk'.
      destruct (o_data o) as [[b off]|] eqn:Ed; [|discriminate].
      unfold rd. rewrite Fr; auto. intros k2 Hk2 Ea.
      destruct (o_data oi) as [[b2 off2]|] eqn:Edi; cbn in Ea; [|discriminate]. injection Ea as -> Ea.
      apply (Hq oi b2 (off2 + (o_start oi + k2)) eq_refl) with (j := m) (o := o); [exists off2; split; [auto|lia]|split; auto|auto|].
      exists off. split; auto. lia.
  - (* OEq *) unfold ts_eq in E. destruct (get_obj w i) as [oi|]; [|injection E as <- <-; auto].
    destruct (get_obj w j) as [oj|]; [|injection E as <- <-; auto].
    destruct (ptr_eqb (o_data oi) (o_data oj)); [injection E as <- <-; auto|].
    destruct (o_data oi), (o_data oj); [destruct (negb (o_length oi =? o_length oj))| | |]; injection E as <- <-; auto.
  - (* OAverage *) unfold ts_average in E. destruct (get_obj w i); injection E as <- <-; auto.
  - (* OLower *) eapply inv_keogh; eauto.
  - (* OUpper *) eapply inv_keogh; eauto.
Qed.

Lemma inv_history l w : history quiet l w -> inv w.
Proof. induction 1 as [|l x w w' r H IH Hl Hq E Hd]; [apply inv_init|eapply inv_step; eauto]. Qed.
End P.
