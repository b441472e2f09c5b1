(** The deque of lib/deque.cpp is a queue, and lower_upper_lemire computes
    sliding-window minima and maxima. *)
From Coq Require Import Sorting.Sorted.
From Verif Require Import Base Num NumLaws NumFacts LoopFacts Lemire.

(** ** the circular buffer represents a list, front first *)
Definition dq_rep (C : Z) (d : deque) (q : list Z) : Prop :=
  dq_cap d = C /\ 1 <= C /\ dq_size d = Z.of_nat (length q) /\ Z.of_nat (length q) <= C /\
  Z.of_nat (length (dq_data d)) = C /\ 0 <= dq_f d < C /\
  dq_r d = (dq_f d - 1 - Z.of_nat (length q)) mod C /\
  forall k v, nth_error q k = Some v -> aget (dq_data d) ((dq_f d - 1 - Z.of_nat k) mod C) = Ret (Some v).

Lemma dq_new_rep C : 1 <= C -> dq_rep C (dq_new C) [].
Proof.
  intros HC. unfold dq_rep, dq_new; simpl. splits; auto; try lia.
  - rewrite repeat_length. lia.
  - replace (-1 - 0) with (-1) by lia. rewrite <- (Z.mod_add (-1) 1 C) by lia. rewrite Z.mod_small; lia.
  - intros [|k] v H; discriminate.
Qed.

Lemma mod_dec1 x C : 1 <= C -> (if x mod C - 1 <? 0 then C - 1 else x mod C - 1) = (x - 1) mod C.
Proof.
  intros HC. pose proof (Z.mod_pos_bound x C ltac:(lia)) as Hb.
  rewrite <- Zminus_mod_idemp_l. destruct (Z.ltb_spec (x mod C - 1) 0).
  - replace (x mod C) with 0 by lia. rewrite <- (Z.mod_add (0 - 1) 1 C) by lia. rewrite Z.mod_small; lia.
  - rewrite (Z.mod_small (x mod C - 1)); lia.
Qed.

Lemma dq_push_ok C d q v : dq_rep C d q -> Z.of_nat (length q) < C ->
  exists d', dq_push_back d v = Ret d' /\ dq_rep C d' (q ++ [v]).
Proof.
  intros (H1 & H2 & H3 & H4 & H5 & H6 & H7 & H8) Hlt. unfold dq_push_back.
  assert (Hr : 0 <= dq_r d < C) by (rewrite H7; apply Z.mod_pos_bound; lia).
  rewrite aset_in by lia. cbn [bind]. eexists. split; [reflexivity|].
  unfold dq_rep; simpl. rewrite app_length, upd_length. simpl. splits; auto; try lia.
  - rewrite H1, H7, mod_dec1 by lia. f_equal. lia.
  - intros k w Hk. destruct (Nat.lt_ge_cases k (length q)) as [Hkl|Hkl].
    + rewrite nth_error_app1 in Hk by auto. rewrite aget_upd_other; [apply H8; auto|lia|].
      rewrite H7. intros E.
      assert (Ed : ((dq_f d - 1 - Z.of_nat (length q)) - (dq_f d - 1 - Z.of_nat k)) mod C = 0).
      { rewrite Zminus_mod, E, Z.sub_diag. apply Z.mod_0_l. lia. }
      replace (dq_f d - 1 - Z.of_nat (length q) - (dq_f d - 1 - Z.of_nat k)) with (- (Z.of_nat (length q) - Z.of_nat k)) in Ed by lia.
      assert (Ed2 : (Z.of_nat (length q) - Z.of_nat k) mod C = 0).
      { apply Z.mod_divide; [lia|]. apply Z.mod_divide in Ed; [|lia]. apply Z.divide_opp_r. exact Ed. }
      rewrite Z.mod_small in Ed2; lia.
    + rewrite nth_error_app2 in Hk by auto. destruct (k - length q)%nat as [|k'] eqn:Ek; [|destruct k'; discriminate].
      simpl in Hk. injection Hk as ->. replace k with (length q) by lia. rewrite <- H7.
      apply aget_upd_same. lia.
Qed.

Lemma dq_front_ok C d v q : dq_rep C d (v :: q) -> dq_front d = Ret v.
Proof.
  intros (H1 & H2 & H3 & H4 & H5 & H6 & H7 & H8). unfold dq_front.
  assert (E : (if dq_f d - 1 <? 0 then dq_cap d - 1 else dq_f d - 1) = (dq_f d - 1) mod C).
  { rewrite H1. pose proof (mod_dec1 (dq_f d) C H2) as E. rewrite Z.mod_small in E by lia. exact E. }
  cbv zeta. rewrite E. specialize (H8 O v eq_refl). simpl in H8. rewrite Z.sub_0_r in H8. rewrite H8. reflexivity.
Qed.

Lemma back_idx C d q : dq_rep C d q -> Z.rem (dq_r d + 1) C = (dq_f d - 1 - (Z.of_nat (length q) - 1)) mod C.
Proof.
  intros (H1 & H2 & H3 & H4 & H5 & H6 & H7 & H8).
  assert (Hr : 0 <= dq_r d < C) by (rewrite H7; apply Z.mod_pos_bound; lia).
  rewrite Z.rem_mod_nonneg by lia. rewrite H7. rewrite Zplus_mod_idemp_l. f_equal. lia.
Qed.

Lemma dq_back_ok C d q v : dq_rep C d (q ++ [v]) -> dq_back d = Ret v.
Proof.
  intros H. pose proof (back_idx C d _ H) as Hi. destruct H as (H1 & H2 & H3 & H4 & H5 & H6 & H7 & H8).
  unfold dq_back, cmod. rewrite H1. destruct (Z.eqb_spec C 0); [lia|]. cbn [bind]. rewrite Hi.
  rewrite app_length. simpl. replace (Z.of_nat (length q + 1) - 1) with (Z.of_nat (length q)) by lia.
  rewrite (H8 (length q) v); auto. rewrite nth_error_app2, Nat.sub_diag by auto. reflexivity.
Qed.

Lemma dq_pop_back_ok C d q v : dq_rep C d (q ++ [v]) ->
  exists d', dq_pop_back d = Ret d' /\ dq_rep C d' q.
Proof.
  intros H. pose proof (back_idx C d _ H) as Hi. destruct H as (H1 & H2 & H3 & H4 & H5 & H6 & H7 & H8).
  rewrite app_length in *. simpl in *.
  unfold dq_pop_back, cmod. rewrite H1. destruct (Z.eqb_spec C 0); [lia|]. cbn [bind].
  eexists. split; [reflexivity|]. unfold dq_rep; simpl. splits; auto; try lia.
  - rewrite Hi. f_equal. lia.
  - intros k w Hk. apply H8. rewrite nth_error_app1; auto. apply nth_error_Some. congruence.
Qed.

Lemma dq_pop_front_ok C d q v : dq_rep C d (v :: q) -> dq_rep C (dq_pop_front d) q.
Proof.
  intros (H1 & H2 & H3 & H4 & H5 & H6 & H7 & H8). simpl length in *.
  assert (E : (if dq_f d - 1 <? 0 then dq_cap d - 1 else dq_f d - 1) = (dq_f d - 1) mod C).
  { rewrite H1. pose proof (mod_dec1 (dq_f d) C H2) as E. rewrite Z.mod_small in E by lia. exact E. }
  assert (Hs : forall x, ((dq_f d - 1) mod C - 1 - x) mod C = (dq_f d - 1 - (x + 1)) mod C).
  { intros x. replace ((dq_f d - 1) mod C - 1 - x) with ((dq_f d - 1) mod C - (x + 1)) by lia.
    apply Zminus_mod_idemp_l. }
  unfold dq_rep, dq_pop_front; simpl. rewrite E. splits; auto; try lia.
  - apply Z.mod_pos_bound. lia.
  - apply Z.mod_pos_bound. lia.
  - rewrite H7, Hs. f_equal. lia.
  - intros k w Hk. rewrite Hs. specialize (H8 (S k) w Hk). rewrite <- H8. f_equal. f_equal. lia.
Qed.

Lemma dq_empty_ok C d q : dq_rep C d q -> dq_empty d = match q with [] => true | _ => false end.
Proof. intros (_ & _ & H & _). unfold dq_empty. rewrite H. destruct q; auto. Qed.

(** ** the monotone queue *)
Section Mono.
Context {N : Num} {L : NumLaws N}.
Notation D := (D N).
Variable t : list D.
Variable len : Z.
Hypothesis Hlen : len <= Z.of_nat (length t).
Definition tv (i : Z) : D := nth (Z.to_nat i) t n0.
Hypothesis Hnn : forall i, 0 <= i < len -> nn (tv i).

Lemma tget i : 0 <= i < len -> aget t i = Ret (tv i).
Proof. intros H. apply aget_nth. lia. Qed.

(** [better x y]: x strictly beats y;  W x y: x does not beat y *)
Variable better : D -> D -> bool.
Definition W (x y : D) : Prop := better x y = false.
Hypothesis W_refl : forall x, nn x -> W x x.
Hypothesis W_trans : forall x y z, nn x -> nn y -> nn z -> W x y -> W y z -> W x z.
Hypothesis W_total : forall x y, nn x -> nn y -> better x y = true -> W y x.

(** the queue [q] for the window [lo, hi] *)
Record Q (lo hi : Z) (q : list Z) : Prop := {
  q_in : Forall (fun e => lo <= e <= hi) q;
  q_sorted : StronglySorted (fun e e' => e < e' /\ W (tv e') (tv e)) q;
  q_dom : forall k, lo <= k <= hi -> exists e, In e q /\ k <= e /\ W (tv k) (tv e)
}.

Lemma sorted_app_inv {A} (R : A -> A -> Prop) q q2 : StronglySorted R (q ++ q2) -> StronglySorted R q.
Proof.
  induction q as [|x q IH]; intros H; [constructor|]. simpl in H. inversion H as [|? ? Hs Hf]; subst.
  constructor; auto. apply Forall_app in Hf. apply Hf.
Qed.
Lemma sorted_app_rel {A} (R : A -> A -> Prop) q q2 : StronglySorted R (q ++ q2) ->
  forall x y, In x q -> In y q2 -> R x y.
Proof.
  induction q as [|z q IH]; intros H x y Hx Hy; [destruct Hx|]. simpl in H. inversion H as [|? ? Hs Hf]; subst.
  destruct Hx as [->|Hx]; [|apply IH; auto]. rewrite Forall_forall in Hf. apply Hf. apply in_or_app; auto.
Qed.
Lemma sorted_snoc {A} (R : A -> A -> Prop) q y : StronglySorted R q -> (forall x, In x q -> R x y) ->
  StronglySorted R (q ++ [y]).
Proof.
  induction q as [|z q IH]; intros H Hy; simpl; [repeat constructor|].
  inversion H as [|? ? Hs Hf]; subst. constructor.
  - apply IH; auto. intros; apply Hy; simpl; auto.
  - apply Forall_app; split; auto. constructor; auto. apply Hy; simpl; auto.
Qed.

Lemma Q_last lo hi q : Q lo hi q -> lo <= hi -> exists q', q = q' ++ [hi].
Proof.
  intros [H1 H2 H3] Hle. destruct (H3 hi) as (e & He & Hhe & _); [lia|].
  rewrite Forall_forall in H1. pose proof (H1 e He). assert (e = hi) as -> by lia.
  destruct q as [|x q0] using rev_ind; [destruct He|]. clear IHq0.
  exists q0. f_equal. f_equal. apply in_app_or in He as [He|[He|[]]]; auto.
  pose proof (sorted_app_rel _ _ _ H2 hi x He (or_introl eq_refl)) as [Hlt _].
  specialize (H1 x ltac:(apply in_or_app; simpl; auto)). lia.
Qed.

(** keep the queue and append *)
Lemma Q_keep lo hi q : 0 <= lo -> lo <= hi -> hi + 1 < len -> Q lo hi q -> W (tv (hi + 1)) (tv hi) ->
  Q lo (hi + 1) (q ++ [hi + 1]).
Proof.
  intros H0 Hle Hl HQ Hw. destruct (Q_last lo hi q HQ Hle) as (q' & Eq). destruct HQ as [H1 H2 H3].
  rewrite Forall_forall in H1. constructor.
  - apply Forall_forall. intros e He. apply in_app_or in He as [He|[<-|[]]]; [specialize (H1 e He)|]; lia.
  - apply sorted_snoc; auto. intros e He. pose proof (H1 e He). split; [lia|].
    rewrite Eq in He. apply in_app_or in He as [He|[<-|[]]]; auto.
    rewrite Eq in H2. pose proof (sorted_app_rel _ _ _ H2 e hi He (or_introl eq_refl)) as [_ Hw2].
    apply (W_trans _ (tv hi)); auto; apply Hnn; lia.
  - intros k Hk. destruct (Z.eq_dec k (hi + 1)) as [->|Hne].
    + exists (hi + 1). splits; [apply in_or_app; simpl; auto|lia|apply W_refl, Hnn; lia].
    + destruct (H3 k) as (e & He & Hke & Hw2); [lia|]. exists e. splits; auto. apply in_or_app; auto.
Qed.

(** drop a suffix of beaten elements and append *)
Lemma Q_drop lo hi q q2 : 0 <= lo -> lo <= hi -> hi + 1 < len -> Q lo hi (q ++ q2) ->
  (forall e, In e q2 -> W (tv e) (tv (hi + 1))) ->
  (forall q' e, q = q' ++ [e] -> W (tv (hi + 1)) (tv e)) ->
  Q lo (hi + 1) (q ++ [hi + 1]).
Proof.
  intros H0 Hle Hl [H1 H2 H3] Hpop Hlast. rewrite Forall_forall in H1. constructor.
  - apply Forall_forall. intros e He. apply in_app_or in He as [He|[<-|[]]]; [|lia].
    specialize (H1 e ltac:(apply in_or_app; auto)). lia.
  - apply sorted_snoc; [apply (sorted_app_inv _ _ _ H2)|]. intros e He.
    pose proof (H1 e ltac:(apply in_or_app; auto)). split; [lia|].
    destruct q as [|x q0] using rev_ind; [destruct He|]. clear IHq0.
    specialize (Hlast q0 x eq_refl). apply in_app_or in He as [He|[<-|[]]]; auto.
    pose proof (sorted_app_rel _ _ _ (sorted_app_inv _ _ _ H2) e x He (or_introl eq_refl)) as [_ Hw].
    pose proof (H1 x ltac:(apply in_or_app; left; apply in_or_app; simpl; auto)).
    apply (W_trans _ (tv x)); auto; apply Hnn; lia.
  - intros k Hk. destruct (Z.eq_dec k (hi + 1)) as [->|Hne].
    + exists (hi + 1). splits; [apply in_or_app; simpl; auto|lia|apply W_refl, Hnn; lia].
    + destruct (H3 k) as (e & He & Hke & Hw2); [lia|]. pose proof (H1 e He).
      apply in_app_or in He as [He|He].
      * exists e. splits; auto. apply in_or_app; auto.
      * exists (hi + 1). splits; [apply in_or_app; simpl; auto|lia|].
        apply (W_trans _ (tv e)); auto; apply Hnn; lia.
Qed.

(** the window moves on *)
Lemma Q_shift lo hi q : Q lo hi q -> (forall e, In e q -> lo < e) -> Q (lo + 1) hi q.
Proof.
  intros [H1 H2 H3] Hlt. rewrite Forall_forall in H1. constructor; auto.
  - apply Forall_forall. intros e He. specialize (H1 e He). specialize (Hlt e He). lia.
  - intros k Hk. apply H3. lia.
Qed.
Lemma Q_pop lo hi q : Q lo hi (lo :: q) -> Q (lo + 1) hi q.
Proof.
  intros [H1 H2 H3]. inversion H2 as [|? ? Hs Hf]; subst. rewrite Forall_forall in H1, Hf. constructor; auto.
  - apply Forall_forall. intros e He. specialize (H1 e ltac:(simpl; auto)). destruct (Hf e He). lia.
  - intros k Hk. destruct (H3 k) as (e & [<-|He] & Hke & Hw); [lia|lia|]. eauto.
Qed.

(** the front is the best of the window *)
Lemma Q_front lo hi x q : 0 <= lo -> hi < len -> Q lo hi (x :: q) ->
  lo <= x <= hi /\ forall k, lo <= k <= hi -> W (tv k) (tv x).
Proof.
  intros H0 Hl [H1 H2 H3]. inversion H2 as [|? ? Hs Hf]; subst. rewrite Forall_forall in H1, Hf.
  pose proof (H1 x ltac:(simpl; auto)). split; auto. intros k Hk.
  destruct (H3 k Hk) as (e & [<-|He] & Hke & Hw); auto.
  destruct (Hf e He) as [_ Hw2]. pose proof (H1 e ltac:(simpl; auto)).
  apply (W_trans _ (tv e)); auto; apply Hnn; lia.
Qed.

Lemma Q_len lo hi q : Q lo hi q -> Z.of_nat (length q) <= Z.max 0 (hi - lo + 1).
Proof.
  intros [H1 H2 _]. revert lo H1. induction q as [|x q IH]; intros lo H1; simpl length; [lia|].
  inversion H2 as [|? ? Hs Hf]; subst. inversion H1 as [|? ? Hx Hq]; subst.
  rewrite Forall_forall in Hf, Hq. specialize (IH Hs (x + 1)).
  assert (Z.of_nat (length q) <= Z.max 0 (hi - (x + 1) + 1)).
  { apply IH. apply Forall_forall. intros e He. specialize (Hq e He). destruct (Hf e He). lia. }
  lia.
Qed.

(** the while loop *)
Lemma popwhile_ok C x : nn x -> forall fuel d q, dq_rep C d q -> (length q <= fuel)%nat ->
  Forall (fun e => 0 <= e < len) q ->
  exists d' q' q2, lem_popwhile better t x fuel d = Ret d' /\ dq_rep C d' q' /\ q = q' ++ q2 /\
    (forall e, In e q2 -> better x (tv e) = true) /\
    (forall q0 e, q' = q0 ++ [e] -> W x (tv e)).
Proof.
  intros Hx. induction fuel as [|fuel IH]; intros d q Hd Hf Hq.
  - destruct q; [|simpl in Hf; lia]. exists d, [], []. simpl. rewrite (dq_empty_ok _ _ _ Hd).
    splits; auto; intros q0 e E; destruct q0; discriminate.
  - cbn [lem_popwhile]. rewrite (dq_empty_ok _ _ _ Hd).
    destruct q as [|y q0] using rev_ind.
    + exists d, [], []. splits; auto; intros q0 e E; destruct q0; discriminate.
    + clear IHq0. replace (match q0 ++ [y] with [] => true | _ => false end) with false by (destruct q0; auto).
      rewrite (dq_back_ok _ _ _ _ Hd). cbn [bind]. apply Forall_app in Hq as [Hq0 Hy].
      inversion Hy as [|? ? Hy1 _]; subst. rewrite tget by auto. cbn [bind].
      destruct (better x (tv y)) eqn:Eb.
      * destruct (dq_pop_back_ok _ _ _ _ Hd) as (d1 & E1 & Hd1). rewrite E1. cbn [bind].
        rewrite app_length in Hf. simpl in Hf.
        destruct (IH d1 q0 Hd1 ltac:(lia) Hq0) as (d' & q' & q2 & E & Hd' & Eq & Hp & Hl).
        exists d', q', (q2 ++ [y]). splits; auto.
        -- rewrite Eq, app_assoc. reflexivity.
        -- intros e He. apply in_app_or in He as [He|[<-|[]]]; auto.
      * exists d, (q0 ++ [y]), []. splits; auto.
        -- rewrite app_nil_r; auto.
        -- intros q1 e E. apply app_inj_tail in E as [_ <-]. exact Eb.
Qed.

Lemma popped_ok C lo i d q : 0 <= lo -> lo <= i - 1 -> 1 <= i -> i < len -> dq_rep C d q -> Q lo (i - 1) q ->
  W (tv (i - 1)) (tv i) ->
  exists d1 d' q', dq_pop_back d = Ret d1 /\
    lem_popwhile better t (tv i) (Z.to_nat (dq_size d1)) d1 = Ret d' /\ dq_rep C d' q' /\
    Q lo i (q' ++ [i]) /\ (forall e, In e q' -> In e q /\ e <> i - 1).
Proof.
  intros H0 Hle Hi1 Hi Hd HQ Hw. destruct (Q_last _ _ _ HQ Hle) as (q0 & ->).
  destruct (dq_pop_back_ok _ _ _ _ Hd) as (d1 & E1 & Hd1).
  pose proof (q_in _ _ _ HQ) as Hin. rewrite Forall_forall in Hin.
  destruct (popwhile_ok C (tv i) (Hnn i ltac:(lia)) (Z.to_nat (dq_size d1)) d1 q0 Hd1)
    as (d' & q' & q2 & E2 & Hd' & Eq & Hp & Hl).
  { destruct Hd1 as (_ & _ & -> & _). lia. }
  { apply Forall_forall. intros e He. specialize (Hin e ltac:(apply in_or_app; auto)). lia. }
  exists d1, d', q'. splits; auto.
  - replace i with (i - 1 + 1) by lia. apply (Q_drop lo (i - 1) q' (q2 ++ [i - 1])); auto; try lia.
    + rewrite app_assoc, <- Eq. exact HQ.
    + replace (i - 1 + 1) with i by lia. intros e He. apply in_app_or in He as [He|[<-|[]]]; auto.
      apply W_total; [apply Hnn; lia| |apply Hp; auto]. apply Hnn.
      specialize (Hin e ltac:(apply in_or_app; left; rewrite Eq; apply in_or_app; auto)). lia.
    + replace (i - 1 + 1) with i by lia. exact Hl.
  - intros e He. split; [apply in_or_app; left; rewrite Eq; apply in_or_app; auto|].
    pose proof (sorted_app_rel _ _ _ (q_sorted _ _ _ HQ) e (i - 1)) as Hs.
    destruct Hs as [Hs _]; [rewrite Eq; apply in_or_app; auto|simpl; auto|lia].
Qed.
End Mono.

(** ** lower_upper_lemire *)
Section Main.
Context {N : Num} {L : NumLaws N}.
Notation D := (D N).
Variable t : list D.
Variables len r : Z.
Hypothesis Hlen : len <= Z.of_nat (length t).
Hypothesis Hnn : forall i, 0 <= i < len -> nn (tv t i).
Hypothesis Hr : 0 <= r <= len - 1.

Definition win_lo (k : Z) := Z.max 0 (k - r).
Definition win_hi (k : Z) := Z.min (len - 1) (k + r).

(** v is the largest / smallest value of the window of half-width r around k *)
Definition window_max (k : Z) (v : D) : Prop :=
  (exists i, win_lo k <= i <= win_hi k /\ v = tv t i) /\
  forall i, win_lo k <= i <= win_hi k -> nle (tv t i) v.
Definition window_min (k : Z) (v : D) : Prop :=
  (exists i, win_lo k <= i <= win_hi k /\ v = tv t i) /\
  forall i, win_lo k <= i <= win_hi k -> nle v (tv t i).

Notation bmax := (fun x y : D => nltb y x).
Notation bmin := (fun x y : D => nltb x y).
Notation Qx := (Q t bmax).
Notation Qn := (Q t bmin).
Notation C := (2 * r + 2).

Lemma Wx_refl x : nn x -> W bmax x x. Proof. intros _; apply lw_irrefl. Qed.
Lemma Wn_refl x : nn x -> W bmin x x. Proof. intros _; apply lw_irrefl. Qed.
Lemma Wx_trans x y z : nn x -> nn y -> nn z -> W bmax x y -> W bmax y z -> W bmax x z.
Proof. intros Hx Hy Hz H1 H2. apply (nle_trans x y z); repeat split; auto. Qed.
Lemma Wn_trans x y z : nn x -> nn y -> nn z -> W bmin x y -> W bmin y z -> W bmin x z.
Proof. intros Hx Hy Hz H1 H2. apply (nle_trans z y x); repeat split; auto. Qed.
Lemma Wx_total x y : nn x -> nn y -> nltb y x = true -> W bmax y x.
Proof. intros Hx Hy H. apply nlt_asym. exact H. Qed.
Lemma Wn_total x y : nn x -> nn y -> nltb x y = true -> W bmin y x.
Proof. intros Hx Hy H. apply nlt_asym. exact H. Qed.

Definition out_ok (i : Z) (s : lem_state) : Prop :=
  Z.of_nat (length (le_u s)) = len /\ Z.of_nat (length (le_l s)) = len /\
  forall k, 0 <= k < i - r - 1 ->
    (exists v, aget (le_u s) k = Ret (Some v) /\ window_max k v) /\
    (exists v, aget (le_l s) k = Ret (Some v) /\ window_min k v).

(** queues for the window [lo, hi] *)
Definition qs_ok (lo hi : Z) (du dl : deque) (qu ql : list Z) : Prop :=
  dq_rep C du qu /\ dq_rep C dl ql /\ Qx lo hi qu /\ Qn lo hi ql /\
  (forall e, In e qu -> In e ql -> e = hi).

Definition LI (i : Z) (s : lem_state) : Prop :=
  out_ok i s /\ exists qu ql, qs_ok (Z.max 0 (i - 1 - 2 * r)) (Z.min (len - 1) (i - 1)) (le_du s) (le_dl s) qu ql.

Lemma nonempty_front {b} lo hi q : Q t b lo hi q -> lo <= hi -> exists x q', q = x :: q'.
Proof.
  intros HQ Hle. destruct (Q_last t b lo hi q HQ Hle) as (q' & ->). destruct q'; simpl; eauto.
Qed.

Lemma emit_ok i s lo hi qu ql : lo = Z.max 0 (i - 1 - 2 * r) -> hi = Z.min (len - 1) (i - 1) ->
  r < i -> i <= len + r -> out_ok i s -> qs_ok lo hi (le_du s) (le_dl s) qu ql ->
  exists s', lem_emit t r i s = Ret s' /\ out_ok (i + 1) s' /\ le_du s' = le_du s /\ le_dl s' = le_dl s.
Proof.
  intros Elo Ehi Hi Hi2 (O1 & O2 & O3) (R1 & R2 & Q1 & Q2 & _).
  destruct (nonempty_front lo hi qu Q1 ltac:(lia)) as (x & qu' & ->).
  destruct (nonempty_front lo hi ql Q2 ltac:(lia)) as (y & ql' & ->).
  destruct (Q_front t len Hnn bmax Wx_trans lo hi x qu' ltac:(lia) ltac:(lia) Q1) as [Bx Mx].
  destruct (Q_front t len Hnn bmin Wn_trans lo hi y ql' ltac:(lia) ltac:(lia) Q2) as [By My].
  unfold lem_emit. rewrite (dq_front_ok _ _ _ _ R1). cbn [bind]. rewrite (tget t len Hlen) by lia. cbn [bind].
  rewrite aset_in by lia. cbn [bind].
  rewrite (dq_front_ok _ _ _ _ R2). cbn [bind]. rewrite (tget t len Hlen) by lia. cbn [bind].
  rewrite aset_in by lia. cbn [bind]. eexists. split; [reflexivity|].
  cbn [le_du le_dl]. splits; auto. unfold out_ok. cbn [le_u le_l]. rewrite !upd_length. splits; auto.
  intros k Hk. destruct (Z.eq_dec k (i - r - 1)) as [->|Hne].
  - assert (Ew : win_lo (i - r - 1) = lo /\ win_hi (i - r - 1) = hi) by (unfold win_lo, win_hi; lia).
    destruct Ew as [E1 E2]. split; eexists; (split; [apply aget_upd_same; lia|]); unfold window_max, window_min; rewrite E1, E2.
    + split; [eauto|]. intros j Hj. apply nltb_false_le; [apply Hnn; lia..|]. apply (Mx j Hj).
    + split; [eauto|]. intros j Hj. apply nltb_false_le; [apply Hnn; lia..|]. apply (My j Hj).
  - rewrite !aget_upd_other by lia. apply O3. lia.
Qed.

Lemma step1_ok i s : 1 <= i < len -> LI i s -> exists s', lem_step1 t r i s = Ret s' /\ LI (i + 1) s'.
Proof.
  intros Hi (HO & qu & ql & HQ).
  assert (E1 : exists s1, (if i >? r then lem_emit t r i s else Ret s) = Ret s1 /\ out_ok (i + 1) s1 /\
     le_du s1 = le_du s /\ le_dl s1 = le_dl s).
  { destruct (Z.gtb_spec i r) as [Hg|Hg].
    - apply (emit_ok i s _ _ qu ql eq_refl eq_refl); auto; lia.
    - exists s. splits; auto. destruct HO as (O1 & O2 & O3). unfold out_ok. splits; auto. intros k Hk. lia. }
  destruct E1 as (s1 & E1 & HO1 & Eu & El). unfold lem_step1. rewrite E1. cbn [bind]. clear E1 HO.
  rewrite (tget t len Hlen) by lia. cbn [bind]. rewrite (tget t len Hlen) by lia. cbn [bind].
  destruct HQ as (R1 & R2 & Q1 & Q2 & Hd).
  set (lo := Z.max 0 (i - 1 - 2 * r)) in *. replace (Z.min (len - 1) (i - 1)) with (i - 1) in * by lia.
  assert (Hlo : 0 <= lo /\ lo <= i - 1) by lia.
  (* after the pops *)
  assert (E2 : exists s2 qu2 ql2, (if nltb (tv t (i - 1)) (tv t i) then
          du <- dq_pop_back (le_du s1) ;;
          du <- lem_popwhile bmax t (tv t i) (Z.to_nat (dq_size du)) du ;;
          Ret (mkLem du (le_dl s1) (le_u s1) (le_l s1))
        else
          dl <- dq_pop_back (le_dl s1) ;;
          dl <- lem_popwhile bmin t (tv t i) (Z.to_nat (dq_size dl)) dl ;;
          Ret (mkLem (le_du s1) dl (le_u s1) (le_l s1))) = Ret s2 /\
      le_u s2 = le_u s1 /\ le_l s2 = le_l s1 /\ dq_rep C (le_du s2) qu2 /\ dq_rep C (le_dl s2) ql2 /\
      Qx lo i (qu2 ++ [i]) /\ Qn lo i (ql2 ++ [i]) /\
      (forall e, In e (qu2 ++ [i]) -> In e (ql2 ++ [i]) -> e = i)).
  { rewrite Eu, El. destruct (nltb (tv t (i - 1)) (tv t i)) eqn:Ec.
    - destruct (popped_ok t len Hlen Hnn bmax Wx_refl Wx_trans Wx_total C lo i (le_du s) qu) as
        (d1 & d' & q' & P1 & P2 & P3 & P4 & P5); auto; try lia.
      { apply nlt_asym. exact Ec. }
      rewrite P1. cbn [bind]. rewrite P2. cbn [bind]. eexists _, q', ql. split; [reflexivity|]. cbn [le_u le_l le_du le_dl].
      splits; auto.
      + replace i with (i - 1 + 1) at 1 2 by lia. apply (Q_keep t len Hnn bmin Wn_refl Wn_trans); auto; try lia.
        replace (i - 1 + 1) with i by lia. apply nlt_asym. exact Ec.
      + intros e He1 He2. apply in_app_or in He1 as [He1|[<-|[]]]; auto. apply in_app_or in He2 as [He2|[<-|[]]]; auto.
        destruct (P5 e He1) as [He3 Hne]. exfalso. apply Hne. auto.
    - destruct (popped_ok t len Hlen Hnn bmin Wn_refl Wn_trans Wn_total C lo i (le_dl s) ql) as
        (d1 & d' & q' & P1 & P2 & P3 & P4 & P5); auto; try lia.
      rewrite P1. cbn [bind]. rewrite P2. cbn [bind]. eexists _, qu, q'. split; [reflexivity|]. cbn [le_u le_l le_du le_dl].
      splits; auto.
      + replace i with (i - 1 + 1) at 1 2 by lia. apply (Q_keep t len Hnn bmax Wx_refl Wx_trans); auto; try lia.
        replace (i - 1 + 1) with i by lia. exact Ec.
      + intros e He1 He2. apply in_app_or in He1 as [He1|[<-|[]]]; auto. apply in_app_or in He2 as [He2|[<-|[]]]; auto.
        destruct (P5 e He2) as [He3 Hne]. exfalso. apply Hne. auto. }
  destruct E2 as (s2 & qu2 & ql2 & E2 & F1 & F2 & S1 & S2 & Q1' & Q2' & Hd'). rewrite E2. cbn [bind]. clear E2.
  pose proof (Q_len _ _ _ _ _ Q1') as L1. pose proof (Q_len _ _ _ _ _ Q2') as L2.
  rewrite app_length in L1, L2. simpl in L1, L2.
  destruct (dq_push_ok _ _ _ i S1 ltac:(lia)) as (du & -> & T1). cbn [bind].
  destruct (dq_push_ok _ _ _ i S2 ltac:(lia)) as (dl & -> & T2). cbn [bind].
  destruct (nonempty_front _ _ _ Q1' ltac:(lia)) as (x & qx & Ex).
  destruct (nonempty_front _ _ _ Q2' ltac:(lia)) as (y & qy & Ey).
  rewrite Ex in *. rewrite Ey in *.
  rewrite (dq_front_ok _ _ _ _ T1). cbn [bind].
  destruct (Q_front t len Hnn bmax Wx_trans lo i x qx ltac:(lia) ltac:(lia) Q1') as [Bx _].
  destruct (Q_front t len Hnn bmin Wn_trans lo i y qy ltac:(lia) ltac:(lia) Q2') as [By _].
  assert (HO2 : forall du dl, out_ok (i + 1) (mkLem du dl (le_u s2) (le_l s2))).
  { intros ? ?. unfold out_ok in *. cbn [le_u le_l]. rewrite F1, F2. exact HO1. }
  assert (Sx : forall e, In e (x :: qx) -> x <= e).
  { intros e [<-|He]; [lia|]. pose proof (q_sorted _ _ _ _ _ Q1') as Hs. inversion Hs as [|? ? _ Hf]; subst.
    rewrite Forall_forall in Hf. destruct (Hf e He). lia. }
  assert (Sy : forall e, In e (y :: qy) -> y <= e).
  { intros e [<-|He]; [lia|]. pose proof (q_sorted _ _ _ _ _ Q2') as Hs. inversion Hs as [|? ? _ Hf]; subst.
    rewrite Forall_forall in Hf. destruct (Hf e He). lia. }
  assert (Hhi : Z.min (len - 1) (i + 1 - 1) = i) by lia.
  assert (Sh : forall b q, Q t b lo i q -> (forall e, In e q -> i - 1 - 2 * r < e) ->
                 Q t b (Z.max 0 (i + 1 - 1 - 2 * r)) i q).
  { intros b q HQ Hq. destruct (Z.le_gt_cases 0 (i - 1 - 2 * r)) as [Hc|Hc].
    - replace (Z.max 0 (i + 1 - 1 - 2 * r)) with (lo + 1) by lia. apply Q_shift; auto. intros e He. specialize (Hq e He). lia.
    - replace (Z.max 0 (i + 1 - 1 - 2 * r)) with lo by lia. exact HQ. }
  destruct (Z.eqb_spec i (2 * r + 1 + x)) as [Ei|Ei].
  - (* pop from du *)
    eexists. split; [reflexivity|]. split; [apply HO2|]. exists qx, (y :: qy). cbn [le_du le_dl]. rewrite Hhi. unfold qs_ok.
    assert (Exl : x = lo) by lia.
    splits; auto.
    + eapply dq_pop_front_ok; eauto.
    + replace (Z.max 0 (i + 1 - 1 - 2 * r)) with (lo + 1) by lia. apply Q_pop. rewrite <- Exl at 2. exact Q1'.
    + apply Sh; auto. intros e He. destruct (Z.eq_dec e x) as [->|Hne].
      * specialize (Hd' x ltac:(simpl; auto) He). lia.
      * pose proof (q_in _ _ _ _ _ Q2') as Hin. rewrite Forall_forall in Hin. specialize (Hin e He). lia.
    + intros e He1 He2. apply Hd'; simpl; auto.
  - rewrite (dq_front_ok _ _ _ _ T2). cbn [bind]. destruct (Z.eqb_spec i (2 * r + 1 + y)) as [Ej|Ej].
    + eexists. split; [reflexivity|]. split; [apply HO2|]. exists (x :: qx), qy. cbn [le_du le_dl]. rewrite Hhi. unfold qs_ok.
      assert (Eyl : y = lo) by lia.
      splits; auto.
      * eapply dq_pop_front_ok; eauto.
      * apply Sh; auto. intros e He. specialize (Sx e He). lia.
      * replace (Z.max 0 (i + 1 - 1 - 2 * r)) with (lo + 1) by lia. apply Q_pop. rewrite <- Eyl at 2. exact Q2'.
      * intros e He1 He2. apply Hd'; simpl; auto.
    + eexists. split; [reflexivity|]. split; [apply HO2|]. exists (x :: qx), (y :: qy). cbn [le_du le_dl]. rewrite Hhi. unfold qs_ok.
      splits; auto.
      * apply Sh; auto. intros e He. specialize (Sx e He). lia.
      * apply Sh; auto. intros e He. specialize (Sy e He). lia.
Qed.

Definition LI2 (i : Z) (s : lem_state) : Prop :=
  out_ok i s /\ exists qu ql, dq_rep C (le_du s) qu /\ dq_rep C (le_dl s) ql /\
    Qx (Z.max 0 (i - 1 - 2 * r)) (len - 1) qu /\ Qn (Z.max 0 (i - 1 - 2 * r)) (len - 1) ql.

Lemma step2_ok i s : len <= i < len + r + 1 -> LI2 i s -> exists s', lem_step2 t r i s = Ret s' /\ LI2 (i + 1) s'.
Proof.
  intros Hi (HO & qu & ql & R1 & R2 & Q1 & Q2).
  set (lo := Z.max 0 (i - 1 - 2 * r)) in *.
  destruct (nonempty_front _ _ _ Q1 ltac:(lia)) as (x & qx & ->).
  destruct (nonempty_front _ _ _ Q2 ltac:(lia)) as (y & qy & ->).
  destruct (Q_front t len Hnn bmax Wx_trans lo (len - 1) x qx ltac:(lia) ltac:(lia) Q1) as [Bx Mx].
  destruct (Q_front t len Hnn bmin Wn_trans lo (len - 1) y qy ltac:(lia) ltac:(lia) Q2) as [By My].
  assert (Hemit : exists s', lem_emit t r i s = Ret s' /\ out_ok (i + 1) s' /\ le_du s' = le_du s /\ le_dl s' = le_dl s).
  { destruct HO as (O1 & O2 & O3). unfold lem_emit. rewrite (dq_front_ok _ _ _ _ R1). cbn [bind].
    rewrite (tget t len Hlen) by lia. cbn [bind]. rewrite aset_in by lia. cbn [bind].
    rewrite (dq_front_ok _ _ _ _ R2). cbn [bind]. rewrite (tget t len Hlen) by lia. cbn [bind].
    rewrite aset_in by lia. cbn [bind]. eexists. split; [reflexivity|].
    cbn [le_du le_dl]. splits; auto. unfold out_ok. cbn [le_u le_l]. rewrite !upd_length. splits; auto.
    intros k Hk. destruct (Z.eq_dec k (i - r - 1)) as [->|Hne].
    - assert (Ew : win_lo (i - r - 1) = lo /\ win_hi (i - r - 1) = len - 1) by (unfold win_lo, win_hi; lia).
      destruct Ew as [E1 E2]. split; eexists; (split; [apply aget_upd_same; lia|]); unfold window_max, window_min; rewrite E1, E2.
      + split; [eauto|]. intros j Hj. apply nltb_false_le; [apply Hnn; lia..|]. apply (Mx j Hj).
      + split; [eauto|]. intros j Hj. apply nltb_false_le; [apply Hnn; lia..|]. apply (My j Hj).
    - rewrite !aget_upd_other by lia. apply O3. lia. }
  destruct Hemit as (s' & E & HO' & Eu & El). unfold lem_step2. rewrite E. cbn [bind]. rewrite Eu, El.
  rewrite (dq_front_ok _ _ _ _ R1). cbn [bind]. rewrite (dq_front_ok _ _ _ _ R2). cbn [bind].
  eexists. split; [reflexivity|]. split; [exact HO'|]. cbn [le_du le_dl].
  assert (Sh : forall b z q, Q t b lo (len - 1) (z :: q) -> i - z < 2 * r + 1 ->
                 Q t b (Z.max 0 (i + 1 - 1 - 2 * r)) (len - 1) (z :: q)).
  { intros b z q HQ Hq. destruct (Z.le_gt_cases 0 (i - 1 - 2 * r)) as [Hc|Hc].
    - replace (Z.max 0 (i + 1 - 1 - 2 * r)) with (lo + 1) by lia. apply Q_shift; auto. intros e He.
      assert (z <= e). { destruct He as [<-|He]; [lia|]. pose proof (q_sorted _ _ _ _ _ HQ) as Hs.
        inversion Hs as [|? ? _ Hf]; subst. rewrite Forall_forall in Hf. destruct (Hf e He). lia. }
      lia.
    - replace (Z.max 0 (i + 1 - 1 - 2 * r)) with lo by lia. exact HQ. }
  assert (Hp : forall b z q, Q t b lo (len - 1) (z :: q) -> lo <= z -> 2 * r + 1 <= i - z ->
                 Q t b (Z.max 0 (i + 1 - 1 - 2 * r)) (len - 1) q).
  { intros b z q HQ H1 H2. replace (Z.max 0 (i + 1 - 1 - 2 * r)) with (lo + 1) by lia.
    assert (z = lo) as Ez by lia. apply Q_pop. rewrite <- Ez at 2. exact HQ. }
  destruct (Z.leb_spec (2 * r + 1) (i - x)) as [Cx|Cx]; destruct (Z.leb_spec (2 * r + 1) (i - y)) as [Cy|Cy].
  - exists qx, qy. splits; eauto using dq_pop_front_ok. + apply (Hp _ x); auto; lia. + apply (Hp _ y); auto; lia.
  - exists qx, (y :: qy). splits; eauto using dq_pop_front_ok. apply (Hp _ x); auto; lia.
  - exists (x :: qx), qy. splits; eauto using dq_pop_front_ok. apply (Hp _ y); auto; lia.
  - exists (x :: qx), (y :: qy). splits; eauto.
Qed.

(** The envelope is the sliding minimum and maximum. *)
Lemma lemire_ok : exists l u, lower_upper_lemire t len r = Ret (l, u) /\
  Z.of_nat (length l) = len /\ Z.of_nat (length u) = len /\
  forall k, 0 <= k < len ->
    (exists v, aget u k = Ret (Some v) /\ window_max k v) /\
    (exists v, aget l k = Ret (Some v) /\ window_min k v).
Proof.
  unfold lower_upper_lemire. destruct (Z.ltb_spec C 0); [lia|].
  destruct (dq_push_ok C (dq_new C) [] 0 (dq_new_rep C ltac:(lia)) ltac:(cbn [length]; lia)) as (d & Ed & Rd).
  cbv zeta. rewrite Ed. cbn [bind]. cbn [app] in Rd.
  destruct (for_inv LI (lem_step1 t r) 1 len (mkLem d d (repeat None (Z.to_nat len)) (repeat None (Z.to_nat len))))
    as (s1 & E1 & H1); [lia| |intros; apply step1_ok; auto|].
  { split.
    - unfold out_ok. cbn [le_u le_l]. rewrite repeat_length. splits; lia.
    - exists [0], [0]. cbn [le_du le_dl].
      replace (Z.max 0 (1 - 1 - 2 * r)) with 0 by lia. replace (Z.min (len - 1) (1 - 1)) with 0 by lia.
      assert (HQ : forall b, (forall x, nn x -> W b x x) -> Q t b 0 0 [0]).
      { intros b Hb. constructor; [repeat constructor; lia|repeat constructor|].
        intros k Hk. exists 0. assert (k = 0) as -> by lia. splits; [simpl; auto|lia|apply Hb, Hnn; lia]. }
      unfold qs_ok. splits; auto using Wx_refl, Wn_refl. intros e [<-|[]] _; auto. }
  rewrite E1. cbn [bind].
  destruct (for_inv LI2 (lem_step2 t r) len (len + r + 1) s1) as (s2 & E2 & H2); [lia| |intros; apply step2_ok; auto|].
  { destruct H1 as (HO & qu & ql & R1 & R2 & Q1 & Q2 & _). split; auto. exists qu, ql. 
    replace (Z.min (len - 1) (len - 1)) with (len - 1) in * by lia. splits; auto. }
  rewrite E2. cbn [bind]. exists (le_l s2), (le_u s2). destruct H2 as ((O1 & O2 & O3) & _).
  splits; auto. intros k Hk. apply O3. lia.
Qed.
End Main.
