(** The lower bounds of genex/lib/trillionDTW.cpp in exact arithmetic. *)
From Coq Require Import Reals Lra Permutation.
From Flocq Require Import Core.Raux.
From Verif Require Import Base Num NumLaws NumXR NumXRLaws Lemire LemireProofs Ucr DtwSpec DtwPaths LoopFacts
  DtwReal UcrReal UcrDtw.
Local Open Scope R_scope.

Lemma zn_fin mu sg a : sg <> 0 -> zn (N := XR) (Fin mu) (Fin sg) (Fin a) = Fin ((a - mu) / sg).
Proof.
  intros H. unfold zn. cbn. destruct (Req_bool_spec sg 0); [contradiction|reflexivity].
Qed.

(** ** the envelope *)
Lemma lemire_fin (xs : list R) (len r : Z) : len = Rlen xs -> (0 <= r <= len - 1)%Z ->
  exists l u (lf uf : Z -> R), lower_upper_lemire (N := XR) (map Fin xs) len r = Ret (l, u) /\
    (forall k, (0 <= k < len)%Z -> cell l k = Ret (Fin (lf k)) /\ cell u k = Ret (Fin (uf k))) /\
    (forall k i, (0 <= k < len)%Z -> (0 <= i < len)%Z -> (Z.abs (i - k) <= r)%Z -> lf k <= Rpt xs i <= uf k).
Proof.
  intros -> Hr.
  assert (Htv : forall i, tv (N := XR) (map Fin xs) i = Fin (Rpt xs i)).
  { intros i. unfold tv, Rpt. change (@n0 XR) with (Fin 0). apply (map_nth Fin). }
  destruct (lemire_ok (N := XR) (map Fin xs) (Rlen xs) r) as (l & u & E & L1 & L2 & H).
  - rewrite map_length. unfold Rlen. lia.
  - intros i Hi. rewrite Htv. apply XR_nn. discriminate.
  - auto.
  - exists l, u, (fun k => match aget l k with Ret (Some (Fin v)) => v | _ => 0 end),
      (fun k => match aget u k with Ret (Some (Fin v)) => v | _ => 0 end).
    split; [exact E|]. split.
    + intros k Hk. destruct (H k Hk) as ((v & E1 & (i & Hi & E2) & _) & (v' & E3 & (i' & Hi' & E4) & _)).
      unfold cell. rewrite E1, E3. cbn [bind init_get]. rewrite Htv in E2, E4. subst v v'. auto.
    + intros k i Hk Hi Hb. destruct (H k Hk) as ((v & E1 & (j & Hj & E2) & M1) & (v' & E3 & (j' & Hj' & E4) & M2)).
      rewrite E1, E3. rewrite Htv in E2, E4. subst v v'.
      specialize (M1 i ltac:(unfold win_lo, win_hi; lia)). specialize (M2 i ltac:(unfold win_lo, win_hi; lia)).
      rewrite Htv in M1, M2. apply XR_nle in M1, M2. simpl in M1, M2. auto.
Qed.

(** ** LB_Kim *)
Section Kim.
Variable t : list (option (D XR)).
Variables ys : list R.
Variables m j r : Z.
Variable a : Z -> R.
Variables mu sg : R.
Hypothesis Hm : (6 <= m)%Z.
Hypothesis Hr : (0 <= r)%Z.
Hypothesis Ly : Rlen ys = m.
Hypothesis Ht : forall k, (0 <= k < m)%Z -> cell t (k + j) = Ret (Fin (a k)).
Let x (k : Z) : R := (a k - mu) / sg.
Let c (i k : Z) : R := (x i - Rpt ys k) * (x i - Rpt ys k).

Lemma c_pos i k : 0 <= c i k.
Proof. apply Rle_0_sqr. Qed.

Lemma mins2 (u v : R) : Rmin u v <= u /\ Rmin u v <= v.
Proof. split; [apply Rmin_l|apply Rmin_r]. Qed.

Lemma kim_ok b : sg <> 0 -> exists v, lb_kim (N := XR) t (map Fin ys) j m (Fin mu) (Fin sg) (Fin b) = Ret (Fin v) /\
  forall p, bpath r (m - 1) (m - 1) p -> v <= psum c p.
Proof.
  intros Hsg.
  set (w1 := Rmin (Rmin (c 1 0) (c 0 1)) (c 1 1)).
  set (e1 := Rmin (Rmin (c (m - 2) (m - 1)) (c (m - 1) (m - 2))) (c (m - 2) (m - 2))).
  set (w2 := Rmin (Rmin (Rmin (Rmin (c 0 2) (c 1 2)) (c 2 2)) (c 2 1)) (c 2 0)).
  set (e2 := Rmin (Rmin (Rmin (Rmin (c (m - 1) (m - 3)) (c (m - 2) (m - 3))) (c (m - 3) (m - 3))) (c (m - 3) (m - 2))) (c (m - 3) (m - 1))).
  assert (Hmin : forall u v, 0 <= u -> 0 <= v -> 0 <= Rmin u v) by (intros; apply Rmin_glb; auto).
  pose proof c_pos as Hc.
  assert (P1 : 0 <= w1) by (unfold w1; auto). assert (P2 : 0 <= w2) by (unfold w2; auto 8).
  assert (P3 : 0 <= e1) by (unfold e1; auto). assert (P4 : 0 <= e2) by (unfold e2; auto 8).
  assert (Hbound : forall v v1 v2 v3 v4, (v1 = 0 \/ v1 = w1) -> (v2 = 0 \/ v2 = e1) -> (v3 = 0 \/ v3 = w2) -> (v4 = 0 \/ v4 = e2) ->
    v = c 0 0 + v1 + v3 + c (m - 1)%Z (m - 1)%Z + v2 + v4 -> forall p, bpath r (m - 1) (m - 1) p -> v <= psum c p).
  { intros v v1 v2 v3 v4 V1 V2 V3 V4 -> p Hp.
    apply (kim_bound r c m (c 0 0) v1 v3 (c (m - 1)%Z (m - 1)%Z) v2 v4 p); auto.
    1: destruct V1 as [->| ->]; auto; lra. 1: destruct V3 as [->| ->]; auto; lra.
    1: destruct V2 as [->| ->]; auto; lra. 1: destruct V4 as [->| ->]; auto; lra.
    - intros i k H1 H2 H3. assert (i = 0%Z) as -> by lia. assert (k = 0%Z) as -> by lia. lra.
    - intros i k H1 H2 H3. destruct V1 as [->| ->]; auto. unfold w1.
      pose proof (Rmin_l (Rmin (c 1 0) (c 0 1)) (c 1 1)). pose proof (Rmin_r (Rmin (c 1 0) (c 0 1)) (c 1 1)).
      pose proof (Rmin_l (c 1 0) (c 0 1)). pose proof (Rmin_r (c 1 0) (c 0 1)).
      assert ((i = 1 /\ k = 0) \/ (i = 0 /\ k = 1) \/ (i = 1 /\ k = 1))%Z as [(-> & ->)|[(-> & ->)|(-> & ->)]] by lia; lra.
    - intros i k H1 H2 H3. destruct V3 as [->| ->]; auto. unfold w2.
      set (n1 := Rmin (c 0 2) (c 1 2)). set (n2 := Rmin n1 (c 2 2)). set (n3 := Rmin n2 (c 2 1)).
      destruct (mins2 n3 (c 2 0)). destruct (mins2 n2 (c 2 1) : n3 <= _ /\ n3 <= _). destruct (mins2 n1 (c 2 2) : n2 <= _ /\ n2 <= _).
      destruct (mins2 (c 0 2) (c 1 2) : n1 <= _ /\ n1 <= _).
      assert ((i = 0 /\ k = 2) \/ (i = 1 /\ k = 2) \/ (i = 2 /\ k = 2) \/ (i = 2 /\ k = 1) \/ (i = 2 /\ k = 0))%Z
        as [(-> & ->)|[(-> & ->)|[(-> & ->)|[(-> & ->)|(-> & ->)]]]] by lia; lra.
    - intros i k H1 H2 H3. assert (i = m - 1)%Z as -> by lia. assert (k = m - 1)%Z as -> by lia. lra.
    - intros i k H1 H2 H3. destruct V2 as [->| ->]; auto. unfold e1.
      set (n1 := Rmin (c (m - 2)%Z (m - 1)%Z) (c (m - 1)%Z (m - 2)%Z)).
      destruct (mins2 n1 (c (m - 2)%Z (m - 2)%Z)). destruct (mins2 (c (m - 2)%Z (m - 1)%Z) (c (m - 1)%Z (m - 2)%Z) : n1 <= _ /\ n1 <= _).
      assert ((i = m - 2 /\ k = m - 1) \/ (i = m - 1 /\ k = m - 2) \/ (i = m - 2 /\ k = m - 2))%Z as [(-> & ->)|[(-> & ->)|(-> & ->)]] by lia; lra.
    - intros i k H1 H2 H3. destruct V4 as [->| ->]; auto. unfold e2.
      set (n1 := Rmin (c (m - 1)%Z (m - 3)%Z) (c (m - 2)%Z (m - 3)%Z)). set (n2 := Rmin n1 (c (m - 3)%Z (m - 3)%Z)). set (n3 := Rmin n2 (c (m - 3)%Z (m - 2)%Z)).
      destruct (mins2 n3 (c (m - 3)%Z (m - 1)%Z)). destruct (mins2 n2 (c (m - 3)%Z (m - 2)%Z) : n3 <= _ /\ n3 <= _).
      destruct (mins2 n1 (c (m - 3)%Z (m - 3)%Z) : n2 <= _ /\ n2 <= _).
      destruct (mins2 (c (m - 1)%Z (m - 3)%Z) (c (m - 2)%Z (m - 3)%Z) : n1 <= _ /\ n1 <= _).
      assert ((i = m - 1 /\ k = m - 3) \/ (i = m - 2 /\ k = m - 3) \/ (i = m - 3 /\ k = m - 3) \/ (i = m - 3 /\ k = m - 2) \/ (i = m - 3 /\ k = m - 1))%Z
        as [(-> & ->)|[(-> & ->)|[(-> & ->)|[(-> & ->)|(-> & ->)]]]] by lia; lra. }
  unfold lb_kim.
  pose proof (Ht 0 ltac:(lia)) as T0. replace (0 + j)%Z with j in T0 by lia.
  pose proof (Ht (m - 1) ltac:(lia)) as T1.
  pose proof (Ht 1 ltac:(lia)) as T2. replace (1 + j)%Z with (j + 1)%Z in T2 by lia.
  pose proof (Ht (m - 2) ltac:(lia)) as T3.
  pose proof (Ht 2 ltac:(lia)) as T4. replace (2 + j)%Z with (j + 2)%Z in T4 by lia.
  pose proof (Ht (m - 3) ltac:(lia)) as T5.
  rewrite T0, T1, T2, T3, T4, T5. cbn [bind]. rewrite !aget_fin by lia. cbn [bind].
  rewrite !zn_fin by auto. fold (x 0) (x (m - 1)) (x 1) (x (m - 2)) (x 2) (x (m - 3)).
  rewrite !sqd_fin. fold (c 0 0) (c (m - 1) (m - 1)) (c 1 0) (c 0 1) (c 1 1).
  fold (c (m - 2) (m - 1)) (c (m - 1) (m - 2)) (c (m - 2) (m - 2)).
  fold (c 0 2) (c 1 2) (c 2 2) (c 2 1) (c 2 0).
  fold (c (m - 1) (m - 3)) (c (m - 2) (m - 3)) (c (m - 3) (m - 3)) (c (m - 3) (m - 2)) (c (m - 3) (m - 1)).
  rewrite !cmin_fin. fold w1 w2 e1 e2. rewrite !nadd_fin, !nge_fin.
  destruct (Rle_bool_spec b (c 0 0 + c (m - 1)%Z (m - 1)%Z)).
  { eexists; split; [reflexivity|]. apply (Hbound _ 0 0 0 0); auto; lra. }
  destruct (Rle_bool_spec b (c 0 0 + c (m - 1)%Z (m - 1)%Z + w1)).
  { eexists; split; [reflexivity|]. apply (Hbound _ w1 0 0 0); auto; lra. }
  destruct (Rle_bool_spec b (c 0 0 + c (m - 1)%Z (m - 1)%Z + w1 + e1)).
  { eexists; split; [reflexivity|]. apply (Hbound _ w1 e1 0 0); auto; lra. }
  destruct (Rle_bool_spec b (c 0 0 + c (m - 1)%Z (m - 1)%Z + w1 + e1 + w2)).
  { eexists; split; [reflexivity|]. apply (Hbound _ w1 e1 w2 0); auto; lra. }
  eexists; split; [reflexivity|]. apply (Hbound _ w1 e1 w2 e2); auto; lra.
Qed.

(** a window without variation gives no number *)
Lemma kim_nan b : sg = 0 -> (forall k, (0 <= k < m)%Z -> a k = mu) ->
  lb_kim (N := XR) t (map Fin ys) j m (Fin mu) (Fin sg) (Fin b) = Ret XNaN.
Proof.
  intros Hsg Ha. unfold lb_kim.
  pose proof (Ht 0 ltac:(lia)) as T0. replace (0 + j)%Z with j in T0 by lia.
  pose proof (Ht (m - 1) ltac:(lia)) as T1.
  pose proof (Ht 1 ltac:(lia)) as T2. replace (1 + j)%Z with (j + 1)%Z in T2 by lia.
  pose proof (Ht (m - 2) ltac:(lia)) as T3.
  pose proof (Ht 2 ltac:(lia)) as T4. replace (2 + j)%Z with (j + 2)%Z in T4 by lia.
  pose proof (Ht (m - 3) ltac:(lia)) as T5.
  rewrite T0, T1, T2, T3, T4, T5. cbn [bind]. rewrite !aget_fin by lia. cbn [bind].
  assert (Hz : forall k, (0 <= k < m)%Z -> zn (N := XR) (Fin mu) (Fin sg) (Fin (a k)) = XNaN).
  { intros k Hk. rewrite Ha, Hsg by auto. unfold zn. cbn. rewrite Req_bool_refl.
    destruct (Req_bool_spec (mu - mu) 0); [reflexivity|lra]. }
  rewrite !Hz by lia. reflexivity.
Qed.
End Kim.

(** ** LB_Keogh *)
Definition zseq (m : Z) : list Z := map Z.of_nat (seq 0 (Z.to_nat m)).
Definition lsum (w : Z -> R) (l : list Z) : R := fold_right (fun k s => w k + s) 0 l.

Lemma lsum_app w l l' : lsum w (l ++ l') = lsum w l + lsum w l'.
Proof. induction l as [|x l IH]; simpl; [lra|]. rewrite IH. lra. Qed.

Lemma lsum_perm w l l' : Permutation l l' -> lsum w l = lsum w l'.
Proof. induction 1; simpl; lra. Qed.

Lemma lsum_pos w l : (forall k, 0 <= w k) -> 0 <= lsum w l.
Proof. intros H. induction l as [|x l IH]; simpl; [lra|]. specialize (H x). lra. Qed.

Lemma lsum_zseq w m : lsum w (zseq m) = pre w m.
Proof.
  unfold lsum, zseq, pre. generalize (seq 0 (Z.to_nat m)). intros l.
  induction l as [|x l IH]; simpl; [reflexivity|]. rewrite IH. reflexivity.
Qed.

Lemma in_zseq m k : In k (zseq m) <-> (0 <= k < m)%Z.
Proof.
  unfold zseq. rewrite in_map_iff. split.
  - intros (n & <- & H). apply in_seq in H. lia.
  - intros H. exists (Z.to_nat k). split; [lia|]. apply in_seq. lia.
Qed.

Lemma zseq_length m : (0 <= m)%Z -> Z.of_nat (length (zseq m)) = m.
Proof. intros H. unfold zseq. rewrite map_length, seq_length. lia. Qed.

Lemma zseq_nth m k : (0 <= k < m)%Z -> nth (Z.to_nat k) (zseq m) 0%Z = k.
Proof.
  intros H. unfold zseq. change 0%Z with (Z.of_nat 0). rewrite map_nth, seq_nth; lia.
Qed.

Section Keogh.
Variable m : Z.
Hypothesis Hm : (0 <= m)%Z.
Variable order : list Z.
Hypothesis Hord : Permutation order (zseq m).
Variable w : Z -> R.
Hypothesis Hw : forall k, 0 <= w k.

Lemma order_length : Z.of_nat (length order) = m.
Proof. rewrite (Permutation_length Hord). apply zseq_length; auto. Qed.

Definition ord (i : Z) : Z := nth (Z.to_nat i) order 0%Z.

Lemma order_get i : (0 <= i < m)%Z -> aget order i = Ret (ord i) /\ (0 <= ord i < m)%Z.
Proof.
  intros Hi. pose proof order_length. split; [apply aget_nth; lia|].
  apply in_zseq, (Permutation_in _ Hord). apply nth_In. lia.
Qed.

Definition weights : list R := map w (zseq m).

Lemma weights_pt k : (0 <= k < m)%Z -> Rpt weights k = w k.
Proof.
  intros H. unfold Rpt, weights. rewrite (nth_indep _ 0 (w 0%Z)) by (rewrite map_length; pose proof (zseq_length m Hm); lia).
  rewrite map_nth, zseq_nth by auto. reflexivity.
Qed.

Variable body : Z -> D XR * list (D XR) -> res ((D XR * list (D XR)) * bool).
Variable b : R.
Hypothesis Hbody : forall i lb cb, (0 <= i < m)%Z -> Z.of_nat (length cb) = m ->
  body i (Fin lb, cb) = if Rlt_bool lb b then Ret ((Fin (lb + w (ord i)), upd cb (Z.to_nat (ord i)) (Fin (w (ord i)))), false)
                        else Ret ((Fin lb, cb), true).

Definition keogh_inv (i : Z) (s : D XR * list (D XR)) : Prop :=
  fst s = Fin (lsum w (firstn (Z.to_nat i) order)) /\ Z.of_nat (length (snd s)) = m /\
  forall i', (0 <= i' < i)%Z -> aget (snd s) (ord i') = Ret (Fin (w (ord i'))).

Lemma keogh_loop cb : Z.of_nat (length cb) = m ->
  exists v cb' brk, forb_ 0 m body (@n0 XR, cb) = Ret ((Fin v, cb'), brk) /\ v <= pre w m /\
    Z.of_nat (length cb') = m /\
    (v < b -> v = pre w m /\ cb' = map Fin weights).
Proof.
  intros Lcb. pose proof order_length as Lo.
  destruct (forb_inv keogh_inv (fun _ s => exists v, fst s = Fin v /\ v <= pre w m /\ b <= v /\ Z.of_nat (length (snd s)) = m)
              body 0 m (@n0 XR, cb)) as (s & brk & E & H).
  - auto.
  - unfold keogh_inv. cbn [fst snd]. splits; auto. intros; lia.
  - intros i [lb cb1] Hi (H1 & H2 & H3). cbn [fst snd] in *. subst lb. rewrite Hbody by auto.
    assert (Hle : lsum w (firstn (Z.to_nat i) order) <= pre w m).
    { rewrite <- lsum_zseq, <- (lsum_perm w _ _ Hord). rewrite <- (firstn_skipn (Z.to_nat i) order) at 2.
      rewrite lsum_app. pose proof (lsum_pos w (skipn (Z.to_nat i) order) Hw). lra. }
    destruct (Rlt_bool_spec (lsum w (firstn (Z.to_nat i) order)) b).
    + eexists _, false. split; [reflexivity|]. unfold keogh_inv. cbn [fst snd].
      pose proof (order_get i Hi) as (G1 & G2). splits.
      * f_equal. replace (Z.to_nat (i + 1)) with (S (Z.to_nat i)) by lia.
        assert (Ef : firstn (S (Z.to_nat i)) order = (firstn (Z.to_nat i) order ++ [ord i])%list).
        { unfold ord. clear - Hi Lo. assert (Hn : (Z.to_nat i < length order)%nat) by lia. revert Hn.
          generalize (Z.to_nat i) as n. generalize order as l. induction l as [|x l IH]; intros [|n] Hn; cbn [length] in Hn; try lia; auto.
          cbn [firstn nth app]. rewrite <- IH by lia. reflexivity. }
        rewrite Ef, lsum_app. simpl. lra.
      * rewrite upd_length. auto.
      * intros i' Hi'. destruct (Z.eq_dec (ord i') (ord i)) as [->|Hne].
        -- apply aget_upd_same. lia.
        -- rewrite aget_upd_other by lia. apply H3. assert (i' <> i) by congruence. lia.
    + eexists _, true. split; [reflexivity|]. eexists. cbn [fst snd]. splits; eauto.
  - destruct s as [lb cb']. cbn [fst snd] in *. destruct brk.
    + destruct H as (_ & _ & v & E1 & H1 & H2 & H3). cbn [fst snd] in *. subst lb.
      exists v, cb', true. splits; auto; lra.
    + destruct H as (H1 & H2 & H3). cbn [fst snd] in *. subst lb.
      assert (Ev : lsum w (firstn (Z.to_nat m) order) = pre w m).
      { rewrite firstn_all2 by lia. rewrite (lsum_perm w _ _ Hord). apply lsum_zseq. }
      exists (pre w m), cb', false. rewrite <- Ev at 1. splits; auto; [lra|].
      intros _. split; auto.
      apply nth_ext with (d := Fin 0) (d' := Fin 0).
      { rewrite map_length. unfold weights. rewrite map_length. pose proof (zseq_length m Hm). lia. }
      intros n Hn.
      assert (Hin : In (Z.of_nat n) order) by (apply (Permutation_in _ (Permutation_sym Hord)), in_zseq; lia).
      apply (In_nth _ _ 0%Z) in Hin as (i' & Hi' & Eo).
      specialize (H3 (Z.of_nat i') ltac:(lia)). unfold ord in H3. rewrite Nat2Z.id, Eo in H3.
      rewrite (aget_nth _ _ (Fin 0)) in H3 by (change xr with (D XR) in *; lia). rewrite Nat2Z.id in H3. injection H3 as H3. change (D XR) with xr in *. rewrite H3.
      rewrite (map_nth Fin). f_equal. rewrite <- (weights_pt (Z.of_nat n)) by lia.
      unfold Rpt. rewrite Nat2Z.id. reflexivity.
Qed.
End Keogh.

(** the first bound: distance of the data from the envelope of the query *)
Definition w_out (x l u : Z -> R) (k : Z) : R :=
  if Rlt_bool (u k) (x k) then (x k - u k) * (x k - u k)
  else if Rlt_bool (x k) (l k) then (x k - l k) * (x k - l k) else 0.

Lemma w_out_pos x l u k : 0 <= w_out x l u k.
Proof.
  unfold w_out. destruct (Rlt_bool _ _); [apply Rle_0_sqr|].
  destruct (Rlt_bool _ _); [apply Rle_0_sqr|lra].
Qed.

Lemma w_out_le x l u k y : l k <= y <= u k -> w_out x l u k <= (x k - y) * (x k - y).
Proof.
  intros H. unfold w_out. destruct (Rlt_bool_spec (u k) (x k)).
  - nra.
  - destruct (Rlt_bool_spec (x k) (l k)); [nra|apply Rle_0_sqr].
Qed.

Section Keogh1.
Variable t : list (option (D XR)).
Variables m j : Z.
Hypothesis Hm : (0 <= m)%Z.
Variable order : list Z.
Hypothesis Hord : Permutation order (zseq m).
Variables a lf uf : Z -> R.
Variables mu sg : R.
Hypothesis Hsg : sg <> 0.
Hypothesis Ht : forall k, (0 <= k < m)%Z -> cell t (k + j) = Ret (Fin (a k)).
Variables uo lo : list (D XR).
Hypothesis Huo : forall i, (0 <= i < m)%Z -> aget uo i = Ret (Fin (uf (ord order i))).
Hypothesis Hlo : forall i, (0 <= i < m)%Z -> aget lo i = Ret (Fin (lf (ord order i))).

Lemma keogh_ok cb b : Z.of_nat (length cb) = m ->
  let w := w_out (fun k => (a k - mu) / sg) lf uf in
  exists v cb', lb_keogh (N := XR) order t uo lo cb j m (Fin mu) (Fin sg) (Fin b) = Ret (Fin v, cb') /\
    v <= pre w m /\ Z.of_nat (length cb') = m /\ (v < b -> v = pre w m /\ cb' = map Fin (weights m w)).
Proof.
  intros Lcb w. unfold lb_keogh.
  match goal with |- context [forb_ 0 m ?f (_, cb)] =>
    destruct (keogh_loop m Hm order Hord w (w_out_pos _ _ _) f b) with (cb := cb) as (v & cb' & brk & E & H1 & H2 & H3); auto end.
  - intros i lb cb1 Hi L1. rewrite nltb_fin. destruct (Rlt_bool_spec lb b); cbn [negb]; [|reflexivity].
    destruct (order_get m Hm order Hord i Hi) as (G1 & G2). rewrite G1. cbn [bind].
    rewrite Ht by auto. cbn [bind]. rewrite Huo, Hlo by auto. cbn [bind]. rewrite zn_fin by auto.
    rewrite !nltb_fin, !sqd_fin.
    cbv zeta.
    match goal with |- context [aset cb1 _ ?d] => assert (Ed : d = Fin (w (ord order i))) end.
    { unfold w, w_out. destruct (Rlt_bool _ _); [reflexivity|]. destruct (Rlt_bool _ _); reflexivity. }
    rewrite Ed. rewrite aset_in by lia. cbn [bind]. rewrite nadd_fin. reflexivity.
  - rewrite E. cbn [bind]. exists v, cb'. splits; auto; apply H3.
Qed.
End Keogh1.

(** the second bound: distance of the query from the envelope of the data *)
Section Keogh2.
Variables m off : Z.
Hypothesis Hm : (0 <= m)%Z.
Variable order : list Z.
Hypothesis Hord : Permutation order (zseq m).
Variables y lf uf : Z -> R.
Variables mu sg : R.
Hypothesis Hsg : sg <> 0.
Variables l u : list (option (D XR)).
Hypothesis Hl : forall k, (0 <= k < m)%Z -> cell l (off + k) = Ret (Fin (lf k)).
Hypothesis Hu : forall k, (0 <= k < m)%Z -> cell u (off + k) = Ret (Fin (uf k)).
Variable qo : list (D XR).
Hypothesis Hqo : forall i, (0 <= i < m)%Z -> aget qo i = Ret (Fin (y (ord order i))).

Lemma keogh_data_ok cb b : Z.of_nat (length cb) = m ->
  let w := w_out y (fun k => (lf k - mu) / sg) (fun k => (uf k - mu) / sg) in
  exists v cb', lb_keogh_data (N := XR) order qo cb l u off m (Fin mu) (Fin sg) (Fin b) = Ret (Fin v, cb') /\
    v <= pre w m /\ Z.of_nat (length cb') = m /\ (v < b -> v = pre w m /\ cb' = map Fin (weights m w)).
Proof.
  intros Lcb w. unfold lb_keogh_data.
  match goal with |- context [forb_ 0 m ?f (_, cb)] =>
    destruct (keogh_loop m Hm order Hord w (w_out_pos _ _ _) f b) with (cb := cb) as (v & cb' & brk & E & H1 & H2 & H3); auto end.
  - intros i lb cb1 Hi L1. rewrite nltb_fin. destruct (Rlt_bool_spec lb b); cbn [negb]; [|reflexivity].
    destruct (order_get m Hm order Hord i Hi) as (G1 & G2). rewrite G1. cbn [bind].
    rewrite Hu, Hl by auto. cbn [bind]. rewrite Hqo by auto. cbn [bind]. rewrite !zn_fin by auto.
    rewrite !nltb_fin, !sqd_fin. cbv zeta.
    match goal with |- context [aset cb1 _ ?d] => assert (Ed : d = Fin (w (ord order i))) end.
    { unfold w, w_out. destruct (Rlt_bool _ _); [reflexivity|]. destruct (Rlt_bool _ _); reflexivity. }
    rewrite Ed. rewrite aset_in by lia. cbn [bind]. rewrite nadd_fin. reflexivity.
  - rewrite E. cbn [bind]. exists v, cb'. splits; auto; apply H3.
Qed.
End Keogh2.

(** the cumulative sums *)
Lemma cumulate_fin (ws : list R) :
  exists cs, cumulate (N := XR) (map Fin ws) = map Fin cs /\ length cs = length ws /\
    forall k, (k < length ws)%nat -> nth k cs 0 = fold_right Rplus 0 (skipn k ws).
Proof.
  induction ws as [|x ws (cs & E & L & H)].
  - exists []. splits; auto. simpl; intros; lia.
  - cbn [map cumulate]. rewrite E. destruct cs as [|s cs].
    + destruct ws; [|discriminate]. exists [x]. splits; auto. intros [|k] Hk; simpl in *; [lra|lia].
    + exists (s + x :: s :: cs). splits; auto.
      * cbn [length] in *. lia.
      * intros [|k] Hk.
        -- cbn [nth skipn fold_right]. cbn [length] in L.
           pose proof (H 0%nat ltac:(lia)) as H0. cbn [nth skipn] in H0. rewrite H0. lra.
        -- cbn [nth skipn]. cbn [length] in *. apply (H k). lia.
Qed.

Lemma skipn_weights m w k : (0 <= k <= m)%Z ->
  fold_right Rplus 0 (skipn (Z.to_nat k) (weights m w)) = pre w m - pre w k.
Proof.
  intros Hk.
  assert (Hsplit : forall l, fold_right Rplus 0 (map w l) = lsum w l) by (induction l; simpl; congruence).
  unfold weights. rewrite skipn_map, Hsplit.
  assert (E : pre w m = lsum w (firstn (Z.to_nat k) (zseq m)) + lsum w (skipn (Z.to_nat k) (zseq m))).
  { rewrite <- lsum_app, firstn_skipn. symmetry. apply lsum_zseq. }
  assert (E2 : firstn (Z.to_nat k) (zseq m) = zseq k).
  { unfold zseq. rewrite firstn_map. f_equal.
    replace (Z.to_nat m) with (Z.to_nat k + Z.to_nat (m - k))%nat by lia. rewrite seq_app.
    rewrite firstn_app, seq_length. replace (Z.to_nat k - Z.to_nat k)%nat with O by lia. cbn [firstn].
    rewrite firstn_all2 by (rewrite seq_length; lia). apply app_nil_r. }
  rewrite E, E2, lsum_zseq. lra.
Qed.

Lemma cumulate_weights m w : (0 <= m)%Z -> exists cs, cumulate (N := XR) (map Fin (weights m w)) = map Fin cs /\ Rlen cs = m /\
  forall k, (0 <= k < m)%Z -> Rpt cs k = pre w m - pre w k.
Proof.
  intros Hm. destruct (cumulate_fin (weights m w)) as (cs & E & L & H).
  assert (Lw : Z.of_nat (length (weights m w)) = m) by (unfold weights; rewrite map_length; apply zseq_length; auto).
  exists cs. splits; auto; [unfold Rlen; lia|]. intros k Hk. unfold Rpt. rewrite H by lia. apply skipn_weights. lia.
Qed.
