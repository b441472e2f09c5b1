(** The loops over the points and the chunks of the data, in exact arithmetic. *)
From Coq Require Import Reals Lra Permutation.
From Flocq Require Import Core.Raux.
From Verif Require Import Base Num NumLaws NumXR NumXRLaws Lemire Ucr DtwSpec DtwPaths LoopFacts
  DtwReal UcrReal UcrDtw UcrBounds UcrSpec UcrNorm UcrWindow.
Local Open Scope R_scope.

(** ** arrays with uninitialised cells *)
Lemma cell_some {A} (t : list (option A)) k v : aget t k = Ret (Some v) -> cell t k = Ret v.
Proof. intros E. unfold cell. rewrite E. reflexivity. Qed.

Lemma cell_inv {A} (t : list (option A)) k v : cell t k = Ret v -> aget t k = Ret (Some v).
Proof. unfold cell. destruct (aget t k) as [[x|]| | |]; cbn; intros [= ->]; auto. Qed.

Lemma cell_upd_same {A} (t : list (option A)) k v : (0 <= k < Z.of_nat (length t))%Z -> cell (upd t (Z.to_nat k) (Some v)) k = Ret v.
Proof. intros H. apply cell_some, aget_upd_same. exact H. Qed.

Lemma cell_upd_other {A} (t : list (option A)) i k v : (0 <= i)%Z -> i <> k -> cell (upd t (Z.to_nat i) (Some v)) k = cell t k.
Proof. intros H1 H2. unfold cell. rewrite aget_upd_other; auto. Qed.

(** ** windows *)
Lemma skipn_cons ds k : (0 <= k < Rlen ds)%Z -> skipn (Z.to_nat k) ds = Rpt ds k :: skipn (Z.to_nat (k + 1)) ds.
Proof.
  intros H. unfold Rlen, Rpt in *. replace (Z.to_nat (k + 1)) with (S (Z.to_nat k)) by lia.
  assert (Hk : (Z.to_nat k < length ds)%nat) by lia. revert Hk. generalize (Z.to_nat k) as n. clear.
  intros n. revert n. induction ds as [|x l IH]; intros [|n] Hn; simpl in Hn; try lia; [reflexivity|].
  cbn [skipn nth]. rewrite IH by lia. reflexivity.
Qed.

Lemma skipn_none (ds : list R) k : (Rlen ds <= k)%Z -> skipn (Z.to_nat k) ds = [].
Proof. intros H. apply skipn_all2. unfold Rlen in H. lia. Qed.

Lemma window_snoc ds k m : (0 <= k)%Z -> (0 <= m)%Z -> (k + m < Rlen ds)%Z -> window ds k (m + 1) = window ds k m ++ [Rpt ds (k + m)].
Proof.
  intros Hk Hm H. unfold window.
  replace (Z.to_nat (m + 1)) with (Z.to_nat m + 1)%nat by lia.
  replace (Rpt ds (k + m)) with (nth (Z.to_nat m) (skipn (Z.to_nat k) ds) 0).
  2:{ rewrite nth_skipn_add. unfold Rpt. f_equal. lia. }
  assert (Hl : (Z.to_nat m < length (skipn (Z.to_nat k) ds))%nat) by (rewrite skipn_length; unfold Rlen in H; lia).
  revert Hl. generalize (Z.to_nat m) as n. generalize (skipn (Z.to_nat k) ds) as l. clear.
  induction l as [|x l IH]; intros [|n] Hn; simpl in Hn; try lia; [reflexivity|].
  cbn [firstn Nat.add app nth]. rewrite IH by lia. reflexivity.
Qed.

Lemma window_cons ds k m : (0 <= k)%Z -> (1 <= m)%Z -> (k + m <= Rlen ds)%Z -> window ds k m = Rpt ds k :: window ds (k + 1) (m - 1).
Proof.
  intros Hk Hm H. unfold window. rewrite skipn_cons by lia.
  replace (Z.to_nat m) with (S (Z.to_nat (m - 1))) by lia. reflexivity.
Qed.

Lemma window_nil ds k : window ds k 0 = [].
Proof. reflexivity. Qed.

Lemma window_all ds k : Rlen ds = k -> window ds 0 k = ds.
Proof. intros H. unfold window. cbn [Z.to_nat skipn]. apply firstn_all2. unfold Rlen in H. lia. Qed.

Lemma squares_app xs ys : squares (xs ++ ys) = squares xs ++ squares ys.
Proof. apply map_app. Qed.

(** ** the points of one chunk *)
Section Points.
Variables ds qs : list R.
Variables m r : Z.
Hypothesis Hm : (6 <= m <= 1000000000)%Z.
Hypothesis Hr : (0 <= r < m)%Z.
Hypothesis Lq : Rlen qs = m.
Hypothesis Fq : ~ flat qs.
Hypothesis Hint : (Rlen ds <= int_max)%Z.
Variable p : prepared (N := XR).
Hypothesis Hp : good_query qs m r p.
Variable epoch : Z.
Hypothesis Hepo : (m <= epoch <= 1000000)%Z.

Section Chunk.
Variables it base ep : Z.
Hypothesis Hbase : base = (it * (epoch - m + 1))%Z.
Hypothesis Hbase0 : (0 <= base)%Z.
Hypothesis Hep : (base + ep <= Rlen ds)%Z.
Hypothesis Hepm : (m <= ep)%Z.
Variables buffer l_buff u_buff : list (option (D XR)).
Variables lfd ufd : Z -> R.
Hypothesis Hbuf : forall k, (0 <= k < ep)%Z -> cell buffer k = Ret (Fin (Rpt ds (base + k))).
Hypothesis Hld : forall k, (0 <= k < ep)%Z -> cell l_buff k = Ret (Fin (lfd k)) /\ cell u_buff k = Ret (Fin (ufd k)).
Hypothesis Henv : forall k i, (0 <= k < ep)%Z -> (0 <= i < ep)%Z -> (Z.abs (i - k) <= r)%Z ->
  lfd k <= Rpt ds (base + i) <= ufd k.

Definition first_of (i : Z) : Z := Z.max 0 (i - (m - 1)).

Definition pinv (i : Z) (s : usearch (N := XR)) : Prop :=
  u_ex s = Fin (Rsum (window ds (base + first_of i) (i - first_of i))) /\
  u_ex2 s = Fin (Rsum (squares (window ds (base + first_of i) (i - first_of i)))) /\
  Z.of_nat (length (u_t s)) = (2 * m)%Z /\
  (forall k, (Z.max 0 (i - m) <= k < i)%Z -> cell (u_t s) (k mod m) = Ret (Fin (Rpt ds (base + k))) /\
                                            cell (u_t s) (k mod m + m) = Ret (Fin (Rpt ds (base + k)))) /\
  found ds qs m r (base + first_of i) s.

Lemma point_ok i s : (0 <= i < ep)%Z -> pinv i s ->
  exists s', point_step (N := XR) p buffer l_buff u_buff epoch m r it i s = Ret s' /\ pinv (i + 1) s'.
Proof.
  intros Hi (Ex & Ex2 & Lt & Ht & Hf). unfold point_step. rewrite Hbuf by auto. cbn [bind].
  assert (Ej : cmod i m = Ret (i mod m)%Z).
  { unfold cmod. destruct (Z.eqb_spec m 0); [lia|]. rewrite Z.rem_mod_nonneg by lia. reflexivity. }
  rewrite Ej. cbn [bind]. pose proof (Z.mod_pos_bound i m ltac:(lia)) as Hmod.
  rewrite aset_in by lia. cbn [bind]. rewrite aset_in by (rewrite upd_length; lia). cbn [bind].
  set (t' := upd (upd (u_t s) _ _) _ _).
  assert (Lt' : Z.of_nat (length t') = (2 * m)%Z) by (unfold t'; rewrite !upd_length; exact Lt).
  assert (Ht' : forall k, (Z.max 0 (i + 1 - m) <= k < i + 1)%Z -> cell t' (k mod m) = Ret (Fin (Rpt ds (base + k))) /\
                                            cell t' (k mod m + m) = Ret (Fin (Rpt ds (base + k)))).
  { intros k Hk. pose proof (Z.mod_pos_bound k m ltac:(lia)) as Hkm. destruct (Z.eq_dec k i) as [->|Hne].
    - split; unfold t'.
      + rewrite cell_upd_other by lia. apply cell_upd_same. lia.
      + apply cell_upd_same. rewrite upd_length. lia.
    - assert (Hd : (k mod m <> i mod m)%Z).
      { intros E. assert (H : ((i - k) mod m = 0)%Z) by (rewrite Zminus_mod, E, Z.sub_diag; apply Z.mod_0_l; lia).
        rewrite Z.mod_small in H by lia. lia. }
      destruct (Ht k ltac:(lia)) as (T1 & T2). split; unfold t'; rewrite !cell_upd_other by lia; auto. }
  rewrite Ex, Ex2. rewrite !nadd_fin.
  change (@nmul XR (Fin (Rpt ds (base + i))) (Fin (Rpt ds (base + i)))) with (Fin (Rpt ds (base + i) * Rpt ds (base + i))).
  rewrite ?nadd_fin.
  assert (S1 : Rsum (window ds (base + first_of i) (i - first_of i)) + Rpt ds (base + i) =
               Rsum (window ds (base + first_of i) (i + 1 - first_of i))).
  { replace (i + 1 - first_of i)%Z with (i - first_of i + 1)%Z by lia.
    rewrite window_snoc by (unfold first_of; lia). rewrite Rsum_app.
    replace (base + first_of i + (i - first_of i))%Z with (base + i)%Z by lia. unfold Rsum at 3. cbn [fold_right]. lra. }
  assert (S2 : Rsum (squares (window ds (base + first_of i) (i - first_of i))) + Rpt ds (base + i) * Rpt ds (base + i) =
               Rsum (squares (window ds (base + first_of i) (i + 1 - first_of i)))).
  { replace (i + 1 - first_of i)%Z with (i - first_of i + 1)%Z by lia.
    rewrite window_snoc by (unfold first_of; lia). rewrite squares_app, Rsum_app.
    replace (base + first_of i + (i - first_of i))%Z with (base + i)%Z by lia. unfold Rsum at 3. cbn [squares map fold_right]. lra. }
  rewrite S1, S2. cbv zeta.
  destruct (Z.leb_spec (m - 1) i) as [Hmi|Hmi].
  - assert (Fi : first_of i = (i - (m - 1))%Z) by (unfold first_of; lia).
    rewrite Fi in *. replace (i + 1 - (i - (m - 1)))%Z with m in * by lia.
    match goal with |- context [window_step _ _ _ _ _ _ _ _ ?s0] => set (s1 := s0) end.
    destruct (window_step_ok ds qs m r Hm Hr Lq Fq p Hp epoch it base ep Hbase Hbase0 Hep Hint l_buff u_buff lfd ufd Hld Henv i s1)
      as (s' & E & Et & E1 & E2 & Hf'); try reflexivity; try lia.
    + intros k Hk. unfold s1. cbn [u_t]. unfold win. rewrite window_pt by lia.
      set (x := (i - (m - 1) + k)%Z). replace (base + (i - (m - 1)) + k)%Z with (base + x)%Z by (unfold x; lia).
      destruct (Ht' x ltac:(unfold x; lia)) as (T1 & T2).
      assert (Ejx : ((i + 1) mod m = (i - (m - 1)) mod m)%Z).
      { replace (i + 1)%Z with (i - (m - 1) + 1 * m)%Z by lia. apply Z.mod_add. lia. }
      pose proof (Z.mod_pos_bound (i + 1) m ltac:(lia)) as Hj1.
      assert (Exm : (x mod m = ((i + 1) mod m + k) mod m)%Z).
      { unfold x. rewrite Ejx. rewrite Zplus_mod_idemp_l. reflexivity. }
      destruct (Z_lt_ge_dec ((i + 1) mod m + k) m) as [Hlt|Hge].
      * rewrite (Z.mod_small (_ + _)) in Exm by lia. rewrite <- T1. f_equal. lia.
      * assert (Ex' : (x mod m = (i + 1) mod m + k - m)%Z).
        { rewrite Exm. replace ((i + 1) mod m + k)%Z with ((i + 1) mod m + k - m + 1 * m)%Z at 1 by lia.
          rewrite Z.mod_add by lia. apply Z.mod_small. lia. }
        rewrite <- T2. f_equal. lia.
    + exact Hf.
    + exists s'. split; [exact E|]. unfold pinv.
      assert (Fi' : first_of (i + 1) = (i - (m - 1) + 1)%Z) by (unfold first_of; lia). rewrite Fi'.
      replace (i + 1 - (i - (m - 1) + 1))%Z with (m - 1)%Z by lia.
      assert (Hw : win ds m (base + (i - (m - 1))) = Rpt ds (base + (i - (m - 1))) :: window ds (base + (i - (m - 1) + 1)) (m - 1)).
      { unfold win. rewrite window_cons by lia. replace (base + (i - (m - 1)) + 1)%Z with (base + (i - (m - 1) + 1))%Z by lia. reflexivity. }
      assert (Hw0 : Rpt (win ds m (base + (i - (m - 1)))) 0 = Rpt ds (base + (i - (m - 1)))) by (rewrite Hw; reflexivity).
      rewrite Hw0 in E1, E2. rewrite Hw in E1, E2. splits.
      * rewrite E1. unfold Rsum. cbn [fold_right]. f_equal. lra.
      * rewrite E2. unfold Rsum. cbn [squares map fold_right]. f_equal. unfold squares. lra.
      * rewrite Et. exact Lt'.
      * rewrite Et. exact Ht'.
      * replace (base + (i - (m - 1) + 1))%Z with (base + (i - (m - 1)) + 1)%Z by lia. exact Hf'.
  - assert (Fi : first_of i = 0%Z) by (unfold first_of; lia).
    assert (Fi' : first_of (i + 1) = 0%Z) by (unfold first_of; lia).
    eexists. split; [reflexivity|]. unfold pinv. rewrite Fi'. rewrite Fi in *. cbn [u_ex u_ex2 u_t]. splits; auto.
Qed.

Lemma points_ok (s : usearch (N := XR)) : u_ex s = Fin 0 -> u_ex2 s = Fin 0 -> Z.of_nat (length (u_t s)) = (2 * m)%Z -> found ds qs m r base s ->
  exists s', for_ 0 ep (point_step (N := XR) p buffer l_buff u_buff epoch m r it) s = Ret s' /\
    Z.of_nat (length (u_t s')) = (2 * m)%Z /\ found ds qs m r (base + ep - m + 1) s'.
Proof.
  intros Ex Ex2 Lt Hf.
  destruct (for_inv pinv (point_step (N := XR) p buffer l_buff u_buff epoch m r it) 0 ep s) as (s' & E & HI).
  - lia.
  - unfold pinv. change (first_of 0) with (Z.max 0 (0 - (m - 1))). rewrite Z.max_l by lia. rewrite window_nil.
    rewrite Z.add_0_r. splits; auto. intros; lia.
  - intros k s1 Hk HI. apply point_ok; auto.
  - exists s'. split; [exact E|]. destruct HI as (_ & _ & L & _ & F). split; auto.
    unfold first_of in F. rewrite Z.max_r in F by lia. replace (base + ep - m + 1)%Z with (base + (ep - (m - 1)))%Z by lia. exact F.
Qed.
End Chunk.

(** ** filling the buffer *)
Notation good_cells base buffer n := (forall k, (0 <= k < n)%Z -> cell buffer k = Ret (Fin (Rpt ds (base + k)))).

Lemma fill_first_ok it base d f (buffer : list (option (D XR))) :
  base = (it * (epoch - m + 1))%Z -> (0 <= it)%Z -> Z.of_nat (length buffer) = epoch ->
  f = mkStream (N := XR) (map Fin (skipn (Z.to_nat (if it =? 0 then 0 else base + m - 1)%Z) ds)) false ->
  ((0 < it)%Z -> (base + m - 1 <= Rlen ds)%Z /\ forall k, (0 <= k < m - 1)%Z -> cell buffer (epoch - m + 1 + k) = Ret (Fin (Rpt ds (base + k)))) ->
  exists d' buffer', fill_first (N := XR) it epoch m d f buffer =
      Ret (d', mkStream (N := XR) (map Fin (skipn (Z.to_nat (base + m - 1)) ds)) false, buffer') /\
    Z.of_nat (length buffer') = epoch /\ ((base + m - 1 <= Rlen ds)%Z -> good_cells base buffer' (m - 1)%Z).
Proof.
  intros Hb Hit Lb Hf Hc. unfold fill_first. destruct (Z.eqb_spec it 0) as [E0|E0].
  - subst it. assert (base = 0%Z) by lia. subst f.
    match goal with |- context [for_ 0 (m - 1) ?g ?s0] =>
      destruct (for_inv (fun k (s : option (D XR) * stream (N := XR) * list (option (D XR))) => let '(d', f', b') := s in
        f' = mkStream (N := XR) (map Fin (skipn (Z.to_nat k) ds)) false /\ Z.of_nat (length b') = epoch /\
        ((k <= Rlen ds)%Z -> good_cells base b' k)) g 0%Z (m - 1)%Z s0) as (((d' & f') & b') & E & Ef & L' & G) end.
    + lia.
    + splits; auto. intros; lia.
    + intros k ((d1 & f1) & b1) Hk (-> & L1 & G1). unfold fscan. cbn [st_vals st_junk].
      destruct (Z_lt_ge_dec k (Rlen ds)) as [Hlt|Hge].
      * rewrite skipn_cons by lia. cbn [map]. cbn [init_get bind]. rewrite aset_in by lia. cbn [bind].
        eexists. split; [reflexivity|]. cbv beta iota. splits; auto; [rewrite upd_length; exact L1|].
        intros _ k' Hk'. destruct (Z.eq_dec k' k) as [->|].
        -- rewrite cell_upd_same by lia. repeat f_equal. lia.
        -- rewrite cell_upd_other by lia. apply G1; lia.
      * rewrite skipn_none by lia. cbn [map]. eexists. split; [reflexivity|]. cbv beta iota.
        rewrite !skipn_none by lia. splits; auto. intros; lia.
    + exists d', b'. rewrite E. splits; auto.
      * rewrite Ef. replace (base + m - 1)%Z with (m - 1)%Z by lia. reflexivity.
      * intros Hle. apply G. lia.
  - destruct (Hc ltac:(lia)) as (Hle & Hcells).
    match goal with |- context [for_ 0 (m - 1) ?g ?s0] =>
      destruct (for_inv (fun k (b' : list (option (D XR))) => Z.of_nat (length b') = epoch /\ good_cells base b' k /\
        forall j, (k <= j < epoch)%Z -> aget b' j = aget buffer j) g 0%Z (m - 1)%Z s0) as (b' & E & L' & G & _) end.
    + lia.
    + splits; auto. intros; lia.
    + intros k b1 Hk (L1 & G1 & O1).
      rewrite O1 by lia. rewrite (cell_inv _ _ _ (Hcells k ltac:(lia))). cbn [bind]. rewrite aset_in by lia.
      eexists. split; [reflexivity|]. splits.
      * rewrite upd_length. exact L1.
      * intros k' Hk'. destruct (Z.eq_dec k' k) as [->|].
        -- apply cell_upd_same. lia.
        -- rewrite cell_upd_other by lia. apply G1; lia.
      * intros j Hj. rewrite aget_upd_other by lia. apply O1. lia.
    + rewrite E. cbn [bind]. exists d, b'. subst f. splits; auto.
Qed.

Lemma fill_rest_ok base n : forall ep d (buffer : list (option (D XR))), (0 <= base)%Z -> (0 <= ep)%Z -> (base + ep <= Rlen ds)%Z ->
  Z.of_nat (length buffer) = epoch -> (ep + Z.of_nat n <= epoch)%Z -> good_cells base buffer ep ->
  exists ep' d' buffer', fill_rest (N := XR) n ep d (mkStream (N := XR) (map Fin (skipn (Z.to_nat (base + ep)) ds)) false) buffer =
     Ret (ep', d', mkStream (N := XR) (map Fin (skipn (Z.to_nat (base + ep')) ds)) false, buffer') /\
    Z.of_nat (length buffer') = epoch /\ ep' = (ep + Z.min (Z.of_nat n) (Rlen ds - base - ep))%Z /\ good_cells base buffer' ep'.
Proof.
  induction n as [|n IH]; intros ep d buffer Hb Hep Hle Lb Hn G.
  - cbn [fill_rest]. exists ep, d, buffer. splits; auto. lia.
  - cbn [fill_rest]. unfold fscan. cbn [st_vals st_junk].
    destruct (Z_lt_ge_dec (base + ep) (Rlen ds)) as [Hlt|Hge].
    + rewrite (skipn_cons ds (base + ep)) by lia. cbn [map negb]. cbn [init_get bind]. rewrite aset_in by lia. cbn [bind].
      replace (base + ep + 1)%Z with (base + (ep + 1))%Z by lia.
      destruct (IH (ep + 1)%Z (Some (Fin (Rpt ds (base + ep)))) (upd buffer (Z.to_nat ep) (Some (Fin (Rpt ds (base + ep))))))
        as (ep' & d' & b' & E & L' & He & G'); try lia.
      * rewrite upd_length. exact Lb.
      * intros k Hk. destruct (Z.eq_dec k ep) as [->|].
        -- apply cell_upd_same. lia.
        -- rewrite cell_upd_other by lia. apply G; lia.
      * exists ep', d', b'. splits; auto. lia.
    + rewrite skipn_none by lia. cbn [map negb]. exists ep, d, buffer. rewrite skipn_none by lia. splits; auto. lia.
Qed.

(** ** all chunks *)
Lemma chunks_ok n : forall it base (d : option (D XR)) f buffer (s : usearch (N := XR)),
  base = (it * (epoch - m + 1))%Z -> (0 <= it)%Z -> Z.of_nat (length buffer) = epoch ->
  f = mkStream (N := XR) (map Fin (skipn (Z.to_nat (if it =? 0 then 0 else base + m - 1)%Z) ds)) false ->
  ((0 < it)%Z -> (base + m - 1 <= Rlen ds)%Z /\ forall k, (0 <= k < m - 1)%Z -> cell buffer (epoch - m + 1 + k) = Ret (Fin (Rpt ds (base + k)))) ->
  Z.of_nat (length (u_t s)) = (2 * m)%Z -> found ds qs m r base s -> (length (st_vals f) < n)%nat ->
  exists s' it' ep' b', chunks (N := XR) n p epoch m r it d f buffer s = Ret (s', it', ep') /\
    chunk_base epoch m it' = Ret b' /\ (b' + ep' = Z.max (Rlen ds) (m - 1))%Z /\
    found ds qs m r (Z.max 0 (Rlen ds - m + 1)) s'.
Proof.
  induction n as [|n IH]; intros it base d f buffer s Hb Hit Lb Hf Hc Lt Hfd Hn; [lia|].
  assert (Hb0 : (0 <= base)%Z) by (subst base; apply Z.mul_nonneg_nonneg; lia).
  cbn [chunks].
  destruct (fill_first_ok it base d f buffer Hb Hit Lb Hf Hc) as (d1 & b1 & E1 & L1 & G1). rewrite E1. cbn [bind].
  assert (Hcb : (base <= Rlen ds)%Z -> chunk_base epoch m it = Ret base).
  { intros Hle. unfold chunk_base. cbv zeta. rewrite <- Hb.
    destruct (Z.leb_spec int_min base), (Z.leb_spec base int_max); cbn [andb]; auto; unfold int_min in *; lia. }
  destruct (Z_le_gt_dec (base + m - 1) (Rlen ds)) as [Hle|Hgt].
  2:{ (* less than m - 1 numbers *)
      assert (it = 0%Z). { destruct (Z.eq_dec it 0); auto. destruct (Hc ltac:(lia)); lia. } subst it.
      assert (base = 0%Z) by lia. rewrite skipn_none by lia. cbn [map].
      replace (Z.to_nat (epoch - (m - 1))) with (S (Z.to_nat (epoch - m))) by lia. cbn [fill_rest fscan st_vals st_junk negb bind].
      destruct (Z.leb_spec (m - 1) (m - 1)); [|lia]. exists s, 0%Z, (m - 1)%Z, base.
      assert (0 <= Rlen ds)%Z by (unfold Rlen; lia).
      splits; auto; [apply Hcb; lia|lia|]. rewrite Z.max_l by lia. subst base. exact Hfd. }
  destruct (fill_rest_ok base (Z.to_nat (epoch - (m - 1))) (m - 1) d1 b1 Hb0 ltac:(lia) ltac:(lia) L1 ltac:(lia) (G1 Hle))
    as (ep & d2 & b2 & E2 & L2 & Hep & G2).
  replace (base + (m - 1))%Z with (base + m - 1)%Z in E2 by lia. rewrite E2. cbn [bind].
  destruct (Z.leb_spec ep (m - 1)) as [Hepm|Hepm].
  { exists s, it, ep, base. splits; auto; [apply Hcb; lia|lia|]. rewrite Z.max_r by lia.
    replace (Rlen ds - m + 1)%Z with base by lia. exact Hfd. }
  unfold inited. rewrite (build_fin _ (window ds base ep) ep).
  2: apply window_length; lia.
  2:{ intros k Hk. rewrite G2 by auto. rewrite window_pt by lia. reflexivity. }
  cbn [bind].
  destruct (lemire_fin (window ds base ep) ep r) as (lb & ub & lf & uf & EL & Hcell & Henv).
  { rewrite window_length; lia. } { lia. }
  rewrite EL. cbn [bind].
  destruct (Z.eqb_spec (epoch - m + 1) 0); [lia|]. cbn [bind].
  assert (Hq : (1 <= Z.quot 1000000 (epoch - m + 1))%Z).
  { apply Z.quot_le_lower_bound; lia. }
  unfold cmod at 1. destruct (Z.eqb_spec (Z.quot 1000000 (epoch - m + 1)) 0); [lia|]. cbn [bind].
  match goal with |- context [for_ 0 ep _ ?s0] => set (s1 := s0) end.
  destruct (points_ok it base ep Hb Hb0 ltac:(lia) ltac:(lia) b2 lb ub lf uf G2 Hcell) with (s := s1) as (s2 & E3 & Lt2 & F2).
  { intros k i Hk Hi Hki. rewrite <- (window_pt ds base ep i) by lia. apply Henv; auto. }
  { reflexivity. } { reflexivity. } { exact Lt. } { exact Hfd. }
  rewrite E3. cbn [bind]. destruct (Z.ltb_spec ep epoch) as [Hlt|Hge].
  - exists s2, it, ep, base. splits; auto; [apply Hcb; lia|lia|]. rewrite Z.max_r by lia.
    replace (Rlen ds - m + 1)%Z with (base + ep - m + 1)%Z by lia. exact F2.
  - assert (Ee : ep = epoch) by lia. assert (Hle2 : (base + epoch <= Rlen ds)%Z) by lia. clear Hep. subst ep.
    apply (IH (it + 1)%Z (base + (epoch - m + 1))%Z); auto; try lia.
    + subst f. destruct (Z.eqb_spec (it + 1) 0); [lia|].
      replace (base + (epoch - m + 1) + m - 1)%Z with (base + epoch)%Z by lia. reflexivity.
    + intros _. split; [lia|]. intros k Hk. rewrite G2 by lia.
      replace (base + (epoch - m + 1) + k)%Z with (base + (epoch - m + 1 + k))%Z by lia. reflexivity.
    + replace (base + (epoch - m + 1))%Z with (base + epoch - m + 1)%Z by lia. exact F2.
    + cbn [st_vals]. subst f. cbn [st_vals] in Hn. rewrite map_length, skipn_length in *. unfold Rlen in *.
      destruct (Z.eqb_spec it 0); lia.
Qed.
End Points.
