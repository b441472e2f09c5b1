(** calculate stays in its arrays and ends, for any arithmetic and any numbers. *)
From Coq Require Import Permutation.
From Verif Require Import Base Num Lemire Ucr LoopFacts LemireAny UcrBounds UcrSpec UcrWindow UcrChunk UcrProofs.

Lemma cell_def {A} (t : list (option A)) k v : aget t k = Ret (Some v) -> cell t k = Ret v.
Proof. apply cell_some. Qed.

Lemma build_any {A} (f : Z -> res A) n : 0 <= n -> (forall k, 0 <= k < n -> exists x, f k = Ret x) ->
  exists l, build n f = Ret l /\ Z.of_nat (length l) = n.
Proof.
  intros Hn Hf. unfold build.
  assert (H : forall n k0, (forall k, (k < n)%nat -> exists x, f (k0 + Z.of_nat k) = Ret x) ->
    exists l, build_n n k0 f = Ret l /\ length l = n).
  { clear. induction n as [|n IH]; intros k0 H; [exists []; auto|]. cbn [build_n].
    destruct (H 0%nat ltac:(lia)) as (x & Ex). replace (k0 + Z.of_nat 0) with k0 in Ex by lia. rewrite Ex. cbn [bind].
    destruct (IH (k0 + 1)) as (l & El & Ll).
    { intros k Hk. specialize (H (S k) ltac:(lia)). replace (k0 + 1 + Z.of_nat k) with (k0 + Z.of_nat (S k)) by lia. exact H. }
    rewrite El. cbn [bind]. exists (x :: l). simpl. auto. }
  destruct (H (Z.to_nat n) 0) as (l & El & Ll); [intros k Hk; apply Hf; lia|]. exists l. split; auto. lia.
Qed.

Section Safe.
Context {N : Num}.
Notation D := (D N).

Definition full (t : list (option D)) (lo hi : Z) : Prop := forall k, lo <= k < hi -> exists v, cell t k = Ret v.

Lemma aget_in {A} (l : list A) k : 0 <= k < Z.of_nat (length l) -> exists x, aget l k = Ret x.
Proof.
  intros H. destruct l as [|a l']; [simpl in H; lia|]. eexists. apply (aget_nth _ _ a). exact H.
Qed.

Lemma kim_any (t : list (option D)) q j m mean std bsf : 3 <= m -> full t j (m + j) -> Z.of_nat (length q) = m ->
  exists v, lb_kim t q j m mean std bsf = Ret v.
Proof.
  intros Hm Ht Hq. unfold lb_kim.
  destruct (Ht j ltac:(lia)) as (? & ->). destruct (Ht (m - 1 + j) ltac:(lia)) as (? & ->).
  destruct (Ht (j + 1) ltac:(lia)) as (? & ->). destruct (Ht (m - 2 + j) ltac:(lia)) as (? & ->).
  destruct (Ht (j + 2) ltac:(lia)) as (? & ->). destruct (Ht (m - 3 + j) ltac:(lia)) as (? & ->).
  destruct (aget_in q 0 ltac:(lia)) as (? & ->). destruct (aget_in q (m - 1) ltac:(lia)) as (? & ->).
  destruct (aget_in q 1 ltac:(lia)) as (? & ->). destruct (aget_in q (m - 2) ltac:(lia)) as (? & ->).
  destruct (aget_in q 2 ltac:(lia)) as (? & ->). destruct (aget_in q (m - 3) ltac:(lia)) as (? & ->).
  cbn [bind]. cbv zeta. repeat (match goal with |- context [if ?b then _ else _] => destruct b end; [eauto|]). eauto.
Qed.

Section Order.
Variable order : list Z.
Variable m : Z.
Hypothesis Hm : 0 <= m.
Hypothesis Hord : Permutation order (zseq m).

Lemma keogh_any (t : list (option D)) uo lo cb j mean std bsf : full t j (m + j) ->
  Z.of_nat (length uo) = m -> Z.of_nat (length lo) = m -> Z.of_nat (length cb) = m ->
  exists v cb', lb_keogh order t uo lo cb j m mean std bsf = Ret (v, cb') /\ Z.of_nat (length cb') = m.
Proof.
  intros Ht Hu Hl Hc. unfold lb_keogh.
  match goal with |- context [forb_ 0 m ?f ?s0] =>
    destruct (forb_inv (fun _ (s : D * list D) => Z.of_nat (length (snd s)) = m) (fun _ s => Z.of_nat (length (snd s)) = m) f 0 m s0)
      as ((v & cb') & b & E & H) end; auto.
  - intros k (lb & c) Hk Lc. cbn [snd] in Lc. destruct (negb _); [eexists _, true; split; [reflexivity|exact Lc]|].
    destruct (order_get m Hm order Hord k Hk) as (-> & Ho). cbn [bind].
    destruct (Ht (ord order k + j) ltac:(lia)) as (a & ->). cbn [bind].
    destruct (aget_in uo k ltac:(lia)) as (u & ->). cbn [bind]. destruct (aget_in lo k ltac:(lia)) as (l & ->). cbn [bind].
    cbv zeta. rewrite aset_in by lia. cbn [bind]. eexists _, false. split; [reflexivity|]. cbn [snd]. rewrite upd_length. exact Lc.
  - rewrite E. cbn [bind]. exists v, cb'. split; auto. destruct b; [destruct H as (_ & _ & H)|]; exact H.
Qed.

Lemma keogh_data_any qo cb (l u : list (option D)) off mean std bsf : full l off (off + m) -> full u off (off + m) ->
  Z.of_nat (length qo) = m -> Z.of_nat (length cb) = m ->
  exists v cb', lb_keogh_data order qo cb l u off m mean std bsf = Ret (v, cb') /\ Z.of_nat (length cb') = m.
Proof.
  intros Hl Hu Hq Hc. unfold lb_keogh_data.
  match goal with |- context [forb_ 0 m ?f ?s0] =>
    destruct (forb_inv (fun _ (s : D * list D) => Z.of_nat (length (snd s)) = m) (fun _ s => Z.of_nat (length (snd s)) = m) f 0 m s0)
      as ((v & cb') & b & E & H) end; auto.
  - intros k (lb & c) Hk Lc. cbn [snd] in Lc. destruct (negb _); [eexists _, true; split; [reflexivity|exact Lc]|].
    destruct (order_get m Hm order Hord k Hk) as (-> & Ho). cbn [bind].
    destruct (Hu (off + ord order k) ltac:(lia)) as (a & ->). cbn [bind]. destruct (Hl (off + ord order k) ltac:(lia)) as (a' & ->). cbn [bind].
    destruct (aget_in qo k ltac:(lia)) as (q1 & ->). cbn [bind].
    cbv zeta. rewrite aset_in by lia. cbn [bind]. eexists _, false. split; [reflexivity|]. cbn [snd]. rewrite upd_length. exact Lc.
  - rewrite E. cbn [bind]. exists v, cb'. split; auto. destruct b; [destruct H as (_ & _ & H)|]; exact H.
Qed.
End Order.

Lemma cumulate_length (c : list D) : length (cumulate c) = length c.
Proof.
  induction c as [|x c IH]; [reflexivity|]. cbn [cumulate length]. destruct (cumulate c); simpl in *; lia.
Qed.

Lemma dtw_any (A B cb : list D) m r bsf : 1 <= m -> 0 <= r ->
  Z.of_nat (length A) = m -> Z.of_nat (length B) = m -> Z.of_nat (length cb) = m -> exists v, dtw A B cb m r bsf = Ret v.
Proof.
  intros Hm Hr HA HB Hcb. unfold dtw.
  match goal with |- context [forb_ 0 m ?f ?s0] =>
    destruct (forb_inv
      (fun i (s : list D * list D * Z * option D) => let '(c, p, k, e) := s in
         Z.of_nat (length c) = 2 * r + 1 /\ Z.of_nat (length p) = 2 * r + 1 /\ e = None /\ (i = m -> k = r + 1))
      (fun _ (s : list D * list D * Z * option D) => let '(c, p, k, e) := s in exists v, e = Some v) f 0 m s0)
      as ((((c & p) & k) & e) & b & E & H) end.
  - lia.
  - rewrite repeat_length. splits; try lia; reflexivity.
  - intros i (((c & p) & k) & e) Hi (Lc & Lp & _ & _). unfold dtw_row.
    match goal with |- context [for_ ?lo ?hi ?f ?s0] =>
      destruct (for_inv (fun j (s : list D * Z * D) => let '(c, k, mc) := s in Z.of_nat (length c) = 2 * r + 1 /\ k = j - i + r) f lo hi s0)
        as (((c1 & k1) & mc1) & E1 & L1 & K1) end.
    + lia.
    + split; auto. lia.
    + intros j ((c0 & k0) & mc0) Hj (L0 & K0). unfold dtw_cell. destruct ((i =? 0) && (j =? 0)).
      * destruct (aget_in A 0 ltac:(lia)) as (? & ->). destruct (aget_in B 0 ltac:(lia)) as (? & ->). cbn [bind].
        rewrite aset_in by lia. cbn [bind]. eexists. split; [reflexivity|]. cbv beta iota. rewrite upd_length. split; [exact L0|lia].
      * assert (Y : exists y, (if (j - 1 <? 0) || (k0 - 1 <? 0) then Ret inf_t else aget c0 (k0 - 1)) = Ret y).
        { destruct (Z.ltb_spec (j - 1) 0), (Z.ltb_spec (k0 - 1) 0); cbn [orb]; eauto. apply aget_in. lia. }
        destruct Y as (y & ->). cbn [bind].
        assert (X : exists x, (if (i - 1 <? 0) || (2 * r <? k0 + 1) then Ret inf_t else aget p (k0 + 1)) = Ret x).
        { destruct (Z.ltb_spec (i - 1) 0), (Z.ltb_spec (2 * r) (k0 + 1)); cbn [orb]; eauto. apply aget_in. lia. }
        destruct X as (x & ->). cbn [bind].
        assert (Z1 : exists z, (if (i - 1 <? 0) || (j - 1 <? 0) then Ret inf_t else aget p k0) = Ret z).
        { destruct (Z.ltb_spec (i - 1) 0), (Z.ltb_spec (j - 1) 0); cbn [orb]; eauto. apply aget_in. lia. }
        destruct Z1 as (z & ->). cbn [bind].
        destruct (aget_in A i ltac:(lia)) as (? & ->). destruct (aget_in B j ltac:(lia)) as (? & ->). cbn [bind]. cbv zeta.
        rewrite aset_in by lia. cbn [bind]. eexists. split; [reflexivity|]. cbv beta iota. rewrite upd_length. split; [exact L0|lia].
    + rewrite E1. cbn [bind]. destruct (Z.ltb_spec (i + r) (m - 1)).
      * destruct (aget_in cb (i + r + 1) ltac:(lia)) as (cv & ->). cbn [bind]. destruct (nge _ _).
        -- eexists _, true. split; [reflexivity|]. cbv beta iota. eauto.
        -- eexists _, false. split; [reflexivity|]. cbv beta iota. splits; auto. lia.
      * eexists _, false. split; [reflexivity|]. cbv beta iota. splits; auto. lia.
  - rewrite E. cbn [bind]. destruct b.
    + destruct H as (_ & _ & (v & ->)). eauto.
    + destruct H as (_ & Lp & -> & Hk). rewrite (Hk eq_refl). replace (r + 1 - 1) with r by lia. apply aget_in. lia.
Qed.

(** ** one window *)
Section Run.
Variables len m r epoch : Z.
Hypothesis Hm : 3 <= m.
Hypothesis Hr : 0 <= r < m.
Hypothesis Hint : len <= int_max.
Hypothesis Hepo : m <= epoch <= 1000000.

Record whole_query (p : prepared (N := N)) : Prop := {
  wq_q : Z.of_nat (length (p_q p)) = m;
  wq_ord : Permutation (p_order p) (zseq m);
  wq_qo : Z.of_nat (length (p_qo p)) = m;
  wq_uo : Z.of_nat (length (p_uo p)) = m;
  wq_lo : Z.of_nat (length (p_lo p)) = m
}.
Variable p : prepared (N := N).
Hypothesis Hp : whole_query p.

(** after the windows before K *)
Definition steady (K : Z) (s : usearch (N := N)) : Prop :=
  Z.of_nat (length (u_cb1 s)) = m /\ Z.of_nat (length (u_cb2 s)) = m /\
  0 <= u_loc s <= Z.max 0 (K - 1) /\
  0 <= u_kim s /\ 0 <= u_keogh s /\ 0 <= u_keogh2 s /\ u_kim s + u_keogh s + u_keogh2 s <= K.

Lemma window_any l_buff u_buff it base ep i s : base = it * (epoch - m + 1) -> 0 <= base -> base + ep <= len -> m - 1 <= i < ep ->
  full l_buff 0 ep -> full u_buff 0 ep -> full (u_t s) ((i + 1) mod m) (m + (i + 1) mod m) -> steady (base + (i - (m - 1))) s ->
  exists s', window_step p l_buff u_buff epoch m r it i s = Ret s' /\ u_t s' = u_t s /\ steady (base + (i - (m - 1)) + 1) s'.
Proof.
  intros Hb Hb0 Hlen Hi Fl Fu Ft (L1 & L2 & B & C1 & C2 & C3 & C4). unfold window_step. cbv zeta.
  assert (Ej : cmod (i + 1) m = Ret ((i + 1) mod m)).
  { unfold cmod. destruct (Z.eqb_spec m 0); [lia|]. rewrite Z.rem_mod_nonneg by lia. reflexivity. }
  rewrite Ej. cbn [bind]. pose proof (Z.mod_pos_bound (i + 1) m ltac:(lia)) as Hj. set (j := (i + 1) mod m) in *.
  destruct Hp as [Wq Word Wqo Wuo Wlo].
  destruct (kim_any (u_t s) (p_q p) j m (mean_of m (u_ex s)) (std_of m (u_ex s) (u_ex2 s)) (u_bsf s)) as (k0 & ->); auto. cbn [bind].
  destruct (Ft j ltac:(lia)) as (old & Eold).
  destruct (nltb k0 (u_bsf s)).
  2:{ cbn [bind u_t]. rewrite Eold. cbn [bind]. eexists. split; [reflexivity|]. split; [reflexivity|].
      unfold steady. cbn [u_cb1 u_cb2 u_loc u_kim u_keogh u_keogh2]. splits; auto; lia. }
  destruct (keogh_any (p_order p) m ltac:(lia) Word (u_t s) (p_uo p) (p_lo p) (u_cb1 s) j (mean_of m (u_ex s)) (std_of m (u_ex s) (u_ex2 s)) (u_bsf s))
    as (k1 & cb1 & -> & Lc1); auto. cbn [bind u_bsf].
  destruct (nltb k1 (u_bsf s)).
  2:{ cbn [bind u_t u_ex u_ex2 u_cb1 u_cb2 u_bsf u_loc u_kim u_keogh u_keogh2]. rewrite Eold. cbn [bind]. eexists. split; [reflexivity|]. split; [reflexivity|].
      unfold steady. cbn [u_cb1 u_cb2 u_loc u_kim u_keogh u_keogh2]. splits; auto; lia. }
  cbn [u_t u_ex u_ex2 u_cb1 u_cb2 u_bsf u_loc u_kim u_keogh u_keogh2].
  match goal with |- context [build m ?f] => destruct (build_any f m ltac:(lia)) as (tz & -> & Ltz) end.
  { intros k Hk. destruct (Ft (k + j) ltac:(lia)) as (v & ->). cbn [bind]. eauto. }
  cbn [bind].
  destruct (keogh_data_any (p_order p) m ltac:(lia) Word (p_qo p) (u_cb2 s) l_buff u_buff (i - (m - 1)) (mean_of m (u_ex s)) (std_of m (u_ex s) (u_ex2 s)) (u_bsf s))
    as (k2 & cb2 & -> & Lc2); auto.
  { intros k Hk. apply Fl. lia. } { intros k Hk. apply Fu. lia. }
  cbn [bind u_t u_ex u_ex2 u_cb1 u_cb2 u_bsf u_loc u_kim u_keogh u_keogh2].
  destruct (nltb k2 (u_bsf s)).
  2:{ cbn [bind u_t u_ex u_ex2 u_cb1 u_cb2 u_bsf u_loc u_kim u_keogh u_keogh2]. rewrite Eold. cbn [bind]. eexists. split; [reflexivity|]. split; [reflexivity|].
      unfold steady. cbn [u_cb1 u_cb2 u_loc u_kim u_keogh u_keogh2]. splits; auto; lia. }
  destruct (dtw_any tz (p_q p) (cumulate (if nltb k2 k1 then cb1 else cb2)) m r (u_bsf s)) as (d & ->); auto; try lia.
  { rewrite cumulate_length. destruct (nltb k2 k1); auto. }
  cbn [bind]. destruct (nltb d (u_bsf s)).
  - assert (Hch : chunk_base epoch m it = Ret base).
    { unfold chunk_base. cbv zeta. rewrite <- Hb.
      destruct (Z.leb_spec int_min base), (Z.leb_spec base int_max); cbn [andb]; auto; unfold int_min in *; lia. }
    rewrite Hch. cbn [bind u_t]. rewrite Eold. cbn [bind]. eexists. split; [reflexivity|]. split; [reflexivity|].
    unfold steady. cbn [u_cb1 u_cb2 u_loc u_kim u_keogh u_keogh2]. splits; auto; lia.
  - cbn [bind u_t]. rewrite Eold. cbn [bind]. eexists. split; [reflexivity|]. split; [reflexivity|].
    unfold steady. cbn [u_cb1 u_cb2 u_loc u_kim u_keogh u_keogh2]. splits; auto; lia.
Qed.

Definition pany (base i : Z) (s : usearch (N := N)) : Prop :=
  Z.of_nat (length (u_t s)) = 2 * m /\
  (forall k, Z.max 0 (i - m) <= k < i -> (exists v, cell (u_t s) (k mod m) = Ret v) /\ (exists v, cell (u_t s) (k mod m + m) = Ret v)) /\
  steady (base + Z.max 0 (i - (m - 1))) s.

Lemma point_any buffer l_buff u_buff it base ep i s : base = it * (epoch - m + 1) -> 0 <= base -> base + ep <= len -> 0 <= i < ep ->
  full buffer 0 ep -> full l_buff 0 ep -> full u_buff 0 ep -> pany base i s ->
  exists s', point_step p buffer l_buff u_buff epoch m r it i s = Ret s' /\ pany base (i + 1) s'.
Proof.
  intros Hb Hb0 Hlen Hi Fb Fl Fu (Lt & Ht & Hs). unfold point_step. destruct (Fb i Hi) as (d & ->). cbn [bind].
  assert (Ej : cmod i m = Ret (i mod m)).
  { unfold cmod. destruct (Z.eqb_spec m 0); [lia|]. rewrite Z.rem_mod_nonneg by lia. reflexivity. }
  rewrite Ej. cbn [bind]. pose proof (Z.mod_pos_bound i m ltac:(lia)) as Hmod.
  rewrite aset_in by lia. cbn [bind]. rewrite aset_in by (rewrite upd_length; lia). cbn [bind].
  set (t' := upd (upd (u_t s) _ _) _ _).
  assert (Lt' : Z.of_nat (length t') = 2 * m) by (unfold t'; rewrite !upd_length; exact Lt).
  assert (Ht' : forall k, Z.max 0 (i + 1 - m) <= k < i + 1 -> (exists v, cell t' (k mod m) = Ret v) /\ (exists v, cell t' (k mod m + m) = Ret v)).
  { intros k Hk. pose proof (Z.mod_pos_bound k m ltac:(lia)) as Hkm. destruct (Z.eq_dec k i) as [->|Hne].
    - split; unfold t'; exists d.
      + rewrite cell_upd_other by lia. apply cell_upd_same. lia.
      + apply cell_upd_same. rewrite upd_length. lia.
    - assert (Hd : k mod m <> i mod m).
      { intros E. assert (H : (i - k) mod m = 0) by (rewrite Zminus_mod, E, Z.sub_diag; apply Z.mod_0_l; lia).
        rewrite Z.mod_small in H by lia. lia. }
      destruct (Ht k ltac:(lia)) as (T1 & T2). split; unfold t'; rewrite !cell_upd_other by lia; auto. }
  cbv zeta. destruct (Z.leb_spec (m - 1) i) as [Hmi|Hmi].
  - rewrite Z.max_r in Hs by lia.
    match goal with |- context [window_step _ _ _ _ _ _ _ _ ?s0] => set (s1 := s0) end.
    destruct (window_any l_buff u_buff it base ep i s1) as (s' & E & Et & Hs'); auto; try lia.
    + intros k Hk. unfold s1. cbn [u_t].
      pose proof (Z.mod_pos_bound (i + 1) m ltac:(lia)) as Hj1.
      set (x := i - (m - 1) + (k - (i + 1) mod m)).
      destruct (Ht' x ltac:(unfold x; lia)) as (T1 & T2).
      assert (Ejx : (i + 1) mod m = (i - (m - 1)) mod m).
      { replace (i + 1) with (i - (m - 1) + 1 * m) by lia. apply Z.mod_add. lia. }
      assert (Exm : x mod m = k mod m).
      { unfold x. rewrite <- Zplus_mod_idemp_l, <- Ejx. f_equal. lia. }
      destruct (Z_lt_ge_dec k m) as [Hlt|Hge].
      * rewrite (Z.mod_small k) in Exm by lia. rewrite <- Exm. exact T1.
      * assert (Ex' : x mod m = k - m).
        { rewrite Exm. replace k with (k - m + 1 * m) at 1 by lia. rewrite Z.mod_add by lia. apply Z.mod_small. lia. }
        replace k with (x mod m + m) by lia. exact T2.
    + exists s'. split; [exact E|]. unfold pany. rewrite Et. splits; auto.
      rewrite Z.max_r by lia. replace (i + 1 - (m - 1)) with (i - (m - 1) + 1) by lia. rewrite Z.add_assoc. exact Hs'.
  - eexists. split; [reflexivity|]. unfold pany. cbn [u_t]. splits; auto.
    rewrite Z.max_l in * by lia. exact Hs.
Qed.

Lemma fill_rest_any base n (vals : list D) : forall ep d (buffer : list (option D)), Z.of_nat (length buffer) = epoch ->
  0 <= ep -> ep + Z.of_nat n <= epoch -> full buffer 0 ep -> base + ep + Z.of_nat (length vals) = len ->
  exists ep' d' vals' buffer', fill_rest n ep d (mkStream vals false) buffer = Ret (ep', d', mkStream vals' false, buffer') /\
    Z.of_nat (length buffer') = epoch /\ ep' = ep + Z.min (Z.of_nat n) (Z.of_nat (length vals)) /\
    base + ep' + Z.of_nat (length vals') = len /\ full buffer' 0 ep'.
Proof.
  revert vals. induction n as [|n IH]; intros vals ep d buffer Lb He Hn Fb Hl.
  - cbn [fill_rest]. exists ep, d, vals, buffer. splits; auto. lia.
  - cbn [fill_rest]. unfold fscan. cbn [st_vals st_junk]. destruct vals as [|v vals].
    + cbn [negb]. exists ep, d, [], buffer. splits; auto. simpl. lia.
    + cbn [negb init_get bind]. rewrite aset_in by lia. cbn [bind]. cbn [length] in *.
      destruct (IH vals (ep + 1) (Some v) (upd buffer (Z.to_nat ep) (Some v))) as (ep' & d' & vals' & b' & E & L' & He' & Hl' & F'); try lia.
      * rewrite upd_length. exact Lb.
      * intros k Hk. destruct (Z.eq_dec k ep) as [->|].
        -- exists v. apply cell_upd_same. lia.
        -- rewrite cell_upd_other by lia. apply Fb; lia.
      * exists ep', d', vals', b'. splits; auto. lia.
Qed.

Lemma fill_first_any it base d vals (buffer : list (option D)) :
  base = it * (epoch - m + 1) -> 0 <= it -> Z.of_nat (length buffer) = epoch ->
  (it = 0 -> Z.of_nat (length vals) = len) ->
  (0 < it -> base + m - 1 + Z.of_nat (length vals) = len /\ full buffer (epoch - m + 1) epoch) ->
  exists d' vals' buffer', fill_first it epoch m d (mkStream vals false) buffer = Ret (d', mkStream vals' false, buffer') /\
    Z.of_nat (length buffer') = epoch /\
    ((base + m - 1 + Z.of_nat (length vals') = len /\ full buffer' 0 (m - 1) /\ (length vals' <= length vals)%nat) \/
     (it = 0 /\ len < m - 1 /\ vals' = [])).
Proof.
  intros Hb Hit Lb H0 Hc. unfold fill_first. destruct (Z.eqb_spec it 0) as [E0|E0].
  - subst it. assert (base = 0) by lia. specialize (H0 eq_refl).
    match goal with |- context [for_ 0 (m - 1) ?g ?s0] =>
      destruct (for_inv (fun k (s : option D * stream (N := N) * list (option D)) => let '(d', f', b') := s in
        exists vals', f' = mkStream vals' false /\ Z.of_nat (length b') = epoch /\
        ((k + Z.of_nat (length vals') = len /\ full b' 0 k /\ (length vals' <= length vals)%nat) \/ (len < k /\ vals' = []))) g 0 (m - 1) s0)
        as (((d' & f') & b') & E & vals' & -> & L' & G) end.
    + lia.
    + exists vals. splits; auto. left. splits; auto. intros k Hk. lia.
    + intros k ((d1 & f1) & b1) Hk (v1 & -> & L1 & G1). unfold fscan. cbn [st_vals st_junk]. destruct v1 as [|v v1].
      * eexists. split; [reflexivity|]. cbv beta iota. exists []. splits; auto. right. split; auto.
        destruct G1 as [(G1 & _)|(G1 & _)]; [simpl in G1; lia|lia].
      * cbn [init_get bind]. rewrite aset_in by lia. cbn [bind]. eexists. split; [reflexivity|]. cbv beta iota.
        exists v1. rewrite upd_length. splits; auto. left. destruct G1 as [(G1 & F1 & M1)|(_ & G1)]; [|discriminate]. cbn [length] in *. splits; try lia.
        intros k' Hk'. destruct (Z.eq_dec k' k) as [->|].
        -- exists v. apply cell_upd_same. lia.
        -- rewrite cell_upd_other by lia. apply F1; lia.
    + exists d', vals', b'. rewrite E. splits; auto. destruct G as [(G1 & G2 & G3)|(G1 & G2)]; [left; splits; auto; lia|right; splits; auto].
  - destruct (Hc ltac:(lia)) as (Hle & Hcells).
    match goal with |- context [for_ 0 (m - 1) ?g ?s0] =>
      destruct (for_inv (fun k (b' : list (option D)) => Z.of_nat (length b') = epoch /\ full b' 0 k /\
        forall j, k <= j < epoch -> aget b' j = aget buffer j) g 0 (m - 1) s0) as (b' & E & L' & G & _) end.
    + lia.
    + splits; auto. intros k Hk. lia.
    + intros k b1 Hk (L1 & G1 & O1). rewrite O1 by lia.
      destruct (Hcells (epoch - m + 1 + k) ltac:(lia)) as (v & Ev). rewrite (cell_inv _ _ _ Ev). cbn [bind]. rewrite aset_in by lia.
      eexists. split; [reflexivity|]. splits.
      * rewrite upd_length. exact L1.
      * intros k' Hk'. destruct (Z.eq_dec k' k) as [->|].
        -- exists v. apply cell_upd_same. lia.
        -- rewrite cell_upd_other by lia. apply G1; lia.
      * intros j Hj. rewrite aget_upd_other by lia. apply O1. lia.
    + rewrite E. cbn [bind]. exists d, vals, b'. splits; auto.
Qed.

Lemma chunks_any n : forall it base d vals buffer s,
  base = it * (epoch - m + 1) -> 0 <= it -> Z.of_nat (length buffer) = epoch -> 0 <= len ->
  (it = 0 -> Z.of_nat (length vals) = len) ->
  (0 < it -> base + m - 1 + Z.of_nat (length vals) = len /\ full buffer (epoch - m + 1) epoch) ->
  Z.of_nat (length (u_t s)) = 2 * m -> steady base s -> (length vals < n)%nat ->
  exists s' it' ep' b', chunks (N := N) n p epoch m r it d (mkStream vals false) buffer s = Ret (s', it', ep') /\
    chunk_base epoch m it' = Ret b' /\ b' + ep' = Z.max len (m - 1) /\ steady (Z.max 0 (len - m + 1)) s'.
Proof.
  induction n as [|n IH]; intros it base d vals buffer s Hb Hit Lb Hl0 H0 Hc Lt Hs Hn; [lia|].
  assert (Hb0 : 0 <= base) by (subst base; apply Z.mul_nonneg_nonneg; lia).
  cbn [chunks].
  destruct (fill_first_any it base d vals buffer Hb Hit Lb H0 Hc) as (d1 & v1 & b1 & E1 & L1 & G1). rewrite E1. cbn [bind].
  assert (Hcb : base <= len -> chunk_base epoch m it = Ret base).
  { intros Hle. unfold chunk_base. cbv zeta. rewrite <- Hb.
    destruct (Z.leb_spec int_min base), (Z.leb_spec base int_max); cbn [andb]; auto; unfold int_min in *; lia. }
  destruct G1 as [(G1 & F1 & M1)|(-> & Hsh & ->)].
  2:{ assert (base = 0) by lia.
      replace (Z.to_nat (epoch - (m - 1))) with (S (Z.to_nat (epoch - m))) by lia. cbn [fill_rest fscan st_vals st_junk negb bind].
      destruct (Z.leb_spec (m - 1) (m - 1)); [|lia]. exists s, 0, (m - 1), base.
      splits; auto; [apply Hcb; lia|lia|]. rewrite Z.max_l by lia. subst base. exact Hs. }
  destruct (fill_rest_any base (Z.to_nat (epoch - (m - 1))) v1 (m - 1) d1 b1) as (ep & d2 & v2 & b2 & E2 & L2 & Hep & Hl2 & F2); auto; try lia.
  rewrite E2. cbn [bind]. destruct (Z.leb_spec ep (m - 1)) as [Hepm|Hepm].
  { exists s, it, ep, base. splits; auto; [apply Hcb; lia|lia|]. rewrite Z.max_r by lia.
    replace (len - m + 1) with base by lia. exact Hs. }
  unfold inited. destruct (build_any (cell b2) ep ltac:(lia) F2) as (vs & -> & Lvs). cbn [bind].
  destruct (lemire_any vs ep r ltac:(lia) ltac:(lia)) as (lb & ub & -> & _ & _ & Hcell). cbn [bind].
  destruct (Z.eqb_spec (epoch - m + 1) 0); [lia|]. cbn [bind].
  assert (Hq : 1 <= Z.quot 1000000 (epoch - m + 1)) by (apply Z.quot_le_lower_bound; lia).
  unfold cmod at 1. destruct (Z.eqb_spec (Z.quot 1000000 (epoch - m + 1)) 0); [lia|]. cbn [bind].
  match goal with |- context [for_ 0 ep ?f ?s0] => destruct (for_inv (pany base) f 0 ep s0) as (s2 & E3 & Lt2 & _ & S2) end.
  { lia. }
  { unfold pany. cbn [u_t]. replace (Z.max 0 (0 - (m - 1))) with 0 by lia. rewrite Z.add_0_r. splits; auto. intros; lia. }
  { intros i s1 Hi HI. apply (point_any b2 lb ub it base ep); auto; try lia.
    - intros k Hk. destruct (Hcell k Hk) as (_ & (v & Ev)). exists v. apply cell_some. exact Ev.
    - intros k Hk. destruct (Hcell k Hk) as ((v & Ev) & _). exists v. apply cell_some. exact Ev. }
  rewrite E3. cbn [bind]. rewrite Z.max_r in S2 by lia. destruct (Z.ltb_spec ep epoch) as [Hlt|Hge].
  - exists s2, it, ep, base. splits; auto; [apply Hcb; lia|lia|]. rewrite Z.max_r by lia.
    replace (len - m + 1) with (base + (ep - (m - 1))) by lia. exact S2.
  - assert (Ee : ep = epoch) by lia. clear Hep. rewrite Ee in *. clear Ee ep.
    apply (IH (it + 1) (base + (epoch - m + 1))); auto; try lia.
    + intros _. split; [lia|]. intros k Hk. apply F2. lia.
    + replace (base + (epoch - m + 1)) with (base + (epoch - (m - 1))) by lia. exact S2.
Qed.
End Run.

Lemma read_any m junk n : forall i d (vals : list D) (q : list (option D)) ex ex2, 0 <= i -> i + Z.of_nat n = m ->
  Z.of_nat (length q) = m -> (n <= length vals)%nat -> full q 0 i ->
  exists d' q' ex' ex2', read_query n i d (mkStream vals junk) q ex ex2 = Ret (d', q', ex', ex2') /\ full q' 0 m.
Proof.
  induction n as [|n IH]; intros i d vals q ex ex2 Hi Hn Lq Hv Fq.
  - cbn [read_query]. destruct (fscan _ _) as ((go & d') & s'). exists d', q, ex, ex2. split; auto. replace m with i by lia. exact Fq.
  - cbn [read_query]. unfold fscan. cbn [st_vals st_junk]. destruct vals as [|v vals]; [simpl in Hv; lia|]. cbn [negb init_get bind].
    rewrite aset_in by lia. cbn [bind]. simpl in Hv. apply IH; try lia.
    + rewrite upd_length. exact Lq.
    + intros k Hk. destruct (Z.eq_dec k i) as [->|].
      * exists v. apply cell_upd_same. lia.
      * rewrite cell_upd_other by lia. apply Fq. lia.
Qed.

Lemma prepare_any sort qv junk m r : arranges sort -> 1 <= m -> 0 <= r < m -> m <= Z.of_nat (length qv) ->
  (exists p d, prepare_query (N := N) sort (mkStream qv junk) m r = Ret (p, d) /\ whole_query m p) \/
  prepare_query (N := N) sort (mkStream qv junk) m r = UB BadConversion.
Proof.
  intros Hs Hm Hr Hq. unfold prepare_query.
  destruct (read_any m junk (Z.to_nat m) 0 None qv (repeat None (Z.to_nat m)) n0 n0) as (d & q & ex & ex2 & -> & Fq); try lia.
  { rewrite repeat_length. lia. } { intros k Hk. lia. }
  cbn [bind]. match goal with |- context [build m ?f] => destruct (build_any f m ltac:(lia)) as (z & -> & Lz) end.
  { intros k Hk. destruct (Fq k Hk) as (v & ->). cbn [bind]. eauto. }
  cbn [bind]. destruct (lemire_any z m r ltac:(lia) ltac:(lia)) as (l & u & -> & _ & _ & Hcell). cbn [bind].
  unfold sort_query. destruct (forallb _ _); [|right; reflexivity]. cbn [bind]. left.
  set (order := sort z).
  assert (Hord : Permutation order (zseq m)).
  { eapply Permutation_trans; [apply Hs|]. unfold zseq. replace (length z) with (Z.to_nat m) by lia. apply Permutation_refl. }
  pose proof (order_get m ltac:(lia) order Hord) as Hget.
  match goal with |- context [build m ?f] => destruct (build_any f m ltac:(lia)) as (qo & -> & Lqo) end.
  { intros k Hk. destruct (Hget k Hk) as (G1 & G2). rewrite G1. cbn [bind]. apply aget_in. lia. }
  cbn [bind]. match goal with |- context [build m ?f] => destruct (build_any f m ltac:(lia)) as (uo & -> & Luo) end.
  { intros k Hk. destruct (Hget k Hk) as (G1 & G2). rewrite G1. cbn [bind]. destruct (Hcell _ G2) as ((v & Ev) & _). exists v. apply cell_some. exact Ev. }
  cbn [bind]. match goal with |- context [build m ?f] => destruct (build_any f m ltac:(lia)) as (lo & -> & Llo) end.
  { intros k Hk. destruct (Hget k Hk) as (G1 & G2). rewrite G1. cbn [bind]. destruct (Hcell _ G2) as (_ & (v & Ev)). exists v. apply cell_some. exact Ev. }
  cbn [bind]. eexists _, d. split; [reflexivity|]. constructor; auto.
Qed.

Lemma calculate_any epoch sort dv qv junk m r : arranges sort -> 3 <= m <= epoch -> epoch <= 1000000 -> 0 <= r < m ->
  m <= Z.of_nat (length qv) -> Z.of_nat (length dv) <= int_max ->
  (exists rp, calculate_with (N := N) epoch sort (Some (mkStream dv false)) (Some (mkStream qv junk)) m r = Ret (Reported rp) /\
    0 <= rp_loc rp <= Z.max 0 (Z.of_nat (length dv) - m) /\ rp_scanned rp = Z.max (Z.of_nat (length dv)) (m - 1) /\
    0 <= rp_kim rp /\ 0 <= rp_keogh rp /\ 0 <= rp_keogh2 rp /\
    rp_kim rp + rp_keogh rp + rp_keogh2 rp <= Z.max 0 (Z.of_nat (length dv) - m + 1)) \/
  (calculate_with (N := N) epoch sort (Some (mkStream dv false)) (Some (mkStream qv junk)) m r = UB BadConversion /\
   prepare_query (N := N) sort (mkStream qv junk) m r = UB BadConversion).
Proof.
  intros Hs Hm He Hr Hq Hint. unfold calculate_with. destruct (Z.ltb_spec m 0); [lia|].
  destruct (prepare_any sort qv junk m r Hs ltac:(lia) Hr Hq) as [(p & d & Ep & Wp)|Ep]; rewrite Ep; cbn [bind]; [left|right; auto].
  match goal with |- context [chunks ?n p epoch m r 0 d ?f ?b ?s] =>
    destruct (chunks_any (Z.of_nat (length dv)) m r epoch ltac:(lia) Hr Hint ltac:(lia) p Wp n 0 0 d dv b s)
      as (s' & it & ep & base & E & Eb & Hsc & Hf); try lia end.
  - rewrite repeat_length. lia.
  - cbn [u_t]. rewrite repeat_length. lia.
  - unfold steady. cbn [u_cb1 u_cb2 u_loc u_kim u_keogh u_keogh2]. rewrite repeat_length. splits; lia.
  - cbn [st_vals]. lia.
  - rewrite E. cbn [bind]. rewrite Eb. cbn [bind]. eexists. split; [reflexivity|].
    cbn [rp_scanned rp_kim rp_keogh rp_keogh2 rp_loc rp_dist]. destruct Hf as (_ & _ & B & C1 & C2 & C3 & C4). splits; auto; lia.
Qed.

(** ** text that is no number *)
Lemma fill_rest_text n : forall ep d (vals : list D) buffer ep' d' f' b',
  fill_rest n ep d (mkStream vals true) buffer = Ret (ep', d', f', b') -> ep' = ep + Z.of_nat n /\ st_junk f' = true.
Proof.
  induction n as [|n IH]; intros ep d vals buffer ep' d' f' b'; cbn [fill_rest].
  - intros [= <- _ <- _]. split; [lia|reflexivity].
  - unfold fscan. cbn [st_vals st_junk]. destruct vals as [|v vals]; cbn [negb].
    + destruct d as [v|]; cbn [init_get bind]; [|discriminate]. destruct (aset _ _ _); cbn [bind]; try discriminate.
      intros H. apply IH in H as (-> & Hj). split; auto. lia.
    + cbn [init_get bind]. destruct (aset _ _ _); cbn [bind]; try discriminate. intros H. apply IH in H as (-> & Hj). split; auto. lia.
Qed.

Lemma fill_first_text it epoch m d f buffer d' f' b' : st_junk f = true ->
  fill_first (N := N) it epoch m d f buffer = Ret (d', f', b') -> st_junk f' = true.
Proof.
  intros Hj. unfold fill_first. destruct (it =? 0).
  - unfold for_. generalize (Z.to_nat (m - 1 - 0)) as n. generalize 0 as k. revert d f buffer Hj.
    intros d f buffer Hj k n. revert k d f buffer Hj.
    induction n as [|n IH]; intros k d f buffer Hj; cbn [for_n].
    + intros [= _ <- _]. exact Hj.
    + unfold fscan. destruct (st_vals f) as [|v vals] eqn:Ev.
      * rewrite Hj. destruct d as [v|]; cbn [init_get bind]; [|discriminate]. destruct (aset _ _ _); cbn [bind]; try discriminate. apply IH. exact Hj.
      * cbn [init_get bind]. destruct (aset _ _ _); cbn [bind]; try discriminate. apply IH. exact Hj.
  - destruct (for_ _ _ _ _); cbn [bind]; try discriminate. intros [= _ <- _]. exact Hj.
Qed.

Lemma chunks_text n : forall p epoch m r it d f buffer s x, 1 <= m <= epoch -> st_junk f = true ->
  chunks (N := N) n p epoch m r it d f buffer s <> Ret x.
Proof.
  induction n as [|n IH]; intros p epoch m r it d f buffer s x Hm Hj; cbn [chunks]; [discriminate|].
  destruct (fill_first _ _ _ _ _ _) as [((d1 & f1) & b1)| | |] eqn:E1; cbn [bind]; try discriminate.
  pose proof (fill_first_text _ _ _ _ _ _ _ _ _ Hj E1) as Hj1. destruct f1 as (v1 & j1). cbn [st_junk] in Hj1. subst j1.
  destruct (fill_rest _ _ _ _ _) as [(((ep & d2) & f2) & b2)| | |] eqn:E2; cbn [bind]; try discriminate.
  apply fill_rest_text in E2 as (-> & Hj2). rewrite Z2Nat.id by lia. replace (m - 1 + (epoch - (m - 1))) with epoch by lia.
  destruct (Z.leb_spec epoch (m - 1)); [lia|].
  destruct (inited _ _) as [vs| | |]; cbn [bind]; try discriminate.
  destruct (lower_upper_lemire _ _ _) as [(l & u)| | |]; cbn [bind]; try discriminate.
  destruct (if _ =? 0 then _ else _) as [dots| | |]; cbn [bind]; try discriminate.
  destruct (cmod it dots); cbn [bind]; try discriminate.
  destruct (for_ _ _ _ _) as [s2| | |]; cbn [bind]; try discriminate.
  destruct (Z.ltb_spec epoch epoch); [lia|]. apply IH; auto.
Qed.
End Safe.
