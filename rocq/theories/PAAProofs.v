From Coq Require Import Arith.
From Verif Require Import Base Num LoopFacts TimeSeries Lemire Distance TSSet StdAlg Candidate DataSpec DataProofs Members DtwExt PAA PAASpec.
Local Open Scope Z_scope.

Lemma nth_error_upd_neq {A} : forall (l : list A) n v k, k <> n -> nth_error (upd l n v) k = nth_error l k.
Proof. induction l as [|x l IH]; intros [|n] v [|k] Hk; simpl; auto; try congruence. Qed.

Lemma nth_error_upd_same {A} : forall (l : list A) n v, (n < length l)%nat -> nth_error (upd l n v) n = Some v.
Proof. induction l as [|x l IH]; intros [|n] v Hn; simpl in *; try lia; auto. apply IH. lia. Qed.

Lemma skipn_skipn_add {A} : forall a b (l : list A), skipn a (skipn b l) = skipn (b + a) l.
Proof. intros a b. revert a. induction b as [|b IH]; intros a [|x l]; simpl; auto. apply skipn_nil. Qed.

Section PAA.
Context {N : Num}.
Notation D := (D N).

Lemma quot_nat a b : (0 < b)%nat -> Z.quot (Z.of_nat a) (Z.of_nat b) = Z.of_nat (a / b).
Proof. intros Hb. rewrite Z.quot_div_nonneg by lia. symmetry. apply Nat2Z.inj_div. Qed.
Lemma rem_nat a b : (0 < b)%nat -> Z.rem (Z.of_nat a) (Z.of_nat b) = Z.of_nat (a mod b).
Proof. intros Hb. rewrite Z.rem_mod_nonneg by lia. symmetry. apply Nat2Z.inj_mod. Qed.

Lemma iquot_nat a b : (0 < b)%nat -> iquot (Z.of_nat a) (Z.of_nat b) = Ret (Z.of_nat (a / b)).
Proof. intros Hb. unfold iquot. destruct (Z.eqb_spec (Z.of_nat b) 0); [lia|]. rewrite quot_nat by lia. reflexivity. Qed.
Lemma irem_nat a b : (0 < b)%nat -> irem (Z.of_nat a) (Z.of_nat b) = Ret (Z.of_nat (a mod b)).
Proof. intros Hb. unfold irem. destruct (Z.eqb_spec (Z.of_nat b) 0); [lia|]. rewrite rem_nat by lia. reflexivity. Qed.

(** number of blocks *)
Lemma ceil_pred n b : (0 < b)%nat -> (0 < n)%nat -> ((n + b - 1) / b = (n - 1) / b + 1)%nat.
Proof.
  intros Hb Hn. replace (n + b - 1)%nat with ((n - 1) + 1 * b)%nat by lia. rewrite Nat.div_add by lia. reflexivity.
Qed.

Lemma block_length b (xs : list D) j : length (block b xs j) = Nat.min b (length xs - j * b).
Proof. unfold block. rewrite firstn_length, skipn_length. reflexivity. Qed.

Lemma block_nth b (xs : list D) j r : (r < b)%nat -> nth_error (block b xs j) r = nth_error xs (j * b + r).
Proof.
  intros Hr. unfold block. rewrite nth_error_firstn_all. destruct (Nat.ltb_spec r b); [|lia].
  rewrite DtwExt.nth_error_skipn. reflexivity.
Qed.

Lemma firstn_snoc {A} (l : list A) k x : nth_error l k = Some x -> firstn (S k) l = (firstn k l ++ [x])%list.
Proof.
  revert k. induction l as [|y l IH]; intros [|k] E; simpl in E; try discriminate.
  - injection E as ->. reflexivity.
  - simpl. f_equal. apply IH, E.
Qed.

Lemma ts_get_nth (t : TS N) i v : ts_ok t -> nth_error (ts_points t) i = Some v -> ts_get t (Z.of_nat i) = Ret v.
Proof.
  intros (H1 & H2 & H3 & H4) E. unfold ts_points in E. rewrite nth_error_firstn_all in E.
  destruct (Nat.ltb_spec i (Z.to_nat (ts_length t))); [|discriminate]. rewrite DtwExt.nth_error_skipn in E.
  unfold ts_get. destruct (Z.ltb_spec (Z.of_nat i) 0); [lia|]. destruct (Z.leb_spec (ts_length t) (Z.of_nat i)); [lia|]. cbn [orb].
  apply aget_Ret. split; [lia|]. rewrite <- E. f_equal. lia.
Qed.

Lemma points_length (t : TS N) : ts_ok t -> Z.of_nat (length (ts_points t)) = ts_length t.
Proof. intros (H1 & H2 & H3 & H4). unfold ts_points. rewrite firstn_length, skipn_length. lia. Qed.

Lemma ts_put_ok (dest : list D) i v : (i < length dest)%nat -> ts_put dest (Z.of_nat i) v = Ret (upd dest i v).
Proof.
  intros Hi. unfold ts_put. destruct (Z.ltb_spec (Z.of_nat i) 0); [lia|]. destruct (Z.leb_spec (Z.of_nat (length dest)) (Z.of_nat i)); [lia|].
  cbn [orb]. unfold aset. destruct (Z.leb_spec 0 (Z.of_nat i)); [|lia]. destruct (Z.ltb_spec (Z.of_nat i) (Z.of_nat (length dest))); [|lia].
  cbn [andb]. rewrite Nat2Z.id. reflexivity.
Qed.

Lemma ts_of_list_points (l : list D) : ts_points (ts_of_list l) = l.
Proof. unfold ts_points, ts_of_list. simpl. rewrite Nat2Z.id. apply firstn_all. Qed.
Lemma ts_of_list_ok (l : list D) : ts_ok (ts_of_list l).
Proof. unfold ts_ok, ts_of_list. simpl. lia. Qed.

Lemma block_means_length b (xs : list D) : length (block_means b xs) = ((length xs + b - 1) / b)%nat.
Proof. unfold block_means. rewrite map_length, seq_length. reflexivity. Qed.
Lemma block_means_nth b (xs : list D) j : (j < (length xs + b - 1) / b)%nat ->
  nth_error (block_means b xs) j = Some (mean (block b xs j)).
Proof.
  intros Hj. unfold block_means. rewrite nth_error_map.
  rewrite (nth_error_nth' _ 0%nat) by (rewrite seq_length; lia). rewrite seq_nth by lia. reflexivity.
Qed.

Theorem tsPAA_ok (t : TS N) b : ts_ok t -> (0 < b)%nat -> 1 <= ts_length t ->
  tsPAA t (Z.of_nat b) = Ret (ts_of_list (block_means b (ts_points t))).
Proof.
  intros Ht Hb Hlen. set (xs := ts_points t). set (n := length xs).
  assert (En : ts_length t = Z.of_nat n) by (symmetry; apply points_length; auto).
  assert (Hn : (0 < n)%nat) by lia.
  unfold tsPAA. rewrite En. replace (Z.of_nat n - 1) with (Z.of_nat (n - 1)) by lia. rewrite iquot_nat by lia. cbn [bind].
  set (m := ((n - 1) / b)%nat). unfold ts_zeros. destruct (Z.ltb_spec (Z.of_nat m + 1) 0); [lia|]. cbn [bind].
  replace (Z.to_nat (Z.of_nat m + 1)) with (S m) by lia.
  destruct (for_inv (fun k (st : D * Z * list D) => exists i, k = Z.of_nat i /\ let '(sum, count, dest) := st in
      length dest = S m /\
      (forall j, (j <= m)%nat -> i = n \/ (j < i / b)%nat -> nth_error dest j = Some (mean (block b xs j))) /\
      ((i < n)%nat -> count = Z.of_nat (i mod b) /\ sum = fold_left nadd (firstn (i mod b) (block b xs (i / b))) n0))
    (paa_step t (Z.of_nat b)) 0 (Z.of_nat n) (n0, 0, repeat n0 (S m))) as ([[sum count] dest] & E & i & Hi & Hl & Hv & _).
  - lia.
  - exists O. split; [lia|]. splits.
    + apply repeat_length.
    + intros j _ [H0|H0]; [lia|]. rewrite Nat.div_small in H0 by lia. lia.
    + intros _. rewrite Nat.mod_small by lia. split; reflexivity.
  - intros k [[sum count] dest] Hk (i & -> & Hl & Hv & Hs). assert (Hin : (i < n)%nat) by lia.
    destruct (Hs Hin) as [-> ->]. clear Hs.
    pose proof (Nat.div_mod i b ltac:(lia)) as Hdm. pose proof (Nat.mod_upper_bound i b ltac:(lia)) as Hr.
    destruct (nth_error xs i) as [v|] eqn:Ev; [|apply nth_error_None in Ev; unfold n in Hin; lia].
    unfold paa_step. rewrite (ts_get_nth t i v Ht Ev). cbn [bind].
    set (r := (i mod b)%nat) in *. set (q := (i / b)%nat) in *.
    assert (Eb : nth_error (block b xs q) r = Some v).
    { rewrite block_nth by lia. rewrite <- Ev. f_equal. lia. }
    replace (nadd (fold_left nadd (firstn r (block b xs q)) n0) v) with (fold_left nadd (firstn (S r) (block b xs q)) n0).
    2:{ rewrite (firstn_snoc _ _ _ Eb), fold_left_app. reflexivity. }
    assert (Hqm : (q <= m)%nat) by (apply Nat.div_le_mono; lia).
    assert (Hbl : length (block b xs q) = Nat.min b (n - q * b)) by apply block_length.
    destruct (Z.eqb_spec (Z.of_nat r + 1) (Z.of_nat b)) as [Hfull|Hfull]; [|destruct (Z.eqb_spec (Z.of_nat i) (ts_length t - 1)) as [Hlast|Hlast]]; cbn [orb].
    + (* full block *)
      rewrite iquot_nat by lia. cbn [bind]. fold q. rewrite ts_put_ok by lia. cbn [bind].
      eexists. split; [reflexivity|]. exists (i + 1)%nat. split; [lia|].
      assert (E1 : ((i + 1) / b = q + 1)%nat) by (symmetry; apply (Nat.div_unique _ _ _ 0); nia).
      assert (E2 : ((i + 1) mod b = 0)%nat) by (symmetry; apply (Nat.mod_unique _ _ (q + 1)); nia).
      assert (Hblk : length (block b xs q) = S r) by nia.
      splits.
      * rewrite upd_length. exact Hl.
      * intros j Hj Hc. destruct (Nat.eq_dec j q) as [->|Hjq].
        -- rewrite nth_error_upd_same by lia. unfold mean. rewrite firstn_all2 by lia. rewrite Hblk. replace (Z.of_nat r + 1) with (Z.of_nat (S r)) by lia. reflexivity.
        -- rewrite nth_error_upd_neq by lia. apply Hv; auto. right.
           destruct Hc as [Hc|Hc]; [|lia]. assert (m = q); [|lia]. unfold m, q. f_equal. lia.
      * intros _. rewrite E2, E1. split; [lia|reflexivity].
    + (* last, shorter block *)
      rewrite iquot_nat by lia. cbn [bind]. fold q. rewrite ts_put_ok by lia. cbn [bind].
      eexists. split; [reflexivity|]. exists (i + 1)%nat. split; [lia|].
      assert (Hblk : length (block b xs q) = S r) by nia.
      assert (Hmq : m = q) by (unfold m, q; f_equal; lia).
      splits.
      * rewrite upd_length. exact Hl.
      * intros j Hj Hc. destruct (Nat.eq_dec j q) as [->|Hjq].
        -- rewrite nth_error_upd_same by lia. unfold mean. rewrite firstn_all2 by lia. rewrite Hblk. replace (Z.of_nat r + 1) with (Z.of_nat (S r)) by lia. reflexivity.
        -- rewrite nth_error_upd_neq by lia. apply Hv; auto. right. lia.
      * intros Hlt. lia.
    + eexists. split; [reflexivity|]. exists (i + 1)%nat. split; [lia|].
      assert (E1 : ((i + 1) / b = q)%nat) by (symmetry; apply (Nat.div_unique _ _ _ (r + 1)); nia).
      assert (E2 : ((i + 1) mod b = r + 1)%nat) by (symmetry; apply (Nat.mod_unique _ _ q); nia).
      splits; auto.
      * intros j Hj [Hc|Hc]; [lia|]. apply Hv; auto. right. lia.
      * intros _. rewrite E2, E1. replace (r + 1)%nat with (S r) by lia. split; [lia|reflexivity].
  - rewrite E. cbn [bind]. f_equal. f_equal. assert (i = n) by lia. subst i.
    apply list_ext. intros j. destruct (Nat.le_gt_cases j m) as [Hj|Hj].
    + rewrite (Hv j Hj (or_introl eq_refl)). symmetry. apply block_means_nth. fold n. rewrite ceil_pred by lia. fold m. lia.
    + replace (nth_error dest j) with (@None D) by (symmetry; apply nth_error_None; lia). symmetry. apply nth_error_None.
      rewrite block_means_length. fold n. rewrite ceil_pred by lia. fold m. lia.
Qed.

Lemma block_slice b (row : list D) s e j : (s + (j + 1) * b <= e)%nat ->
  block b (slice row (Z.of_nat s) (Z.of_nat e)) j = firstn b (skipn (s + j * b) row).
Proof.
  intros Hj. unfold block, slice. replace (Z.to_nat (Z.of_nat e - Z.of_nat s)) with (e - s)%nat by lia. rewrite Nat2Z.id.
  rewrite skipn_firstn_comm, firstn_firstn, skipn_skipn_add. rewrite Nat.min_l by nia. reflexivity.
Qed.

Lemma slice_length (row : list D) s e : (e <= length row)%nat -> length (slice row (Z.of_nat s) (Z.of_nat e)) = (e - s)%nat.
Proof. intros He. unfold slice. rewrite firstn_length, skipn_length. lia. Qed.

Variable d : dataset N.
Variable rows : list (list D).
Hypothesis Hd : holds d rows.

(** the state after a successful preparation *)
Definition paa_row (L b : nat) (row : list D) : list (TS N) :=
  map (fun o => ts_of_list (block_means b (slice row (Z.of_nat o) (Z.of_nat L)))) (seq 0 b).
Definition prepared (L b : nat) (w : paa N) : Prop :=
  (1 <= b <= L)%nat /\ paa_block w = Some (Z.of_nat b) /\
  forall i row, nth_error rows i = Some row -> nth_error (paa_mat w) i = Some (paa_row L b row).

Lemma gen_row_ok L b i row : nth_error rows i = Some row -> (1 <= b <= L)%nat -> (L <= length row)%nat ->
  forall n o acc, (o + n <= b)%nat ->
  gen_row d (Z.of_nat L) (Z.of_nat b) (Z.of_nat i) n (Z.of_nat o) acc =
  ((acc ++ map (fun o => ts_of_list (block_means b (slice row (Z.of_nat o) (Z.of_nat L)))) (seq o n))%list, Ret tt).
Proof.
  intros Er Hb HL. induction n as [|n IH]; intros o acc Ho; cbn [gen_row seq map].
  - rewrite app_nil_r. reflexivity.
  - assert (Erow : row_of rows (Z.of_nat i) = Some row).
    { unfold row_of. destruct (Z.ltb_spec (Z.of_nat i) 0); [lia|]. rewrite Nat2Z.id. exact Er. }
    destruct (getTimeSeries_ok d rows (Z.of_nat i) (Z.of_nat o) (Z.of_nat L) row Hd Erow ltac:(lia) ltac:(lia)) as (t & E & Ep & Ei & Es & El & Hok).
    rewrite E. cbn [bind]. rewrite tsPAA_ok; auto; try lia. rewrite Ep.
    replace (Z.of_nat o + 1) with (Z.of_nat (S o)) by lia. rewrite IH by lia. rewrite <- app_assoc. reflexivity.
Qed.

Lemma gen_rows_ok L b : (1 <= b <= L)%nat -> (forall row, In row rows -> (L <= length row)%nat) ->
  forall n i mat, (i + n = length rows)%nat -> length mat = length rows ->
  (forall k row, (k < i)%nat -> nth_error rows k = Some row -> nth_error mat k = Some (paa_row L b row)) ->
  exists mat', gen_rows d (Z.of_nat L) (Z.of_nat b) n (Z.of_nat i) mat = (mat', Ret tt) /\ length mat' = length rows /\
    forall k row, nth_error rows k = Some row -> nth_error mat' k = Some (paa_row L b row).
Proof.
  intros Hb HL. induction n as [|n IH]; intros i mat Hi Hlm Hm; cbn [gen_rows].
  - exists mat. splits; auto. intros k row Ek. apply Hm; auto. assert (k < length rows)%nat by (apply nth_error_Some; congruence). lia.
  - destruct (Z.leb_spec (Z.of_nat (length mat)) (Z.of_nat i)); [lia|].
    destruct (nth_error rows i) as [row|] eqn:Er; [|apply nth_error_None in Er; lia].
    pose proof (HL row (nth_error_In _ _ Er)) as HLr.
    rewrite Nat2Z.id. change 0 with (Z.of_nat 0). rewrite (gen_row_ok L b i row Er Hb HLr b 0 []) by lia. rewrite Nat2Z.id. cbn [app].
    replace (Z.of_nat i + 1) with (Z.of_nat (S i)) by lia. apply IH; [lia|rewrite upd_length; lia|].
    intros k row' Hk Ek. destruct (Nat.eq_dec k i) as [->|Hne].
    + rewrite nth_error_upd_same by lia. assert (row' = row) by congruence. subst. reflexivity.
    + rewrite nth_error_upd_neq by lia. apply Hm; auto. lia.
Qed.

Lemma paa_new_ok : exists w, paa_new d = Ret w /\ paa_block w = None /\ length (paa_mat w) = length rows.
Proof.
  pose proof Hd as (buf & _ & Ec & _). unfold paa_new.
  destruct (for_inv (fun k (mat : list (list (TS N))) => Z.of_nat (length mat) = k)
    (fun i mat => t <- getTimeSeries d i (-1) (-1) ;; Ret (mat ++ [[t]])%list) 0 (ds_count d) []) as (mat & E & Hm).
  - lia.
  - reflexivity.
  - intros k mat Hk Hm. destruct (row_of_in rows k ltac:(lia)) as [row Er].
    destruct (getTimeSeries_whole d rows k (-1) (-1) row Hd Er ltac:(lia) ltac:(lia)) as (t & E & _).
    rewrite E. cbn [bind]. eexists. split; [reflexivity|]. rewrite app_length. simpl. lia.
  - rewrite E. cbn [bind]. eexists. split; [reflexivity|]. simpl. split; auto. lia.
Qed.

Lemma generate_ok w L B : getItemLength d (ds_maxcol d) = Ret (Z.of_nat L) -> (1 <= L)%nat ->
  (forall row, In row rows -> (L <= length row)%nat) -> length (paa_mat w) = length rows -> 1 <= B ->
  exists w', generatePAAMatrix w d B = (w', Ret tt) /\ prepared L (Z.to_nat (Z.min B (Z.of_nat L))) w' /\
    length (paa_mat w') = length rows.
Proof.
  intros EL HL Hrows Hw HB. pose proof Hd as (buf & _ & Ec & _). unfold generatePAAMatrix.
  destruct (Z.ltb_spec B 1); [lia|]. rewrite EL. set (b := Z.to_nat (Z.min B (Z.of_nat L))).
  assert (Eb : Z.min B (Z.of_nat L) = Z.of_nat b) by lia. rewrite Eb. change 0 with (Z.of_nat 0). rewrite Ec, Nat2Z.id.
  destruct (gen_rows_ok L b ltac:(lia) Hrows (length rows) 0 (paa_mat w)) as (mat & E & Hl & Hm); auto; try lia.
  rewrite E. eexists. split; [reflexivity|]. split; [|exact Hl]. split; [lia|]. split; [reflexivity|exact Hm].
Qed.

Section Get.
Variables (L b : nat) (w : paa N).
Hypothesis Hw : prepared L b w.
Hypothesis HL : forall row, In row rows -> (L <= length row)%nat.
Variables (i : Z) (row : list D) (s e : nat).
Hypothesis Er : row_of rows i = Some row.
Hypothesis Hse : (s < e <= L)%nat.

Lemma getPAA_loop : exists dest,
  getPAA w d i (Z.of_nat s) (Z.of_nat e) =
    (dest <- (if Z.of_nat ((e - s) mod b) =? 0 then Ret dest else UB Uninit) ;; Ret (ts_of_list dest)) /\
  length dest = ((e - s + b - 1) / b)%nat /\
  forall j, (j < (e - s) / b)%nat -> nth_error dest j = Some (mean (block b (slice row (Z.of_nat s) (Z.of_nat e)) j)).
Proof.
  destruct Hw as (Hb & Eb & Hmat). pose proof Hd as (buf & _ & Ec & _ & _ & Hr).
  apply row_of_Some in Er as Hi. destruct Hi as [Hi Ei]. specialize (Hmat _ _ Ei).
  pose proof (HL row (nth_error_In _ _ Ei)) as HLr.
  destruct (Hr _ _ Ei) as (Elen & _ & _).
  unfold getPAA. destruct (Z.ltb_spec i 0); [lia|]. destruct (Z.leb_spec (ds_count d) i); [lia|]. cbn [orb].
  assert (Eg : getItemLength d i = Ret (Z.of_nat (length row))).
  { unfold getItemLength. apply aget_Ret. split; [lia|exact Elen]. }
  rewrite Eg. cbn [bind]. replace (Z.of_nat s <? 0) with false by (symmetry; apply Z.ltb_ge; lia). cbn [andb]. cbv beta iota. replace (Z.of_nat s <? 0) with false by (symmetry; apply Z.ltb_ge; lia). cbn [orb].
  destruct (Z.leb_spec (Z.of_nat e) (Z.of_nat s)); [lia|]. destruct (Z.ltb_spec (Z.of_nat (length row)) (Z.of_nat e)); [lia|]. cbn [orb].
  rewrite Eb. cbn [init_get bind]. rewrite irem_nat by lia. cbn [bind].
  set (o := (s mod b)%nat). pose proof (Nat.mod_upper_bound s b ltac:(lia)) as Ho. fold o in Ho.
  pose proof (Nat.div_mod s b ltac:(lia)) as Hs. fold o in Hs. set (q0 := (s / b)%nat) in *.
  rewrite (proj2 (aget_Ret _ _ _) (conj (proj1 Hi) Hmat)). cbn [bind].
  set (whole := ts_of_list (block_means b (slice row (Z.of_nat o) (Z.of_nat L)))).
  assert (Ew : aget (paa_row L b row) (Z.of_nat o) = Ret whole).
  { apply aget_Ret. split; [lia|]. rewrite Nat2Z.id. unfold paa_row. rewrite nth_error_map.
    rewrite (nth_error_nth' _ 0%nat) by (rewrite seq_length; lia). rewrite seq_nth by lia. reflexivity. }
  rewrite Ew. cbn [bind].
  replace (Z.of_nat e - Z.of_nat s - 1) with (Z.of_nat (e - s - 1)) by lia. rewrite iquot_nat by lia. cbn [bind].
  unfold ts_zeros at 1. destruct (Z.ltb_spec (Z.of_nat ((e - s - 1) / b) + 1) 0); [lia|]. cbn [bind].
  replace (Z.of_nat s - Z.of_nat o) with (Z.of_nat (q0 * b)) by nia. rewrite iquot_nat by lia. rewrite Nat.div_mul by lia. cbn [bind].
  set (m := ((e - s) / b)%nat). pose proof (Nat.div_mod (e - s) b ltac:(lia)) as Hes. fold m in Hes.
  pose proof (Nat.mod_upper_bound (e - s) b ltac:(lia)) as Hrr. set (r := ((e - s) mod b)%nat) in *.
  replace (Z.of_nat e - Z.of_nat o) with (Z.of_nat (e - o)) by nia. rewrite iquot_nat by lia. cbn [bind].
  assert (E1 : ((e - o) / b = q0 + m)%nat) by (symmetry; apply (Nat.div_unique _ _ _ r); nia).
  assert (E2 : ((e - o) mod b = r)%nat) by (symmetry; apply (Nat.mod_unique _ _ (q0 + m)); nia).
  rewrite E1.
  assert (Elen' : ((e - s + b - 1) / b = (e - s - 1) / b + 1)%nat) by (apply ceil_pred; lia).
  set (pl := ((e - s - 1) / b)%nat) in *.
  assert (Hpl : (m <= pl + 1)%nat).
  { rewrite <- Elen'. unfold m. apply Nat.div_le_mono; lia. }
  replace (Z.to_nat (Z.of_nat pl + 1)) with (pl + 1)%nat by lia.
  destruct (for_inv (fun k dest => exists j, k = Z.of_nat (q0 + j) /\ length dest = (pl + 1)%nat /\ (j <= m)%nat /\
      forall j', (j' < j)%nat -> nth_error dest j' = Some (mean (block b (slice row (Z.of_nat s) (Z.of_nat e)) j')))
    (fun i0 dest => v <- ts_get whole i0 ;; ts_put dest (i0 - Z.of_nat q0) v)
    (Z.of_nat q0) (Z.of_nat (q0 + m)) (repeat n0 (pl + 1))) as (dest & E & j & Hj & Hl & _ & Hv).
  - lia.
  - exists O. splits; [lia|apply repeat_length|lia|]. intros j' Hj'. lia.
  - intros k dest Hk (j & -> & Hl & Hjm & Hv). assert (Hj : (j < m)%nat) by lia.
    assert (Hend : (s + (j + 1) * b <= e)%nat) by nia.
    rewrite (ts_get_nth whole (q0 + j) (mean (block b (slice row (Z.of_nat o) (Z.of_nat L)) (q0 + j)))).
    + cbn [bind]. replace (Z.of_nat (q0 + j) - Z.of_nat q0) with (Z.of_nat j) by lia. rewrite ts_put_ok by lia.
      eexists. split; [reflexivity|]. exists (S j). splits; [lia|rewrite upd_length; auto|lia|].
      intros j' Hj'. destruct (Nat.eq_dec j' j) as [->|Hne].
      * rewrite nth_error_upd_same by lia. do 2 f_equal. rewrite !block_slice by nia. do 2 f_equal. nia.
      * rewrite nth_error_upd_neq by lia. apply Hv. lia.
    + apply ts_of_list_ok.
    + unfold whole. rewrite ts_of_list_points. apply block_means_nth. rewrite slice_length by lia.
      apply Nat.div_le_lower_bound; [lia|]. nia.
  - exists dest. rewrite E. cbn [bind]. rewrite irem_nat by lia. rewrite E2. cbn [bind].
    assert (j = m) by lia. subst j. splits; auto; [|lia].
    destruct (Z.eqb_spec (Z.of_nat r) 0) as [Hr0|Hr0]; [reflexivity|].
    replace (Z.of_nat e - Z.of_nat s) with (Z.of_nat (e - s)) by lia. rewrite iquot_nat by lia. fold m. cbn [bind].
    destruct (getTimeSeries_ok d rows i (Z.of_nat s + Z.of_nat m * Z.of_nat b) (Z.of_nat e) row Hd Er ltac:(nia) ltac:(lia)) as (t & Et & _ & _ & _ & _ & Elt).
    rewrite Et. cbn [bind]. unfold ts_average. unfold for_. rewrite Elt.
    replace (Z.to_nat (Z.of_nat e - (Z.of_nat s + Z.of_nat m * Z.of_nat b) - 0)) with (S (r - 1)) by nia. reflexivity.
Qed.

Lemma getPAA_ok : ((e - s) mod b = 0)%nat ->
  getPAA w d i (Z.of_nat s) (Z.of_nat e) = Ret (ts_of_list (block_means b (slice row (Z.of_nat s) (Z.of_nat e)))).
Proof.
  intros Hm. destruct getPAA_loop as (dest & E & Hl & Hv). rewrite E, Hm. cbn [Z.eqb Z.of_nat bind]. do 2 f_equal.
  pose proof (proj1 Hw) as Hb. pose proof (Nat.div_mod (e - s) b ltac:(lia)) as Hes. rewrite Hm in Hes.
  apply row_of_Some in Er as Hi. destruct Hi as [_ Ei]. pose proof (HL row (nth_error_In _ _ Ei)) as HLr.
  assert (Ec : ((e - s + b - 1) / b = (e - s) / b)%nat) by (symmetry; apply (Nat.div_unique _ _ _ (b - 1)); nia).
  apply list_ext. intros j. destruct (Nat.lt_ge_cases j ((e - s) / b)) as [Hj|Hj].
  - rewrite (Hv j Hj). symmetry. apply block_means_nth. rewrite slice_length by lia. lia.
  - rewrite (proj2 (nth_error_None dest j)) by lia. symmetry. apply nth_error_None. rewrite block_means_length, slice_length by lia. lia.
Qed.

Lemma getPAA_uninit : ((e - s) mod b <> 0)%nat -> getPAA w d i (Z.of_nat s) (Z.of_nat e) = UB Uninit.
Proof.
  intros Hm. destruct getPAA_loop as (dest & E & _). rewrite E. destruct (Z.eqb_spec (Z.of_nat ((e - s) mod b)) 0); [lia|reflexivity].
Qed.
End Get.
End PAA.
