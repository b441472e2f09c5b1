(** Grouping on the pool against the sequential loop of group. *)
From Coq Require Import String Bool Arith.
From Verif Require Import Base Num TimeSeries Lemire Distance TSSet StdAlg Candidate Group GroupSpace LoopFacts DataProofs Members PAAProofs ThreadPool PoolProofs.
Local Open Scope Z_scope.

Section PG.
Context {N : Num}.
Notation D := (D N).
Variables (clock : Z -> bool) (d : dataset N) (pw : dist_fn N) (ratio thr : D) (lo : Z).
Notation level i := (group_level clock d pw ratio thr i).
Notation NEW := (fun t => ll_new d (lo + Z.of_nat t)).
Notation GEN := (fun t L => generateGroups (clock (lo + Z.of_nat t)) d pw ratio thr L).
Notation SIZE := (fun L : llgs N => Z.of_nat (length (ll_groups L))).
Notation TRES := (tres NEW GEN SIZE).
Notation TMEM := (tmem NEW GEN).
Notation TALLY := (tally NEW GEN SIZE).

Lemma tres_level t : TRES t = (L <- level (lo + Z.of_nat t) ;; Ret (Z.of_nat (length (ll_groups L)))).
Proof. unfold tres, group_level. destruct (ll_new d _); reflexivity. Qed.

Lemma tres_Ret t c : TRES t = Ret c -> exists L, level (lo + Z.of_nat t) = Ret L /\ c = Z.of_nat (length (ll_groups L)) /\ TMEM t = Some L.
Proof.
  rewrite tres_level. unfold group_level, tmem. destruct (ll_new d _) as [L0| | |]; cbn; try discriminate.
  destruct (generateGroups _ d pw ratio thr L0) as [L| | |]; cbn; try discriminate. intros E. injection E as <-. eauto.
Qed.

Lemma tres_Throw t e : TRES t = Throw e -> level (lo + Z.of_nat t) = Throw e.
Proof. rewrite tres_level. destruct (level _); cbn; congruence. Qed.

(** the vector after the first [m] tasks *)
Definition slots (size m : nat) : list (option (llgs N)) :=
  map (fun j => if ((Z.to_nat lo <=? j) && (j <? Z.to_nat lo + m))%nat then TMEM (j - Z.to_nat lo) else None) (seq 0 size).

Lemma slots_nth size m k : nth_error (slots size m) k =
  if (k <? size)%nat then Some (if ((Z.to_nat lo <=? k) && (k <? Z.to_nat lo + m))%nat then TMEM (k - Z.to_nat lo) else None) else None.
Proof.
  unfold slots. destruct (Nat.ltb_spec k size).
  - rewrite map_nth_error with (d := k); [reflexivity|]. rewrite (nth_error_nth' _ 0%nat); [rewrite seq_nth; auto|]. rewrite seq_length. lia.
  - apply nth_error_None. rewrite map_length, seq_length. lia.
Qed.

Lemma slots_0 size : repeat None size = slots size 0.
Proof.
  apply list_ext. intros k. rewrite slots_nth. destruct (Nat.ltb_spec k size).
  - rewrite nth_error_repeat by auto.
    destruct (Nat.leb_spec (Z.to_nat lo) k), (Nat.ltb_spec k (Z.to_nat lo + 0)); cbn; auto. lia.
  - apply nth_error_None. rewrite repeat_length. lia.
Qed.

Lemma slots_S size m L : 0 <= lo -> (Z.to_nat lo + m < size)%nat -> TMEM m = Some L ->
  aset (slots size m) (lo + Z.of_nat m) (Some L) = Ret (slots size (S m)).
Proof.
  intros Hlo Hs HL. assert (Hlen : length (slots size m) = size) by (unfold slots; rewrite map_length, seq_length; auto).
  apply aset_Ret. split; [lia|].
  replace (Z.to_nat (lo + Z.of_nat m)) with (Z.to_nat lo + m)%nat by lia.
  apply list_ext. intros k. destruct (Nat.eq_dec k (Z.to_nat lo + m)) as [->|Hne].
  - rewrite nth_error_upd_same by lia. rewrite slots_nth.
    destruct (Nat.ltb_spec (Z.to_nat lo + m) size); [|lia].
    destruct (Nat.leb_spec (Z.to_nat lo) (Z.to_nat lo + m)), (Nat.ltb_spec (Z.to_nat lo + m) (Z.to_nat lo + S m)); try lia. cbn.
    replace (Z.to_nat lo + m - Z.to_nat lo)%nat with m by lia. rewrite HL. reflexivity.
  - rewrite nth_error_upd_neq by auto. rewrite !slots_nth. destruct (Nat.ltb_spec k size); auto.
    destruct (Nat.leb_spec (Z.to_nat lo) k), (Nat.ltb_spec k (Z.to_nat lo + m)), (Nat.ltb_spec k (Z.to_nat lo + S m)); cbn; auto; lia.
Qed.

Lemma loop_prefix size name pw0 wp th whole : 0 <= lo -> forall m n, (m <= n)%nat -> (Z.to_nat lo + n <= size)%nat ->
  good NEW GEN SIZE m ->
  group_loop clock d pw ratio thr n lo (mkGG name (slots size 0) pw0 wp th 0 whole)
  = group_loop clock d pw ratio thr (n - m) (lo + Z.of_nat m) (mkGG name (slots size m) pw0 wp th (TALLY m) whole).
Proof.
  intros Hlo. induction m as [|m IH]; intros n Hn Hs Hg.
  - rewrite Nat.sub_0_r, Z.add_0_r. reflexivity.
  - rewrite IH; [|lia|lia|intros t Ht; apply Hg; lia].
    replace (n - m)%nat with (S (n - S m)) by lia. cbn [group_loop].
    destruct (Hg m (Nat.lt_succ_diag_r m)) as [c Hc]. destruct (tres_Ret m c Hc) as (L & EL & Ec & Em).
    rewrite EL. cbn [gg_levels]. rewrite (slots_S size m L) by (auto; lia). cbn [gg_name gg_pw gg_warp gg_threshold gg_total gg_whole].
    replace (lo + Z.of_nat m + 1) with (lo + Z.of_nat (S m)) by lia.
    cbn [tally]. rewrite Hc, Ec. reflexivity.
Qed.

(** the sequential loop, by the outcome of the tasks *)
Lemma loop_result size name pw0 wp th whole n total r : 0 <= lo -> (Z.to_nat lo + n <= size)%nat ->
  outcome_is NEW GEN SIZE n total r ->
  exists levels, group_loop clock d pw ratio thr n lo (mkGG name (repeat None size) pw0 wp th 0 whole)
    = (mkGG name levels pw0 wp th total whole, r) /\
    ((exists c, r = Ret c) -> levels = slots size n).
Proof.
  intros Hlo Hs (t & Ht & Hg & Etot & Hr). rewrite (slots_0 size), (loop_prefix size name pw0 wp th whole Hlo t n Ht Hs Hg).
  destruct Hr as [[-> ->]|(Hlt & e & He & ->)].
  - rewrite Nat.sub_diag. cbn. subst total. eauto.
  - apply tres_Throw in He. replace (n - t)%nat with (S (n - S t)) by lia. cbn [group_loop]. rewrite He. subst total.
    destruct (ll_new d (lo + Z.of_nat t)) as [L0| | |].
    2-4: eexists; split; [reflexivity|intros [c Hc]; discriminate].
    destruct (aset _ _ _); cbn [with_levels gg_name gg_pw gg_warp gg_threshold gg_total gg_whole];
      (eexists; split; [reflexivity|intros [c Hc]; discriminate]).
Qed.

(** a completed run and the vector *)
Lemma pool_slots (n threads steps spurious : nat) (size : Z) s total r :
  (forall t, (t < n)%nat -> (exists c, TRES t = Ret c) \/ (exists e, TRES t = Throw e)) -> (0 < threads)%nat ->
  0 <= lo -> 0 <= size -> n = Z.to_nat (size - lo) ->
  pool_of_grouping clock d pw ratio thr lo n threads steps spurious s -> p_main s = MDone total r ->
  outcome_is NEW GEN SIZE n total r /\ pool_levels size lo s = slots (Z.to_nat size) n.
Proof.
  intros Hsafe Ht Hlo Hsz En Hr Em.
  destruct (run_result _ _ _ _ _ Hsafe Ht _ _ _ _ _ Hr Em) as (Ho & Hmem & _). split; auto.
  unfold pool_levels. apply list_ext. intros k. rewrite slots_nth. rewrite <- En.
  destruct (Nat.lt_ge_cases k (Z.to_nat (Z.min lo size))) as [H|H].
  - rewrite nth_error_app1 by (rewrite repeat_length; auto). rewrite nth_error_repeat by auto.
    destruct (Nat.ltb_spec k (Z.to_nat size)), (Nat.leb_spec (Z.to_nat lo) k); cbn; auto; lia.
  - rewrite nth_error_app2 by (rewrite repeat_length; auto). rewrite repeat_length.
    destruct (Nat.lt_ge_cases (k - Z.to_nat (Z.min lo size)) n) as [H'|H'].
    + assert (Hk : (k - Z.to_nat (Z.min lo size) = k - Z.to_nat lo)%nat) by lia.
      rewrite map_nth_error with (d := (k - Z.to_nat lo)%nat).
      * rewrite Hmem by lia. destruct (Nat.ltb_spec k (Z.to_nat size)); [|lia].
        destruct (Nat.leb_spec (Z.to_nat lo) k), (Nat.ltb_spec k (Z.to_nat lo + n)); cbn; auto; lia.
      * rewrite (nth_error_nth' _ 0%nat) by (rewrite seq_length; auto). rewrite seq_nth by auto. f_equal. lia.
    + rewrite (proj2 (nth_error_None _ _)) by (rewrite map_length, seq_length; lia).
      destruct (Nat.ltb_spec k (Z.to_nat size)); auto. lia.
Qed.
End PG.
