(** What a warped distance returns, for any metric whose accumulators live on the heap
    (Cosine, Sorensen) and any arithmetic: infinity or the cost along some warping path. *)
From Verif Require Import Base Num LoopFacts TimeSeries Distance DtwSpec DtwPaths.
Local Open Scope Z_scope.
Local Open Scope list_scope.

Lemma aset_Ret {A} (l : list A) i v l' : aset l i v = Ret l' -> 0 <= i < Z.of_nat (length l) /\ l' = upd l (Z.to_nat i) v.
Proof.
  unfold aset. destruct (_ && _) eqn:E; [|discriminate]. intros [= <-]. apply andb_true_iff in E as [E1 E2].
  apply Z.leb_le in E1. apply Z.ltb_lt in E2. split; [lia|reflexivity].
Qed.

Lemma mset_get {A} (M : list (list A)) i j v M' : mset M i j v = Ret M' ->
  mget M' i j = Ret v /\ (forall i' j', (i', j') <> (i, j) -> mget M' i' j' = mget M i' j').
Proof.
  unfold mset. intros E. apply bind_Ret in E as (row & E1 & E). apply bind_Ret in E as (row' & E2 & E3).
  apply aset_Ret in E2 as [H2 ->]. apply aset_Ret in E3 as [H3 ->]. unfold mget. split.
  - rewrite aget_upd_same by lia. cbn [bind]. apply aget_upd_same. lia.
  - intros i' j' Hne. destruct (Z.eq_dec i i') as [->|Hi].
    + rewrite aget_upd_same by lia. rewrite E1. cbn [bind]. apply aget_upd_other; [lia|congruence].
    + rewrite aget_upd_other by lia. reflexivity.
Qed.

Lemma mat_get {A} m n (v x : A) i j : mget (mat m n v) i j = Ret x -> x = v.
Proof.
  unfold mget, mat. intros E. apply bind_Ret in E as (row & E1 & E2). apply aget_Ret in E1 as [_ E1]. apply aget_Ret in E2 as [_ E2].
  apply nth_error_In, repeat_spec in E1. subst row. exact (repeat_spec _ _ _ (nth_error_In _ _ E2)).
Qed.

Lemma for_n_keep {S} (K : S -> Prop) (body : Z -> S -> res S) n : forall i s s',
  (forall j s s', i <= j < i + Z.of_nat n -> K s -> body j s = Ret s' -> K s') -> K s -> for_n n i body s = Ret s' -> K s'.
Proof.
  induction n as [|n IH]; intros i s s' Hb Hs E; cbn [for_n] in E; [injection E as <-; exact Hs|].
  apply bind_Ret in E as (s1 & E1 & E). apply (IH (i + 1) s1 s'); [intros j t t' Hj; apply Hb; lia| |exact E]. apply (Hb i s s1); [lia|exact Hs|exact E1].
Qed.

Lemma for_keep {S} (K : S -> Prop) (body : Z -> S -> res S) lo hi s s' :
  (forall j s s', lo <= j < hi -> K s -> body j s = Ret s' -> K s') -> K s -> for_ lo hi body s = Ret s' -> K s'.
Proof. intros Hb. apply for_n_keep. intros j t t' Hj. apply Hb. lia. Qed.

Lemma forb_n_keep {S} (K : S -> Prop) (body : Z -> S -> res (S * bool)) n : forall i s s' brk,
  (forall j s s' brk, i <= j < i + Z.of_nat n -> K s -> body j s = Ret (s', brk) -> K s') -> K s -> forb_n n i body s = Ret (s', brk) -> K s'.
Proof.
  induction n as [|n IH]; intros i s s' brk Hb Hs E; cbn [forb_n] in E; [injection E as <- _; exact Hs|].
  apply bind_Ret in E as ([s1 b1] & E1 & E). assert (K s1) by (apply (Hb i s s1 b1); [lia|exact Hs|exact E1]).
  destruct b1; [injection E as <- _; assumption|]. apply (IH (i + 1) s1 s' brk); auto. intros j t t' k Hj. apply Hb. lia.
Qed.

Section Sound.
Context {N : Num}.
Variable M : Metric N.
Variables a b : TS N.
Notation m := (ts_length a).
Notation n := (ts_length b).
Hypothesis Hd : m_dflt M = None.
Hypothesis Ha : ts_ok a.
Hypothesis Hb : ts_ok b.

Definition reached (i j : Z) (v : acc M) : Prop := exists p, warping_path (i + 1) (j + 1) p /\ path_acc M a b p = v.

Lemma ts_get_is (t : TS N) i x : ts_ok t -> ts_get t i = Ret x -> x = pt t i.
Proof.
  intros Ht E. destruct (Z_lt_dec i 0) as [H|H]; [rewrite ts_get_out in E by lia; discriminate|].
  destruct (Z_lt_dec i (ts_length t)) as [H'|H']; [|rewrite ts_get_out in E by lia; discriminate].
  rewrite ts_get_pt in E by (auto; lia). congruence.
Qed.

Lemma path_acc_snoc p c : path_acc M a b (p ++ [c]) = m_reduce M (path_acc M a b p) (pt a (fst c)) (pt b (snd c)).
Proof. unfold path_acc. rewrite fold_left_app. reflexivity. Qed.

Lemma reached_step ip jp i j v : reached ip jp v -> wstep (ip, jp) (i, j) -> reached i j (m_reduce M v (pt a i) (pt b j)).
Proof.
  intros (p & Hp & <-) Hs. exists (p ++ [(i, j)]). split; [|apply path_acc_snoc].
  destruct p as [|c p]; [destruct Hp|]. destruct Hp as (H1 & H2 & H3). cbn [app]. split; [exact H1|]. split.
  - apply chain_snoc. split; [exact H2|]. rewrite H3. replace (ip + 1 - 1) with ip by lia. replace (jp + 1 - 1) with jp by lia. exact Hs.
  - change (c :: p ++ [(i, j)]) with ((c :: p) ++ [(i, j)]). rewrite last_last. f_equal; lia.
Qed.

Lemma reached_00 : reached 0 0 (m_reduce M (m_init M) (pt a 0) (pt b 0)).
Proof. exists [(0, 0)]. split; [split; [reflexivity|split; [exact I|reflexivity]]|reflexivity]. Qed.

Definition sound (c : cells M) : Prop :=
  (forall i j v, mget (fst c) i j = Ret (Some v) -> reached i j v) /\
  (forall x, mget (snd c) (m - 1) (n - 1) = Ret x -> x = ninf \/ exists p, warping_path m n p /\ x = path_cost M a b p).

Lemma put_sound i j prev c c' : sound c -> reached i j (m_reduce M prev (pt a i) (pt b j)) -> put_cell M a b i j prev c = Ret c' -> sound c'.
Proof.
  intros [S1 S2] Hr E. unfold put_cell in E. apply bind_Ret in E as (x & Ex & E). apply bind_Ret in E as (y & Ey & E).
  apply (ts_get_is a i x Ha) in Ex. apply (ts_get_is b j y Hb) in Ey. subst x y. cbv zeta in E.
  apply bind_Ret in E as (cost' & Ec & E). apply bind_Ret in E as (ncost' & En & E). injection E as <-.
  destruct (mset_get _ _ _ _ _ Ec) as [C1 C2]. destruct (mset_get _ _ _ _ _ En) as [N1 N2]. split; cbn [fst snd].
  - intros i' j' v E. destruct (Z.eq_dec i' i) as [->|Hi]; [destruct (Z.eq_dec j' j) as [->|Hj]|].
    + rewrite C1 in E. injection E as <-. exact Hr.
    + rewrite C2 in E by congruence. apply S1, E.
    + rewrite C2 in E by congruence. apply S1, E.
  - intros x E. destruct (Z.eq_dec (m - 1) i) as [Hi|Hi]; [destruct (Z.eq_dec (n - 1) j) as [Hj|Hj]|].
    + subst i j. rewrite N1 in E. injection E as <-. right. destruct Hr as (p & Hp & Ep). exists p.
      replace (m - 1 + 1) with m in Hp by lia. replace (n - 1 + 1) with n in Hp by lia. split; [exact Hp|]. unfold path_cost. rewrite Ep. reflexivity.
    + rewrite N2 in E by congruence. apply S2, E.
    + rewrite N2 in E by congruence. apply S2, E.
Qed.

Lemma cell_sound r i j c best c' best' : sound c -> cell_step M a b r i j (c, best) = Ret (c', best') -> sound c'.
Proof.
  intros S E. unfold cell_step in E. destruct (j =? 0); [apply bind_Ret in E as (v & _ & E); injection E as <- _; exact S|].
  apply bind_Ret in E as (x1 & _ & E). apply bind_Ret in E as (x2 & _ & E). apply bind_Ret in E as (x3 & _ & E).
  apply bind_Ret in E as (up & Eu & E). apply bind_Ret in E as (mp & Em & E). apply bind_Ret in E as (p & Ep & E).
  apply bind_Ret in E as (c1 & Ec & E). apply bind_Ret in E as (v & _ & E). injection E as <- _.
  destruct mp as [q|]; [|discriminate]. cbn in Ep. injection Ep as ->.
  apply (put_sound i j p c c1 S); [|exact Ec]. destruct S as [S1 _].
  destruct (nltb x2 x1 && nltb x2 x3).
  - apply (reached_step (i - 1) (j - 1)); [apply S1, Em|]. right. right. cbn. f_equal; lia.
  - destruct (nltb x1 x3).
    + apply (reached_step i (j - 1)); [apply S1, Em|]. right. left. cbn. f_equal; lia.
    + injection Em as ->. apply (reached_step (i - 1) j); [apply S1, Eu|]. left. cbn. f_equal; lia.
Qed.

Lemma fill_sound r dropout c x : warped_fill M a b r dropout = Ret (c, x) -> x = ninf \/ exists p, warping_path m n p /\ x = path_cost M a b p.
Proof.
  intros E. unfold warped_fill in E. destruct ((m <? 0) || (n <? 0)); [discriminate|]. cbv zeta in E.
  apply bind_Ret in E as (nc & E0 & E). apply bind_Ret in E as (c1 & E1 & E). apply bind_Ret in E as (c2 & E2 & E).
  apply bind_Ret in E as (c3 & E3 & E). apply bind_Ret in E as ([c4 dropped] & E4 & E). apply bind_Ret in E as (y & E5 & E). injection E as _ <-.
  assert (S0 : sound (mat m n (m_dflt M), nc)).
  { split; cbn [fst snd].
    - intros i j v E. apply mat_get in E. rewrite Hd in E. discriminate.
    - intros z E. left. rewrite (proj1 (mset_get _ _ _ _ _ E0)) in E. congruence. }
  assert (S1 : sound c1) by (apply (put_sound 0 0 (m_init M) _ c1 S0 reached_00 E1)).
  assert (S2 : sound c2).
  { apply (for_keep sound (col_step M a b) 1 (Z.min (2 * r + 1) m) c1 c2); [|exact S1|exact E2].
    intros j s s' _ Hs E. unfold col_step in E. apply bind_Ret in E as (q & Eq & E). apply bind_Ret in E as (p & Ep & E).
    destruct q as [q|]; [|discriminate]. cbn in Ep. injection Ep as ->. apply (put_sound j 0 p s s' Hs); [|exact E].
    apply (reached_step (j - 1) 0); [apply (proj1 Hs), Eq|]. left. cbn. f_equal; lia. }
  assert (S3 : sound c3).
  { apply (for_keep sound (row_step M a b) 1 (Z.min (2 * r + 1) n) c2 c3); [|exact S2|exact E3].
    intros j s s' _ Hs E. unfold row_step in E. apply bind_Ret in E as (q & Eq & E). apply bind_Ret in E as (p & Ep & E).
    destruct q as [q|]; [|discriminate]. cbn in Ep. injection Ep as ->. apply (put_sound 0 j p s s' Hs); [|exact E].
    apply (reached_step 0 (j - 1)); [apply (proj1 Hs), Eq|]. right. left. cbn. f_equal; lia. }
  assert (S4 : sound c4).
  { apply (forb_n_keep sound (row_loop M a b r dropout) (Z.to_nat (m - 1)) 1 c3 c4 dropped); [|exact S3|exact E4].
    intros i s s' brk _ Hs E. unfold row_loop in E. apply bind_Ret in E as ([s1 best] & Es & E). injection E as <- _.
    exact (for_keep (fun t => sound (fst t)) (cell_step M a b r i) _ _ (s, ninf) (s1, best)
      (fun j t t' _ Ht Et => match t as t0, t' as t1 return sound (fst t0) -> cell_step M a b r i j t0 = Ret t1 -> sound (fst t1) with (x, bx), (y, bz) => fun H1 H2 => cell_sound r i j x bx y bz H1 H2 end Ht Et) Hs Es). }
  destruct dropped; [injection E5 as <-; left; reflexivity|]. apply (proj2 S4), E5.
Qed.

Theorem warped_path ratio dropout mt v mt' : warpedDistance M a b ratio dropout mt = Ret (v, mt') ->
  v = ninf \/ exists p, warping_path m n p /\ v = path_cost M a b p.
Proof.
  intros E. unfold warpedDistance in E. apply bind_Ret in E as (r & _ & E). destruct ((m =? 1) && (n =? 1)) eqn:E1.
  - apply andb_true_iff in E1 as [Em En]. apply Z.eqb_eq in Em, En.
    apply bind_Ret in E as (x & Ex & E). apply bind_Ret in E as (y & Ey & E). injection E as <- _.
    apply (ts_get_is a 0 x Ha) in Ex. apply (ts_get_is b 0 y Hb) in Ey. subst x y. right. exists [(0, 0)].
    split; [split; [reflexivity|split; [exact I|cbn; f_equal; lia]]|reflexivity].
  - apply bind_Ret in E as ([c res] & Ef & E). apply bind_Ret in E as (mt1 & _ & E). injection E as <- _.
    exact (fill_sound r dropout c res Ef).
Qed.
End Sound.
