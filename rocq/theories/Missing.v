(** Distances of series with missing values, for metrics whose accumulator they spoil. *)
From Verif Require Import Base Num NumLaws LoopFacts TimeSeries Distance DtwSpec DtwPaths Pairwise WarpPath MissingSpec.
Local Open Scope Z_scope.
Local Open Scope list_scope.

(** how arithmetic treats missing values *)
Class GapLaws (N : Num) : Prop := {
  gap_ltb_l : forall x y : D N, missing x -> nltb x y = false;
  gap_ltb_r : forall x y : D N, missing y -> nltb x y = false;
  gap_eqb_r : forall x y : D N, missing y -> neqb x y = false;
  gap_add_l : forall x y : D N, missing x -> missing (nadd x y);
  gap_add_r : forall x y : D N, missing y -> missing (nadd x y);
  gap_sub_l : forall x y : D N, missing x -> missing (nsub x y);
  gap_sub_r : forall x y : D N, missing y -> missing (nsub x y);
  gap_mul : forall x : D N, missing x -> missing (nmul x x);
  gap_div : forall x y : D N, missing x -> missing (ndiv x y);
  gap_sqrt : forall x : D N, missing x -> missing (nsqrt x);
  gap_abs : forall x : D N, missing x -> missing (nabs x)
}.

Section Fill.
Context {N : Num} {G : GapLaws N}.
Variable M : Metric N.
Variable P : acc M -> Prop.
Variable z : acc M.
Hypothesis Hz : m_dflt M = Some z.
Hypothesis P_prev : forall v x y, P v -> P (m_reduce M v x y).
Hypothesis P_x : forall v x y, missing x -> P (m_reduce M v x y).
Hypothesis P_y : forall v x y, missing y -> P (m_reduce M v x y).
Hypothesis P_norm : forall v k l, P v -> missing (m_norm M v k l).
Hypothesis P_dtw : forall v k l, P v -> missing (m_normDTW M v k l).
Variables a b : TS N.
Notation m := (ts_length a).
Notation n := (ts_length b).
Hypothesis Ha : ts_ok a.
Hypothesis Hb : ts_ok b.

Lemma path_gap p : (exists c, In c p /\ (missing (pt a (fst c)) \/ missing (pt b (snd c)))) -> P (path_acc M a b p).
Proof.
  induction p as [|c p IH] using rev_ind; intros (c0 & Hin & Hc); [destruct Hin|]. rewrite path_acc_snoc.
  apply in_app_iff in Hin as [Hin|[<-|[]]]; [apply P_prev, IH; exists c0; auto|]. destruct Hc as [Hc|Hc]; [apply P_x|apply P_y]; exact Hc.
Qed.

(** ** warped *)
Definition bad (i j : Z) : Prop := (exists k, 0 <= k <= i /\ missing (pt a k)) \/ (exists k, 0 <= k <= j /\ missing (pt b k)).

Definition St (c : cells M) : Prop := shape m n (fst c) /\ shape m n (snd c) /\ forall i j v, mget (fst c) i j = Ret v -> v <> None.
Definition spoilt (c : cells M) (i j : Z) : Prop :=
  bad i j -> (exists v, mget (fst c) i j = Ret (Some v) /\ P v) /\ (exists x, mget (snd c) i j = Ret x /\ missing x).
Definition Inv (S : Z -> Z -> Prop) (c : cells M) : Prop := St c /\ forall i j, S i j -> spoilt c i j.

Lemma Inv_sub (S S' : Z -> Z -> Prop) c : (forall i j, S' i j -> S i j) -> Inv S c -> Inv S' c.
Proof. intros H [H1 H2]. split; [exact H1|]. intros i j Hs. apply H2, H, Hs. Qed.

Lemma put_inv S c i j prev : Inv S c -> 0 <= i < m -> 0 <= j < n ->
  (bad i j -> P prev \/ missing (pt a i) \/ missing (pt b j)) ->
  exists c', put_cell M a b i j prev c = Ret c' /\ Inv (fun i' j' => S i' j' \/ (i' = i /\ j' = j)) c'.
Proof.
  intros [(S1 & S2 & S3) H2] Hi Hj Hp. unfold put_cell. rewrite (ts_get_pt a i Ha Hi), (ts_get_pt b j Hb Hj). cbn [bind]. cbv zeta.
  destruct (mset_ok m n (fst c) i j (Some (m_reduce M prev (pt a i) (pt b j))) S1 Hi Hj) as (M1 & E1 & Sh1 & G1 & O1). rewrite E1. cbn [bind].
  destruct (mset_ok m n (snd c) i j (m_normDTW M (m_reduce M prev (pt a i) (pt b j)) m n) S2 Hi Hj) as (M2 & E2 & Sh2 & G2 & O2). rewrite E2. cbn [bind].
  exists (M1, M2). split; [reflexivity|]. split; [split; [exact Sh1|split; [exact Sh2|]]|].
  - cbn [fst]. intros i' j' v E. destruct (Z.eq_dec i' i) as [->|Hn]; [destruct (Z.eq_dec j' j) as [->|Hn]|].
    + rewrite G1 in E. injection E as <-. discriminate.
    + rewrite O1 in E by congruence. exact (S3 _ _ _ E).
    + rewrite O1 in E by congruence. exact (S3 _ _ _ E).
  - intros i' j' Hs Hbad. cbn [fst snd].
    assert (Hc : (i' = i /\ j' = j) \/ ((i', j') <> (i, j) /\ S i' j')).
    { destruct (Z.eq_dec i' i) as [->|Hn]; [destruct (Z.eq_dec j' j) as [->|Hn]|]; [left; auto|right; split; [congruence|]..];
        destruct Hs as [Hs|[E1' E2']]; auto; contradiction. }
    destruct Hc as [[-> ->]|[Hn Hs']].
    + assert (HP : P (m_reduce M prev (pt a i) (pt b j))) by (destruct (Hp Hbad) as [H|[H|H]]; auto).
      split; eexists; (split; [eassumption|]); [exact HP|apply P_dtw, HP].
    + rewrite O1, O2 by exact Hn. exact (H2 i' j' Hs' Hbad).
Qed.

Lemma bad_cases i j : bad i j -> missing (pt a i) \/ missing (pt b j) \/
  (1 <= i /\ exists k, 0 <= k <= i - 1 /\ missing (pt a k)) \/ (1 <= j /\ exists k, 0 <= k <= j - 1 /\ missing (pt b k)).
Proof.
  intros [(k & Hk & Hx)|(k & Hk & Hx)].
  - destruct (Z.eq_dec k i) as [->|Hn]; [auto|]. right. right. left. split; [lia|]. exists k. split; [lia|exact Hx].
  - destruct (Z.eq_dec k j) as [->|Hn]; [auto|]. right. right. right. split; [lia|]. exists k. split; [lia|exact Hx].
Qed.

Definition proc (i j i' j' : Z) : Prop := 0 <= i' < m /\ 0 <= j' < n /\ (j' = 0 \/ i' < i \/ (i' = i /\ j' < j)).

Variable r : Z.
Hypothesis Hm : 1 <= m.
Hypothesis Hn : 1 <= n.
Hypothesis Hr : Z.max m n - 1 <= r.

Lemma spoilt_P c i j v : spoilt c i j -> bad i j -> mget (fst c) i j = Ret (Some v) -> P v.
Proof. intros H Hbad E. destruct (H Hbad) as [(v' & E' & HP) _]. rewrite E' in E. injection E as <-. exact HP. Qed.
Lemma spoilt_x c i j x : spoilt c i j -> bad i j -> mget (snd c) i j = Ret x -> missing x.
Proof. intros H Hbad E. destruct (H Hbad) as [_ (x' & E' & HP)]. rewrite E' in E. injection E as <-. exact HP. Qed.

Lemma some_cell c i j : St c -> 0 <= i < m -> 0 <= j < n -> exists v, mget (fst c) i j = Ret (Some v).
Proof.
  intros (S1 & _ & S3) Hi Hj. destruct (mget_in m n (fst c) i j S1 Hi Hj) as [[v|] E]; [exists v; exact E|]. exfalso. exact (S3 _ _ _ E eq_refl).
Qed.

Lemma cell_inv i j c best : Inv (proc i j) c -> 1 <= i < m -> 0 <= j < n ->
  exists c' best', cell_step M a b r i j (c, best) = Ret (c', best') /\ Inv (proc i (j + 1)) c'.
Proof.
  intros HI Hi Hj. pose proof HI as [HS HV]. pose proof HS as (S1 & S2 & S3). unfold cell_step. destruct (Z.eqb_spec j 0) as [->|Hj0].
  - destruct (mget_in m n (snd c) i 0 S2 ltac:(lia) ltac:(lia)) as [v E]. rewrite E. cbn [bind]. exists c, (nmin best v). split; [reflexivity|].
    refine (Inv_sub _ _ c _ HI). unfold proc. intros i' j' H. lia.
  - assert (B1 : (i - r <=? j - 1) && (j - 1 <=? i + r) = true) by (apply andb_true_iff; split; apply Z.leb_le; lia).
    assert (B2 : (j - r <=? i - 1) && (i - 1 <=? j + r) = true) by (apply andb_true_iff; split; apply Z.leb_le; lia). rewrite B1, B2.
    destruct (mget_in m n (snd c) i (j - 1) S2 ltac:(lia) ltac:(lia)) as [x1 E1]. destruct (mget_in m n (snd c) (i - 1) (j - 1) S2 ltac:(lia) ltac:(lia)) as [x2 E2].
    destruct (mget_in m n (snd c) (i - 1) j S2 ltac:(lia) ltac:(lia)) as [x3 E3]. rewrite E1. cbn [bind]. rewrite E2. cbn [bind]. rewrite E3. cbn [bind].
    destruct (some_cell c (i - 1) j HS ltac:(lia) ltac:(lia)) as [pu Eu]. destruct (some_cell c i (j - 1) HS ltac:(lia) ltac:(lia)) as [pl El].
    destruct (some_cell c (i - 1) (j - 1) HS ltac:(lia) ltac:(lia)) as [pd Edg]. rewrite Eu. cbn [bind].
    assert (Q : exists p, (if nltb x2 x1 && nltb x2 x3 then mget (fst c) (i - 1) (j - 1) else if nltb x1 x3 then mget (fst c) i (j - 1) else Ret (Some pu)) = Ret (Some p) /\
      (bad i j -> P p \/ missing (pt a i) \/ missing (pt b j))).
    { assert (Hup : bad i j -> (missing (pt a i) \/ missing (pt b j)) \/ (nltb x2 x1 && nltb x2 x3 = false /\ nltb x1 x3 = false /\ P pu)).
      { intros Hbad. destruct (bad_cases i j Hbad) as [H|[H|[(_ & k & Hk & Hx)|(_ & k & Hk & Hx)]]]; [left; auto|left; auto|right..].
        - assert (X2 : missing x2) by (apply (spoilt_x c (i - 1) (j - 1) x2); [apply HV; unfold proc; lia|left; exists k; split; [lia|exact Hx]|exact E2]).
          assert (X3 : missing x3) by (apply (spoilt_x c (i - 1) j x3); [apply HV; unfold proc; lia|left; exists k; split; [lia|exact Hx]|exact E3]).
          rewrite (gap_ltb_l x2 x1 X2), (gap_ltb_r x1 x3 X3). split; [reflexivity|]. split; [reflexivity|].
          apply (spoilt_P c (i - 1) j pu); [apply HV; unfold proc; lia|left; exists k; split; [lia|exact Hx]|exact Eu].
        - assert (X2 : missing x2) by (apply (spoilt_x c (i - 1) (j - 1) x2); [apply HV; unfold proc; lia|right; exists k; split; [lia|exact Hx]|exact E2]).
          assert (X1 : missing x1) by (apply (spoilt_x c i (j - 1) x1); [apply HV; unfold proc; lia|right; exists k; split; [lia|exact Hx]|exact E1]).
          rewrite (gap_ltb_l x2 x1 X2), (gap_ltb_l x1 x3 X1). split; [reflexivity|]. split; [reflexivity|].
          apply (spoilt_P c (i - 1) j pu); [apply HV; unfold proc; lia|right; exists k; split; [lia|exact Hx]|exact Eu]. }
      destruct (nltb x2 x1 && nltb x2 x3); [|destruct (nltb x1 x3)].
      - exists pd. split; [exact Edg|]. intros Hbad. destruct (Hup Hbad) as [H|(H & _)]; [tauto|discriminate].
      - exists pl. split; [exact El|]. intros Hbad. destruct (Hup Hbad) as [H|(_ & H & _)]; [tauto|discriminate].
      - exists pu. split; [reflexivity|]. intros Hbad. destruct (Hup Hbad) as [H|(_ & _ & H)]; tauto. }
    destruct Q as (p & Ep & HP). rewrite Ep. cbn [bind deref].
    destruct (put_inv (proc i j) c i j p HI ltac:(lia) Hj HP) as (c' & Ec & HI'). rewrite Ec. cbn [bind].
    destruct (mget_in m n (snd c') i j (proj1 (proj2 (proj1 HI'))) ltac:(lia) Hj) as [v E]. rewrite E. cbn [bind].
    exists c', (nmin best v). split; [reflexivity|]. refine (Inv_sub _ _ c' _ HI'). unfold proc. intros i' j' H. lia.
Qed.

Lemma row_inv cut i c : Inv (proc i 0) c -> 1 <= i < m -> exists c' best, row_loop M a b r cut i c = Ret (c', nltb cut best) /\ Inv (proc (i + 1) 0) c'.
Proof.
  intros HI Hi. unfold row_loop. replace (Z.max (i - r) 0) with 0 by lia. replace (Z.min (i + r) (n - 1) + 1) with n by lia.
  destruct (for_inv (fun j s => Inv (proc i j) (fst s)) (cell_step M a b r i) 0 n (c, ninf)) as ([c' best] & E & HI').
  - lia.
  - exact HI.
  - intros j [c1 best1] Hj H1. destruct (cell_inv i j c1 best1 H1 Hi Hj) as (c' & best' & E & H'). exists (c', best'). split; [exact E|exact H'].
  - rewrite E. cbn [bind]. exists c', best. split; [reflexivity|]. refine (Inv_sub _ _ c' _ HI'). unfold proc. intros i' j' H. lia.
Qed.

Lemma fill_inv cut : exists c x, warped_fill M a b r cut = Ret (c, x) /\
  ((x = ninf /\ exists best, nltb cut best = true) \/ (Inv (fun i j => 0 <= i < m /\ 0 <= j < n) c /\ mget (snd c) (m - 1) (n - 1) = Ret x)).
Proof.
  unfold warped_fill. assert (Hg : (m <? 0) || (n <? 0) = false) by (apply orb_false_iff; split; apply Z.ltb_ge; lia). rewrite Hg. cbv zeta.
  destruct (mset_ok m n (mat m n n0) (m - 1) (n - 1) (ninf : D N) (shape_mat m n n0 ltac:(lia) ltac:(lia)) ltac:(lia) ltac:(lia)) as (nc & E0 & Sh0 & _ & _).
  rewrite E0. cbn [bind].
  assert (I0 : Inv (fun _ _ => False) (mat m n (m_dflt M), nc)).
  { split; [|intros i j []]. split; [apply shape_mat; lia|]. split; [exact Sh0|]. intros i j v E. apply mat_get in E. rewrite E, Hz. discriminate. }
  destruct (put_inv _ _ 0 0 (m_init M) I0 ltac:(lia) ltac:(lia)) as (c1 & E1 & I1).
  { intros Hbad. destruct (bad_cases 0 0 Hbad) as [H|[H|[(H & _)|(H & _)]]]; [auto|auto|lia|lia]. }
  rewrite E1. cbn [bind]. replace (Z.min (2 * r + 1) m) with m by lia. replace (Z.min (2 * r + 1) n) with n by lia.
  destruct (for_inv (fun i c => Inv (fun i' j' => j' = 0 /\ 0 <= i' < i) c) (col_step M a b) 1 m c1) as (c2 & E2 & I2); [lia| | |].
  { refine (Inv_sub _ _ c1 _ I1). cbv beta. intros i j H. lia. }
  { intros i c Hi HI. unfold col_step. destruct (some_cell c (i - 1) 0 (proj1 HI) ltac:(lia) ltac:(lia)) as [p Ep]. rewrite Ep. cbn [bind deref].
    destruct (put_inv _ c i 0 p HI ltac:(lia) ltac:(lia)) as (c' & Ec & I').
    - intros Hbad. destruct (bad_cases i 0 Hbad) as [H|[H|[(_ & k & Hk & Hx)|(H & _)]]]; [auto|auto| |lia].
      left. apply (spoilt_P c (i - 1) 0 p); [apply (proj2 HI); lia|left; exists k; split; [lia|exact Hx]|exact Ep].
    - exists c'. split; [exact Ec|]. refine (Inv_sub _ _ c' _ I'). cbv beta. intros i' j' H. lia. }
  rewrite E2. cbn [bind].
  destruct (for_inv (fun j c => Inv (fun i' j' => (j' = 0 /\ 0 <= i' < m) \/ (i' = 0 /\ 0 <= j' < j)) c) (row_step M a b) 1 n c2) as (c3 & E3 & I3); [lia| | |].
  { refine (Inv_sub _ _ c2 _ I2). cbv beta. intros i j H. lia. }
  { intros j c Hj HI. unfold row_step. destruct (some_cell c 0 (j - 1) (proj1 HI) ltac:(lia) ltac:(lia)) as [p Ep]. rewrite Ep. cbn [bind deref].
    destruct (put_inv _ c 0 j p HI ltac:(lia) ltac:(lia)) as (c' & Ec & I').
    - intros Hbad. destruct (bad_cases 0 j Hbad) as [H|[H|[(H & _)|(_ & k & Hk & Hx)]]]; [auto|auto|lia|].
      left. apply (spoilt_P c 0 (j - 1) p); [apply (proj2 HI); lia|right; exists k; split; [lia|exact Hx]|exact Ep].
    - exists c'. split; [exact Ec|]. refine (Inv_sub _ _ c' _ I'). cbv beta. intros i' j' H. lia. }
  rewrite E3. cbn [bind].
  destruct (forb_inv (fun i c => Inv (proc i 0) c) (fun _ _ => exists best, nltb cut best = true) (row_loop M a b r cut) 1 m c3) as (c4 & dropped & E4 & I4); [lia| | |].
  { refine (Inv_sub _ _ c3 _ I3). unfold proc. intros i j H. lia. }
  { intros i c Hi HI. destruct (row_inv cut i c HI Hi) as (c' & best & E & I'). exists c', (nltb cut best). split; [exact E|].
    destruct (nltb cut best) eqn:Eb; [exists best; exact Eb|exact I']. }
  rewrite E4. cbn [bind]. destruct dropped.
  - cbn [bind]. exists c4, ninf. split; [reflexivity|]. left. split; [reflexivity|]. destruct I4 as (_ & _ & H). exact H.
  - destruct (mget_in m n (snd c4) (m - 1) (n - 1) (proj1 (proj2 (proj1 I4))) ltac:(lia) ltac:(lia)) as [x E]. rewrite E. cbn [bind].
    exists c4, x. split; [reflexivity|]. right. split; [|exact E]. refine (Inv_sub _ _ c4 _ I4). unfold proc. intros i j H. lia.
Qed.

Hypothesis H11 : ~ (m = 1 /\ n = 1).

Lemma warped_gap ratio cut mt v mt' : band ratio (Z.max m n) = Ret r -> bad (m - 1) (n - 1) ->
  warpedDistance M a b ratio cut mt = Ret (v, mt') -> v = ninf \/ missing v.
Proof.
  intros Eb Hbad E. unfold warpedDistance in E. rewrite Eb in E. cbn [bind] in E.
  assert (Hg : (m =? 1) && (n =? 1) = false) by (apply andb_false_iff; rewrite !Z.eqb_neq; lia). rewrite Hg in E.
  destruct (fill_inv cut) as (c & x & Ef & H). rewrite Ef in E. cbn [bind] in E. apply bind_Ret in E as (mt1 & _ & E). injection E as <- _.
  destruct H as [[H _]|[HI Ex]]; [left; exact H|right]. apply (spoilt_x c (m - 1) (n - 1) x); [apply (proj2 HI); lia|exact Hbad|exact Ex].
Qed.

Lemma warped_stuck ratio cut mt : band ratio (Z.max m n) = Ret r -> 2 <= m -> 2 <= n -> (forall x, nltb cut x = false) -> bad (m - 2) (n - 2) ->
  warpedDistance M a b ratio cut mt = Hang.
Proof.
  intros Eb Hm2 Hn2 Hcut Hbad. unfold warpedDistance. rewrite Eb. cbn [bind].
  assert (Hg : (m =? 1) && (n =? 1) = false) by (apply andb_false_iff; rewrite !Z.eqb_neq; lia). rewrite Hg.
  destruct (fill_inv cut) as (c & x & Ef & H). rewrite Ef. cbn [bind]. destruct H as [[_ (best & H)]|[HI Ex]]; [rewrite Hcut in H; discriminate|].
  pose proof (proj1 (proj2 (proj1 HI))) as Sh. destruct (Z.to_nat (m + n)) as [|fuel] eqn:Ef'; [lia|]. cbn [backtrack].
  assert (G1 : (m - 1 =? 0) && (n - 1 =? 0) = false) by (apply andb_false_iff; rewrite !Z.eqb_neq; lia). rewrite G1.
  assert (G2 : (m - 1 =? 0) = false) by (apply Z.eqb_neq; lia). assert (G3 : (n - 1 =? 0) = false) by (apply Z.eqb_neq; lia). rewrite G2, G3.
  destruct (mget_in m n (snd c) (m - 1 - 1) (n - 1 - 1) Sh ltac:(lia) ltac:(lia)) as [d Ed].
  destruct (mget_in m n (snd c) (m - 1 - 1) (n - 1) Sh ltac:(lia) ltac:(lia)) as [u Eu].
  destruct (mget_in m n (snd c) (m - 1) (n - 1 - 1) Sh ltac:(lia) ltac:(lia)) as [l El].
  assert (Hd : missing d).
  { apply (spoilt_x c (m - 1 - 1) (n - 1 - 1) d); [apply (proj2 HI); lia| |exact Ed]. replace (m - 1 - 1) with (m - 2) by lia. replace (n - 1 - 1) with (n - 2) by lia. exact Hbad. }
  rewrite Ed. cbn [bind]. rewrite Eu. cbn [bind]. rewrite El. cbn [bind]. cbv zeta.
  assert (Em : nmin d (nmin u l) = d) by (unfold nmin at 1; rewrite (gap_ltb_r _ d Hd); reflexivity). rewrite Em, !(gap_eqb_r _ d Hd). reflexivity.
Qed.
End Fill.

(** ** normalising *)
From Verif Require Import NumFacts TSSet DataSpec DataProofs.
Section Normalise.
Context {N : Num} {G : GapLaws N} {L : NumLaws N}.
Notation D := (D N).

Lemma mm_known (vs : list D) : forall s, fold_left mm_step vs s = fold_left mm_step (filter known vs) s.
Proof.
  induction vs as [|v vs IH]; intros s; [reflexivity|]. cbn [fold_left filter]. destruct (known v) eqn:E; [apply IH|].
  rewrite <- IH. f_equal. unfold mm_step. rewrite (gap_ltb_l v _ E), (gap_ltb_r _ v E). destruct s; reflexivity.
Qed.

Lemma gap_normalize (d : dataset N) rows : holds d rows -> filter known (concat rows) <> [] -> Forall nfin (filter known (concat rows)) ->
  exists d' mn mx, normalize d = Ret (d', (mn, mx)) /\ In mn (filter known (concat rows)) /\ In mx (filter known (concat rows)) /\
    Forall (fun v => nle mn v /\ nle v mx) (filter known (concat rows)) /\ holds d' (map (map (norm_val mn mx)) rows).
Proof.
  intros H Hne Hf. pose proof H as (buf & Ed & Ec & Hm & Hb & Hr).
  destruct (mm_extremes _ Hne Hf) as (mn & mx & Emm & Imn & Imx & Hall). rewrite <- mm_known in Emm.
  assert (HF2 : Forall2 (fun pos v => aget buf pos = Ret v) (cells (ds_maxcol d) 0 rows) (concat rows)).
  { apply cells_values. intros k row Ek j v Ej. rewrite Z.add_0_l. apply (Hr k row Ek). auto. }
  assert (Hrows : Forall (fun r => Z.of_nat (length r) <= ds_maxcol d) rows).
  { apply Forall_forall. intros r Hin. apply In_nth_error in Hin as [k Ek]. apply (Hr k r Ek). }
  assert (Hnd := cells_NoDup (ds_maxcol d) rows Hm Hrows 0).
  assert (Hin : forall p, In p (cells (ds_maxcol d) 0 rows) -> 0 <= p < Z.of_nat (length buf)).
  { intros p Hp. apply cells_In in Hp as (k & r & Ek & Hp). destruct (Hr _ _ Ek) as (_ & Hl & _).
    apply nth_error_Some_lt in Ek. nia. }
  assert (W : exists buf',
    (if neqb (nsub mx mn) n0 then
       if negb (neqb mx n0) then each_value d (fun pos b => aset b pos n0) buf else Ret buf
     else each_value d (fun pos b => v <- aget b pos ;; aset b pos (ndiv (nsub v mn) (nsub mx mn))) buf) = Ret buf' /\
    length buf' = length buf /\
    (forall p, ~ In p (cells (ds_maxcol d) 0 rows) -> aget buf' p = aget buf p) /\
    (forall p v, In p (cells (ds_maxcol d) 0 rows) -> aget buf p = Ret v -> aget buf' p = Ret (norm_val mn mx v))).
  { unfold norm_val. destruct (neqb (nsub mx mn) n0).
    - destruct (negb (neqb mx n0)).
      + rewrite (each_value_ok d rows) by auto. apply (write_fold (fun _ => n0)); auto.
      + exists buf. splits; auto.
    - rewrite (each_value_ok d rows) by auto. apply (write_fold (fun v => ndiv (nsub v mn) (nsub mx mn))); auto.
      intros p b v _ _ Ev. rewrite Ev. reflexivity. }
  destruct W as (buf' & W & El & W1 & W2).
  exists (mkDS (Some buf') (ds_names d) (ds_lengths d) (ds_count d) (ds_maxcol d) (ds_path d) true), mn, mx. splits; auto.
  - unfold normalize. destruct (Z.eqb_spec (ds_count d) 0) as [E0|_].
    { exfalso. apply Hne. destruct rows; [reflexivity|simpl in Ec; lia]. }
    rewrite Ed. simpl. rewrite (each_value_ok d rows) by auto.
    rewrite (minmax_fold buf _ _ _ HF2), Emm. simpl. rewrite W. reflexivity.
  - apply (holds_map d rows buf); auto.
Qed.
End Normalise.
