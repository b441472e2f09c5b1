(** Property C65: the threshold and the number of groups.
    Specification: as for C16 to C18 (DataSpec.v, GroupSpec.v, GroupView.v, DistSpec.v), ApiSpec.v. *)
From Coq Require Import DecimalString String Reals Lra Permutation Sorted.
From Flocq Require Import IEEE754.BinarySingleNaN Core.Raux.
From Verif Require Import Base Num NumB64 NumB64Laws NumLaws NumFacts NumXR NumXRLaws LoopFacts TimeSeries Lemire Distance
  DistSpec DistLink Pairwise TSSet StdAlg Candidate Group GroupSpace
  DataSpec DataProofs GroupSpec GroupView Members GroupProofs GroupAll GroupDist PropsDistance PropsData PropsGroup
  Loader HeapFacts Api ApiSpec ApiProofs PropsLoader PropsApi PropsNorm.
Local Open Scope Z_scope.
Local Open Scope list_scope.

(** ** counting groups by choosing a member of each *)
Lemma choose_all {A B} (P : A -> B -> Prop) (l : list A) : (forall x, In x l -> exists y, P x y) -> exists l', Forall2 P l l'.
Proof.
  induction l as [|x l IH]; intros H; [exists []; constructor|].
  destruct (H x (or_introl eq_refl)) as [y Hy]. destruct IH as [l' Hl]; [intros z Hz; apply H; right; exact Hz|]. exists (y :: l'). constructor; auto.
Qed.

Lemma injects {A} (P : A -> nat -> Prop) (l : list A) (n : nat) :
  (forall x, In x l -> exists i, (i < n)%nat /\ P x i) ->
  (forall i j x y m, (i < j)%nat -> nth_error l i = Some x -> nth_error l j = Some y -> P x m -> P y m -> False) ->
  (length l <= n)%nat.
Proof.
  intros H1 H2. destruct (choose_all (fun x i => (i < n)%nat /\ P x i) l H1) as [l' Hl].
  assert (E : length l = length l') by (clear - Hl; induction Hl; cbn; auto).
  assert (ND : NoDup l').
  { apply NoDup_nth_error. intros i j Hi Eij. destruct (nth_error l' i) as [m|] eqn:Em; [|apply nth_error_None in Em; lia]. symmetry in Eij.
    destruct (Forall2_nth_ex_r _ _ _ _ _ Hl Em) as (x & Ex & _ & Px). destruct (Forall2_nth_ex_r _ _ _ _ _ Hl Eij) as (y & Ey & _ & Py).
    destruct (Nat.lt_trichotomy i j) as [L|[L|L]]; auto; exfalso; [exact (H2 i j x y m L Ex Ey Px Py)|exact (H2 j i y x m L Ey Ex Py Px)]. }
  assert (I : incl l' (seq 0 n)).
  { intros m Hm. apply In_nth_error in Hm as [i Ei]. destruct (Forall2_nth_ex_r _ _ _ _ _ Hl Ei) as (x & _ & Hlt & _). apply in_seq. lia. }
  pose proof (NoDup_incl_length ND I) as L. rewrite seq_length in L. lia.
Qed.

(** everything known about one grouping of real numbers *)
Lemma grouping_real (k : kind) (d : dataset XR) (rows : list (list R)) old clock (ratio : D XR) (t : R) threads whole :
  holds d (map (map Fin) rows) -> (0 <= t)%R -> 1 <= ds_maxcol d <= 2 ^ 30 -> 1 <= threads -> log_safe d clock ->
  exists g total,
    groupAllLengths clock ratio (mkGS d old) (kind_name k) (Fin t : D XR) threads whole = (g, Ret total) /\
    gt_data g = d /\
    total = fold_right Z.add 0 (map (groups_at g) (zseq 0 (Z.to_nat (ds_maxcol d + 1)))) /\
    (forall l, ~ grouped_length d whole l -> level_view g l = None) /\
    forall l, grouped_length d whole l -> exists vs, level_view g l = Some (Ret vs) /\ partitions (N := XR) (map (map Fin) rows) l vs /\
      (forall v c c', In v vs -> In c (v_members v) -> In c' (v_members v) ->
        (real_pair k (real_sub rows l (v_rep v)) (real_sub rows l c) <= t / 2)%R /\
        (real_pair k (real_sub rows l c) (real_sub rows l c') <= t)%R) /\
      (forall i j v v', (i < j)%nat -> nth_error vs i = Some v -> nth_error vs j = Some v' ->
         (t / 2 < real_pair k (real_sub rows l (v_rep v)) (real_sub rows l (v_rep v')))%R).
Proof.
  intros Hd Ht Hm Hth Hlog.
  assert (Hhalf : @nltb XR (ndiv (Fin t : D XR) (nofZ 2)) ninf = true).
  { simpl. unfold xdiv. destruct (Req_bool_spec 2 0); [lra|]. reflexivity. }
  destruct (C16_grouping_partitions XR _ d (map (map Fin) rows) old clock ratio (kind_name k) (Fin t : D XR) threads whole Hd (kind_groupable k) Hhalf
    (proj1 Hm) Hth Hlog) as (g & total & E & E1 & _ & E2 & _ & E3).
  destruct (C17_group_diameter k d rows old clock ratio t threads whole Hd Ht (proj1 Hm) Hth Hlog) as (g' & total' & E' & F).
  rewrite E in E'. injection E' as <- <-.
  destruct (C18_leader_clustering_exact k d rows old clock ratio t threads whole Hd Hm Hth Hlog) as (g' & total' & E' & G).
  rewrite E in E'. injection E' as <- <-.
  exists g, total. splits; auto. intros l Hl. destruct (F l Hl) as (vs & F1 & F2 & F3). exists vs. splits; auto.
  destruct (G l Hl) as (_ & gs & cs & G1 & _ & _ & G2). rewrite F1 in G1. injection G1 as ->.
  intros i j v v' Hij Ei Ej. rewrite nth_error_map in Ei, Ej. destruct (nth_error gs i) eqn:Ei'; [|discriminate]. destruct (nth_error gs j) eqn:Ej'; [|discriminate].
  injection Ei as <-. injection Ej as <-. cbn [v_rep view_of]. eapply G2; eauto.
Qed.

Lemma groups_at_view {N : Num} (g : gset N) l vs : level_view g l = Some (Ret vs) -> groups_at g l = Z.of_nat (length vs).
Proof. unfold groups_at. intros ->. reflexivity. Qed.
Lemma groups_at_none {N : Num} (g : gset N) l : level_view g l = None -> groups_at g l = 0.
Proof. unfold groups_at. intros ->. reflexivity. Qed.

Lemma sum_le (f g : Z -> Z) l : (forall x, f x <= g x) -> fold_right Z.add 0 (map f l) <= fold_right Z.add 0 (map g l).
Proof. intros H. induction l as [|x l IH]; cbn; [lia|]. specialize (H x). lia. Qed.

Lemma grouped_dec {N : Num} (d : dataset N) whole l : {grouped_length d whole l} + {~ grouped_length d whole l}.
Proof.
  unfold grouped_length. destruct whole; [apply Z.eq_dec|].
  destruct (Z_le_dec 2 l), (Z_le_dec l (ds_maxcol d)); [left|right|right|right]; lia.
Qed.

Lemma rep_member {N : Num} rows l vs v : partitions (N := N) rows l vs -> In v vs -> In (v_rep v) (v_members v) /\ is_sub rows l (v_rep v).
Proof.
  intros (_ & P2 & P3) Hv. destruct (P3 v Hv) as (M1 & _ & M3).
  assert (H : In (v_rep v) (v_members v)).
  { rewrite M3. destruct (v_members v) as [|c m] eqn:Em; [contradiction|]. rewrite <- Em in *. destruct (exists_last M1) as (m' & x & ->).
    rewrite last_last. apply in_or_app. right. left. reflexivity. }
  split; [exact H|]. apply P2. apply in_concat. exists (v_members v). split; [apply in_map, Hv|exact H].
Qed.

(** The same data set grouped twice, the second time with a threshold at least twice as
    large, in exact arithmetic: of no length there are more groups. *)
Theorem C65_doubled_threshold : forall (k : kind) (d : dataset XR) (rows : list (list R))
    old1 old2 clock1 clock2 (ratio1 ratio2 : D XR) (t1 t2 : R) threads1 threads2 whole,
  holds d (map (map Fin) rows) -> (0 <= t1)%R -> (2 * t1 <= t2)%R ->
  1 <= ds_maxcol d <= 2 ^ 30 -> 1 <= threads1 -> 1 <= threads2 -> log_safe d clock1 -> log_safe d clock2 ->
  exists g1 n1 g2 n2,
    groupAllLengths clock1 ratio1 (mkGS d old1) (kind_name k) (Fin t1 : D XR) threads1 whole = (g1, Ret n1) /\
    groupAllLengths clock2 ratio2 (mkGS d old2) (kind_name k) (Fin t2 : D XR) threads2 whole = (g2, Ret n2) /\
    n2 <= n1 /\ forall l, groups_at g2 l <= groups_at g1 l.
Proof.
  intros k d rows old1 old2 clock1 clock2 ratio1 ratio2 t1 t2 th1 th2 whole Hd H1 H2 Hm Hth1 Hth2 L1 L2.
  destruct (grouping_real k d rows old1 clock1 ratio1 t1 th1 whole Hd H1 Hm Hth1 L1) as (g1 & n1 & E1 & _ & S1 & N1 & V1).
  destruct (grouping_real k d rows old2 clock2 ratio2 t2 th2 whole Hd ltac:(lra) Hm Hth2 L2) as (g2 & n2 & E2 & _ & S2 & N2 & V2).
  assert (Hle : forall l, groups_at g2 l <= groups_at g1 l).
  { intros l. destruct (grouped_dec d whole l) as [Hl|Hl]; [|rewrite (groups_at_none _ _ (N1 l Hl)), (groups_at_none _ _ (N2 l Hl)); lia].
    destruct (V1 l Hl) as (vs1 & A1 & A2 & A3 & _). destruct (V2 l Hl) as (vs2 & B1 & B2 & _ & B4).
    rewrite (groups_at_view _ _ _ A1), (groups_at_view _ _ _ B1). apply Nat2Z.inj_le.
    apply (injects (fun v i => exists v1, nth_error vs1 i = Some v1 /\ In (v_rep v) (v_members v1))).
    - intros v Hv. destruct (rep_member _ _ _ _ B2 Hv) as [_ Hs]. apply A2 in Hs. apply in_concat in Hs as (ms & Hms & Hc).
      apply in_map_iff in Hms as (v1 & <- & Hv1). apply In_nth_error in Hv1 as [i Ei]. exists i. split; [apply nth_error_Some; rewrite Ei; discriminate|].
      exists v1. auto.
    - intros i j v v' m Hij Ei Ej (w & Ew & Hw) (w' & Ew' & Hw'). rewrite Ew in Ew'. injection Ew' as <-.
      pose proof (B4 i j v v' Hij Ei Ej). destruct (A3 w (v_rep v) (v_rep v') (nth_error_In _ _ Ew) Hw Hw') as [_ X]. lra. }
  exists g1, n1, g2, n2. splits; auto. rewrite S1, S2. apply sum_le, Hle.
Qed.
Print Assumptions C65_doubled_threshold.

(** The extreme cases: a length all of whose subsequences are within half the threshold of
    each other has one group; if no two are, each subsequence is a group of its own. *)
Theorem C65_extreme_thresholds : forall (k : kind) (d : dataset XR) (rows : list (list R))
    old clock (ratio : D XR) (t : R) threads whole,
  holds d (map (map Fin) rows) -> (0 <= t)%R -> 1 <= ds_maxcol d <= 2 ^ 30 -> 1 <= threads -> log_safe d clock ->
  exists g total,
    groupAllLengths clock ratio (mkGS d old) (kind_name k) (Fin t : D XR) threads whole = (g, Ret total) /\
    forall l, grouped_length d whole l ->
    ((forall c c', is_sub (N := XR) (map (map Fin) rows) l c -> is_sub (N := XR) (map (map Fin) rows) l c' ->
        (real_pair k (real_sub rows l c) (real_sub rows l c') <= t / 2)%R) ->
      (exists c, is_sub (N := XR) (map (map Fin) rows) l c) -> groups_at g l = 1) /\
    ((forall c c', is_sub (N := XR) (map (map Fin) rows) l c -> is_sub (N := XR) (map (map Fin) rows) l c' -> c <> c' ->
        (t / 2 < real_pair k (real_sub rows l c) (real_sub rows l c'))%R) ->
      exists cs, NoDup cs /\ (forall c, In c cs <-> is_sub (N := XR) (map (map Fin) rows) l c) /\ groups_at g l = Z.of_nat (length cs)).
Proof.
  intros k d rows old clock ratio t th whole Hd Ht Hm Hth Hlog.
  destruct (grouping_real k d rows old clock ratio t th whole Hd Ht Hm Hth Hlog) as (g & n & E & _ & _ & _ & V).
  exists g, n. split; [exact E|]. intros l Hl. destruct (V l Hl) as (vs & A1 & A2 & A3 & A4). rewrite (groups_at_view _ _ _ A1). split.
  - intros H [c Hc]. destruct vs as [|v1 [|v2 vs]]; [|reflexivity|].
    + apply A2 in Hc. destruct Hc.
    + exfalso. pose proof (A4 0%nat 1%nat v1 v2 ltac:(lia) eq_refl eq_refl) as X.
      destruct (rep_member _ _ _ _ A2 (or_introl eq_refl)) as [_ S1]. destruct (rep_member _ _ _ v2 A2 (or_intror (or_introl eq_refl))) as [_ S2].
      specialize (H _ _ S1 S2). lra.
  - intros H. exists (concat (map v_members vs)). destruct A2 as (P1 & P2 & P3) eqn:Ep. clear Ep. split; [exact P1|]. split; [exact P2|].
    f_equal. clear A1 A4 P1.
    assert (G : forall v, In v vs -> length (v_members v) = 1%nat).
    { intros v Hv. destruct (rep_member _ _ _ _ A2 Hv) as [R1 R2].
      assert (One : forall c, In c (v_members v) -> c = v_rep v).
      { intros c Hc. assert (Sc : is_sub (N := XR) (map (map Fin) rows) l c) by (apply P2, in_concat; exists (v_members v); split; [apply in_map, Hv|exact Hc]).
        assert (Dc : {c = v_rep v} + {c <> v_rep v}) by (decide equality; apply Z.eq_dec). destruct Dc as [|Dc]; [assumption|]. exfalso.
        destruct (A3 v c c Hv Hc Hc) as [X _]. specialize (H (v_rep v) c R2 Sc (fun e => Dc (eq_sym e))). lra. }
      destruct A2 as (Q1 & _ & _). assert (Nv : NoDup (v_members v)).
      { apply in_split in Hv as (a & b & ->). rewrite map_app, concat_app in Q1. cbn in Q1. apply KBest.NoDup_app_inv in Q1 as (_ & Q1 & _). apply KBest.NoDup_app_inv in Q1 as (Q1 & _). exact Q1. }
      destruct (v_members v) as [|x [|y m]]; [destruct R1|reflexivity|].
      exfalso. inversion Nv as [|? ? Hn _]. apply Hn. left. rewrite (One x (or_introl eq_refl)), (One y (or_intror (or_introl eq_refl))). reflexivity. }
    clear - G. induction vs as [|v vs IH]; [reflexivity|]. cbn. rewrite app_length, (G v (or_introl eq_refl)). cbn. f_equal. apply IH. intros w Hw. apply G. right. exact Hw.
Qed.
Print Assumptions C65_extreme_thresholds.

(** ** a factor below 2 is not enough *)
Lemma sorted_unique {A} (R : A -> A -> Prop) : (forall x y, R x y -> R y x -> False) ->
  forall l l', StronglySorted R l -> StronglySorted R l' -> (forall x, In x l <-> In x l') -> l = l'.
Proof.
  intros As. assert (Irr : forall x, ~ R x x) by (intros x H; exact (As x x H H)).
  induction l as [|x l IH]; intros [|y l'] H H' E; auto.
  - exfalso. apply (proj2 (E y)). left. reflexivity.
  - exfalso. apply (proj1 (E x)). left. reflexivity.
  - inversion H as [|? ? H1 H2]. inversion H' as [|? ? H1' H2']. subst. rewrite Forall_forall in H2, H2'.
    assert (Exy : x = y).
    { destruct (proj1 (E x) (or_introl eq_refl)) as [|Hx]; [auto|]. destruct (proj2 (E y) (or_introl eq_refl)) as [|Hy]; [auto|]. exfalso. eapply As; eauto. }
    subst y. f_equal. apply IH; auto. intros z. split; intros Hz.
    + destruct (proj1 (E z) (or_intror Hz)) as [->|]; auto. exfalso. eapply Irr, H2, Hz.
    + destruct (proj2 (E z) (or_intror Hz)) as [->|]; auto. exfalso. eapply Irr, H2', Hz.
Qed.

Lemma before_asym c c' : before c c' -> before c' c -> False.
Proof. unfold before. lia. Qed.

Lemma runs_inv step cs c gs' : runs step (cs ++ [c]) gs' -> exists gs, runs step cs gs /\ step gs c gs'.
Proof.
  intros H. inversion H as [E|cs0 gs c0 gs0 H1 H2 E]; [destruct cs; discriminate E|]. apply app_inj_tail in E as [-> ->]. subst. eauto.
Qed.

Definition apart_rows (c : R) : list (list R) := [[0; 0]; [c; 0]; [c + 1; 1]; [c + 1; -1]]%R.
Definition apart_data (c : R) : dataset XR :=
  mkDS (N := XR) (Some (map Fin (concat (apart_rows c)))) [] [2; 2; 2; 2] 4 2 "f"%string false.

Lemma apart_holds c : holds (apart_data c) (map (map Fin) (apart_rows c)).
Proof.
  exists (map Fin (concat (apart_rows c))). splits; try reflexivity; try (unfold int_max; simpl; lia).
  intros i row E. destruct i as [|[|[|[|i]]]]; [| | | |destruct i; discriminate]; injection E as <-; splits; try reflexivity;
    try (simpl; lia); intros j v Ej; repeat (destruct j as [|j]; [injection Ej as <-; reflexivity|]);
    destruct j; discriminate.
Qed.

Lemma apart_sub c x : is_sub (N := XR) (map (map Fin) (apart_rows c)) 2 x <-> In x [(0, 0); (1, 0); (2, 0); (3, 0)].
Proof.
  destruct x as [i p]. split.
  - intros (row & E & H1 & H2). cbn [fst snd] in *. apply row_of_Some in E as [Hi E].
    assert (Hn : (Z.to_nat i < 4)%nat) by (clear - E; destruct (Z.to_nat i) as [|[|[|[|m]]]]; [lia|lia|lia|lia|destruct m; discriminate E]).
    assert (L : length row = 2%nat).
    { destruct (Z.to_nat i) as [|[|[|[|m]]]]; [| | | |lia]; injection E as <-; reflexivity. }
    rewrite L in H2. assert (p = 0) by lia. subst p.
    assert (C : i = 0 \/ i = 1 \/ i = 2 \/ i = 3) by lia. cbn. destruct C as [->|[->|[->| ->]]]; auto.
  - intros H. unfold is_sub. cbn in H. destruct H as [<-|[<-|[<-|[<-|[]]]]]; eexists; (split; [reflexivity|]); cbn; lia.
Qed.

Lemma xr_half t : @ndiv XR (Fin t) (nofZ 2) = Fin (t / 2).
Proof. simpl. unfold xdiv. destruct (Req_bool_spec 2 0); [lra|]. reflexivity. Qed.
Lemma xr_nlt x y : @nlt XR (Fin x) (Fin y) <-> (x < y)%R.
Proof. unfold nlt. simpl. destruct (Rlt_bool_spec x y); split; auto; try discriminate; lra. Qed.

(** a step of the clustering in terms of real distances *)
Lemma step_real (dist : coord -> coord -> D XR) (dr : coord -> coord -> R) t gs c gs' :
  (forall g, In g gs -> dist (rep g) c = Fin (dr (rep g) c)) -> leader_step (N := XR) dist (Fin t : D XR) gs c gs' ->
  ((forall g, In g gs -> (t / 2 < dr (rep g) c)%R) /\ gs' = gs ++ [[c]]) \/
  exists k g, nth_error gs k = Some g /\ (dr (rep g) c <= t / 2)%R /\ gs' = add_to gs k c.
Proof.
  intros Hd [[F ->]|(k & (g & Eg & Hle & _) & ->)].
  - left. split; [|reflexivity]. intros g Hg. specialize (F g Hg). rewrite xr_half, (Hd g Hg) in F. apply xr_nlt, F.
  - right. exists k, g. split; [exact Eg|]. split; [|reflexivity]. rewrite xr_half, (Hd g (nth_error_In _ _ Eg)) in Hle. apply XR_nle in Hle. exact Hle.
Qed.

Lemma apart_count c t : (1 < c < 2)%R ->
  forall (dist : coord -> coord -> D XR) gs,
  (forall x y, In x [(0, 0); (1, 0); (2, 0); (3, 0)] -> In y [(0, 0); (1, 0); (2, 0); (3, 0)] ->
     dist x y = Fin (real_pair KChebyshev (real_sub (apart_rows c) 2 x) (real_sub (apart_rows c) 2 y))) ->
  runs (leader_step (N := XR) dist (Fin t : D XR)) [(0, 0); (1, 0); (2, 0); (3, 0)] gs ->
  (t = 2 -> length gs = 2%nat)%R /\ (t = 2 * c -> length gs = 3%nat)%R.
Proof.
  intros Hc dist gs Hdist H. set (dr := fun x y => real_pair KChebyshev (real_sub (apart_rows c) 2 x) (real_sub (apart_rows c) 2 y)) in *.
  assert (Hdist' : forall x y, In x [(0, 0); (1, 0); (2, 0); (3, 0)] -> In y [(0, 0); (1, 0); (2, 0); (3, 0)] -> dist x y = Fin (dr x y)) by exact Hdist.
  assert (P0 : real_sub (apart_rows c) 2 (0, 0) = [0; 0]%R) by reflexivity.
  assert (P1 : real_sub (apart_rows c) 2 (1, 0) = [c; 0]%R) by reflexivity.
  assert (P2 : real_sub (apart_rows c) 2 (2, 0) = [c + 1; 1]%R) by reflexivity.
  assert (P3 : real_sub (apart_rows c) 2 (3, 0) = [c + 1; -1]%R) by reflexivity.
  assert (D01 : dr (0, 0) (1, 0) = c) by (unfold dr; rewrite ?P0, ?P1, ?P2, ?P3; cbn; unfold Rmax, Rabs; repeat destruct Rcase_abs; repeat destruct Rle_dec; lra).
  assert (D02 : dr (0, 0) (2, 0) = (c + 1)%R) by (unfold dr; rewrite ?P0, ?P1, ?P2, ?P3; cbn; unfold Rmax, Rabs; repeat destruct Rcase_abs; repeat destruct Rle_dec; lra).
  assert (D03 : dr (0, 0) (3, 0) = (c + 1)%R) by (unfold dr; rewrite ?P0, ?P1, ?P2, ?P3; cbn; unfold Rmax, Rabs; repeat destruct Rcase_abs; repeat destruct Rle_dec; lra).
  assert (D12 : dr (1, 0) (2, 0) = 1%R) by (unfold dr; rewrite ?P0, ?P1, ?P2, ?P3; cbn; unfold Rmax, Rabs; repeat destruct Rcase_abs; repeat destruct Rle_dec; lra).
  assert (D13 : dr (1, 0) (3, 0) = 1%R) by (unfold dr; rewrite ?P0, ?P1, ?P2, ?P3; cbn; unfold Rmax, Rabs; repeat destruct Rcase_abs; repeat destruct Rle_dec; lra).
  assert (D23 : dr (2, 0) (3, 0) = 2%R) by (unfold dr; rewrite ?P0, ?P1, ?P2, ?P3; cbn; unfold Rmax, Rabs; repeat destruct Rcase_abs; repeat destruct Rle_dec; lra).
  clearbody dr. clear Hdist P0 P1 P2 P3.
  change [(0, 0); (1, 0); (2, 0); (3, 0)] with (([] ++ [(0, 0)] ++ [(1, 0)] ++ [(2, 0)]) ++ [(3, 0)]) in H. apply runs_inv in H as (g3 & H & S3).
  change ([] ++ [(0, 0)] ++ [(1, 0)] ++ [(2, 0)]) with (([] ++ [(0, 0)] ++ [(1, 0)]) ++ [(2, 0)]) in H. apply runs_inv in H as (g2 & H & S2).
  change ([] ++ [(0, 0)] ++ [(1, 0)]) with (([] ++ [(0, 0)]) ++ [(1, 0)]) in H. apply runs_inv in H as (g1 & H & S1).
  apply runs_inv in H as (g0 & H & S0). inversion H as [E|a b x y _ _ E]; [|destruct a; discriminate E]. subst g0. clear H.
  assert (E0 : g1 = [[(0, 0)]]).
  { apply (step_real _ dr) in S0; [|intros g []]. destruct S0 as [[_ ->]|(k & g & Eg & _)]; [reflexivity|]. destruct k; discriminate Eg. }
  subst g1. clear S0.
  assert (Hk : forall gs x, (forall g, In g gs -> In (rep g) [(0, 0); (1, 0); (2, 0); (3, 0)]) -> In x [(0, 0); (1, 0); (2, 0); (3, 0)] ->
    forall g, In g gs -> dist (rep g) x = Fin (dr (rep g) x)) by (intros; apply Hdist'; auto).
  split; intros ->.
  - assert (E1 : g2 = [[(0, 0)]; [(1, 0)]]).
    { apply (step_real _ dr) in S1; [|apply Hk; [intros g [<-|[]]|]; cbn; auto]. destruct S1 as [[_ ->]|(k & g & Eg & Hle & _)]; [reflexivity|].
      destruct k as [|[|k]]; try discriminate Eg. injection Eg as <-. cbn in Hle. lra. }
    subst g2. assert (E2 : g3 = [[(0, 0)]; [(2, 0); (1, 0)]]).
    { apply (step_real _ dr) in S2; [|apply Hk; [intros g [<-|[<-|[]]]|]; cbn; auto]. destruct S2 as [[F _]|(k & g & Eg & Hle & ->)].
      - specialize (F [(1, 0)] (or_intror (or_introl eq_refl))). cbn in F. lra.
      - destruct k as [|[|[|k]]]; try discriminate Eg; injection Eg as <-; cbn in Hle; [lra|reflexivity]. }
    subst g3. apply (step_real _ dr) in S3; [|apply Hk; [intros g [<-|[<-|[]]]|]; cbn; auto]. destruct S3 as [[F _]|(k & g & Eg & Hle & ->)].
    + specialize (F [(2, 0); (1, 0)] (or_intror (or_introl eq_refl))). cbn in F. lra.
    + unfold add_to. rewrite upd_length. reflexivity.
  - assert (E1 : g2 = [[(1, 0); (0, 0)]]).
    { apply (step_real _ dr) in S1; [|apply Hk; [intros g [<-|[]]|]; cbn; auto]. destruct S1 as [[F _]|(k & g & Eg & Hle & ->)].
      - specialize (F [(0, 0)] (or_introl eq_refl)). cbn in F. lra.
      - destruct k as [|[|k]]; try discriminate Eg. reflexivity. }
    subst g2. assert (E2 : g3 = [[(1, 0); (0, 0)]; [(2, 0)]]).
    { apply (step_real _ dr) in S2; [|apply Hk; [intros g [<-|[]]|]; cbn; auto]. destruct S2 as [[_ ->]|(k & g & Eg & Hle & _)]; [reflexivity|].
      destruct k as [|[|k]]; try discriminate Eg. injection Eg as <-. cbn in Hle. lra. }
    subst g3. apply (step_real _ dr) in S3; [|apply Hk; [intros g [<-|[<-|[]]]|]; cbn; auto]. destruct S3 as [[_ ->]|(k & g & Eg & Hle & _)]; [reflexivity|].
    destruct k as [|[|[|k]]]; try discriminate Eg; injection Eg as <-; cbn in Hle; lra.
Qed.

(** For every factor [c] between 1 and 2 there is a data set with two groups at some
    threshold and three at [c] times this threshold. *)
Theorem C65_larger_threshold_refuted : forall c, (1 < c < 2)%R -> exists (d : dataset XR) rows g1 g2,
  holds d (map (map Fin) rows) /\
  groupAllLengths (N := XR) (fun _ => false) (Fin 1) (mkGS d None) "chebyshev"%string (Fin 2) 1 true = (g1, Ret 2) /\
  groupAllLengths (N := XR) (fun _ => false) (Fin 1) (mkGS d None) "chebyshev"%string (Fin (2 * c)) 1 true = (g2, Ret 3).
Proof.
  intros c Hc. exists (apart_data c), (apart_rows c). pose proof (apart_holds c) as Hd.
  assert (Hl : log_safe (apart_data c) (fun _ => false)) by (intros l _; left; reflexivity).
  assert (Hone : forall t, (0 <= t)%R -> exists g n (gs : list (list coord)), groupAllLengths (N := XR) (fun _ => false) (Fin 1) (mkGS (apart_data c) None) "chebyshev"%string (Fin t) 1 true = (g, Ret n) /\
    n = Z.of_nat (length gs) /\ (t = 2 -> length gs = 2%nat)%R /\ (t = 2 * c -> length gs = 3%nat)%R).
  { intros t Ht. destruct (grouping_real KChebyshev (apart_data c) (apart_rows c) None (fun _ => false) (Fin 1) t 1 true Hd Ht ltac:(cbn; lia) ltac:(lia) Hl)
      as (g & n & E & _ & S & Nn & V).
    destruct (C18_leader_clustering_exact KChebyshev (apart_data c) (apart_rows c) None (fun _ => false) (Fin 1) t 1 true Hd ltac:(cbn; lia) ltac:(lia) Hl)
      as (g' & n' & E' & G). rewrite E in E'. injection E' as <- <-.
    destruct (G 2 eq_refl) as (Hdist & gs & cs & Ev & [Hs Hi] & Hr & _). exists g, n, gs. split; [exact E|]. split.
    - rewrite S. replace (zseq 0 (Z.to_nat (ds_maxcol (apart_data c) + 1))) with [0; 1; 2] by reflexivity. cbn [map fold_right].
      rewrite (groups_at_none g 0) by (apply Nn; cbn; lia). rewrite (groups_at_none g 1) by (apply Nn; cbn; lia).
      rewrite (groups_at_view _ _ _ Ev), map_length. lia.
    - assert (Ecs : cs = [(0, 0); (1, 0); (2, 0); (3, 0)]).
      { apply (sorted_unique before before_asym); auto.
        - repeat constructor; unfold before; cbn; lia.
        - intros x. rewrite Hi. apply apart_sub. }
      rewrite Ecs in Hr. refine (apart_count c t Hc _ gs _ Hr). intros x y Hx Hy. apply Hdist; apply apart_sub; assumption. }
  destruct (Hone 2%R ltac:(lra)) as (g1 & n1 & gs1 & E1 & -> & L1 & _). destruct (Hone (2 * c)%R ltac:(lra)) as (g2 & n2 & gs2 & E2 & -> & _ & L2).
  exists g1, g2. split; [exact Hd|]. rewrite (L1 eq_refl) in E1. rewrite (L2 eq_refl) in E2. split; assumption.
Qed.
Print Assumptions C65_larger_threshold_refuted.

(** ** through the interface *)

(** After any history, a data set of real numbers is grouped and then grouped again with a
    threshold at least twice as large: the second count is not larger. *)
Theorem C65_regrouping : forall r0 h (s : api XR) (k : kind) n g (rows : list (list R)) e1 e2 t1 t2 threads1 threads2 whole s1 a1 s2 a2,
  run r0 h s -> held s n = Some g -> holds (gt_data g) (map (map Fin) rows) -> 1 <= ds_maxcol (gt_data g) <= 2 ^ 30 ->
  (0 <= t1)%R -> (2 * t1 <= t2)%R -> 1 <= threads1 -> 1 <= threads2 -> log_safe (gt_data g) (e_clock e1) -> log_safe (gt_data g) (e_clock e2) ->
  exec e1 (CGroup n (Fin t1 : D XR) (kind_name k) threads1 whole) s = (s1, a1) ->
  exec e2 (CGroup n (Fin t2 : D XR) (kind_name k) threads2 whole) s1 = (s2, a2) ->
  exists n1 n2, a1 = Ret (AInt n1) /\ a2 = Ret (AInt n2) /\ n2 <= n1.
Proof.
  intros r0 h s k n [d old] rows e1 e2 t1 t2 th1 th2 whole s1 a1 s2 a2 Hrun Hh Hd Hm H1 H2 Hth1 Hth2 L1 L2 E1 E2. cbn [gt_data] in *.
  pose proof (run_good _ _ _ Hrun) as G. cbn [exec] in E1, E2.
  destruct (on_set_spec _ _ _ _ _ G E1) as [(X & _)|(g & g' & X & F1 & G1 & Y & _)]; [congruence|].
  rewrite Hh in X. injection X as <-.
  destruct (C65_doubled_threshold k d rows old (gt_groups g') (e_clock e1) (e_clock e2) (a_ratio s) (a_ratio s1) t1 t2 th1 th2 whole Hd H1 H2 Hm Hth1 Hth2 L1 L2)
    as (g1 & n1 & g2 & n2 & B1 & B2 & Hle & _).
  rewrite B1 in F1. injection F1 as <- <-.
  destruct (on_set_spec _ _ _ _ _ G1 E2) as [(X & _)|(g & g' & X & F2 & _)]; [congruence|].
  assert (Ed : g1 = mkGS d (gt_groups g1)).
  { destruct (grouping_real k d rows old (e_clock e1) (a_ratio s) t1 th1 whole Hd H1 Hm Hth1 L1) as (gx & nx & Bx & Dx & _).
    rewrite B1 in Bx. injection Bx as <- _. destruct g1 as [d1 o1]. cbn in *. rewrite Dx. reflexivity. }
  rewrite Y in X. injection X as <-. rewrite Ed in F2. rewrite B2 in F2. injection F2 as _ <-. exists n1, n2. splits; auto.
Qed.
Print Assumptions C65_regrouping.

(** ** examples *)

(** the hypotheses of the theorems are met: two series 0 0 and 1 3 that were read from a file *)
Definition real_env : env XR :=
  mkEnv (N := XR) (fun w => match NilZero.int_of_string w with Some i => Parsed (Fin (IZR (Z.of_int i))) | None => InvalidArgument end)
    (fun _ => ""%string) (fun _ => ""%string) (fun _ => None)
    (fun p => if String.eqb p "f" then Some (mkFile ("0,0" ++ nl1 ++ "1,3")%string None) else None) (fun _ => true) (fun _ => None) (fun _ => false) simple_alg.
Definition real_load : call XR := CLoad "x" "f" "," 0 0 false.
Definition real_state : api XR := fst (exec real_env real_load (api_new (N := XR) (Fin 1))).
Definition two_rows : list (list R) := [[0; 0]; [1; 3]]%R.

Example C65_regrouping_example :
  (exists h, run (N := XR) (Fin 1) h real_state) /\
  (exists g, held real_state "x" = Some g /\ holds (gt_data g) (map (map Fin) two_rows) /\ 1 <= ds_maxcol (gt_data g) <= 2 ^ 30 /\ log_safe (gt_data g) (e_clock real_env)) /\
  (0 <= 1)%R /\ (2 * 1 <= 6)%R.
Proof.
  split; [|split; [|split; lra]].
  - destruct (exec real_env real_load (api_new (Fin 1 : D XR))) as [s r] eqn:E. exists [(real_load, r)]. unfold real_state. rewrite E. cbn [fst].
    apply (run_call (N := XR) (Fin 1) [] (api_new (Fin 1 : D XR)) real_env real_load s r); [apply run_start|exact E|].
    apply (f_equal snd) in E. cbn [snd] in E. rewrite <- E. vm_compute. exact I.
  - eexists. split; [vm_compute; reflexivity|]. cbn [gt_data]. split; [|split; [cbn; lia|intros l _; left; reflexivity]].
    exists (map Fin (concat two_rows)). splits; try reflexivity; try (unfold int_max; simpl; lia).
    intros i row E. destruct i as [|[|i]]; [| |destruct i; discriminate]; injection E as <-; splits; try reflexivity;
    try (simpl; lia); intros j v Ej; repeat (destruct j as [|j]; [injection Ej as <-; reflexivity|]);
    destruct j; discriminate.
Qed.

(** the same through the interface in IEEE arithmetic: five series 0 0, 10 0, 10 9, 10 -9, 19 0 *)
Definition five_env : env B64 :=
  mkEnv (N := B64) stodZ putZ putZ (fun _ => None)
    (fun p => if String.eqb p "f" then Some (mkFile ("0,0" ++ nl1 ++ "10,0" ++ nl1 ++ "10,9" ++ nl1 ++ "10,-9" ++ nl1 ++ "19,0")%string None) else None)
    (fun _ => true) (fun _ => None) (fun _ => false) simple_alg.
Definition count_seen (r : res (answer B64)) : option Z := match r with Ret (AInt n) => Some n | _ => None end.
Definition five_groups (z : Z) : option Z :=
  count_seen (snd (exec five_env (CGroup (N := B64) "x" (b64_ofZ z) "euclidean" 1 true) (fst (exec five_env (CLoad "x" "f" "," 0 0 false) ex_start)))).
Example C65_interface_example :
  map five_groups [0; 13; 15; 26; 30; 100] = [Some 5; Some 2; Some 4; Some 2; Some 1; Some 1].
Proof. vm_compute. reflexivity. Qed.

(** one group, and a group for every series *)
Example C65_extremes_example :
  (forall c c', is_sub (N := XR) (map (map Fin) (apart_rows (3 / 2))) 2 c -> is_sub (N := XR) (map (map Fin) (apart_rows (3 / 2))) 2 c' ->
     (real_pair KChebyshev (real_sub (apart_rows (3 / 2)) 2 c) (real_sub (apart_rows (3 / 2)) 2 c') <= 6 / 2)%R) /\
  (forall c c', is_sub (N := XR) (map (map Fin) (apart_rows (3 / 2))) 2 c -> is_sub (N := XR) (map (map Fin) (apart_rows (3 / 2))) 2 c' -> c <> c' ->
     (1 / 2 < real_pair KChebyshev (real_sub (apart_rows (3 / 2)) 2 c) (real_sub (apart_rows (3 / 2)) 2 c'))%R).
Proof.
  set (q := (3 / 2)%R). assert (Hq : q = (3 / 2)%R) by reflexivity. clearbody q.
  assert (P0 : real_sub (apart_rows q) 2 (0, 0) = [0; 0]%R) by reflexivity.
  assert (P1 : real_sub (apart_rows q) 2 (1, 0) = [q; 0]%R) by reflexivity.
  assert (P2 : real_sub (apart_rows q) 2 (2, 0) = [q + 1; 1]%R) by reflexivity.
  assert (P3 : real_sub (apart_rows q) 2 (3, 0) = [q + 1; -1]%R) by reflexivity.
  split; intros c c' H H'; apply apart_sub in H; apply apart_sub in H'; cbn in H, H'.
  - destruct H as [<-|[<-|[<-|[<-|[]]]]]; destruct H' as [<-|[<-|[<-|[<-|[]]]]]; rewrite ?P0, ?P1, ?P2, ?P3; cbn; unfold Rmax, Rabs;
      repeat destruct Rcase_abs; repeat destruct Rle_dec; lra.
  - intros Hne. destruct H as [<-|[<-|[<-|[<-|[]]]]]; destruct H' as [<-|[<-|[<-|[<-|[]]]]]; try (exfalso; apply Hne; reflexivity);
      rewrite ?P0, ?P1, ?P2, ?P3; cbn; unfold Rmax, Rabs; repeat destruct Rcase_abs; repeat destruct Rle_dec; lra.
Qed.
