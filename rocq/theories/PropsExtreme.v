(** Property C65, continued: in doubles, subsequences that are all near each other form one group, and
    subsequences that are all far from each other are groups of their own.
    Specifications: DataSpec.v, GroupSpec.v, GroupView.v, DistSpec.v. *)
From Coq Require Import String Reals Lra Lia.
From Flocq Require Import IEEE754.BinarySingleNaN.
From Verif Require Import Base Num NumB64 NumB64Laws NumLaws NumFacts LoopFacts TimeSeries Distance DistSpec DistLink Pairwise TSSet Candidate
  Group GroupSpace DataSpec DataProofs GroupSpec GroupView GroupProofs GroupAll GroupDist PropsDistance PropsData PropsGroup PropsCount
  StdAlg HeapFacts Api ApiSpec ApiProofs PropsLoader PropsApi SearchSpec PropsSearch PropsError.
Local Open Scope Z_scope.
Local Open Scope list_scope.

(** ** from here on proofs *)
Lemma single_members {N : Num} rows l vs : partitions (N := N) rows l vs ->
  (forall v c, In v vs -> In c (v_members v) -> c = v_rep v) -> length (concat (map v_members vs)) = length vs.
Proof.
  intros A2 One. assert (G : forall v, In v vs -> length (v_members v) = 1%nat).
  { intros v Hv. destruct (rep_member _ _ _ _ A2 Hv) as [R1 _]. destruct A2 as (Q1 & _ & _). assert (Nv : NoDup (v_members v)).
    { apply in_split in Hv as (a & b & ->). rewrite map_app, concat_app in Q1. cbn in Q1. apply KBest.NoDup_app_inv in Q1 as (_ & Q1 & _). apply KBest.NoDup_app_inv in Q1 as (Q1 & _). exact Q1. }
    pose proof (One v) as O. destruct (v_members v) as [|x [|y m]]; [destruct R1|reflexivity|].
    exfalso. inversion Nv as [|? ? Hn _]. apply Hn. left. rewrite (O x Hv (or_introl eq_refl)), (O y Hv (or_intror (or_introl eq_refl))). reflexivity. }
  clear - G. induction vs as [|v vs IH]; [reflexivity|]. cbn. rewrite app_length, (G v (or_introl eq_refl)). cbn. f_equal. apply IH. intros w Hw. apply G. right. exact Hw.
Qed.

(** Doubles.  What is missing in the first part compared to exact arithmetic: the Euclidean distance. *)
Theorem C65_extreme_ieee : forall (k : kind) (d : dataset B64) (rows : list (list (D B64)))
    old clock (ratio thr : D B64) threads whole,
  holds d rows -> Forall (@nfin B64) (concat rows) -> nltb (n := B64) (ndiv (n := B64) thr (nofZ 2)) ninf = true ->
  1 <= ds_maxcol d <= 2 ^ 30 -> 1 <= threads -> log_safe d clock ->
  exists g total,
    groupAllLengths (N := B64) clock ratio (mkGS d old) (kind_name k) thr threads whole = (g, Ret total) /\
    forall l, grouped_length d whole l ->
    let dist c c' := pair_value (N := B64) k (sub_values rows l c) (sub_values rows l c') in
    (k <> KEuclidean ->
     (forall c c', is_sub rows l c -> is_sub rows l c' -> nltb (n := B64) (ndiv (n := B64) thr (nofZ 2)) (dist c c') = false) ->
      (exists c, is_sub rows l c) -> groups_at g l = 1) /\
    ((forall c c', is_sub rows l c -> is_sub rows l c' -> c <> c' -> nltb (n := B64) (ndiv (n := B64) thr (nofZ 2)) (dist c c') = true) ->
      exists cs, NoDup cs /\ (forall c, In c cs <-> is_sub rows l c) /\ groups_at g l = Z.of_nat (length cs)).
Proof.
  intros k d rows old clock ratio thr threads whole Hd Hf Hthr Hm Ht Hlog.
  destruct (C17_group_radius k d rows old clock ratio thr threads whole Hd Hthr ltac:(lia) Ht Hlog) as (g & total & E & F).
  exists g, total. split; [exact E|]. intros l Hl dist. destruct (F l Hl) as (vs & A1 & A2 & A3). rewrite (groups_at_view _ _ _ A1). split.
  - intros Hk H [c Hc].
    destruct (C18_leader_clustering_ieee k d rows old clock ratio thr threads whole Hk Hd Hf Hthr Hm Ht Hlog) as (g' & total' & E' & G).
    rewrite E in E'. injection E' as <- <-. destruct (G l Hl) as (gs & cs & G1 & _ & _ & G2). rewrite A1 in G1. injection G1 as ->.
    destruct gs as [|v1 [|v2 gs]]; [|reflexivity|].
    + apply A2 in Hc. destruct Hc.
    + exfalso. pose proof (G2 0%nat 1%nat v1 v2 ltac:(lia) eq_refl eq_refl) as X.
      destruct (rep_member _ _ _ (view_of v1) A2 (or_introl eq_refl)) as [_ S1]. destruct (rep_member _ _ _ (view_of v2) A2 (or_intror (or_introl eq_refl))) as [_ S2].
      specialize (H _ _ S1 S2). cbn [v_rep view_of] in H. pose proof (eq_trans (eq_sym H) X) as Y. discriminate Y.
  - intros H. exists (concat (map v_members vs)). split; [apply A2|]. split; [apply A2|]. f_equal. symmetry. apply (single_members rows l); [exact A2|].
    intros v c Hv Hc. destruct (rep_member _ _ _ _ A2 Hv) as [_ R2].
    assert (Sc : is_sub rows l c) by (apply A2, in_concat; exists (v_members v); split; [apply in_map, Hv|exact Hc]).
    assert (Dc : {c = v_rep v} + {c <> v_rep v}) by (decide equality; apply Z.eq_dec). destruct Dc as [|Dc]; [assumption|]. exfalso.
    pose proof (A3 v c Hv Hc Dc) as X. pose proof (H (v_rep v) c R2 Sc (fun e => Dc (eq_sym e))) as Y.
    destruct X as [_ [_ X]]. pose proof (eq_trans (eq_sym X) Y) as Z0. discriminate Z0.
Qed.
Print Assumptions C65_extreme_ieee.

(** The five series 10 10, 8 8, -10 -10, -11 -11 and -12 -12: all are within 50 of each other, and none within
    a half. *)
Example C65_extreme_example : holds w_data w_rows /\ Forall (@nfin B64) (concat w_rows) /\ log_safe w_data (fun _ => false) /\
  grouped_length w_data false 2 /\ (exists c, is_sub w_rows 2 c) /\
  let dist c c' := pair_value (N := B64) KManhattan (sub_values w_rows 2 c) (sub_values w_rows 2 c') in
  (forall c c', is_sub w_rows 2 c -> is_sub w_rows 2 c' -> nltb (n := B64) (ndiv (n := B64) (b64_ofZ 100) (nofZ 2)) (dist c c') = false) /\
  (forall c c', is_sub w_rows 2 c -> is_sub w_rows 2 c' -> c <> c' -> nltb (n := B64) (ndiv (n := B64) (b64_ofZ 1) (nofZ 2)) (dist c c') = true).
Proof.
  split; [exact w_holds|]. split; [repeat constructor|]. split; [intros l Hl; left; reflexivity|]. split; [cbn; lia|].
  split; [exists (0, 0); eexists; split; [reflexivity|cbn; lia]|]. intros dist.
  assert (W : forall c, is_sub w_rows 2 c -> In c (map snd w_places)).
  { intros c Hc. apply (in_map snd w_places (2, c)), w_in. split; [cbn [fst]; lia|exact Hc]. }
  assert (G : forallb (fun c => forallb (fun c' => negb (nltb (n := B64) (ndiv (n := B64) (b64_ofZ 100) (nofZ 2)) (dist c c')) &&
      ((fst c =? fst c') && (snd c =? snd c') || nltb (n := B64) (ndiv (n := B64) (b64_ofZ 1) (nofZ 2)) (dist c c'))) (map snd w_places)) (map snd w_places) = true)
    by (vm_compute; reflexivity).
  rewrite forallb_forall in G. split; intros c c' Hc Hc'.
  - specialize (G c (W c Hc)). rewrite forallb_forall in G. specialize (G c' (W c' Hc')). apply andb_true_iff in G as [G _]. apply negb_true_iff in G. exact G.
  - intros Hne. specialize (G c (W c Hc)). rewrite forallb_forall in G. specialize (G c' (W c' Hc')). apply andb_true_iff in G as [_ G].
    apply orb_true_iff in G as [G|G]; [|exact G]. apply andb_true_iff in G as [G1 G2]. apply Z.eqb_eq in G1, G2. elim Hne.
    destruct c, c'. cbn [fst snd] in *. congruence.
Qed.
