(** Property C61: group files that the library did not write.
    Specification: GroupFile.v (first section), GroupView.v, QuerySpec.v, DataSpec.v. *)
From Coq Require Import String Reals Lra Permutation.
From Flocq Require Import IEEE754.BinarySingleNaN Core.Raux.
From Verif Require Import Base Num NumB64 NumB64Laws NumLaws NumFacts NumMore NumXR NumXRLaws LoopFacts TimeSeries Lemire Distance
  DtwReal DistSpec DistLink TSSet StdAlg HeapFacts Candidate Group GroupSpace Band DataSpec DataProofs GroupSpec GroupView GroupAll GroupDist
  SearchSpec SearchProofs SearchCases QueryCases Traverse QueryState QuerySpec BestMatch QueryProofs PropsDistance PropsData PropsGroup
  PropsSearch PropsQuery PropsKSim Archive ArchiveProofs ArchiveState ArchiveSpec PropsArchive PropsArchiveFail GroupFile.
Local Open Scope Z_scope.
Local Open Scope list_scope.

(** A file that describes groups of the data is loaded, and the groups of the data
    set are then those described: any partition will do, with any representatives
    ([pick] chooses one for each list of members), whatever the threshold. *)
Theorem C61_described_loaded : forall {N : Num} {LW : NumLaws N} (d : dataset N) (rows : list (list (D N))) (k : kind) (thr : D N)
    whole (vs : Z -> list gview) pick old,
  holds d rows -> 1 <= ds_maxcol d ->
  (forall l, grouped_length d whole l -> groups_of rows l (vs l)) ->
  (forall l v, grouped_length d whole l -> In v (vs l) -> v_rep v = pick (v_members v)) ->
  exists g', loadFromFile (Some (group_file d k thr whole vs)) (mkGS d old) = (g', Ret tt) /\
    gt_data g' = d /\ isGrouped g' = true /\ getDistanceName g' = kind_name k /\ getThreshold g' = Ret thr /\
    getTotalNumberOfGroups g' = fold_right Z.add 0 (map (fun l => Z.of_nat (length (vs l))) (lengths_of d whole)) /\
    (forall l, grouped_length d whole l -> level_view g' l = Some (Ret (map turned (vs l)))) /\
    (forall l, ~ grouped_length d whole l -> level_view g' l = None).
Proof.
  intros N LW d rows k thr whole vs pick old Hd Hm Hvs Hpick.
  destruct (described_kept d rows k thr whole vs pick Hd Hm Hvs Hpick old) as (g' & E & Ed & HK).
  assert (HV := described_view d rows k thr whole vs pick Hm Hvs Hpick old g' HK E).
  exists g'. destruct HK as [_ (gs & Eg & A1 & A2 & A3 & _) _ _ _].
  unfold isGrouped, getDistanceName, getThreshold, getTotalNumberOfGroups. rewrite Eg. splits; auto.
  - rewrite A2. reflexivity.
  - rewrite A3, sum_rev. clear A3.
    assert (G : forall n lo, 0 <= lo -> lo + Z.of_nat n <= (if whole then ds_maxcol d else 2) -> sum_groups (gss_of d whole vs) lo n = 0).
    { intros n lo H0 Hn. apply sum_none. intros l Hl. unfold gss_of, is_grouped_b. destruct whole.
      - destruct (Z.eqb_spec l (ds_maxcol d)); [lia|reflexivity].
      - destruct (Z.leb_spec 2 l); [lia|reflexivity]. }
    assert (S : forall ls, (forall l, In l ls -> grouped_length d whole l) ->
      fold_right Z.add 0 (map (fun l => n_groups (gss_of d whole vs l)) ls) = fold_right Z.add 0 (map (fun l => Z.of_nat (length (vs l))) ls)).
    { induction ls as [|l ls IH]; intros Hls; [reflexivity|]. cbn [map fold_right]. rewrite IH by (intros; apply Hls; right; auto).
      f_equal. unfold gss_of. rewrite (proj2 (is_grouped_iff d whole l)) by (apply Hls; left; reflexivity). cbn [n_groups]. rewrite map_length. reflexivity. }
    rewrite <- S by apply in_lengths. unfold lengths_of. destruct whole.
    + replace (Z.to_nat (ds_maxcol d + 1)) with (Z.to_nat (ds_maxcol d) + 1)%nat by lia.
      rewrite sum_app, G by lia. rewrite Z2Nat.id by lia. reflexivity.
    + destruct (Z_le_gt_dec (ds_maxcol d) 1) as [H1|H1].
      * replace (Z.to_nat (ds_maxcol d - 1)) with O by lia. apply G; lia.
      * replace (Z.to_nat (ds_maxcol d + 1)) with (2 + Z.to_nat (ds_maxcol d - 1))%nat by lia.
        rewrite sum_app, G by lia. reflexivity.
  - intros l Hl. rewrite HV, (proj2 (is_grouped_iff d whole l) Hl). reflexivity.
  - intros l Hl. rewrite HV. destruct (is_grouped_b d whole l) eqn:Eb; [|reflexivity].
    apply is_grouped_iff in Eb. contradiction.
Qed.
Print Assumptions C61_described_loaded.

(** Queries are then answered from these groups as C23 and C24 say, also after any
    number of other queries. *)
Theorem C61_answers_ieee : forall (H : std_alg) (d : dataset B64) (rows : list (list (D B64))) (k : kind) (thr : D B64)
    whole (vs : Z -> list gview) pick old g1 g (query : TS B64) (ratio : D B64),
  holds d rows -> moderate_data rows -> ds_maxcol d <= 2 ^ 26 ->
  (forall l, grouped_length d whole l -> groups_of rows l (vs l)) ->
  (forall l v, grouped_length d whole l -> In v (vs l) -> v_rep v = pick (v_members v)) ->
  loadFromFile (Some (group_file d k thr whole vs)) (mkGS d old) = (g1, Ret tt) -> asked H g1 g ->
  moderate_query query -> ts_length query <= ds_maxcol d -> moderate_ratio ratio ->
  ((exists p, searched_place (N := B64) d rows whole ratio (ts_length query) p) ->
   exists g' c, getBestMatch (N := B64) ratio g query = Ret (g', c) /\
     best_of_closest (N := B64) rows k ratio (ts_points query) (searched (N := B64) d whole ratio (ts_length query)) g c) /\
  (forall K h, std_ok H -> 1 <= K <= h ->
   no_near_ties (N := B64) rows k ratio (ts_points query) (searched_place (N := B64) d rows whole ratio (ts_length query)) ->
   k_answer (N := B64) H rows k ratio (ts_points query) (searched (N := B64) d whole ratio (ts_length query))
     (searched_place (N := B64) d rows whole ratio (ts_length query)) g query K h).
Proof.
  intros H d rows k thr whole vs pick old g1 g query ratio Hd Hmd Hmax Hvs Hpick El Ha Hq Hql Hr.
  assert (Hm : 1 <= ds_maxcol d) by (destruct Hq as (_ & _ & Hq2); lia).
  destruct (described_kept (N := B64) d rows k thr whole vs pick Hd Hm Hvs Hpick old) as (g2 & E & Ed & HK).
  cbn [loadFromFile] in El. rewrite El in E. injection E as <-.
  pose proof (kept_asked (N := B64) H _ _ _ _ _ _ _ _ _ HK Ha) as HK'.
  assert (HR : ready (N := B64) (RP := rev_rep (pick_rep pick)) d rows k whole g) by (split; [reflexivity|]; eexists; eapply (kept_ready_at (N := B64)); exact HK').
  split.
  - intros Hex. apply (ready_best_ieee (RP := rev_rep (pick_rep pick)) k d rows whole g query ratio); auto.
  - intros K h Hok HKh Hties. apply (ready_k_ieee (RP := rev_rep (pick_rep pick)) H k d rows whole g query ratio K h); auto.
Qed.
Print Assumptions C61_answers_ieee.

Theorem C61_answers_exact : forall (H : std_alg) (d : dataset XR) (rows : list (list R)) (k : kind) (t : D XR)
    whole (vs : Z -> list gview) pick old g1 g (query : TS XR) (xs : list R) (ratio : R),
  holds d (real_rows rows) -> ds_maxcol d <= 2 ^ 30 ->
  (forall l, grouped_length d whole l -> groups_of (N := XR) (real_rows rows) l (vs l)) ->
  (forall l v, grouped_length d whole l -> In v (vs l) -> v_rep v = pick (v_members v)) ->
  loadFromFile (Some (group_file d k t whole vs)) (mkGS d old) = (g1, Ret tt) -> asked H g1 g ->
  is_series query xs -> 2 <= ts_length query <= ds_maxcol d -> (0 <= ratio <= 1)%R ->
  ((exists p, searched_place (N := XR) d (real_rows rows) whole (Fin ratio) (ts_length query) p) ->
   exists g' c, getBestMatch (N := XR) (Fin ratio) g query = Ret (g', c) /\
     best_of_closest (N := XR) (real_rows rows) k (Fin ratio) (map Fin xs) (searched (N := XR) d whole (Fin ratio) (ts_length query)) g c) /\
  (forall K h, std_ok H -> 1 <= K <= h ->
   no_near_ties (N := XR) (real_rows rows) k (Fin ratio) (map Fin xs) (searched_place (N := XR) d (real_rows rows) whole (Fin ratio) (ts_length query)) ->
   k_answer (N := XR) H (real_rows rows) k (Fin ratio) (map Fin xs) (searched (N := XR) d whole (Fin ratio) (ts_length query))
     (searched_place (N := XR) d (real_rows rows) whole (Fin ratio) (ts_length query)) g query K h).
Proof.
  intros H d rows k t whole vs pick old g1 g query xs ratio Hd Hmax Hvs Hpick El Ha Hq Hql Hr.
  assert (Hm : 1 <= ds_maxcol d) by lia.
  destruct (described_kept (N := XR) d (real_rows rows) k t whole vs pick Hd Hm Hvs Hpick old) as (g2 & E & Ed & HK).
  cbn [loadFromFile] in El. rewrite El in E. injection E as <-.
  pose proof (kept_asked (N := XR) H _ _ _ _ _ _ _ _ _ HK Ha) as HK'.
  assert (HR : ready (N := XR) (RP := rev_rep (pick_rep pick)) d (real_rows rows) k whole g) by (split; [reflexivity|]; eexists; eapply (kept_ready_at (N := XR)); exact HK').
  split.
  - intros Hex. apply (ready_best_exact (RP := rev_rep (pick_rep pick)) k d rows whole g query xs ratio); auto.
  - intros K h Hok HKh Hties. apply (ready_k_exact (RP := rev_rep (pick_rep pick)) H k d rows whole g query xs ratio K h); auto.
Qed.
Print Assumptions C61_answers_exact.

(** ** examples *)

(** for ex2_data (two series, 0 1 9 and 1 1 8): other groups than grouping makes *)
Definition gf_two : list gview := [mkView (0, 0) 2 [(0, 0); (1, 0)]; mkView (0, 1) 2 [(1, 1); (0, 1)]].
Definition gf_good (l : Z) : list gview :=
  if l =? 2 then gf_two else if l =? 3 then [mkView (1, 0) 1 [(1, 0)]; mkView (0, 0) 1 [(0, 0)]] else [].
Definition gf_load (vs : Z -> list gview) : gset B64 * res unit :=
  loadFromFile (N := B64) (Some (group_file ex2_data KManhattan (b64_ofZ 6) false vs)) (mkGS ex2_data None).
Definition gf_query : TS B64 := zs [0; 1; 9].

(** the first member, except in one group *)
Definition gf_pick (ms : list coord) : coord :=
  match ms with [(1, 1); (0, 1)] => (0, 1) | m :: _ => m | [] => (0, 0) end.

Lemma pair_inv {A B} {a i : A} {b s : B} : (a, b) = (i, s) -> i = a /\ s = b.
Proof. intros E. injection E as -> ->. auto. Qed.

Lemma some_length {A} (o : option (list A)) row n : o = Some row -> option_map (@length A) o = Some n -> length row = n.
Proof. intros -> E. injection E as E. exact E. Qed.

Lemma gf_length i row : i = 0 \/ i = 1 -> row_of ex2_rows i = Some row -> length row = 3%nat.
Proof. intros [-> | ->] E; apply (some_length _ row 3 E); reflexivity. Qed.

Lemma gf_sub2 c : In c [(0, 0); (1, 0); (1, 1); (0, 1)] <-> is_sub (N := B64) ex2_rows 2 c.
Proof.
  destruct c as [i s]. split.
  - intros [E|[E|[E|[E|[]]]]]; destruct (pair_inv E) as [-> ->]; eexists; (split; [reflexivity|split; simpl; lia]).
  - intros (row & Er & H1 & H2). cbn [fst snd] in *. assert (Hi : i = 0 \/ i = 1).
    { destruct (row_of_Some _ _ _ Er) as [Hi _]. change (0 <= i < 2) in Hi. lia. }
    assert (Hl : length row = 3%nat) by exact (gf_length i row Hi Er).
    assert (Hs : s = 0 \/ s = 1) by lia. simpl. destruct Hi as [-> | ->], Hs as [-> | ->]; tauto.
Qed.

Lemma gf_sub3 c : In c [(1, 0); (0, 0)] <-> is_sub (N := B64) ex2_rows 3 c.
Proof.
  destruct c as [i s]. split.
  - intros [E|[E|[]]]; destruct (pair_inv E) as [-> ->]; eexists; (split; [reflexivity|split; simpl; lia]).
  - intros (row & Er & H1 & H2). cbn [fst snd] in *. assert (Hi : i = 0 \/ i = 1).
    { destruct (row_of_Some _ _ _ Er) as [Hi _]. change (0 <= i < 2) in Hi. lia. }
    assert (Hl : length row = 3%nat) by exact (gf_length i row Hi Er).
    assert (Hs : s = 0) by lia. subst s. simpl. destruct Hi as [-> | ->]; tauto.
Qed.

Example C61_example_pre :
  (forall l, grouped_length ex2_data false l -> groups_of ex2_rows l (gf_good l)) /\
  (forall l v, grouped_length ex2_data false l -> In v (gf_good l) -> v_rep v = gf_pick (v_members v)).
Proof.
  assert (A : forall l, grouped_length ex2_data false l -> l = 2 \/ l = 3).
  { intros l Hl. unfold grouped_length in Hl. change (2 <= l <= 3) in Hl. lia. }
  split.
  - intros l Hl. destruct (A l Hl) as [-> | ->]; (split; [|split]).
    + change (NoDup [(0, 0); (1, 0); (1, 1); (0, 1)]). repeat constructor; simpl; intuition congruence.
    + exact gf_sub2.
    + intros v [<-|[<-|[]]]; (split; [reflexivity|simpl; tauto]).
    + change (NoDup [(1, 0); (0, 0)]). repeat constructor; simpl; intuition congruence.
    + exact gf_sub3.
    + intros v [<-|[<-|[]]]; (split; [reflexivity|simpl; tauto]).
  - intros l v Hl Hv. destruct (A l Hl) as [-> | ->]; destruct Hv as [<-|[<-|[]]]; reflexivity.
Qed.

Example C61_example :
  snd (gf_load gf_good) = Ret tt /\
  show (level_view (fst (gf_load gf_good)) 2) = Some [((0, 0), 2, [(1, 0); (0, 0)]); ((0, 1), 2, [(0, 1); (1, 1)])] /\
  show (level_view (fst (gf_load gf_good)) 3) = Some [((1, 0), 1, [(1, 0)]); ((0, 0), 1, [(0, 0)])] /\
  show_best (getBestMatch (N := B64) (b64_ofZ 1) (fst (gf_load gf_good)) gf_query) = Some [(3, 0, 0, B2SF (b64_ofZ 0))].
Proof. split; [vm_compute; reflexivity|]. split; [vm_compute; reflexivity|]. split; vm_compute; reflexivity. Qed.

(** ** files that describe no groups are not refused *)

(** a member that does not exist; a member listed twice; no groups at all; an empty group *)
Definition gf_member_missing (l : Z) : list gview := if l =? 2 then gf_two else [mkView (0, 0) 2 [(0, 0); (5, 0)]].
Definition gf_member_twice (l : Z) : list gview := if l =? 2 then gf_two else [mkView (0, 0) 2 [(0, 0); (0, 0)]].
Definition gf_none (l : Z) : list gview := [].
Definition gf_empty (l : Z) : list gview := if l =? 2 then gf_two else [mkView (0, 0) 0 []].

(** The full claim would be: a file with the right dimensions that does not describe
    groups of the data is refused with an exception.  A position outside the data is
    written to before anything is checked (undefined behaviour); with a member listed
    twice the file is accepted and a query never ends; without groups the file is
    accepted and a query dereferences a null pointer; with an empty group the file is
    accepted and the best match of a series of the data is the representative of that
    group, at distance infinity. *)
Theorem C61_wrong_files_refuted :
  ~ (forall vs, ~ (forall l, grouped_length ex2_data false l -> groups_of ex2_rows l (vs l)) ->
       exists e, snd (gf_load vs) = Throw e) /\
  snd (gf_load gf_member_missing) = UB OutOfBounds /\
  (snd (gf_load gf_member_twice) = Ret tt /\
   outcome (getBestMatch (N := B64) (b64_ofZ 1) (fst (gf_load gf_member_twice)) gf_query) = Hang) /\
  (snd (gf_load gf_none) = Ret tt /\
   outcome (getBestMatch (N := B64) (b64_ofZ 1) (fst (gf_load gf_none)) gf_query) = UB NullDeref) /\
  (snd (gf_load gf_empty) = Ret tt /\
   show_best (getBestMatch (N := B64) (b64_ofZ 1) (fst (gf_load gf_empty)) gf_query) = Some [(3, 0, 0, SpecFloat.S754_infinity false)]).
Proof.
  assert (E : snd (gf_load gf_none) = Ret tt) by (vm_compute; reflexivity).
  split.
  { intros C. destruct (C gf_none) as [e Ee]; [|rewrite E in Ee; discriminate].
    intros G. destruct (G 3) as (_ & G2 & _); [unfold grouped_length; change (2 <= 3 <= 3); lia|].
    apply (proj2 (G2 (0, 0))). apply gf_sub3. right. left. reflexivity. }
  split; [vm_compute; reflexivity|].
  split; [split; vm_compute; reflexivity|].
  split; [split; [exact E|vm_compute; reflexivity]|].
  split; vm_compute; reflexivity.
Qed.
Print Assumptions C61_wrong_files_refuted.
