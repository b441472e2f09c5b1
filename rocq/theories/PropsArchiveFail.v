(** Properties C42 and C43: saving and loading of groups that fails.
    Specification: ArchiveSpec.v, GroupView.v, DataSpec.v. *)
From Coq Require Import String.
From Verif Require Import Base Num NumB64 NumB64Laws NumLaws NumFacts LoopFacts TimeSeries Distance DistSpec TSSet StdAlg HeapFacts Candidate Group
  GroupSpace DataSpec GroupSpec GroupView QueryState QuerySpec PropsData PropsGroup PropsSearch PropsQuery
  Archive ArchiveProofs ArchiveState ArchiveTrunc ArchiveSpec PropsArchive.
Local Open Scope Z_scope.
Local Open Scope list_scope.

(** ** C42 *)

(** Loading a saved file that was cut off ([p] is what is left of it) always throws
    an exception.  The data are unchanged; so are the groups if not even the two
    dimensions at the start are left. *)
Theorem C42_cut_off : forall {N : Num} {LW : NumLaws N} (H : std_alg) (rows : list (list (D N))) (k : kind) (thr : D N)
    whole maxcol b (g : gset N) f ts p s (g0 : gset N),
  1 <= maxcol -> nltb (ndiv thr (nofZ 2)) ninf = true ->
  history H rows k thr whole maxcol b g -> (whole = true -> b = false) ->
  saveToFile true f g = (Some ts, Ret tt) -> ts = p ++ s -> s <> [] ->
  holds (gt_data g0) rows -> ds_maxcol (gt_data g0) = maxcol ->
  exists g1 e, loadFromFile (Some p) g0 = (g1, Throw e) /\ gt_data g1 = gt_data g0 /\ ((length p < 2)%nat -> g1 = g0).
Proof.
  intros N LW H rows k thr whole maxcol b g f ts p s g0 Hm Hthr Hh Hb Hsv Ets Hs Hd0 Hmax0.
  destruct (history_kept H rows k thr whole maxcol b g Hm Hthr Hh) as (Hd & Hmax & RP & gss & HK).
  assert (Ew : (if b then false else whole) = whole) by (destruct b, whole; auto; discriminate (Hb eq_refl)).
  rewrite Ew in HK. unfold saveToFile in Hsv. rewrite (save_ok (gt_data g) rows k thr whole g gss) in Hsv by (auto; lia).
  injection Hsv as Ef. rewrite Ets in Ef. destruct g0 as [d0 old]. cbn [gt_data] in *.
  destruct (load_cut (gt_data g) d0 rows k thr whole whole g gss old p s) as (g1 & e & E & Ed & H1 & _); auto; try lia.
  { destruct Hd as (b1 & _ & E1 & _), Hd0 as (b2 & _ & E2 & _). lia. }
  exists g1, e. auto.
Qed.
Print Assumptions C42_cut_off.

(** But the groups the data set had before are gone otherwise: it is still said to
    be grouped, and has no groups of its item length. *)
Theorem C42_cut_off_refuted : forall {N : Num} {LW : NumLaws N} (H : std_alg) (rows : list (list (D N))) (k : kind) (thr : D N)
    whole maxcol b (g : gset N) f ts p s (g0 : gset N),
  1 <= maxcol -> nltb (ndiv thr (nofZ 2)) ninf = true ->
  history H rows k thr whole maxcol b g -> (whole = true -> b = false) ->
  saveToFile true f g = (Some ts, Ret tt) -> ts = p ++ s -> s <> [] ->
  holds (gt_data g0) rows -> ds_maxcol (gt_data g0) = maxcol -> (2 <= length p)%nat ->
  isGrouped (fst (loadFromFile (Some p) g0)) = true /\ level_view (fst (loadFromFile (Some p) g0)) maxcol = None.
Proof.
  intros N LW H rows k thr whole maxcol b g f ts p s g0 Hm Hthr Hh Hb Hsv Ets Hs Hd0 Hmax0 Hp.
  destruct (history_kept H rows k thr whole maxcol b g Hm Hthr Hh) as (Hd & Hmax & RP & gss & HK).
  assert (Ew : (if b then false else whole) = whole) by (destruct b, whole; auto; discriminate (Hb eq_refl)).
  rewrite Ew in HK. unfold saveToFile in Hsv. rewrite (save_ok (gt_data g) rows k thr whole g gss) in Hsv by (auto; lia).
  injection Hsv as Ef. rewrite Ets in Ef. destruct g0 as [d0 old]. cbn [gt_data] in *.
  destruct (load_cut (gt_data g) d0 rows k thr whole whole g gss old p s) as (g1 & e & E & Ed & _ & H2); auto; try lia.
  { destruct Hd as (b1 & _ & E1 & _), Hd0 as (b2 & _ & E2 & _). lia. }
  unfold loadFromFile. rewrite E. cbn [fst]. rewrite <- Hmax. auto.
Qed.
Print Assumptions C42_cut_off_refuted.

(** The data set of C35_example, grouped, with an answer to the query 1 9: after
    loading its own groups from a file that was cut off, the threshold is not
    initialised or the same query dereferences a null pointer. *)
Definition ex2_cut (n : nat) : gset B64 :=
  fst (loadFromFile (match ex2_file with Some ts => Some (firstn n ts) | None => None end) (fst ex2_grouped)).
Definition outcome {A} (r : res A) : res unit :=
  match r with Ret _ => Ret tt | Throw e => Throw e | UB u => UB u | Hang => Hang end.

Theorem C42_lost_groups_refuted :
  outcome (getBestMatch (N := B64) (b64_ofZ 1) (fst ex2_grouped) bf_query) = Ret tt /\
  outcome (getThreshold (ex2_cut 5)) = UB Uninit /\
  outcome (getBestMatch (N := B64) (b64_ofZ 1) (ex2_cut 5) bf_query) = UB OutOfBounds /\
  outcome (getBestMatch (N := B64) (b64_ofZ 1) (ex2_cut 12) bf_query) = UB NullDeref.
Proof. splits; vm_compute; reflexivity. Qed.
Print Assumptions C42_lost_groups_refuted.

Example C42_example :
  history (N := B64) simple_alg ex2_rows KManhattan (b64_ofZ 6) false 3 false (fst ex2_grouped) /\
  (match ex2_file with Some ts => length ts | None => O end) = 29%nat /\
  outcome (snd (loadFromFile (match ex2_file with Some ts => Some (firstn 28 ts) | None => None end) (fst ex2_grouped)))
    = Throw (StdExc "input stream error").
Proof.
  split; [|split; vm_compute; reflexivity].
  refine (by_grouping (N := B64) simple_alg ex2_rows KManhattan (b64_ofZ 6) false 3 ex2_data None (fun _ => false) (b64_ofZ 1) 1
    (fst ex2_grouped) 3 ex2_holds eq_refl _ _ C35_history_1); [lia|]. intros l. left. reflexivity.
Qed.

(** ** C43 *)

(** Saving the groups of a data set that has none throws an exception, and what was
    in the file before is lost. *)
Theorem C43_save_ungrouped_refuted : forall {N : Num} (g : gset N) old, isGrouped g = false ->
  saveToFile true (Some old) g = (Some [], Throw (GenexExc "No group found")).
Proof. intros N g old Hg. unfold isGrouped in Hg. unfold saveToFile, save. destruct (gt_groups g); [discriminate|reflexivity]. Qed.
Print Assumptions C43_save_ungrouped_refuted.

(** Groups saved before cannot be loaded any more: loading that file throws for
    every data set. *)
Theorem C43_lost_file_refuted : forall {N : Num} (g g1 : gset N) old, isGrouped g = false ->
  loadFromFile (fst (saveToFile true (Some old) g)) g1 = (g1, Throw stream_error).
Proof. intros N g g1 old Hg. rewrite C43_save_ungrouped_refuted by auto. reflexivity. Qed.
Print Assumptions C43_lost_file_refuted.

Example C43_example : isGrouped (mkGS ex2_data None) = false /\
  outcome (snd (loadFromFile ex2_file (mkGS ex2_data None))) = Ret tt.
Proof. split; [reflexivity|]. vm_compute. reflexivity. Qed.
