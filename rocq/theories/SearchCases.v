(** When a search is free of overflow: moderate doubles, or real data. *)
From Coq Require Import String Reals Lra.
From Flocq Require Import Core.Raux IEEE754.BinarySingleNaN.
From Verif Require Import Base Num NumB64 NumB64Laws NumLaws NumFacts NumXR NumXRLaws LoopFacts TimeSeries Lemire Distance
  DtwSpec DtwPaths DtwProofs Metrics DtwMain DtwResults DtwReal Band DistSpec DistFacts DistLink DtwExt
  TSSet DataSpec DataProofs GroupSpec Candidate GroupDist SearchSpec.
Local Open Scope Z_scope.
Local Open Scope list_scope.

Lemma place_len {N} (rows : list (list (D N))) p : 0 <= fst p -> is_sub rows (fst p) (snd p) ->
  Z.of_nat (length (place_values rows p)) = fst p.
Proof.
  intros Hl (row & Er & Hs & He). unfold place_values, sub_values. rewrite Er. unfold slice.
  rewrite firstn_length, skipn_length. lia.
Qed.

Lemma place_row {N} (rows : list (list (D N))) p : is_sub rows (fst p) (snd p) ->
  exists row, In row rows /\ fst p <= Z.of_nat (length row) /\ (forall x, In x (place_values rows p) -> In x row).
Proof.
  intros (row & Er & Hs & He). exists row. splits.
  - apply row_of_Some in Er as [_ Er]. eapply nth_error_In; eauto.
  - lia.
  - intros x. unfold place_values, sub_values. rewrite Er. apply In_slice.
Qed.

Lemma points_of_list {N} (l : list (D N)) : ts_points (ts_of_list l) = l.
Proof. unfold ts_points, ts_of_list; simpl. rewrite Nat2Z.id. apply firstn_all. Qed.

Lemma searchable_moderate k (rows : list (list (D B64))) (ratio : D B64) (query : TS B64) (P : place -> Prop) :
  moderate_data rows -> moderate_query query -> moderate_ratio ratio ->
  (forall p, P p -> 2 <= fst p /\ is_sub rows (fst p) (snd p)) ->
  searchable (N := B64) rows k ratio (ts_points query) P.
Proof.
  intros Hd (Hq & Hqp & Hql) (Hr0 & Hr1) HP p Hp. destruct (HP p Hp) as [Hl Hsub].
  destruct (place_row rows p Hsub) as (row & Hrow & Hlr & Hin). destruct (Hd row Hrow) as [Hm Hl2].
  pose proof (place_len rows p ltac:(lia) Hsub) as Hpl.
  assert (La : ts_length (ts_of_list (ts_points query)) = ts_length query).
  { apply (ts_points_length (N := B64)); auto. }
  assert (Lb : ts_length (ts_of_list (N := B64) (place_values rows p)) = fst p) by exact Hpl.
  assert (Fr : nfin (N := B64) ratio).
  { apply (nfin_between (N := B64) (nofZ 0) ratio (nofZ 1)); auto; split; reflexivity. }
  destruct (band_defined_1 (N := B64) ratio (Z.max (ts_length query) (fst p))) as [r Er]; auto.
  { unfold int_max. lia. }
  exists r. apply small_ok; rewrite ?La, ?Lb; auto; try lia.
  - apply ts_of_list_ok.
  - apply ts_of_list_ok.
  - unfold small_points. rewrite points_of_list. exact Hqp.
  - unfold small_points. rewrite points_of_list. apply Forall_forall. intros x Hx.
    rewrite Forall_forall in Hm. apply Hm. auto.
  - apply (band_range (N := B64) ratio (Z.max (ts_length query) (fst p)) r); auto. lia.
Qed.

(** real data *)
Definition real_rows (rows : list (list R)) : list (list (D XR)) := map (map Fin) rows.

Lemma real_place (rows : list (list R)) p : 0 <= fst p -> is_sub (real_rows rows) (fst p) (snd p) ->
  exists ys, place_values (real_rows rows) p = map Fin ys /\ Z.of_nat (length ys) = fst p.
Proof.
  intros Hl Hs. exists (real_sub rows (fst p) (snd p)). split.
  - apply real_sub_values; auto.
  - apply real_sub_len; auto.
Qed.

Lemma searchable_real k (rows : list (list R)) (ratio : R) (query : TS XR) (xs : list R) (P : place -> Prop) :
  is_series query xs -> 2 <= Z.of_nat (length xs) <= 2 ^ 30 ->
  (forall row, In row rows -> Z.of_nat (length row) <= 2 ^ 30) ->
  (0 <= ratio <= 1)%R ->
  (forall p, P p -> 2 <= fst p /\ is_sub (real_rows rows) (fst p) (snd p)) ->
  searchable (N := XR) (real_rows rows) k (Fin ratio) (ts_points query) P.
Proof.
  intros Hq Hql Hrows Hr HP p Hp. destruct (HP p Hp) as [Hl Hsub].
  destruct (real_place rows p ltac:(lia) Hsub) as (ys & Eys & Lys).
  destruct (place_row (real_rows rows) p Hsub) as (row & Hrow & Hlr & _).
  unfold real_rows in Hrow. apply in_map_iff in Hrow as (row0 & <- & Hrow). rewrite map_length in Hlr.
  specialize (Hrows row0 Hrow).
  exists (band_width ratio (Z.max (Rlen xs) (Rlen ys))). apply ok_pre.
  assert (S1 : is_series (ts_of_list (ts_points query)) xs).
  { split; [apply ts_of_list_ok|]. rewrite points_of_list. apply Hq. }
  assert (S2 : is_series (ts_of_list (N := XR) (place_values (real_rows rows) p)) ys).
  { split; [apply ts_of_list_ok|]. rewrite points_of_list. exact Eys. }
  apply (real_pre _ (rm_of k)); auto; unfold Rlen in *; try lia; try lra.
  unfold int_max. apply Rle_trans with (IZR (2 ^ 30) * 1)%R.
  - apply Rmult_le_compat; try lra.
    + apply (IZR_le 0). lia.
    + apply IZR_le. lia.
  - rewrite Rmult_1_r. apply IZR_le. lia.
Qed.
