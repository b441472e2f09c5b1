(** Properties C28 and C31: normalisation and extraction of subsequences.
    Specification: DataSpec.v. *)
From Coq Require Import String.
From Flocq Require Import IEEE754.BinarySingleNaN.
From Verif Require Import Base Num NumB64 NumLaws NumFacts NumMore NumB64Laws LoopFacts TimeSeries TSSet
  DataSpec DataProofs PropsDistance.
Local Open Scope Z_scope.
Local Open Scope list_scope.

(** C31: extraction of subsequences is exact and range-checked.  In any
    arithmetic. *)
Theorem C31_subsequence_extraction : forall (N : Num) (d : dataset N) (rows : list (list (D N))),
  holds d rows -> forall i s e : Z,
  (* valid ranges *)
  (forall row, row_of rows i = Some row -> 0 <= s < e -> e <= Z.of_nat (length row) ->
     exists t, getTimeSeries d i s e = Ret t /\ ts_points t = slice row s e /\
       ts_index t = i /\ ts_start t = s /\ ts_length t = e - s) /\
  (* both positions negative: the whole series *)
  (forall row, row_of rows i = Some row -> s < 0 -> e < 0 ->
     exists t, getTimeSeries d i s e = Ret t /\ ts_points t = row /\
       ts_index t = i /\ ts_start t = 0 /\ ts_length t = Z.of_nat (length row)) /\
  (* everything else is rejected with the library's exception *)
  ((row_of rows i = None \/
    exists row, row_of rows i = Some row /\ ~ (s < 0 /\ e < 0) /\
                ~ (0 <= s < e /\ e <= Z.of_nat (length row))) ->
   exists m, getTimeSeries d i s e = Throw (GenexExc m)).
Proof.
  intros N d rows H i s e. splits.
  - intros row Ei Hs He. destruct (getTimeSeries_ok d rows i s e row H Ei Hs He)
      as (t & A1 & A2 & A3 & A4 & A5 & A6). exists t. splits; auto.
  - intros row Ei Hs He. destruct (getTimeSeries_whole d rows i s e row H Ei Hs He)
      as (t & A1 & A2 & A3 & A4 & A5 & A6). exists t. splits; auto.
  - intros Hb. apply (getTimeSeries_bad d rows i s e H Hb).
Qed.

(** a data set with two series of different lengths *)
Definition ex_rows : list (list b64) := [map b64_ofZ [3; 1; 2]; map b64_ofZ [5; -4]].
Definition ex_data : dataset B64 :=
  mkDS (N := B64) (Some (map b64_ofZ [3; 1; 2; 5; -4; 0])) [] [3; 2] 2 3 "f"%string false.

Lemma ex_holds : holds ex_data ex_rows.
Proof.
  exists (map b64_ofZ [3; 1; 2; 5; -4; 0]). splits; try reflexivity; try (unfold int_max; simpl; lia).
  intros i row E. destruct i as [|[|i]]; [| |destruct i; discriminate]; injection E as <-; splits; try reflexivity;
    try (simpl; lia); intros j v Ej; repeat (destruct j as [|j]; [injection Ej as <-; reflexivity|]);
    destruct j; discriminate.
Qed.

Example C31_example : exists t, getTimeSeries ex_data 1 0 2 = Ret t /\ ts_points t = map b64_ofZ [5; -4].
Proof.
  destruct (C31_subsequence_extraction B64 ex_data ex_rows ex_holds 1 0 2) as (H & _ & _).
  destruct (H (map b64_ofZ [5; -4]) eq_refl) as (t & E & Ep & _); [lia|simpl; lia|].
  exists t. split; auto.
Qed.

(** C28: normalisation, in IEEE doubles.  [f] is the function applied to every
    value. *)
Theorem C28_normalise : forall (d : dataset B64) (rows : list (list b64)),
  holds d rows -> concat rows <> [] ->
  Forall (@nfin B64) (concat rows) ->
  (forall u v, In u (concat rows) -> In v (concat rows) -> @nfin B64 (nsub (n := B64) u v)) ->
  exists d' f mn mx,
    normalize d = Ret (d', (mn, mx)) /\
    (* the returned pair is the old minimum and maximum *)
    In mn (concat rows) /\ In mx (concat rows) /\
    (forall v, In v (concat rows) -> nle (N := B64) mn v /\ nle (N := B64) v mx) /\
    (* the new data set has the same shape and the values f(v) *)
    holds d' (map (map f) rows) /\
    ds_count d' = ds_count d /\ ds_maxcol d' = ds_maxcol d /\ ds_lengths d' = ds_lengths d /\
    ds_names d' = ds_names d /\ ds_path d' = ds_path d /\ ds_normalized d' = true /\
    (* all values in [0,1], in the same order *)
    (forall v, In v (concat rows) -> nle (N := B64) n0 (f v) /\ nle (N := B64) (f v) (nofZ (n := B64) 1)) /\
    (forall u v, In u (concat rows) -> In v (concat rows) -> nle (N := B64) u v -> nle (N := B64) (f u) (f v)) /\
    (* the minimum becomes 0, the maximum 1; constant data becomes 0 *)
    (forall v, In v (concat rows) -> neqv (N := B64) v mn -> neqv (N := B64) (f v) n0) /\
    (nlt (N := B64) mn mx -> forall v, In v (concat rows) -> neqv (N := B64) v mx ->
        neqv (N := B64) (f v) (nofZ (n := B64) 1)) /\
    (neqv (N := B64) mn mx -> forall v, In v (concat rows) -> neqv (N := B64) (f v) n0) /\
    (* cells of the buffer that belong to no series keep their contents *)
    (exists buf buf', ds_data d = Some buf /\ ds_data d' = Some buf' /\ length buf' = length buf /\
       forall p, (forall i row, nth_error rows i = Some row ->
           ~ (Z.of_nat i * ds_maxcol d <= p < Z.of_nat i * ds_maxcol d + Z.of_nat (length row))) ->
         aget buf' p = aget buf p) /\
    (* normalising again changes no value *)
    (exists d'' g p, normalize d' = Ret (d'', p) /\ holds d'' (map (map g) (map (map f) rows)) /\
       forall v, In v (concat rows) -> neqv (N := B64) (g (f v)) (f v)).
Proof.
  intros d rows H Hne Hf Hov.
  destruct (normalize_ok d rows H Hne Hf) as (buf & buf' & mn & mx & Ed & En & Imn & Imx & Hall & Hh & El & Hp).
  pose proof Hf as Hf'. rewrite Forall_forall in Hf'. pose proof Hall as Hall'. rewrite Forall_forall in Hall'.
  assert (Fmn : nfin (N := B64) mn) by auto. assert (Fmx : nfin (N := B64) mx) by auto.
  assert (Fd : nfin (N := B64) (nsub (n := B64) mx mn)) by (apply Hov; auto).
  assert (Hle : nle (N := B64) mn mx) by (apply (Hall' mx Imx)).
  assert (Hrange : forall v, In v (concat rows) ->
     nle (N := B64) n0 (norm_val mn mx v) /\ nle (N := B64) (norm_val mn mx v) (nofZ (n := B64) 1)).
  { intros v Hv. apply norm_range; auto; apply Hall'; auto. }
  assert (Hmono : forall u v, In u (concat rows) -> In v (concat rows) -> nle (N := B64) u v ->
     nle (N := B64) (norm_val mn mx u) (norm_val mn mx v)).
  { intros u v Hu Hv Huv. apply norm_mono; auto; apply Hall'; auto. }
  eexists. exists (norm_val mn mx), mn, mx.
  split; [exact En|]. splits; auto.
  - intros v Hv [E1 E2].
    apply neqv_trans with (norm_val mn mx mn); [split; apply Hmono; auto|apply norm_min; auto].
  - intros Hlt v Hv [E1 E2].
    apply neqv_trans with (norm_val mn mx mx); [split; apply Hmono; auto|apply norm_max; auto].
  - intros He v Hv. apply norm_const; auto; apply Hall'; auto.
  - exists buf, buf'. splits; auto.
  - assert (Hc : concat (map (map (norm_val mn mx)) rows) = map (norm_val mn mx) (concat rows)).
    { symmetry. apply concat_map. }
    match type of Hh with holds ?d' _ => destruct (normalize_ok d' (map (map (norm_val mn mx)) rows) Hh)
      as (b1 & b2 & mn' & mx' & _ & En' & Imn' & Imx' & Hall2 & Hh' & _) end.
    + rewrite Hc. intros E. apply Hne. destruct (concat rows); [reflexivity|discriminate].
    + rewrite Hc. apply Forall_forall. intros w Hw. apply in_map_iff in Hw as (w0 & <- & Hw).
      destruct (Hrange w0 Hw) as [A B]. apply nfin_between with (@n0 B64) (@nofZ B64 1); auto using n0_fin.
    + rewrite Hc in *. eexists. exists (norm_val mn' mx'), (mn', mx'). splits; [exact En'|exact Hh'|].
      intros v Hv. apply (norm_again mn mx mn' mx' (concat rows)); auto.
Qed.

(** normalising [3,1,2], [5,-4] gives [7/9, 5/9, 6/9], [1, 0] *)
Definition sfl (l : list b64) : list SpecFloat.spec_float := map B2SF l.
Example C28_example_pre : concat ex_rows <> [] /\ Forall (@nfin B64) (concat ex_rows) /\
  (forall u v, In u (concat ex_rows) -> In v (concat ex_rows) -> @nfin B64 (nsub (n := B64) u v)).
Proof.
  splits.
  - discriminate.
  - apply (finb_all (ts_of_list (N := B64) (concat ex_rows))). vm_compute. reflexivity.
  - assert (H : forallb (fun u => forallb (fun v => finb (Bminus mode_NE u v)) (concat ex_rows)) (concat ex_rows) = true)
      by (vm_compute; reflexivity).
    intros u v Hu Hv. rewrite forallb_forall in H. specialize (H u Hu). rewrite forallb_forall in H.
    specialize (H v Hv). apply andb_prop in H. exact H.
Qed.

Example C28_example_run :
  match normalize ex_data with
  | Ret (d', _) => match ds_data d' with Some b => Some (sfl b) | None => None end
  | _ => None
  end = Some (sfl (map (fun x => @ndiv B64 (b64_ofZ x) (b64_ofZ 9)) [7; 5; 6; 9; 0] ++ [b64_ofZ 0])).
Proof. vm_compute. reflexivity. Qed.

Lemma holds_single (vs : list b64) : Z.of_nat (length vs) <= int_max ->
  holds (mkDS (N := B64) (Some vs) [] [Z.of_nat (length vs)] 1 (Z.of_nat (length vs)) "f"%string false) [vs].
Proof.
  intros Hv. exists vs. unfold ds_data, ds_count, ds_maxcol, ds_lengths. splits; try reflexivity; try lia.
  { rewrite Z.mul_1_l. apply Z.le_refl. }
  { exact Hv. }
  intros i row E. destruct i as [|i]; [|destruct i; discriminate]. injection E as <-. splits; try reflexivity; try apply Z.le_refl.
  intros j v Ej. apply aget_Ret. split; [lia|]. cbn [Z.of_nat Z.mul]. rewrite Z.add_0_l, Nat2Z.id. exact Ej.
Qed.

(** The condition on differences is needed: with values -2^1023 and 2^1023 the
    range overflows and the larger value becomes NaN. *)
Definition wide_rows : list (list b64) := [map b64_ofZ [- 2 ^ 1023; 2 ^ 1023]].
Definition wide_data : dataset B64 :=
  mkDS (N := B64) (Some (map b64_ofZ [- 2 ^ 1023; 2 ^ 1023])) [] [2] 1 2 "f"%string false.

Theorem C28_overflow_refuted :
  holds wide_data wide_rows /\ Forall (@nfin B64) (concat wide_rows) /\
  exists d' p, normalize wide_data = Ret (d', p) /\
    exists t, getTimeSeries d' 0 0 2 = Ret t /\ ts_points t = [b64_ofZ 0; B754_nan].
Proof.
  assert (Hh : holds wide_data wide_rows) by (apply (holds_single (map b64_ofZ [- 2 ^ 1023; 2 ^ 1023])); unfold int_max; simpl; lia).
  split; [exact Hh|]. split.
  - apply (finb_all (ts_of_list (N := B64) (concat wide_rows))). vm_compute. reflexivity.
  - assert (E2 : match normalize wide_data with
                 | Ret (d', _) => match getTimeSeries d' 0 0 2 with
                                  | Ret t => Some (sfl (ts_points t)) | _ => None end
                 | _ => None end = Some [SpecFloat.S754_zero false; SpecFloat.S754_nan])
      by (vm_compute; reflexivity).
    destruct (normalize wide_data) as [[d' p]| | |]; try discriminate E2.
    exists d', p. split; auto.
    destruct (getTimeSeries d' 0 0 2) as [t| | |]; try discriminate E2.
    exists t. split; auto. injection E2 as E2. clear - E2.
    destruct (ts_points t) as [|x [|y [|z l]]]; try discriminate. injection E2 as Ex Ey.
    destruct x; try discriminate. destruct y; try discriminate. injection Ex as ->. reflexivity.
Qed.

Print Assumptions C31_subsequence_extraction.
Print Assumptions C28_normalise.
Print Assumptions C28_overflow_refuted.
