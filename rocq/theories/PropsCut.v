(** C72: saving a data set is interrupted.  The file then has the first [n] characters of
    the text, for some [n] ([substring 0 n text]). *)
From Coq Require Import String Ascii Lia ZArith.
From Flocq Require Import BinarySingleNaN.
From Verif Require Import Base Num NumB64 LoopFacts TSSet Loader DataSpec LoaderSpec LoaderProofs CutSpec CutProofs PrintDec.
From Verif Require PropsData PropsLoader PropsText.
Local Open Scope string_scope.
Local Open Scope Z_scope.

(** the fields of a saved file: the name, if there are names, and the printed values *)
Definition fields {N : Num} (put : D N -> string) (d : dataset N) (rows : list (list (D N))) : list (list string) :=
  match ds_names d with
  | [] => map (map put) rows
  | _ => map (fun p => fst p :: map put (snd p)) (combine (ds_names d) rows)
  end.
Definition has_names {N : Num} (d : dataset N) : bool := match ds_names d with [] => false | _ => true end.

Section Load.
Context {N : Num} (stod : string -> parsed (D N)) (put : D N -> string) (sep : ascii).
Variables (d : dataset N) (rows : list (list (D N))).
Hypothesis (Hd : holds d rows) (Hn : ds_names d = [] \/ length (ds_names d) = length rows) (Hnl : sep <> newline) (Hz : sep <> zero)
  (HN : Forall (clean sep) (ds_names d)) (HR : Forall (Forall (fun v => clean sep (put v))) rows)
  (Hsz : ds_count d * (ds_maxcol d + 1) <= int_max).
Let tbl := fields put d rows.
Let has := has_names d.

Lemma fields_is : fields put d rows = fields_of put (ds_names d) rows.
Proof. reflexivity. Qed.

Lemma rows_bound : Z.of_nat (length tbl) = ds_count d /\ 0 <= ds_maxcol d /\
  forall i r, nth_error tbl i = Some r -> b2z has <= Z.of_nat (length r) <= ds_maxcol d + 1.
Proof.
  pose proof Hd as (buf & Eb & Ec & Hc & Hbuf & Hr). unfold tbl. rewrite fields_is. rewrite (fields_of_length put _ _ Hn). splits; auto; try lia.
  intros i r Ei. destruct (nth_error rows i) as [row|] eqn:Er.
  - rewrite (fields_of_nth put _ _ _ _ Hn Er) in Ei. injection Ei as <-. destruct (Hr _ _ Er) as (_ & Hle & _). unfold has, has_names, b2z.
    rewrite app_length, map_length. destruct (ds_names d); cbn [length]; lia.
  - apply nth_error_None in Er. assert (X : nth_error (fields_of put (ds_names d) rows) i <> None) by congruence. apply nth_error_Some in X.
    rewrite (fields_of_length put _ _ Hn) in X. lia.
Qed.

Lemma fields_clean : Forall (Forall (clean sep)) tbl.
Proof.
  apply Forall_forall. intros r Hin. apply In_nth_error in Hin as [i Ei]. unfold tbl in Ei. rewrite fields_is in Ei.
  destruct (nth_error rows i) as [row|] eqn:Er.
  - rewrite (fields_of_nth put _ _ _ _ Hn Er) in Ei. injection Ei as <-. apply Forall_app. split.
    + destruct (ds_names d) as [|a l] eqn:E; [constructor|]. constructor; [|constructor]. rewrite Forall_forall in HN. apply HN.
      apply nth_In. destruct Hn as [|Hn']; [discriminate|]. rewrite Hn'. apply nth_error_Some. congruence.
    + apply nth_error_In in Er. rewrite Forall_forall in HR. specialize (HR _ Er). clear -HR. induction HR; simpl; constructor; auto.
  - apply nth_error_None in Er. assert (X : nth_error (fields_of put (ds_names d) rows) i <> None) by congruence. apply nth_error_Some in X.
    rewrite (fields_of_length put _ _ Hn) in X. lia.
Qed.

Lemma left_bound tbl' : what_is_left tbl tbl' -> Z.of_nat (length tbl') <= ds_count d /\ forall r, In r tbl' -> b2z has <= Z.of_nat (length r) <= ds_maxcol d + 1.
Proof.
  destruct rows_bound as (B1 & B2 & B3). intros [k [->|(r & r' & Er & (j & part & Hp & ->) & Hne & ->)]].
  - split; [rewrite firstn_length; lia|]. intros r Hin. assert (In r tbl) as Hin' by (rewrite <- (firstn_skipn k tbl); apply in_or_app; auto).
    apply In_nth_error in Hin' as [i Ei]. eauto.
  - assert (k < length tbl)%nat by (apply nth_error_Some; congruence). split; [rewrite app_length, firstn_length; cbn [length]; lia|].
    intros x Hin. apply in_app_or in Hin. destruct Hin as [Hin|[<-|[]]].
    + assert (In x tbl) as Hin' by (rewrite <- (firstn_skipn k tbl); apply in_or_app; auto). apply In_nth_error in Hin' as [i Ei]. eauto.
    + specialize (B3 k r Er). split.
      * assert (b2z has <= 1) by (unfold b2z; destruct has; lia). destruct (firstn j r ++ part)%list as [|a l] eqn:E; [contradiction|]. cbn [length]. lia.
      * rewrite app_length, firstn_length. destruct Hp as [->|(w & f & -> & Hf & _)]; cbn [length]; [lia|].
        assert (j < length r)%nat by (apply nth_error_Some; congruence). lia.
Qed.

(** loading any such table *)
Lemma load_left tbl' ls text (fs : files) path' : what_is_left tbl tbl' -> has_lines text ls -> Forall2 (has_fields (String sep "")) ls tbl' ->
  fs path' = Some (mkFile text None) ->
  match table stod (map (skipn (if has then 1 else 0)) tbl') with
  | Ret rows' => exists d', loadData stod fs ds_new path' 0 0 (String sep "") has = (d', Ret tt) /\ (tbl' <> [] -> holds d' rows') /\ (tbl' = [] -> ds_count d' = 0) /\
      ds_names d' = (if has then map (hd "") tbl' else [])
  | Throw e => exists d', loadData stod fs ds_new path' 0 0 (String sep "") has = (d', Throw e) /\ ds_data d' = None /\ ds_count d' = 0
  | _ => False
  end.
Proof.
  intros Hleft Hl HF Ef. destruct (left_bound tbl' Hleft) as [L1 L2]. destruct rows_bound as (B1 & B2 & _).
  destruct tbl' as [|r0 tbl0] eqn:Et.
  { inversion HF; subst ls. destruct Hl as [_ [Hl|(ls' & l & E & _)]]; [|destruct ls'; discriminate]. cbn in Hl. subst text. cbn [map table].
    destruct has; (eexists; split; [unfold loadData; rewrite Ef; cbn; reflexivity|]); splits; auto; intros C; elim C; reflexivity. }
  rewrite <- Et in *. assert (Hne : tbl' <> []) by (rewrite Et; discriminate). clear Et r0 tbl0.
  assert (Hcs : c_str (String sep "") = String sep "") by (simpl; destruct (Ascii.eqb_spec sep zero); [contradiction|reflexivity]).
  destruct (widest_ex tbl' Hne) as [m Hm].
  pose proof (load_ok stod fs ds_new path' text 0 0 (String sep "") has ls tbl' m Ef Hl) as L. unfold wanted in L. cbn [Z.leb Z.compare] in L. rewrite Hcs in L.
  specialize (L HF). assert (A : ls <> []) by (intros ->; inversion HF; subst; contradiction). specialize (L A (Z.le_refl 0) eq_refl Hm).
  assert (A3 : forall r, In r tbl' -> 0 + b2z has <= Z.of_nat (length r)) by (intros r Hr; specialize (L2 r Hr); lia). specialize (L A3).
  assert (A4 : Z.of_nat (length tbl') * m <= int_max).
  { destruct Hm as [_ (r & Hin & <-)]. specialize (L2 r Hin). assert (0 <= Z.of_nat (length tbl')) by lia. nia. }
  specialize (L A4). replace (Z.to_nat (0 + b2z has)) with (if has then 1 else 0)%nat in L by (destruct has; reflexivity).
  destruct (table stod (map (skipn (if has then 1 else 0)) tbl')) as [rows'|e| |]; auto.
  destruct L as (d' & M1 & M2 & M3 & M4 & M5 & M6). exists d'. splits; auto; [intros C; contradiction|]. rewrite M4. destruct has; [|reflexivity].
  apply map_ext. intros [|x r]; reflexivity.
Qed.
End Load.

(** Wherever the file is cut off, loading it gives the rows that are left, and the last one
    as far as it is there; an exception is possible only for the cut number itself. *)
Theorem C72_every_cut : forall (N : Num) (stod : string -> parsed (D N)) (put : D N -> string)
  (sep : ascii) (d : dataset N) (rows : list (list (D N))) (path : string),
  holds d rows -> ds_names d = [] \/ length (ds_names d) = length rows ->
  sep <> newline -> sep <> zero ->
  Forall (clean sep) (ds_names d) -> Forall (Forall (fun v => clean sep (put v))) rows ->
  ds_count d * (ds_maxcol d + 1) <= int_max ->
  exists text, saveData put true d path sep = Ret text /\
  forall n : nat, exists tbl, what_is_left (fields put d rows) tbl /\
  forall (fs : files) (path' : string), fs path' = Some (mkFile (substring 0 n text) None) ->
  match table stod (map (skipn (if has_names d then 1 else 0)) tbl) with
  | Ret rows' => exists d', loadData stod fs ds_new path' 0 0 (String sep "") (has_names d) = (d', Ret tt) /\ (tbl <> [] -> holds d' rows') /\ (tbl = [] -> ds_count d' = 0) /\
      ds_names d' = (if has_names d then map (hd "") tbl else [])
  | Throw e => exists d', loadData stod fs ds_new path' 0 0 (String sep "") (has_names d) = (d', Throw e) /\ ds_data d' = None /\ ds_count d' = 0
  | _ => False
  end.
Proof.
  intros N stod put sep d rows path Hd Hn Hnl Hz HN HR Hsz. eexists. split; [apply (saveData_ok put sep d rows path Hd Hn)|].
  intros n. destruct (cut_text sep Hnl _ (fields_clean put sep d rows Hn HN HR) n) as (tbl & ls & H1 & H2 & H3).
  exists tbl. split; [exact H1|]. intros fs path' Ef. eapply load_left; eauto.
Qed.

(** It is not true that an interrupted save is noticed: the file of every data set can
    end too early in such a way that loading it succeeds, with any number of the first
    series (one at least), and without the others. *)
Theorem C72_noticed_refuted : forall (N : Num) (stod : string -> parsed (D N)) (put : D N -> string)
  (sep : ascii) (d : dataset N) (rows : list (list (D N))) (path : string) (k : nat),
  holds d rows -> ds_names d = [] \/ length (ds_names d) = length rows ->
  sep <> newline -> sep <> zero ->
  Forall (clean sep) (ds_names d) -> Forall (Forall (fun v => clean sep (put v) /\ stod (put v) = Parsed v)) rows ->
  ds_count d * (ds_maxcol d + 1) <= int_max -> (0 < k < length rows)%nat ->
  exists text n, saveData put true d path sep = Ret text /\ (n < String.length text)%nat /\
  forall (fs : files) (path' : string), fs path' = Some (mkFile (substring 0 n text) None) ->
  exists d', loadData stod fs ds_new path' 0 0 (String sep "") (has_names d) = (d', Ret tt) /\
    holds d' (firstn k rows) /\ ds_names d' = firstn k (ds_names d).
Proof.
  intros N stod put sep d rows path k Hd Hn Hnl Hz HN HR Hsz Hk.
  assert (HR1 : Forall (Forall (fun v => clean sep (put v))) rows) by (revert HR; apply Forall_impl; intros r; apply Forall_impl; tauto).
  pose proof (fields_clean put sep d rows Hn HN HR1) as HC. set (tbl := fields put d rows) in *.
  assert (Hlen : length tbl = length rows) by (apply fields_of_length; auto).
  destruct (lines_text sep tbl k) as (n & Hlt & E).
  exists (text_of (map (line_of sep) tbl)), n. split; [apply (saveData_ok put sep d rows path Hd Hn)|]. split.
  { destruct (nth_error tbl k) as [r|] eqn:Er; [apply (Hlt r eq_refl)|]. apply nth_error_None in Er. lia. }
  intros fs path' Ef. rewrite E in Ef.
  assert (HC' : Forall (Forall (clean sep)) (firstn k tbl)).
  { rewrite <- (firstn_skipn k tbl) in HC. apply Forall_app in HC. apply HC. }
  pose proof (load_left stod put sep d rows Hd Hn Hz HN Hsz (firstn k tbl) (map (line_of sep) (firstn k tbl)) (text_of (map (line_of sep) (firstn k tbl))) fs path') as L.
  fold tbl in L. specialize (L (ex_intro _ k (or_introl eq_refl))).
  assert (A1 : has_lines (text_of (map (line_of sep) (firstn k tbl))) (map (line_of sep) (firstn k tbl))).
  { split; [|left; reflexivity]. apply Forall_map. revert HC'. apply Forall_impl. intros r. apply line_of_line. exact Hnl. }
  assert (A2 : Forall2 (has_fields (String sep "")) (map (line_of sep) (firstn k tbl)) (firstn k tbl)).
  { clear -HC'. induction HC'; simpl; constructor; auto. apply line_of_fields; auto. }
  specialize (L A1 A2 Ef).
  assert (T : table stod (map (skipn (if has_names d then 1 else 0)) (firstn k tbl)) = Ret (firstn k rows)).
  { replace (map (skipn (if has_names d then 1 else 0)) (firstn k tbl)) with (map (map put) (firstn k rows)).
    - rewrite <- (firstn_skipn k rows) in HR. apply Forall_app in HR. destruct HR as [HR _]. clear -HR.
      induction HR as [|r rs Hr HR IH]; [reflexivity|]. cbn [map table]. rewrite IH.
      assert (E : numbers stod (map put r) = Ret r).
      { clear -Hr. induction Hr as [|v r [_ Hv] Hr IH]; [reflexivity|]. simpl. rewrite Hv, IH. reflexivity. }
      rewrite E. reflexivity.
    - rewrite <- !firstn_map. f_equal. unfold tbl, fields, has_names. destruct (ds_names d) as [|a l] eqn:En.
      + rewrite map_map. apply map_ext. reflexivity.
      + destruct Hn as [|Hn]; [discriminate|]. clear -Hn. revert rows Hn. generalize (a :: l). clear.
        induction l as [|a l IH]; intros [|r rows] Hn; try discriminate; [reflexivity|]. cbn in *. f_equal. apply IH. lia. }
  rewrite T in L. destruct L as (d' & L1 & L2 & _ & L3). exists d'. splits; auto; [apply L2; destruct k; [lia|]; destruct tbl; [cbn in Hlen; lia|discriminate]|]. rewrite L3. unfold tbl, fields, has_names.
  destruct (ds_names d) as [|a l] eqn:En; [destruct k; reflexivity|]. destruct Hn as [|Hn]; [discriminate|]. rewrite <- firstn_map. clear -Hn. f_equal.
  revert rows Hn. generalize (a :: l). clear. induction l as [|a l IH]; intros [|r rows] Hn; try discriminate; [reflexivity|]. cbn in *. f_equal. apply IH. lia.
Qed.

(** Nothing is noticed either when the file ends inside of a number: 12 becomes 1. *)
Definition one_value (a : b64) : dataset B64 := mkDS (N := B64) (Some [a]) [] [1] 1 1 "f" false.
Lemma one_holds a : holds (N := B64) (one_value a) [[a]].
Proof.
  exists [a]. splits; try reflexivity; try (unfold int_max; simpl; lia).
  intros i row E. destruct i as [|i]; [|destruct i; discriminate]; injection E as <-; splits; try reflexivity;
    try (simpl; lia); intros j v Ej; destruct j as [|j]; [injection Ej as <-; reflexivity|destruct j; discriminate].
Qed.
Theorem C72_value_refuted : exists text n, saveData (N := B64) (put_double 6) true (one_value (b64_ofZ 12)) "f" "," = Ret text /\
  holds (N := B64) (one_value (b64_ofZ 12)) [[b64_ofZ 12]] /\ (n < String.length text)%nat /\
  forall (fs : files) (path' : string), fs path' = Some (mkFile (substring 0 n text) None) ->
  exists d' : dataset B64, loadData (N := B64) stod_double fs ds_new path' 0 0 "," false = (d', Ret tt) /\ holds d' [[b64_ofZ 1]].
Proof.
  exists ("12," ++ PropsLoader.nl1), 1%nat. split; [vm_compute; reflexivity|]. split; [apply one_holds|]. split; [cbn; lia|]. intros fs path' Ef.
  assert (Ep : put_double 6 (b64_ofZ 12) = "12") by (vm_compute; reflexivity).
  assert (Ev : stod_double "1" = Parsed (b64_ofZ 1)).
  { assert (E1 : put_double 6 (b64_ofZ 1) = "1") by (vm_compute; reflexivity). rewrite <- E1. destruct (PropsText.int_ordinary 1 ltac:(lia)) as (F & V & O).
    apply PropsText.C71_short_numbers; [lia|exact O|]. exists 1, 0. split; [reflexivity|]. change (Raux.bpow DecReal.radix10 0) with (Rdefinitions.IZR 1).
    rewrite RIneq.Rmult_1_r, <- V. symmetry. apply DecRound.near_id. exact F. }
  destruct PropsText.comma_ok as (_ & Snl & Sz).
  pose proof (load_left (N := B64) stod_double (put_double 6) "," (one_value (b64_ofZ 12)) [[b64_ofZ 12]] (one_holds _) (or_introl eq_refl) Sz (Forall_nil _)) as L.
  specialize (L ltac:(cbn; unfold int_max; lia) [["1"]] ["1"] "1" fs path').
  assert (A1 : what_is_left (fields (N := B64) (put_double 6) (one_value (b64_ofZ 12)) [[b64_ofZ 12]]) [["1"]]).
  { assert (F : fields (N := B64) (put_double 6) (one_value (b64_ofZ 12)) [[b64_ofZ 12]] = [["12"]]) by (rewrite <- Ep; reflexivity).
    rewrite F. clear. exists O. right. exists ["12"], ["1"]. split; [reflexivity|]. split; [|split; [discriminate|reflexivity]].
    exists O, ["1"]. split; [|reflexivity]. right. exists "1", "12". splits; try reflexivity; try discriminate. exists "2". reflexivity. }
  assert (A2 : has_lines "1" ["1"]).
  { split; [repeat constructor; discriminate|]. right. exists [], "1". splits; try reflexivity. discriminate. }
  assert (A3 : Forall2 (has_fields (String "," "")) ["1"] [["1"]]).
  { clear. constructor; [|constructor]. apply (fields_cons _ "" "1" "" []); try exact I; try discriminate; auto; [|constructor; exact I].
    split; [|exact I]. unfold sep_char. cbn. discriminate. }
  specialize (L A1 A2 A3 Ef). cbn [has_names one_value ds_names map skipn table numbers] in L. rewrite Ev in L. cbn [bind] in L.
  destruct L as (d' & L1 & L2 & _). exists d'. split; [exact L1|]. apply L2. discriminate.
Qed.

(** A file that is empty is loaded as well; if names are expected, the length of the
    longest series is then said to be -1. *)
Theorem C72_empty_file : forall (N : Num) (stod : string -> parsed (D N)) (fs : files) (path : string) (sep : ascii) (has : bool),
  fs path = Some (mkFile "" None) ->
  exists d', loadData stod fs ds_new path 0 0 (String sep "") has = (d', Ret tt) /\ ds_count d' = 0 /\ ds_maxcol d' = (if has then -1 else 0).
Proof. intros N stod fs path sep has Ef. destruct has; (eexists; split; [unfold loadData; rewrite Ef; cbn; reflexivity|]; split; reflexivity). Qed.

(** ** Non-vacuity *)
Example C72_example : exists text n, saveData (N := B64) PropsLoader.putZ true PropsLoader.ex_saved "g" ";" = Ret text /\ (n < String.length text)%nat /\
  forall (fs : files) (path' : string), fs path' = Some (mkFile (substring 0 n text) None) ->
  exists d', loadData (N := B64) PropsLoader.stodZ fs ds_new path' 0 0 ";" true = (d', Ret tt) /\ holds d' (firstn 1 PropsData.ex_rows) /\ ds_names d' = ["p"].
Proof.
  destruct PropsLoader.C30_example as (H1 & H2 & H3 & H4 & H5 & _).
  apply (C72_noticed_refuted B64 PropsLoader.stodZ PropsLoader.putZ ";" PropsLoader.ex_saved PropsData.ex_rows "g" 1); auto; try discriminate.
Qed.

Print Assumptions C72_every_cut.
Print Assumptions C72_noticed_refuted.
Print Assumptions C72_value_refuted.
Print Assumptions C72_empty_file.
