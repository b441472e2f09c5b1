(** Property C76: loading any text file and keeping data sets, over all histories of calls.
    Specification: LoaderSpec.v ([has_lines], [has_fields], [wanted]), ApiSpec.v ([run],
    [ends]), ManageSpec.v ([regular], [tidy]). *)
From Coq Require Import String Ascii.
From Verif Require Import Base Num NumB64 NumLaws NumFacts LoopFacts TimeSeries Distance TSSet Candidate Group GroupSpace GroupDist Loader LoaderSpec LoaderProofs
  DataSpec DataProofs Api ApiSpec ApiProofs ApiQuery HeapFacts ManageSpec Manage PropsApi PropsGroup.
From Verif Require PropsLoader PropsNames PropsTurn.
Local Open Scope Z_scope.
Local Open Scope list_scope.

(** ** any file *)

(** Loading ends, regularly or with the library's own exception, whatever is in the file:
    for every text (also with lines of any lengths and things that are no numbers), every
    point at which the device fails, all separators and numbers of rows, and in every state
    of the program.  The start column must not be negative and the table must fit into an
    int. *)
Theorem C76_load_ends : forall (N : Num) (r0 : D N) (h : list event) (s : api N) e n path seps mr start has, run r0 h s ->
  0 <= start <= int_max ->
  (forall f ls tbl, e_files e path = Some f -> has_lines (tf_text f) ls -> Forall2 (has_fields (c_str seps)) ls tbl ->
     forall r, In r tbl -> Z.of_nat (length (wanted mr tbl)) * Z.of_nat (length r) <= int_max) ->
  match snd (exec e (CLoad n path seps mr start has) s) with
  | Ret (AInfo i) => i_name i = n
  | Throw (GenexExc _) => True
  | _ => False
  end.
Proof.
  intros N r0 h s e n path seps mr start has Hrun H0 Hsz. pose proof (run_good r0 h s Hrun) as G.
  pose proof (loadData_calm (e_stod e) (e_files e) ds_new path mr start seps has H0 Hsz) as C.
  destruct (exec e (CLoad n path seps mr start has) s) as [s' r] eqn:E. cbn [snd].
  assert (Hr : ends r).
  { cbn [exec] in E. destruct (assoc n (a_sets s)); [injection E as _ <-; exact I|].
    destruct (loadData _ _ _ _ _ _ _ _) as [d o]. cbn [snd] in C. destruct o as [[]|[m|m]| |]; cbn in C; try contradiction; [|injection E as _ <-; exact I].
    unfold pure, getDatasetInfo, find_set, find_id, deref_set in E. cbn [a_sets a_objs] in E. rewrite assoc_put, String.eqb_refl in E by apply G. cbn [bind] in E.
    rewrite nth_error_app2, Nat.sub_diag in E by lia. cbn in E. injection E as _ <-. exact I. }
  destruct (load_spec e s n path seps mr start has s' r G E Hr) as
    [(_ & _ & ->)|(_ & _ & d & o & El & [(x & -> & -> & _)|(i & -> & -> & Hi & _)])]; [exact I| |exact Hi].
  rewrite El in C. exact C.
Qed.
Print Assumptions C76_load_ends.

(** ** keeping data sets *)
Lemma norm_dec {N : Num} (c : call N) n : c = CNormalize n \/ c <> CNormalize n.
Proof. destruct c; try (right; discriminate). destruct (string_dec name n) as [->|Hne]; [auto|right; congruence]. Qed.

Lemma tidy_fit {N : Num} (r0 : D N) h s : tidy r0 h s -> forall n g, held s n = Some g -> fit (gt_data g).
Proof.
  induction 1 as [|h s e c s' r HT IH Hreg E Hr]; intros n g' Hg'; [discriminate|].
  pose proof (tidy_run _ _ _ HT) as Hrun. pose proof (run_good _ _ _ Hrun) as G.
  destruct (held s n) as [g|] eqn:Hg.
  - specialize (IH n g Hg). destruct (norm_dec c n) as [->|D].
    + cbn [exec] in E. destruct (on_set_spec s n _ s' r G E) as [(Hn & _)|(g0 & g1 & Hg0 & Ef & _ & Hg1 & _)]; [congruence|].
      assert (g0 = g) by congruence. assert (g1 = g') by congruence. subst g0 g1. unfold or_same in Ef.
      destruct (normalize (gt_data g)) as [[d [a b]]| | |] eqn:En; cbn in Ef; injection Ef as <- _; try exact IH.
      exact (fit_normalize _ _ _ IH En).
    + rewrite (C32_values N r0 h s e c s' r n g g' Hrun E Hr Hg Hg' D). exact IH.
  - assert (Un : forall c', In n (needs c') -> exec e c' s = (s', r) -> False).
    { intros c' Hn E'. rewrite (unknown_name e c' s n G Hn Hg) in E'. injection E' as <- <-. congruence. }
    destruct c; try (rewrite (proj2 (exec_good e _ s s' r G E Hr) n ltac:(cbn; tauto)) in Hg'; congruence);
      try (match type of E with exec _ ?c _ = _ => destruct (string_dec n name) as [Hnm|Hnm];
             [|rewrite (proj2 (exec_good e c s s' r G E Hr) n ltac:(cbn; congruence)) in Hg'; congruence] end; subst name).
    + destruct (load_spec e s _ _ _ _ _ _ s' r G E Hr) as [(Hn & _)|(_ & _ & d & o & El & [(x & _ & _ & Hh & _)|(i & -> & _ & _ & Hh & _)])].
      * congruence.
      * rewrite Hh in Hg'. congruence.
      * assert (g' = mkGS d None) by congruence. subst g'. exact (loaded_fit e d path separators maxNumRow startCol hasName Hreg El).
    + exfalso. eapply Un; [|exact E]. left. reflexivity.
    + destruct (unload_all_spec e s s' r G E) as (_ & _ & Hh & _). rewrite Hh in Hg'. discriminate.
    + exfalso. eapply Un; [|exact E]. left. reflexivity.
    + exfalso. eapply Un; [|exact E]. left. reflexivity.
    + exfalso. eapply Un; [|exact E]. left. reflexivity.
    + exfalso. eapply Un; [|exact E]. left. reflexivity.
    + destruct (string_dec n target) as [<-|Hnm];
        [|rewrite (proj2 (exec_good e _ s s' r G E Hr) n ltac:(cbn; congruence)) in Hg'; congruence].
      exfalso. eapply Un; [|exact E]. left. reflexivity.
    + destruct (string_dec n target) as [<-|Hnm];
        [|rewrite (proj2 (exec_good e _ s s' r G E Hr) n ltac:(cbn; congruence)) in Hg'; congruence].
      exfalso. eapply Un; [|exact E]. left. reflexivity.
Qed.

(** the calls that load, save, look at and normalise data sets *)
Definition managing {N : Num} (c : call N) : Prop :=
  match c with
  | CSave _ _ _ | CUnload _ | CUnloadAll | CCount | CSeriesName _ _ | CAllDistances | CSeries _ _ _ _ | CNormalize _ | CRatio _ => True
  | _ => False
  end.

Lemma getTimeSeries_ends {N : Num} (d : dataset N) i a b : fit d -> ends (getTimeSeries d i a b).
Proof.
  intros F. unfold getTimeSeries. destruct (Z.ltb_spec i 0) as [|Hi]; [exact I|]. destruct (Z.leb_spec (ds_count d) i) as [|Hc]; [exact I|]. cbn [orb].
  destruct F as [(rows & Hh & _)|[F _]]; [|lia].
  destruct (row_of rows i) as [row|] eqn:Er.
  2:{ unfold row_of in Er. destruct (Z.ltb_spec i 0); [lia|]. apply nth_error_None in Er. destruct Hh as (buf & _ & Ec & _). lia. }
  destruct (holds_row d rows i row Hh Er) as (buf & _ & _ & El & _ & _ & Ep & _).
  rewrite El, Ep. destruct ((a <? 0) && (b <? 0)); [exact I|]. cbv zeta. destruct ((a <? 0) || (b <=? a)); [exact I|]. cbn [bind].
  destruct (Z.of_nat (length row) <? b); exact I.
Qed.

(** After any calls, all files loaded being regular, each of these calls ends, whatever its
    arguments are and whatever the values are (infinities and NaN among them). *)
Theorem C76_managed : forall (N : Num) (r0 : D N) (h : list event) (s : api N) e c, tidy r0 h s -> managing c ->
  ends (snd (exec e c s)).
Proof.
  intros N r0 h s e c HT Hc. pose proof (run_good r0 h s (tidy_run r0 h s HT)) as G.
  assert (U : forall c' n, In n (needs c') -> held s n = None -> ends (snd (exec e c' s))).
  { intros c' n Hn Hh. rewrite (unknown_name e c' s n G Hn Hh). exact I. }
  destruct c; cbn in Hc; try contradiction; try exact I;
    (destruct (held s name) as [g|] eqn:Hg; [|eapply U; [left; reflexivity|exact Hg]]);
    pose proof (tidy_fit r0 h s HT name g Hg) as F; destruct (held_find s name g G Hg) as (id & Fi & Fd & Fs);
    cbn [exec]; unfold pure, on_set; rewrite ?Fi, ?Fd, ?Fs; cbn [bind snd].
  - assert (K : ends (saveData (e_put e) (e_writable e path) (gt_data g) path separator)).
    { destruct (e_writable e path); [|exact I]. destruct F as [(rows & Hh & Hn)|[F _]].
      - rewrite (saveData_ok (e_put e) separator (gt_data g) rows path Hh Hn). exact I.
      - unfold saveData, for_. rewrite F. exact I. }
    destruct (saveData _ _ _ _ _); cbn in *; auto.
  - exact I.
  - unfold getTimeSeriesName. destruct (Z.ltb_spec index 0) as [|Hi]; [exact I|]. destruct (ds_count (gt_data g) <=? index); [exact I|]. cbn [orb].
    destruct (Z.ltb_spec index (Z.of_nat (length (ds_names (gt_data g))))); [|exact I]. destruct (aget_in (ds_names (gt_data g)) index ltac:(lia)) as [x ->]. exact I.
  - pose proof (getTimeSeries_ends (gt_data g) index start end_ F) as K. destruct (getTimeSeries _ _ _ _); cbn in *; auto.
  - assert (K : ends (normalize (gt_data g))).
    { destruct F as [(rows & Hh & _)|[F _]].
      - assert (Hr : rows = [] \/ rows <> []) by (destruct rows; [left; reflexivity|right; discriminate]). destruct Hr as [->|Hr].
        + destruct Hh as (buf & _ & Ec & _). unfold normalize. rewrite Ec. exact I.
        + destruct (normalize_any (gt_data g) rows Hh Hr) as (d' & p & rows' & -> & _). exact I.
      - unfold normalize. rewrite F. exact I. }
    destruct (normalize (gt_data g)) as [[d [x y]]| | |]; cbn in *; auto.
Qed.
Print Assumptions C76_managed.

(** Asking for the length of a series ends as well, in every state, if there is such a series
    (for others see C47_length_refuted). *)
Theorem C76_length : forall (N : Num) (r0 : D N) (h : list event) (s : api N) e e' n i a, run r0 h s ->
  exec e (CSeriesName n i) s = (s, Ret a) -> exists l, exec e' (CSeriesLength n i) s = (s, Ret (AInt l)).
Proof.
  intros N r0 h s e e' n i a Hrun E. pose proof (run_good r0 h s Hrun) as G.
  destruct (held s n) as [g|] eqn:Hg; [|rewrite (unknown_name e (CSeriesName n i) s n G (or_introl eq_refl) Hg) in E; discriminate].
  destruct (held_find s n g G Hg) as (id & _ & _ & Fs). pose proof (proj1 (run_lengths r0 h s Hrun n g Hg)) as Hl.
  cbn [exec] in *. unfold pure in *. rewrite Fs in *. cbn [bind] in *. unfold getTimeSeriesName in E.
  destruct (Z.ltb_spec i 0); [discriminate|]. destruct (Z.leb_spec (ds_count (gt_data g)) i); [discriminate|].
  unfold getItemLength. destruct (aget_in (ds_lengths (gt_data g)) i ltac:(lia)) as [l ->]. exists l. reflexivity.
Qed.
Print Assumptions C76_length.

(** The description of a data set that was not grouped can be asked for in every state.
    (After a grouping that failed it is undefined: C33_failed_grouping_refuted.) *)
Definition makes_groups {N : Num} (c : call N) (n : string) : Prop :=
  match c with CGroup m _ _ _ _ | CLoadGroups m _ | CLoadText m _ => m = n | _ => False end.

Lemma ungrouped {N : Num} (r0 : D N) h s n : run r0 h s -> (forall ev, In ev h -> ~ makes_groups (fst ev) n) ->
  forall g, held s n = Some g -> gt_groups g = None.
Proof.
  induction 1 as [|h s e c s' r Hrun IH E Hr]; intros Hev g' Hg'; [discriminate|]. pose proof (run_good _ _ _ Hrun) as G.
  specialize (IH ltac:(intros ev Hin; apply Hev, in_or_app; left; exact Hin)).
  assert (Hc : ~ makes_groups c n) by (apply (Hev (c, r)), in_or_app; right; left; reflexivity).
  assert (Keep : held s' n = held s n -> gt_groups g' = None) by (intros K; apply IH; congruence).
  pose proof (proj2 (exec_good e c s s' r G E Hr) n) as Ho.
  assert (Onset : forall m f, on_set s m f = (s', r) -> (forall g0 g1, m = n -> gt_groups g0 = None -> f g0 = (g1, r) -> gt_groups g1 = None) -> gt_groups g' = None).
  { intros m f Eo Hf. destruct (on_set_spec s m f s' r G Eo) as [(_ & -> & _)|(g0 & g1 & Hg0 & Ef & _ & Hg1 & Hm & _)]; [apply Keep; reflexivity|].
    destruct (string_dec n m) as [->|Hne]; [|apply Keep, Hm, Hne]. assert (g1 = g') by congruence. subst g1. apply (Hf g0 g' eq_refl (IH g0 Hg0) Ef). }
  destruct c; try (apply Keep, Ho; cbn; tauto).
  - destruct (load_spec e s _ _ _ _ _ _ s' r G E Hr) as [(_ & -> & _)|(_ & _ & d & o & El & [(x & _ & _ & Hh & _)|(i & _ & _ & _ & Hh & Hh' & _)])].
    + apply Keep. reflexivity.
    + apply Keep, Hh.
    + destruct (string_dec n name) as [->|Hne]; [|apply Keep, Hh', Hne]. rewrite Hh in Hg'. injection Hg' as <-. reflexivity.
  - destruct (unload_spec e s _ s' r G E) as [(_ & -> & _)|(_ & _ & _ & Hnone & Hh & _)]; [apply Keep; reflexivity|].
    destruct (string_dec n name) as [->|Hne]; [congruence|apply Keep, Hh, Hne].
  - destruct (unload_all_spec e s s' r G E) as (_ & _ & Hh & _). rewrite Hh in Hg'. discriminate.
  - cbn [exec] in E. apply (Onset _ _ E). intros g0 g1 _ H0 Ef. unfold or_same in Ef.
    destruct (normalize (gt_data g0)) as [[d [x y]]| | |]; cbn in Ef; injection Ef as <- _; exact H0.
  - cbn [exec] in E. destruct (query_series s target query index start end_) as [q| | |]; cbn in E; try (injection E as <- _; apply Keep; reflexivity).
    apply (Onset _ _ E). intros g0 g1 _ H0 Ef. unfold getBestMatch in Ef. rewrite H0 in Ef. cbn in Ef. injection Ef as <- _. exact H0.
  - cbn [exec] in E. destruct (query_series s target query index start end_) as [q| | |]; cbn in E; try (injection E as <- _; apply Keep; reflexivity).
    apply (Onset _ _ E). intros g0 g1 _ H0 Ef. unfold getKBestMatches in Ef. rewrite H0 in Ef. cbn in Ef. injection Ef as <- _. exact H0.
Qed.

Theorem C76_description : forall (N : Num) (r0 : D N) (h : list event) (s : api N) e, run r0 h s ->
  (forall n, (forall ev, In ev h -> ~ makes_groups (fst ev) n) -> ends (snd (exec e (CInfo n) s))) /\
  ((forall ev n, In ev h -> ~ makes_groups (fst ev) n) -> ends (snd (exec e CAllInfo s))).
Proof.
  intros N r0 h s e Hrun. pose proof (run_good r0 h s Hrun) as G.
  assert (K : forall n, (forall ev, In ev h -> ~ makes_groups (fst ev) n) -> ends (getDatasetInfo s n)).
  { intros n Hev. unfold getDatasetInfo. destruct (held s n) as [g|] eqn:Hg.
    - destruct (held_find s n g G Hg) as (id & _ & _ & ->). cbn [bind]. unfold getThreshold. rewrite (ungrouped r0 h s n Hrun Hev g Hg). exact I.
    - pose proof (unknown_name e (CInfo n) s n G (or_introl eq_refl) Hg) as E. cbn [exec] in E. unfold pure, getDatasetInfo in E.
      injection E as E. destruct (find_set s n) as [g| | |]; cbn in *; try discriminate; try exact I. destruct (getThreshold g); cbn in *; try discriminate; exact I. }
  split.
  - intros n Hev. specialize (K n Hev). cbn [exec]. unfold pure. cbn [snd]. destruct (getDatasetInfo s n); cbn in *; auto.
  - intros Hev. cbn [exec]. unfold pure. cbn [snd]. generalize (map fst (a_sets s)). intros l.
    assert (L : ends (each_info s l)).
    { induction l as [|n l IH]; cbn [each_info]; [exact I|]. specialize (K n (fun ev Hin => Hev ev n Hin)).
      destruct (getDatasetInfo s n); cbn in *; auto. destruct (each_info s l); cbn in *; auto. }
    destruct (each_info s l); cbn in *; auto.
Qed.
Print Assumptions C76_description.

(** Grouping ends, with any distance name and number of threads, for data of at least one
    column and a threshold that can be halved without giving infinity (otherwise see
    C16_infinite_threshold_refuted), if writing the progress log is safe. *)
Theorem C76_grouping : forall (N : Num) (LW : NumLaws N) (r0 : D N) (h : list event) (s : api N) e n g thr dist threads whole, tidy r0 h s ->
  held s n = Some g -> 1 <= ds_maxcol (gt_data g) -> nltb (ndiv thr (nofZ 2)) ninf = true -> log_safe (gt_data g) (e_clock e) ->
  ends (snd (exec e (CGroup n thr dist threads whole) s)).
Proof.
  intros N LW r0 h s e n g thr dist threads whole HT Hg Hm Hthr Hlog. pose proof (tidy_run r0 h s HT) as Hrun. pose proof (run_good r0 h s Hrun) as G.
  destruct (held_find s n g G Hg) as (id & Fi & Fd & Fs). cbn [exec]. unfold on_set. rewrite Fi, Fd.
  assert (K : ends (snd (groupAllLengths (e_clock e) (a_ratio s) g dist thr threads whole))).
  { destruct (Z_le_gt_dec 1 threads) as [Ht|Ht]; [destruct (in_dec string_dec dist groupable) as [Hd|Hd]|].
    - destruct (tidy_fit r0 h s HT n g Hg) as [(rows & Hh & _)|[_ F]]; [|lia]. destruct g as [d old]. cbn [gt_data] in *.
      destruct (C16_grouping_partitions N LW d rows old (e_clock e) (a_ratio s) dist thr threads whole Hh Hd Hthr Hm Ht Hlog) as (g' & total & -> & _). exact I.
    - destruct (failing_group (e_clock e) (a_ratio s) g dist thr threads whole (proj2 (run_lengths r0 h s Hrun n g Hg)) (or_intror Hd)) as (gs & x & -> & _). exact I.
    - destruct (failing_group (e_clock e) (a_ratio s) g dist thr threads whole (proj2 (run_lengths r0 h s Hrun n g Hg)) (or_introl (Z.gt_lt _ _ Ht))) as (gs & x & -> & _). exact I. }
  destruct (groupAllLengths _ _ _ _ _ _ _) as [g' r]. cbn [snd] in *. destruct r; cbn in *; auto.
Qed.
Print Assumptions C76_grouping.

(** ** C76 is false otherwise *)

(** A negative start column: every file of w >= 1 numbers in each of its lines makes the
    program write outside of its buffer (or overflow), in every state.  (With a name column the start
    column -1 is harmless.) *)
Theorem C76_negative_start_refuted : forall (N : Num) (r0 : D N) (h : list event) (s : api N) e n path text seps mr start (has : bool) ls tbl w, run r0 h s ->
  in_use h n = false -> e_files e path = Some (mkFile text None) -> has_lines text ls -> Forall2 (has_fields (c_str seps)) ls tbl -> ls <> [] ->
  1 <= w -> (forall r, In r tbl -> Z.of_nat (length r) = w /\ forall t, In t r -> exists v, e_stod e t = Parsed v) ->
  start + (if has then 1 else 0) < 0 ->
  ~ ends (snd (exec e (CLoad n path seps mr start has) s)).
Proof.
  intros N r0 h s e n path text seps mr start has ls tbl w Hrun Hu Ef HL HF Hne Hw Hr Hneg.
  pose proof (loadData_negative (e_stod e) (e_files e) ds_new path text mr start seps has ls tbl w Ef HL HF Hne Hw Hr Hneg) as K.
  pose proof (run_good r0 h s Hrun) as G. cbn [exec].
  assert (Ha : assoc n (a_sets s) = None).
  { destruct (find_alive s n G) as [(id & g & Ha & Hi & Hg & Hf & Hd & _ & Hh)|(Ha & _)]; [|exact Ha]. exfalso.
    assert (in_use h n = true) by (apply (run_in_use r0 h s Hrun); congruence). congruence. }
  rewrite Ha. destruct (loadData _ _ _ _ _ _ _ _) as [d o]. cbn [snd] in K. destruct o as [[]|[m|m]| |]; cbn in *; tauto.
Qed.
Print Assumptions C76_negative_start_refuted.

(** A line that ends before the first value column: the file is loaded, and normalising the
    data set then runs through memory. *)
Theorem C76_short_line_refuted : forall (N : Num) (r0 : D N) (h : list event) (s : api N) e n path text seps mr start (has : bool) ls tbl r s1 a, run r0 h s ->
  e_files e path = Some (mkFile text None) -> has_lines text ls -> Forall2 (has_fields (c_str seps)) ls tbl ->
  exec e (CLoad n path seps mr start has) s = (s1, Ret a) ->
  In r (wanted mr tbl) -> Z.of_nat (length r) < start + (if has then 1 else 0) ->
  forall e', ~ ends (snd (exec e' (CNormalize n) s1)).
Proof.
  intros N r0 h s e n path text seps mr start has ls tbl r s1 a Hrun Ef HL HF E Hr Hlt e'.
  destruct (C32_load N r0 h s e n path seps mr start has s1 (Ret a) Hrun E I) as (_ & Hload).
  destruct (Hload a eq_refl) as (d & i0 & El & Hheld & _). destruct (loadData_lengths _ _ _ _ _ _ _ _ _ _ _ Ef HL HF El) as [L1 L2].
  apply In_nth_error in Hr as [k Hk].
  assert (K : ~ ends (normalize d)).
  { apply (normalize_stuck d (Z.of_nat k) (Z.of_nat (length r) - start - b2z has)).
    - apply nth_error_Some_lt in Hk. lia.
    - rewrite L1, L2, map_length. reflexivity.
    - rewrite L1, Nat2Z.id. exact (map_nth_error (fun x => Z.of_nat (length x) - start - b2z has) k _ Hk).
    - unfold b2z. lia. }
  assert (R1 : run r0 (h ++ [(CLoad n path seps mr start has, Ret a)]) s1) by (eapply run_call; eauto; exact I).
  destruct (held_find s1 n _ (run_good _ _ _ R1) Hheld) as (id & Fi & Fd & Fs). cbn [exec]. unfold on_set. rewrite Fi, Fd. cbn [gt_data].
  destruct (normalize d) as [[d' [x y]]| | |]; cbn in *; tauto.
Qed.
Print Assumptions C76_short_line_refuted.

(** ** examples *)
Import PropsLoader.
Notation env_of := PropsNames.ex_env_of.

(** A file with lines of different lengths and something that is no number: it is refused.
    Another one is loaded, normalised, grouped and saved: a tidy history.  A file with a
    short line is loaded, normalising it is undefined; a negative start column too. *)
Definition ex_odd : string := ("a" ++ nl1 ++ "b,1,x,2" ++ nl1 ++ nl1 ++ "c,4")%string.
Definition ex_calls : list (call B64) :=
  [CLoad "x" "f" "," 0 0 true; CNormalize "x"; CGroup (N := B64) "x" (b64_ofZ 1) "euclidean" 1 false; CSeries "x" 0 5 1; CSave "x" "g" ";"].
Fixpoint after_all (e : env B64) (cs : list (call B64)) (s : api B64) : api B64 :=
  match cs with [] => s | c :: cs' => after_all e cs' (fst (exec e c s)) end.
Fixpoint ends_all (e : env B64) (cs : list (call B64)) (s : api B64) : bool :=
  match cs with [] => true | c :: cs' => match snd (exec e c s) with Ret _ | Throw _ => true | _ => false end && ends_all e cs' (fst (exec e c s)) end.

Lemma tidy_all e cs : Forall (loads_regular e) cs -> forall h s, tidy (N := B64) (b64_ofZ 1) h s -> ends_all e cs s = true ->
  exists h', tidy (N := B64) (b64_ofZ 1) h' (after_all e cs s) /\ map fst h' = map fst h ++ cs.
Proof.
  induction 1 as [|c cs Hc HF IH]; intros h s HT He; cbn [after_all ends_all] in *; [exists h; split; [exact HT|rewrite app_nil_r; reflexivity]|].
  apply andb_true_iff in He as [He1 He2]. destruct (exec e c s) as [s' r] eqn:E. cbn [fst snd] in *.
  assert (Hr : ends r) by (destruct r; try discriminate; exact I).
  destruct (IH _ s' (tidy_call _ _ _ _ _ _ _ HT Hc E Hr) He2) as (h' & H1 & H2). exists h'. split; [exact H1|].
  rewrite H2, map_app, <- app_assoc. reflexivity.
Qed.

Lemma regular_ex : regular (env_of PropsNames.ex_named) "f" "," 0 0 true.
Proof.
  split; [unfold int_max; lia|]. intros f ls tbl Ef HL HF. cbn in Ef. injection Ef as <-. cbn [tf_text] in HL.
  pose proof (file_lines_ok _ _ HL) as El. pose proof (map_tokenize _ _ _ HF) as Et. rewrite <- El in Et.
  change (map (tokenize ",") (file_lines PropsNames.ex_named)) with PropsNames.ex_named_table in Et. subst tbl. unfold int_max.
  split; intros r [<-|[<-|[<-|[]]]]; cbn; lia.
Qed.

Definition seen_end (e : env B64) (c : call B64) (s : api B64) : seen := sight (snd (exec e c s)).

Example C76_example :
  (exists h, tidy (N := B64) (b64_ofZ 1) h (after_all (env_of PropsNames.ex_named) ex_calls ex_start) /\ map fst h = ex_calls) /\
  seen_end (env_of ex_odd) (CLoad "x" "f" "," 0 0 true) ex_start = Raised "Dataset file contains unparsable text" /\
  seen_end (env_of ex_odd) (CLoad "x" "f" "," 1 1 false) ex_start = Done /\
  seen_end (env_of "1,2") (CLoad "x" "f" "," 0 (-1) false) ex_start = Undefined OutOfBounds /\
  seen_end (env_of "1,2") (CLoad "x" "f" "," 0 (-1) true) ex_start = Done /\
  seen_end (env_of PropsNames.ex_gap) (CLoad "x" "f" "," 0 0 true) ex_start = Done /\
  seen_end (env_of "") (CNormalize "x") (PropsNames.ex_loaded PropsNames.ex_gap true) = Undefined ForeverUnsigned.
Proof.
  split; [|vm_compute; auto 10].
  destruct (tidy_all (env_of PropsNames.ex_named) ex_calls) with (h := @nil (@event B64)) (s := ex_start) as (h & H1 & H2).
  - apply Forall_cons; [exact regular_ex|]. repeat (apply Forall_cons; [exact I|]). apply Forall_nil.
  - apply tidy_start.
  - vm_compute. reflexivity.
  - exists h. split; [exact H1|exact H2].
Qed.
