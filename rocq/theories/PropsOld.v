(** Property C45: groups saved as text (the older format).
    Specification: OldSpec.v, ArchiveSpec.v (histories), QuerySpec.v. *)
From Coq Require Import Ascii String Permutation Reals Lra.
From Flocq Require Import IEEE754.BinarySingleNaN.
From Verif Require Import Base Num NumB64 NumB64Laws NumXR NumXRLaws NumLaws DtwReal DistLink PropsDistance NumFacts LoopFacts TimeSeries Distance DistSpec TSSet StdAlg HeapFacts Candidate Group
  GroupSpace DataSpec DataProofs DtwExt SearchCases GroupSpec GroupView Members GroupProofs QueryState QuerySpec SearchSpec QueryProofs Loader LoaderSpec LoaderProofs PropsData PropsGroup PropsSearch PropsQuery
  Archive ArchiveProofs ArchiveState ArchiveTrunc ArchiveSpec PropsArchive PropsArchiveFail OldFormat OldSpec OldProofs PrintDec.
Local Open Scope Z_scope.
Local Open Scope list_scope.

Section Gen.
Context {N : Num} {LW : NumLaws N}.
Notation D := (D N).

(** what is seen of the groups *)
Definition content_rp {RP : Rep} (rows : list (list D)) (l : Z) (ms : list coord) : content :=
  mkContent (sub_values rows l (rp ms)) (Z.of_nat (length ms)) ms.

Lemma contents_q {RP : Rep} (d : dataset N) rows l L gs : holds d rows -> 1 <= l <= ds_maxcol d -> level_q d rows l L gs ->
  contents d l (ll_sub L) (ll_map L) (ll_groups L) = Ret (map (content_rp rows l) gs).
Proof.
  intros Hd Hl [A1 A2 A3 A4 A5].
  assert (G : forall i j gr gl, ll_groups L = i ++ gr -> gs = j ++ gl -> length i = length j ->
     contents d l (ll_sub L) (ll_map L) gr = Ret (map (content_rp rows l) gl)).
  { intros i j gr. revert i j. induction gr as [|g gr IH]; intros i j gl E1 E2 Hij.
    - assert (gl = []).
      { pose proof (Forall2_length _ _ _ A4) as HL. rewrite E1, E2, !app_length in HL. destruct gl; auto. simpl in HL. lia. }
      subst gl. reflexivity.
    - destruct gl as [|ms gl].
      { pose proof (Forall2_length _ _ _ A4) as HL. rewrite E1, E2, !app_length in HL. simpl in HL. lia. }
      assert (Eg : nth_error (ll_groups L) (length i) = Some g) by (rewrite E1, nth_error_app2, Nat.sub_diag by lia; reflexivity).
      assert (Em : nth_error gs (length i) = Some ms) by (rewrite Hij, E2, nth_error_app2, Nat.sub_diag by lia; reflexivity).
      destruct (Forall2_nth _ _ _ _ _ _ A4 Eg Em) as (B1 & B2 & _).
      assert (Hr : is_sub rows l (rp ms)).
      { rewrite Forall_forall in A5. apply A5. apply in_concat. exists ms. split; [eapply nth_error_In; eauto|apply rp_in; auto]. }
      assert (Ht : exists t, cent_ts d l (g_cent g) = Ret t /\ ts_points t = sub_values rows l (rp ms)).
      { rewrite B2. destruct rp_text.
        - eexists. split; [reflexivity|]. unfold ts_of_list, ts_points; simpl. rewrite Nat2Z.id, firstn_all. reflexivity.
        - destruct (sub_ts d rows Hd l ltac:(lia) (rp ms) Hr) as (t & Et & Ep & _). exists t. split; auto.
          apply (cent_view d rows Hd l ltac:(lia) (rp ms) t Hr Et). }
      destruct Ht as (t & Et & Ep).
      simpl. unfold content_of. rewrite (memberCoords_ok _ _ _ _ _ _ _ _ A3 Eg Em), Et. cbn [bind].
      rewrite (IH (i ++ [g]) (j ++ [ms]) gl) by (rewrite ?app_length, <- ?app_assoc; simpl; auto; lia). cbn [bind].
      destruct A3 as (HF & _). destruct (Forall2_nth _ _ _ _ _ _ HF Eg Em) as [_ Hc]. rewrite Hc, Ep. reflexivity. }
  apply (G [] []); auto.
Qed.

Lemma set_contents {RP : Rep} (d : dataset N) rows k g gss l : holds d rows -> set_q d rows k g gss ->
  level_contents g l = match (if (0 <=? l) && (l <=? ds_maxcol d) then gss l else None) with
                       | Some gs => Some (Ret (map (content_rp rows l) gs))
                       | None => None
                       end.
Proof.
  intros Hd (Ed & G & Eg & _ & _ & [Hlen HL]). unfold level_contents. rewrite Eg, Ed.
  destruct (Z.ltb_spec l 0) as [H0|H0]; [destruct (Z.leb_spec 0 l); [lia|reflexivity]|].
  destruct (Z.leb_spec 0 l); [|lia]. destruct (Z.leb_spec l (ds_maxcol d)) as [H1|H1]; cbn [andb].
  - specialize (HL l ltac:(lia)). destruct (gss l) as [gs|].
    + destruct HL as (Hl1 & L & EL & HLq). rewrite EL. rewrite (contents_q d rows l L gs Hd ltac:(lia) HLq). reflexivity.
    + rewrite HL. reflexivity.
  - replace (nth_error (gg_levels G) (Z.to_nat l)) with (@None (option (llgs N))); [reflexivity|].
    symmetry. apply nth_error_None. lia.
Qed.

Lemma text_trip H put put16 scan rows k thr whole maxcol b (g : gset N) d' old :
  1 <= maxcol < int_max -> Z.of_nat (length rows) * maxcol <= int_max -> nltb (ndiv thr (nofZ 2)) ninf = true ->
  history H rows k thr whole maxcol b g -> (whole = true -> b = false) ->
  printed_exactly put16 scan rows -> printed_readably put scan thr ->
  holds d' rows -> ds_maxcol d' = maxcol ->
  exists text g' gs (RP : Rep) gss, saveGroupsOld put put16 true false g = Ret text /\
    loadGroupsOld scan (Some text) (mkGS d' old) = (g', Ret (gg_total gs)) /\
    holds (gt_data g) rows /\ ds_maxcol (gt_data g) = maxcol /\
    gt_data g' = d' /\ kept (gt_data g) rows k thr whole whole g gss /\
    ready_at (RP := text_rep RP) d' rows k whole g' (rev_gss gss) /\
    gt_groups g' = Some gs /\ gg_name gs = kind_name k /\ gg_threshold gs = None /\ gg_whole gs = false /\
    gg_total gs = sum_groups gss 0 (Z.to_nat (maxcol + 1)).
Proof.
  intros Hm Hp Hthr Hh Hb Hput Hputt Hd' Hmax'.
  destruct (history_kept H rows k thr whole maxcol b g ltac:(lia) Hthr Hh) as (Hd & Hmax & RP & gss & HK).
  assert (Ew : (if b then false else whole) = whole) by (destruct b, whole; auto; discriminate (Hb eq_refl)).
  rewrite Ew in HK.
  assert (Ec : ds_count (gt_data g) = Z.of_nat (length rows)) by (destruct Hd as (b1 & _ & E1 & _); exact E1).
  assert (Ec' : ds_count d' = Z.of_nat (length rows)) by (destruct Hd' as (b1 & _ & E1 & _); exact E1).
  destruct (save_old_ok put put16 scan rows Hput (gt_data g) Hd k thr whole g gss ltac:(lia) HK (proj1 Hputt)) as (text & Es & Ewords).
  destruct (load_old_ok put put16 scan (gt_data g) d' rows k thr whole whole g gss old text Hput Hputt ltac:(lia) ltac:(rewrite Ec, Hmax; exact Hp)
    HK Hd' ltac:(lia) ltac:(lia) Ewords) as (g' & gs & El & Ed & HR & Eg & A1 & A2 & A3 & A4).
  exists text, g', gs, RP, gss. rewrite <- Hmax at 2. splits; auto.
Qed.
End Gen.

(** Groups saved as text load again into a data set with the same data: neither fails,
    and the groups are the same, with representatives of the same values.  The number
    returned is the number of groups. *)
Theorem C45_text_round_trip : forall {N : Num} {LW : NumLaws N} (H : std_alg) (put put16 : D N -> string) (scan : string -> option (D N))
    (rows : list (list (D N))) (k : kind) (thr : D N) whole maxcol b (g : gset N) (d' : dataset N) old,
  1 <= maxcol < int_max -> Z.of_nat (length rows) * maxcol <= int_max -> nltb (ndiv thr (nofZ 2)) ninf = true ->
  history H rows k thr whole maxcol b g -> (whole = true -> b = false) ->
  printed_exactly put16 scan rows -> printed_readably put scan thr ->
  holds d' rows -> ds_maxcol d' = maxcol ->
  exists text g', saveGroupsOld put put16 true false g = Ret text /\
    loadGroupsOld scan (Some text) (mkGS d' old) = (g', Ret (getTotalNumberOfGroups g)) /\
    gt_data g' = d' /\ same_text_groups g g'.
Proof.
  intros N LW H put put16 scan rows k thr whole maxcol b g d' old Hm Hp Hthr Hh Hb Hput Hputt Hd' Hmax'.
  destruct (text_trip H put put16 scan rows k thr whole maxcol b g d' old Hm Hp Hthr Hh Hb Hput Hputt Hd' Hmax')
    as (text & g' & gs & RP & gss & Es & El & Hd & Hmax & Ed & HK & HR & Eg & A1 & A2 & A3 & A4).
  destruct HK as [HS (gs0 & Eg0 & B1 & B2 & B3 & _) _ _ Htx]. destruct HR as (HS' & _).
  exists text, g'. unfold getTotalNumberOfGroups at 1. rewrite Eg0, B3, Hmax, <- A4. splits; auto.
  unfold same_text_groups, isGrouped, getDistanceName, getTotalNumberOfGroups. rewrite Eg0, Eg. splits.
  - reflexivity.
  - congruence.
  - rewrite A4, B3, Hmax. reflexivity.
  - intros l. rewrite (set_contents (RP := RP) (gt_data g) rows k g gss l Hd HS).
    rewrite (set_contents (RP := text_rep RP) d' rows k g' (rev_gss gss) l Hd' HS'). rewrite Hmax, Hmax'.
    destruct ((0 <=? l) && (l <=? maxcol)); [|exact I]. unfold rev_gss. destruct (gss l) as [gl|]; [|exact I]. cbn [option_map].
    clear. induction gl as [|ms gl IH]; simpl; constructor; auto. unfold same_content, content_rp. cbn [ct_values ct_count ct_members].
    rewrite rev_length. splits; auto; [|apply Permutation_rev].
    f_equal. unfold rp at 1, text_rep. rewrite rev_involutive. reflexivity.
Qed.
Print Assumptions C45_text_round_trip.

(** The best match after loading is as far from the query as before. *)
Theorem C45_best_unchanged_ieee : forall (H : std_alg) (put put16 : D B64 -> string) (scan : string -> option (D B64))
    (rows : list (list (D B64))) (k : kind) (thr : D B64)
    whole maxcol b (g g' : gset B64) text n (d' : dataset B64) old (query : TS B64) (ratio : D B64),
  nltb (n := B64) (ndiv (n := B64) thr (nofZ 2)) ninf = true -> moderate_data rows -> maxcol <= 2 ^ 26 ->
  Z.of_nat (length rows) * maxcol <= int_max ->
  history (N := B64) H rows k thr whole maxcol b g -> (whole = true -> b = false) ->
  printed_exactly (N := B64) put16 scan rows -> printed_readably (N := B64) put scan thr ->
  holds d' rows -> ds_maxcol d' = maxcol ->
  saveGroupsOld (N := B64) put put16 true false g = Ret text -> loadGroupsOld (N := B64) scan (Some text) (mkGS d' old) = (g', Ret n) ->
  moderate_query query -> ts_length query <= maxcol -> moderate_ratio ratio ->
  (exists p, searched_place (N := B64) d' rows whole ratio (ts_length query) p) ->
  exists g1 c g1' c', getBestMatch (N := B64) ratio g query = Ret (g1, c) /\ getBestMatch (N := B64) ratio g' query = Ret (g1', c') /\
    true_match (N := B64) rows k ratio (ts_points query) c' /\
    nle (N := B64) (c_dist c) (c_dist c') /\ nle (N := B64) (c_dist c') (c_dist c).
Proof.
  intros H put put16 scan rows k thr whole maxcol b g g' text n d' old query ratio Hthr Hm Hmax Hp Hh Hb Hput Hputt Hd' Hmax' Es El Hq Hql Hr Hex.
  assert (H1 : 1 <= maxcol < int_max) by (destruct Hq as (_ & _ & Hq2); unfold int_max; lia).
  destruct (text_trip (N := B64) H put put16 scan rows k thr whole maxcol b g d' old H1 Hp Hthr Hh Hb Hput Hputt Hd' Hmax')
    as (text1 & g1 & gs & RP & gss & E1 & E2 & Hd & Hmx & Ed & HK & HR & _).
  rewrite Es in E1. injection E1 as <-. rewrite El in E2. injection E2 as <- _.
  assert (Hex0 : exists p, searched_place (N := B64) (gt_data g) rows whole ratio (ts_length query) p).
  { destruct Hex as (p & (Hp1 & Hp2) & Hp3). exists p. split; auto. split; auto. unfold grouped_length in *. rewrite Hmx, <- Hmax'. exact Hp1. }
  destruct (ready_chosen_ieee (RP := RP) k (gt_data g) rows whole g gss query ratio) as (h1 & c & Ec & _ & _ & Hc); auto; [lia| |lia|].
  { eapply (kept_ready_at (N := B64)); eauto. }
  destruct (ready_chosen_ieee (RP := text_rep RP) k d' rows whole g' (rev_gss gss) query ratio) as (h1' & c' & Ec' & _ & Htm & Hc'); auto; [lia|lia|].
  exists h1, c, h1', c'. rewrite Hmx, <- Hmax' in Hc.
  split; [exact Ec|]. split; [exact Ec'|]. split; [exact Htm|]. exact (reloaded_same (N := B64) _ _ _ _ _ _ _ _ _ Hc Hc').
Qed.
Print Assumptions C45_best_unchanged_ieee.

Theorem C45_best_unchanged_exact : forall (H : std_alg) (put put16 : D XR -> string) (scan : string -> option (D XR))
    (rows : list (list R)) (k : kind) (t : R)
    whole maxcol b (g g' : gset XR) text n (d' : dataset XR) old (query : TS XR) (xs : list R) (ratio : R),
  maxcol <= 2 ^ 30 -> Z.of_nat (length rows) * maxcol <= int_max ->
  history (N := XR) H (real_rows rows) k (Fin t) whole maxcol b g -> (whole = true -> b = false) ->
  printed_exactly (N := XR) put16 scan (real_rows rows) -> printed_readably (N := XR) put scan (Fin t) ->
  holds d' (real_rows rows) -> ds_maxcol d' = maxcol ->
  saveGroupsOld (N := XR) put put16 true false g = Ret text -> loadGroupsOld (N := XR) scan (Some text) (mkGS d' old) = (g', Ret n) ->
  is_series query xs -> 2 <= ts_length query <= maxcol -> (0 <= ratio <= 1)%R ->
  (exists p, searched_place (N := XR) d' (real_rows rows) whole (Fin ratio) (ts_length query) p) ->
  exists g1 c g1' c', getBestMatch (N := XR) (Fin ratio) g query = Ret (g1, c) /\
    getBestMatch (N := XR) (Fin ratio) g' query = Ret (g1', c') /\
    true_match (N := XR) (real_rows rows) k (Fin ratio) (map Fin xs) c' /\ c_dist c = c_dist c'.
Proof.
  intros H put put16 scan rows k t whole maxcol b g g' text n d' old query xs ratio Hmax Hp Hh Hb Hput Hputt Hd' Hmax' Es El Hq Hql Hr Hex.
  assert (H1 : 1 <= maxcol < int_max) by (unfold int_max; lia). assert (Hthr := half_fin t).
  assert (Hp' : Z.of_nat (length (real_rows rows)) * maxcol <= int_max) by (unfold real_rows; rewrite map_length; exact Hp).
  destruct (text_trip (N := XR) H put put16 scan (real_rows rows) k (Fin t) whole maxcol b g d' old H1 Hp' Hthr Hh Hb Hput Hputt Hd' Hmax')
    as (text1 & g1 & gs & RP & gss & E1 & E2 & Hd & Hmx & Ed & HK & HR & _).
  rewrite Es in E1. injection E1 as <-. rewrite El in E2. injection E2 as <- _.
  assert (Hex0 : exists p, searched_place (N := XR) (gt_data g) (real_rows rows) whole (Fin ratio) (ts_length query) p).
  { destruct Hex as (p & (Hp1 & Hp2) & Hp3). exists p. split; auto. split; auto. unfold grouped_length in *. rewrite Hmx, <- Hmax'. exact Hp1. }
  destruct (ready_chosen_exact (RP := RP) k (gt_data g) rows whole g gss query xs ratio) as (h1 & c & Ec & _ & _ & Hc); auto; try lia.
  { eapply (kept_ready_at (N := XR)); eauto. }
  destruct (ready_chosen_exact (RP := text_rep RP) k d' rows whole g' (rev_gss gss) query xs ratio) as (h1' & c' & Ec' & _ & Htm & Hc'); auto; try lia.
  exists h1, c, h1', c'. splits; auto.
  rewrite Hmx, <- Hmax' in Hc. destruct (reloaded_same (N := XR) _ _ _ _ _ _ _ _ _ Hc Hc') as [L1 L2].
  apply XR_nle in L1. apply XR_nle in L2. unfold xleP in *.
  destruct (c_dist c), (c_dist c'); try contradiction; auto. apply (f_equal Fin). lra.
Qed.
Print Assumptions C45_best_unchanged_exact.

(** A text file that begins with another version than 1, or whose number of series is
    not that of the data set, is refused and the groups are kept; so is a missing file. *)
Theorem C45_rejects : forall {N : Num} (scan : string -> option (D N)) (g : gset N),
  (exists msg, loadGroupsOld scan None g = (g, Throw (GenexExc msg))) /\
  forall v t th c m text rest,
    int_min <= v <= int_max -> int_min <= c <= int_max -> scan t = Some th ->
    tokenize spaces text = put_int v :: t :: put_int c :: m :: rest ->
    v <> 1 \/ c <> ds_count (gt_data g) ->
    exists msg, loadGroupsOld scan (Some text) g = (g, Throw (GenexExc msg)).
Proof.
  intros N scan g. split; [eexists; reflexivity|]. intros v t th c m text rest Hv Hc Ht Ew Hne.
  unfold loadGroupsOld, in_open. rewrite Ew, read_put by auto. unfold read_dbl at 1, extract. cbn [in_ok in_words]. rewrite Ht.
  rewrite read_put by auto. unfold read_int, extract. cbn [in_ok in_words]. destruct (conv_int m) as [o bo]. cbn [init_get and_then].
  destruct (Z.eqb_spec v 1) as [E|E]; cbn [negb].
  - destruct (Z.eqb_spec c (ds_count (gt_data g))) as [E'|E']; [lia|]. cbn [negb]. eexists. reflexivity.
  - eexists. reflexivity.
Qed.
Print Assumptions C45_rejects.

(** So is one whose first length is a number that is no int, whatever follows. *)
Lemma conv_far z : ~ (int_min <= z <= int_max) -> snd (conv_int (put_int z)) = false.
Proof.
  intros Hz. unfold conv_int. replace (drop_plus (put_int z)) with (put_int z).
  - destruct (to_int_ok z) as [H1 H2]. unfold put_int at 1. rewrite (DecimalString.NilZero.isi _ H1 H2), DecimalZ.of_to.
    destruct (Z.ltb_spec z int_min); [reflexivity|]. destruct (Z.ltb_spec int_max z); [reflexivity|lia].
  - destruct (put_int_digits z) as [_ H]. destruct (put_int z) as [|c s]; [reflexivity|]. destruct H as [[_ Hc] _].
    unfold drop_plus. destruct c as [[] [] [] [] [] [] [] []]; try reflexivity. contradiction Hc. reflexivity.
Qed.
Theorem C45_too_large : forall {N : Num} (scan : string -> option (D N)) (g : gset N) t th m z text rest,
  int_min <= ds_count (gt_data g) <= int_max -> int_min <= m <= int_max -> ~ (int_min <= z <= int_max) -> scan t = Some th ->
  tokenize spaces text = put_int 1 :: t :: put_int (ds_count (gt_data g)) :: put_int m :: put_int z :: rest ->
  exists g' e, loadGroupsOld scan (Some text) g = (g', Throw e) /\ gt_data g' = gt_data g.
Proof.
  intros N scan g t th m z text rest Hc Hm Hz Ht Ew. assert (H1 : int_min <= 1 <= int_max) by (unfold int_min, int_max; lia).
  unfold loadGroupsOld, in_open. rewrite Ew, read_put by auto. unfold read_dbl at 1, extract. cbn [in_ok in_words]. rewrite Ht.
  rewrite read_put by auto. rewrite read_put by auto. cbn [init_get and_then]. rewrite Z.eqb_refl. cbn [negb]. rewrite Z.eqb_refl. cbn [negb].
  unfold load_space_old. unfold read_int at 1, extract. cbn [in_ok in_words]. pose proof (conv_far z Hz) as F. destruct (conv_int (put_int z)) as [o b].
  cbn [snd] in F. subst b. cbn [read_int read_str extract in_ok in_words]. eexists _, _. split; reflexivity.
Qed.
Print Assumptions C45_too_large.

(** The threshold is not restored: after every such load, asking for it, and saving the
    groups in either format, reads an uninitialised variable. *)
Theorem C45_threshold_refuted : forall {N : Num} {LW : NumLaws N} (H : std_alg) (put put16 : D N -> string) (scan : string -> option (D N))
    (rows : list (list (D N))) (k : kind) (thr : D N) whole maxcol b (g : gset N) (d' : dataset N) old,
  1 <= maxcol < int_max -> Z.of_nat (length rows) * maxcol <= int_max -> nltb (ndiv thr (nofZ 2)) ninf = true ->
  history H rows k thr whole maxcol b g -> (whole = true -> b = false) ->
  printed_exactly put16 scan rows -> printed_readably put scan thr ->
  holds d' rows -> ds_maxcol d' = maxcol ->
  exists text g' n, saveGroupsOld put put16 true false g = Ret text /\
    loadGroupsOld scan (Some text) (mkGS d' old) = (g', Ret n) /\ getThreshold g = Ret thr /\
    getThreshold g' = UB Uninit /\ saveToFile true None g' = (Some [], UB Uninit) /\
    forall sizeOnly, saveGroupsOld put put16 true sizeOnly g' = UB Uninit.
Proof.
  intros N LW H put put16 scan rows k thr whole maxcol b g d' old Hm Hp Hthr Hh Hb Hput Hputt Hd' Hmax'.
  destruct (text_trip H put put16 scan rows k thr whole maxcol b g d' old Hm Hp Hthr Hh Hb Hput Hputt Hd' Hmax')
    as (text & g' & gs & RP & gss & Es & El & Hd & Hmax & Ed & HK & HR & Eg & A1 & A2 & A3 & A4).
  destruct HK as [HS (gs0 & Eg0 & B1 & B2 & B3 & _) _ _ Htx].
  exists text, g', (gg_total gs). splits; auto.
  - unfold getThreshold. rewrite Eg0, B2. reflexivity.
  - unfold getThreshold. rewrite Eg, A2. reflexivity.
  - unfold saveToFile, save. rewrite Eg. unfold save_space. rewrite A2. reflexivity.
  - intros sizeOnly. unfold saveGroupsOld. rewrite Eg, A2. reflexivity.
Qed.
Print Assumptions C45_threshold_refuted.

(** ** examples and further counterexamples, with the printing of doubles of PrintDec.v *)
Definition ex2_text : string :=
  match saveGroupsOld (N := B64) (put_double 6) (put_double 16) true false (fst ex2_grouped) with Ret t => t | _ => "" end.
Definition ex2_reload (text : string) (d : dataset B64) : gset B64 * res Z :=
  loadGroupsOld (N := B64) scan_double (Some text) (mkGS d None).
(** the first words of the file *)
Definition ex2_words (n : nat) : string := String.concat " " (firstn n (tokenize spaces ex2_text)).
Definition show_contents (o : option (res (list (@content B64)))) :=
  match o with
  | Some (Ret cs) => Some (map (fun c : @content B64 => (map (fun x : D B64 => B2SF (x : b64)) (ct_values c), ct_count c, ct_members c)) cs)
  | _ => None
  end.
Definition k_best (g : gset B64) (k h : Z) : res unit := outcome (getKBestMatches (N := B64) simple_alg (b64_ofZ 1) g bf_query k h).
Definition best (g : gset B64) : res unit := outcome (getBestMatch (N := B64) (b64_ofZ 1) g bf_query).

Example C45_example_pre :
  history (N := B64) simple_alg ex2_rows KManhattan (b64_ofZ 6) false 3 false (fst ex2_grouped) /\
  printed_exactly (N := B64) (put_double 16) scan_double ex2_rows /\
  printed_readably (N := B64) (put_double 6) scan_double (b64_ofZ 6).
Proof.
  assert (W : forall w, (negb (String.eqb w "") && forallb (fun c => negb (mem_char c spaces)) (list_ascii_of_string w))%bool = true -> is_word w).
  { intros w. destruct (String.eqb_spec w ""); [discriminate|]. cbn [negb andb]. intros Hw. split; auto.
    clear n. induction w as [|a w IH]; [exact I|]. cbn [list_ascii_of_string forallb] in Hw. apply andb_prop in Hw as [H1 H2]. split; auto.
    unfold sep_char. intros Hs. rewrite Hs in H1. discriminate. }
  split; [|split].
  - refine (by_grouping (N := B64) simple_alg ex2_rows KManhattan (b64_ofZ 6) false 3 ex2_data None (fun _ => false) (b64_ofZ 1) 1 (fst ex2_grouped) 3 ex2_holds eq_refl _ _ C35_history_1); [lia|].
    intros l. left. reflexivity.
  - intros row v Hrow Hv. unfold ex2_rows in Hrow.
    assert (Hs : scan_double (put_double 16 v) = Some v).
    { assert (Hb : option_map B2SF (scan_double (put_double 16 v)) = Some (B2SF v)).
      { destruct Hrow as [<-|[<-|[]]]; repeat (destruct Hv as [<-|Hv]; [vm_compute; reflexivity|]); destruct Hv. }
      destruct (scan_double (put_double 16 v)) as [y|]; [|discriminate]. injection Hb as Hb.
      f_equal. apply (B2SF_inj prec64 emax64). exact Hb. }
    split; auto. apply W.
    destruct Hrow as [<-|[<-|[]]]; repeat (destruct Hv as [<-|Hv]; [vm_compute; reflexivity|]); destruct Hv.
  - split; [apply W; vm_compute; reflexivity|].
    assert (Hb : option_map B2SF (scan_double (put_double 6 (b64_ofZ 6))) <> None) by (vm_compute; discriminate).
    intros E. rewrite E in Hb. apply Hb. reflexivity.
Qed.
Example C45_example :
  snd (ex2_reload ex2_text ex2_data) = Ret 3 /\
  show_contents (level_contents (fst ex2_grouped) 3) = Some [(map (fun z => B2SF (b64_ofZ z)) [0; 1; 9], 2, [(1, 0); (0, 0)])] /\
  show_contents (level_contents (fst (ex2_reload ex2_text ex2_data)) 3) = Some [(map (fun z => B2SF (b64_ofZ z)) [0; 1; 9], 2, [(0, 0); (1, 0)])] /\
  show_best (getBestMatch (N := B64) (b64_ofZ 1) (fst (ex2_reload ex2_text ex2_data)) bf_query) = Some [(2, 0, 1, B2SF (b64_ofZ 0))].
Proof. splits; vm_compute; reflexivity. Qed.

(** Asking for several matches works before and may read the missing threshold after. *)
Theorem C45_k_refuted :
  k_best (fst ex2_grouped) 1 4 = Ret tt /\ k_best (fst (ex2_reload ex2_text ex2_data)) 1 4 = UB Uninit.
Proof. splits; vm_compute; reflexivity. Qed.
Print Assumptions C45_k_refuted.

(** Sixteen digits do not determine a double: the representative of a group can come back
    with other values, although it is a piece of the data. *)
Definition ex3_row : list (D B64) := [Bplus mode_NE (b64_lit 1 10) (b64_lit 2 10); b64_ofZ 1].
Definition ex3_data : dataset B64 := mkDS (N := B64) (Some ex3_row) [] [2] 1 2 "f"%string false.
Lemma ex3_holds : holds ex3_data [ex3_row].
Proof.
  exists ex3_row. splits; try reflexivity; try (unfold int_max; simpl; lia).
  intros i row E. destruct i as [|i]; [|destruct i; discriminate]. injection E as <-. splits; try reflexivity; try (simpl; lia).
  intros j v Ej. repeat (destruct j as [|j]; [injection Ej as <-; reflexivity|]). destruct j; discriminate.
Qed.
Definition ex3_grouped : gset B64 * res Z :=
  groupAllLengths (N := B64) (fun _ => false) (b64_ofZ 1) (mkGS ex3_data None) "euclidean" (b64_ofZ 1) 1 false.
Definition ex3_text : string :=
  match saveGroupsOld (N := B64) (put_double 6) (put_double 16) true false (fst ex3_grouped) with Ret t => t | _ => "" end.
Definition ex3_loaded : gset B64 * res Z := loadGroupsOld (N := B64) scan_double (Some ex3_text) (mkGS ex3_data None).
Theorem C45_digits_refuted : holds ex3_data [ex3_row] /\ snd ex3_grouped = Ret 1 /\ snd ex3_loaded = Ret 1 /\
  show_contents (level_contents (fst ex3_grouped) 2) = Some [(map B2SF ex3_row, 1, [(0, 0)])] /\
  show_contents (level_contents (fst ex3_loaded) 2) = Some [(map B2SF [b64_lit 3 10; b64_ofZ 1], 1, [(0, 0)])] /\
  B2SF (b64_lit 3 10) <> B2SF (nth 0 ex3_row (b64_ofZ 0)).
Proof. split; [apply ex3_holds|]. splits; try (vm_compute; reflexivity). vm_compute. discriminate. Qed.
Print Assumptions C45_digits_refuted.

(** The file says how long the items are, but this is not compared with the data set:
    the groups of series of three points load into a set of series of four points. *)
Definition ex2_longer : dataset B64 := mkDS (N := B64) (Some (map b64_ofZ [5; 5; 5; 5; 7; 7; 7; 7])) [] [4; 4] 2 4 "f"%string false.
Definition ex2_shorter : dataset B64 := mkDS (N := B64) (Some (map b64_ofZ [0; 1; 1; 1])) [] [2; 2] 2 2 "f"%string false.
Theorem C45_item_length_refuted :
  snd (ex2_reload ex2_text ex2_longer) = Ret 3 /\ snd (ex2_reload ex2_text ex2_shorter) = UB OutOfBounds /\
  show_contents (level_contents (fst (ex2_reload ex2_text ex2_longer)) 3) = Some [(map (fun z => B2SF (b64_ofZ z)) [0; 1; 9], 2, [(0, 0); (1, 0)])].
Proof. splits; vm_compute; reflexivity. Qed.
Print Assumptions C45_item_length_refuted.

(** A file that ends too early is noticed only by chance: without the last two words it
    loads as if complete, and a query for several matches then runs forever; with less it
    reads uninitialised variables, or fails with the old groups gone. *)
Theorem C45_cut_off_refuted : length (tokenize spaces ex2_text) = 31%nat /\
  snd (ex2_reload (ex2_words 29) ex2_data) = Ret 3 /\ k_best (fst (ex2_reload (ex2_words 29) ex2_data)) 1 4 = Hang /\
  snd (ex2_reload (ex2_words 28) ex2_data) = UB Uninit /\
  (let g := loadGroupsOld (N := B64) scan_double (Some (ex2_words 6)) (fst ex2_grouped) in
   outcome (snd g) = Throw (GenexExc "Cannot find distance with name: ") /\ best (fst ex2_grouped) = Ret tt /\ best (fst g) = UB OutOfBounds).
Proof. cbv zeta. splits; vm_compute; reflexivity. Qed.
Print Assumptions C45_cut_off_refuted.

(** A file with the sizes only is written by the same operation and cannot be loaded. *)
Theorem C45_sizes_refuted :
  exists text, saveGroupsOld (N := B64) (put_double 6) (put_double 16) true true (fst ex2_grouped) = Ret text /\
    snd (ex2_reload text ex2_data) = UB Uninit.
Proof. eexists. split; [vm_compute; reflexivity|]. vm_compute. reflexivity. Qed.
Print Assumptions C45_sizes_refuted.

(** How the words of the file are laid out does not matter: the six characters for which
    std::isspace is true in the C locale all separate words, in any number.  In particular
    a file whose line ends were changed to those of Windows loads as before. *)
Definition white_space : string :=
  String " "%char (String "009"%char (String "010"%char (String "011"%char (String "012"%char (String "013"%char EmptyString))))).
Theorem C45_layout : forall (N : Num) scan (g : gset N) text text' words,
  has_fields white_space text words -> has_fields white_space text' words ->
  loadGroupsOld scan (Some text) g = loadGroupsOld scan (Some text') g.
Proof.
  intros N scan g text text' words H1 H2.
  assert (E : in_open text = in_open text').
  { unfold in_open. rewrite (tokenize_ok spaces text words H1), (tokenize_ok spaces text' words H2). reflexivity. }
  unfold loadGroupsOld. rewrite E. reflexivity.
Qed.
Print Assumptions C45_layout.

Fixpoint windows (s : string) : string :=
  match s with
  | EmptyString => EmptyString
  | String c s' => if Ascii.eqb c "010"%char then String "013"%char (String "010"%char (windows s')) else String c (windows s')
  end.
Example C45_layout_example :
  windows ex2_text <> ex2_text /\ tokenize spaces (windows ex2_text) = tokenize spaces ex2_text /\
  snd (ex2_reload (windows ex2_text) ex2_data) = Ret 3.
Proof. splits; try (vm_compute; reflexivity). vm_compute. discriminate. Qed.
