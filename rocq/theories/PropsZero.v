(** Property C59: with similarity threshold 0 the groups lose nothing.  Specifications:
    SearchSpec.v, QuerySpec.v. *)
From Coq Require Import String Reals Lra.
From Flocq Require Import Core IEEE754.BinarySingleNaN.
From Verif Require Import Base Num NumB64 NumLaws NumFacts NumXR NumXRLaws LoopFacts TimeSeries Distance
  DtwSpec DtwReal DistSpec DistLink TSSet DataProofs StdAlg HeapFacts Candidate Group GroupSpace DataSpec
  GroupView GroupDist SearchCases SearchSpec QuerySpec PropsDistance PropsGroup PropsSearch PropsQuery PropsKSim GapReal PropsGuarantee PropsKNear.
Local Open Scope Z_scope.
Local Open Scope list_scope.

Lemma free (c v w : R) : (c <= v + w * (0 / 2) -> c <= v)%R.
Proof. intros H. replace (w * (0 / 2))%R with 0%R in H by field. lra. Qed.

(** In exact arithmetic, after grouping with threshold 0 and any queries since: the
    best match is a nearest of all subsequences of the searched lengths. *)
Theorem C59_best_match_is_nearest : forall (H : std_alg) (k : kind) (d : dataset XR) (rows : list (list R))
    old clock (ratio0 : D XR) threads whole g0 total g (query : TS XR) (xs : list R) (ratio : R),
  holds d (real_rows rows) -> 1 <= threads -> log_safe d clock -> ds_maxcol d <= 2 ^ 30 ->
  groupAllLengths (N := XR) clock ratio0 (mkGS d old) (kind_name k) (Fin 0) threads whole = (g0, Ret total) ->
  asked (N := XR) H g0 g ->
  is_series query xs -> 2 <= ts_length query <= ds_maxcol d -> (0 <= ratio <= 1)%R ->
  let P := searched_place (N := XR) d (real_rows rows) whole (Fin ratio) (ts_length query) in
  (exists p, P p) ->
  exists g' c, getBestMatch (N := XR) (Fin ratio) g query = Ret (g', c) /\
    true_match (N := XR) (real_rows rows) k (Fin ratio) (map Fin xs) c /\
    forall p, P p -> exists v, dtw_of (N := XR) k (Fin ratio) (map Fin xs) (place_values (real_rows rows) p) = Ret v /\
      @nle XR (c_dist c) v.
Proof.
  intros H k d rows old clock ratio0 threads whole g0 total g query xs ratio Hd Ht Hlog Hmax E Ha Hq Hql Hr P Hex.
  destruct (C52_best_match_near_optimum_exact H k d rows old clock ratio0 0 threads whole g0 total g query xs ratio
    Hd Ht Hlog Hmax (Rle_refl 0) E Ha Hq Hql Hr Hex) as (g' & c & dist & E1 & E2 & E3 & Hall).
  exists g', c. split; [exact E1|]. split; [exact E2|]. intros p Hp. destruct (Hall p Hp) as (v & Ev & Hle).
  exists (Fin v). split; [exact Ev|]. apply free in Hle. apply XR_nle. rewrite E3. exact Hle.
Qed.
Print Assumptions C59_best_match_is_nearest.

(** The k best matches are k nearest ones: what the exhaustive search gives (C26). *)
Theorem C59_k_best_are_nearest : forall (H : std_alg) (k : kind) (d : dataset XR) (rows : list (list R))
    old clock (ratio0 : D XR) threads whole g0 total g (query : TS XR) (xs : list R) (ratio : R) K h,
  std_ok H ->
  holds d (real_rows rows) -> 1 <= threads -> log_safe d clock -> ds_maxcol d <= 2 ^ 30 ->
  groupAllLengths (N := XR) clock ratio0 (mkGS d old) (kind_name k) (Fin 0) threads whole = (g0, Ret total) ->
  asked (N := XR) H g0 g ->
  is_series query xs -> 2 <= ts_length query <= ds_maxcol d -> (0 <= ratio <= 1)%R ->
  1 <= K <= h ->
  let P := searched_place (N := XR) d (real_rows rows) whole (Fin ratio) (ts_length query) in
  no_near_ties (N := XR) (real_rows rows) k (Fin ratio) (map Fin xs) P -> at_least P K ->
  exists g' cs, getKBestMatches (N := XR) H (Fin ratio) g query K h = Ret (g', cs) /\
    best_matches (N := XR) (real_rows rows) k (Fin ratio) (map Fin xs) P K cs /\ ascending (N := XR) cs.
Proof.
  intros H k d rows old clock ratio0 threads whole g0 total g query xs ratio K h Hok Hd Ht Hlog Hmax E Ha Hq Hql Hr HK P Hties Hat.
  destruct (C57_k_best_near_optimum_exact H k d rows old clock ratio0 0 threads whole g0 total g query xs ratio K h
    Hok Hd Ht Hlog Hmax (Rle_refl 0) E Ha Hq Hql Hr HK Hties Hat) as (g' & cs & E1 & E2 & E3 & E4 & E5 & Hall).
  exists g', cs. split; [exact E1|]. split; [|exact E3]. split; [exact E5|]. split; [exact E4|]. split; [left; exact E2|].
  intros p v c Hp Hno Ev Hc. destruct (Hall c p Hc Hp Hno) as (dist & w & Ed & Ew & Hle).
  pose proof (eq_trans (eq_sym Ew) Ev) as X. injection X as <-. apply XR_nle. rewrite Ed.
  apply free in Hle. apply free in Hle. exact Hle.
Qed.
Print Assumptions C59_k_best_are_nearest.

(** two equal series, whole series grouped, two matches asked for *)
Definition zero_rows : list (list R) := [[0; 1]; [0; 1]]%R.
Definition zero_data : dataset XR := mkDS (N := XR) (Some (concat (real_rows zero_rows))) [] [2; 2] 2 2 "f"%string false.

Example C59_example_pre : holds zero_data (real_rows zero_rows) /\ log_safe zero_data (fun _ => false) /\
  (exists g0 total, groupAllLengths (N := XR) (fun _ => false) (Fin 1) (mkGS zero_data None) (kind_name KManhattan) (Fin 0) 1 true = (g0, Ret total)) /\
  let P := searched_place (N := XR) zero_data (real_rows zero_rows) true (Fin 1) (ts_length (rs [0; 1]%R)) in
  is_series (rs [0; 1]%R) [0; 1]%R /\ at_least P 2 /\
  no_near_ties (N := XR) (real_rows zero_rows) KManhattan (Fin 1) (map Fin [0; 1]%R) P.
Proof.
  assert (Hh : holds zero_data (real_rows zero_rows)).
  { exists (concat (real_rows zero_rows)). splits; try reflexivity; try (unfold int_max; simpl; lia).
    intros i row E. destruct i as [|[|i]]; [| |destruct i; discriminate]; injection E as <-; splits; try reflexivity;
    try (simpl; lia); intros j v Ej; repeat (destruct j as [|j]; [injection Ej as <-; reflexivity|]);
    destruct j; discriminate. }
  assert (Hl : log_safe zero_data (fun _ => false)) by (intros l; left; reflexivity).
  split; [exact Hh|]. split; [exact Hl|]. split.
  { destruct (C17_group_diameter KManhattan zero_data zero_rows None (fun _ => false) (Fin 1) 0 1 true Hh (Rle_refl 0)) as (g & total & E & _);
      [simpl; lia|lia|exact Hl|]. exists g, total. exact E. }
  intros P. split; [apply rs_series|]. split.
  - exists [(2, (0, 0)); (2, (1, 0))]. split; [repeat constructor; simpl; intuition congruence|]. split; [|simpl; lia].
    assert (Hs : searched (N := XR) zero_data true (Fin 1) (ts_length (rs [0; 1]%R)) 2).
    { split; [reflexivity|]. change (ts_length (rs [0; 1]%R)) with 2. exists (band_width 1 2). split.
      - apply band_XR; [lia|lra|]. unfold int_max. rewrite Rmult_1_r. apply IZR_le. lia.
      - pose proof (band_width_nonneg 1 2 ltac:(lia) ltac:(lra)). simpl. lia. }
    intros p [<-|[<-|[]]]; (split; [exact Hs|]); exists (map Fin [0; 1]%R); (split; [reflexivity|simpl; lia]).
  - assert (Hv : forall p, P p -> place_values (real_rows zero_rows) p = map Fin [0; 1]%R).
    { intros [l [i s]] [[Hl2 _] (row & Hrow & Hs)]. cbn [fst snd] in *. change (l = 2) in Hl2. subst l.
      apply row_of_Some in Hrow as [Hi Hn]. assert (Hi2 : (Z.to_nat i < 2)%nat) by (apply nth_error_Some_lt in Hn; exact Hn).
      assert (i = 0 \/ i = 1) as [->| ->] by lia; (assert (Hlen : Z.of_nat (length row) = 2) by (injection Hn as <-; reflexivity)); (assert (s = 0) by lia); subst s; reflexivity. }
    intros p p' v v' Hp Hp' Ev Ev'. left. rewrite (Hv p Hp) in Ev. rewrite (Hv p' Hp') in Ev'. rewrite Ev in Ev'. injection Ev' as <-.
    destruct (dtw_of_real KManhattan 1 ltac:(lra) [0; 1]%R [0; 1]%R) as (_ & w & _ & _ & _ & Ew).
    + unfold Rlen; simpl; lia.
    + unfold Rlen; simpl; lia.
    + pose proof (band_width_nonneg 1 2 ltac:(lia) ltac:(lra)). change (Z.abs (2 - 2) <= band_width 1 2). change (Z.abs (2 - 2)) with 0. lia.
    + pose proof (eq_trans (eq_sym Ev) Ew) as X. injection X as ->. apply neqv_refl. apply (nfin_nn (N := XR)). split; reflexivity.
Qed.
