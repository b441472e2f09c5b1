(** Properties C24 and C25: the k-similar search.
    Specification: QuerySpec.v, SearchSpec.v, GroupView.v, DataSpec.v. *)
From Coq Require Import String Reals Lra Permutation.
From Flocq Require Import IEEE754.BinarySingleNaN Core.Raux.
From Verif Require Import Base Num NumB64 NumB64Laws NumLaws NumFacts NumMore NumXR NumXRLaws LoopFacts TimeSeries Lemire Distance
  DtwReal DistSpec DistLink TSSet StdAlg HeapFacts Candidate Group GroupSpace Band DataSpec DataProofs GroupSpec GroupView GroupDist
  SearchSpec SearchProofs SearchCases QueryCases Traverse QueryState QuerySpec QueryProofs PropsDistance PropsData PropsGroup PropsSearch PropsQuery.
Local Open Scope Z_scope.
Local Open Scope list_scope.

(** ** both, with the entries that are not there *)
Definition k_answer {N : Num} (H : std_alg) (rows : list (list (D N))) k (ratio : D N) q (S : Z -> Prop) (P : place -> Prop)
  (g : gset N) (query : TS N) (K h : Z) : Prop :=
  exists g' C real, getKBestMatches H ratio g query K h = Ret (g', real ++ repeat cand_default (Z.to_nat K - length C)) /\
    considered rows k ratio q S P g h C /\
    best_matches rows k ratio q (fun p => In p C) K real /\ ascending real /\
    Z.of_nat (length real) = Z.min K (Z.of_nat (length C)).

Lemma ready_k_ieee {RP : Rep} : forall (H : std_alg) (k : kind) (d : dataset B64) (rows : list (list (D B64)))
    whole g (query : TS B64) (ratio : D B64) K h,
  std_ok H ->
  holds d rows -> moderate_data rows -> ds_maxcol d <= 2 ^ 26 ->
  ready (N := B64) d rows k whole g ->
  moderate_query query -> ts_length query <= ds_maxcol d -> moderate_ratio ratio ->
  1 <= K <= h ->
  no_near_ties (N := B64) rows k ratio (ts_points query) (searched_place (N := B64) d rows whole ratio (ts_length query)) ->
  k_answer (N := B64) H rows k ratio (ts_points query) (searched (N := B64) d whole ratio (ts_length query))
    (searched_place (N := B64) d rows whole ratio (ts_length query)) g query K h.
Proof.
  intros H k d rows whole g query ratio K h Hok Hd Hm Hmax HR Hq Hql Hr HK Hties.
  pose proof Hq as (Hqo & _ & Hq2). destruct Hr as [Hr0 Hr1].
  destruct HR as (Htx & gss & Hset & Hgss & Hcov).
  assert (Fr : nfin (N := B64) ratio).
  { apply (nfin_between (N := B64) (nofZ 0) ratio (nofZ 1)); auto; split; reflexivity. }
  apply (k_query (N := B64) d rows Hd k ratio) with (gss := gss); auto.
  - lia.
  - apply ratio_product; auto. unfold int_max. lia.
  - intros h' b b' H1 H2. apply band_slow_b64; auto. lia.
  - lia.
  - apply searchable_moderate; auto; [split; auto|]. intros p [[Hl _] Hp]. split; auto. lia.
  - apply searchable_from_moderate; auto; [split; auto|]. intros p [[Hl _] Hp]. split; auto. lia.
  - apply B64_eps.
Qed.

Lemma k_answer_ieee : forall (H : std_alg) (k : kind) (d : dataset B64) (rows : list (list (D B64)))
    old clock (ratio0 thr : D B64) threads whole g0 total g (query : TS B64) (ratio : D B64) K h,
  std_ok H ->
  holds d rows -> moderate_data rows -> nltb (n := B64) (ndiv (n := B64) thr (nofZ 2)) ninf = true ->
  1 <= threads -> log_safe d clock -> ds_maxcol d <= 2 ^ 26 ->
  groupAllLengths (N := B64) clock ratio0 (mkGS d old) (kind_name k) thr threads whole = (g0, Ret total) ->
  asked (N := B64) H g0 g ->
  moderate_query query -> ts_length query <= ds_maxcol d -> moderate_ratio ratio ->
  1 <= K <= h ->
  no_near_ties (N := B64) rows k ratio (ts_points query) (searched_place (N := B64) d rows whole ratio (ts_length query)) ->
  k_answer (N := B64) H rows k ratio (ts_points query) (searched (N := B64) d whole ratio (ts_length query))
    (searched_place (N := B64) d rows whole ratio (ts_length query)) g query K h.
Proof.
  intros H k d rows old clock ratio0 thr threads whole g0 total g query ratio K h Hok Hd Hm Hthr Ht Hlog Hmax E Ha Hq Hql Hr HK Hties.
  apply (ready_k_ieee (RP := founder) H k d rows whole g query ratio K h); auto.
  eapply (ready_asked (N := B64)); [|exact Ha]. eapply (ready_grouped (N := B64)); eauto.
  destruct Hq as (_ & _ & Hq2). lia.
Qed.

Lemma ready_k_exact {RP : Rep} : forall (H : std_alg) (k : kind) (d : dataset XR) (rows : list (list R))
    whole g (query : TS XR) (xs : list R) (ratio : R) K h,
  std_ok H ->
  holds d (real_rows rows) -> ds_maxcol d <= 2 ^ 30 ->
  ready (N := XR) d (real_rows rows) k whole g ->
  is_series query xs -> 2 <= ts_length query <= ds_maxcol d -> (0 <= ratio <= 1)%R ->
  1 <= K <= h ->
  no_near_ties (N := XR) (real_rows rows) k (Fin ratio) (map Fin xs)
    (searched_place (N := XR) d (real_rows rows) whole (Fin ratio) (ts_length query)) ->
  k_answer (N := XR) H (real_rows rows) k (Fin ratio) (map Fin xs) (searched (N := XR) d whole (Fin ratio) (ts_length query))
    (searched_place (N := XR) d (real_rows rows) whole (Fin ratio) (ts_length query)) g query K h.
Proof.
  intros H k d rows whole g query xs ratio K h Hok Hd Hmax HR Hq Hql Hr HK.
  assert (Ex : ts_points query = map Fin xs) by apply Hq. rewrite <- Ex. intros Hties.
  destruct HR as (Htx & gss & Hset & Hgss & Hcov).
  assert (N0 : forall x y : R, (x <= y)%R -> nle (N := XR) (Fin x) (Fin y)).
  { intros x y H0. apply XR_nle. exact H0. }
  assert (Lx : ts_length query = Z.of_nat (length xs)).
  { rewrite <- (DtwExt.ts_points_length (N := XR) query) by apply Hq. rewrite Ex, map_length. reflexivity. }
  assert (Lr : forall row, In row rows -> Z.of_nat (length row) <= 2 ^ 30).
  { intros row Hrow. apply In_nth_error in Hrow as [i Hi]. assert (Hi' : nth_error (real_rows rows) i = Some (map Fin row)).
    { unfold real_rows. rewrite nth_error_map, Hi. reflexivity. }
    destruct Hd as (buf & _ & _ & _ & _ & Hrr). destruct (Hrr i _ Hi') as (_ & Hle & _). rewrite map_length in Hle. lia. }
  apply (k_query (N := XR) d (real_rows rows) Hd k (Fin ratio)) with (gss := gss); auto.
  - split; reflexivity.
  - apply N0. simpl. lra.
  - lia.
  - apply ratio_product; [split; reflexivity|apply N0; simpl; lra|apply N0; simpl; lra|unfold int_max; lia].
  - intros h' b b' H1 H2. apply band_slow_xr; auto.
  - apply Hq.
  - apply (searchable_real k rows ratio query xs); auto; [lia|]. intros p [[Hl _] Hp]. split; auto. lia.
  - apply (searchable_from_real k rows ratio query xs); auto; [lia|]. intros p [[Hl _] Hp]. split; auto. lia.
  - apply XR_eps.
Qed.

Lemma k_answer_exact : forall (H : std_alg) (k : kind) (d : dataset XR) (rows : list (list R))
    old clock (ratio0 : D XR) (t : R) threads whole g0 total g (query : TS XR) (xs : list R) (ratio : R) K h,
  std_ok H ->
  holds d (real_rows rows) -> 1 <= threads -> log_safe d clock -> ds_maxcol d <= 2 ^ 30 ->
  groupAllLengths (N := XR) clock ratio0 (mkGS d old) (kind_name k) (Fin t) threads whole = (g0, Ret total) ->
  asked (N := XR) H g0 g ->
  is_series query xs -> 2 <= ts_length query <= ds_maxcol d -> (0 <= ratio <= 1)%R ->
  1 <= K <= h ->
  no_near_ties (N := XR) (real_rows rows) k (Fin ratio) (map Fin xs)
    (searched_place (N := XR) d (real_rows rows) whole (Fin ratio) (ts_length query)) ->
  k_answer (N := XR) H (real_rows rows) k (Fin ratio) (map Fin xs) (searched (N := XR) d whole (Fin ratio) (ts_length query))
    (searched_place (N := XR) d (real_rows rows) whole (Fin ratio) (ts_length query)) g query K h.
Proof.
  intros H k d rows old clock ratio0 t threads whole g0 total g query xs ratio K h Hok Hd Ht Hlog Hmax E Ha Hq Hql Hr HK Hties.
  apply (ready_k_exact (RP := founder) H k d rows whole g query xs ratio K h); auto.
  eapply (ready_asked (N := XR)); [|exact Ha]. eapply (ready_grouped (N := XR)); eauto; [apply half_fin|lia].
Qed.

Lemma enough_places {N : Num} (rows : list (list (D N))) k ratio q S P g h C K :
  considered rows k ratio q S P g h C -> K <= h -> at_least P K -> K <= Z.of_nat (length C).
Proof.
  intros (_ & _ & [[_ HC]|[HC _]]) HK (ps & Hn & Hps & Hl); [|lia].
  pose proof (NoDup_incl_length Hn (fun p Hp => HC p (Hps p Hp))). lia.
Qed.

Lemma answer_full {N : Num} H (rows : list (list (D N))) k ratio q S P g query K h :
  k_answer H rows k ratio q S P g query K h -> 1 <= K <= h -> at_least P K ->
  exists g' C cs, getKBestMatches H ratio g query K h = Ret (g', cs) /\
    considered rows k ratio q S P g h C /\ best_matches rows k ratio q (fun p => In p C) K cs /\ ascending cs /\
    Z.of_nat (length cs) = K.
Proof.
  intros (g' & C & real & E & HC & HB & Ha & Hl) HK Hat. exists g', C, real.
  pose proof (enough_places _ _ _ _ _ _ _ _ _ _ HC (proj2 HK) Hat) as Hle.
  replace (Z.to_nat K - length C)%nat with 0%nat in E by lia. simpl in E. rewrite app_nil_r in E. splits; auto. lia.
Qed.

Lemma answer_short {N : Num} H (rows : list (list (D N))) k ratio q S P g query K h ps :
  k_answer H rows k ratio q S P g query K h -> 1 <= K <= h -> listing P ps -> Z.of_nat (length ps) < K ->
  exists g' real, getKBestMatches H ratio g query K h = Ret (g', real ++ repeat cand_default (Z.to_nat K - length ps)) /\
    Permutation (map place_of real) ps /\ (forall c, In c real -> true_match rows k ratio q c) /\ ascending real.
Proof.
  intros (g' & C & real & E & (HnC & HCP & HC) & (B1 & B2 & B3 & _) & Ha & Hl) HK [Hn Hps] Hlt.
  assert (Hi : incl C ps) by (intros p Hp; apply Hps, HCP, Hp).
  pose proof (NoDup_incl_length HnC Hi) as HlC.
  destruct HC as [[_ HC]|[HC _]]; [|lia].
  assert (Hi' : incl ps C) by (intros p Hp; apply HC, Hps, Hp).
  pose proof (NoDup_incl_length Hn Hi') as HlC'.
  exists g', real. replace (length ps) with (length C) by lia. splits; auto.
  - apply NoDup_Permutation; auto. intros p. split.
    + intros Hp. apply in_map_iff in Hp as (c & <- & Hc). apply Hi, B1, Hc.
    + intros Hp. destruct B3 as [B3|[_ B3]]; [lia|]. apply B3, Hi', Hp.
  - intros c Hc. apply B1, Hc.
Qed.

(** ** C24 *)

(** IEEE doubles.  [g0] is the data set after grouping, [g] after any queries that
    followed; [K] matches are wanted and [h] subsequences looked at. *)
Theorem C24_k_similar_ieee : forall (H : std_alg) (k : kind) (d : dataset B64) (rows : list (list (D B64)))
    old clock (ratio0 thr : D B64) threads whole g0 total g (query : TS B64) (ratio : D B64) K h,
  std_ok H ->
  holds d rows -> moderate_data rows -> nltb (n := B64) (ndiv (n := B64) thr (nofZ 2)) ninf = true ->
  1 <= threads -> log_safe d clock -> ds_maxcol d <= 2 ^ 26 ->
  groupAllLengths (N := B64) clock ratio0 (mkGS d old) (kind_name k) thr threads whole = (g0, Ret total) ->
  asked (N := B64) H g0 g ->
  moderate_query query -> ts_length query <= ds_maxcol d -> moderate_ratio ratio ->
  1 <= K <= h ->
  let S := searched (N := B64) d whole ratio (ts_length query) in
  let P := searched_place (N := B64) d rows whole ratio (ts_length query) in
  no_near_ties (N := B64) rows k ratio (ts_points query) P -> at_least P K ->
  exists g' C cs, getKBestMatches (N := B64) H ratio g query K h = Ret (g', cs) /\
    considered (N := B64) rows k ratio (ts_points query) S P g h C /\
    best_matches (N := B64) rows k ratio (ts_points query) (fun p => In p C) K cs /\ ascending (N := B64) cs /\
    Z.of_nat (length cs) = K.
Proof.
  intros. eapply answer_full; eauto. eapply k_answer_ieee; eauto.
Qed.
Print Assumptions C24_k_similar_ieee.

(** Exact arithmetic. *)
Theorem C24_k_similar_exact : forall (H : std_alg) (k : kind) (d : dataset XR) (rows : list (list R))
    old clock (ratio0 : D XR) (t : R) threads whole g0 total g (query : TS XR) (xs : list R) (ratio : R) K h,
  std_ok H ->
  holds d (real_rows rows) -> 1 <= threads -> log_safe d clock -> ds_maxcol d <= 2 ^ 30 ->
  groupAllLengths (N := XR) clock ratio0 (mkGS d old) (kind_name k) (Fin t) threads whole = (g0, Ret total) ->
  asked (N := XR) H g0 g ->
  is_series query xs -> 2 <= ts_length query <= ds_maxcol d -> (0 <= ratio <= 1)%R ->
  1 <= K <= h ->
  let S := searched (N := XR) d whole (Fin ratio) (ts_length query) in
  let P := searched_place (N := XR) d (real_rows rows) whole (Fin ratio) (ts_length query) in
  no_near_ties (N := XR) (real_rows rows) k (Fin ratio) (map Fin xs) P -> at_least P K ->
  exists g' C cs, getKBestMatches (N := XR) H (Fin ratio) g query K h = Ret (g', cs) /\
    considered (N := XR) (real_rows rows) k (Fin ratio) (map Fin xs) S P g h C /\
    best_matches (N := XR) (real_rows rows) k (Fin ratio) (map Fin xs) (fun p => In p C) K cs /\ ascending (N := XR) cs /\
    Z.of_nat (length cs) = K.
Proof.
  intros. eapply answer_full; eauto. eapply k_answer_exact; eauto.
Qed.
Print Assumptions C24_k_similar_exact.

(** the example data of C23, also without near ties *)
Example C24_example_pre : std_ok simple_alg /\
  no_near_ties (N := B64) ex2_rows KManhattan (b64_ofZ 1) (ts_points bf_query)
    (searched_place (N := B64) ex2_data ex2_rows false (b64_ofZ 1) (ts_length bf_query)) /\
  at_least (searched_place (N := B64) ex2_data ex2_rows false (b64_ofZ 1) (ts_length bf_query)) 2.
Proof.
  split; [apply simple_alg_ok|]. split.
  - destruct C26_example_pre as (_ & _ & _ & _ & Ht). intros p p' v v' [Hp1 Hp2] [Hp1' Hp2']. apply Ht.
    + split; auto. destruct Hp1 as [Hg _]. unfold grouped_length in Hg. lia.
    + split; auto. destruct Hp1' as [Hg _]. unfold grouped_length in Hg. lia.
  - assert (W : forall c, is_sub ex2_rows 2 c -> searched_place (N := B64) ex2_data ex2_rows false (b64_ofZ 1) (ts_length bf_query) (2, c)).
    { intros c Hc. split; auto. split.
      - vm_compute. split; discriminate.
      - exists 1. split; vm_compute; [reflexivity|discriminate]. }
    exists [(2, (0, 0)); (2, (0, 1))]. split; [|split; [|simpl; lia]].
    + repeat constructor; simpl; intuition congruence.
    + intros p [<-|[<-|[]]]; apply W; exists (map b64_ofZ [0; 1; 9]); (split; [reflexivity|]); vm_compute; split; discriminate.
Qed.

Definition show_k {A} (r : res (A * list (cand B64))) :=
  match r with Ret (_, cs) => show_cands (Ret cs) | _ => None end.

Example C24_example_run :
  show_k (getKBestMatches (N := B64) simple_alg (b64_ofZ 1) (fst ex2_grouped) bf_query 2 3) =
    Some [(2, 0, 1, B2SF (b64_ofZ 0)); (3, 1, 0, B2SF (b64_lit 1 6))].
Proof. vm_compute. reflexivity. Qed.

(** ** C25 *)

(** What comes back if fewer than [K] subsequences are there: all of them, each once,
    followed by entries for nothing, up to [K]. *)
Theorem C25_short_answer_ieee : forall (H : std_alg) (k : kind) (d : dataset B64) (rows : list (list (D B64)))
    old clock (ratio0 thr : D B64) threads whole g0 total g (query : TS B64) (ratio : D B64) K h ps,
  std_ok H ->
  holds d rows -> moderate_data rows -> nltb (n := B64) (ndiv (n := B64) thr (nofZ 2)) ninf = true ->
  1 <= threads -> log_safe d clock -> ds_maxcol d <= 2 ^ 26 ->
  groupAllLengths (N := B64) clock ratio0 (mkGS d old) (kind_name k) thr threads whole = (g0, Ret total) ->
  asked (N := B64) H g0 g ->
  moderate_query query -> ts_length query <= ds_maxcol d -> moderate_ratio ratio ->
  1 <= K <= h ->
  let P := searched_place (N := B64) d rows whole ratio (ts_length query) in
  no_near_ties (N := B64) rows k ratio (ts_points query) P ->
  listing P ps -> Z.of_nat (length ps) < K ->
  exists g' real, getKBestMatches (N := B64) H ratio g query K h = Ret (g', real ++ repeat cand_default (Z.to_nat K - length ps)) /\
    Permutation (map place_of real) ps /\ (forall c, In c real -> true_match (N := B64) rows k ratio (ts_points query) c) /\
    ascending (N := B64) real.
Proof.
  intros. eapply answer_short; eauto. eapply k_answer_ieee; eauto.
Qed.
Print Assumptions C25_short_answer_ieee.

Theorem C25_short_answer_exact : forall (H : std_alg) (k : kind) (d : dataset XR) (rows : list (list R))
    old clock (ratio0 : D XR) (t : R) threads whole g0 total g (query : TS XR) (xs : list R) (ratio : R) K h ps,
  std_ok H ->
  holds d (real_rows rows) -> 1 <= threads -> log_safe d clock -> ds_maxcol d <= 2 ^ 30 ->
  groupAllLengths (N := XR) clock ratio0 (mkGS d old) (kind_name k) (Fin t) threads whole = (g0, Ret total) ->
  asked (N := XR) H g0 g ->
  is_series query xs -> 2 <= ts_length query <= ds_maxcol d -> (0 <= ratio <= 1)%R ->
  1 <= K <= h ->
  let P := searched_place (N := XR) d (real_rows rows) whole (Fin ratio) (ts_length query) in
  no_near_ties (N := XR) (real_rows rows) k (Fin ratio) (map Fin xs) P ->
  listing P ps -> Z.of_nat (length ps) < K ->
  exists g' real, getKBestMatches (N := XR) H (Fin ratio) g query K h = Ret (g', real ++ repeat cand_default (Z.to_nat K - length ps)) /\
    Permutation (map place_of real) ps /\ (forall c, In c real -> true_match (N := XR) (real_rows rows) k (Fin ratio) (map Fin xs) c) /\
    ascending (N := XR) real.
Proof.
  intros. eapply answer_short; eauto. eapply k_answer_exact; eauto.
Qed.
Print Assumptions C25_short_answer_exact.

(** So the property fails: the six subsequences of the example data are answered to
    a request for eight, with two made-up entries of length 0 at distance 0, after
    farther ones. *)
Example C25_example_run : show_k (getKBestMatches (N := B64) simple_alg (b64_ofZ 1) (fst ex2_grouped) bf_query 8 8) =
    Some [(2, 0, 1, B2SF (b64_ofZ 0)); (3, 0, 0, B2SF (b64_lit 1 6)); (3, 1, 0, B2SF (b64_lit 1 6)); (2, 1, 1, B2SF (b64_lit 1 4));
          (2, 1, 0, B2SF (b64_lit 8 4)); (2, 0, 0, B2SF (b64_lit 9 4)); (0, 0, 0, B2SF (b64_ofZ 0)); (0, 0, 0, B2SF (b64_ofZ 0))].
Proof. vm_compute. reflexivity. Qed.

Theorem C25_no_fabrication_refuted : ~ (forall (H : std_alg) (k : kind) (d : dataset B64) (rows : list (list (D B64)))
    (ratio0 thr : D B64) g0 total (query : TS B64) (ratio : D B64) K h g' cs,
  std_ok H -> holds d rows -> moderate_data rows -> moderate_query query -> moderate_ratio ratio -> 1 <= K <= h ->
  ts_length query <= ds_maxcol d ->
  no_near_ties (N := B64) rows k ratio (ts_points query) (searched_place (N := B64) d rows false ratio (ts_length query)) ->
  groupAllLengths (N := B64) (fun _ => false) ratio0 (mkGS d None) (kind_name k) thr 1 false = (g0, Ret total) ->
  getKBestMatches (N := B64) H ratio g0 query K h = Ret (g', cs) ->
  forall c, In c cs -> 1 <= ts_length (c_data c) /\ is_sub rows (fst (place_of c)) (snd (place_of c))).
Proof.
  intros A.
  pose proof C26_example_pre as (H1 & H2 & H3 & H4 & _). pose proof C24_example_pre as (H5 & H6 & _).
  pose proof C25_example_run as E.
  destruct (getKBestMatches (N := B64) simple_alg (b64_ofZ 1) (fst ex2_grouped) bf_query 8 8) as [[g' cs]| | |] eqn:Ek; try discriminate E.
  specialize (A simple_alg KManhattan ex2_data ex2_rows (b64_ofZ 1) (b64_ofZ 6) (fst ex2_grouped) 3 bf_query (b64_ofZ 1) 8 8 g' cs
     H5 H1 H2 H3 H4 ltac:(lia)).
  assert (Eg : snd ex2_grouped = Ret 3) by apply C16_example.
  assert (Hl : ts_length bf_query <= ds_maxcol ex2_data) by (vm_compute; discriminate).
  specialize (A Hl H6). 
  assert (Eg' : groupAllLengths (N := B64) (fun _ => false) (b64_ofZ 1) (mkGS ex2_data None) (kind_name KManhattan) (b64_ofZ 6) 1 false = (fst ex2_grouped, Ret 3)).
  { rewrite <- Eg. unfold ex2_grouped. apply surjective_pairing. }
  specialize (A Eg' Ek). cbn [show_k show_cands] in E. injection E as E.
  assert (Hc : exists c, In c cs /\ ts_length (c_data c) = 0).
  { do 8 (destruct cs as [|? cs]; [discriminate E|]). cbn [map] in E. injection E. intros.
    eexists. split; [do 6 right; left; reflexivity|]. assumption. }
  destruct Hc as (c & Hc & E0). destruct (A c Hc) as [A1 _]. lia.
Qed.
Print Assumptions C25_no_fabrication_refuted.
