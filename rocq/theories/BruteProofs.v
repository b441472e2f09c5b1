(** The exhaustive search visits every subsequence of length >= 2 once. *)
From Coq Require Import String Permutation.
From Verif Require Import Base Num NumLaws NumFacts NumMore LoopFacts TimeSeries Lemire Distance DistSpec DistLink
  TSSet StdAlg Candidate BruteForce DataSpec DataProofs GroupSpec Members GroupProofs
  HeapFacts CandOrder TopK SearchSpec SearchProofs.
Local Open Scope Z_scope.
Local Open Scope list_scope.

Section Brute.
Context {N : Num} {LW : NumLaws N} {EL : EpsLaws N}.
Notation D := (D N).
Variable H : std_alg.
Hypothesis Hok : std_ok H.
Variable d : dataset N.
Variable rows : list (list D).
Hypothesis Hd : holds d rows.

Definition row_places (idx : Z) : list place :=
  match row_of rows idx with
  | Some row => let n := Z.of_nat (length row) in
      flat_map (fun l => map (fun s => (l, (idx, s))) (zseq 0 (Z.to_nat (n - l + 1)))) (zseq 2 (Z.to_nat (n - 1)))
  | None => []
  end.
Definition bf_places : list place := flat_map row_places (zseq 0 (length rows)).

Lemma row_places_In idx p : In p (row_places idx) <-> fst (snd p) = idx /\ long_enough rows p.
Proof.
  destruct p as [l [i s]]. unfold row_places, long_enough, is_sub. simpl.
  destruct (row_of rows idx) as [row|] eqn:Er.
  - rewrite in_flat_map. split.
    + intros (l' & Hl' & Hin). apply in_map_iff in Hin as (s' & E & Hs'). injection E as -> -> ->.
      apply zseq_In in Hl'. apply zseq_In in Hs'. splits; auto; [lia|]. exists row. splits; auto; lia.
    + intros (-> & Hl & row' & Er' & Hs & He). assert (row' = row) by congruence. subst row'.
      exists l. split; [apply zseq_In; lia|]. apply in_map_iff. exists s. split; auto. apply zseq_In. lia.
  - split; [intros []|]. intros (-> & _ & row' & Er' & _). congruence.
Qed.

Lemma bf_places_In p : In p bf_places <-> long_enough rows p.
Proof.
  unfold bf_places. rewrite in_flat_map. split.
  - intros (idx & _ & Hin). apply row_places_In in Hin. apply Hin.
  - intros Hp. exists (fst (snd p)). split; [|apply row_places_In; auto].
    destruct Hp as (_ & row & Er & _). apply row_of_Some in Er as [Hr _]. apply zseq_In. lia.
Qed.

Lemma bf_places_NoDup : NoDup bf_places.
Proof.
  apply NoDup_flat.
  - apply zseq_NoDup.
  - intros idx _. unfold row_places. destruct (row_of rows idx) as [row|]; [|constructor]. apply NoDup_flat.
    + apply zseq_NoDup.
    + intros l _. apply NoDup_map_inj; [intros x y _ _ E; congruence|apply zseq_NoDup].
    + intros l l' z _ _ H1 H2. apply in_map_iff in H1 as (? & <- & _). apply in_map_iff in H2 as (? & E & _). congruence.
  - intros i j z _ _ H1 H2. apply row_places_In in H1, H2. destruct H1, H2. congruence.
Qed.

(** the three nested loops run over these places *)
Lemma bf_loops {S} (body : Z -> Z -> Z -> S -> res S) s :
  for_ 0 (ds_count d) (fun idx st =>
      n <- getItemLength d idx ;;
      for_ 2 (n + 1) (fun len st => for_ 0 (n - len + 1) (fun start st => body idx len start st) st) st) s
  = fold_res (fun p st => body (fst (snd p)) (fst p) (snd (snd p)) st) bf_places s.
Proof.
  pose proof Hd as (buf & _ & Ec & _). rewrite for_fold, Ec, Z.sub_0_r, Nat2Z.id.
  unfold bf_places. rewrite fold_res_flat. apply fold_res_ext. intros idx st Hidx. apply zseq_In in Hidx.
  destruct (row_of_in rows idx ltac:(lia)) as [row Er].
  destruct (holds_row d rows idx row Hd Er) as (_ & _ & _ & El & _). rewrite El. cbn [bind].
  unfold row_places. rewrite Er. rewrite fold_res_flat, for_fold.
  replace (Z.of_nat (length row) + 1 - 2) with (Z.of_nat (length row) - 1) by lia.
  apply fold_res_ext. intros l st' _. rewrite fold_res_map, for_fold, Z.sub_0_r. reflexivity.
Qed.

Lemma brute_main k (ratio : D) query K : 1 <= K -> ts_ok query ->
  searchable rows k ratio (ts_points query) (long_enough rows) ->
  no_near_ties rows k ratio (ts_points query) (long_enough rows) ->
  exists best, getKBestMatchesBruteForce H ratio d query K (kind_name k) = Ret best /\
    best_matches rows k ratio (ts_points query) (long_enough rows) K best /\ ascending best.
Proof.
  intros HK Hq Hs Ht. unfold getKBestMatchesBruteForce. destruct (Z.leb_spec K 0); [lia|].
  assert (Ef : @getDistanceFromName N (kind_name k ++ "_dtw") =
    Ret (fun ratio a b d mt => warpedDistance (metric_of k) a b ratio d mt)) by (destruct k; reflexivity).
  rewrite Ef. cbn [bind]. rewrite bf_loops.
  destruct (topk_places H Hok d rows Hd k ratio query Hq (long_enough rows)
    (fun p Hp => conj (Z.le_trans 1 2 _ ltac:(lia) (proj1 Hp)) (proj2 Hp)) Hs
    (fun t cut => '(v, _) <- warpedDistance (metric_of k) query t ratio cut [] ;; Ret v)
    (plain_agrees k ratio query) bf_places K HK bf_places_NoDup bf_places_In Ht) as (best & k' & E & Hb & Hsep & _).
  erewrite fold_res_ext; [rewrite E|].
  - cbn [bind]. destruct (sort_matches H Hok rows k ratio query (long_enough rows) K best Hsep Hb) as (l & El & Hl & Ha & _).
    eauto.
  - intros [l [i s]] [b kk] _. unfold bf_step, topk_step. cbn [fst snd].
    destruct (getTimeSeries d i s (s + l)) as [t| | |]; cbn [bind]; auto.
    destruct (kk >? 0).
    + destruct (warpedDistance (metric_of k) query t ratio ninf []) as [[v mt]| | |]; cbn [bind]; reflexivity.
    + destruct (front b) as [top| | |]; cbn [bind]; auto.
      destruct (warpedDistance (metric_of k) query t ratio (c_dist top) []) as [[v mt]| | |]; cbn [bind]; reflexivity.
Qed.
End Brute.
