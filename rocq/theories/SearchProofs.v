(** Top-k search over the subsequences of a data set. *)
From Coq Require Import String Permutation.
From Verif Require Import Base Num NumLaws NumFacts NumMore LoopFacts TimeSeries Lemire Distance DtwSpec DtwPaths DtwProofs Metrics
  DtwMain DtwResults LowerBounds DistSpec DistFacts DistLink DtwExt TSSet StdAlg Candidate DataSpec DataProofs GroupSpec
  HeapFacts CandOrder TopK SearchSpec.
Local Open Scope Z_scope.
Local Open Scope list_scope.

Lemma NoDup_app_l {A} (l l' : list A) : NoDup (l ++ l') -> NoDup l.
Proof.
  induction l as [|x l IH]; simpl; intros Hn; [constructor|]. inversion Hn as [|? ? Hx Hn']; subst.
  constructor; auto. intros Hi. apply Hx, in_or_app. auto.
Qed.

Section S.
Context {N : Num} {LW : NumLaws N} {EL : EpsLaws N}.
Notation D := (D N).
Variable H : std_alg.
Hypothesis Hok : std_ok H.
Variable d : dataset N.
Variable rows : list (list D).
Hypothesis Hd : holds d rows.

Lemma place_ts p : 1 <= fst p -> is_sub rows (fst p) (snd p) ->
  exists t, getTimeSeries d (fst (snd p)) (snd (snd p)) (snd (snd p) + fst p) = Ret t /\
    ts_points t = place_values rows p /\ ts_ok t /\ (ts_length t, (ts_index t, ts_start t)) = p.
Proof.
  destruct p as [l [i s]]. simpl. intros Hl (row & Er & H1 & H2). simpl in *.
  destruct (getTimeSeries_ok d rows i s (s + l) row Hd Er ltac:(lia) ltac:(lia)) as (t & E & Hp & Ho & Hi & Hs & Hl').
  exists t. splits; auto.
  - unfold place_values, sub_values. simpl. rewrite Er. exact Hp.
  - rewrite Hl', Hi, Hs. f_equal. lia.
Qed.

(** the value of the library's distance when nothing overflows *)
Lemma dtw_of_eq k (ratio : D) a b : ts_ok a -> ts_ok b ->
  dtw_of k ratio (ts_points a) (ts_points b) = value (warpedDistance (metric_of k) a b ratio ninf []).
Proof.
  intros Ha Hb. unfold dtw_of. rewrite call_dtw.
  pose proof (ts_of_list_same a Ha) as (_ & Ha' & Ea). pose proof (ts_of_list_same b Hb) as (_ & Hb' & Eb).
  rewrite (warped_ext (metric_of k) a (ts_of_list (ts_points a)) b (ts_of_list (ts_points b))); auto; split; auto.
Qed.

Lemma dtw_ret k a b (ratio : D) r mt : ieee_ok k a b ratio r ->
  exists v mt', warpedDistance (metric_of k) a b ratio ninf mt = Ret (v, mt') /\ nle n0 v.
Proof.
  intros Hi. apply ok_pre in Hi. destruct (dtw_inf _ (nice_of k) a b ratio r Hi mt) as (v & p & _ & E & _).
  exists v, (p ++ rev mt). split; auto. apply (dtw_nonneg _ (nice_of k) a b ratio r Hi _ _ _ _ lw_inf_nn E).
Qed.

Definition dtw_val (k : kind) (ratio : D) (q ys : list D) : D :=
  match dtw_of k ratio q ys with Ret v => v | _ => n0 end.

Lemma dtw_val_ok k a b (ratio : D) r : ieee_ok k a b ratio r ->
  dtw_of k ratio (ts_points a) (ts_points b) = Ret (dtw_val k ratio (ts_points a) (ts_points b)) /\
  nle n0 (dtw_val k ratio (ts_points a) (ts_points b)) /\
  exists mt', warpedDistance (metric_of k) a b ratio ninf [] = Ret (dtw_val k ratio (ts_points a) (ts_points b), mt').
Proof.
  intros Hi. destruct (dtw_ret k a b ratio r [] Hi) as (v & mt' & E & Hv).
  assert (Eo : dtw_of k ratio (ts_points a) (ts_points b) = Ret v).
  { rewrite dtw_of_eq by apply Hi. rewrite E. reflexivity. }
  unfold dtw_val. rewrite Eo. splits; auto. eauto.
Qed.

(** a distance function that agrees with the warped distance of kind [k] up to
    early abandoning *)
Definition agrees (k : kind) (ratio : D) (query : TS N) (call : TS N -> D -> res D) : Prop :=
  forall t r, ieee_ok k query t ratio r -> cut_sound call (fun t => dtw_val k ratio (ts_points query) (ts_points t)) t.

Lemma plain_agrees k (ratio : D) query :
  agrees k ratio query (fun t cut => '(v, _) <- warpedDistance (metric_of k) query t ratio cut [] ;; Ret v).
Proof.
  intros t r Hi cut Hc. destruct (dtw_val_ok k query t ratio r Hi) as (_ & _ & mt' & E).
  pose proof (proj1 (ok_pre _ _ _ _ _) Hi) as Hp.
  destruct (dtw_cutoff _ (nice_of k) query t ratio r Hp cut [] _ _ Hc E) as (v & mt2 & E2 & H1 & H2).
  exists v. rewrite E2. splits; auto. intros Hlt. apply nlt_asym, H2, Hlt.
Qed.

Lemma cascade_agrees (ratio : D) query :
  agrees KEuclidean ratio query (fun t cut => '(v, _) <- cascadeDistance ratio query t cut [] ;; Ret v).
Proof.
  intros t r Hi cut Hc. destruct (dtw_val_ok KEuclidean query t ratio r Hi) as (_ & _ & mt' & E).
  pose proof (proj1 (ok_pre _ _ _ _ _) Hi) as Hp.
  destruct (cascade_ok query t ratio r cut [] _ _ Hp Hc E) as (v & mt2 & E2 & H1 & H2).
  exists v. rewrite E2. splits; auto. intros Hlt. apply nlt_asym, H2, Hlt.
Qed.

(** the series at the places *)
Definition at_place (p : place) (t : TS N) : Prop :=
  getTimeSeries d (fst (snd p)) (snd (snd p)) (snd (snd p) + fst p) = Ret t /\
  ts_points t = place_values rows p /\ ts_ok t /\ (ts_length t, (ts_index t, ts_start t)) = p.

Lemma places_ts ps : (forall p, In p ps -> 1 <= fst p /\ is_sub rows (fst p) (snd p)) ->
  exists ts, Forall2 at_place ps ts.
Proof.
  induction ps as [|p ps IH]; intros Hp; [exists []; constructor|].
  destruct IH as [ts Hts]; [intros q Hq; apply Hp; simpl; auto|].
  destruct (place_ts p) as (t & Ht); try (apply Hp; simpl; auto).
  exists (t :: ts). constructor; auto.
Qed.

Lemma fold_places {S} (body : TS N -> S -> res S) ps ts : Forall2 at_place ps ts -> forall s,
  fold_res (fun p st => t <- getTimeSeries d (fst (snd p)) (snd (snd p)) (snd (snd p) + fst p) ;; body t st) ps s =
  fold_res body ts s.
Proof.
  induction 1 as [|p t ps ts (E & _) _ IH]; intros s; auto. simpl. rewrite E. simpl.
  destruct (body t s); simpl; auto.
Qed.

Section Query.
Variable k : kind.
Variable ratio : D.
Variable query : TS N.
Hypothesis Hq : ts_ok query.
Notation q := (ts_points query).
Notation dist := (fun t => dtw_val k ratio q (ts_points t)).

Lemma at_ieee p t : at_place p t -> (exists r, ieee_ok k (ts_of_list q) (ts_of_list (place_values rows p)) ratio r) ->
  exists r, ieee_ok k query t ratio r.
Proof.
  intros (_ & Ep & Ht & _) [r Hr]. exists r.
  pose proof (ts_of_list_same query Hq) as (_ & Hq' & Eq'). pose proof (ts_of_list_same t Ht) as (_ & Ht' & Et').
  rewrite <- Ep in Hr. eapply ieee_ok_ext; [| |exact Hr]; split; auto.
Qed.

Variable P : place -> Prop.
Hypothesis HP : forall p, P p -> 1 <= fst p /\ is_sub rows (fst p) (snd p).
Hypothesis Hs : searchable rows k ratio q P.

(** all facts about a candidate at a place *)
Lemma at_facts p t : P p -> at_place p t ->
  dtw_of k ratio q (place_values rows p) = Ret (dist t) /\ nle n0 (dist t) /\
  true_match rows k ratio q (mkCand t (dist t)) /\ place_of (mkCand t (dist t)) = p.
Proof.
  intros Hp Hat. destruct (at_ieee p t Hat (Hs p Hp)) as [r Hr].
  destruct Hat as (E & Ep & Ht & El). destruct (dtw_val_ok k query t ratio r Hr) as (Ed & Hn & _).
  assert (Epl : place_of (mkCand t (dtw_val k ratio q (ts_points t))) = p) by exact El.
  splits; auto.
  - rewrite <- Ep. exact Ed.
  - unfold true_match. rewrite Epl. splits; auto. apply HP; auto.
Qed.

Lemma all_places_facts ps ts : (forall p, In p ps -> P p) -> Forall2 at_place ps ts ->
  no_near_ties rows k ratio q P ->
  separated (map dist ts) /\ map place_of (map (cand_of dist) ts) = ps /\
  forall t, In t ts -> exists p, In p ps /\ at_place p t.
Proof.
  intros Hps F Ht.
  assert (G : forall t, In t ts -> exists p, In p ps /\ at_place p t).
  { clear Hps Ht. induction F as [|p t ps ts Hpt F IH]; intros u Hu; [destruct Hu|].
    destruct Hu as [<-|Hu]; [exists p; simpl; auto|]. destruct (IH u Hu) as (p' & Hp' & Ha). exists p'. simpl. auto. }
  splits; auto.
  - split.
    + intros x Hx. apply in_map_iff in Hx as (t & <- & Hin). destruct (G t Hin) as (p & Hp & Ha).
      apply (at_facts p t); auto.
    + intros x y Hx Hy. apply in_map_iff in Hx as (t & <- & Hin). apply in_map_iff in Hy as (t' & <- & Hin').
      destruct (G t Hin) as (p & Hp & Ha). destruct (G t' Hin') as (p' & Hp' & Ha').
      apply (Ht p p'); auto; apply at_facts; auto.
  - clear G Ht Hps. induction F as [|p t ps ts (_ & _ & _ & E) F IH]; simpl; auto. rewrite IH. f_equal. exact E.
Qed.

Variable call : TS N -> D -> res D.
Hypothesis Hcall : agrees k ratio query call.

Lemma nearest_best ps ts K best : 1 <= K -> NoDup ps -> (forall p, In p ps <-> P p) -> Forall2 at_place ps ts ->
  no_near_ties rows k ratio q P -> k_nearest K (map (cand_of dist) ts) best ->
  best_matches rows k ratio q P K best /\ separated (map c_dist best).
Proof.
  intros HK Hnd Hiff F Ht (rest & Pm & Hlen & Hle).
  destruct (all_places_facts ps ts (fun p => proj1 (Hiff p)) F Ht) as (Hsep & Epl & Hat).
  assert (Hbt : forall c, In c best -> exists p t, In p ps /\ at_place p t /\ c = cand_of dist t /\ In t ts).
  { intros c Hc. assert (Hin : In c (map (cand_of dist) ts)) by (apply (Permutation_in _ (Permutation_sym Pm)), in_or_app; auto).
    apply in_map_iff in Hin as (t & <- & Hin). destruct (Hat t Hin) as (p & Hp & Ha). exists p, t. auto. }
  assert (Pp : Permutation ps (map place_of best ++ map place_of rest)).
  { rewrite <- Epl, <- map_app. apply Permutation_map, Pm. }
  split.
  - unfold best_matches. splits.
    + intros c Hc. destruct (Hbt c Hc) as (p & t & Hp & Ha & -> & _). unfold cand_of.
      destruct (at_facts p t) as (_ & _ & Hm & Ep); auto; [apply Hiff; auto|].
      rewrite Ep. split; [apply Hiff; auto|exact Hm].
    + apply (Permutation_NoDup Pp) in Hnd. apply NoDup_app_l in Hnd. exact Hnd.
    + destruct (Z.lt_ge_cases (Z.of_nat (length best)) K) as [Hlt|Hge]; [right|left; lia].
      split; auto. intros p Hp. apply Hiff in Hp. apply (Permutation_in _ Pp) in Hp.
      pose proof (Permutation_length Pm) as HL. rewrite app_length in HL.
      assert (rest = []) by (destruct rest; auto; simpl in HL; lia). subst rest. simpl in Hp. rewrite app_nil_r in Hp. exact Hp.
    + intros p v c Hp Hni Ev Hc. apply Hiff in Hp. pose proof Hp as Hp0. apply (Permutation_in _ Pp) in Hp.
      apply in_app_or in Hp as [Hp|Hp]; [contradiction|]. apply in_map_iff in Hp as (c' & Ep & Hc').
      assert (Hin : In c' (map (cand_of dist) ts)) by (apply (Permutation_in _ (Permutation_sym Pm)), in_or_app; auto).
      apply in_map_iff in Hin as (t & <- & Hin). destruct (Hat t Hin) as (p' & Hp' & Ha).
      destruct (at_facts p' t) as (Ed & _ & _ & Ep'); auto; [apply Hiff; auto|].
      change (place_of (cand_of dist t) = p') in Ep'. rewrite Ep' in Ep. subst p'.
      rewrite Ed in Ev. injection Ev as <-. apply (Hle c (cand_of dist t)); auto.
  - apply (separated_incl (map dist ts)); auto. intros x Hx. apply in_map_iff in Hx as (c & <- & Hc).
    destruct (Hbt c Hc) as (p & t & _ & _ & -> & Hin). apply in_map_iff. exists t. auto.
Qed.

Lemma topk_places_at ps K : 1 <= K -> NoDup ps -> (forall p, In p ps <-> P p) -> no_near_ties rows k ratio q P ->
  exists best k', fold_res (fun p st =>
      t <- getTimeSeries d (fst (snd p)) (snd (snd p)) (snd (snd p) + fst p) ;; topk_step H call t st) ps ([], K) = Ret (best, k') /\
    best_matches rows k ratio q P K best /\ separated (map c_dist best) /\
    k' = K - Z.of_nat (length best) /\ 0 <= k' /\
    forall c, In c best -> exists p, P p /\ at_place p (c_data c).
Proof.
  intros HK Hnd Hiff Ht.
  destruct (places_ts ps) as [ts F]; [intros p Hp; apply HP, Hiff, Hp|].
  destruct (all_places_facts ps ts (fun p => proj1 (Hiff p)) F Ht) as (Hsep & Epl & Hat).
  rewrite (fold_places _ ps ts F).
  destruct (topk_fold H Hok call dist K ts) as (best & k' & E & Hn & Hk & Hk0); auto.
  { intros t Hin. destruct (Hat t Hin) as (p & Hp & Ha).
    destruct (at_ieee p t Ha (Hs p (proj1 (Hiff p) Hp))) as [r Hr]. apply (Hcall t r Hr). }
  exists best, k'. destruct (nearest_best ps ts K best) as [Hb Hsb]; auto. splits; auto.
  intros c Hc. destruct Hn as (rest & Pm & _).
  assert (Hin : In c (map (cand_of dist) ts)) by (apply (Permutation_in _ (Permutation_sym Pm)), in_or_app; auto).
  apply in_map_iff in Hin as (t & <- & Hin). destruct (Hat t Hin) as (p & Hp & Ha). exists p. split; [apply Hiff; auto|exact Ha].
Qed.

Lemma topk_places ps K : 1 <= K -> NoDup ps -> (forall p, In p ps <-> P p) -> no_near_ties rows k ratio q P ->
  exists best k', fold_res (fun p st =>
      t <- getTimeSeries d (fst (snd p)) (snd (snd p)) (snd (snd p) + fst p) ;; topk_step H call t st) ps ([], K) = Ret (best, k') /\
    best_matches rows k ratio q P K best /\ separated (map c_dist best) /\
    k' = K - Z.of_nat (length best) /\ 0 <= k'.
Proof.
  intros HK Hnd Hiff Ht. destruct (topk_places_at ps K HK Hnd Hiff Ht) as (best & k' & A1 & A2 & A3 & A4 & A5 & _).
  exists best, k'. auto.
Qed.

(** sorting search results *)
Lemma sort_matches K best : separated (map c_dist best) -> best_matches rows k ratio q P K best ->
  exists l, sort H cand_lt best = Ret l /\ best_matches rows k ratio q P K l /\ ascending l /\ Permutation best l.
Proof.
  intros Hsep (B1 & B2 & B3 & B4).
  destruct (sort_ok H Hok cand_lt best (cand_swo best Hsep)) as (l & E & Pl & Hl).
  exists l. splits; auto.
  - assert (Pp : Permutation (map place_of best) (map place_of l)) by (apply Permutation_map; auto).
    unfold best_matches. splits.
    + intros c Hc. apply B1. apply (Permutation_in _ (Permutation_sym Pl)), Hc.
    + apply (Permutation_NoDup Pp B2).
    + rewrite <- (Permutation_length Pl). destruct B3 as [B3|[B3 B3']]; [left; auto|right; split; auto].
      intros p Hp. apply (Permutation_in _ Pp), B3', Hp.
    + intros p v c Hp Hni Ev Hc. apply (B4 p v c); auto.
      * intros Hin. apply Hni, (Permutation_in _ Pp), Hin.
      * apply (Permutation_in _ (Permutation_sym Pl)), Hc.
  - intros i j x y Hij Ex Ey. apply (cand_lt_dist l).
    + eapply separated_incl; [|exact Hsep]. intros z Hz. apply (Permutation_in _ (Permutation_sym (Permutation_map c_dist Pl))), Hz.
    + eapply nth_error_In; eauto.
    + eapply nth_error_In; eauto.
    + apply (Hl i j x y Hij Ex Ey).
Qed.
End Query.
End S.
