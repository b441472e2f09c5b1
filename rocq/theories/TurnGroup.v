(** Lemmas for C75: grouping a data set all of whose values are changed by a function that the
    distance does not notice. *)
From Coq Require Import String Lia ZArith FunctionalExtensionality.
From Verif Require Import Base Num LoopFacts TimeSeries TSSet Distance DtwPaths Group GroupSpace DataSpec DataProofs Turn.
Local Open Scope Z_scope.
Local Open Scope list_scope.

Section Lockstep.
Context {N : Num}.
Variables (f : D N -> D N) (d d' : dataset N) (rows : list (list (D N))).
Hypothesis Hd : holds d rows.
Hypothesis Hd' : holds d' (map (map f) rows).
Hypothesis Hm : ds_maxcol d' = ds_maxcol d.
Variable pw : dist_fn N.
Hypothesis Hpw : forall ratio a a' b b' cut mt, changed f a a' -> changed f b b' -> pw ratio a' b' cut mt = pw ratio a b cut mt.
Variables (ratio thr : D N).

Lemma count_same : ds_count d' = ds_count d.
Proof. destruct Hd as (? & _ & E & _), Hd' as (? & _ & E' & _). rewrite E, E', map_length. reflexivity. Qed.

Lemma row_map i row : row_of rows i = Some row -> row_of (map (map f) rows) i = Some (map f row).
Proof. unfold row_of. destruct (i <? 0); [discriminate|]. rewrite nth_error_map. intros ->. reflexivity. Qed.

Lemma row_some i : 0 <= i < ds_count d -> exists row, row_of rows i = Some row.
Proof.
  intros Hi. destruct Hd as (? & _ & E & _). unfold row_of. destruct (Z.ltb_spec i 0); [lia|].
  destruct (nth_error rows (Z.to_nat i)) eqn:En; [eauto|]. apply nth_error_None in En. lia.
Qed.

Lemma length_same i : 0 <= i < ds_count d -> getItemLength d' i = getItemLength d i.
Proof.
  intros Hi. destruct (row_some i Hi) as [row Hr]. destruct (holds_row _ _ _ _ Hd Hr) as (? & _ & _ & E & _).
  destruct (holds_row _ _ _ _ Hd' (row_map _ _ Hr)) as (? & _ & _ & E' & _). rewrite E, E', map_length. reflexivity.
Qed.

Lemma slice_map row s e : slice (map f row) s e = map f (slice row s e).
Proof. unfold slice. rewrite skipn_map, firstn_map. reflexivity. Qed.

Definition fits (len : Z) (c : centroid N) : Prop :=
  exists i s row, c = CView i s /\ row_of rows i = Some row /\ 0 <= s /\ 0 < len /\ s + len <= Z.of_nat (length row).

Lemma cent_same len c : fits len c -> exists t t', cent_ts d len c = Ret t /\ cent_ts d' len c = Ret t' /\ changed f t t'.
Proof.
  intros (i & s & row & -> & Hr & H0 & Hl & He). destruct (holds_row _ _ _ _ Hd Hr) as (buf & _ & _ & _ & _ & _ & P & _ & V).
  destruct (holds_row _ _ _ _ Hd' (row_map _ _ Hr)) as (buf' & _ & _ & _ & _ & _ & P' & _ & V').
  cbn [cent_ts]. rewrite P, P'. cbn [bind]. do 2 eexists. split; [reflexivity|]. split; [reflexivity|].
  destruct (view_points _ row i s (s + len) V ltac:(lia) He) as (A & B & _).
  destruct (view_points _ (map f row) i s (s + len) V' ltac:(lia) ltac:(rewrite map_length; exact He)) as (A' & B' & _).
  split; [exact B|]. split; [exact B'|]. rewrite A, A'. apply slice_map.
Qed.

Lemma get_same i s len : 0 <= i < ds_count d -> 0 <= s ->
  (exists t t', getTimeSeries d i s (s + len) = Ret t /\ getTimeSeries d' i s (s + len) = Ret t' /\ changed f t t' /\ fits len (CView i s)) \/
  (exists e, getTimeSeries d i s (s + len) = Throw e /\ getTimeSeries d' i s (s + len) = Throw e).
Proof.
  intros Hi Hs. destruct (row_some i Hi) as [row Hr]. pose proof (row_map _ _ Hr) as Hr'.
  destruct (Z_lt_dec 0 len) as [Hl|Hl]; [destruct (Z_le_dec (s + len) (Z.of_nat (length row))) as [He|He]|].
  - left. destruct (getTimeSeries_ok d rows i s (s + len) row Hd Hr ltac:(lia) He) as (t & E & P & O & _).
    destruct (getTimeSeries_ok d' _ i s (s + len) (map f row) Hd' Hr' ltac:(lia) ltac:(rewrite map_length; lia)) as (t' & E' & P' & O' & _).
    exists t, t'. split; [exact E|]. split; [exact E'|]. split; [split; [exact O|]; split; [exact O'|]; rewrite P, P'; apply slice_map|].
    exists i, s, row. auto 6.
  - right. unfold getTimeSeries. rewrite count_same, (length_same i Hi). destruct (holds_row _ _ _ _ Hd Hr) as (? & _ & _ & E & _). rewrite E. cbn [bind].
    destruct (Z.ltb_spec i 0); [lia|]. destruct (Z.leb_spec (ds_count d) i); [lia|]. cbn [orb]. destruct (Z.ltb_spec s 0); [lia|]. cbn [andb orb].
    destruct (Z.leb_spec (s + len) s); [lia|]. destruct (Z.ltb_spec (Z.of_nat (length row)) (s + len)); [eauto|lia].
  - right. unfold getTimeSeries. rewrite count_same.
    destruct (Z.ltb_spec i 0); [lia|]. destruct (Z.leb_spec (ds_count d) i); [lia|]. cbn [orb]. destruct (Z.ltb_spec s 0); [lia|]. cbn [andb orb].
    destruct (Z.leb_spec (s + len) s); [eauto|lia].
Qed.

Definition views (L : llgs N) : Prop := Forall (fun g => fits (ll_length L) (g_cent g)) (ll_groups L).

Lemma aget_In {A} (l : list A) i x : aget l i = Ret x -> In x l.
Proof. unfold aget. destruct (0 <=? i); [|discriminate]. destruct (nth_error l (Z.to_nat i)) eqn:E; [|discriminate]. intros [= <-]. apply (nth_error_In _ _ E). Qed.
Lemma upd_Forall {A} (P : A -> Prop) l n x : Forall P l -> P x -> Forall P (upd l n x).
Proof. intros H Hx. revert n. induction H as [|y l Hy H IH]; intros [|n]; cbn; constructor; auto. Qed.

Lemma nearest_same L q q' : views L -> changed f q q' -> forall st,
  for_ 0 (Z.of_nat (length (ll_groups L))) (nearest_step d' (ll_length L) pw ratio (ll_groups L) q') st =
  for_ 0 (Z.of_nat (length (ll_groups L))) (nearest_step d (ll_length L) pw ratio (ll_groups L) q) st.
Proof.
  intros Hv Hq st. apply (for_ext_inv (fun _ _ => True)); [exact I|]. intros k s _ _. split; [|auto].
  unfold nearest_step. destruct (aget (ll_groups L) k) as [g| | |] eqn:Eg; cbn [bind]; try reflexivity.
  apply aget_In in Eg. unfold views in Hv. rewrite Forall_forall in Hv. destruct (cent_same _ _ (Hv g Eg)) as (t & t' & E & E' & C).
  rewrite E, E'. cbn [bind]. rewrite (Hpw _ _ _ _ _ _ _ C Hq). reflexivity.
Qed.

Lemma place_same i s L : 0 <= i < ds_count d -> 0 <= s -> views L ->
  Group.place d' pw ratio thr i s L = Group.place d pw ratio thr i s L /\ forall L', Group.place d' pw ratio thr i s L = Ret L' -> views L' /\ ll_length L' = ll_length L.
Proof.
  intros Hi Hs Hv. unfold Group.place.
  destruct (get_same i s (ll_length L) Hi Hs) as [(q & q' & E & E' & C & Fi)|(e & E & E')]; rewrite E, E'; cbn [bind]; [|split; [reflexivity|discriminate]].
  rewrite (nearest_same L q q' Hv C).
  destruct (for_ 0 _ _ _) as [[best bi]| | |]; cbn [bind]; try (split; [reflexivity|discriminate]).
  unfold setCentroid. rewrite E, E'. cbn [bind]. split; [reflexivity|]. intros L'.
  set (gs := if nltb (ndiv thr (nofZ 2)) best || (Z.of_nat (length (ll_groups L)) =? 0) then _ else _).
  assert (G : forall x y, gs = Ret (x, y) -> Forall (fun g => fits (ll_length L) (g_cent g)) x).
  { intros x y. unfold gs. destruct (_ || _).
    - intros [= <- _]. apply Forall_app. split; [exact Hv|]. constructor; [exact Fi|constructor].
    - destruct (init_get bi); cbn [bind]; try discriminate. intros [= <- _]. exact Hv. }
  destruct gs as [[groups b]| | |]; cbn [bind]; try discriminate. specialize (G _ _ eq_refl).
  destruct (aget groups b) as [g| | |] eqn:Eg; cbn [bind]; try discriminate.
  unfold addMember. destruct (member_pos _ _ _) as [pos| | |]; cbn [bind]; try discriminate.
  destruct (aset (ll_map L) pos (g_last g)) as [mm| | |]; cbn [bind]; try discriminate.
  unfold aset. destruct (_ && _); cbn [bind]; [|discriminate]. intros [= <-]. split; [|reflexivity]. unfold views. cbn [ll_length ll_groups].
  apply upd_Forall; [exact G|]. cbn [g_cent]. rewrite Forall_forall in G. apply G. apply aget_In in Eg. exact Eg.
Qed.

Lemma generate_same doLog L : views L -> generateGroups doLog d' pw ratio thr L = generateGroups doLog d pw ratio thr L.
Proof.
  intros Hv. unfold generateGroups. rewrite count_same.
  destruct (imul (ll_sub L) (ds_count d)) as [total| | |]; cbn [bind]; try reflexivity.
  assert (X : for_ 0 (ll_sub L) (fun start st => for_ 0 (ds_count d) (fun idx (st : Z * llgs N) =>
      let counter := fst st + 1 in
      _ <- log_step doLog total counter ;; len <- getItemLength d' idx ;;
      if len <? start + ll_length (snd st) then Ret (counter, snd st)
      else L' <- Group.place d' pw ratio thr idx start (snd st) ;; Ret (counter, L')) st) (0, L) =
    for_ 0 (ll_sub L) (fun start st => for_ 0 (ds_count d) (fun idx (st : Z * llgs N) =>
      let counter := fst st + 1 in
      _ <- log_step doLog total counter ;; len <- getItemLength d idx ;;
      if len <? start + ll_length (snd st) then Ret (counter, snd st)
      else L' <- Group.place d pw ratio thr idx start (snd st) ;; Ret (counter, L')) st) (0, L)).
  { apply (for_ext_inv (fun _ st => views (snd st))); [exact Hv|]. intros s st Hs Hst.
    destruct (for_ext_inv (fun _ st => views (snd st)) (fun idx (st : Z * llgs N) =>
      let counter := fst st + 1 in
      _ <- log_step doLog total counter ;; len <- getItemLength d' idx ;;
      if len <? s + ll_length (snd st) then Ret (counter, snd st)
      else L' <- Group.place d' pw ratio thr idx s (snd st) ;; Ret (counter, L')) (fun idx (st : Z * llgs N) =>
      let counter := fst st + 1 in
      _ <- log_step doLog total counter ;; len <- getItemLength d idx ;;
      if len <? s + ll_length (snd st) then Ret (counter, snd st)
      else L' <- Group.place d pw ratio thr idx s (snd st) ;; Ret (counter, L')) 0 (ds_count d) st Hst) as [A B].
    - intros i st1 Hi Hst1. cbn zeta. destruct (log_step doLog total (fst st1 + 1)); cbn [bind]; try (split; [reflexivity|discriminate]).
      rewrite (length_same i Hi). destruct (getItemLength d i) as [len| | |]; cbn [bind]; try (split; [reflexivity|discriminate]).
      destruct (len <? s + ll_length (snd st1)); [split; [reflexivity|intros s' [= <-]; exact Hst1]|].
      destruct (place_same i s (snd st1) Hi ltac:(lia) Hst1) as [P1 P2]. rewrite <- P1. split; [reflexivity|].
      intros s'. destruct (Group.place d' pw ratio thr i s (snd st1)) as [L'| | |]; cbn [bind]; try discriminate. intros [= <-]. apply P2. reflexivity.
    - split; [exact A|exact B]. }
  exact (f_equal (fun r => '(_, L') <- r ;; Ret L') X).
Qed.

Lemma level_same clock i : group_level clock d' pw ratio thr i = group_level clock d pw ratio thr i.
Proof.
  unfold group_level, ll_new. rewrite Hm, count_same. destruct (imul _ _) as [size| | |]; cbn [bind]; try reflexivity.
  destruct (size <? 0); cbn [bind]; [reflexivity|]. apply generate_same. constructor.
Qed.

Lemma loop_same clock n : forall i gs, group_loop clock d' pw ratio thr n i gs = group_loop clock d pw ratio thr n i gs.
Proof.
  induction n as [|n IH]; intros i gs; cbn [group_loop]; [reflexivity|]. rewrite level_same. unfold ll_new. rewrite Hm, count_same.
  destruct (group_level clock d pw ratio thr i) as [L| | |]; try reflexivity. destruct (aset (gg_levels gs) i (Some L)); try reflexivity. apply IH.
Qed.
End Lockstep.

Lemma grouping_same {N : Num} (f : D N -> D N) (d d' : dataset N) rows nm old old' clock (ratio thr : D N) threads whole :
  holds d rows -> holds d' (map (map f) rows) -> ds_maxcol d' = ds_maxcol d ->
  (forall pw, getDistanceFromName nm = Ret pw -> forall ratio a a' b b' cut mt, changed f a a' -> changed f b b' -> pw ratio a' b' cut mt = pw ratio a b cut mt) ->
  exists gs r, groupAllLengths clock ratio (mkGS d old) nm thr threads whole = (mkGS d gs, r) /\
    groupAllLengths clock ratio (mkGS d' old') nm thr threads whole = (mkGS d' gs, r).
Proof.
  intros Hd Hd' Hm Hpw. unfold groupAllLengths. cbn [gt_data].
  assert (I : isLoaded d = true /\ isLoaded d' = true) by (destruct Hd as (? & E & _), Hd' as (? & E' & _); unfold isLoaded; rewrite E, E'; auto).
  destruct I as [-> ->]. cbn [negb]. destruct (1 <=? threads); [|eauto].
  assert (E : gg_group clock d' ratio gg_new nm thr whole = gg_group clock d ratio gg_new nm thr whole).
  { unfold gg_group, gg_loadDistance. destruct (getDistanceFromName nm) as [pw| | |] eqn:Ef; try reflexivity.
    destruct (warpedFor nm); try reflexivity. cbn [gg_pw gg_levels gg_name gg_warp gg_threshold gg_total gg_whole with_levels]. rewrite Hm.
    destruct (_ <? 0); [reflexivity|]. apply (loop_same f d d' rows Hd Hd' Hm pw (Hpw pw eq_refl)). }
  rewrite E. destruct (gg_group clock d ratio gg_new nm thr whole) as [gs r]. eauto.
Qed.
