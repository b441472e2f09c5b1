(** Comparing the answers of two searches position by position. *)
From Coq Require Import String Permutation.
From Verif Require Import Base Num NumLaws NumFacts LoopFacts TimeSeries Distance DtwSpec DtwPaths DtwExt DtwResults DistSpec DistLink TSSet DataSpec GroupSpec Candidate
  StdAlg Group GroupSpace GroupView SearchSpec SearchProofs SearchCases QuerySpec QueryProofs ErrorSpec.
Local Open Scope Z_scope.
Local Open Scope list_scope.

Definition place_dec : forall p p' : place, {p = p'} + {p <> p'}.
Proof. repeat decide equality. Defined.

(** a longer list without repetitions has an element outside *)
Lemma pigeon {A} (dec : forall x y : A, {x = y} + {x <> y}) (L M : list A) : NoDup L -> (length M < length L)%nat ->
  exists p, In p L /\ ~ In p M.
Proof.
  intros HN HL. destruct (Forall_Exists_dec (fun p => In p M) (fun p => in_dec dec p M) L) as [F|E].
  - exfalso. rewrite Forall_forall in F. pose proof (NoDup_incl_length HN F). lia.
  - apply Exists_exists in E. exact E.
Qed.

Lemma NoDup_front {A} (l l' : list A) : NoDup (l ++ l') -> NoDup l.
Proof.
  induction l as [|a l IH]; intros H; [constructor|]. cbn [app] in H. inversion H as [|? ? H1 H2]. constructor; auto.
  intros X. apply H1. apply in_or_app. auto.
Qed.

Lemma NoDup_back {A} (l l' : list A) : NoDup (l ++ l') -> NoDup l'.
Proof. induction l as [|a l IH]; intros H; [exact H|]. cbn [app] in H. inversion H. auto. Qed.

Section Rank.
Context {N : Num} {LW : NumLaws N}.
Notation D := (D N).
Variables (rows : list (list D)) (k : kind) (ratio : D) (q : list D).

(** the distance of the place [p] is at most [w] *)
Definition within (w : D) (p : place) : Prop := exists v, dtw_of k ratio q (place_values rows p) = Ret v /\ nle v w.

Lemma match_dist c : true_match rows k ratio q c -> dtw_of k ratio q (place_values rows (place_of c)) = Ret (c_dist c).
Proof. intros (_ & E & Ed). rewrite <- E. exact Ed. Qed.

(** more than [i] places within [w]: so is the answer number [i] *)
Lemma rank P K cs i b (L : list place) w :
  best_matches rows k ratio q P K cs -> ascending cs -> nth_error cs i = Some b ->
  NoDup L -> (i < length L)%nat -> (forall p, In p L -> P p /\ within w p) -> nle (c_dist b) w.
Proof.
  intros (B1 & _ & _ & B4) Ha Eb HN HL HP.
  destruct (pigeon place_dec L (map place_of (firstn i cs)) HN) as (p & Hp & Hno).
  { rewrite map_length. pose proof (firstn_le_length i cs). lia. }
  destruct (HP p Hp) as [Pp (v & Ev & Hv)]. apply nle_trans with v; auto.
  destruct (in_dec place_dec p (map place_of cs)) as [Hin|Hout].
  - apply in_map_iff in Hin as (c & <- & Hc). pose proof (match_dist c (proj2 (B1 c Hc))) as Ed. rewrite Ed in Ev. injection Ev as <-.
    apply In_nth_error in Hc as [m Em]. destruct (Nat.lt_trichotomy m i) as [Hm|[->|Hm]].
    + exfalso. apply Hno. apply in_map. apply nth_error_In with m. rewrite <- Em.
      rewrite <- (firstn_skipn i cs) at 2. symmetry. apply nth_error_app1. rewrite firstn_length.
      assert (i < length cs)%nat by (apply nth_error_Some; congruence). lia.
    + rewrite Em in Eb. injection Eb as <-. apply nle_refl. apply Hv.
    + exact (Ha i m b c Hm Eb Em).
  - apply (B4 p v b); auto. eapply nth_error_In; eauto.
Qed.

(** among the places [P] there are at least as many within every distance as
    among the places [P'] *)
Definition no_worse (P P' : place -> Prop) : Prop :=
  forall w L, NoDup L -> (forall p, In p L -> P' p /\ within w p) ->
  exists L', NoDup L' /\ (length L <= length L')%nat /\ forall p, In p L' -> P p /\ within w p.

Lemma no_worse_sub (P P' : place -> Prop) : (forall p, P' p -> P p) -> no_worse P P'.
Proof. intros H w L HN HL. exists L. splits; auto. intros p Hp. destruct (HL p Hp). auto. Qed.

Lemma rank_dominates P P' K K' cs cs' :
  best_matches rows k ratio q P K cs -> ascending cs ->
  best_matches rows k ratio q P' K' cs' -> ascending cs' ->
  (forall c, In c cs' -> nn (c_dist c)) ->
  no_worse P P' -> dominated cs cs'.
Proof.
  intros Hb Ha Hb' Ha' Hnn Hw i x y Ex Ey.
  assert (Hy : nn (c_dist y)) by (apply Hnn; eapply nth_error_In; eauto).
  destruct (Hw (c_dist y) (map place_of (firstn (S i) cs'))) as (L' & HN & HL & HP).
  - rewrite <- firstn_map. apply (NoDup_front _ (skipn (S i) (map place_of cs'))). rewrite firstn_skipn. apply Hb'.
  - intros p Hp. apply in_map_iff in Hp as (c & <- & Hc). apply In_nth_error in Hc as [m Em].
    assert (Hm : (m < S i)%nat).
    { assert (m < length (firstn (S i) cs'))%nat as X by (apply nth_error_Some; congruence). rewrite firstn_length in X. lia. }
    assert (Ec : nth_error cs' m = Some c).
    { rewrite <- (firstn_skipn (S i) cs'). rewrite nth_error_app1; auto. apply nth_error_Some. congruence. }
    destruct Hb' as (B1 & _). destruct (B1 c (nth_error_In _ _ Ec)) as [Pc Tc]. split; auto.
    exists (c_dist c). split; [apply match_dist; auto|]. destruct (Nat.eq_dec m i) as [->|Hmi].
    + rewrite Ec in Ey. injection Ey as <-. apply nle_refl. auto.
    + apply (Ha' m i c y); auto. lia.
  - rewrite map_length, firstn_length in HL.
    assert (Hi : (i < length cs')%nat) by (apply nth_error_Some; congruence).
    refine (rank P K cs i x L' (c_dist y) Hb Ha Ex HN _ HP). apply Nat.lt_le_trans with (Nat.min (Datatypes.S i) (length cs')); [lia|exact HL].
Qed.

(** distances to searchable places *)
Lemma searchable_value P p : searchable rows k ratio q P -> P p ->
  exists v, dtw_of k ratio q (place_values rows p) = Ret v /\ nle n0 v.
Proof.
  intros Hs Hp. destruct (Hs p Hp) as [r Hr]. destruct (dtw_val_ok k _ _ ratio r Hr) as (E & E0 & _).
  rewrite !points_of_list in E, E0. eauto.
Qed.

Lemma searchable_nn P c : searchable rows k ratio q P -> P (place_of c) -> true_match rows k ratio q c -> nn (c_dist c).
Proof.
  intros Hs Hp Ht. destruct (searchable_value P _ Hs Hp) as (v & E & Hv). rewrite (match_dist c Ht) in E. injection E as ->. apply Hv.
Qed.

(** lengths too different for the band *)
Lemma far_length P p l : searchable rows k ratio q P -> P p -> Z.of_nat (length q) = l -> Z.of_nat (length (place_values rows p)) = fst p ->
  ~ within_band ratio l (fst p) -> dtw_of k ratio q (place_values rows p) = Ret ninf.
Proof.
  intros Hs Hp Hl Hlp Hno. destruct (Hs p Hp) as [r Hr]. pose proof (io_band _ _ _ _ _ Hr) as Eb. cbn [ts_length ts_of_list] in Eb.
  rewrite Hl, Hlp, Z.max_comm in Eb.
  destruct (Z.le_gt_cases (Z.abs (fst p - l)) r) as [C|C]; [exfalso; apply Hno; exists r; auto|].
  destruct (dtw_no_path _ (nice_of k) _ _ ratio r (proj1 (ok_pre _ _ _ _ _) Hr) []) as (_ & m' & E').
  { cbn [ts_length ts_of_list]. rewrite Hl, Hlp. lia. }
  unfold dtw_of. rewrite call_dtw, E'. reflexivity.
Qed.

Lemma finite_length P p l v : searchable rows k ratio q P -> P p -> Z.of_nat (length q) = l -> Z.of_nat (length (place_values rows p)) = fst p ->
  dtw_of k ratio q (place_values rows p) = Ret v -> nlt v ninf -> within_band ratio l (fst p).
Proof.
  intros Hs Hp Hl Hlp Ev Hv. destruct (Hs p Hp) as [r Hr]. pose proof (io_band _ _ _ _ _ Hr) as Eb. cbn [ts_length ts_of_list] in Eb.
  rewrite Hl, Hlp, Z.max_comm in Eb.
  destruct (Z.le_gt_cases (Z.abs (fst p - l)) r) as [C|C]; [exists r; auto|]. exfalso.
  destruct (dtw_no_path _ (nice_of k) _ _ ratio r (proj1 (ok_pre _ _ _ _ _) Hr) []) as (_ & m' & E').
  { cbn [ts_length ts_of_list]. rewrite Hl, Hlp. lia. }
  unfold dtw_of in Ev. rewrite call_dtw, E' in Ev. injection Ev as <-. apply (nlt_irrefl _ Hv).
Qed.

Lemma near_finite P p l v : searchable rows k ratio q P -> P p -> Z.of_nat (length q) = l -> Z.of_nat (length (place_values rows p)) = fst p ->
  within_band ratio l (fst p) -> dtw_of k ratio q (place_values rows p) = Ret v -> nlt v ninf.
Proof.
  intros Hs Hp Hl Hlp (r0 & Er & Hab) Ev. destruct (Hs p Hp) as [r Hr]. pose proof (io_band _ _ _ _ _ Hr) as Eb. cbn [ts_length ts_of_list] in Eb.
  rewrite Hl, Hlp, Z.max_comm, Er in Eb. injection Eb as <-. pose proof (dtw_finite k _ _ ratio r0 Hr) as X.
  rewrite !points_of_list in X. unfold dtw_val in X. rewrite Ev in X. apply X. cbn [ts_length ts_of_list]. rewrite Hl, Hlp. lia.
Qed.

(** the best of many that lie among few *)
Lemma best_among (P P' : place -> Prop) K cs : best_matches rows k ratio q P K cs -> (forall p, P' p -> P p) -> (forall c, In c cs -> P' (place_of c)) ->
  best_matches rows k ratio q P' K cs.
Proof.
  intros (B1 & B2 & B3 & B4) Hsub Hcs. split; [|split; [auto|split]].
  - intros c Hc. split; [auto|apply B1; auto].
  - destruct B3 as [B3|[B3 B3']]; [left; auto|right; split; auto].
  - intros p v c Hp. apply B4. auto.
Qed.

(** enough places: a full answer *)
Lemma full_answer (P P' : place -> Prop) K cs : best_matches rows k ratio q P K cs -> (forall p, P' p -> P p) -> at_least P' K -> Z.of_nat (length cs) = K.
Proof.
  intros (_ & _ & [B|[B B']] & _) Hsub (ps & H1 & H2 & H3); auto. exfalso.
  assert (X : incl ps (map place_of cs)) by (intros p Hp; apply B', Hsub, H2, Hp).
  pose proof (NoDup_incl_length H1 X) as Y. rewrite map_length in Y. lia.
Qed.

(** ** what two searches of different extent look at *)
Section More.
Variables (S : Z -> Prop) (P : place -> Prop) (g : gset N).
Hypothesis Hdist : forall l v, S l -> group_in g l v -> exists x, group_dist rows k ratio q l v x /\ nn x.
Hypothesis Hval : forall p, P p -> exists v, dtw_of k ratio q (place_values rows p) = Ret v /\ nn v.
Hypothesis Hapart : groups_apart rows k ratio q S g.

Lemma places_sub l v p inner : In (l, v) inner -> In p (group_places (l, v)) -> In p (flat_map group_places inner).
Proof. intros H1 H2. apply in_flat_map. exists (l, v). auto. Qed.

Lemma considered_no_worse h h' C C' : h <= h' -> considered rows k ratio q S P g h C -> considered rows k ratio q S P g h' C' ->
  no_worse (fun p => In p C') (fun p => In p C).
Proof.
  intros Hh (N1 & P1 & D1) (N2 & P2 & D2).
  destruct D2 as [[_ A2]|(L2 & inner' & far' & outer' & part' & G2 & I2 & O2 & M2 & E2 & F2 & V2)].
  { apply no_worse_sub. intros p Hp. apply A2, P1, Hp. }
  destruct D1 as [[L1 A1]|(L1 & inner & far & outer & part & G1 & I1 & O1 & M1 & E1 & F1 & V1)].
  { exfalso. assert (incl C' C) as X by (intros p Hp; apply A1, P2, Hp). pose proof (NoDup_incl_length N2 X). lia. }
  assert (Hf : S (fst far) /\ group_in g (fst far) (snd far)).
  { apply G1. rewrite <- surjective_pairing. apply in_or_app. right. left. reflexivity. }
  assert (Hf' : S (fst far') /\ group_in g (fst far') (snd far')).
  { apply G2. rewrite <- surjective_pairing. apply in_or_app. right. left. reflexivity. }
  destruct (Hdist _ _ (proj1 Hf) (proj2 Hf)) as (x & Ex & Nx). destruct (Hdist _ _ (proj1 Hf') (proj2 Hf')) as (x' & Ex' & Nx').
  assert (Hin : forall l v y, In (l, v) (inner ++ far :: outer) -> group_dist rows k ratio q l v y -> nle y x -> In (l, v) inner \/ (l, v) = far).
  { intros l v y Hlv Ey Hle. apply in_app_iff in Hlv as [A|[A|A]]; auto. right.
    assert (HG : S l /\ group_in g l v) by (apply G1; apply in_or_app; right; right; exact A).
    rewrite (surjective_pairing far). apply (Hapart l v (fst far) (snd far) y x); try tauto. split; auto. apply (O1 l v x y); auto. }
  assert (Hin' : forall l v y, In (l, v) (inner' ++ far' :: outer') -> group_dist rows k ratio q l v y -> nle y x' -> In (l, v) inner' \/ (l, v) = far').
  { intros l v y Hlv Ey Hle. apply in_app_iff in Hlv as [A|[A|A]]; auto. right.
    assert (HG : S l /\ group_in g l v) by (apply G2; apply in_or_app; right; right; exact A).
    rewrite (surjective_pairing far'). apply (Hapart l v (fst far') (snd far') y x'); try tauto. split; auto. apply (O2 l v x' y); auto. }
  assert (ND : NoDup (part ++ flat_map group_places inner)) by (apply (Permutation_NoDup M1 N1)).
  assert (ND' : NoDup (part' ++ flat_map group_places inner')) by (apply (Permutation_NoDup M2 N2)).
  assert (Hnf : ~ In far inner).
  { intros X. destruct part as [|p0 part0]; [apply E1; reflexivity|]. inversion ND as [|? ? Y _]. apply Y. apply in_or_app. right.
    apply in_flat_map. exists far. split; auto. apply F1. left. reflexivity. }
  assert (Hnf' : ~ In far' inner').
  { intros X. destruct part' as [|p0 part0]; [apply E2; reflexivity|]. inversion ND' as [|? ? Y _]. apply Y. apply in_or_app. right.
    apply in_flat_map. exists far'. split; auto. apply F2. left. reflexivity. }
  assert (Hall : forall G, In G (inner ++ far :: outer) <-> In G (inner' ++ far' :: outer')).
  { intros [l v]. rewrite <- G1, <- G2. tauto. }
  destruct (nle_or_lt x x' Nx Nx') as [Hle|Hlt].
  - (* the groups of [inner] are among those of [inner'] *)
    assert (Hsub : forall G, In G inner -> In G inner').
    { intros [l v] A. assert (Al : In (l, v) (inner ++ far :: outer)) by (apply in_or_app; auto).
      destruct (proj2 (G1 l v) Al) as [Sl Gl]. destruct (Hdist l v Sl Gl) as (y & Ey & _).
      pose proof (I1 l v y x A Ey Ex) as Hy. destruct (Hin' l v y) as [B|B]; auto.
      - apply Hall. exact Al.
      - apply nle_trans with x; auto.
      - exfalso. apply Hnf. assert (neqv x x') as Q.
        { split; auto. rewrite <- B in Ex'. cbn [fst snd] in Ex'. unfold group_dist in Ey, Ex'. rewrite Ey in Ex'. injection Ex' as <-. exact Hy. }
        pose proof (Hapart _ _ _ _ x x' (proj1 Hf) (proj2 Hf) (proj1 Hf') (proj2 Hf') Ex Ex' Q) as Q'. rewrite <- !surjective_pairing in Q'.
        rewrite Q', <- B. exact A. }
    assert (Hfp : In far inner' \/ far = far').
    { rewrite (surjective_pairing far) at 1. destruct (Hin' (fst far) (snd far) x) as [B|B]; auto.
      - apply Hall. rewrite <- surjective_pairing. apply in_or_app. right. left. reflexivity.
      - right. rewrite <- B. apply surjective_pairing. }
    destruct Hfp as [Hfp|Hfp].
    + apply no_worse_sub. intros p Hp. apply (Permutation_in _ M1) in Hp. apply (Permutation_in _ (Permutation_sym M2)).
      apply in_or_app. right. apply in_app_iff in Hp as [Hp|Hp].
      * apply in_flat_map. exists far. split; auto.
      * apply in_flat_map in Hp as (G & A & B). apply in_flat_map. exists G. auto.
    + (* the same farthest group *)
      subst far'.
      assert (x' = x) by (unfold group_dist in Ex, Ex'; congruence). subst x'.
      assert (Hsub' : forall G, In G inner' -> In G inner).
      { intros [l v] A. assert (Al : In (l, v) (inner' ++ far :: outer')) by (apply in_or_app; auto).
        destruct (proj2 (G2 l v) Al) as [Sl Gl]. destruct (Hdist l v Sl Gl) as (y & Ey & _).
        destruct (Hin l v y) as [B|B]; auto; [apply Hall; exact Al|exact (I2 l v y x A Ey Ex)|]. exfalso. apply Hnf'. rewrite <- B. exact A. }
      assert (Hlen : (length part <= length part')%nat).
      { pose proof (Permutation_length M1) as X1. pose proof (Permutation_length M2) as X2. rewrite app_length in X1, X2.
        assert (length (flat_map group_places inner') <= length (flat_map group_places inner))%nat.
        { apply NoDup_incl_length.
          - apply (NoDup_back _ _ ND').
          - intros p Hp. apply in_flat_map in Hp as (G & A & B). apply in_flat_map. exists G. auto. }
        lia. }
      intros w L HN HL.
      set (inb := fun p => if in_dec place_dec p part then true else false).
      assert (Hsplit : forall p, In p L -> In p part \/ In p (flat_map group_places inner)).
      { intros p Hp. destruct (HL p Hp) as [A _]. apply (Permutation_in _ M1) in A. apply in_app_iff in A. tauto. }
      destruct (Forall_Exists_dec (fun p => In p part') (fun p => in_dec place_dec p part') (filter inb L)) as [A|A].
      * exists L. split; [auto|]. split; [lia|]. intros p Hp. split; [|apply (HL p Hp)]. apply (Permutation_in _ (Permutation_sym M2)).
        apply in_or_app. destruct (in_dec place_dec p part) as [B|B].
        -- left. rewrite Forall_forall in A. apply A. apply filter_In. split; auto. unfold inb. destruct (in_dec place_dec p part); auto.
        -- right. destruct (Hsplit p Hp) as [B'|B']; [contradiction|]. apply in_flat_map in B' as (G & B1 & B2). apply in_flat_map. exists G. auto.
      * apply Exists_exists in A as (p & A1 & A2). apply filter_In in A1 as [A1 A3]. unfold inb in A3.
        destruct (in_dec place_dec p part) as [A4|]; [|discriminate]. clear A3.
        destruct (HL p A1) as [_ (v & Ev & Hv)].
        exists (part' ++ filter (fun p => negb (inb p)) L). splits.
        -- assert (NP : NoDup part') by (apply (NoDup_front _ _ ND')).
           assert (Hdis : forall z, In z part' -> ~ In z (filter (fun p => negb (inb p)) L)).
           { intros z Z1 Z2. apply filter_In in Z2 as [Z2 Z3]. destruct (Hsplit z Z2) as [Z4|Z4].
             - unfold inb in Z3. destruct (in_dec place_dec z part); [discriminate|contradiction].
             - apply in_flat_map in Z4 as (G & B1 & B2). revert ND' Z1. clear - Hsub B1 B2. intros ND' Z1.
               assert (Y : In z (flat_map group_places inner')) by (apply in_flat_map; exists G; auto).
               apply in_split in Z1 as (a & b & ->). rewrite <- app_assoc in ND'. cbn [app] in ND'. apply NoDup_remove_2 in ND'.
               apply ND'. apply in_or_app. right. apply in_or_app. right. exact Y. }
           assert (NF : NoDup (filter (fun p => negb (inb p)) L)) by (apply NoDup_filter; auto).
           revert NP Hdis NF. clear. induction part' as [|a l IH]; intros NP Hdis NF; [exact NF|].
           cbn [app]. inversion NP. constructor; [|apply IH; auto; intros z Hz; apply Hdis; right; exact Hz].
           intros X. apply in_app_iff in X as [X|X]; [contradiction|]. apply (Hdis a); [left; reflexivity|exact X].
        -- assert (X : (length (filter inb L) <= length part)%nat).
           { apply NoDup_incl_length; [apply NoDup_filter; auto|]. intros z Hz. apply filter_In in Hz as [_ Hz]. unfold inb in Hz.
             destruct (in_dec place_dec z part); [auto|discriminate]. }
           assert (Y : length L = (length (filter inb L) + length (filter (fun p => negb (inb p)) L))%nat).
           { clear. induction L as [|a L IH]; [reflexivity|]. cbn [filter]. destruct (inb a); cbn [negb length]; lia. }
           rewrite app_length. lia.
        -- intros z Hz. apply in_app_iff in Hz as [Hz|Hz].
           ++ assert (HzC : In z C') by (apply (Permutation_in _ (Permutation_sym M2)); apply in_or_app; auto).
              split; auto. destruct (Hval z (P2 z HzC)) as (vz & Evz & Nz). exists vz. split; auto.
              apply nle_trans with v; auto. apply (V2 z p vz v); auto.
           ++ apply filter_In in Hz as [Hz Hz']. destruct (HL z Hz) as [_ Hw]. split; auto.
              apply (Permutation_in _ (Permutation_sym M2)). apply in_or_app. right. destruct (Hsplit z Hz) as [B|B].
              ** unfold inb in Hz'. destruct (in_dec place_dec z part); [discriminate|contradiction].
              ** apply in_flat_map in B as (G & B1 & B2). apply in_flat_map. exists G. auto.
  - (* the farthest group of the wider search would be a near one: too few places *)
    exfalso.
    assert (Hsub : forall G, In G (far' :: inner') -> In G inner).
    { assert (R : forall l v y, In (l, v) (inner' ++ far' :: outer') -> group_dist rows k ratio q l v y -> nle y x' -> In (l, v) inner).
      { intros l v y Al Ey Hy. destruct (Hin l v y) as [B|B]; auto.
        - apply Hall. exact Al.
        - apply nle_trans with x'; auto. apply nlt_le. auto.
        - exfalso. rewrite <- B in Ex. cbn [fst snd] in Ex. unfold group_dist in Ey, Ex. rewrite Ey in Ex. injection Ex as <-.
          apply (nle_not_lt _ _ Hy). exact Hlt. }
      intros [l v] [A|A].
      - subst far'. cbn [fst snd] in *. apply (R l v x'); auto; [apply in_or_app; right; left; reflexivity|]. apply nle_refl. auto.
      - assert (Al : In (l, v) (inner' ++ far' :: outer')) by (apply in_or_app; auto).
        destruct (proj2 (G2 l v) Al) as [Sl Gl]. destruct (Hdist l v Sl Gl) as (y & Ey & _). apply (R l v y); auto. apply (I2 l v y x'); auto. }
    assert (X : incl C' (flat_map group_places inner)).
    { intros p Hp. apply (Permutation_in _ M2) in Hp. apply in_app_iff in Hp as [Hp|Hp].
      - apply in_flat_map. exists far'. split; [apply Hsub; left; reflexivity|auto].
      - apply in_flat_map in Hp as (G & A & B). apply in_flat_map. exists G. split; auto. apply Hsub. right. exact A. }
    pose proof (NoDup_incl_length N2 X) as Y. pose proof (Permutation_length M1) as X1. rewrite app_length in X1.
    destruct part as [|p0 part0]; [apply E1; reflexivity|]. cbn [length] in X1. lia.
Qed.
End More.
End Rank.
