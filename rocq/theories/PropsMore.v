(** Property C58: examining more subsequences never makes the answers of a query for
    several matches worse.  Specifications: SearchSpec.v, QuerySpec.v. *)
From Coq Require Import String Reals Lra Permutation.
From Flocq Require Import Core IEEE754.BinarySingleNaN.
From Verif Require Import KBest Base Num NumB64 NumB64Laws NumLaws NumFacts NumXR NumXRLaws LoopFacts TimeSeries Lemire Distance
  DtwSpec DtwPaths DtwReal DtwResults Pairwise DistSpec DistLink TSSet StdAlg HeapFacts Candidate Group GroupSpace Band DataSpec DataProofs
  GroupSpec GroupView GroupDist GroupProofs
  SearchSpec SearchProofs SearchCases QueryCases Traverse QueryState QuerySpec BestMatch QueryProofs PropsDistance PropsData PropsGroup PropsSearch
  PropsQuery PropsKSim GapReal AccReal AccDtw AccEnd AccKinds AccLink AccPair PropsAccuracy PropsGuarantee PropsKNear.
Local Open Scope Z_scope.
Local Open Scope list_scope.

Section More.
Context {N : Num} {LW : NumLaws N}.
Variables (rows : list (list (D N))) (k : kind) (ratio : D N) (q : list (D N)) (S : Z -> Prop) (P : place -> Prop) (g : gset N).

(** no two groups of the searched lengths are equally far from the query *)
Definition distinct_groups : Prop := forall l v l' v' x y, S l -> S l' -> group_in g l v -> group_in g l' v' ->
  group_dist rows k ratio q l v x -> group_dist rows k ratio q l' v' y -> neqv x y -> (l, v) = (l', v').

(** the groups are those of the places: each place is in one of them *)
Hypothesis Hdist : forall l v, S l -> group_in g l v -> exists x, group_dist rows k ratio q l v x.
Hypothesis Hin : forall l m, P (l, m) -> exists v, S l /\ group_in g l v /\ In m (v_members v).
Hypothesis Hone : forall l v v' m, S l -> group_in g l v -> group_in g l v' -> In m (v_members v) -> In m (v_members v') -> v = v'.
Hypothesis Hval : forall p, P p -> exists v, dtw_of k ratio q (place_values rows p) = Ret v /\ nn v.

Definition in_group_of (p : place) (v : gview) : Prop := S (fst p) /\ group_in g (fst p) v /\ In (snd p) (v_members v).

Lemma left_out_groups h C c p v w : considered rows k ratio q S P g h C -> In c C -> P p -> ~ In p C ->
  in_group_of c v -> in_group_of p w ->
  ((fst c, v) = (fst p, w) /\
     forall x y, dtw_of k ratio q (place_values rows c) = Ret x -> dtw_of k ratio q (place_values rows p) = Ret y -> nle x y) \/
  ((fst c, v) <> (fst p, w) /\ forall x y, group_dist rows k ratio q (fst c) v x -> group_dist rows k ratio q (fst p) w y -> nle x y).
Proof.
  intros (_ & _ & HC) Hc Hp Hno (Sc & Gc & Mc) (Sp & Gp & Mp).
  destruct HC as [[_ HC]|(_ & inner & far & outer & part & Hall & Hinn & Hout & Hperm & _ & Hincl & Hfar)].
  { exfalso. apply Hno, HC, Hp. }
  destruct c as [lc mc], p as [lp mp]. cbn [fst snd] in *.
  assert (Hw : In (lp, w) (inner ++ far :: outer)) by (apply Hall; auto).
  assert (Hni : ~ In (lp, w) inner).
  { intros X. apply Hno. apply (Permutation_in _ (Permutation_sym Hperm)). apply in_app_iff. right. apply in_flat_map.
    exists (lp, w). split; auto. unfold group_places. apply in_map_iff. exists mp. auto. }
  assert (Hw' : (lp, w) = far \/ In (lp, w) outer).
  { apply in_app_iff in Hw as [Hw|[Hw|Hw]]; auto. contradiction. }
  assert (Hnp : ~ In (lp, mp) part).
  { intros X. apply Hno. apply (Permutation_in _ (Permutation_sym Hperm)). apply in_app_iff. auto. }
  assert (Sfar : S (fst far) /\ group_in g (fst far) (snd far)).
  { apply Hall. rewrite <- surjective_pairing. apply in_or_app. right. left. reflexivity. }
  destruct (Hdist _ _ (proj1 Sfar) (proj2 Sfar)) as (z & Ez).
  apply (Permutation_in _ Hperm) in Hc. apply in_app_iff in Hc as [Hc|Hc].
  - assert (Ev : far = (lc, v)).
    { pose proof (Hincl _ Hc) as Hcf. destruct far as [lf vf]. unfold group_places in Hcf. cbn [fst snd] in *.
      apply in_map_iff in Hcf as (m & Em & Hm). injection Em as <- <-. f_equal. apply (Hone lf vf v m); auto. apply Sfar. }
    destruct Hw' as [Hw'|Hw'].
    + left. split; [congruence|]. intros x y Ex Ey. apply (Hfar (lc, mc) (lp, mp) x y); auto.
      rewrite <- Hw'. unfold group_places. apply in_map_iff. exists mp. auto.
    + assert (D : (lc, v) = (lp, w) \/ (lc, v) <> (lp, w)).
      { destruct (Z.eq_dec lc lp) as [->|Hne]; [|right; congruence].
        destruct (in_dec (fun a b : coord => ltac:(repeat decide equality)) mp (v_members v)) as [Hi|Hi].
        - left. f_equal. apply (Hone lp v w mp); auto.
        - right. intros [= ->]. contradiction. }
      destruct D as [D|D].
      * left. split; [exact D|]. intros x y Ex Ey. apply (Hfar (lc, mc) (lp, mp) x y); auto.
        rewrite Ev, D. unfold group_places. apply in_map_iff. exists mp. auto.
      * right. split; [exact D|]. intros x y Ex Ey. subst far. apply (Hout lp w x y); auto.
  - right. apply in_flat_map in Hc as ([lf vf] & Hc1 & Hc2). unfold group_places in Hc2. cbn [fst snd] in *.
    apply in_map_iff in Hc2 as (m & Em & Hm). injection Em as <- <-.
    assert (Hvf : vf = v).
    { destruct (proj2 (Hall lf vf) (in_or_app _ _ _ (or_introl Hc1))) as [_ Gf]. apply (Hone lf vf v m); auto. }
    subst vf. split; [intros X; apply Hni; rewrite <- X; exact Hc1|].
    intros x y Ex Ey. destruct Hw' as [<-|Hw'].
    + apply (Hinn lf v x y); auto.
    + apply nle_trans with z; [apply (Hinn lf v x z)|apply (Hout lp w z y)]; auto.
Qed.

(** what only one of two searches looks at is equally far *)
Lemma swapped h h' C C' c p : distinct_groups -> considered rows k ratio q S P g h C -> considered rows k ratio q S P g h' C' ->
  In c C' -> ~ In c C -> In p C -> ~ In p C' ->
  forall x y, dtw_of k ratio q (place_values rows c) = Ret x -> dtw_of k ratio q (place_values rows p) = Ret y -> nle x y.
Proof.
  intros Hd HC HC' Hc Hcn Hp Hpn x y Ex Ey.
  pose proof HC as (_ & HP & _). pose proof HC' as (_ & HP' & _).
  pose proof (HP _ Hp) as Pp. pose proof (HP' _ Hc) as Pc.
  destruct (Hin (fst c) (snd c)) as (v & V1 & V2 & V3); [rewrite <- surjective_pairing; exact Pc|].
  destruct (Hin (fst p) (snd p)) as (w & W1 & W2 & W3); [rewrite <- surjective_pairing; exact Pp|].
  destruct (left_out_groups h' C' c p v w HC' Hc Pp Hpn) as [[_ L]|[Hne L]]; [split; auto|split; auto|auto|].
  destruct (left_out_groups h C p c w v HC Hp Pc Hcn) as [[X _]|[_ L']]; [split; auto|split; auto|congruence|].
  destruct (Hdist _ _ V1 V2) as (a & Ea). destruct (Hdist _ _ W1 W2) as (b & Eb).
  exfalso. apply Hne. apply (Hd _ _ _ _ a b); auto. split; auto.
Qed.

Definition place_dec (a b : place) : {a = b} + {a <> b} := ltac:(repeat decide equality).
Definition among (C : list place) (p : place) : bool := if in_dec place_dec p C then true else false.
Lemma amongP C p : among C p = true <-> In p C.
Proof. unfold among. destruct (in_dec place_dec p C); split; auto; discriminate. Qed.
Lemma not_amongP C p : negb (among C p) = true <-> ~ In p C.
Proof. unfold among. destruct (in_dec place_dec p C); split; auto; try discriminate; contradiction. Qed.

Lemma filter_both {A} (f : A -> bool) l : (length (filter f l) + length (filter (fun x => negb (f x)) l) = length l)%nat.
Proof. induction l as [|a l IH]; simpl; [reflexivity|]. destruct (f a); simpl; lia. Qed.

Lemma exchange (A C C' : list place) : NoDup A -> NoDup C -> NoDup C' -> incl A C -> (length C <= length C')%nat ->
  let L := filter (among C') A ++ filter (fun p => negb (among C p)) C' in
  NoDup L /\ incl L C' /\ (length A <= length L)%nat.
Proof.
  intros HA HC HC' Hi Hl L. split; [|split].
  - apply KBest.NoDup_app_intro; auto using NoDup_filter. intros p H1 H2. apply filter_In in H1 as [H1 _]. apply filter_In in H2 as [_ H2].
    apply not_amongP in H2. apply H2, Hi, H1.
  - intros p Hp. apply in_app_iff in Hp as [Hp|Hp]; apply filter_In in Hp as [Hp1 Hp2]; auto. apply amongP, Hp2.
  - unfold L. rewrite app_length.
    pose proof (filter_both (among C') A) as E1. pose proof (filter_both (among C) C') as E2. pose proof (filter_both (among C') C) as E3.
    assert (I1 : (length (filter (among C) C') <= length (filter (among C') C))%nat).
    { apply NoDup_incl_length; [apply NoDup_filter, HC'|]. intros p Hp. apply filter_In in Hp as [Hp1 Hp2].
      apply filter_In. split; [apply amongP, Hp2|apply amongP, Hp1]. }
    assert (I2 : (length (filter (fun p => negb (among C' p)) A) <= length (filter (fun p => negb (among C' p)) C))%nat).
    { apply NoDup_incl_length; [apply NoDup_filter, HA|]. intros p Hp. apply filter_In in Hp as [Hp1 Hp2].
      apply filter_In. split; auto. }
    lia.
Qed.

Lemma match_value c : true_match rows k ratio q c -> dtw_of k ratio q (place_values rows (place_of c)) = Ret (c_dist c).
Proof. intros (_ & Tp & Td). rewrite Tp in Td. exact Td. Qed.

Lemma at_rank (cs : list (cand N)) i c j d : ascending cs -> nth_error cs i = Some c -> nth_error cs j = Some d -> nn (c_dist c) ->
  (i <= j)%nat -> nle (c_dist c) (c_dist d).
Proof.
  intros Ha Hi Hj Hn Hij. destruct (Nat.eq_dec i j) as [->|Hne].
  - rewrite Hi in Hj. injection Hj as <-. apply nle_refl. exact Hn.
  - apply (Ha i j); auto. lia.
Qed.

Lemma ranks K h h' C C' real real' : distinct_groups -> considered rows k ratio q S P g h C -> considered rows k ratio q S P g h' C' -> h <= h' ->
  best_matches rows k ratio q (fun p => In p C) K real -> best_matches rows k ratio q (fun p => In p C') K real' ->
  ascending real -> ascending real' ->
  forall i c c', nth_error real i = Some c -> nth_error real' i = Some c' -> nle (c_dist c') (c_dist c).
Proof.
  intros Hd HC HC' Hh (B1 & B2 & _ & _) (B1' & B2' & _ & B4') Ha Ha' i c c' Hi Hi'.
  pose proof HC as (NC & HP & HCx). pose proof HC' as (NC' & HP' & HCx').
  assert (Hnn : forall C (r : list (cand N)) d, (forall p, In p C -> P p) -> (forall c, In c r -> In (place_of c) C /\ true_match rows k ratio q c) ->
    In d r -> nn (c_dist d) /\ dtw_of k ratio q (place_values rows (place_of d)) = Ret (c_dist d)).
  { intros C0 r d HP0 B0 Hdr. destruct (B0 d Hdr) as [X Y]. pose proof (match_value d Y) as Ev. destruct (Hval _ (HP0 _ X)) as (v & Ev' & Hv).
    rewrite Ev in Ev'. injection Ev' as <-. auto. }
  pose proof (Hnn C real c HP B1 (nth_error_In _ _ Hi)) as [Nc Ec]. pose proof (Hnn C' real' c' HP' B1' (nth_error_In _ _ Hi')) as [Nc' Ec'].
  destruct (nltb (c_dist c) (c_dist c')) eqn:Elt; [exfalso|split; auto].
  assert (Hnot : forall v, nle v (c_dist c) -> nle (c_dist c') v -> False).
  { intros v H1 H2. destruct (nle_trans _ _ _ H2 H1) as (_ & _ & X). congruence. }
  assert (Hlt : (i < length real)%nat) by (apply nth_error_Some; congruence).
  set (A := firstn (Datatypes.S i) (map place_of real)).
  assert (LA : length A = Datatypes.S i) by (unfold A; rewrite firstn_length, map_length; lia).
  assert (HA : forall p, In p A -> exists v, In p C /\ dtw_of k ratio q (place_values rows p) = Ret v /\ nle v (c_dist c)).
  { intros p Hp. apply In_nth_error in Hp as [j Hj]. assert (Hj2 : (j < Datatypes.S i)%nat) by (rewrite <- LA; apply nth_error_Some; congruence).
    unfold A in Hj. rewrite nth_error_firstn in Hj by exact Hj2. rewrite nth_error_map in Hj.
    destruct (nth_error real j) as [d|] eqn:Ej; [|discriminate Hj]. injection Hj as <-.
    destruct (Hnn C real d HP B1 (nth_error_In _ _ Ej)) as [Nd Ed]. exists (c_dist d). split; [apply B1, (nth_error_In _ _ Ej)|]. split; [exact Ed|].
    apply (at_rank real j d i c); auto. lia. }
  assert (NA : NoDup A) by (rewrite <- (firstn_skipn (Datatypes.S i) (map place_of real)) in B2; exact (NoDup_app_l _ _ B2)).
  assert (HL : exists L, NoDup L /\ incl L C' /\ (length A <= length L)%nat /\
     forall p, In p L -> exists v, dtw_of k ratio q (place_values rows p) = Ret v /\ nle v (c_dist c)).
  { destruct (forallb (among C') A) eqn:EA.
    - exists A. splits; auto.
      + intros p Hp. rewrite forallb_forall in EA. apply amongP, EA, Hp.
      + intros p Hp. destruct (HA p Hp) as (v & _ & X). exists v. exact X.
    - assert (exists a, In a A /\ ~ In a C') as (a & Ha1 & Ha2).
      { clear -EA. induction A as [|a A IH]; [discriminate|]. simpl in EA. apply andb_false_iff in EA as [EA|EA].
        - exists a. split; [left; reflexivity|]. intros X. apply amongP in X. congruence.
        - destruct (IH EA) as (b & H1 & H2). exists b. split; [right; exact H1|exact H2]. }
      destruct (HA a Ha1) as (va & Ca & Eva & Hva).
      assert (Hlen : (length C <= length C')%nat).
      { destruct HCx' as [[_ X]|[X _]]; [exfalso; apply Ha2, X, HP, Ca|]. destruct HCx as [[Y _]|[Y _]]; lia. }
      destruct (exchange A C C' NA NC NC' ltac:(intros p Hp; destruct (HA p Hp) as (_ & X & _); exact X) Hlen) as (L1 & L2 & L3).
      eexists. split; [exact L1|]. split; [exact L2|]. split; [exact L3|].
      intros p Hp. apply in_app_iff in Hp as [Hp|Hp]; apply filter_In in Hp as [Hp1 Hp2].
      + destruct (HA p Hp1) as (v & _ & X). exists v. exact X.
      + apply not_amongP in Hp2. destruct (Hval p (HP' p Hp1)) as (v & Ev & _). exists v. split; [exact Ev|].
        apply nle_trans with va; [|exact Hva]. apply (swapped h h' C C' p a); auto. }
  destruct HL as (L & L1 & L2 & L3 & L4).
  assert (Hincl : incl L (firstn i (map place_of real'))).
  { intros p Hp. destruct (L4 p Hp) as (v & Ev & Hv).
    destruct (in_dec place_dec p (map place_of real')) as [Hr|Hr].
    - apply in_map_iff in Hr as (d & <- & Hdr). pose proof (Hnn C' real' d HP' B1' Hdr) as [Nd Ed]. rewrite Ed in Ev. injection Ev as <-.
      apply In_nth_error in Hdr as [j Hj]. destruct (Nat.lt_ge_cases j i) as [Hji|Hji].
      + apply nth_error_In with j. rewrite nth_error_firstn by exact Hji. rewrite nth_error_map, Hj. reflexivity.
      + exfalso. apply (Hnot (c_dist d)); auto. apply (at_rank real' i c' j d); auto.
    - exfalso. apply (Hnot v Hv). apply (B4' p v c'); auto. apply (nth_error_In _ _ Hi'). }
  pose proof (NoDup_incl_length L1 Hincl) as X. rewrite firstn_length in X. lia.
Qed.
End More.

(** the groups a search sees depend on the views of the groups only *)
Lemma considered_views {N : Num} (rows : list (list (D N))) k ratio q (S : Z -> Prop) P (g g' : gset N) h C :
  (forall l, S l -> level_view g l = level_view g' l) -> considered rows k ratio q S P g h C -> considered rows k ratio q S P g' h C.
Proof.
  intros Hv (N1 & N2 & HC). split; [exact N1|]. split; [exact N2|].
  destruct HC as [HC|(L & inner & far & outer & part & Hall & Hrest)]; [left; exact HC|]. right. split; [exact L|].
  exists inner, far, outer, part. split; [|exact Hrest]. intros l v. rewrite <- Hall. unfold group_in.
  split; intros [Sl Gl]; split; auto; [rewrite (Hv l Sl)|rewrite <- (Hv l Sl)]; exact Gl.
Qed.

Lemma one_group (vs : list gview) v v' m : NoDup (concat (map v_members vs)) -> In v vs -> In v' vs ->
  In m (v_members v) -> In m (v_members v') -> v = v'.
Proof.
  induction vs as [|a vs IH]; simpl; intros Hn Hv Hv' Hm Hm'; [contradiction|].
  apply NoDup_app_inv in Hn as (_ & Hn & Hx).
  assert (Hc : forall w, In w vs -> In m (v_members w) -> In m (concat (map v_members vs))).
  { intros w Hw Hmw. apply in_concat. exists (v_members w). split; [apply in_map; exact Hw|exact Hmw]. }
  destruct Hv as [->|Hv], Hv' as [->|Hv']; auto.
  - exfalso. apply (Hx m); auto. eapply Hc; eauto.
  - exfalso. apply (Hx m); auto. eapply Hc; eauto.
Qed.

(** In IEEE doubles: of two searches in the same groups, the one that looks at more
    subsequences has answers none of which is farther from the query than the
    corresponding one of the other, if no two groups are equally far. *)
Theorem C58_looking_at_more_ieee : forall (H : std_alg) (k : kind) (d : dataset B64) (rows : list (list (D B64)))
    old clock (ratio0 thr : D B64) threads whole g0 total g gm (query : TS B64) (ratio : D B64) K h more,
  std_ok H ->
  holds d rows -> moderate_data rows -> is_finite (thr : b64) = true -> (0 <= B2R (thr : b64))%R ->
  1 <= threads -> log_safe d clock -> ds_maxcol d <= 2 ^ 26 ->
  groupAllLengths (N := B64) clock ratio0 (mkGS d old) (kind_name k) thr threads whole = (g0, Ret total) ->
  asked (N := B64) H g0 g -> asked (N := B64) H g0 gm ->
  moderate_query query -> ts_length query <= ds_maxcol d -> moderate_ratio ratio ->
  1 <= K <= h -> h <= more ->
  let S := searched (N := B64) d whole ratio (ts_length query) in
  let P := searched_place (N := B64) d rows whole ratio (ts_length query) in
  no_near_ties (N := B64) rows k ratio (ts_points query) P -> at_least P K ->
  distinct_groups (N := B64) rows k ratio (ts_points query) S g0 ->
  exists g1 cs g2 cs', getKBestMatches (N := B64) H ratio g query K h = Ret (g1, cs) /\
    getKBestMatches (N := B64) H ratio gm query K more = Ret (g2, cs') /\
    Z.of_nat (length cs) = K /\ Z.of_nat (length cs') = K /\
    forall i c c', nth_error cs i = Some c -> nth_error cs' i = Some c' -> @nle B64 (c_dist c') (c_dist c).
Proof.
  intros H k d rows old clock ratio0 thr threads whole g0 total g gm query ratio K h more Hok Hd Hmod Fthr Pthr Ht Hlog Hmax E Ha Hb Hq Hql Hr HK Hmore
    S P Hties Hat Hdis.
  assert (Hq2 : 2 <= ts_length query) by apply Hq.
  destruct (half_near thr (ds_maxcol d) ltac:(lia) Fthr Pthr) as (_ & _ & _ & Hinf).
  destruct (C24_k_similar_ieee H k d rows old clock ratio0 thr threads whole g0 total g query ratio K h Hok Hd Hmod Hinf Ht Hlog Hmax E Ha Hq Hql Hr HK Hties Hat)
    as (g1 & C & cs & Ek & HC & HB & Hasc & Hlen).
  destruct (C24_k_similar_ieee H k d rows old clock ratio0 thr threads whole g0 total gm query ratio K more Hok Hd Hmod Hinf Ht Hlog Hmax E Hb Hq Hql Hr
    ltac:(lia) Hties Hat) as (g2 & C' & cs' & Ek' & HC' & HB' & Hasc' & Hlen').
  destruct (C17_group_radius k d rows old clock ratio0 thr threads whole Hd Hinf ltac:(lia) Ht Hlog) as (g3 & total3 & E3 & Hrad).
  rewrite E in E3. injection E3 as <- _.
  assert (Hviews : forall l, grouped_length d whole l -> exists vs, level_view g0 l = Some (Ret vs) /\ partitions rows l vs /\
      forall v c, In v vs -> In c (v_members v) -> c <> v_rep v ->
        @nle B64 (pair_value k (sub_values rows l (v_rep v)) (sub_values rows l c)) (@ndiv B64 thr (nofZ 2))).
  { intros l Hl. destruct (Hrad l Hl) as (vs & V1 & V2 & V3). exists vs. split; [exact V1|]. split; [exact V2|exact V3]. }
  assert (Hsame : forall g', asked (N := B64) H g0 g' -> forall l, S l -> level_view g' l = level_view g0 l).
  { intros g' Hg' l Hl. apply (asked_views (N := B64) d rows H old clock ratio0 k thr threads whole g0 total g'); auto; [lia|apply Hl]. }
  apply (considered_views _ _ _ _ _ _ g g0) in HC; [|apply Hsame; exact Ha].
  apply (considered_views _ _ _ _ _ _ gm g0) in HC'; [|apply Hsame; exact Hb].
  exists g1, cs, g2, cs'. split; [exact Ek|]. split; [exact Ek'|]. split; [exact Hlen|]. split; [exact Hlen'|].
  apply (ranks (N := B64) rows k ratio (ts_points query) S P g0) with (K := K) (h := h) (h' := more) (C := C) (C' := C'); auto.
  - intros l v Hl Hv. assert (exists m, In m (v_members v)) as (m & Hm).
    { destruct Hv as (vs & V1 & V2). destruct (Hviews l (proj1 Hl)) as (vs' & V1' & (_ & _ & Q) & _). rewrite V1 in V1'. injection V1' as <-.
      destruct (Q v V2) as (Q1 & _ & _). destruct (v_members v) as [|m ms]; [destruct Q1; reflexivity|]. exists m. left. reflexivity. }
    destruct (rep_near_ieee k d rows whole thr g0 query ratio Hmod Fthr Pthr Hmax Hviews Hq Hql Hr l v m Hl Hv Hm) as (r & x & y & _ & _ & Ex & _).
    exists x. exact Ex.
  - intros l m Hp. apply (in_group_ieee k d rows whole thr g0 query ratio Hviews l m Hp).
  - intros l v v' m Hl (vs & V1 & V2) (vs' & V1' & V2') Hm Hm'. destruct (Hviews l (proj1 Hl)) as (ws & W1 & (W2 & _ & _) & _).
    rewrite W1 in V1, V1'. injection V1 as <-. injection V1' as <-. apply (one_group ws v v' m); auto.
  - intros [l m] Hp. destruct (in_group_ieee k d rows whole thr g0 query ratio Hviews l m Hp) as (v & V1 & V2 & V3).
    destruct (rep_near_ieee k d rows whole thr g0 query ratio Hmod Fthr Pthr Hmax Hviews Hq Hql Hr l v m V1 V2 V3) as (r & x & y & _ & _ & _ & _ & Ey & Fy & _).
    exists y. split; [exact Ey|]. apply (nfin_nn (N := B64)). apply bfin_iff. exact Fy.
Qed.
Print Assumptions C58_looking_at_more_ieee.

(** The same in exact arithmetic. *)
Theorem C58_looking_at_more_exact : forall (H : std_alg) (k : kind) (d : dataset XR) (rows : list (list R))
    old clock (ratio0 : D XR) (t : R) threads whole g0 total g gm (query : TS XR) (xs : list R) (ratio : R) K h more,
  std_ok H ->
  holds d (real_rows rows) -> 1 <= threads -> log_safe d clock -> ds_maxcol d <= 2 ^ 30 -> (0 <= t)%R ->
  groupAllLengths (N := XR) clock ratio0 (mkGS d old) (kind_name k) (Fin t) threads whole = (g0, Ret total) ->
  asked (N := XR) H g0 g -> asked (N := XR) H g0 gm ->
  is_series query xs -> 2 <= ts_length query <= ds_maxcol d -> (0 <= ratio <= 1)%R ->
  1 <= K <= h -> h <= more ->
  let S := searched (N := XR) d whole (Fin ratio) (ts_length query) in
  let P := searched_place (N := XR) d (real_rows rows) whole (Fin ratio) (ts_length query) in
  no_near_ties (N := XR) (real_rows rows) k (Fin ratio) (map Fin xs) P -> at_least P K ->
  distinct_groups (N := XR) (real_rows rows) k (Fin ratio) (map Fin xs) S g0 ->
  exists g1 cs g2 cs', getKBestMatches (N := XR) H (Fin ratio) g query K h = Ret (g1, cs) /\
    getKBestMatches (N := XR) H (Fin ratio) gm query K more = Ret (g2, cs') /\
    Z.of_nat (length cs) = K /\ Z.of_nat (length cs') = K /\
    forall i c c', nth_error cs i = Some c -> nth_error cs' i = Some c' -> @nle XR (c_dist c') (c_dist c).
Proof.
  intros H k d rows old clock ratio0 t threads whole g0 total g gm query xs ratio K h more Hok Hd Ht Hlog Hmax Hpos E Ha Hb Hq Hql Hr HK Hmore
    S P Hties Hat Hdis.
  destruct (C24_k_similar_exact H k d rows old clock ratio0 t threads whole g0 total g query xs ratio K h Hok Hd Ht Hlog Hmax E Ha Hq Hql Hr HK Hties Hat)
    as (g1 & C & cs & Ek & HC & HB & Hasc & Hlen).
  destruct (C24_k_similar_exact H k d rows old clock ratio0 t threads whole g0 total gm query xs ratio K more Hok Hd Ht Hlog Hmax E Hb Hq Hql Hr
    ltac:(lia) Hties Hat) as (g2 & C' & cs' & Ek' & HC' & HB' & Hasc' & Hlen').
  destruct (C17_group_diameter k d rows old clock ratio0 t threads whole Hd Hpos ltac:(lia) Ht Hlog) as (g3 & total3 & E3 & Hviews).
  rewrite E in E3. injection E3 as <- _.
  assert (Hsame : forall g', asked (N := XR) H g0 g' -> forall l, S l -> level_view g' l = level_view g0 l).
  { intros g' Hg' l Hl. apply (asked_views (N := XR) d (real_rows rows) H old clock ratio0 k (Fin t) threads whole g0 total g'); auto;
      [apply half_fin|lia|apply Hl]. }
  apply (considered_views _ _ _ _ _ _ g g0) in HC; [|apply Hsame; exact Ha].
  apply (considered_views _ _ _ _ _ _ gm g0) in HC'; [|apply Hsame; exact Hb].
  assert (Lq : ts_length query = Rlen xs).
  { destruct Hq as [Hq1 Hq2]. unfold Rlen. pose proof (DtwPaths.ts_points_length (N := XR) query Hq1) as L. rewrite Hq2, map_length in L. lia. }
  exists g1, cs, g2, cs'. split; [exact Ek|]. split; [exact Ek'|]. split; [exact Hlen|]. split; [exact Hlen'|].
  unfold S, P in *. clear S P. rewrite Lq in *.
  apply (ranks (N := XR) (real_rows rows) k (Fin ratio) (map Fin xs) (searched (N := XR) d whole (Fin ratio) (Rlen xs))
    (searched_place (N := XR) d (real_rows rows) whole (Fin ratio) (Rlen xs)) g0) with (K := K) (h := h) (h' := more) (C := C) (C' := C'); auto.
  - intros l v Hl Hv. assert (exists m, In m (v_members v)) as (m & Hm).
    { destruct Hv as (vs & V1 & V2). destruct (Hviews l (proj1 Hl)) as (vs' & V1' & (_ & _ & Q) & _). rewrite V1 in V1'. injection V1' as <-.
      destruct (Q v V2) as (Q1 & _ & _). destruct (v_members v) as [|m ms]; [destruct Q1; reflexivity|]. exists m. left. reflexivity. }
    destruct (rep_near_exact k d rows whole t g0 xs ratio Hmax Hviews Hql Hr l v m Hl Hv Hm) as (x & y & Ex & _).
    exists (Fin x). exact Ex.
  - intros l m Hp. apply (in_group k d rows whole t g0 xs ratio Hviews l m Hp).
  - intros l v v' m Hl (vs & V1 & V2) (vs' & V1' & V2') Hm Hm'. destruct (Hviews l (proj1 Hl)) as (ws & W1 & (W2 & _ & _) & _).
    rewrite W1 in V1, V1'. injection V1 as <-. injection V1' as <-. apply (one_group ws v v' m); auto.
  - intros [l m] Hp. destruct (in_group k d rows whole t g0 xs ratio Hviews l m Hp) as (v & V1 & V2 & V3).
    destruct (rep_near_exact k d rows whole t g0 xs ratio Hmax Hviews Hql Hr l v m V1 V2 V3) as (x & y & _ & Ey & _).
    exists (Fin y). split; [exact Ey|]. apply (nfin_nn (N := XR)). split; reflexivity.
Qed.
Print Assumptions C58_looking_at_more_exact.

(** The example of C57: looking at one subsequence the answer is at distance 11/4,
    looking at two it is at distance 0 ([C57_example_run]); the two groups are not
    equally far. *)
Definition same_ret (a b : res (D B64)) : bool :=
  match a, b with Ret x, Ret y => negb (@nltb B64 x y) && negb (@nltb B64 y x) | _, _ => true end.

Lemma same_ret_no a b x y : same_ret a b = false -> a = Ret x -> b = Ret y -> @neqv B64 x y -> False.
Proof. intros G -> -> [(_ & _ & X) (_ & _ & Y)]. cbn [same_ret] in G. rewrite X, Y in G. discriminate G. Qed.

Example C58_example_pre : distinct_groups (N := B64) gu_rows KManhattan (b64_ofZ 1) (ts_points gu_query)
  (searched (N := B64) gu_data true (b64_ofZ 1) (ts_length gu_query)) (fst gu_grouped).
Proof.
  destruct C52_example_groups as [_ Eg].
  intros l v l' v' x y [Hl _] [Hl' _] (vs & V1 & V2) (vs' & V1' & V2') Ex Ey Hxy.
  change (l = 8) in Hl. change (l' = 8) in Hl'. subst l l'. rewrite V1 in V1'. injection V1' as <-.
  rewrite V1 in Eg. cbn [PropsGroup.show] in Eg. injection Eg as Eg.
  destruct vs as [|a [|b [|c vs]]]; try discriminate Eg. cbn [map] in Eg.
  destruct a as [ra na ma], b as [rb nb mb]. cbn in Eg. injection Eg as -> -> -> -> -> ->.
  f_equal.
  assert (G : same_ret (dtw_of (N := B64) KManhattan (b64_ofZ 1) (place_values gu_rows (8, (0, 0))) (ts_points gu_query))
    (dtw_of (N := B64) KManhattan (b64_ofZ 1) (place_values gu_rows (8, (2, 0))) (ts_points gu_query)) = false) by (vm_compute; reflexivity).
  assert (G' : same_ret (dtw_of (N := B64) KManhattan (b64_ofZ 1) (place_values gu_rows (8, (2, 0))) (ts_points gu_query))
    (dtw_of (N := B64) KManhattan (b64_ofZ 1) (place_values gu_rows (8, (0, 0))) (ts_points gu_query)) = false) by (vm_compute; reflexivity).
  unfold group_dist in Ex, Ey.
  destruct V2 as [<-|[<-|[]]], V2' as [<-|[<-|[]]]; try reflexivity; cbn [v_rep] in Ex, Ey.
  - exfalso. exact (same_ret_no _ _ x y G Ex Ey Hxy).
  - exfalso. exact (same_ret_no _ _ x y G' Ex Ey Hxy).
Qed.

(** ** Two groups equally far *)
(** series of two points: 4 and 2 form a group, -4, -5 and -6 another; the query is 0 *)
Definition eq_rows : list (list (D B64)) := map (fun z => map b64_ofZ [z; z]) [4; 2; -4; -5; -6].
Definition eq_data : dataset B64 := mkDS (N := B64) (Some (concat eq_rows)) [] [2; 2; 2; 2; 2] 5 2 "f"%string false.
Definition eq_query : TS B64 := zs [0; 0].
Definition eq_grouped : gset B64 * res Z :=
  groupAllLengths (N := B64) (fun _ => false) (b64_ofZ 1) (mkGS eq_data None) "manhattan" (b64_ofZ 4) 1 true.

Lemma eq_holds : holds eq_data eq_rows.
Proof.
  exists (concat eq_rows). splits; try reflexivity; try (unfold int_max; simpl; lia).
  intros i row E. destruct i as [|[|[|[|[|i]]]]]; [| | | | |destruct i; discriminate]; injection E as <-; splits; try reflexivity;
    try (simpl; lia); intros j v Ej; repeat (destruct j as [|j]; [injection Ej as <-; reflexivity|]);
    destruct j; discriminate.
Qed.

Example C58_example_equally_far :
  PropsGroup.show (level_view (fst eq_grouped) 2) = Some [((0, 0), 2, [(1, 0); (0, 0)]); ((2, 0), 3, [(4, 0); (3, 0); (2, 0)])] /\
  show_k (getKBestMatches (N := B64) simple_alg (b64_ofZ 1) (fst eq_grouped) eq_query 2 2) =
    Some [(2, 1, 0, B2SF (b64_ofZ 1)); (2, 0, 0, B2SF (b64_ofZ 2))] /\
  show_k (getKBestMatches (N := B64) simple_alg (b64_ofZ 1) (fst eq_grouped) eq_query 2 3) =
    Some [(2, 2, 0, B2SF (b64_ofZ 2)); (2, 3, 0, B2SF (b64_lit 5 2))].
Proof. split; [|split]; vm_compute; reflexivity. Qed.

Definition worse {A} (r r' : res (A * list (cand B64))) : bool :=
  match r, r' with Ret (_, c :: _), Ret (_, c' :: _) => @nltb B64 (c_dist c) (c_dist c') | _, _ => false end.

Lemma worse_not {A} (r r' : res (A * list (cand B64))) g g' cs cs' : worse r r' = true -> r = Ret (g, cs) -> r' = Ret (g', cs') ->
  (forall i c c', nth_error cs i = Some c -> nth_error cs' i = Some c' -> @nle B64 (c_dist c') (c_dist c)) -> False.
Proof.
  intros Hw -> -> Hall. cbn [worse] in Hw. destruct cs as [|c cs]; [discriminate Hw|]. destruct cs' as [|c' cs']; [discriminate Hw|].
  destruct (Hall 0%nat c c' eq_refl eq_refl) as (_ & _ & X). congruence.
Qed.

(** without the condition on the groups the statement is false *)
Theorem C58_looking_at_more_refuted : ~ (forall (H : std_alg) (k : kind) (d : dataset B64) (rows : list (list (D B64)))
    (thr : D B64) g0 total (query : TS B64) (ratio : D B64) K h more,
  std_ok H ->
  holds d rows -> moderate_data rows -> is_finite (thr : b64) = true -> (0 <= B2R (thr : b64))%R -> ds_maxcol d <= 2 ^ 26 ->
  groupAllLengths (N := B64) (fun _ => false) ratio (mkGS d None) (kind_name k) thr 1 true = (g0, Ret total) ->
  moderate_query query -> ts_length query <= ds_maxcol d -> moderate_ratio ratio ->
  1 <= K <= h -> h <= more ->
  no_near_ties (N := B64) rows k ratio (ts_points query) (searched_place (N := B64) d rows true ratio (ts_length query)) ->
  at_least (searched_place (N := B64) d rows true ratio (ts_length query)) K ->
  exists g1 cs g2 cs', getKBestMatches (N := B64) H ratio g0 query K h = Ret (g1, cs) /\
    getKBestMatches (N := B64) H ratio g0 query K more = Ret (g2, cs') /\
    Z.of_nat (length cs) = K /\ Z.of_nat (length cs') = K /\
    forall i c c', nth_error cs i = Some c -> nth_error cs' i = Some c' -> @nle B64 (c_dist c') (c_dist c)).
Proof.
  intros A. pose proof C26_example_pre as (_ & _ & _ & Hr & _). destruct (ofZ_facts 4 ltac:(lia)) as (F4 & E4 & _).
  assert (Eg : snd eq_grouped = Ret 2) by (vm_compute; reflexivity).
  assert (Hw : worse (getKBestMatches (N := B64) simple_alg (b64_ofZ 1) (fst eq_grouped) eq_query 2 2)
    (getKBestMatches (N := B64) simple_alg (b64_ofZ 1) (fst eq_grouped) eq_query 2 3) = true) by (vm_compute; reflexivity).
  set (places := [(2, (0, 0)); (2, (1, 0)); (2, (2, 0)); (2, (3, 0)); (2, (4, 0))] : list place).
  assert (W : forall p, searched_place (N := B64) eq_data eq_rows true (b64_ofZ 1) (ts_length eq_query) p <-> In p places).
  { intros [l [i s]]. split.
    - intros [[Hl _] (row & Hrow & Hs)]. cbn [fst snd] in *. change (l = 2) in Hl. subst l.
      apply row_of_Some in Hrow as [Hi Hn]. assert (Hlen : Z.of_nat (length row) = 2 /\ (0 <= i < 5)).
      { assert (Hi3 : (Z.to_nat i < 5)%nat) by (apply nth_error_Some_lt in Hn; exact Hn). split; [|lia].
        destruct (Z.to_nat i) as [|[|[|[|[|]]]]]; try lia; injection Hn as <-; reflexivity. }
      destruct Hlen as [Hlen Hi3]. assert (s = 0) by lia. subst s.
      assert (i = 0 \/ i = 1 \/ i = 2 \/ i = 3 \/ i = 4) as [->|[->|[->|[->| ->]]]] by lia; unfold places; cbn [In]; auto 10.
    - intros Hp. assert (Hp' : l = 2 /\ s = 0 /\ exists z, row_of eq_rows i = Some (map b64_ofZ [z; z])).
      { unfold places in Hp. cbn [In] in Hp. destruct Hp as [[= <- <- <-]|[[= <- <- <-]|[[= <- <- <-]|[[= <- <- <-]|[[= <- <- <-]|[]]]]]]; (split; [reflexivity|split; [reflexivity|]]);
          [exists 4|exists 2|exists (-4)|exists (-5)|exists (-6)]; reflexivity. }
      destruct Hp' as (-> & -> & z & Ez). split; [split|].
      + reflexivity.
      + exists 1. split; vm_compute; [reflexivity|discriminate].
      + exists (map b64_ofZ [z; z]). split; [exact Ez|]. cbn [map length fst snd]. lia. }
  destruct (A simple_alg KManhattan eq_data eq_rows (b64_ofZ 4) (fst eq_grouped) 2 eq_query (b64_ofZ 1) 2 2 3)
    as (g1 & cs & g2 & cs' & E1 & E2 & _ & _ & Hall).
  - apply simple_alg_ok.
  - exact eq_holds.
  - intros row [<-|[<-|[<-|[<-|[<-|[]]]]]]; (split; [|vm_compute; discriminate]); apply leb64_all; vm_compute; reflexivity.
  - exact F4.
  - rewrite E4. lra.
  - vm_compute. discriminate.
  - rewrite <- Eg. unfold eq_grouped. apply surjective_pairing.
  - split; [apply zs_ok|]. split; [|vm_compute; split; discriminate]. apply leb64_all. vm_compute. reflexivity.
  - vm_compute. discriminate.
  - exact Hr.
  - lia.
  - lia.
  - intros p p' v v' Hp Hp' Ev Ev'. apply W in Hp, Hp'.
    assert (G : forallb (fun p => forallb (fun p' =>
      match dtw_of (N := B64) KManhattan (b64_ofZ 1) (ts_points eq_query) (place_values eq_rows p),
            dtw_of (N := B64) KManhattan (b64_ofZ 1) (ts_points eq_query) (place_values eq_rows p') with
      | Ret v, Ret v' => sepb v v' | _, _ => false end) places) places = true) by (vm_compute; reflexivity).
    rewrite forallb_forall in G. specialize (G p Hp). rewrite forallb_forall in G. specialize (G p' Hp').
    cbv beta in G. rewrite Ev, Ev' in G. unfold sepb in G. apply orb_true_iff in G as [G|G].
    + left. apply (neqb_true (N := B64)). exact G.
    + right. apply negb_true_iff in G. exact G.
  - exists [(2, (0, 0)); (2, (1, 0))]. split; [repeat constructor; simpl; intuition congruence|]. split; [|simpl; lia].
    intros p [<-|[<-|[]]]; apply W; unfold places; cbn [In]; auto.
  - exact (worse_not _ _ g1 g2 cs cs' Hw E1 E2 Hall).
Qed.
Print Assumptions C58_looking_at_more_refuted.
