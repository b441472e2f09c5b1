(** Queries and cached envelopes: two data sets that differ only in envelopes that are
    up to date answer alike. *)
From Coq Require Import String.
From Verif Require Import Base Num NumLaws LoopFacts TimeSeries Lemire Distance TSSet StdAlg Candidate Group GroupSpace Archive OldFormat
  DistSpec DistLink QueryState.
Local Open Scope Z_scope.
Local Open Scope list_scope.

(** ** related outcomes *)
Definition rr {A B} (R : A -> B -> Prop) (r1 : res A) (r2 : res B) : Prop :=
  match r1, r2 with
  | Ret a, Ret b => R a b
  | Throw x, Throw y => x = y
  | UB u, UB v => u = v
  | Hang, Hang => True
  | _, _ => False
  end.

Lemma rr_bind {A B A' B'} (R : A -> B -> Prop) (S : A' -> B' -> Prop) r1 r2 f1 f2 : rr R r1 r2 ->
  (forall a b, R a b -> rr S (f1 a) (f2 b)) -> rr S (bind r1 f1) (bind r2 f2).
Proof. destruct r1, r2; cbn; auto; try contradiction. Qed.

Lemma rr_refl {A} (R : A -> A -> Prop) r : (forall a, R a a) -> rr R r r.
Proof. destruct r; cbn; auto. Qed.

Lemma rr_eq {A} (r1 r2 : res A) : r1 = r2 -> rr eq r1 r2.
Proof. intros ->. apply rr_refl. auto. Qed.

Lemma rr_eq_inv {A} (r1 r2 : res A) : rr eq r1 r2 -> r1 = r2.
Proof. destruct r1, r2; cbn; intros; try contradiction; congruence. Qed.

Lemma rr_weak {A B} (R S : A -> B -> Prop) r1 r2 : rr R r1 r2 -> (forall a b, R a b -> S a b) -> rr S r1 r2.
Proof. destruct r1, r2; cbn; auto. Qed.

Lemma rr_for {S} (R : S -> S -> Prop) lo hi f1 f2 : forall s1 s2, R s1 s2 ->
  (forall i a b, R a b -> rr R (f1 i a) (f2 i b)) -> rr R (for_ lo hi f1 s1) (for_ lo hi f2 s2).
Proof.
  unfold for_. generalize (Z.to_nat (hi - lo)). intros n. revert lo. induction n as [|n IH]; intros lo s1 s2 H Hf; cbn; [exact H|].
  eapply rr_bind; [apply Hf, H|]. intros a b Hab. apply IH; auto.
Qed.

Lemma rr_aget {A B} (R : A -> B -> Prop) l1 l2 i : Forall2 R l1 l2 -> rr R (aget l1 i) (aget l2 i).
Proof.
  intros H. unfold aget. destruct (0 <=? i); cbn; auto. generalize (Z.to_nat i) as n.
  induction H as [|x y l1 l2 Hxy H IH]; intros [|n]; cbn; auto.
Qed.

Lemma aget_nth_some {A} (l : list A) i x : aget l i = Ret x -> nth_error l (Z.to_nat i) = Some x.
Proof. unfold aget. destruct (0 <=? i); [|discriminate]. destruct (nth_error l _); [|discriminate]. congruence. Qed.

Lemma Forall2_len {A B} (R : A -> B -> Prop) l1 l2 : Forall2 R l1 l2 -> length l1 = length l2.
Proof. induction 1; cbn; auto. Qed.

(** replacing an element by a related one *)
Lemma Forall2_upd {A} (R : A -> A -> Prop) (l0 l : list A) n x y : (forall a b c, R a b -> R b c -> R a c) ->
  Forall2 R l0 l -> nth_error l n = Some x -> R x y -> Forall2 R l0 (upd l n y).
Proof.
  intros Ht H. revert n. induction H as [|a b l0 l Hab H IH]; intros [|n] E Hxy; try discriminate; cbn in *; constructor; eauto.
  injection E as ->. eauto.
Qed.

Lemma rr_aset {A} (R : A -> A -> Prop) (l0 l1 l2 : list A) i x1 y1 x2 y2 : (forall a b c, R a b -> R b c -> R a c) ->
  Forall2 R l0 l1 -> Forall2 R l0 l2 -> aget l1 i = Ret x1 -> aget l2 i = Ret x2 -> R x1 y1 -> R x2 y2 ->
  rr (fun a b => Forall2 R l0 a /\ Forall2 R l0 b) (aset l1 i y1) (aset l2 i y2).
Proof.
  intros Ht H1 H2 E1 E2 R1 R2. unfold aset. rewrite <- (Forall2_len _ _ _ H1), <- (Forall2_len _ _ _ H2).
  destruct ((0 <=? i) && (i <? Z.of_nat (length l0))); cbn; [|reflexivity].
  split; eapply Forall2_upd; eauto using aget_nth_some.
Qed.

Section Quiet.
Context {N : Num}.
Notation D := (D N).

Section Data.
Variable d : dataset N.

(** ** groups that differ in valid caches only *)
Definition cohg (len : Z) (g : group N) : Prop := forall t, cent_ts d len (g_cent g) = Ret t -> coherent (g_cache g) t.
Definition ag (len : Z) (g1 g2 : group N) : Prop :=
  g_cent g1 = g_cent g2 /\ g_last g1 = g_last g2 /\ g_count g1 = g_count g2 /\ cohg len g1 /\ cohg len g2.

Lemma ag_sym len g1 g2 : ag len g1 g2 -> ag len g2 g1.
Proof. intros (A & B & C & E & F). repeat split; auto. Qed.
Lemma ag_trans len g1 g2 g3 : ag len g1 g2 -> ag len g2 g3 -> ag len g1 g3.
Proof. intros (A & B & C & E & F) (A' & B' & C' & E' & F'). repeat split; auto; congruence. Qed.

Lemma Forall2_sym {A} (R : A -> A -> Prop) l1 l2 : (forall a b, R a b -> R b a) -> Forall2 R l1 l2 -> Forall2 R l2 l1.
Proof. induction 2; constructor; auto. Qed.
Lemma Forall2_trans {A} (R : A -> A -> Prop) : (forall a b c, R a b -> R b c -> R a c) ->
  forall l1 l2 l3, Forall2 R l1 l2 -> Forall2 R l2 l3 -> Forall2 R l1 l3.
Proof.
  intros Ht l1 l2 l3 H. revert l3. induction H; intros l3 H3; inversion H3; subst; constructor; eauto.
Qed.

Lemma fst_res_rr {A B} (r1 r2 : res (A * B)) : fst_res r1 = fst_res r2 -> rr (fun a b => fst a = fst b) r1 r2.
Proof. destruct r1 as [[a b]| | |], r2 as [[a' b']| | |]; cbn; intros E; try discriminate; try congruence; auto. Qed.

Lemma dfc_sim len w ratio g1 g2 q dr : ag len g1 g2 ->
  rr (fun a b => fst a = fst b /\ ag len g1 (snd a) /\ ag len g2 (snd b))
     (distanceFromCentroid d len w ratio g1 q dr) (distanceFromCentroid d len w ratio g2 q dr).
Proof.
  intros (A & B & C & E & F). unfold distanceFromCentroid. rewrite <- A.
  unfold cohg in E, F. destruct (cent_ts d len (g_cent g1)) as [t| | |] eqn:Et; cbn [bind]; try reflexivity.
  specialize (E t eq_refl). assert (F' : coherent (g_cache g2) t) by (apply F; rewrite <- A; exact Et). clear F.
  assert (Again : forall c g, g_cent g = g_cent g1 -> coherent c t -> coherent (g_cache g) t ->
    ag len g (mkGroup (g_cent g1) c (g_last g) (g_count g))).
  { intros c g Hg Hc Hc0. unfold ag, cohg. cbn. rewrite Hg. repeat split; auto; intros t' Ht'; assert (t' = t) by congruence; subst; auto. }
  destruct w as [|f].
  - destruct (cascadeC_eq ratio (g_cache g1) t q dr E) as [E1 K1]. destruct (cascadeC_eq ratio (g_cache g2) t q dr F') as [E2 K2].
    assert (X : rr (fun a b => fst a = fst b /\ coherent (snd a) t /\ coherent (snd b) t)
       (cascadeDistanceC ratio (g_cache g1) t q dr) (cascadeDistanceC ratio (g_cache g2) t q dr)).
    { rewrite <- E2 in E1. clear E2. destruct (cascadeDistanceC ratio (g_cache g1) t q dr) as [[a b]| | |], (cascadeDistanceC ratio (g_cache g2) t q dr) as [[a' b']| | |];
        cbn in *; try discriminate; try congruence; auto. splits; [congruence|eapply K1; reflexivity|eapply K2; reflexivity]. }
    eapply rr_bind; [exact X|]. intros [a b] [a' b'] (H1 & H2 & H3). cbn [rr fst snd] in *. splits; auto.
  - destruct (f ratio t q dr []) as [[v m]| | |]; cbn [bind rr]; auto. cbn [fst snd]. splits; auto.
Qed.

(** ** levels *)
Definition aL (L1 L2 : llgs N) : Prop :=
  ll_length L1 = ll_length L2 /\ ll_sub L1 = ll_sub L2 /\ ll_map L1 = ll_map L2 /\ Forall2 (ag (ll_length L1)) (ll_groups L1) (ll_groups L2).
Lemma aL_sym L1 L2 : aL L1 L2 -> aL L2 L1.
Proof. intros (A & B & C & E). unfold aL. rewrite <- A. splits; auto. apply Forall2_sym; auto using ag_sym. Qed.
Lemma aL_trans L1 L2 L3 : aL L1 L2 -> aL L2 L3 -> aL L1 L3.
Proof.
  intros (A & B & C & E) (A' & B' & C' & E'). unfold aL. rewrite <- A in E'. splits; try congruence.
  eapply Forall2_trans; eauto using ag_trans.
Qed.

Definition upto {S} (len : Z) (G0 : list (group N)) (a b : list (group N) * S) : Prop :=
  Forall2 (ag len) G0 (fst a) /\ Forall2 (ag len) G0 (fst b) /\ snd a = snd b.

Lemma mid len G0 G1 G2 : Forall2 (ag len) G0 G1 -> Forall2 (ag len) G0 G2 -> Forall2 (ag len) G1 G2.
Proof. intros H1 H2. eapply Forall2_trans; eauto using ag_trans. apply Forall2_sym; auto using ag_sym. Qed.

Lemma bestGroup_sim len w ratio q i G0 a b : upto len G0 a b ->
  rr (upto len G0) (bestGroup_step d len w ratio q i a) (bestGroup_step d len w ratio q i b).
Proof.
  destruct a as [g1 [bd bg]], b as [g2 st]. intros (H1 & H2 & H3). cbn [fst snd] in *. subst st. unfold bestGroup_step.
  pose proof (rr_aget _ _ _ i (mid _ _ _ _ H1 H2)) as X.
  destruct (aget g1 i) as [x1| | |] eqn:E1, (aget g2 i) as [x2| | |] eqn:E2; cbn in X; try contradiction; cbn [bind rr]; auto.
  eapply rr_bind; [apply dfc_sim, X|]. intros [v y1] [v' y2] (Ev & Y1 & Y2). cbn [fst snd] in *. subst v'.
  eapply rr_bind; [apply (rr_aset (ag len) G0 g1 g2 i x1 y1 x2 y2 (ag_trans len) H1 H2 E1 E2 Y1 Y2)|]. intros g1' g2' [K1 K2].
  destruct (nltb v bd); cbn [rr]; split; auto.
Qed.

Lemma getBestGroup_sim w ratio L1 L2 q dr : aL L1 L2 ->
  rr (fun a b => snd a = snd b /\ aL L1 (fst a) /\ aL L1 (fst b)) (getBestGroup d w ratio L1 q dr) (getBestGroup d w ratio L2 q dr).
Proof.
  intros H. pose proof H as (A & B & C & E). unfold getBestGroup. rewrite <- A, <- B, <- C, <- (Forall2_len _ _ _ E).
  assert (E1 : Forall2 (ag (ll_length L1)) (ll_groups L1) (ll_groups L1)) by (apply (Forall2_trans _ (ag_trans (ll_length L1)) _ (ll_groups L2)); [exact E|apply Forall2_sym; [apply ag_sym|exact E]]).
  eapply rr_bind.
  - apply rr_for with (R := upto (ll_length L1) (ll_groups L1)); [split; [exact E1|split; [exact E|reflexivity]]|].
    intros i a b Hab. apply bestGroup_sim, Hab.
  - intros [g1 r1] [g2 r2] (H1 & H2 & H3). cbn [fst snd] in *. cbn [rr fst snd]. unfold aL. cbn. splits; auto.
Qed.

Section WithAlg.
Variable H : std_alg.

Lemma inter_sim len w ratio q i G0 a b : upto len G0 (fst (fst a), (snd (fst a), snd a)) (fst (fst b), (snd (fst b), snd b)) ->
  rr (fun a b => upto len G0 (fst (fst a), (snd (fst a), snd a)) (fst (fst b), (snd (fst b), snd b)))
     (inter_step H d len w ratio q i a) (inter_step H d len w ratio q i b).
Proof.
  destruct a as [[g1 best] k], b as [[g2 best'] k']. intros (H1 & H2 & H3). cbn [fst snd] in *. injection H3 as <- <-. unfold inter_step.
  pose proof (rr_aget _ _ _ i (mid _ _ _ _ H1 H2)) as X.
  destruct (aget g1 i) as [x1| | |] eqn:E1, (aget g2 i) as [x2| | |] eqn:E2; cbn in X; try contradiction; cbn [bind rr]; auto.
  assert (Ec : g_count x1 = g_count x2) by apply X. rewrite <- Ec.
  destruct (k <=? 0).
  - destruct (front best) as [top| | |]; cbn [bind rr]; auto.
    eapply rr_bind; [apply dfc_sim, X|]. intros [v y1] [v' y2] (Ev & Y1 & Y2). cbn [fst snd] in *. subst v'.
    eapply rr_bind; [apply (rr_aset (ag len) G0 g1 g2 i x1 y1 x2 y2 (ag_trans len) H1 H2 E1 E2 Y1 Y2)|]. intros g1' g2' [K1 K2].
    destruct (nltb v (gi_dist top)); cbn [rr]; [|split; auto].
    eapply rr_bind; [apply rr_eq; reflexivity|]. intros b1 b2 <-. eapply rr_bind; [apply rr_eq; reflexivity|]. intros [b3 k3] b4 <-.
    cbn [rr fst snd]. split; auto.
  - eapply rr_bind; [apply dfc_sim, X|]. intros [v y1] [v' y2] (Ev & Y1 & Y2). cbn [fst snd] in *. subst v'.
    eapply rr_bind; [apply (rr_aset (ag len) G0 g1 g2 i x1 y1 x2 y2 (ag_trans len) H1 H2 E1 E2 Y1 Y2)|]. intros g1' g2' [K1 K2].
    destruct (k - g_count x1 <=? 0); cbn [rr]; [|split; auto].
    eapply rr_bind; [apply rr_eq; reflexivity|]. intros b1 b2 <-. eapply rr_bind; [apply rr_eq; reflexivity|]. intros [b3 k3] b4 <-.
    cbn [rr fst snd]. split; auto.
Qed.

Lemma aL_left L1 L2 : aL L1 L2 -> aL L1 L1.
Proof. intros X. eapply aL_trans; [exact X|apply aL_sym, X]. Qed.

Lemma interLevel_sim w ratio L1 L2 q best k : aL L1 L2 ->
  rr (fun a b => (snd (fst a), snd a) = (snd (fst b), snd b) /\ aL L1 (fst (fst a)) /\ aL L1 (fst (fst b)))
     (interLevelKSim H d w ratio L1 q best k) (interLevelKSim H d w ratio L2 q best k).
Proof.
  intros X. pose proof X as (A & B & C & E). pose proof (aL_left _ _ X) as (_ & _ & _ & E1).
  unfold interLevelKSim. rewrite <- A, <- B, <- C, <- (Forall2_len _ _ _ E).
  eapply rr_bind.
  - eapply rr_for with (R := fun a b => upto (ll_length L1) (ll_groups L1) (fst (fst a), (snd (fst a), snd a)) (fst (fst b), (snd (fst b), snd b)));
      [split; [exact E1|split; [exact E|reflexivity]]|].
    intros i a b Hab. apply inter_sim, Hab.
  - intros [[g1 r1] k1] [[g2 r2] k2] (H1 & H2 & H3). cbn [fst snd] in *. cbn [rr fst snd]. unfold aL. cbn. splits; auto.
Qed.

(** ** all lengths *)
Definition aO (o1 o2 : option (llgs N)) : Prop :=
  match o1, o2 with None, None => True | Some a, Some b => aL a b | _, _ => False end.
Lemma aO_sym o1 o2 : aO o1 o2 -> aO o2 o1.
Proof. destruct o1, o2; cbn; auto using aL_sym. Qed.
Lemma aO_trans o1 o2 o3 : aO o1 o2 -> aO o2 o3 -> aO o1 o3.
Proof. destruct o1, o2, o3; cbn; try tauto. apply aL_trans. Qed.
Lemma midO l0 l1 l2 : Forall2 aO l0 l1 -> Forall2 aO l0 l2 -> Forall2 aO l1 l2.
Proof. intros H1 H2. eapply Forall2_trans; eauto using aO_trans. apply Forall2_sym; auto using aO_sym. Qed.

Definition uptoO {S} (l0 : list (option (llgs N))) (a b : list (option (llgs N)) * S) : Prop :=
  Forall2 aO l0 (fst a) /\ Forall2 aO l0 (fst b) /\ snd a = snd b.

Lemma each_level_sim {S} (body : llgs N -> S -> res (llgs N * S)) l0 :
  (forall L1 L2 s, aL L1 L2 -> rr (fun a b => snd a = snd b /\ aL L1 (fst a) /\ aL L1 (fst b)) (body L1 s) (body L2 s)) ->
  forall order l1 l2 s, Forall2 aO l0 l1 -> Forall2 aO l0 l2 ->
  rr (uptoO l0) (each_level order l1 body s) (each_level order l2 body s).
Proof.
  intros Hb. induction order as [|i order IH]; intros l1 l2 s H1 H2; cbn [each_level].
  - cbn. split; auto.
  - pose proof (rr_aget _ _ _ i (midO _ _ _ H1 H2)) as X.
    destruct (aget l1 i) as [[x1|]| | |] eqn:E1, (aget l2 i) as [[x2|]| | |] eqn:E2; cbn in X; try contradiction; cbn [bind rr]; auto.
    eapply rr_bind; [apply Hb, X|]. intros [L1 s1] [L2 s2] (Es & Y1 & Y2). cbn [fst snd] in *. subst s2.
    eapply rr_bind; [apply (rr_aset aO l0 l1 l2 i (Some x1) (Some L1) (Some x2) (Some L2) aO_trans H1 H2 E1 E2)|].
    + exact Y1.
    + cbn. eapply aL_trans; [apply aL_sym, X|exact Y2].
    + cbn. intros a b [K1 K2]. apply IH; auto.
Qed.

(** the same for bodies without a state that never return *)
Lemma each_level_none order l1 l2 : Forall2 aO l1 l2 ->
  rr (fun _ _ => True) (each_level order l1 (fun L (_ : unit) => @no_function (llgs N * unit)) tt) (each_level order l2 (fun L (_ : unit) => @no_function (llgs N * unit)) tt).
Proof.
  intros X. eapply rr_weak; [apply each_level_sim with (l0 := l1); [|apply (Forall2_trans _ aO_trans _ l2); [exact X|apply Forall2_sym; [apply aO_sym|exact X]]|exact X]|auto].
  intros L1 L2 s _. cbn. reflexivity.
Qed.

Lemma bestLevel_sim w ratio q L1 L2 st : aL L1 L2 ->
  rr (fun a b => snd a = snd b /\ aL L1 (fst a) /\ aL L1 (fst b)) (bestLevel_step d w ratio q L1 st) (bestLevel_step d w ratio q L2 st).
Proof.
  intros X. unfold bestLevel_step. eapply rr_bind; [apply getBestGroup_sim, X|].
  intros [L1' [v bg]] [L2' r2] (E & Y1 & Y2). cbn [fst snd] in *. subst r2.
  destruct X as (EL & _). rewrite <- EL. destruct (nltb v (fst st)); cbn [rr fst snd]; auto.
Qed.

Lemma interStep_sim w ratio q L1 L2 st : aL L1 L2 ->
  rr (fun a b => snd a = snd b /\ aL L1 (fst a) /\ aL L1 (fst b)) (interLevel_step H d w ratio q L1 st) (interLevel_step H d w ratio q L2 st).
Proof.
  intros X. unfold interLevel_step. eapply rr_bind; [apply interLevel_sim, X|].
  intros [[L1' b1] k1] [[L2' b2] k2] (E & Y1 & Y2). cbn [fst snd] in *. injection E as <- <-. cbn [rr fst snd]. auto.
Qed.

Lemma getMembers_same len sub mm g1 g2 : ag len g1 g2 -> getMembers d len sub mm g1 = getMembers d len sub mm g2.
Proof. intros (_ & E & _). unfold getMembers. rewrite E. reflexivity. Qed.

Lemma find_group_sim l1 l2 gi : Forall2 aO l1 l2 ->
  rr (fun a b => aL (fst a) (fst b) /\ ag (ll_length (fst a)) (snd a) (snd b)) (find_group l1 gi) (find_group l2 gi).
Proof.
  intros X. unfold find_group. eapply rr_bind; [apply rr_aget, X|]. intros [L1|] [L2|] Y; cbn in Y; try contradiction; cbn [deref bind rr]; auto.
  pose proof Y as (A & B & C & E). eapply rr_bind.
  - unfold getGroup. rewrite <- (Forall2_len _ _ _ E). destruct ((gi_index gi <? 0) || _); [reflexivity|]. apply rr_aget, E.
  - intros g1 g2 G. cbn [rr fst snd]. auto.
Qed.

Lemma add_members_sim l1 l2 thr : Forall2 aO l1 l2 -> forall gis best, add_members d l1 thr gis best = add_members d l2 thr gis best.
Proof.
  intros X. induction gis as [|g gis IH]; intros best; cbn [add_members]; [reflexivity|]. apply rr_eq_inv.
  eapply rr_bind; [apply find_group_sim, X|]. intros [L1 g1] [L2 g2] [(A & B & C & E) Y]. cbn [fst snd] in *.
  rewrite <- A, <- B, <- C, (getMembers_same _ _ _ _ _ Y).
  eapply rr_bind; [apply rr_eq; reflexivity|]. intros ms ms' <-. eapply rr_bind; [apply rr_eq; reflexivity|]. intros th th' <-.
  apply rr_eq. apply IH.
Qed.

Definition aS (gs1 gs2 : ggs N) : Prop :=
  with_levels gs1 [] = with_levels gs2 [] /\ Forall2 aO (gg_levels gs1) (gg_levels gs2).

Lemma aS_fields (gs1 gs2 : ggs N) : with_levels gs1 [] = with_levels gs2 [] ->
  gg_name gs1 = gg_name gs2 /\ gg_pw gs1 = gg_pw gs2 /\ gg_warp gs1 = gg_warp gs2 /\ gg_threshold gs1 = gg_threshold gs2 /\
  gg_total gs1 = gg_total gs2 /\ gg_whole gs1 = gg_whole gs2.
Proof. destruct gs1, gs2. unfold with_levels. cbn. intros E. injection E as -> -> -> -> -> ->. splits; auto. Qed.
Lemma aS_sym g1 g2 : aS g1 g2 -> aS g2 g1.
Proof. intros [A B]. split; auto. apply Forall2_sym; auto using aO_sym. Qed.
Lemma aS_trans g1 g2 g3 : aS g1 g2 -> aS g2 g3 -> aS g1 g3.
Proof. intros [A B] [A' B']. split; [congruence|]. eapply Forall2_trans; eauto using aO_trans. Qed.
Lemma aS_levels gs l : Forall2 aO (gg_levels gs) l -> aS gs (with_levels gs l).
Proof. intros X. split; [destruct gs; reflexivity|exact X]. Qed.

Definition both {A} (R : ggs N -> ggs N -> Prop) (g0 : ggs N) (a b : ggs N * A) : Prop :=
  snd a = snd b /\ R g0 (fst a) /\ R g0 (fst b).

Lemma gg_best_sim ratio gs1 gs2 q : aS gs1 gs2 ->
  rr (both aS gs1) (gg_getBestMatch d ratio gs1 q) (gg_getBestMatch d ratio gs2 q).
Proof.
  intros X. pose proof X as [A B]. pose proof (aS_fields _ _ A) as (_ & _ & Fw & _). pose proof (aS_trans _ _ _ X (aS_sym _ _ X)) as [_ B1].
  unfold gg_getBestMatch, gg_totalLength. rewrite <- (Forall2_len _ _ _ B), <- Fw.
  destruct (ts_length q <=? 1); [reflexivity|]. eapply rr_bind; [apply rr_eq; reflexivity|]. intros order order' <-.
  destruct (gg_warp gs1) as [w|].
  - eapply rr_bind; [apply each_level_sim with (l0 := gg_levels gs1); [intros; apply bestLevel_sim; assumption|exact B1|exact B]|].
    intros [l1 [v bg]] [l2 r2] (H1 & H2 & H3). cbn [fst snd] in *. subst r2.
    eapply rr_bind; [apply rr_eq; reflexivity|]. intros [len i] c' <-.
    pose proof (midO _ _ _ H1 H2) as H12.
    eapply rr_bind; [apply rr_aget, H12|]. intros [L1|] [L2|] Y; cbn in Y; try contradiction; cbn [deref bind rr]; auto.
    destruct Y as (Y1 & Y2 & Y3 & Y4). eapply rr_bind; [apply rr_aget, Y4|]. intros g1 g2 (_ & Z1 & _).
    unfold groupBestMatch. rewrite <- Y2, <- Y3, <- Z1. eapply rr_bind; [apply rr_eq; reflexivity|]. intros c c' <-.
    cbn [rr]. split; [reflexivity|]. cbn [fst]. split; [apply aS_levels; exact H1|]. eapply aS_trans; [exact X|]. apply aS_levels.
    eapply midO; [exact B|exact H2].
  - eapply rr_bind; [apply each_level_none, B|]. intros a b _. reflexivity.
Qed.

Lemma gg_kbest_sim ratio gs1 gs2 q k : aS gs1 gs2 ->
  rr (both aS gs1) (gg_getKBestMatches H d ratio gs1 q k) (gg_getKBestMatches H d ratio gs2 q k).
Proof.
  intros X. pose proof X as [A B]. pose proof (aS_fields _ _ A) as (_ & _ & Fw & Ft & _). pose proof (aS_trans _ _ _ X (aS_sym _ _ X)) as X1. pose proof X1 as [_ B1].
  unfold gg_getKBestMatches, gg_totalLength. rewrite <- (Forall2_len _ _ _ B), <- Fw, <- Ft.
  eapply rr_bind; [apply rr_eq; reflexivity|]. intros order order' <-.
  destruct (gg_warp gs1) as [w|].
  - eapply rr_bind; [apply each_level_sim with (l0 := gg_levels gs1); [intros; apply interStep_sim; assumption|exact B1|exact B]|].
    intros [l1 [best k1]] [l2 r2] (H1 & H2 & H3). cbn [fst snd] in *. subst r2. pose proof (midO _ _ _ H1 H2) as H12.
    eapply rr_bind with (R := eq).
    + destruct best as [|g rest]; [reflexivity|]. eapply rr_bind; [apply find_group_sim, H12|].
      intros [L1 g1] [L2 g2] [(Y1 & Y2 & Y3 & Y4) (_ & Z1 & _)]. cbn [fst snd] in *. unfold intraGroupKSim. rewrite <- Y1, <- Y2, <- Y3, <- Z1.
      eapply rr_bind; [apply rr_eq; reflexivity|]. intros c c' <-. apply rr_eq, add_members_sim, H12.
    + intros r1 r2 <-. eapply rr_bind; [apply rr_eq; reflexivity|]. intros c c' <-.
      cbn [rr]. split; [reflexivity|]. cbn [fst]. split; [apply aS_levels; exact H1|]. eapply aS_trans; [exact X|]. apply aS_levels.
      eapply midO; [exact B|exact H2].
  - eapply rr_bind; [apply each_level_none, B|]. intros a b _. cbn. split; [reflexivity|]. split; assumption.
Qed.
End WithAlg.
End Data.

(** ** data sets *)
Definition alike (g1 g2 : gset N) : Prop :=
  gt_data g1 = gt_data g2 /\
  match gt_groups g1, gt_groups g2 with None, None => True | Some a, Some b => aS (gt_data g1) a b | _, _ => False end.
Definition coh (g : gset N) : Prop := alike g g.

Lemma alike_sym g1 g2 : alike g1 g2 -> alike g2 g1.
Proof. intros [A B]. split; auto. rewrite <- A. destruct (gt_groups g1), (gt_groups g2); auto. apply aS_sym, B. Qed.
Lemma alike_trans g1 g2 g3 : alike g1 g2 -> alike g2 g3 -> alike g1 g3.
Proof.
  intros [A B] [A' B']. split; [congruence|]. rewrite <- A in B'. destruct (gt_groups g1), (gt_groups g2), (gt_groups g3); try tauto.
  eapply aS_trans; eassumption.
Qed.
Lemma alike_coh g1 g2 : alike g1 g2 -> coh g1 /\ coh g2.
Proof. intros X. split; eapply alike_trans; eauto using alike_sym. Qed.

Lemma best_sim ratio g1 g2 q : alike g1 g2 ->
  rr (fun a b => snd a = snd b /\ alike g1 (fst a) /\ alike g1 (fst b)) (getBestMatch ratio g1 q) (getBestMatch ratio g2 q).
Proof.
  intros X. pose proof X as [A B]. unfold getBestMatch. rewrite <- A. destruct (gt_groups g1) as [gs1|] eqn:E1, (gt_groups g2) as [gs2|] eqn:E2; try contradiction; [|reflexivity].
  eapply rr_bind; [apply gg_best_sim, B|]. intros [a c] [b c'] (Hc & H1 & H2). cbn [fst snd] in *. subst c'. cbn [rr fst snd].
  split; [reflexivity|]. unfold alike. cbn. rewrite E1. auto.
Qed.

Lemma kbest_sim H ratio g1 g2 q k h : alike g1 g2 ->
  rr (fun a b => snd a = snd b /\ alike g1 (fst a) /\ alike g1 (fst b)) (getKBestMatches H ratio g1 q k h) (getKBestMatches H ratio g2 q k h).
Proof.
  intros X. pose proof X as [A B]. unfold getKBestMatches. rewrite <- A. destruct (gt_groups g1) as [gs1|] eqn:E1, (gt_groups g2) as [gs2|] eqn:E2; try contradiction; [|reflexivity].
  destruct (h <? k); [reflexivity|].
  eapply rr_bind; [apply gg_kbest_sim, B|]. intros [a c] [b c'] (Hc & H1 & H2). cbn [fst snd] in *. subst c'.
  eapply rr_bind; [apply rr_eq; reflexivity|]. intros c1 c2 <-. eapply rr_bind; [apply rr_eq; reflexivity|]. intros c3 c4 <-. cbn [rr fst snd].
  split; [reflexivity|]. unfold alike. cbn. rewrite E1. auto.
Qed.
End Quiet.
