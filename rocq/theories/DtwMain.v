(** warpedDistance: what it returns, for any well-behaved metric. *)
From Verif Require Import Base Num NumLaws NumFacts TimeSeries Distance DtwSpec DtwPaths LoopFacts
  DtwProofs Metrics.

Section Backtrack.
Context {N : Num} {L : NumLaws N}.
Notation D := (D N).

Lemma nmin3_pick (d u l : D) : nn d -> nn u -> nn l ->
  let mn := nmin d (nmin u l) in
  (neqb d mn = true /\ nle d u /\ nle d l) \/
  (neqb d mn = false /\ neqb u mn = true /\ nle u d /\ nle u l) \/
  (neqb d mn = false /\ neqb u mn = false /\ neqb l mn = true /\ nle l d /\ nle l u).
Proof.
  intros Hd Hu Hl mn.
  assert (Hmu : nle (nmin u l) u) by (apply nmin_l; auto).
  assert (Hml : nle (nmin u l) l) by (apply nmin_r; auto).
  assert (Hul : nn (nmin u l)) by (apply (nle_nn_l _ _ Hmu)).
  assert (Hmd : nle mn d) by (apply nmin_l; auto).
  assert (Hmm : nle mn (nmin u l)) by (apply nmin_r; auto).
  assert (Hmn : nn mn) by (apply (nle_nn_l _ _ Hmd)).
  assert (Hcase : mn = d \/ mn = u \/ mn = l).
  { destruct (nmin_cases d (nmin u l)) as [E|E]; [left; exact E|].
    destruct (nmin_cases u l) as [E'|E']; unfold mn; rewrite E, E'; auto. }
  assert (Heq : forall x, nn x -> nle mn x -> neqb x mn = true -> nle x mn).
  { intros x Hx H1 H2. apply neqb_true in H2; auto. apply H2. }
  destruct (neqb d mn) eqn:Ed.
  - left. pose proof (Heq d Hd Hmd Ed) as H1. splits; auto.
    + apply (nle_trans _ _ _ H1), (nle_trans _ _ _ Hmm Hmu).
    + apply (nle_trans _ _ _ H1), (nle_trans _ _ _ Hmm Hml).
  - right. destruct (neqb u mn) eqn:Eu.
    + left. pose proof (Heq u Hu (nle_trans _ _ _ Hmm Hmu) Eu) as H1. splits; auto.
      * apply (nle_trans _ _ _ H1 Hmd).
      * apply (nle_trans _ _ _ H1), (nle_trans _ _ _ Hmm Hml).
    + right. assert (El : neqb l mn = true).
      { destruct Hcase as [E|[E|E]].
        - exfalso. rewrite E in Ed. rewrite neqb_of_eqv in Ed; [discriminate|]. apply neqv_refl; auto.
        - exfalso. rewrite E in Eu. rewrite neqb_of_eqv in Eu; [discriminate|]. apply neqv_refl; auto.
        - rewrite E. apply neqb_of_eqv, neqv_refl; auto. }
      pose proof (Heq l Hl (nle_trans _ _ _ Hmm Hml) El) as H1. splits; auto.
      * apply (nle_trans _ _ _ H1 Hmd).
      * apply (nle_trans _ _ _ H1), (nle_trans _ _ _ Hmm Hmu).
Qed.

(** The choice made at a cell when tracing back: the predecessor [q] has the
    least value among the three, or the cell is on the border. *)
Definition bt_choice (nc : list (list D)) (i j ip jp : Z) : Prop :=
  wstep (ip, jp) (i, j) /\ 0 <= ip /\ 0 <= jp /\
  forall iq jq, wstep (iq, jq) (i, j) -> 0 <= iq -> 0 <= jq ->
    forall d dq, mget nc ip jp = Ret d -> mget nc iq jq = Ret dq -> nle d dq.

(** paths produced by tracing back *)
Inductive btpath (nc : list (list D)) : Z -> Z -> list (Z * Z) -> Prop :=
| bt0 : btpath nc 0 0 [(0, 0)]
| btS : forall i j ip jp p, btpath nc ip jp p -> bt_choice nc i j ip jp -> btpath nc i j (p ++ [(i, j)]).

Lemma backtrack_ok (nc : list (list D)) m n : shape m n nc ->
  (forall i j d, mget nc i j = Ret d -> nn d) ->
  forall fuel i j mt, 0 <= i < m -> 0 <= j < n -> i + j <= Z.of_nat fuel ->
  exists q, backtrack nc fuel i j mt = Ret (mt ++ q) /\ btpath nc i j (rev (q ++ [(0, 0)])).
Proof.
  intros Hs Hnn. induction fuel as [|fuel IH]; intros i j mt Hi Hj Hf.
  - assert (i = 0) by lia. assert (j = 0) by lia. subst. simpl. exists []. rewrite app_nil_r. split; auto.
    constructor.
  - cbn [backtrack]. destruct (Z.eqb_spec i 0) as [Ei|Ei]; cbn [andb].
    + subst i. destruct (Z.eqb_spec j 0) as [Ej|Ej].
      * subst j. exists []. rewrite app_nil_r. split; auto. constructor.
      * destruct (IH 0 (j - 1) (mt ++ [(0, j)])) as (q & E & Hp); [lia|lia|lia|].
        exists ((0, j) :: q). rewrite E, <- app_assoc. split; [reflexivity|].
        simpl. apply (btS _ 0 j 0 (j - 1)); auto.
        split; [right; left; simpl; f_equal; lia|]. split; [lia|]. split; [lia|].
        intros iq jq Hw Hiq Hjq d dq Ed Edq. apply wstep_cases in Hw.
        assert (Hq : iq = 0 /\ jq = j - 1) by lia. destruct Hq as [-> ->].
        rewrite Ed in Edq. injection Edq as <-. apply nle_refl; eauto.
    + destruct (Z.eqb_spec j 0) as [Ej|Ej].
      * subst j. destruct (IH (i - 1) 0 (mt ++ [(i, 0)])) as (q & E & Hp); [lia|lia|lia|].
        exists ((i, 0) :: q). rewrite E, <- app_assoc. split; [reflexivity|].
        simpl. apply (btS _ i 0 (i - 1) 0); auto.
        split; [left; simpl; f_equal; lia|]. split; [lia|]. split; [lia|].
        intros iq jq Hw Hiq Hjq d dq Ed Edq. apply wstep_cases in Hw.
        assert (Hq : iq = i - 1 /\ jq = 0) by lia. destruct Hq as [-> ->].
        rewrite Ed in Edq. injection Edq as <-. apply nle_refl; eauto.
      * destruct (mget_in m n nc (i - 1) (j - 1) Hs) as [d Ed]; [lia|lia|].
        destruct (mget_in m n nc (i - 1) j Hs) as [u Eu]; [lia|lia|].
        destruct (mget_in m n nc i (j - 1) Hs) as [l El]; [lia|lia|].
        rewrite Ed, Eu, El. cbn [bind].
        assert (Hch : forall ip jp dp, mget nc ip jp = Ret dp -> wstep (ip, jp) (i, j) ->
                  nle dp d -> nle dp u -> nle dp l -> bt_choice nc i j ip jp).
        { intros ip jp dp Ep Hw H1 H2 H3. split; [exact Hw|]. apply wstep_cases in Hw.
          split; [lia|]. split; [lia|]. intros iq jq Hwq Hiq Hjq d0 dq E0 Eq.
          rewrite Ep in E0. injection E0 as <-. apply wstep_cases in Hwq.
          destruct (Z.eq_dec iq i) as [Hqi|Hqi].
          - assert (jq = j - 1) by lia. subst. rewrite El in Eq. injection Eq as <-. auto.
          - assert (iq = i - 1) by lia. subst. destruct (Z.eq_dec jq j) as [Hqj|Hqj].
            + subst. rewrite Eu in Eq. injection Eq as <-. auto.
            + assert (jq = j - 1) by lia. subst. rewrite Ed in Eq. injection Eq as <-. auto. }
        destruct (nmin3_pick d u l (Hnn _ _ _ Ed) (Hnn _ _ _ Eu) (Hnn _ _ _ El))
          as [(E1 & H1 & H2)|[(E1 & E2 & H1 & H2)|(E1 & E2 & E3 & H1 & H2)]].
        -- rewrite E1. destruct (IH (i - 1) (j - 1) (mt ++ [(i, j)])) as (q & E & Hp); [lia|lia|lia|].
           exists ((i, j) :: q). rewrite E, <- app_assoc. split; [reflexivity|].
           simpl. apply (btS _ i j (i - 1) (j - 1)); auto.
           apply (Hch _ _ d); auto; [right; right; simpl; f_equal; lia|]. apply nle_refl; eauto.
        -- rewrite E1, E2. destruct (IH (i - 1) j (mt ++ [(i, j)])) as (q & E & Hp); [lia|lia|lia|].
           exists ((i, j) :: q). rewrite E, <- app_assoc. split; [reflexivity|].
           simpl. apply (btS _ i j (i - 1) j); auto.
           apply (Hch _ _ u); auto; [left; simpl; f_equal; lia|]. apply nle_refl; eauto.
        -- rewrite E1, E2, E3. destruct (IH i (j - 1) (mt ++ [(i, j)])) as (q & E & Hp); [lia|lia|lia|].
           exists ((i, j) :: q). rewrite E, <- app_assoc. split; [reflexivity|].
           simpl. apply (btS _ i j i (j - 1)); auto.
           apply (Hch _ _ l); auto; [right; left; simpl; f_equal; lia|]. apply nle_refl; eauto.
Qed.

Lemma btpath_bpath nc i j p : btpath nc i j p -> forall r, i <= r -> j <= r -> bpath r i j p.
Proof.
  induction 1 as [|i j ip jp p Hp IH (Hw & Hi & Hj & _)]; intros r Hr1 Hr2; [constructor|].
  pose proof (wstep_cases _ _ _ _ Hw) as Hc.
  apply (bpS r ip jp); auto; [apply IH; lia|lia].
Qed.

Lemma btpath_path nc i j p : btpath nc i j p -> warping_path (i + 1) (j + 1) p.
Proof.
  intros H. assert (H' := btpath_bpath nc i j p H (Z.max i j) ltac:(lia) ltac:(lia)).
  apply bpath_path in H'; [apply H'|]. apply bpath_nonneg in H'. lia.
Qed.

End Backtrack.

(** No in-band alignment of prefixes overflows to infinity.  Automatic in
    exact arithmetic; in IEEE arithmetic it follows from a bound on the
    magnitude of the points (DtwBounds.v). *)
Definition no_overflow {N : Num} (M : Metric N) (a b : TS N) (r : Z) : Prop :=
  forall i j p, 1 <= i <= ts_length a -> 1 <= j <= ts_length b ->
    warping_path i j p -> in_band r p -> nlt (path_cost M a b p) ninf.

Section Main.
Context {N : Num} {L : NumLaws N}.
Variable M : Metric N.
Variable ng : Nice M.
Variables a b : TS N.
Variable r : Z.
Notation m := (ts_length a).
Notation n := (ts_length b).
Hypothesis Ha : ts_ok a.
Hypothesis Hb : ts_ok b.
Hypothesis Hm : 2 <= m <= 2 ^ 30.
Hypothesis Hn : 2 <= n <= 2 ^ 30.
Hypothesis Hr : 0 <= r.
Hypothesis Fa : Forall nfin (ts_points a).
Hypothesis Fb : Forall nfin (ts_points b).
Hypothesis Hfin : no_overflow M a b r.

Definition Phi1 (i j : Z) (v : acc M) : Prop :=
  inb a b r i j /\ exists p, bpath r i j p /\ v = path_acc M a b p.

Lemma Phi1_0 : Phi1 0 0 (m_reduce M (m_init M) (pt a 0) (pt b 0)).
Proof. split; [unfold inb; lia|]. exists [(0, 0)]. split; [constructor|reflexivity]. Qed.

Lemma Phi1_S : forall i j ip jp v', inb a b r i j -> wstep (ip, jp) (i, j) -> Phi1 ip jp v' ->
  Phi1 i j (m_reduce M v' (pt a i) (pt b j)).
Proof.
  intros i j ip jp v' Hij Hw (Hi & p & Hp & ->). split; [exact Hij|].
  exists (p ++ [(i, j)]). split; [|rewrite path_acc_snoc; reflexivity].
  apply (bpS r ip jp); auto. apply Hij.
Qed.

Lemma Phi1_fin : forall i j v, Phi1 i j v -> nlt (nrm M a b v) ninf.
Proof.
  intros i j v (Hi & p & Hp & ->). apply bpath_path in Hp; auto.
  apply (Hfin (i + 1) (j + 1)); [unfold inb in Hi; lia|unfold inb in Hi; lia|apply Hp|apply Hp].
Qed.

Section Generic.
Variable Psi : Z -> Z -> acc M -> Prop.
Hypothesis Psi0 : Psi 0 0 (m_reduce M (m_init M) (pt a 0) (pt b 0)).
Hypothesis PsiS : forall i j ip jp v',
  inb a b r i j -> wstep (ip, jp) (i, j) -> inb a b r ip jp -> ng_ok ng v' -> Phi1 ip jp v' -> Psi ip jp v' ->
  (forall iq jq, wstep (iq, jq) (i, j) -> inb a b r iq jq ->
     exists vq, ng_ok ng vq /\ Phi1 iq jq vq /\ Psi iq jq vq /\ nle (nrm M a b v') (nrm M a b vq)) ->
  Psi i j (m_reduce M v' (pt a i) (pt b j)).

Definition PP (i j : Z) (v : acc M) : Prop := Phi1 i j v /\ Psi i j v.

(** everything about a run of warpedDistance except which matching it returns *)
Lemma warped_gen : forall ratio, band ratio (Z.max m n) = Ret r ->
  exists cF dF, INV M ng a b r PP (fun _ _ => True) cF /\
    ((Z.abs (m - n) <= r /\ exists v, ng_ok ng v /\ PP (m - 1) (n - 1) v /\ dF = nrm M a b v) \/
     (r < Z.abs (m - n) /\ dF = ninf)) /\
    forall dropout mt, nn dropout ->
      exists d p nc, warpedDistance M a b ratio dropout mt = Ret (d, p ++ rev mt) /\
        btpath nc (m - 1) (n - 1) p /\
        ((d = dF /\ nc = snd cF) \/ (d = ninf /\ nlt dropout dF)).
Proof.
  intros ratio Hband.
  destruct (fill_ok M ng a b r Ha Hb ltac:(lia) ltac:(lia) Hr Fa Fb PP) as (cF & HI & Hrun).
  { split; [apply Phi1_0|apply Psi0]. }
  { intros i j ip jp v' Hij Hw Hp Hok [H1 H2] Hmin. split; [apply (Phi1_S i j ip jp); auto|].
    apply (PsiS i j ip jp); auto. intros iq jq Hwq Hq. destruct (Hmin iq jq Hwq Hq) as (vq & H3 & [H4 H5] & H6).
    exists vq; auto. }
  { intros i j v [H _]. apply (Phi1_fin i j v H). }
  { lia. }
  { lia. }
  pose proof HI as HI'. destruct HI' as (HSt & Hcells & Hout).
  assert (Hlast : inb a b r (m - 1) (n - 1) <-> Z.abs (m - n) <= r) by (unfold inb; lia).
  assert (HdF : exists dF, mget (snd cF) (m - 1) (n - 1) = Ret dF /\
     ((Z.abs (m - n) <= r /\ exists v, ng_ok ng v /\ PP (m - 1) (n - 1) v /\ dF = nrm M a b v) \/
     (r < Z.abs (m - n) /\ dF = ninf))).
  { destruct (Z_le_gt_dec (Z.abs (m - n)) r) as [Hb1|Hb1].
    - destruct (Hcells (m - 1) (n - 1)) as (v & Hok & Hw & HP & _); [apply Hlast; lia|exact I|].
      exists (nrm M a b v). split; [apply Hw|]. left. split; [lia|]. exists v; auto.
    - exists ninf. split; [apply Hout; try lia; rewrite Hlast; lia|]. right. split; [lia|auto]. }
  destruct HdF as (dF & EdF & HdF).
  exists cF, dF. split; [exact HI|]. split; [exact HdF|].
  intros dropout mt Hdn. unfold warpedDistance. rewrite Hband. cbn [bind].
  replace ((m =? 1) && (n =? 1)) with false by (destruct (Z.eqb_spec m 1); simpl; auto; lia).
  assert (Hbt : forall c, St M a b c -> exists p,
     (mt' <- backtrack (snd c) (Z.to_nat (m + n)) (m - 1) (n - 1) mt ;; Ret (rev (mt' ++ [(0, 0)])))
       = Ret (p ++ rev mt) /\ btpath (snd c) (m - 1) (n - 1) p).
  { intros c (_ & Hs & Hnn).
    destruct (backtrack_ok (snd c) m n Hs Hnn (Z.to_nat (m + n)) (m - 1) (n - 1) mt) as (q & Eq & Hq); [lia|lia|lia|].
    exists (rev (q ++ [(0, 0)])). rewrite Eq. cbn [bind]. rewrite <- app_assoc, rev_app_distr. auto. }
  destruct (Hrun dropout Hdn) as [(d & E & Hd)|(c' & E & HS' & Hlt & Hdrop)]; rewrite E; cbn [bind].
  - destruct (Hbt cF HSt) as (p & Ep & Hp). apply bind_Ret in Ep as (mt' & Ep & Er). rewrite Ep. cbn [bind].
    exists d, p, (snd cF). injection Er as ->. splits; auto. left. split; auto.
    destruct Hd as [(Hi & v & Hok & HP & Hw & ->)|(Hni & ->)].
    + destruct Hw as [_ Hw]. rewrite EdF in Hw. injection Hw as ->. reflexivity.
    + rewrite Hlast in Hni. destruct HdF as [(H1 & _)|(_ & H1)]; [lia|auto].
  - destruct (Hbt c' HS') as (p & Ep & Hp). apply bind_Ret in Ep as (mt' & Ep & Er). rewrite Ep. cbn [bind].
    exists ninf, p, (snd c'). injection Er as ->. splits; auto. right. split; auto.
    destruct HdF as [(H1 & _)|(_ & H1)].
    + apply Hdrop; [apply Hlast; exact H1|exact EdF].
    + rewrite H1. exact Hlt.
Qed.
End Generic.
End Main.
