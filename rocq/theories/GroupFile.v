(** Files describing groups that need not have been made by the library: what is
    written in such a file, and what loading it gives. *)
From Coq Require Import String Permutation.
From Verif Require Import Base Num NumLaws NumFacts LoopFacts TimeSeries Lemire Distance TSSet StdAlg Candidate Group GroupSpace
  DistSpec DistLink DataSpec DataProofs GroupSpec GroupView Members GroupProofs GroupAll GroupDist QueryState QuerySpec QueryProofs PropsGroup
  Archive ArchiveProofs ArchiveState.
Local Open Scope Z_scope.
Local Open Scope list_scope.

Section Spec.
Context {N : Num}.
Notation D := (D N).

(** a group in a file: its representative, the number of its members, the members *)
Definition group_text (v : gview) : list (tok N) :=
  TI (fst (v_rep v)) :: TI (snd (v_rep v)) :: TI (v_count v) :: flat_map (fun c => [TI (fst c); TI (snd c)]) (v_members v).

(** the groups of one length: their number, the groups *)
Definition length_text (vs : list gview) : list (tok N) := TI (Z.of_nat (length vs)) :: flat_map group_text vs.

(** the lengths [whole] asks for *)
Definition lengths_of (d : dataset N) (whole : bool) : list Z :=
  if whole then [ds_maxcol d] else zseq 2 (Z.to_nat (ds_maxcol d - 1)).

(** a file for [d]: the dimensions of the data, the first length and the length
    after the last, the distance, the threshold, the groups [vs l] of each length [l] *)
Definition group_file (d : dataset N) (k : kind) (thr : D) (whole : bool) (vs : Z -> list gview) : list (tok N) :=
  TI (ds_count d) :: TI (ds_maxcol d) :: TI (if whole then ds_maxcol d else 2) :: TI (ds_maxcol d + 1) :: TStr (kind_name k) :: TD thr ::
  flat_map (fun l => length_text (vs l)) (lengths_of d whole).

(** [vs] are groups of the subsequences of length [l]: every one of these is in
    exactly one group and nothing else is in any; counts are right; the representative
    of a group is one of its members *)
Definition groups_of (rows : list (list D)) (l : Z) (vs : list gview) : Prop :=
  NoDup (concat (map v_members vs)) /\
  (forall c, In c (concat (map v_members vs)) <-> is_sub rows l c) /\
  forall v, In v vs -> v_count v = Z.of_nat (length (v_members v)) /\ In (v_rep v) (v_members v).

(** the same group with its members in the opposite order *)
Definition turned (v : gview) : gview := mkView (v_rep v) (v_count v) (rev (v_members v)).
End Spec.

Definition coord_dec (a b : coord) : {a = b} + {a <> b}.
Proof. decide equality; apply Z.eq_dec. Defined.

Definition pick_rep (pick : list coord -> coord) : Rep.
Proof.
  refine {| rp := fun ms => if in_dec coord_dec (pick ms) ms then pick ms else hd (0, 0) ms; rp_text := false |}.
  intros ms Hms. destruct (in_dec coord_dec (pick ms) ms) as [H|_]; auto. destruct ms as [|m ms]; [contradiction|left; reflexivity].
Defined.

Section Load.
Context {N : Num} {RP : Rep}.
Notation D := (D N).

(** as ArchiveState.load_ok, but for any groups *)
Lemma load_file_ok (d : dataset N) rows k thr whole gss old :
  1 <= ds_maxcol d -> holds d rows ->
  (forall l, 0 <= l <= ds_maxcol d -> (gss l <> None <-> grouped_length d whole l)) ->
  (forall l gl, 1 <= l <= ds_maxcol d -> gss l = Some gl ->
     Forall (fun ms => ms <> []) gl /\ Forall (is_sub rows l) (concat gl) /\ NoDup (concat gl)) ->
  (forall l gs c, 0 <= l <= ds_maxcol d -> gss l = Some gs -> is_sub rows l c -> In c (concat gs)) ->
  exists g', load (mkGS d old) (file_of d k thr whole gss) = (g', Ret tt) /\ gt_data g' = d /\
    kept (RP := rev_rep RP) d rows k thr whole false g' (rev_gss gss).
Proof.
  intros Hm Hd H3 HG H4.
  unfold load, file_of. cbn [get_int bind and_then gt_data]. rewrite !Z.eqb_refl. cbn [negb].
  set (m := if whole then ds_maxcol d else 2). set (n := Z.to_nat (ds_maxcol d + 1 - m)).
  unfold load_space. cbn [get_int get_str get_dbl bind and_then].
  unfold gg_loadDistance. rewrite (kind_pw k), (warp_of_name k). cbn [and_then].
  destruct (Z.ltb_spec (ds_maxcol d + 1) 0); [lia|].
  cbn [gg_name gg_levels gg_pw gg_warp gg_threshold gg_total gg_whole gg_new length]. rewrite firstn_nil, Nat.sub_0_r. cbn [app].
  fold n.
  set (gs1 := mkGG (kind_name k) (repeat None (Z.to_nat (ds_maxcol d + 1))) _ _ (Some thr) 0 false).
  assert (Hm1 : 1 <= m) by (unfold m; destruct whole; lia).
  destruct (load_levels_ok d rows Hd gss) with (rest := @nil (tok N)) (n := n) (i := m) (gs := gs1)
    as (levels & E & L1 & L2 & L3); auto.
  - unfold n. unfold m in *. destruct whole; lia.
  - intros l Hl. apply H3; unfold grouped_length; unfold n, m in Hl; destruct whole; lia.
  - unfold gs1. cbn [gg_levels]. rewrite repeat_length. lia.
  - rewrite app_nil_r in E. rewrite E. cbn [bind].
    eexists. split; [reflexivity|]. split; [reflexivity|].
    assert (Hnone : forall l, 0 <= l <= ds_maxcol d -> ~ m <= l < m + Z.of_nat n -> gss l = None).
    { intros l Hl Hl'. destruct (gss l) eqn:El; auto. exfalso. apply Hl'.
      assert (Hg : grouped_length d whole l) by (apply H3; [auto|congruence]).
      unfold grouped_length in Hg. unfold n, m. destruct whole; lia. }
    constructor.
    + split; [reflexivity|]. eexists. split; [reflexivity|]. cbn [gg_warp gg_threshold gg_levels gs1].
      splits; try reflexivity; [discriminate|]. split; [exact L1|]. intros l Hl. unfold rev_gss.
      destruct (gss l) as [gl|] eqn:Egl; simpl.
      * assert (Hg : grouped_length d whole l) by (apply H3; [auto|congruence]).
        split; [unfold grouped_length in Hg; destruct whole; lia|]. apply L3; auto.
        destruct (Z_le_gt_dec m l), (Z_lt_ge_dec l (m + Z.of_nat n)); try lia; exfalso; rewrite Hnone in Egl by lia; discriminate.
      * rewrite L2; [| |intros Hl']; try lia.
        -- unfold gs1. cbn [gg_levels]. apply nth_error_repeat. lia.
        -- apply (proj2 (H3 l Hl)); auto. unfold grouped_length. unfold n, m in *. destruct whole; lia.
    + eexists. split; [reflexivity|]. cbn [gg_name gg_threshold gg_total gg_whole gs1]. splits; auto.
      rewrite sum_rev. rewrite Z.add_0_l.
      destruct (Z_le_gt_dec m (ds_maxcol d + 1)) as [Hmle|Hmgt].
      * replace (Z.to_nat (ds_maxcol d + 1)) with (Z.to_nat m + n)%nat by (unfold n; lia).
        rewrite sum_app, (sum_none gss 0); [rewrite Z2Nat.id by lia; reflexivity|]. intros l Hl. apply Hnone; lia.
      * replace n with O by (unfold n; lia). rewrite (sum_none gss 0); [reflexivity|].
        intros l Hl. apply Hnone; lia.
    + intros l Hl. specialize (H3 l Hl). unfold rev_gss, grouped_length in *.
      destruct (gss l); simpl in *; [|tauto]. split; [intros _; apply H3; discriminate|discriminate].
    + intros l gl c Hl Egl Hc. unfold rev_gss in Egl. destruct (gss l) as [gl0|] eqn:Egl0; [|discriminate].
      injection Egl as <-. eapply Permutation_in; [apply rev_concat_perm|]. eapply H4; eauto.
    + reflexivity.
Qed.
End Load.

Section Described.
Context {N : Num}.
Notation D := (D N).
Variable d : dataset N.
Variable rows : list (list D).
Variable k : kind.
Variable thr : D.
Variable whole : bool.
Variable vs : Z -> list gview.
Variable pick : list coord -> coord.
Hypothesis Hd : holds d rows.
Hypothesis Hm : 1 <= ds_maxcol d.
Hypothesis Hvs : forall l, grouped_length d whole l -> groups_of rows l (vs l).
Hypothesis Hpick : forall l v, grouped_length d whole l -> In v (vs l) -> v_rep v = pick (v_members v).

Definition is_grouped_b (l : Z) : bool := if whole then l =? ds_maxcol d else (2 <=? l) && (l <=? ds_maxcol d).
Lemma is_grouped_iff l : is_grouped_b l = true <-> grouped_length d whole l.
Proof. clear Hpick Hvs. unfold is_grouped_b, grouped_length. destruct whole; lia. Qed.

Definition gss_of (l : Z) : option (list (list coord)) := if is_grouped_b l then Some (map v_members (vs l)) else None.

Lemma in_lengths l : In l (lengths_of d whole) -> grouped_length d whole l.
Proof.
  clear Hpick Hvs. unfold lengths_of, grouped_length. destruct whole; simpl; [lia|]. intros H.
  assert (G : forall n lo, In l (zseq lo n) -> lo <= l < lo + Z.of_nat n).
  { clear. induction n as [|n IH]; intros lo; simpl; [tauto|]. intros [->|H]; [lia|]. apply IH in H. lia. }
  apply G in H. lia.
Qed.

Lemma group_text_enc v : v_count v = Z.of_nat (length (v_members v)) ->
  group_text (N := N) v = enc_group (v_rep v) (v_members v).
Proof. intros E. unfold group_text, enc_group. rewrite E. reflexivity. Qed.

Lemma rep_pick l v : grouped_length d whole l -> In v (vs l) -> v_rep v = rp (Rep := pick_rep pick) (v_members v).
Proof.
  intros Hl Hv. destruct (Hvs l Hl) as (_ & _ & H). destruct (H v Hv) as [_ Hin].
  unfold rp, pick_rep. rewrite <- (Hpick l v Hl Hv). destruct (in_dec coord_dec (v_rep v) (v_members v)); [reflexivity|contradiction].
Qed.

Lemma length_text_enc l : grouped_length d whole l ->
  length_text (N := N) (vs l) = enc_level (RP := pick_rep pick) (map v_members (vs l)).
Proof.
  intros Hl. unfold length_text, enc_level. rewrite map_length. f_equal. unfold enc_groups.
  assert (G : forall v, In v (vs l) -> group_text (N := N) v = enc_group (rp (Rep := pick_rep pick) (v_members v)) (v_members v)).
  { intros v Hv. rewrite <- (rep_pick l v Hl Hv). apply group_text_enc. destruct (Hvs l Hl) as (_ & _ & H). apply H, Hv. }
  induction (vs l) as [|v vl IH]; [reflexivity|]. cbn [flat_map map]. rewrite G by (left; reflexivity). f_equal.
  apply IH. intros; apply G; right; auto.
Qed.

Lemma group_file_enc : group_file d k thr whole vs = file_of (RP := pick_rep pick) d k thr whole gss_of.
Proof.
  unfold group_file, file_of. do 6 f_equal. unfold enc_from.
  assert (E : lengths_of d whole = zseq (if whole then ds_maxcol d else 2) (Z.to_nat (ds_maxcol d + 1 - (if whole then ds_maxcol d else 2)))).
  { unfold lengths_of. destruct whole; [|f_equal; lia]. replace (Z.to_nat (ds_maxcol d + 1 - ds_maxcol d)) with 1%nat by lia. reflexivity. }
  rewrite <- E. clear E. assert (G := in_lengths). induction (lengths_of d whole) as [|l ls IH]; [reflexivity|]. cbn [flat_map].
  rewrite IH by (intros; apply G; right; auto). f_equal. assert (Hl : grouped_length d whole l) by (apply G; left; reflexivity).
  unfold enc_at, gss_of. rewrite (proj2 (is_grouped_iff l) Hl). apply length_text_enc, Hl.
Qed.

Lemma described_kept old : exists g', load (mkGS d old) (group_file d k thr whole vs) = (g', Ret tt) /\ gt_data g' = d /\
    kept (RP := rev_rep (pick_rep pick)) d rows k thr whole false g' (rev_gss gss_of).
Proof.
  rewrite group_file_enc. apply load_file_ok; auto.
  - intros l _. unfold gss_of. pose proof (is_grouped_iff l) as Hb. destruct (is_grouped_b l); split; intros; try discriminate; try (apply Hb; reflexivity);
      [contradiction|]. apply Hb in H. discriminate.
  - intros l gl _ Egl. unfold gss_of in Egl. destruct (is_grouped_b l) eqn:Eb; [|discriminate]. injection Egl as <-.
    apply is_grouped_iff in Eb. destruct (Hvs l Eb) as (V1 & V2 & V3). splits; auto.
    + apply Forall_forall. intros ms Hms. apply in_map_iff in Hms as (v & <- & Hv). destruct (V3 v Hv) as [_ Hin].
      intros E. rewrite E in Hin. contradiction.
    + apply Forall_forall. intros c Hc. apply V2, Hc.
  - intros l gl c _ Egl Hc. unfold gss_of in Egl. destruct (is_grouped_b l) eqn:Eb; [|discriminate]. injection Egl as <-.
    apply is_grouped_iff in Eb. apply (Hvs l Eb), Hc.
Qed.

Lemma described_view old g' : kept (RP := rev_rep (pick_rep pick)) d rows k thr whole false g' (rev_gss gss_of) ->
  load (mkGS d old) (group_file d k thr whole vs) = (g', Ret tt) ->
  forall l, level_view g' l = if is_grouped_b l then Some (Ret (map turned (vs l))) else None.
Proof.
  intros HK _ l. destruct HK as [HS _ Hl _ _].
  destruct (is_grouped_b l) eqn:Eb.
  - assert (Hg := proj1 (is_grouped_iff l) Eb).
    rewrite (set_view (RP := rev_rep (pick_rep pick)) d rows k g' (rev_gss gss_of) l (map (@rev coord) (map v_members (vs l)))); auto.
    + do 2 f_equal. rewrite !map_map. apply map_ext_in. intros v Hv. unfold view_rp, turned. rewrite rev_length.
      destruct (Hvs l Hg) as (_ & _ & V3). rewrite (proj1 (V3 v Hv)). f_equal.
      rewrite (rep_pick l v Hg Hv). unfold rp, rev_rep. rewrite rev_involutive. reflexivity.
    + unfold grouped_length in Hg. destruct whole; lia.
    + unfold rev_gss, gss_of. rewrite Eb. reflexivity.
  - apply (set_view_none (RP := rev_rep (pick_rep pick)) d rows k g' (rev_gss gss_of)); auto. intros _. unfold rev_gss, gss_of. rewrite Eb. reflexivity.
Qed.
End Described.
