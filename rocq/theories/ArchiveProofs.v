(** Saved groups are read back. *)
From Coq Require Import String Permutation.
From Verif Require Import Base Num NumLaws NumFacts LoopFacts TimeSeries Lemire Distance TSSet StdAlg Candidate Group GroupSpace
  DistSpec DistLink DataSpec DataProofs GroupSpec GroupView Members GroupProofs GroupAll GroupDist QueryState QuerySpec QueryProofs Archive.
Local Open Scope Z_scope.
Local Open Scope list_scope.

(** the representative of a group whose list of members is reversed *)
Definition rev_rep (RP : Rep) : Rep.
Proof.
  refine {| rp := fun ms => @rp RP (rev ms); rp_text := false |}.
  intros ms H. apply in_rev. apply rp_in. intros E. apply H. rewrite <- (rev_involutive ms), E. reflexivity.
Defined.

Section Enc.
Context {N : Num}.
Notation tok := (tok N).

Definition enc_coord (c : coord) : list tok := [TI (fst c); TI (snd c)].
Definition enc_members (ms : list coord) : list tok := flat_map enc_coord ms.
Definition enc_group (r : coord) (ms : list coord) : list tok :=
  TI (fst r) :: TI (snd r) :: TI (Z.of_nat (length ms)) :: enc_members ms.
Definition enc_groups {RP : Rep} (gs : list (list coord)) : list tok := flat_map (fun ms => enc_group (rp ms) ms) gs.
Definition enc_level {RP : Rep} (gs : list (list coord)) : list tok :=
  TI (Z.of_nat (length gs)) :: enc_groups gs.
End Enc.

Lemma NoDup_app_elim {A} (l l' : list A) : NoDup (l ++ l') -> NoDup l /\ NoDup l' /\ forall x, In x l -> In x l' -> False.
Proof.
  induction l as [|x l IH]; simpl; intros Hn; [split; [constructor|split; [auto|intros ? []]]|].
  inversion Hn as [|? ? Hni Hn']; subst. destruct (IH Hn') as (A1 & A2 & A3). split; [|split]; auto.
  - constructor; auto. intros Hx. apply Hni, in_or_app. auto.
  - intros y [<-|Hy] Hy'; [apply Hni, in_or_app; auto|eauto].
Qed.

Lemma rev_concat_perm {A} (gs : list (list A)) : Permutation (concat gs) (concat (map (@rev A) gs)).
Proof.
  induction gs as [|g gs IH]; simpl; auto. apply Permutation_app; auto. apply Permutation_rev.
Qed.

(** ** saving *)
Section Save.
Context {N : Num} {RP : Rep}.
Notation D := (D N).
Variable d : dataset N.
Variable rows : list (list D).

Lemma save_groups_ok len L gs : rp_text = false -> level_q d rows len L gs ->
  save_groups (ll_sub L) (ll_map L) (ll_groups L) = Ret (enc_groups gs).
Proof.
  intros Htx [A1 A2 A3 A4 A5].
  assert (G : forall i j gr gl, ll_groups L = i ++ gr -> gs = j ++ gl -> length i = length j ->
     save_groups (ll_sub L) (ll_map L) gr = Ret (enc_groups gl)).
  { intros i j gr. revert i j. induction gr as [|g gr IH]; intros i j gl E1 E2 Hij.
    - assert (gl = []).
      { pose proof (Forall2_length _ _ _ A4) as HL. rewrite E1, E2, !app_length in HL. destruct gl; auto. simpl in HL. lia. }
      subst gl. reflexivity.
    - destruct gl as [|ms gl].
      { pose proof (Forall2_length _ _ _ A4) as HL. rewrite E1, E2, !app_length in HL. simpl in HL. lia. }
      assert (Eg : nth_error (ll_groups L) (length i) = Some g) by (rewrite E1, nth_error_app2, Nat.sub_diag by lia; reflexivity).
      assert (Em : nth_error gs (length i) = Some ms) by (rewrite Hij, E2, nth_error_app2, Nat.sub_diag by lia; reflexivity).
      simpl. unfold save_group. rewrite (memberCoords_ok _ _ _ _ _ _ _ _ A3 Eg Em). cbn [bind].
      destruct (Forall2_nth _ _ _ _ _ _ A4 Eg Em) as (B1 & B2 & _). rewrite B2, Htx. cbn [bind].
      rewrite (IH (i ++ [g]) (j ++ [ms]) gl) by (rewrite ?app_length, <- ?app_assoc; simpl; auto; lia). cbn [bind].
      destruct A3 as (HF & _). destruct (Forall2_nth _ _ _ _ _ _ HF Eg Em) as [_ Hc]. rewrite Hc. reflexivity. }
  apply (G [] []); auto.
Qed.

Lemma save_level_ok len L gs : rp_text = false -> level_q d rows len L gs -> save_level L = Ret (enc_level gs).
Proof.
  intros Htx HL. unfold save_level. rewrite (save_groups_ok _ _ _ Htx HL). cbn [bind].
  rewrite (Forall2_length _ _ _ (lq_cent _ _ _ _ _ HL)). reflexivity.
Qed.
End Save.

(** ** loading *)
Section Load.
Context {N : Num}.
Notation D := (D N).
Variables (count sub : Z).

Lemma load_members_ok (rest : list (tok N)) groups gs : forall cs n i (g : group N) mm ms, n = length cs ->
  groups_are count sub mm (groups ++ [g]) (gs ++ [ms]) ->
  Forall (inb count sub) cs -> NoDup cs -> (forall c, In c cs -> ~ In c (concat (gs ++ [ms]))) ->
  exists g' mm', for_n n i (load_member sub) (g, mm, enc_members cs ++ rest)
      = Ret (g', mm', rest) /\
    groups_are count sub mm' (groups ++ [g']) (gs ++ [rev cs ++ ms]) /\
    g_cent g' = g_cent g /\ g_cache g' = g_cache g.
Proof.
  induction cs as [|c cs IH]; intros n i g mm ms -> Hare Hin Hnd Hni.
  - exists g, mm. simpl. auto.
  - inversion Hin as [|? ? Hc Hin']; subst. inversion Hnd as [|? ? Hnc Hnd']; subst.
    assert (Hlen : length groups = length gs).
    { destruct Hare as (HF & _). apply Forall2_length in HF. rewrite !app_length in HF. simpl in HF. lia. }
    assert (Eg : nth_error (groups ++ [g]) (length groups) = Some g) by (rewrite nth_error_app2, Nat.sub_diag by lia; reflexivity).
    assert (Em : nth_error (gs ++ [ms]) (length groups) = Some ms) by (rewrite Hlen, nth_error_app2, Nat.sub_diag by lia; reflexivity).
    destruct (addMember_ok count sub mm _ _ _ g ms c Hare Eg Em Hc (Hni c (or_introl eq_refl))) as (mm' & Eadd & Hare').
    rewrite upd_snoc_last, Hlen, upd_snoc_last in Hare'.
    destruct (IH (length cs) (i + 1) _ mm' (c :: ms) eq_refl Hare' Hin' Hnd') as (g' & mm'' & E & H1 & H2 & H3).
    + intros c' Hc' Hx. rewrite concat_app in Hx. simpl in Hx. rewrite app_nil_r in Hx.
      apply in_app_or in Hx as [Hx|[Hx|Hx]].
      * apply (Hni c'); simpl; auto. rewrite concat_app. apply in_or_app. auto.
      * subst c'. auto.
      * apply (Hni c'); simpl; auto. rewrite concat_app. apply in_or_app. simpl. rewrite app_nil_r. auto.
    + exists g', mm''. cbn [length for_n enc_members flat_map enc_coord app]. unfold load_member at 1. cbn [get_int bind]. rewrite Eadd. cbn [bind].
      unfold enc_members in E. rewrite E. splits; auto. simpl. rewrite <- app_assoc. exact H1.
Qed.

End Load.

Section Levels.
Context {N : Num}.
Notation D := (D N).
Variable d : dataset N.
Variable rows : list (list D).
Hypothesis Hd : holds d rows.
Variable len : Z.
Hypothesis Hlen : 1 <= len <= ds_maxcol d.
Context {RP : Rep}.

Lemma load_groups_ok (rest : list (tok N)) : forall gl n i L gs, n = length gl ->
  level_q (RP := rev_rep RP) d rows len L gs ->
  Forall (fun ms => ms <> []) gl -> Forall (is_sub rows len) (concat gl) -> NoDup (concat gl) ->
  (forall c, In c (concat gl) -> ~ In c (concat gs)) ->
  exists L', for_n n i (load_level_step d) (L, enc_groups gl ++ rest)
      = Ret (L', rest) /\ level_q (RP := rev_rep RP) d rows len L' (gs ++ map (@rev coord) gl).
Proof.
  induction gl as [|ms gl IH]; intros n i L gs -> HL Hne Hsubs Hnd Hni.
  - exists L. simpl. rewrite app_nil_r. auto.
  - inversion Hne as [|? ? Hms Hne']; subst. simpl in Hsubs, Hnd, Hni. apply Forall_app in Hsubs as [Hs1 Hs2].
    apply NoDup_app_elim in Hnd as (Hn1 & Hn2 & Hn3). pose proof HL as [B1 B2 B3 B4 B5].
    cbn [length for_n enc_groups flat_map]. unfold enc_group at 1. cbn [app]. unfold load_level_step at 1, load_group. cbn [get_int bind].
    rewrite B1, B2.
    assert (Hr : is_sub rows len (rp ms)).
    { rewrite Forall_forall in Hs1. apply Hs1, rp_in, Hms. }
    destruct (sub_ts d rows Hd len ltac:(lia) (rp ms) Hr) as (t & Et & _). 
    unfold setCentroid. rewrite Et. cbn [bind group_new g_cache g_last g_count].
    set (g0 := mkGroup (CView (fst (rp ms)) (snd (rp ms))) None (-1, -1) 0).
    assert (Hs : groups_are (ds_count d) (ds_maxcol d - len + 1) (ll_map L) (ll_groups L ++ [g0]) (gs ++ [[]])).
    { rewrite B2 in B3. apply groups_snoc; auto. }
    assert (Hinb : Forall (inb (ds_count d) (ds_maxcol d - len + 1)) ms).
    { rewrite Forall_forall in *. intros c Hc. apply (sub_inb d rows Hd len); auto; lia. }
    rewrite <- app_assoc.
    destruct (load_members_ok (ds_count d) (ds_maxcol d - len + 1) (enc_groups gl ++ rest) (ll_groups L) gs ms (length ms) 0 g0 (ll_map L) [] eq_refl) as (g' & mm' & E & H1 & H2 & H3); auto.
    { intros c Hc Hx. rewrite concat_app in Hx. simpl in Hx. rewrite app_nil_r in Hx. apply (Hni c); auto. apply in_or_app. auto. }
    unfold for_. rewrite Z.sub_0_r, Nat2Z.id. 
    change (flat_map (fun ms0 => enc_group (rp ms0) ms0) gl) with (enc_groups (N := N) gl).
    unfold coord in *. rewrite E. cbn [bind]. rewrite app_nil_r in H1.
    destruct (IH (length gl) (i + 1) (mkLL len (ds_maxcol d - len + 1) (ll_groups L ++ [g']) mm') (gs ++ [rev ms]) eq_refl) as (L' & E' & HL'); auto.
    + constructor; cbn [ll_length ll_sub ll_map ll_groups]; auto.
      * apply Forall2_app; auto. constructor; [|constructor]. unfold cent_q. rewrite H2, H3. splits.
        -- intros E0. apply Hms. rewrite <- (rev_involutive ms), E0. reflexivity.
        -- replace (@rp (rev_rep RP) (rev ms)) with (rp ms) by (unfold rp at 2, rev_rep; rewrite rev_involutive; reflexivity). reflexivity.
        -- intros t' _. exact I.
      * rewrite concat_app. simpl. rewrite app_nil_r. apply Forall_app. split; auto. apply Forall_rev. auto.
    + intros c Hc Hx. rewrite concat_app in Hx. simpl in Hx. rewrite app_nil_r in Hx. apply in_app_or in Hx as [Hx|Hx].
      * apply (Hni c); auto. apply in_or_app. auto.
      * apply in_rev in Hx. eauto.
    + exists L'. split; [exact E'|]. simpl. rewrite <- app_assoc in HL'. exact HL'.
Qed.

Lemma load_level_ok (rest : list (tok N)) gl L0 :
  ll_new d len = Ret L0 ->
  Forall (fun ms => ms <> []) gl -> Forall (is_sub rows len) (concat gl) -> NoDup (concat gl) ->
  exists L', load_level d L0 (enc_level gl ++ rest) = Ret (L', rest) /\
    level_q (RP := rev_rep RP) d rows len L' (map (@rev coord) gl).
Proof.
  intros E0 Hne Hs Hnd. unfold load_level, enc_level. cbn [app get_int bind]. unfold for_. rewrite Z.sub_0_r, Nat2Z.id.
  apply (load_groups_ok rest gl (length gl) 0 L0 []); auto.
  destruct (ll_new_ok d rows Hd len ltac:(lia)) as (L & E & HL). rewrite E0 in E. injection E as <-.
  destruct HL as [C1 C2 C3 C4 C5]. constructor; auto; [rewrite C2; exact C3|].
  inversion C4. constructor.
Qed.
End Levels.
