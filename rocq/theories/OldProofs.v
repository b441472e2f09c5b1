(** Groups saved in the text format are read back. *)
From Coq Require Import String Ascii Permutation DecimalString DecimalZ DecimalPos.
From Verif Require Import Base Num NumLaws NumFacts LoopFacts TimeSeries Lemire Distance TSSet StdAlg Candidate Group GroupSpace Loader
  LoaderSpec LoaderProofs DtwPaths DtwExt
  DistSpec DistLink DataSpec DataProofs GroupSpec GroupView Members GroupProofs GroupAll GroupDist QueryState QuerySpec QueryProofs
  Archive ArchiveProofs ArchiveState OldFormat OldSpec.
Local Open Scope string_scope.
Local Open Scope Z_scope.

(** ** words *)
Notation words := (tokenize spaces).

Definition text_words (s : string) (ws : list string) : Prop := forall rest, words (s ++ rest) = (ws ++ words rest)%list.

Lemma tw_nil : text_words "" [].
Proof. intros rest. reflexivity. Qed.

Lemma tw_app s t ws vs : text_words s ws -> text_words t vs -> text_words (s ++ t) (ws ++ vs).
Proof. intros H1 H2 rest. rewrite app_assoc_s, H1, H2, app_assoc. reflexivity. Qed.

Lemma tw_space c : sep_char spaces c -> text_words (String c "") [].
Proof.
  intros Hc rest. unfold tokenize. change (c_str spaces) with spaces.
  rewrite (tokens_skip spaces (String c "") rest); [reflexivity|]. split; [exact Hc|exact I].
Qed.

Lemma tw_word w c : is_word w -> sep_char spaces c -> text_words (w ++ String c "") [w].
Proof.
  intros [Hne Hw] Hc rest. rewrite app_assoc_s. unfold tokenize. change (c_str spaces) with spaces.
  rewrite (tokens_word spaces w) by exact Hw. cbn [append tokens_from]. unfold sep_char in Hc.
  destruct (tokens_from spaces rest) as [u us]. rewrite Hc, app_nil_s. destruct w; [contradiction|reflexivity].
Qed.

Lemma tw_concat {A} (f : A -> string) (h : A -> list string) l :
  (forall x, In x l -> text_words (f x) (h x)) -> text_words (String.concat "" (map f l)) (flat_map h l).
Proof.
  induction l as [|x l IH]; intros H; [exact tw_nil|].
  replace (String.concat "" (map f (x :: l))) with (f x ++ String.concat "" (map f l)).
  - cbn [flat_map]. apply tw_app; [apply H; left; reflexivity|apply IH; intros y Hy; apply H; right; exact Hy].
  - destruct l; simpl; [rewrite app_nil_s; reflexivity|reflexivity].
Qed.

(** ** integers *)
Definition digit_char (c : ascii) : Prop := ~ sep_char spaces c /\ c <> "+"%char.

Lemma digits_uint u : every digit_char (NilEmpty.string_of_uint u).
Proof. induction u; simpl; try exact I; split; auto; split; vm_compute; congruence. Qed.

Lemma every_imp (P Q : ascii -> Prop) s : (forall c, P c -> Q c) -> every P s -> every Q s.
Proof. intros HPQ. induction s; simpl; [auto|intros [H1 H2]; auto]. Qed.

Lemma to_int_ok z : Z.to_int z <> Decimal.Pos Decimal.Nil /\ Z.to_int z <> Decimal.Neg Decimal.Nil.
Proof.
  destruct z as [|p|p]; simpl; split; try discriminate; intros E; injection E as E;
    eapply Unsigned.to_uint_nonnil; eauto.
Qed.

Lemma put_int_digits z : put_int z <> "" /\ every digit_char (put_int z).
Proof.
  assert (G : forall u, NilZero.string_of_uint u <> "" /\ every digit_char (NilZero.string_of_uint u)).
  { intros u. destruct u; try (split; [discriminate|apply (digits_uint (_ u))]).
    split; [discriminate|]. split; [split; vm_compute; congruence|exact I]. }
  unfold put_int, NilZero.string_of_int. destruct (Z.to_int z) as [u|u].
  - apply G.
  - split; [discriminate|]. split; [split; vm_compute; congruence|apply G].
Qed.

Lemma put_int_word z : is_word (put_int z).
Proof. destruct (put_int_digits z) as [H1 H2]. split; auto. eapply every_imp; [|exact H2]. intros c [H _]. exact H. Qed.

Lemma conv_put z : int_min <= z <= int_max -> conv_int (put_int z) = (Some z, true).
Proof.
  intros Hz. unfold conv_int. replace (drop_plus (put_int z)) with (put_int z).
  - destruct (to_int_ok z) as [H1 H2]. unfold put_int at 1. rewrite (NilZero.isi _ H1 H2), of_to.
    destruct (Z.ltb_spec z int_min); [lia|]. destruct (Z.ltb_spec int_max z); [lia|]. reflexivity.
  - destruct (put_int_digits z) as [_ H]. destruct (put_int z) as [|c s]; [reflexivity|]. destruct H as [[_ Hc] _].
    unfold drop_plus. destruct c as [[] [] [] [] [] [] [] []]; try reflexivity. contradiction Hc. reflexivity.
Qed.

Lemma read_put old z ws : int_min <= z <= int_max -> read_int old (mkIn (put_int z :: ws) true) = (Some z, mkIn ws true).
Proof. intros Hz. unfold read_int, extract. cbn [in_ok in_words]. rewrite (conv_put z Hz). reflexivity. Qed.

Section Text.
Context {N : Num}.
Notation D := (D N).
Variable put put16 : D -> string.
Variable scan : string -> option D.
Variable rows : list (list D).
Hypothesis Hput : printed_exactly put16 scan rows.

Definition w_coord (c : coord) : list string := [put_int (fst c); put_int (snd c)].
Definition w_group {RP : Rep} (len : Z) (ms : list coord) : list string :=
  (map put16 (sub_values rows len (rp ms)) ++ put_int (Z.of_nat (length ms)) :: flat_map w_coord ms)%list.
Definition w_level {RP : Rep} (len : Z) (gs : list (list coord)) : list string :=
  put_int (Z.of_nat (length gs)) :: flat_map (w_group len) gs.
Definition w_at {RP : Rep} (gss : Z -> option (list (list coord))) (l : Z) : list string :=
  match gss l with Some gs => w_level l gs | None => [] end.
Definition w_from {RP : Rep} gss (lo : Z) (n : nat) : list string := flat_map (w_at gss) (zseq lo n).

Lemma sp_space : sep_char spaces " ". Proof. reflexivity. Qed.
Lemma sp_nl : sep_char spaces newline. Proof. reflexivity. Qed.

Lemma sub_values_In len c v : In v (sub_values rows len c) -> exists row, In row rows /\ In v row.
Proof.
  unfold sub_values. destruct (row_of rows (fst c)) as [row|] eqn:Er; [|intros []]. intros Hv. exists row. split.
  - unfold row_of in Er. destruct (_ <? _); [discriminate|]. eapply nth_error_In; eauto.
  - unfold slice in Hv. rewrite <- (firstn_skipn (Z.to_nat (snd c)) row). apply in_or_app. right.
    rewrite <- (firstn_skipn (Z.to_nat (snd c + len - snd c)) (skipn (Z.to_nat (snd c)) row)). apply in_or_app. left. exact Hv.
Qed.

Lemma sub_values_printed len c v : In v (sub_values rows len c) -> is_word (put16 v) /\ scan (put16 v) = Some v.
Proof. intros Hv. destruct (sub_values_In len c v Hv) as (row & H1 & H2). exact (Hput row v H1 H2). Qed.

(** ** saving *)
Lemma print_data_ok (t : TS N) : ts_ok t -> (forall v, In v (ts_points t) -> is_word (put16 v)) ->
  exists s, print_data put16 t = Ret s /\ text_words s (map put16 (ts_points t)).
Proof.
  intros Ht Hw. unfold print_data. pose proof (ts_points_length t Ht) as Hl.
  destruct (for_inv (fun i s => text_words s (map put16 (firstn (Z.to_nat i) (ts_points t))))
     (fun i out => v <- ts_get t i ;; Ret (out ++ put16 v ++ " ")) 0 (ts_length t) "") as (s & E & H).
  - lia.
  - exact tw_nil.
  - intros i s Hi Hs. rewrite (ts_get_points t i Ht). destruct (Z.ltb_spec i 0); [lia|].
    destruct (Z.leb_spec (ts_length t) i); [lia|]. cbn [orb]. unfold aget. destruct (Z.leb_spec 0 i); [|lia].
    destruct (nth_error (ts_points t) (Z.to_nat i)) as [v|] eqn:Ev; [|apply nth_error_None in Ev; lia].
    cbn [bind]. eexists. split; [reflexivity|]. replace (Z.to_nat (i + 1)) with (S (Z.to_nat i)) by lia.
    rewrite (firstn_snoc _ _ _ Ev), map_app. apply tw_app; [exact Hs|]. apply tw_word; [|reflexivity].
    apply Hw. eapply nth_error_In; eauto.
  - exists s. split; [exact E|]. rewrite firstn_all2 in H by lia. exact H.
Qed.

Lemma print_coord_ok c : text_words (print_coord c) (w_coord c).
Proof.
  unfold print_coord. replace (put_int (fst c) ++ " " ++ put_int (snd c) ++ " ") with ((put_int (fst c) ++ " ") ++ (put_int (snd c) ++ " ")) by (rewrite app_assoc_s; reflexivity).
  change (w_coord c) with ([put_int (fst c)] ++ [put_int (snd c)])%list. apply tw_app; apply tw_word; auto using put_int_word, sp_space.
Qed.

Variable d : dataset N.
Hypothesis Hd : holds d rows.

Lemma save_groups_old_ok {RP : Rep} len L gs : rp_text = false -> 1 <= len <= ds_maxcol d -> level_q d rows len L gs ->
  exists s, save_groups_old put16 d len (ll_sub L) (ll_map L) (ll_groups L) = Ret s /\ text_words s (flat_map (w_group len) gs).
Proof.
  intros Htx Hlen [A1 A2 A3 A4 A5].
  assert (G : forall i j gr gl, ll_groups L = (i ++ gr)%list -> gs = (j ++ gl)%list -> length i = length j ->
     exists s, save_groups_old put16 d len (ll_sub L) (ll_map L) gr = Ret s /\ text_words s (flat_map (w_group len) gl)).
  { intros i j gr. revert i j. induction gr as [|g gr IH]; intros i j gl E1 E2 Hij.
    - assert (gl = []).
      { pose proof (Forall2_length _ _ _ A4) as HL. rewrite E1, E2, !app_length in HL. destruct gl; auto. simpl in HL. lia. }
      subst gl. exists "". split; [reflexivity|exact tw_nil].
    - destruct gl as [|ms gl].
      { pose proof (Forall2_length _ _ _ A4) as HL. rewrite E1, E2, !app_length in HL. simpl in HL. lia. }
      assert (Eg : nth_error (ll_groups L) (length i) = Some g) by (rewrite E1, nth_error_app2, Nat.sub_diag by lia; reflexivity).
      assert (Em : nth_error gs (length i) = Some ms) by (rewrite Hij, E2, nth_error_app2, Nat.sub_diag by lia; reflexivity).
      destruct (IH (i ++ [g])%list (j ++ [ms])%list gl) as (s & Es & Hs); try (rewrite ?app_length, <- ?app_assoc; simpl; auto; lia).
      destruct (Forall2_nth _ _ _ _ _ _ A4 Eg Em) as (B1 & B2 & _).
      assert (Hr : is_sub rows len (rp ms)).
      { rewrite Forall_forall in A5. apply A5. apply in_concat. exists ms. split; [eapply nth_error_In; eauto|apply rp_in; auto]. }
      destruct (sub_ts d rows Hd len ltac:(lia) (rp ms) Hr) as (t & Et & Ep & Hok & _).
      destruct (print_data_ok t Hok) as (sv & Esv & Hsv).
      { intros v Hv. rewrite Ep in Hv. apply (sub_values_printed _ _ _ Hv). }
      cbn [save_groups_old]. unfold save_group_old. rewrite (memberCoords_ok _ _ _ _ _ _ _ _ A3 Eg Em), B2, Htx.
      rewrite (cent_view d rows Hd len ltac:(lia) (rp ms) t Hr Et). cbn [bind]. rewrite Esv. cbn [bind]. rewrite Es. cbn [bind].
      eexists. split; [reflexivity|]. cbn [flat_map]. apply tw_app; [|exact Hs]. unfold w_group.
      destruct A3 as (HF & _). destruct (Forall2_nth _ _ _ _ _ _ HF Eg Em) as [_ Hc]. rewrite Hc. rewrite <- Ep.
      apply tw_app; [exact Hsv|]. change (put_int (Z.of_nat (length ms)) :: flat_map w_coord ms)%list with
        ([] ++ [put_int (Z.of_nat (length ms))] ++ flat_map w_coord ms)%list.
      apply tw_app; [apply tw_space, sp_nl|]. rewrite <- app_assoc_s.
      apply tw_app; [apply tw_word; [apply put_int_word|reflexivity]|].
      rewrite <- (app_nil_r (flat_map w_coord ms)). apply tw_app; [|apply tw_space, sp_nl].
      apply tw_concat. intros c _. apply print_coord_ok. }
  apply (G [] []); auto.
Qed.

Lemma save_level_old_ok {RP : Rep} len L gs : rp_text = false -> 1 <= len <= ds_maxcol d -> level_q d rows len L gs ->
  exists s, save_level_old put16 d false L = Ret s /\ text_words s (w_level len gs).
Proof.
  intros Htx Hlen HL. destruct (save_groups_old_ok len L gs Htx Hlen HL) as (s & E & H).
  unfold save_level_old. rewrite (lq_len _ _ _ _ _ HL), E. cbn [bind]. eexists. split; [reflexivity|].
  rewrite (Forall2_length _ _ _ (lq_cent _ _ _ _ _ HL)). unfold w_level.
  rewrite <- app_assoc_s. apply (tw_app _ _ [_] _); [apply tw_word; [apply put_int_word|exact sp_nl]|exact H].
Qed.

Lemma save_space_old_ok {RP : Rep} gs gss m : rp_text = false -> levels_q d rows (gg_levels gs) gss ->
  1 <= m -> gg_minLength gs = m -> is_word (gg_name gs) ->
  exists s, save_space_old put16 d false gs = Ret s /\
    text_words s ([put_int m; put_int (ds_maxcol d + 1); gg_name gs] ++ w_from gss m (Z.to_nat (ds_maxcol d + 1 - m))).
Proof.
  intros Htx [Hlen HL] Hm Em Hname. unfold save_space_old. rewrite Em, Hlen.
  assert (Eu : unsigned m = m) by (unfold unsigned; destruct (Z.ltb_spec m 0); lia). rewrite Eu. rewrite for_fold.
  set (n := Z.to_nat (ds_maxcol d + 1 - m)).
  assert (G : forall n lo acc ws, m <= lo -> Z.of_nat n <= Z.max 0 (ds_maxcol d + 1 - lo) -> text_words acc ws ->
    exists s, fold_res (fun i out => o <- aget (gg_levels gs) i ;;
            match o with None => Ret out | Some L => t <- save_level_old put16 d false L ;; Ret (out ++ t) end) (zseq lo n) acc = Ret s /\
      text_words s (ws ++ w_from gss lo n)).
  { clear n. induction n as [|n IH]; intros lo acc ws H1 H2 Hacc.
    - exists acc. split; [reflexivity|]. cbn. rewrite app_nil_r. exact Hacc.
    - cbn [zseq fold_res]. specialize (HL lo ltac:(lia)).
      unfold w_from. cbn [zseq flat_map]. fold (w_from gss (lo + 1) n). unfold w_at.
      unfold aget. destruct (Z.leb_spec 0 lo); [|lia]. destruct (gss lo) as [gl|].
      + destruct HL as (_ & L & EL & HLq). rewrite EL. cbn [bind].
        destruct (save_level_old_ok lo L gl Htx ltac:(lia) HLq) as (t & Et & Ht). rewrite Et. cbn [bind].
        rewrite app_assoc. apply IH; try lia. apply tw_app; auto.
      + rewrite HL. cbn [bind app]. apply IH; auto; lia. }
  destruct (G n m "" [] ltac:(lia) ltac:(unfold n; lia) tw_nil) as (s & E & H). fold n in E. rewrite E. cbn [bind].
  eexists. split; [reflexivity|].
  change ([put_int m; put_int (ds_maxcol d + 1); gg_name gs] ++ w_from gss m n)%list
    with ([put_int m] ++ [put_int (ds_maxcol d + 1)] ++ [gg_name gs] ++ w_from gss m n)%list.
  rewrite <- app_assoc_s. apply tw_app; [apply tw_word; [apply put_int_word|exact sp_space]|].
  rewrite <- app_assoc_s. apply tw_app; [apply tw_word; [apply put_int_word|exact sp_nl]|].
  rewrite <- app_assoc_s. apply tw_app; [apply tw_word; [exact Hname|exact sp_nl]|]. exact H.
Qed.

Definition words_of {RP : Rep} (k : kind) (thr : D) (whole : bool) (gss : Z -> option (list (list coord))) : list string :=
  let m := if whole then ds_maxcol d else 2 in
  ([put_int 1; put thr; put_int (ds_count d); put_int (ds_maxcol d); put_int m; put_int (ds_maxcol d + 1); kind_name k] ++
   w_from gss m (Z.to_nat (ds_maxcol d + 1 - m)))%list.

Lemma save_old_ok {RP : Rep} k thr whole g gss : 1 <= ds_maxcol d -> kept d rows k thr whole whole g gss -> is_word (put thr) ->
  exists text, saveGroupsOld put put16 true false g = Ret text /\ words text = words_of k thr whole gss.
Proof.
  intros Hm [(Ed & gs0 & Eg0 & _ & _ & HL) (gs & Eg & E1 & E2 & E3 & E4) H3 H4 Htx] Hw.
  rewrite Eg in Eg0. injection Eg0 as <-. unfold saveGroupsOld. rewrite Eg, Ed, E2. cbn [init_get bind].
  destruct (save_space_old_ok gs gss (if whole then ds_maxcol d else 2)) as (s & E & H); auto.
  - destruct whole; lia.
  - apply grouped_min; auto. apply HL.
  - rewrite E1. destruct k; (split; [discriminate|]); repeat (split; [vm_compute; discriminate|]); exact I.
  - rewrite E. cbn [bind]. eexists. split; [reflexivity|].
    set (text := put_int 1 ++ _).
    assert (T : text_words text (words_of k thr whole gss)).
    { unfold text, words_of. cbv zeta. cbn [app]. rewrite E1 in H. cbn [app] in H.
      match goal with |- text_words _ (?a :: ?b :: ?c :: ?e :: ?l)%list => change (a :: b :: c :: e :: l)%list with ([a] ++ [b] ++ [c] ++ [e] ++ l)%list end.
      rewrite <- app_assoc_s. apply tw_app; [apply tw_word; [apply put_int_word|exact sp_space]|].
      rewrite <- app_assoc_s. apply tw_app; [apply tw_word; [exact Hw|exact sp_space]|].
      rewrite <- app_assoc_s. apply tw_app; [apply tw_word; [apply put_int_word|exact sp_space]|].
      rewrite <- app_assoc_s. apply tw_app; [apply tw_word; [apply put_int_word|exact sp_nl]|]. exact H. }
    specialize (T ""). rewrite app_nil_s in T. rewrite T. apply app_nil_r.
Qed.

(** ** loading *)
Local Open Scope list_scope.

Lemma holds_count : 0 <= ds_count d.
Proof. destruct Hd as (buf & _ & E & _). lia. Qed.

Hypothesis Hmax : ds_maxcol d < int_max.
Hypothesis Hprod : ds_count d * ds_maxcol d <= int_max.

Lemma read_values_ok vs ws : (forall v, In v vs -> scan (put16 v) = Some v) ->
  read_values scan (length vs) (mkIn (map put16 vs ++ ws) true) = (vs, mkIn ws true).
Proof.
  induction vs as [|v vs IH]; intros H; [reflexivity|].
  cbn [length read_values map app]. unfold read_dbl at 1, extract. cbn [in_ok in_words]. rewrite H by (left; reflexivity).
  rewrite IH; [reflexivity|]. intros x Hx. apply H. right. exact Hx.
Qed.

Lemma load_members_old_ok count sub (rest : list string) groups gs : 0 <= count <= int_max -> sub <= int_max ->
  forall cs n i (g : group N) mm ms oi os, n = length cs ->
  groups_are count sub mm (groups ++ [g]) (gs ++ [ms]) ->
  Forall (inb count sub) cs -> NoDup cs -> (forall c, In c cs -> ~ In c (concat (gs ++ [ms]))) ->
  exists g' mm' oi' os', for_n n i (load_member_old sub) (g, mm, oi, os, mkIn (flat_map w_coord cs ++ rest) true)
      = Ret (g', mm', oi', os', mkIn rest true) /\
    groups_are count sub mm' (groups ++ [g']) (gs ++ [rev cs ++ ms]) /\
    g_cent g' = g_cent g /\ g_cache g' = g_cache g.
Proof.
  intros Hcount Hsub. induction cs as [|c cs IH]; intros n i g mm ms oi os -> Hare Hin Hnd Hni.
  - exists g, mm, oi, os. simpl. auto.
  - inversion Hin as [|? ? Hc Hin']; subst. inversion Hnd as [|? ? Hnc Hnd']; subst.
    assert (Hlen : length groups = length gs).
    { destruct Hare as (HF & _). apply Forall2_length in HF. rewrite !app_length in HF. simpl in HF. lia. }
    assert (Eg : nth_error (groups ++ [g]) (length groups) = Some g) by (rewrite nth_error_app2, Nat.sub_diag by lia; reflexivity).
    assert (Em : nth_error (gs ++ [ms]) (length groups) = Some ms) by (rewrite Hlen, nth_error_app2, Nat.sub_diag by lia; reflexivity).
    destruct (addMember_ok count sub mm _ _ _ g ms c Hare Eg Em Hc (Hni c (or_introl eq_refl))) as (mm' & Eadd & Hare').
    rewrite upd_snoc_last, Hlen, upd_snoc_last in Hare'.
    destruct (IH (length cs) (i + 1) _ mm' (c :: ms) (Some (fst c)) (Some (snd c)) eq_refl Hare' Hin' Hnd') as (g' & mm'' & oi' & os' & E & H1 & H2 & H3).
    + intros c' Hc' Hx. rewrite concat_app in Hx. simpl in Hx. rewrite app_nil_r in Hx.
      apply in_app_or in Hx as [Hx|[Hx|Hx]].
      * apply (Hni c'); simpl; auto. rewrite concat_app. apply in_or_app. auto.
      * subst c'. auto.
      * apply (Hni c'); simpl; auto. rewrite concat_app. apply in_or_app. simpl. rewrite app_nil_r. auto.
    + exists g', mm'', oi', os'. cbn [length for_n flat_map w_coord app]. unfold load_member_old at 1.
      destruct Hc as [Hc1 Hc2]. unfold int_max, int_min in *.
      rewrite read_put by (unfold int_max, int_min; lia). rewrite read_put by (unfold int_max, int_min; lia). cbn [init_get bind]. rewrite Eadd. cbn [bind].
      rewrite E. splits; auto. simpl. rewrite <- app_assoc. exact H1.
Qed.

Definition text_rep (RP : Rep) : Rep.
Proof.
  refine {| rp := fun ms => @rp RP (rev ms); rp_text := true |}.
  intros ms H. apply in_rev. apply rp_in. intros E. apply H. rewrite <- (rev_involutive ms), E. reflexivity.
Defined.

Context {RP : Rep}.

Section Level.
Variable len : Z.
Hypothesis Hlen : 1 <= len <= ds_maxcol d.

Lemma level_fit cs : Forall (is_sub rows len) cs -> NoDup cs -> 0 <= Z.of_nat (length cs) <= int_max.
Proof.
  intros Hs Hn. assert (Hf : Forall (inb (ds_count d) (ds_maxcol d - len + 1)) cs).
  { rewrite Forall_forall in *. intros c Hc. apply (sub_inb d rows Hd len); auto; lia. }
  pose proof holds_count as Hc.
  pose proof (members_fit (ds_count d) (ds_maxcol d - len + 1) (repeat (0, 0) (Z.to_nat (ds_count d * (ds_maxcol d - len + 1)))) cs) as Hm.
  rewrite repeat_length in Hm. assert (length cs <= Z.to_nat (ds_count d * (ds_maxcol d - len + 1)))%nat by (apply Hm; auto; nia). nia.
Qed.

Lemma load_groups_old_ok (rest : list string) : forall gl n i L gs, n = length gl ->
  level_q (RP := text_rep RP) d rows len L gs ->
  Forall (fun ms => ms <> []) gl -> Forall (is_sub rows len) (concat gl) -> NoDup (concat gl) ->
  (forall c, In c (concat gl) -> ~ In c (concat gs)) ->
  exists L', for_n n i (load_level_old_step scan) (L, mkIn (flat_map (w_group len) gl ++ rest) true)
      = Ret (L', mkIn rest true) /\ level_q (RP := text_rep RP) d rows len L' (gs ++ map (@rev coord) gl).
Proof.
  induction gl as [|ms gl IH]; intros n i L gs -> HL Hne Hsubs Hnd Hni.
  - exists L. simpl. rewrite app_nil_r. auto.
  - inversion Hne as [|? ? Hms Hne']; subst. simpl in Hsubs, Hnd, Hni. apply Forall_app in Hsubs as [Hs1 Hs2].
    apply NoDup_app_elim in Hnd as (Hn1 & Hn2 & Hn3). pose proof HL as [B1 B2 B3 B4 B5].
    cbn [length for_n flat_map]. unfold load_level_old_step at 1, load_group_old.
    rewrite B1, B2.
    assert (Hr : is_sub rows len (rp ms)).
    { rewrite Forall_forall in Hs1. apply Hs1, rp_in, Hms. }
    destruct (sub_ts d rows Hd len ltac:(lia) (rp ms) Hr) as (t & Et & Ep & Hok & _ & _ & Etl).
    assert (Lv : length (sub_values rows len (rp ms)) = Z.to_nat len).
    { rewrite <- Ep. pose proof (ts_points_length t Hok). lia. }
    unfold w_group at 1. rewrite <- Lv, <- !app_assoc. rewrite read_values_ok by (intros v Hv; apply (sub_values_printed _ _ _ Hv)).
    cbn [app]. pose proof (level_fit ms Hs1 Hn1) as Hmf.
    rewrite read_put by (unfold int_min; split; [lia|apply Hmf]). cbn [init_get bind].
    set (g0 := mkGroup (COwn (sub_values rows len (rp ms))) None (-1, -1) 0).
    assert (Hs : groups_are (ds_count d) (ds_maxcol d - len + 1) (ll_map L) (ll_groups L ++ [g0]) (gs ++ [[]])).
    { rewrite B2 in B3. apply groups_snoc; auto. }
    assert (Hinb : Forall (inb (ds_count d) (ds_maxcol d - len + 1)) ms).
    { rewrite Forall_forall in *. intros c Hc. apply (sub_inb d rows Hd len); auto; lia. }
    assert (Hcount : 0 <= ds_count d <= int_max).
    { pose proof holds_count as Hc. nia. }
    destruct (load_members_old_ok (ds_count d) (ds_maxcol d - len + 1) (flat_map (w_group len) gl ++ rest) (ll_groups L) gs Hcount ltac:(lia)
       ms (length ms) 0 g0 (ll_map L) [] None None eq_refl) as (g' & mm' & oi & os & E & H1 & H2 & H3); auto.
    { intros c Hc Hx. rewrite concat_app in Hx. simpl in Hx. rewrite app_nil_r in Hx. apply (Hni c); auto. apply in_or_app. auto. }
    unfold for_. rewrite Z.sub_0_r, Nat2Z.id.
    unfold coord in *. rewrite E. cbn [bind]. rewrite app_nil_r in H1.
    destruct (IH (length gl) (i + 1) (mkLL len (ds_maxcol d - len + 1) (ll_groups L ++ [g']) mm') (gs ++ [rev ms]) eq_refl) as (L' & E' & HL'); auto.
    + constructor; cbn [ll_length ll_sub ll_map ll_groups]; auto.
      * apply Forall2_app; auto. constructor; [|constructor]. unfold cent_q. rewrite H2, H3. splits.
        -- intros E0. apply Hms. rewrite <- (rev_involutive ms), E0. reflexivity.
        -- replace (@rp (text_rep RP) (rev ms)) with (rp ms) by (unfold rp at 2, text_rep; rewrite rev_involutive; reflexivity). reflexivity.
        -- intros t' _. exact I.
      * rewrite concat_app. simpl. rewrite app_nil_r. apply Forall_app. split; auto. apply Forall_rev. auto.
    + intros c Hc Hx. rewrite concat_app in Hx. simpl in Hx. rewrite app_nil_r in Hx. apply in_app_or in Hx as [Hx|Hx].
      * apply (Hni c); auto. apply in_or_app. auto.
      * apply in_rev in Hx. eauto.
    + exists L'. split; [exact E'|]. simpl. rewrite <- app_assoc in HL'. exact HL'.
Qed.

Lemma load_level_old_ok (rest : list string) gl L0 :
  ll_new d len = Ret L0 ->
  Forall (fun ms => ms <> []) gl -> Forall (is_sub rows len) (concat gl) -> NoDup (concat gl) ->
  exists L', load_level_old scan L0 (mkIn (w_level len gl ++ rest) true) = Ret (L', Z.of_nat (length gl), mkIn rest true) /\
    level_q (RP := text_rep RP) d rows len L' (map (@rev coord) gl).
Proof.
  intros E0 Hne Hs Hnd. unfold load_level_old, w_level. cbn [app].
  assert (Hgl : Z.of_nat (length gl) <= int_max).
  { pose proof (level_fit (concat gl) Hs Hnd) as Hf. enough (length gl <= length (concat gl))%nat by lia.
    clear - Hne. induction Hne as [|ms gl Hms Hne IH]; simpl; auto. rewrite app_length. destruct ms; [contradiction|]. simpl. lia. }
  rewrite read_put by (unfold int_min; split; [lia|apply Hgl]). cbn [init_get bind]. unfold for_. rewrite Z.sub_0_r, Nat2Z.id.
  destruct (load_groups_old_ok rest gl (length gl) 0 L0 []) as (L' & E & HL'); auto.
  - destruct (ll_new_ok d rows Hd len ltac:(lia)) as (L & E & HL). rewrite E0 in E. injection E as <-.
    destruct HL as [C1 C2 C3 C4 C5]. constructor; auto; [rewrite C2; exact C3|].
    inversion C4. constructor.
  - unfold coord in *. rewrite E. cbn [bind]. exists L'. split; auto.
Qed.
End Level.

Variable gss : Z -> option (list (list coord)).
Hypothesis Hgss : forall l gl, 1 <= l <= ds_maxcol d -> gss l = Some gl ->
  Forall (fun ms => ms <> []) gl /\ Forall (is_sub rows l) (concat gl) /\ NoDup (concat gl).

Lemma load_levels_old_ok rest : forall n i gs, 1 <= i -> i + Z.of_nat n <= ds_maxcol d + 1 ->
  (forall l, i <= l < i + Z.of_nat n -> gss l <> None) ->
  Z.of_nat (length (gg_levels gs)) = ds_maxcol d + 1 ->
  exists levels, load_levels_old scan d n i gs (mkIn (w_from gss i n ++ rest) true)
      = (mkGG (gg_name gs) levels (gg_pw gs) (gg_warp gs) (gg_threshold gs) (gg_total gs + sum_groups gss i n) (gg_whole gs),
         Ret (gg_total gs + sum_groups gss i n)) /\
    Z.of_nat (length levels) = ds_maxcol d + 1 /\
    (forall l, 0 <= l -> ~ i <= l < i + Z.of_nat n -> nth_error levels (Z.to_nat l) = nth_error (gg_levels gs) (Z.to_nat l)) /\
    (forall l gl, i <= l < i + Z.of_nat n -> gss l = Some gl -> exists L, nth_error levels (Z.to_nat l) = Some (Some L) /\
       level_q (RP := text_rep RP) d rows l L (map (@rev coord) gl)).
Proof.
  induction n as [|n IH]; intros i gs Hi Hn Hall Hlen.
  - exists (gg_levels gs). simpl. unfold sum_groups. simpl. rewrite Z.add_0_r. splits; auto; [destruct gs; reflexivity|]. intros; lia.
  - cbn [load_levels_old]. unfold w_from. cbn [zseq flat_map]. unfold w_at at 1.
    pose proof (Hall i ltac:(lia)) as Hne. destruct (gss i) as [gl|] eqn:Egl; [|contradiction].
    destruct (Hgss i gl ltac:(lia) Egl) as (G1 & G2 & G3).
    destruct (ll_new_ok d rows Hd i ltac:(lia)) as (L0 & E0 & _). rewrite E0. cbn [bind]. rewrite <- app_assoc.
    destruct (load_level_old_ok i ltac:(lia) (flat_map (w_at gss) (zseq (i + 1) n) ++ rest) gl L0 E0 G1 G2 G3) as (L' & E' & HL').
    rewrite E'. cbn [bind and_then gg_levels]. rewrite aset_in by lia. cbn [bind and_then].
    set (gs1 := with_levels _ _).
    destruct (IH (i + 1) gs1) as (levels & E & I1 & I2 & I3); try lia.
    { intros l Hl. apply Hall. lia. }
    { unfold gs1. cbn [gg_levels with_levels]. rewrite upd_length. exact Hlen. }
    assert (Es : gg_total gs1 + sum_groups gss (i + 1) n = gg_total gs + sum_groups gss i (S n)).
    { unfold gs1, with_levels. cbn [gg_total]. unfold sum_groups. cbn [zseq map fold_right]. rewrite Egl. cbn [n_groups]. unfold coord. lia. }
    exists levels. fold (w_from gss (i + 1) n). rewrite E, Es. splits; auto.
    + intros l Hl0 Hl. rewrite I2 by lia. unfold gs1. cbn [gg_levels with_levels]. rewrite nth_error_upd_eq.
      destruct (Nat.eqb_spec (Z.to_nat l) (Z.to_nat i)); auto. lia.
    + intros l gl' Hl Egl'. destruct (Z.eq_dec l i) as [->|Hli].
      * rewrite Egl in Egl'. injection Egl' as <-. exists L'. split; auto. rewrite I2 by lia.
        unfold gs1. cbn [gg_levels with_levels]. rewrite nth_error_upd_eq, Nat.eqb_refl.
        destruct (Nat.ltb_spec (Z.to_nat i) (length (gg_levels gs))); auto. lia.
      * apply I3; auto. lia.
Qed.
End Text.

Lemma load_old_ok {N : Num} {RP : Rep} put put16 scan (d d' : dataset N) rows k thr whole wflag g gss old text :
  printed_exactly put16 scan rows -> printed_readably put scan thr ->
  1 <= ds_maxcol d < int_max -> ds_count d * ds_maxcol d <= int_max ->
  kept d rows k thr whole wflag g gss -> holds d' rows -> ds_maxcol d' = ds_maxcol d -> ds_count d' = ds_count d ->
  words text = words_of put put16 rows d k thr whole gss ->
  exists g' gs, loadGroupsOld scan (Some text) (mkGS d' old) = (g', Ret (gg_total gs)) /\ gt_data g' = d' /\
    ready_at (RP := text_rep RP) d' rows k whole g' (rev_gss gss) /\
    gt_groups g' = Some gs /\ gg_name gs = kind_name k /\ gg_threshold gs = None /\ gg_whole gs = false /\
    gg_total gs = sum_groups gss 0 (Z.to_nat (ds_maxcol d + 1)).
Proof.
  intros Hput [_ Hthr] Hm Hprod [(Ed & gs0 & Eg0 & _ & _ & [Hlev HL]) _ H3 H4 Htx] Hd' Emax Ecnt Ew.
  pose proof Hd' as (buf' & _ & Ec' & _).
  assert (Hc : 0 <= ds_count d <= int_max) by nia.
  unfold loadGroupsOld, in_open. rewrite Ew. unfold words_of. cbv zeta.
  set (m := if whole then ds_maxcol d else 2). set (n := Z.to_nat (ds_maxcol d + 1 - m)). cbn [app].
  assert (Hm1 : 1 <= m <= int_max) by (unfold m, int_max in *; destruct whole; lia).
  rewrite read_put by (unfold int_min, int_max; lia).
  unfold read_dbl at 1, extract. cbn [in_ok in_words]. destruct (scan (put thr)) as [th|] eqn:Eth; [|contradiction].
  rewrite read_put by (unfold int_min; lia). rewrite read_put by (unfold int_min; lia).
  cbn [init_get bind and_then gt_data]. rewrite Z.eqb_refl, Ecnt, Z.eqb_refl. cbn [negb].
  unfold load_space_old. rewrite read_put by (unfold int_min; lia). rewrite read_put by (unfold int_min; lia).
  unfold read_str, extract. cbn [in_ok in_words].
  unfold gg_loadDistance. rewrite (kind_pw k), (warp_of_name k). cbn [and_then].
  rewrite Emax. destruct (Z.ltb_spec (ds_maxcol d + 1) 0); [lia|]. cbn [bind and_then fst snd].
  cbn [gg_name gg_levels gg_pw gg_warp gg_threshold gg_total gg_whole gg_new].
  fold n. set (gs1 := mkGG (kind_name k) (repeat None (Z.to_nat (ds_maxcol d + 1))) _ _ _ 0 _).
  destruct (load_levels_old_ok put16 scan rows Hput d' Hd' ltac:(lia) ltac:(rewrite Ecnt, Emax; exact Hprod) gss) with (rest := @nil string) (n := n) (i := m) (gs := gs1)
    as (levels & E & L1 & L2 & L3); auto.
  - intros l gl Hl Egl. rewrite Emax in Hl. specialize (HL l ltac:(lia)). rewrite Egl in HL.
    destruct HL as (_ & L & _ & HLq). eapply level_gs; eauto.
  - lia.
  - rewrite Emax. unfold n. unfold m in *. destruct whole; lia.
  - intros l Hl. apply H3; unfold grouped_length; unfold n, m in Hl; destruct whole; lia.
  - unfold gs1. cbn [gg_levels]. rewrite repeat_length, Emax. lia.
  - rewrite app_nil_r in E. cbn [init_get bind fst snd]. fold n. rewrite E. cbn [gs1 gg_name gg_levels gg_pw gg_warp gg_threshold gg_total gg_whole] in *.
    assert (Hnone : forall l, 0 <= l <= ds_maxcol d -> ~ m <= l < m + Z.of_nat n -> gss l = None).
    { intros l Hl Hl'. destruct (gss l) eqn:El; auto. exfalso. apply Hl'.
      assert (Hg : grouped_length d whole l) by (apply H3; [auto|congruence]).
      unfold grouped_length in Hg. unfold n, m. destruct whole; lia. }
    assert (Et : 0 + sum_groups gss m n = sum_groups gss 0 (Z.to_nat (ds_maxcol d + 1))).
    { rewrite Z.add_0_l. destruct (Z_le_gt_dec m (ds_maxcol d + 1)) as [Hmle|Hmgt].
      - replace (Z.to_nat (ds_maxcol d + 1)) with (Z.to_nat m + n)%nat by (unfold n; lia).
        rewrite sum_app, (sum_none gss 0); [rewrite Z2Nat.id by lia; reflexivity|]. intros l Hl. apply Hnone; lia.
      - replace n with O by (unfold n; lia). rewrite (sum_none gss 0); [reflexivity|].
        intros l Hl. apply Hnone; lia. }
    match goal with |- context [(mkGS d' (Some ?G), _)] => exists (mkGS d' (Some G)), G end.
    split; [reflexivity|]. cbn [gt_data gt_groups gg_name gg_threshold gg_whole gg_total]. splits; auto.
    unfold ready_at. splits.
    + split; [reflexivity|]. eexists. split; [reflexivity|]. cbn [gg_warp gg_threshold gg_levels].
      splits; try reflexivity; [discriminate|]. split; [exact L1|]. intros l Hl. rewrite Emax in Hl. unfold rev_gss.
      destruct (gss l) as [gl|] eqn:Egl; simpl.
      * specialize (HL l ltac:(lia)). rewrite Egl in HL. destruct HL as [Hl1 _]. split; auto. apply L3; auto.
        destruct (Z_le_gt_dec m l), (Z_lt_ge_dec l (m + Z.of_nat n)); try lia; exfalso; rewrite Hnone in Egl by lia; discriminate.
      * rewrite L2; [| |intros Hl']; try lia.
        -- apply nth_error_repeat. lia.
        -- apply (proj2 (H3 l Hl)); auto. unfold grouped_length. unfold n, m in *. destruct whole; lia.
    + intros l Hl. rewrite Emax in Hl. specialize (H3 l Hl). unfold rev_gss, grouped_length in *. rewrite Emax.
      destruct (gss l); simpl in *; [|tauto]. split; [intros _; apply H3; discriminate|discriminate].
    + intros l gl c Hl Egl Hc0. rewrite Emax in Hl. unfold rev_gss in Egl. destruct (gss l) as [gl0|] eqn:Egl0; [|discriminate].
      injection Egl as <-. eapply Permutation_in; [apply rev_concat_perm|]. eapply H4; eauto.
Qed.
