(** Matching of Python arguments: lemmas for PropsPy.v. *)
From Coq Require Import Ascii.
From Verif Require Import Base Num LoopFacts TimeSeries TSSet Distance DtwSpec DtwPaths Candidate Api ApiSpec Py PySpec.
Local Open Scope Z_scope.
Local Open Scope list_scope.

Section Proofs.
Context {N : Num}.
Variable pe : pyenv N.
Notation param := (string * ptype * option (pyval N))%type.

(** the names that matching can use *)
Definition keyed (p : param) : option (string * pyval N) :=
  match snd p with Some d => Some (fst (fst p), d) | None => None end.
Definition pname (p : param) : string := fst (fst p).

Lemma assoc_app {A} n (l1 l2 : list (string * A)) : assoc n (l1 ++ l2) = match assoc n l1 with Some v => Some v | None => assoc n l2 end.
Proof. induction l1 as [|[k v] l1 IH]; simpl; auto. destruct (String.eqb n k); auto. Qed.
Lemma assoc_none {A} n (l : list (string * A)) : ~ In n (map fst l) -> assoc n l = None.
Proof.
  induction l as [|[k v] l IH]; simpl; auto. intros H. destruct (String.eqb_spec n k); [subst; exfalso; auto|apply IH; auto].
Qed.
Lemma assoc_in {A} n (l : list (string * A)) v : assoc n l = Some v -> In n (map fst l).
Proof.
  induction l as [|[k w] l IH]; simpl; [discriminate|]. destruct (String.eqb_spec n k); [subst; auto|]. intros H. right. auto.
Qed.

Lemma fill_ext ps (kw kw' : list (string * pyval N)) :
  (forall n d, In (Some (n, d)) ps -> assoc n kw = assoc n kw') -> fill ps kw = fill ps kw'.
Proof.
  induction ps as [|[[n d]|] ps IH]; intros H; simpl; auto. rewrite IH by (intros; eapply H; right; eauto).
  rewrite (H n d) by (left; auto). reflexivity.
Qed.

Lemma fill_bound (ps : list param) kw vs : bound ps [] kw vs -> NoDup (map pname ps) -> fill (map keyed ps) kw = Some (vs, length kw).
Proof.
  intros H. remember [] as args eqn:Ea. revert Ea. induction H as [|p ps v args kw vs H IH Hn|n t d ps v kw1 kw2 vs H IH Hn|n t d ps kw vs H IH Hn];
    intros Ea Hnd; try discriminate; simpl; auto.
  - inversion_clear Hnd. rewrite (fill_ext _ _ (kw1 ++ kw2)).
    + rewrite IH by auto. rewrite assoc_app. rewrite assoc_none by (rewrite map_app, in_app_iff in Hn; tauto).
      simpl. rewrite String.eqb_refl. rewrite !app_length. simpl. rewrite Nat.add_succ_r. reflexivity.
    + intros m e Hin. rewrite !assoc_app. destruct (assoc m kw1); auto. simpl. destruct (String.eqb_spec m n); auto.
      subst m. exfalso. apply H0. apply in_map_iff in Hin as (q & Eq & Hq). apply in_map_iff. exists q. split; auto.
      unfold keyed in Eq. destruct (snd q); [|discriminate]. injection Eq as <- _. reflexivity.
  - inversion_clear Hnd. rewrite IH by auto. rewrite assoc_none by auto. reflexivity.
Qed.

Lemma bound_split (ps : list param) args kw vs : bound ps args kw vs ->
  (length args <= length ps)%nat /\ exists rest, vs = args ++ rest /\ bound (skipn (length args) ps) [] kw rest.
Proof.
  induction 1 as [|p ps v args kw vs H IH Hn|n t d ps v kw1 kw2 vs H IH Hn|n t d ps kw vs H IH Hn].
  - split; auto. exists []. split; auto. constructor.
  - destruct IH as (L & rest & -> & B). split; [simpl; lia|]. exists rest. split; auto.
  - split; [simpl; lia|]. eexists. split; [reflexivity|]. simpl. constructor; auto.
  - split; [simpl; lia|]. eexists. split; [reflexivity|]. simpl. constructor; auto.
Qed.

Lemma bound_length (ps : list param) args kw vs : bound ps args kw vs -> length vs = length ps.
Proof. induction 1; simpl; auto. Qed.
Lemma bound_optional (ps : list param) kw vs : bound ps [] kw vs -> Forall (fun p => snd p <> None) ps /\ (length kw <= length ps)%nat.
Proof.
  intros H. remember [] as args eqn:Ea. revert Ea. induction H as [|p ps v args kw vs H IH Hn|n t d ps v kw1 kw2 vs H IH Hn|n t d ps kw vs H IH Hn];
    intros Ea; try discriminate; auto.
  - destruct (IH Ea) as [F L]. split; [constructor; auto; discriminate|]. rewrite app_length in *. simpl. lia.
  - destruct (IH Ea) as [F L]. split; [constructor; auto; discriminate|]. simpl. lia.
Qed.

(** the names of the parameters of [f] are those of the signature *)
Definition names_agree (f : pyfun N) (sig : list param) : Prop :=
  named f = map keyed sig /\ length (f_types f) = length sig /\ NoDup (map pname sig).

Lemma keys_count (f : pyfun N) sig : named f = map keyed sig -> length (f_types f) = length sig ->
  length (filter (fun p => match snd p with Some _ => true | None => false end) sig) = length (f_keys f) /\ (length (f_keys f) <= length sig)%nat.
Proof.
  intros H HL. assert (E : length (filter (fun o : option (string * pyval N) => match o with Some _ => true | None => false end) (named f)) = length (f_keys f)).
  { unfold named. rewrite filter_app, app_length.
    assert (E1 : forall n, filter (fun o : option (string * pyval N) => match o with Some _ => true | None => false end) (repeat None n) = [])
      by (induction n; simpl; auto). rewrite E1. clear. simpl. induction (f_keys f); simpl; auto. }
  assert (E2 : length (filter (fun o : option (string * pyval N) => match o with Some _ => true | None => false end) (map keyed sig)) =
     length (filter (fun p : param => match snd p with Some _ => true | None => false end) sig)).
  { clear. induction sig as [|[[n t] [d|]] sig IH]; simpl; auto. }
  split.
  - rewrite <- E, H, E2. reflexivity.
  - pose proof (f_equal (@length _) H) as L. unfold named in L. rewrite app_length, repeat_length, !map_length in L. lia.
Qed.

Lemma match_bound f sig args kw vs : names_agree f sig -> bound sig args kw vs -> match_args f args kw = Match vs.
Proof.
  intros (H1 & H2 & H3) B. destruct (bound_split _ _ _ _ B) as (L & rest & -> & B').
  destruct (bound_optional _ _ _ B') as [Fo Lk]. rewrite skipn_length in Lk.
  destruct (keys_count f sig H1 H2) as [Kc Kl].
  assert (Hc : (length sig <= length args + length (f_keys f))%nat).
  { rewrite <- Kc.
    assert (E0 : length (filter (fun p : param => match snd p with Some _ => true | None => false end) sig) =
      (length (filter (fun p : param => match snd p with Some _ => true | None => false end) (firstn (length args) sig)) +
       length (filter (fun p : param => match snd p with Some _ => true | None => false end) (skipn (length args) sig)))%nat)
      by (rewrite <- app_length, <- filter_app, firstn_skipn; reflexivity).
    assert (E : length (filter (fun p : param => match snd p with Some _ => true | None => false end) (skipn (length args) sig)) = (length sig - length args)%nat).
    { rewrite <- skipn_length. clear -Fo. induction Fo as [|p l Hp Fo IH]; simpl; auto. destruct (snd p); [simpl; auto|contradiction]. }
    lia. }
  unfold match_args. rewrite H2.
  destruct (Nat.leb_spec (length sig) (length args + length kw + length (f_keys f))); [|lia].
  destruct (Nat.leb_spec (length args + length kw) (length sig)); [|lia]. cbn [andb].
  assert (Fl : fill (skipn (length args) (named f)) kw = Some (rest, length kw)).
  { rewrite H1, skipn_map. apply fill_bound; auto. clear -H3. revert sig H3. induction (length args) as [|n IH]; intros sig H3; auto.
    destruct sig as [|p sig]; auto. inversion_clear H3. simpl. apply IH; auto. }
  destruct ((0 <? length kw) || (length args + length kw <? length sig))%nat eqn:Ec.
  - destruct (f_keys f) as [|k0 ks] eqn:Ek.
    + exfalso. apply orb_true_iff in Ec as [Ec|Ec]; apply Nat.ltb_lt in Ec; simpl in *; lia.
    + rewrite Fl. destruct (Nat.ltb_spec (length args + length kw) (length args + length kw)); [lia|reflexivity].
  - apply orb_false_iff in Ec as [E1 E2]. apply Nat.ltb_ge in E1, E2. pose proof (bound_length _ _ _ _ B') as Lr. rewrite skipn_length in Lr.
    destruct rest; [rewrite app_nil_r; reflexivity|simpl in Lr; lia].
Qed.

(** ** conversions *)
Lemma int_ok v z : an_int v z -> convertible TInt v = true /\ extract pe TInt v = Some (VInt z).
Proof.
  intros [[H1 H2] [->|[[-> ->]|[-> ->]]]]; split; auto. simpl. destruct (Z.leb_spec int_min z); [|lia]. destruct (Z.leb_spec z int_max); [reflexivity|lia].
Qed.
Lemma flag_ok v b : a_flag v b -> convertible TBool v = true /\ extract pe TBool v = Some (VBool b).
Proof.
  intros [->|[[-> ->]|(z & -> & H)]]; split; auto. simpl. do 2 f_equal. destruct (Z.eqb_spec z 0); simpl.
  - destruct b; auto. exfalso. apply H; auto.
  - symmetry. apply H. auto.
Qed.
Lemma double_ok v x : a_double pe v x -> convertible TDouble v = true /\ extract pe TDouble v = Some (VDouble x).
Proof.
  intros [->|(z & [->|[[-> ->]|[-> ->]]] & H)]; split; auto; simpl; rewrite H; reflexivity.
Qed.

(** ** results *)
Lemma series_ok (t : TS N) : ts_ok t -> series_list t = Ret (PList (map PFloat (ts_points t))).
Proof.
  intros H. pose proof (ts_points_length t H) as HL. unfold series_list.
  destruct (for_inv (fun i acc => acc = map PFloat (firstn (Z.to_nat i) (ts_points t)))
       (fun i acc => x <- ts_get t i ;; Ret (acc ++ [PFloat x])) 0 (ts_length t) []) as (l & El & Hl).
  - lia.
  - reflexivity.
  - intros i acc Hi ->. rewrite (ts_get_pt t i H Hi). simpl. eexists. split; [reflexivity|].
    replace (Z.to_nat (i + 1)) with (S (Z.to_nat i)) by lia. unfold pt. match goal with |- map ?f ?l ++ [?f ?x] = _ => transitivity (map f (l ++ [x])); [rewrite map_app; reflexivity|] end. f_equal.
    assert (Hn : (Z.to_nat i < length (ts_points t))%nat) by lia. revert Hn. generalize (Z.to_nat i). clear.
    induction (ts_points t) as [|x l IH]; intros n Hn; simpl in *; [lia|]. destruct n; simpl; auto. f_equal. apply IH. lia.
  - rewrite El. simpl. rewrite Hl, firstn_all2 by lia. reflexivity.
Qed.

Lemma seen_ok r o : seen_as pe r o -> of_res pe r (pack pe) = o.
Proof.
  intros [a v S|m|w|u|]; try reflexivity. simpl. destruct S as [| | |z|n U|i U|l|t O|x y|c W|l W|x|m]; simpl; auto.
  - unfold py_str. rewrite U. reflexivity.
  - unfold py_str. rewrite U. reflexivity.
  - rewrite series_ok by auto. reflexivity.
  - unfold match_dict, cand_dict, place_dict, series_dict. rewrite W. reflexivity.
  - do 2 f_equal. apply map_ext_in. intros c Hc. unfold match_dict, cand_dict, place_dict, series_dict.
    rewrite (proj1 (Forall_forall _ _) W c Hc). reflexivity.
Qed.

(** ** the functions and their signatures *)
Definition ctype_of (t : ptype) : ctype := match t with Text => TStr | Number => TInt | Flag => TBool | Real => TDouble end.

Ltac nodup := repeat constructor; simpl; intuition discriminate.
Lemma module_sig name (sig : list param) : signature name = Some sig ->
  exists f, assoc name pymodule = Some f /\ f_types f = map (fun p => ctype_of (snd (fst p))) sig /\
    (name <> "getMatching"%string -> names_agree f sig).
Proof.
  unfold signature, pymodule. simpl.
  repeat (match goal with |- context [String.eqb name ?k] => destruct (String.eqb_spec name k) as [->|?] end;
    [intros [= <-]; eexists; split; [reflexivity|split; [reflexivity|intros Hm;
       first [exfalso; apply Hm; reflexivity | split; [reflexivity|split; [reflexivity|nodup]]]]]|]).
  discriminate.
Qed.
Lemma module_none name : signature (N := N) name = None -> assoc name (pymodule (N := N)) = None.
Proof.
  unfold signature, pymodule. simpl.
  repeat (match goal with |- context [String.eqb name ?k] => destruct (String.eqb_spec name k) as [->|?] end; [discriminate|]). reflexivity.
Qed.

Lemma bound_needed (ps : list param) args kw vs : Forall (fun p => snd p = None) ps -> bound ps args kw vs -> kw = [] /\ vs = args.
Proof.
  intros F B. induction B; auto.
  - inversion_clear F. destruct (IHB H1) as [-> ->]. auto.
  - inversion_clear F. discriminate.
  - inversion_clear F. discriminate.
Qed.

Lemma match_sig name sig f args kw vs : signature name = Some sig -> assoc name pymodule = Some f -> bound sig args kw vs ->
  match_args f args kw = Match vs /\ f_types f = map (fun p : param => ctype_of (snd (fst p))) sig.
Proof.
  intros Hs Hf B. destruct (module_sig name sig Hs) as (f' & Hf' & Ht & Hn). rewrite Hf in Hf'. injection Hf' as <-. split; auto.
  destruct (String.eqb_spec name "getMatching"%string) as [->|Hne]; [|eapply match_bound; eauto].
  destruct (bound_needed sig args kw vs) as [-> ->]; auto.
  - revert Hs. unfold signature. simpl. intros [= <-]. repeat constructor.
  - pose proof (bound_length _ _ _ _ B) as L. revert Hs Hf. unfold signature, pymodule. simpl. intros [= <-] [= <-]. simpl in L.
    unfold match_args. cbn [length f_types f_keys]. rewrite L. reflexivity.
Qed.

Lemma conv_type t v : convertible (ctype_of t) v = true <-> has_type (N := N) t v.
Proof.
  split.
  - destruct t, v; simpl; try discriminate; constructor.
  - destruct 1; reflexivity.
Qed.
Lemma conv_all ts vs : all_convertible (map ctype_of ts) vs = true <-> Forall2 (has_type (N := N)) ts vs.
Proof.
  revert vs. induction ts as [|t ts IH]; intros [|v vs]; simpl; split; intros H; try discriminate; try (inversion H; fail); auto.
  - apply andb_true_iff in H as [H1 H2]. constructor; [apply conv_type; auto|apply IH; auto].
  - inversion_clear H. apply andb_true_iff. split; [apply conv_type; auto|apply IH; auto].
Qed.

(** a documented call is what the function does *)
Ltac conv := repeat match goal with
  | H : an_int ?v ?z |- _ => destruct (int_ok v z H); clear H
  | H : a_flag ?v ?z |- _ => destruct (flag_ok v z H); clear H
  | H : a_double pe ?v ?z |- _ => destruct (double_ok v z H); clear H
  end.
Lemma documented_call name vals c f : documented pe name vals c -> assoc name pymodule = Some f ->
  all_convertible (f_types f) vals = true /\ exists cs, extract_all pe (f_types f) vals = Some cs /\ f_call f cs = Some c.
Proof.
  intros H E. destruct H; unfold pymodule in E; simpl in E; injection E as <-; conv; cbn [f_types f_call all_convertible];
   (split; [repeat match goal with H : convertible _ _ = true |- _ => rewrite H; clear H end; reflexivity|]);
   cbn [extract_all];
   repeat match goal with H : extract pe _ _ = Some _ |- _ => rewrite H; clear H end; eexists; split; reflexivity.
Qed.
End Proofs.
