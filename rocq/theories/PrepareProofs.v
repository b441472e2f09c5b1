(** The scripts that prepare the data sets. *)
From Coq Require Import String Ascii Lia Permutation.
From Verif Require Import Base Script Prepare PrepareSpec.
Local Open Scope string_scope.
Local Open Scope Z_scope.
Local Open Scope list_scope.

(** ** names *)
Lemma app_len s t : String.length (s ++ t)%string = (String.length s + String.length t)%nat.
Proof. induction s as [|c s IH]; cbn; [reflexivity|]. rewrite IH. reflexivity. Qed.

Lemma sub_front s t : substring 0 (String.length s) (s ++ t)%string = s.
Proof. induction s as [|c s IH]; cbn; [destruct t; reflexivity|]. rewrite IH. reflexivity. Qed.
Lemma sub_whole s : substring 0 (String.length s) s = s.
Proof. induction s as [|c s IH]; cbn; [reflexivity|]. rewrite IH. reflexivity. Qed.
Lemma sub_back s t : substring (String.length s) (String.length t) (s ++ t)%string = t.
Proof. induction s as [|c s IH]; cbn [String.length append substring]; [apply sub_whole|exact IH]. Qed.
Lemma sub_split k : forall s, (k <= String.length s)%nat -> s = (substring 0 k s ++ substring k (String.length s - k) s)%string.
Proof.
  induction k as [|k IH]; intros [|c s] H; cbn [String.length] in H; try lia; try reflexivity.
  - cbn [append]. rewrite Nat.sub_0_r. cbn [String.length substring append]. f_equal. symmetry. apply sub_whole.
  - cbn [String.length substring Nat.sub append]. f_equal. apply IH. lia.
Qed.

Lemma ends_with_app suf n : ends_with suf (n ++ suf)%string = true.
Proof.
  unfold ends_with. rewrite app_len. replace (String.length n + String.length suf - String.length suf)%nat with (String.length n) by lia.
  rewrite sub_back, String.eqb_refl. replace (String.length suf <=? String.length n + String.length suf)%nat with true by (symmetry; apply Nat.leb_le; lia). reflexivity.
Qed.
Lemma ends_with_inv suf s : ends_with suf s = true -> exists n, s = (n ++ suf)%string.
Proof.
  unfold ends_with. intros H. apply andb_prop in H as [H1 H2]. apply Nat.leb_le in H1. apply String.eqb_eq in H2.
  exists (substring 0 (String.length s - String.length suf) s). rewrite <- H2 at 2.
  rewrite (sub_split (String.length s - String.length suf) s) at 1 by lia.
  replace (String.length s - (String.length s - String.length suf))%nat with (String.length suf) by lia. reflexivity.
Qed.

Lemma data_name_app n : data_name (n ++ "_DATA")%string = n.
Proof.
  unfold data_name. rewrite app_len. cbn [String.length]. replace (String.length n + 5 <? 5)%nat with false by (symmetry; apply Nat.ltb_ge; lia).
  replace (String.length n + 5 - 5)%nat with (String.length n) by lia. apply sub_front.
Qed.

Fixpoint chars (s : string) : list ascii := match s with EmptyString => [] | String c s' => c :: chars s' end.
Lemma chars_app s t : chars (s ++ t)%string = chars s ++ chars t.
Proof. induction s as [|c s IH]; cbn; [reflexivity|]. rewrite IH. reflexivity. Qed.
Lemma chars_inj s t : chars s = chars t -> s = t.
Proof. revert t. induction s as [|c s IH]; intros [|c' t] H; try discriminate H; [reflexivity|]. injection H as -> H. f_equal. auto. Qed.
Lemma app_cancel s t u : (s ++ u = t ++ u)%string -> s = t.
Proof. intros H. apply chars_inj. apply (f_equal chars) in H. rewrite !chars_app in H. apply app_inv_tail in H. exact H. Qed.
Lemma query_data s t : (s ++ "_QUERY")%string <> (t ++ "_DATA")%string.
Proof. intros H. apply (f_equal chars) in H. rewrite !chars_app in H. apply (f_equal (@rev ascii)) in H. rewrite !rev_app_distr in H. discriminate H. Qed.
Lemma app_longer s t c : s <> (s ++ String c t)%string.
Proof. intros H. apply (f_equal String.length) in H. rewrite app_len in H. cbn in H. lia. Qed.

Lemma hidden_app ds s : ds <> "" -> hidden (ds ++ s)%string = hidden ds.
Proof. destruct ds; [congruence|]. reflexivity. Qed.
Lemma hidden_target ds c s : Ascii.eqb c "."%char = false -> hidden ds = false -> hidden (ds ++ String c s)%string = false.
Proof. destruct ds as [|c' ds]; intros Hc H; [exact Hc|exact H]. Qed.

(** ** copying *)
Lemma put_same n x r : put n x r n = Some x.
Proof. unfold put. rewrite String.eqb_refl. reflexivity. Qed.
Lemma put_other n m x r : m <> n -> put n x r m = r m.
Proof. intros H. unfold put. apply String.eqb_neq in H. rewrite H. reflexivity. Qed.

Definition act_name (a : act) : string := match a with AEmpty n | AFill n _ => n end.

Lemma after_other acts : forall r m, (forall a, In a acts -> act_name a <> m) -> after_acts acts r m = r m.
Proof.
  induction acts as [|a acts IH]; intros r m H; [reflexivity|]. unfold after_acts in *. cbn [fold_left]. rewrite IH by (intros; apply H; right; assumption).
  pose proof (H a (or_introl eq_refl)) as Hn. destruct a; cbn in *; apply put_other; congruence.
Qed.

Lemma copy_names r ds from to acts : copy r ds from to = Some acts -> forall a, In a acts -> act_name a = (ds ++ to)%string.
Proof.
  unfold copy. destruct (r ds) as [[|inside]|]; try discriminate. destruct (inside (ds ++ from)%string) as [t|]; try discriminate.
  intros H a Ha. destruct (r (ds ++ to)%string) as [[|]|]; try discriminate H; injection H as <-; destruct Ha as [<-|[<-|[]]]; reflexivity.
Qed.

(** every file written is one of those the script is to write *)
Lemma process_names : forall l r acts ok, process l r = (acts, ok) -> forall a, In a acts -> written l (act_name a).
Proof.
  induction l as [|ds l IH]; intros r acts ok H a Ha; cbn [process] in H; [injection H as <- <-; destruct Ha|].
  assert (Up : written l (act_name a) -> written (ds :: l) (act_name a)).
  { intros (d & Hd & P). exists d. split; [right; exact Hd|exact P]. }
  destruct (hidden ds) eqn:Eh; [apply Up; eapply IH; eauto|].
  destruct (copy r ds "_TRAIN" "_QUERY") as [a1|] eqn:E1; [|injection H as <- <-; destruct Ha].
  assert (W1 : In a a1 -> written (ds :: l) (act_name a)).
  { intros H1. exists ds. split; [left; reflexivity|]. split; [exact Eh|]. left. eapply copy_names; eauto. }
  destruct (copy (after_acts a1 r) ds "_TEST" "_DATA") as [a2|] eqn:E2; [|injection H as <- <-; auto].
  destruct (process l (after_acts a2 (after_acts a1 r))) as [a3 ok3] eqn:E3. injection H as <- <-.
  apply in_app_or in Ha as [Ha|Ha]; [auto|]. apply in_app_or in Ha as [Ha|Ha].
  - exists ds. split; [left; reflexivity|]. split; [exact Eh|]. right. eapply copy_names; eauto.
  - apply Up. eapply IH; eauto.
Qed.

(** folders are never written over *)
Lemma copy_keeps r ds from to acts n inside : copy r ds from to = Some acts -> r n = Some (NFolder inside) -> forall a, In a acts -> act_name a <> n.
Proof.
  intros H Hn a Ha. rewrite (copy_names _ _ _ _ _ H a Ha). intros <-. unfold copy in H.
  destruct (r ds) as [[|i]|]; try discriminate H. destruct (i (ds ++ from)%string); try discriminate H. rewrite Hn in H. discriminate H.
Qed.
Lemma process_keeps n inside : forall l r acts ok, process l r = (acts, ok) -> r n = Some (NFolder inside) -> forall a, In a acts -> act_name a <> n.
Proof.
  induction l as [|ds l IH]; intros r acts ok H Hn a Ha; cbn [process] in H; [injection H as <- <-; destruct Ha|].
  destruct (hidden ds); [eapply IH; eauto|].
  destruct (copy r ds "_TRAIN" "_QUERY") as [a1|] eqn:E1; [|injection H as <- <-; destruct Ha].
  pose proof (copy_keeps _ _ _ _ _ _ _ E1 Hn) as K1.
  assert (Hn1 : after_acts a1 r n = Some (NFolder inside)) by (rewrite after_other; auto).
  destruct (copy (after_acts a1 r) ds "_TEST" "_DATA") as [a2|] eqn:E2; [|injection H as <- <-; auto].
  pose proof (copy_keeps _ _ _ _ _ _ _ E2 Hn1) as K2.
  destruct (process l (after_acts a2 (after_acts a1 r))) as [a3 ok3] eqn:E3. injection H as <- <-.
  apply in_app_or in Ha as [Ha|Ha]; [auto|]. apply in_app_or in Ha as [Ha|Ha]; [auto|].
  eapply IH; [exact E3| |exact Ha]. rewrite after_other; auto.
Qed.

Lemma after_app a b r : after_acts (a ++ b) r = after_acts b (after_acts a r).
Proof. apply fold_left_app. Qed.

Lemma copied_eq r ds from to acts inside t : r ds = Some (NFolder inside) -> inside (ds ++ from)%string = Some t -> r (ds ++ to)%string = None ->
  copy r ds from to = Some acts -> after_acts acts r (ds ++ to)%string = Some (NFile t).
Proof. intros H1 H2 H3 H. unfold copy in H. rewrite H1, H2, H3 in H. injection H as <-. cbn. apply put_same. Qed.

Lemma process_all train test : forall l r, NoDup l ->
  (forall ds, In ds l -> hidden ds = false -> exists inside, r ds = Some (NFolder inside) /\ inside (ds ++ "_TRAIN")%string = Some (train ds) /\ inside (ds ++ "_TEST")%string = Some (test ds) /\
      r (ds ++ "_QUERY")%string = None /\ r (ds ++ "_DATA")%string = None) ->
  exists acts, process l r = (acts, true) /\
    forall ds, In ds l -> hidden ds = false ->
      after_acts acts r (ds ++ "_QUERY")%string = Some (NFile (train ds)) /\ after_acts acts r (ds ++ "_DATA")%string = Some (NFile (test ds)).
Proof.
  induction l as [|ds l IH]; intros r Hnd H; cbn [process]; [exists []; split; [reflexivity|intros ds []]|].
  inversion Hnd as [|? ? Hnot Hnd']. subst.
  destruct (hidden ds) eqn:Eh.
  { destruct (IH r Hnd') as (acts & E & P); [intros d Hd; apply H; right; exact Hd|]. exists acts. split; [exact E|]. intros d [<-|Hd] Hh; [congruence|auto]. }
  destruct (H ds (or_introl eq_refl) Eh) as (inside & H1 & H2 & H3 & H4 & H5).
  assert (E1 : copy r ds "_TRAIN" "_QUERY" = Some [AEmpty (ds ++ "_QUERY")%string; AFill (ds ++ "_QUERY")%string (train ds)]) by (unfold copy; rewrite H1, H2, H4; reflexivity).
  rewrite E1. set (a1 := [AEmpty _; AFill _ _]) in *. cbv zeta. set (r1 := after_acts a1 r).
  assert (O1 : forall m, m <> (ds ++ "_QUERY")%string -> r1 m = r m).
  { intros m Hm. apply after_other. intros a Ha C. rewrite (copy_names _ _ _ _ _ E1 a Ha) in C. congruence. }
  assert (E2 : copy r1 ds "_TEST" "_DATA" = Some [AEmpty (ds ++ "_DATA")%string; AFill (ds ++ "_DATA")%string (test ds)]).
  { unfold copy. rewrite (O1 ds) by apply app_longer. rewrite (O1 (ds ++ "_DATA")%string) by (intros C; exact (query_data _ _ (eq_sym C))). rewrite H1, H3, H5. reflexivity. }
  rewrite E2. set (a2 := [AEmpty _; AFill _ (test ds)]) in *. set (r2 := after_acts a2 r1).
  assert (O2 : forall m, m <> (ds ++ "_QUERY")%string -> m <> (ds ++ "_DATA")%string -> r2 m = r m).
  { intros m Hm Hm'. rewrite <- O1 by exact Hm. apply after_other. intros a Ha C. rewrite (copy_names _ _ _ _ _ E2 a Ha) in C. congruence. }
  assert (Hl : forall d, In d l -> hidden d = false -> exists inside, r2 d = Some (NFolder inside) /\ inside (d ++ "_TRAIN")%string = Some (train d) /\ inside (d ++ "_TEST")%string = Some (test d) /\
      r2 (d ++ "_QUERY")%string = None /\ r2 (d ++ "_DATA")%string = None).
  { intros d Hd Hh. destruct (H d (or_intror Hd) Hh) as (i' & G1 & G2 & G3 & G4 & G5). assert (d <> ds) by (intros ->; contradiction).
    exists i'. rewrite !O2; auto; try (intros C; apply app_cancel in C; congruence); try (apply query_data); try (intros C; exact (query_data _ _ (eq_sym C)));
    intros ->; congruence. }
  destruct (IH r2 Hnd' Hl) as (a3 & E3 & P). rewrite E3.
  exists (a1 ++ a2 ++ a3). split; [reflexivity|]. rewrite !after_app. fold r1. fold r2.
  intros d [<-|Hd] Hh; [|auto].
  assert (Hlate : forall m, (m = (ds ++ "_QUERY")%string \/ m = (ds ++ "_DATA")%string) -> after_acts a3 r2 m = r2 m).
  { intros m Hm. apply after_other. intros a Ha C. destruct (process_names _ _ _ _ E3 a Ha) as (d & Hd & _ & Hw). rewrite C in Hw.
    assert (Hdd : d = ds); [|subst d; contradiction].
    destruct Hm as [-> | ->], Hw as [Hw|Hw]; try (apply app_cancel in Hw; congruence); exfalso; [exact (query_data _ _ Hw)|exact (query_data _ _ (eq_sym Hw))]. }
  rewrite !Hlate by auto. split.
  - unfold r2. rewrite after_other.
    + exact (copied_eq r ds "_TRAIN" "_QUERY" a1 inside _ H1 H2 H4 E1).
    + intros a Ha C. rewrite (copy_names _ _ _ _ _ E2 a Ha) in C. exact (query_data _ _ (eq_sym C)).
  - apply (copied_eq r1 ds "_TEST" "_DATA" a2 inside); auto.
    + rewrite O1 by apply app_longer. exact H1.
    + rewrite O1 by (intros C; exact (query_data _ _ (eq_sym C))). exact H5.
Qed.

(** something that is not the folder of a data set *)
Lemma process_raises n : forall l r acts ok, In n l -> hidden n = false -> (forall inside, r n <> Some (NFolder inside)) -> process l r = (acts, ok) -> ok = false.
Proof.
  induction l as [|ds l IH]; intros r acts ok Hin Hh Hno H; [destruct Hin|]. cbn [process] in H.
  destruct (hidden ds) eqn:Eh.
  { destruct Hin as [->|Hin]; [congruence|]. eapply IH; eauto. }
  destruct (copy r ds "_TRAIN" "_QUERY") as [a1|] eqn:E1; [|injection H as <- <-; reflexivity].
  destruct Hin as [->|Hin].
  { exfalso. unfold copy in E1. destruct (r n) as [[|i]|] eqn:En; try discriminate E1. exact (Hno i eq_refl). }
  assert (Hstill : forall b q, (forall inside, q n <> Some (NFolder inside)) -> forall inside, after_acts b q n <> Some (NFolder inside)).
  { clear. induction b as [|a b IH]; intros q Hq; [exact Hq|]. unfold after_acts in *. cbn [fold_left]. apply IH. intros inside.
    destruct a as [m|m t]; cbn [after_act]; unfold put; destruct (String.eqb n m); try discriminate; apply Hq. }
  destruct (copy (after_acts a1 r) ds "_TEST" "_DATA") as [a2|] eqn:E2; [|injection H as <- <-; reflexivity].
  destruct (process l (after_acts a2 (after_acts a1 r))) as [a3 ok3] eqn:E3. injection H as <- <-.
  eapply IH; [exact Hin|exact Hh| |exact E3]. apply Hstill, Hstill, Hno.
Qed.

(** ** extracting *)
Fixpoint get {X} (n : string) (d : list (string * X)) : option X :=
  match d with [] => None | (m, x) :: d' => if String.eqb m n then Some x else get n d' end.
Lemma get_put n m x d : get n (put_info m x d) = if String.eqb m n then Some x else get n d.
Proof.
  induction d as [|[k y] d IH]; cbn [put_info get]; [reflexivity|].
  destruct (String.eqb_spec k m) as [->|Hk]; cbn [get].
  - destruct (String.eqb m n); reflexivity.
  - destruct (String.eqb_spec k n) as [->|Hn]; [|exact IH]. destruct (String.eqb_spec m n); [congruence|reflexivity].
Qed.
Lemma put_keys m x d : NoDup (map fst d) -> NoDup (map fst (put_info m x d)) /\ (forall n, In n (map fst (put_info m x d)) <-> n = m \/ In n (map fst d)).
Proof.
  induction d as [|[k y] d IH]; cbn [put_info map fst]; intros H.
  - split; [constructor; [intros []|constructor]|]. intros n. cbn. intuition congruence.
  - inversion H as [|? ? Hn Hd]. subst. destruct (String.eqb_spec k m) as [->|Hk]; cbn [map fst].
    + split; [constructor; auto|]. intros n. cbn. intuition congruence.
    + destruct (IH Hd) as [I1 I2]. split.
      * constructor; [|exact I1]. rewrite I2. intros [C|C]; [congruence|auto].
      * intros n. cbn. rewrite I2. intuition congruence.
Qed.

Section Extract.
Variables (describe : string -> option (Z * Z)) (r : folder).

Lemma load_raises name file loaded : (forall t x, r file = Some (NFile t) -> describe t = Some x -> False) -> load describe r loaded name file = None.
Proof.
  intros H. unfold load. destruct (existsb _ loaded); [reflexivity|]. destruct (r file) as [[t|]|] eqn:E; try reflexivity.
  destruct (describe t) eqn:Ed; [|reflexivity]. exfalso. eapply H; eauto.
Qed.

(** one file that cannot be loaded *)
Lemma extract_raises n : forall l loaded d, In n l -> ends_with "DATA" n = true ->
  (forall t x, r n = Some (NFile t) -> describe t = Some x -> False) \/ (forall t x, r (data_name n ++ "_QUERY")%string = Some (NFile t) -> describe t = Some x -> False) ->
  extract describe r l loaded d = None.
Proof.
  induction l as [|ds l IH]; intros loaded d Hin He Hbad; [destruct Hin|]. cbn [extract]. destruct Hin as [->|Hin].
  - rewrite He. destruct Hbad as [Hb|Hb].
    + rewrite load_raises by exact Hb. reflexivity.
    + destruct (load describe r loaded (data_name n) n); [|reflexivity]. rewrite load_raises by exact Hb. reflexivity.
  - destruct (ends_with "DATA" ds); [|apply IH; auto].
    destruct (load describe r loaded (data_name ds) ds); [|reflexivity].
    destruct (load describe r loaded (data_name ds) (data_name ds ++ "_QUERY")%string); [|reflexivity]. apply IH; auto.
Qed.

Variable sets : list (string * ((Z * Z) * (Z * Z))).
Hypothesis Hsets : NoDup (map fst sets).
Hypothesis Hdata : forall n x, r n = Some x -> ends_with "DATA" n = true -> exists ds i, In (ds, i) sets /\ n = (ds ++ "_DATA")%string.
Hypothesis Hload : forall ds x y, In (ds, (x, y)) sets ->
     (exists t, r (ds ++ "_DATA")%string = Some (NFile t) /\ describe t = Some x) /\
     (exists t, r (ds ++ "_QUERY")%string = Some (NFile t) /\ describe t = Some y).
Hypothesis Hout : forall ds, In ds (map fst sets) -> ~ In (ds ++ "_out")%string (map fst sets).

(** the data sets in the part of the listing done so far *)
Definition said (dn : list string) (d : list (string * (Z * Z))) : Prop :=
  NoDup (map fst d) /\
  (forall n, In n (map fst d) <-> exists ds, In (ds ++ "_DATA")%string dn /\ In ds (map fst sets) /\ (n = ds \/ n = (ds ++ "_out")%string)) /\
  (forall ds x y, In (ds ++ "_DATA")%string dn -> In (ds, (x, y)) sets -> get ds d = Some x /\ get (ds ++ "_out")%string d = Some y).

Lemma in_sets ds x y x' y' : In (ds, (x, y)) sets -> In (ds, (x', y')) sets -> x = x' /\ y = y'.
Proof.
  revert Hsets. clear. induction sets as [|[n i] l IH]; intros Hnd H H'; [destruct H|]. cbn [map fst] in Hnd. inversion Hnd as [|? ? Hn Hd]. subst.
  destruct H as [H|H], H' as [H'|H'].
  - split; congruence.
  - injection H as -> ->. exfalso. apply Hn. apply in_map_iff. exists (ds, (x', y')). auto.
  - injection H' as -> ->. exfalso. apply Hn. apply in_map_iff. exists (ds, (x, y)). auto.
  - apply IH; auto.
Qed.

Lemma extract_all : forall l dn loaded d, NoDup (dn ++ l) -> (forall n, In n l -> r n <> None) ->
  (forall n, In n loaded <-> In (n ++ "_DATA")%string dn /\ In n (map fst sets)) -> said dn d ->
  exists d' loaded', extract describe r l loaded d = Some (d', loaded') /\ said (dn ++ l) d' /\
    (forall n, In n loaded' <-> In (n ++ "_DATA")%string (dn ++ l) /\ In n (map fst sets)).
Proof.
  induction l as [|ds l IH]; intros dn loaded d Hnd Hr Hlo Hd; cbn [extract].
  { exists d, loaded. rewrite app_nil_r. auto. }
  assert (Hshift : dn ++ ds :: l = (dn ++ [ds]) ++ l) by (rewrite <- app_assoc; reflexivity).
  assert (Hfresh : ~ In ds dn).
  { intros C. apply NoDup_remove_2 in Hnd. apply Hnd. apply in_or_app. left. exact C. }
  destruct (ends_with "DATA" ds) eqn:Ee.
  - destruct (r ds) as [x0|] eqn:Er; [|exfalso; apply (Hr ds (or_introl eq_refl)); exact Er].
    destruct (Hdata ds x0 Er Ee) as (n & [x y] & Hn & ->). rewrite data_name_app.
    destruct (Hload n x y Hn) as ((t1 & R1 & D1) & (t2 & R2 & D2)).
    assert (Hn' : In n (map fst sets)) by (apply in_map_iff; exists (n, (x, y)); auto).
    assert (Hnl : existsb (String.eqb n) loaded = false).
    { apply not_true_is_false. intros C. apply existsb_exists in C as (m & Hm & Em). apply String.eqb_eq in Em. subst m. apply Hlo in Hm as [Hm _]. contradiction. }
    unfold load. rewrite Hnl, R1, R2, D1, D2.
    set (d1 := put_info n x d). set (d2 := put_info (n ++ "_out")%string y d1).
    rewrite Hshift. apply IH; [rewrite <- Hshift; exact Hnd|intros m Hm; apply Hr; right; exact Hm| |].
    + intros m. cbn [In]. rewrite Hlo, in_app_iff. cbn [In]. split.
      * intros [<-|[H1 H2]]; [split; [right; left; reflexivity|exact Hn']|auto].
      * intros [[H1|[H1|[]]] H2]; [right; auto|left; symmetry; apply app_cancel in H1; congruence].
    + destruct Hd as (K1 & K2 & K3). destruct (put_keys n x d K1) as [P1 P2]. destruct (put_keys (n ++ "_out")%string y d1 P1) as [Q1 Q2].
      split; [exact Q1|]. split.
      * intros m. unfold d2. rewrite Q2. unfold d1. rewrite P2, K2. split.
        -- intros [->|[->|(ds & H1 & H2 & H3)]].
           ++ exists n. split; [apply in_or_app; right; left; reflexivity|auto].
           ++ exists n. split; [apply in_or_app; right; left; reflexivity|auto].
           ++ exists ds. split; [apply in_or_app; left; exact H1|auto].
        -- intros (ds & H1 & H2 & H3). apply in_app_or in H1 as [H1|[H1|[]]].
           ++ right. right. exists ds. auto.
           ++ apply app_cancel in H1. subst ds. destruct H3 as [-> | ->]; auto.
      * intros ds x' y' H1 H2. unfold d2, d1. rewrite !get_put.
        assert (Hds : In ds (map fst sets)) by (apply in_map_iff; exists (ds, (x', y')); auto).
        assert (N1 : String.eqb (n ++ "_out") ds = false) by (apply String.eqb_neq; intros <-; exact (Hout n Hn' Hds)).
        assert (N2 : String.eqb n (ds ++ "_out") = false) by (apply String.eqb_neq; intros ->; exact (Hout ds Hds Hn')).
        rewrite N1, N2. destruct (String.eqb_spec n ds) as [->|Hne].
        -- rewrite String.eqb_refl. destruct (in_sets ds x y x' y' Hn H2) as [-> ->]. auto.
        -- assert (N3 : String.eqb (n ++ "_out") (ds ++ "_out") = false) by (apply String.eqb_neq; intros C; apply app_cancel in C; congruence). rewrite N3.
           apply K3; [|exact H2]. apply in_app_or in H1 as [H1|[H1|[]]]; [exact H1|]. apply app_cancel in H1. congruence.
  - assert (Hnot : forall n, (n ++ "_DATA")%string <> ds).
    { intros n <-. change "_DATA"%string with ("_" ++ "DATA")%string in Ee.
      assert (Ea : (n ++ ("_" ++ "DATA"))%string = ((n ++ "_") ++ "DATA")%string) by (apply chars_inj; rewrite !chars_app, <- app_assoc; reflexivity).
      rewrite Ea, ends_with_app in Ee. discriminate Ee. }
    assert (Hdn : forall n, In (n ++ "_DATA")%string (dn ++ [ds]) <-> In (n ++ "_DATA")%string dn).
    { intros n. rewrite in_app_iff. cbn. split; [intros [H|[H|[]]]; [exact H|exfalso; apply (Hnot n); auto]|auto]. }
    rewrite Hshift. apply IH; [rewrite <- Hshift; exact Hnd|intros m Hm; apply Hr; right; exact Hm| |].
    + intros n. rewrite Hdn. apply Hlo.
    + destruct Hd as (K1 & K2 & K3). split; [exact K1|]. split.
      * intros n. rewrite K2. split; intros (m & H1 & H2); exists m; [rewrite Hdn|rewrite <- Hdn]; auto.
      * intros m x y H1. apply K3. rewrite <- Hdn. exact H1.
Qed.
End Extract.
