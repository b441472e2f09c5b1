(** Proofs about the experiment scripts. *)
From Coq Require Import String Ascii.
From Verif Require Import Base Experiment ExperimentSpec.
Local Open Scope string_scope.
Local Open Scope Z_scope.
Local Open Scope list_scope.

(** ** random queries *)
Lemma rows_ok count len o b : Forall (fun x : draw => 0 <= fst x < count /\ 0 <= fst (snd x) < len /\ 0 <= snd (snd x) < len) b ->
  Forall (fun q => q_outside q = o /\ stretch_of count (len - 1) q) (rows_of o b).
Proof.
  intros H. apply Forall_forall. intros q Hq. unfold rows_of in Hq. apply filter_In in Hq as [Hq Hl]. apply in_map_iff in Hq as ([i [s e]] & <- & Hx).
  rewrite Forall_forall in H. specialize (H _ Hx). simpl in *. apply Z.ltb_lt in Hl. unfold stretch_of. simpl. lia.
Qed.

Lemma gather_ok fuel n m count len o rnd i acc l : fair m count len rnd ->
  Forall (fun q => q_outside q = o /\ stretch_of count (len - 1) q) acc ->
  gather fuel n o rnd i acc = GRows l -> length l = n /\ Forall (fun q => q_outside q = o /\ stretch_of count (len - 1) q) l.
Proof.
  intros Hf. revert i acc. induction fuel as [|fuel IH]; intros i acc Ha E; [discriminate E|]. cbn [gather] in E.
  assert (Ha' : Forall (fun q => q_outside q = o /\ stretch_of count (len - 1) q) (acc ++ rows_of o (rnd i))).
  { apply Forall_app. split; [exact Ha|]. apply rows_ok. apply (Hf i). }
  destruct (Nat.ltb_spec (length (acc ++ rows_of o (rnd i))) n) as [Hlt|Hge]; [exact (IH _ _ Ha' E)|].
  injection E as <-. split; [rewrite firstn_length; lia|]. apply Forall_forall. intros q Hq.
  rewrite Forall_forall in Ha'. apply Ha'. rewrite <- (firstn_skipn n). apply in_app_iff. left; exact Hq.
Qed.

Lemma gather_endless fuel n m count len o rnd i acc : fair m count len rnd -> len <= 2 -> (length acc < n)%nat ->
  gather fuel n o rnd i acc = GEndless.
Proof.
  intros Hf Hl. revert i acc. induction fuel as [|fuel IH]; intros i acc Ha; [reflexivity|]. cbn [gather].
  assert (E : rows_of o (rnd i) = []).
  { destruct (rows_of o (rnd i)) as [|q r] eqn:E; [reflexivity|]. pose proof (rows_ok count len o (rnd i) (proj2 (Hf i))) as H.
    rewrite E in H. inversion H as [|x y Hx Hy]; subst. unfold stretch_of in Hx. lia. }
  rewrite E, app_nil_r. destruct (Nat.ltb_spec (length acc) n) as [Hlt|Hge]; [apply IH; exact Ha|lia].
Qed.

(** ** results *)
Definition ents (r : results) (d : string) : list entry := match entries d r with Some l => l | None => [] end.

Lemma ents_set d l r d' : ents (set_entries d l r) d' = if String.eqb d' d then l else ents r d'.
Proof.
  unfold ents. induction r as [|[n o] r IH]; simpl.
  - rewrite String.eqb_sym. destruct (String.eqb d' d); reflexivity.
  - destruct (String.eqb n d) eqn:E1; simpl; destruct (String.eqb n d') eqn:E2; simpl.
    + apply String.eqb_eq in E1, E2. subst. rewrite String.eqb_refl. reflexivity.
    + apply String.eqb_eq in E1. subst. rewrite String.eqb_sym in E2. rewrite E2. reflexivity.
    + apply String.eqb_eq in E2. subst. rewrite E1. reflexivity.
    + exact IH.
Qed.

Lemma has_ents r d e : has r d e <-> In e (ents r d).
Proof.
  unfold has, ents. destruct (entries d r) as [l|]; split.
  - intros (l' & E & H). injection E as <-. exact H.
  - intros H. exists l. auto.
  - intros (l' & E & _). discriminate E.
  - intros [].
Qed.

Lemma query_eqb_eq p q : query_eqb p q = true <-> p = q.
Proof.
  unfold query_eqb. rewrite !andb_true_iff, !Z.eqb_eq. destruct p, q; simpl. split; [intros [[[-> ->] ->] ->]; reflexivity|intros E; injection E as -> -> -> ->; auto].
Qed.

Lemma is_run_has m q r d : is_run m q (ents r d) = true <-> has_run r m d q.
Proof.
  unfold is_run, has_run. rewrite existsb_exists. split.
  - intros ([q' m' ans] & H & E). simpl in E. apply andb_true_iff in E as [E1 E2]. apply String.eqb_eq in E1. apply query_eqb_eq in E2. subst.
    exists ans. apply has_ents. exact H.
  - intros (ans & H). apply has_ents in H. eexists. split; [exact H|]. simpl. rewrite String.eqb_refl. simpl. apply query_eqb_eq. reflexivity.
Qed.

Lemma honest_ents l k r : honest l k r <->
  (forall d e, In e (ents r d) -> x_search l (e_method e) k d (e_query e) = Some (e_answer e)) /\
  (forall d, NoDup (map (fun e => (e_method e, e_query e)) (ents r d))).
Proof.
  unfold honest. split; intros [H1 H2]; split.
  - intros d e He. apply H1. apply has_ents. exact He.
  - intros d. unfold ents. destruct (entries d r) eqn:E; [exact (H2 d _ E)|constructor].
  - intros d e He. apply H1. apply has_ents. exact He.
  - intros d es E. specialize (H2 d). unfold ents in H2. rewrite E in H2. exact H2.
Qed.

Definition same (r r' : results) : Prop := forall d, ents r d = ents r' d.
(** entries are only added *)
Definition adds (r r' : results) : Prop := forall d e, In e (ents r d) -> In e (ents r' d).
Lemma adds_trans r s u : adds r s -> adds s u -> adds r u.
Proof. intros H1 H2 d e H. auto. Qed.
Lemma same_adds r s : same r s -> adds r s.
Proof. intros H d e He. rewrite <- H. exact He. Qed.
Lemma same_sym r s : same r s -> same s r.
Proof. intros H d. symmetry. apply H. Qed.
Lemma has_run_adds r s m d q : adds r s -> has_run r m d q -> has_run s m d q.
Proof. intros H (a & Ha). exists a. apply has_ents. apply H. apply has_ents. exact Ha. Qed.
Lemma honest_same l k r s : same r s -> honest l k r -> honest l k s.
Proof. intros H Hh. apply honest_ents in Hh as [H1 H2]. apply honest_ents. split; intros d; rewrite <- H; auto. Qed.

Lemma honest_add l k r m d q ans : honest l k r -> ~ has_run r m d q -> x_search l m k d q = Some ans ->
  honest l k (set_entries d (ents r d ++ [mkEntry q m ans]) r).
Proof.
  intros H Hn Es. apply honest_ents in H as [H1 H2]. apply honest_ents. split; intros d'; rewrite ents_set; destruct (String.eqb d' d) eqn:E; auto.
  - apply String.eqb_eq in E. subst d'. intros e He. apply in_app_iff in He. destruct He as [He|[<-|[]]]; [auto|exact Es].
  - rewrite map_app. simpl. specialize (H2 d). assert (X : ~ In (m, q) (map (fun e => (e_method e, e_query e)) (ents r d))).
    { intros Hin. apply in_map_iff in Hin as ([q' m' a'] & E' & Hin). simpl in E'. injection E' as -> ->. apply Hn. exists a'. apply has_ents. exact Hin. }
    clear - H2 X. induction (map _ _) as [|x y IH]; simpl; [repeat constructor; intros []|].
    inversion H2 as [|x0 y0 Hx Hy]; subst. constructor; [|apply IH; [exact Hy|intros Hz; apply X; right; exact Hz]].
    rewrite in_app_iff. intros [G|[G|[]]]; [exact (Hx G)|]. apply X. left. symmetry. exact G.
Qed.

Lemma adds_set r d e : adds r (set_entries d (ents r d ++ [e]) r).
Proof.
  intros d' e' H. rewrite ents_set. destruct (String.eqb d' d) eqn:E; [|exact H]. apply String.eqb_eq in E. subst. apply in_app_iff. left; exact H.
Qed.

(** an event of a run that started with the results [r] *)
Definition fine (l : xlib) (k : Z) (m : string) (r : results) (e : xevent) : Prop :=
  match e with
  | XDump r' => adds r r' /\ honest l k r'
  | XSearch d q => ~ has_run r m d q
  | XRows _ => False
  | _ => True
  end.
Lemma fine_adds l k m r s e : adds r s -> fine l k m s e -> fine l k m r e.
Proof.
  intros H. destruct e; simpl; auto.
  - intros Hn Hr. apply Hn. exact (has_run_adds _ _ _ _ _ H Hr).
  - intros [H1 H2]. split; [exact (adds_trans _ _ _ H H1)|exact H2].
Qed.

Lemma in_searches es x : In x (searches es) <-> In (XSearch (fst x) (snd x)) es.
Proof.
  unfold searches. rewrite in_flat_map. split.
  - intros (e & He & H). destruct e as [l|  |d q| |r|]; simpl in H; try contradiction. destruct H as [<-|[]]. exact He.
  - intros H. exists (XSearch (fst x) (snd x)). split; [exact H|]. destruct x. left. reflexivity.
Qed.
Lemma searches_app x y : searches (x ++ y) = searches x ++ searches y.
Proof. apply flat_map_app. Qed.

Lemma xreadable_dump x r : xreadable (mkX (x_queries x) (Some (XWhole r))) r.
Proof. reflexivity. Qed.

(** what a part of a run gives: its events [es] and outcome [o], from the results [r] *)
Definition part (l : xlib) (k : Z) (m : string) (todo : string -> query -> Prop) (r : results) (es : list xevent) (o : option results) : Prop :=
  Forall (fine l k m r) es /\ NoDup (searches es) /\
  (forall d q, In (d, q) (searches es) -> todo d q) /\
  (forall r', o = Some r' -> adds r r' /\ honest l k r' /\
     (forall d q, todo d q -> has_run r' m d q) /\
     (forall d q, has_run r' m d q -> has_run r m d q \/ In (d, q) (searches es)) /\
     (forall d q, In (d, q) (searches es) -> has_run r' m d q) /\
     (forall x rf, xreadable x rf -> same rf r -> exists rf', xreadable (xfinished es x) rf' /\ same rf' r')) /\
  ((forall d q, todo d q -> x_search l m k d q <> None) -> o <> None).

Lemma query_part l k m d qs r : honest l k r ->
  part l k m (fun d' q => d' = d /\ In q qs) r (fst (each_query l m k d qs r)) (snd (each_query l m k d qs r)).
Proof.
  revert r. induction qs as [|q qs IH]; intros r Hh.
  - simpl. split; [constructor|split; [constructor|split; [intros ? ? []|split; [|discriminate]]]].
    intros r' E. injection E as <-. split; [intros ? ? H; exact H|split; [exact Hh|split; [intros ? ? [_ []]|split; [intros ? ? H; left; exact H|split; [intros ? ? []|]]]]].
    intros x rf H1 H2. exists rf. auto.
  - cbn [each_query]. fold (ents r d). destruct (is_run m q (ents r d)) eqn:Er.
    + destruct (IH r Hh) as (H1 & H2 & H3 & H4 & H5). split; [exact H1|split; [exact H2|split; [|split]]].
      * intros d' q' H. destruct (H3 _ _ H) as [E H']. split; [exact E|right; exact H'].
      * intros r' E. destruct (H4 r' E) as (A & B & C & D). split; [exact A|split; [exact B|split; [|exact D]]].
        intros d' q' [-> [<-|H]]; [|apply C; auto]. apply (has_run_adds r); [exact A|]. apply is_run_has. exact Er.
      * intros H. apply H5. intros d' q' [E H']. apply H. split; [exact E|right; exact H'].
    + assert (Hn : ~ has_run r m d q) by (rewrite <- is_run_has; congruence).
      destruct (x_search l m k d q) as [ans|] eqn:Es.
      * set (r1 := set_entries d (ents r d ++ [mkEntry q m ans]) r).
        assert (Hh1 : honest l k r1) by (apply honest_add; assumption).
        assert (Ha1 : adds r r1) by apply adds_set.
        assert (Hr1 : has_run r1 m d q).
        { exists ans. apply has_ents. unfold r1. rewrite ents_set, String.eqb_refl. apply in_app_iff. right; left; reflexivity. }
        specialize (IH r1 Hh1). destruct (each_query l m k d qs r1) as [es o]. simpl in IH. destruct IH as (H1 & H2 & H3 & H4 & H5). simpl.
        split; [|split; [|split; [|split]]].
        -- constructor; [exact Hn|]. constructor; [exact I|]. constructor; [split; assumption|].
           eapply Forall_impl; [|exact H1]. intros e. apply fine_adds. exact Ha1.
        -- simpl. constructor; [|exact H2]. intros H. apply in_searches in H. rewrite Forall_forall in H1. exact (H1 _ H Hr1).
        -- intros d' q' [H|H]; [injection H as <- <-; split; [reflexivity|left; reflexivity]|]. destruct (H3 _ _ H) as [E H']. split; [exact E|right; exact H'].
        -- intros r' E. destruct (H4 r' E) as (A & B & C & D & F & G). split; [exact (adds_trans _ _ _ Ha1 A)|split; [exact B|split; [|split; [|split]]]].
           ++ intros d' q' [-> [<-|H]]; [exact (has_run_adds _ _ _ _ _ A Hr1)|apply C; auto].
           ++ intros d' q' H. destruct (D _ _ H) as [H'|H']; [|right; right; exact H'].
              destruct H' as (a' & Hx). apply has_ents in Hx. unfold r1 in Hx. rewrite ents_set in Hx. destruct (String.eqb d' d) eqn:E1.
              ** apply String.eqb_eq in E1. subst d'. apply in_app_iff in Hx. destruct Hx as [Hx|[Hx|[]]]; [left; exists a'; apply has_ents; exact Hx|].
                 injection Hx as <- _. right; left; reflexivity.
              ** left. exists a'. apply has_ents. exact Hx.
           ++ intros d' q' [H|H]; [injection H as <- <-; exact (has_run_adds _ _ _ _ _ A Hr1)|exact (F _ _ H)].
           ++ intros x rf _ _. apply (G (mkX (x_queries x) (Some (XWhole r1))) r1); [reflexivity|intros ?; reflexivity].
        -- intros H. apply H5. intros d' q' [E H']. apply H. split; [exact E|right; exact H'].
      * simpl. split; [repeat constructor; exact Hn|split; [repeat constructor; intros []|split; [|split]]].
        -- intros d' q' [H|[]]. injection H as <- <-. split; [reflexivity|left; reflexivity].
        -- intros r' E. discriminate E.
        -- intros H. contradiction (H d q (conj eq_refl (or_introl eq_refl))).
Qed.

Lemma nodup_app' {A} (x y : list A) : NoDup x -> NoDup y -> (forall z, In z x -> ~ In z y) -> NoDup (x ++ y).
Proof.
  induction x as [|a x IH]; intros Hx Hy H; [exact Hy|]. inversion Hx as [|a0 x0 Ha Hx0 E]; subst. simpl. constructor.
  - rewrite in_app_iff. intros [G|G]; [exact (Ha G)|exact (H a (or_introl eq_refl) G)].
  - apply IH; [exact Hx0|exact Hy|]. intros z Hz. apply H. right; exact Hz.
Qed.

Lemma dist_part l k m ds qs r : honest l k r ->
  part l k m (fun d q => In d ds /\ In q qs) r (fst (each_dist l m k ds qs r)) (snd (each_dist l m k ds qs r)).
Proof.
  revert r. induction ds as [|d ds IH]; intros r Hh.
  - simpl. split; [constructor|split; [constructor|split; [intros ? ? []|split; [|discriminate]]]].
    intros r' E. injection E as <-. split; [intros ? ? H; exact H|split; [exact Hh|split; [intros ? ? [[] _]|split; [intros ? ? H; left; exact H|split; [intros ? ? []|]]]]].
    intros x rf H1 H2. exists rf. auto.
  - cbn [each_dist]. set (r0 := match entries d r with Some _ => r | None => set_entries d [] r end).
    assert (S0 : same r r0).
    { unfold r0. destruct (entries d r) eqn:E; intros d'; [reflexivity|]. rewrite ents_set. destruct (String.eqb d' d) eqn:E'; [|reflexivity].
      apply String.eqb_eq in E'. subst. unfold ents. rewrite E. reflexivity. }
    pose proof (honest_same _ _ _ _ S0 Hh) as Hh0. pose proof (same_adds _ _ S0) as A0. pose proof (same_adds _ _ (same_sym _ _ S0)) as A0'.
    pose proof (query_part l k m d qs r0 Hh0) as Q. destruct (each_query l m k d qs r0) as [es [r1|]]; simpl in Q; destruct Q as (H1 & H2 & H3 & H4 & H5).
    + destruct (H4 r1 eq_refl) as (A & B & C & D & F & G). specialize (IH r1 B). destruct (each_dist l m k ds qs r1) as [es' o']. simpl in IH.
      destruct IH as (I1 & I2 & I3 & I4 & I5). simpl. split; [|split; [|split; [|split]]].
      * apply Forall_app. split; [eapply Forall_impl; [|exact H1]; intros e; apply fine_adds; exact A0|].
        eapply Forall_impl; [|exact I1]. intros e. apply fine_adds. exact (adds_trans _ _ _ A0 A).
      * rewrite searches_app. apply nodup_app'; [exact H2|exact I2|]. intros [d' q'] Hx Hy. apply in_searches in Hy. rewrite Forall_forall in I1. exact (I1 _ Hy (F _ _ Hx)).
      * intros d' q' H. rewrite searches_app in H. apply in_app_iff in H. destruct H as [H|H].
        -- destruct (H3 _ _ H) as [-> Hq]. split; [left; reflexivity|exact Hq].
        -- destruct (I3 _ _ H) as [Hd Hq]. split; [right; exact Hd|exact Hq].
      * intros r' E. destruct (I4 r' E) as (A' & B' & C' & D' & F' & G').
        split; [exact (adds_trans _ _ _ A0 (adds_trans _ _ _ A A'))|split; [exact B'|split; [|split; [|split]]]].
        -- intros d' q' [[<-|Hd] Hq]; [apply (has_run_adds r1); [exact A'|apply C; auto]|apply C'; auto].
        -- intros d' q' H. rewrite searches_app, in_app_iff. destruct (D' _ _ H) as [H'|H']; [|tauto]. destruct (D _ _ H') as [H''|H'']; [|tauto].
           left. exact (has_run_adds _ _ _ _ _ A0' H'').
        -- intros d' q' H. rewrite searches_app in H. apply in_app_iff in H. destruct H as [H|H]; [exact (has_run_adds _ _ _ _ _ A' (F _ _ H))|exact (F' _ _ H)].
        -- intros x rf Hx Hs. destruct (G x rf Hx) as (rf1 & X1 & S1); [intros d'; rewrite Hs; apply S0|].
           destruct (G' _ _ X1 S1) as (rf2 & X2 & S2). exists rf2. split; [|exact S2]. unfold xfinished in *. rewrite fold_left_app. exact X2.
      * intros H. apply I5. intros d' q' [Hd Hq]. apply H. split; [right; exact Hd|exact Hq].
    + simpl. split; [|split; [exact H2|split; [|split]]].
      * eapply Forall_impl; [|exact H1]. intros e. apply fine_adds. exact A0.
      * intros d' q' H. destruct (H3 _ _ H) as [-> Hq]. split; [left; reflexivity|exact Hq].
      * intros r' E. discriminate E.
      * intros H. contradiction H5; [|reflexivity]. intros d' q' [-> Hq]. apply H. split; [left; reflexivity|exact Hq].
Qed.

Lemma method_part l k m ds qs f r : honest l k r -> xreadable (mkX None f) r ->
  part l k m (fun d q => In d ds /\ In q qs) r (fst (run_method l m k ds qs f)) (snd (run_method l m k ds qs f)) \/ x_load l = false.
Proof.
  intros Hh Hr. unfold run_method. destruct (x_load l); [left|right; reflexivity].
  assert (E : f = None /\ r = [] \/ f = Some (XWhole r)).
  { unfold xreadable in Hr. simpl in Hr. destruct f as [[r'|]|]; [right; subst; reflexivity|destruct Hr|left; auto]. }
  assert (P : part l k m (fun d q => In d ds /\ In q qs) r
    (fst (let (es, o) := each_dist l m k ds qs r in match o with Some r' => (XLoad :: es ++ [XUnload], Some r') | None => (XLoad :: es, None) end))
    (snd (let (es, o) := each_dist l m k ds qs r in match o with Some r' => (XLoad :: es ++ [XUnload], Some r') | None => (XLoad :: es, None) end))).
  { destruct (dist_part l k m ds qs r Hh) as (H1 & H2 & H3 & H4 & H5). destruct (each_dist l m k ds qs r) as [es [r'|]]; simpl in *.
    - assert (Q : searches (XLoad :: es ++ [XUnload]) = searches es) by (change (searches (es ++ [XUnload]) = searches es); rewrite searches_app; simpl; apply app_nil_r).
      split; [|split; [|split; [|split]]].
      + constructor; [exact I|]. apply Forall_app. split; [exact H1|repeat constructor].
      + rewrite Q. exact H2.
      + rewrite Q. exact H3.
      + rewrite Q. intros q Eq. injection Eq as <-. destruct (H4 r' eq_refl) as (A & B & C & D & F & G). repeat (split; [assumption|]).
        intros x rf Hx Hs. destruct (G x rf Hx Hs) as (rf' & X & S). exists rf'. split; [|exact S].
        change (xfinished (XLoad :: es ++ [XUnload]) x) with (xfinished (es ++ [XUnload]) x). unfold xfinished in *. rewrite fold_left_app. exact X.
      + discriminate.
    - split; [constructor; [exact I|exact H1]|split; [exact H2|split; [exact H3|split; [intros r' Eq; discriminate Eq|exact H5]]]]. }
  destruct E as [[-> ->]| ->]; exact P.
Qed.

(** files after an interrupted run *)
Lemma xleft_results es x x' : xleft es x x' ->
  x_results x' = x_results x \/ x_results x' = Some XCut \/ exists r, In (XDump r) es /\ x_results x' = Some (XWhole r).
Proof.
  intros (n & ->). revert n x. induction es as [|e es IH]; intros n x; [rewrite firstn_nil; left; reflexivity|].
  destruct n as [|n]; [left; reflexivity|]. simpl. destruct (IH n (xafter x e)) as [H|[H|(r & H1 & H2)]]; [|auto|right; right; eauto].
  rewrite H. destruct e as [q| |d q| |r|]; simpl; auto. right; right. exists r. auto.
Qed.

Lemma rows_events qs e : In e (write_rows qs) -> exists q, e = XRows q.
Proof. unfold write_rows. intros H. apply in_map_iff in H as (n & <- & _). eauto. Qed.

Lemma experiment_dump l m k ds fresh x r : In (XDump r) (fst (experiment l m k ds fresh x)) ->
  exists qs, In (XDump r) (fst (run_method l m k ds qs (x_results x))).
Proof.
  unfold experiment. destruct (x_queries x) as [qs|]; [eauto|].
  destruct (run_method l m k ds fresh (x_results x)) as [es o] eqn:E. cbn [fst]. intros H. apply in_app_iff in H. destruct H as [H|H].
  - apply rows_events in H as (q & H). discriminate H.
  - exists fresh. rewrite E. exact H.
Qed.

Lemma method_dump l k m ds qs f r0 r : honest l k r0 -> xreadable (mkX None f) r0 ->
  In (XDump r) (fst (run_method l m k ds qs f)) -> adds r0 r /\ honest l k r.
Proof.
  intros Hh Hr H. destruct (method_part l k m ds qs f r0 Hh Hr) as [(H1 & _)|E].
  - rewrite Forall_forall in H1. exact (H1 _ H).
  - unfold run_method in H. rewrite E in H. destruct H as [H|[]]. discriminate H.
Qed.

Lemma xreadable_q x r q : xreadable x r -> xreadable (mkX q (x_results x)) r.
Proof. auto. Qed.

(** histories *)
Lemma runs_honest l k x x' r r' : runs l k x x' -> xreadable x r -> honest l k r -> xreadable x' r' -> adds r r' /\ honest l k r'.
Proof.
  intros H. revert r. induction H as [x|m ds fresh x x1 x2 Hl H IH]; intros r Hr Hh Hr'.
  - assert (r' = r) by (unfold xreadable in *; destruct (x_results x) as [[?|]|]; congruence || contradiction). subst. split; [intros ? ? G; exact G|exact Hh].
  - assert (X : x_results x1 = Some XCut \/ exists r1, xreadable x1 r1 /\ adds r r1 /\ honest l k r1).
    { destruct (xleft_results _ _ _ Hl) as [E|[E|(r1 & Hin & E)]]; [|left; exact E|].
      - right. exists r. split; [unfold xreadable in *; rewrite E; exact Hr|]. split; [intros ? ? G; exact G|exact Hh].
      - right. exists r1. split; [unfold xreadable; rewrite E; reflexivity|]. apply experiment_dump in Hin as (qs & Hin).
        exact (method_dump _ _ _ _ _ _ _ _ Hh Hr Hin). }
    destruct X as [X|(r1 & R1 & A1 & Hh1)].
    + exfalso. assert (C : x_results x2 = Some XCut).
      { clear - H X. induction H as [x|m ds fresh x x1 x2 Hl H IH]; [exact X|]. apply IH.
        destruct (xleft_results _ _ _ Hl) as [E|[E|(r1 & Hin & E)]]; [congruence|exact E|].
        apply experiment_dump in Hin as (qs & Hin). unfold run_method in Hin. rewrite X in Hin. destruct (x_load l); destruct Hin as [Hin|[]]; discriminate Hin. }
      unfold xreadable in Hr'. rewrite C in Hr'. exact Hr'.
    + destruct (IH r1 R1 Hh1 Hr') as [A2 H2]. split; [exact (adds_trans _ _ _ A1 A2)|exact H2].
Qed.
