(** C80: the experiment scripts: their random queries and their results files. *)
From Coq Require Import String Ascii.
From Verif Require Import Base Experiment ExperimentSpec ExperimentProofs.
Local Open Scope string_scope.
Local Open Scope Z_scope.
Local Open Scope list_scope.

(** ** queries *)

(** Whatever the random numbers: as many queries as asked for; the first half, rounded down,
    are stretches of at least two points of the data set, the others of the queries data set. *)
Theorem C80_queries fuel nquery incount inlen outcount outlen rin rout qs :
  fair (Nat.div nquery 2) incount inlen rin -> fair (nquery - Nat.div nquery 2) outcount outlen rout ->
  get_queries fuel nquery incount inlen outcount outlen rin rout = GRows qs ->
  length qs = nquery /\
  Forall (fun q => q_outside q = 0 /\ stretch_of incount (inlen - 1) q) (firstn (Nat.div nquery 2) qs) /\
  Forall (fun q => q_outside q = 1 /\ stretch_of outcount (outlen - 1) q) (skipn (Nat.div nquery 2) qs).
Proof.
  intros Fi Fo E. unfold get_queries in E. destruct (generate fuel (Nat.div nquery 2) incount inlen 0 rin) as [a| |] eqn:E1; try discriminate E.
  destruct (generate fuel (nquery - Nat.div nquery 2) outcount outlen 1 rout) as [b| |] eqn:E2; try discriminate E. injection E as <-.
  unfold generate in E1, E2. destruct ((incount <=? 0) || (inlen <=? 0)); [discriminate E1|]. destruct ((outcount <=? 0) || (outlen <=? 0)); [discriminate E2|].
  destruct (gather_ok _ _ _ _ _ _ _ _ _ _ Fi (Forall_nil _) E1) as [L1 A1]. destruct (gather_ok _ _ _ _ _ _ _ _ _ _ Fo (Forall_nil _) E2) as [L2 A2].
  assert (H : (Nat.div nquery 2 <= nquery)%nat) by (apply Nat.div_le_upper_bound; lia).
  split; [rewrite app_length; lia|]. rewrite <- L1. rewrite firstn_app, Nat.sub_diag, firstn_all, skipn_app, Nat.sub_diag, skipn_all. simpl.
  rewrite app_nil_r. auto.
Qed.

(** Every such stretch that leaves out the last point of its series can come up. *)
Theorem C80_every_stretch n count len q : (0 < n)%nat -> stretch_of count (len - 1) q ->
  exists rnd, fair n count len rnd /\ exists fuel, generate fuel n count len (q_outside q) rnd = GRows (repeat q n).
Proof.
  intros Hn (H1 & H2 & H3). exists (fun _ => repeat (q_index q, (q_start q, q_end q)) n). split.
  - intros i. split; [apply repeat_length|]. apply Forall_forall. intros x Hx. apply repeat_spec in Hx. subst. simpl. lia.
  - exists 1%nat. unfold generate. destruct (Z.leb_spec count 0); [lia|]. destruct (Z.leb_spec len 0); [lia|]. cbn [orb gather app].
    assert (E : rows_of (q_outside q) (repeat (q_index q, (q_start q, q_end q)) n) = repeat q n).
    { clear Hn. induction n as [|n IH]; [reflexivity|]. unfold rows_of in *. cbn [repeat map filter fst snd q_end q_start].
      rewrite Z.max_r, Z.min_l by lia. destruct (Z.ltb_spec 1 (q_end q - q_start q)); [|lia]. rewrite IH. destruct q; reflexivity. }
    rewrite E, repeat_length, Nat.ltb_irrefl. f_equal. apply firstn_all2. rewrite repeat_length. lia.
Qed.

(** Not every stretch: no query ever reaches the last point of a series, so a whole series is
    never a query. *)
Theorem C80_last_point_refuted fuel nquery incount inlen outcount outlen rin rout qs q :
  fair (Nat.div nquery 2) incount inlen rin -> fair (nquery - Nat.div nquery 2) outcount outlen rout ->
  get_queries fuel nquery incount inlen outcount outlen rin rout = GRows qs ->
  In q qs -> q_end q < (if q_outside q =? 0 then inlen else outlen).
Proof.
  intros Fi Fo E Hq. destruct (C80_queries _ _ _ _ _ _ _ _ _ Fi Fo E) as (_ & A & B).
  rewrite <- (firstn_skipn (Nat.div nquery 2) qs) in Hq. apply in_app_iff in Hq. rewrite Forall_forall in A, B.
  destruct Hq as [Hq|Hq]; [destruct (A _ Hq) as [-> (_ & _ & H)]|destruct (B _ Hq) as [-> (_ & _ & H)]]; simpl; lia.
Qed.

(** For series of one or two points the scripts never come to an end. *)
Theorem C80_short_refuted fuel n count len outside rnd : 0 < count -> 0 < len <= 2 -> (0 < n)%nat -> fair n count len rnd ->
  generate fuel n count len outside rnd = GEndless.
Proof.
  intros Hc Hl Hn Hf. unfold generate. destruct (Z.leb_spec count 0); [lia|]. destruct (Z.leb_spec len 0); [lia|]. cbn [orb].
  apply (gather_endless _ _ n count len); [exact Hf|lia|exact Hn].
Qed.

(** ** results *)

(** After any runs of the scripts for the same number of matches, killed anywhere, that left
    the results file readable, a run that is not killed makes exactly the searches not
    recorded, each once; then every query has one entry, which is what the library answers, and
    no earlier entry is lost. *)
Theorem C80_results l k m ds fresh x0 x1 r1 qs :
  x_results x0 = None -> runs l k x0 x1 -> xreadable x1 r1 -> x_queries x1 = Some qs ->
  x_load l = true -> (forall d q, In d ds -> In q qs -> x_search l m k d q <> None) ->
  let es := fst (experiment l m k ds fresh x1) in
  NoDup (searches es) /\
  (forall d q, In (d, q) (searches es) <-> (In d ds /\ In q qs) /\ ~ has_run r1 m d q) /\
  exists r2, xreadable (xfinished es x1) r2 /\ honest l k r2 /\
    (forall d e, has r1 d e -> has r2 d e) /\
    (forall d q, In d ds -> In q qs -> exists ans, x_search l m k d q = Some ans /\ has r2 d (mkEntry q m ans)).
Proof.
  intros X0 Hruns R1 Q1 Hload Hw. assert (H0 : honest l k []) by (split; [intros d e (l' & E & _); discriminate E|intros d es E; discriminate E]).
  assert (R0 : xreadable x0 []) by (unfold xreadable; rewrite X0; reflexivity).
  destruct (runs_honest _ _ _ _ _ _ Hruns R0 H0 R1) as [_ Hh]. unfold experiment. rewrite Q1.
  destruct (method_part l k m ds qs (x_results x1) r1 Hh R1) as [(H1 & H2 & H3 & H4 & H5)|E]; [|congruence].
  destruct (run_method l m k ds qs (x_results x1)) as [es [r'|]]; cbn [fst snd] in *; [|contradiction H5; [intros d q [Hd Hq]; exact (Hw d q Hd Hq)|reflexivity]].
  destruct (H4 r' eq_refl) as (A & B & C & D & F & G). split; [exact H2|split].
  - intros d q. split.
    + intros H. split; [exact (H3 _ _ H)|]. apply in_searches in H. rewrite Forall_forall in H1. exact (H1 _ H).
    + intros [Hin Hn]. destruct (D _ _ (C _ _ Hin)) as [H|H]; [contradiction|exact H].
  - destruct (G x1 r1 R1) as (r2 & X2 & S2); [intros d; reflexivity|]. exists r2. split; [exact X2|].
    pose proof (same_adds _ _ (same_sym _ _ S2)) as A2. pose proof (honest_same _ _ _ _ (same_sym _ _ S2) B) as Hh2. split; [exact Hh2|split].
    + intros d e He. apply has_ents. apply A2. apply A. apply has_ents. exact He.
    + intros d q Hd Hq. destruct (has_run_adds _ _ _ _ _ A2 (C d q (conj Hd Hq))) as (ans & Hans). exists ans. split; [|exact Hans].
      exact (proj1 Hh2 d _ Hans).
Qed.

(** Once the query file is there, all the scripts use the same queries. *)
Lemma fine_no_rows l k m ds qs f q : ~ In (XRows q) (fst (run_method l m k ds qs f)).
Proof.
  assert (J : forall d qq r, ~ In (XRows q) (fst (each_query l m k d qq r))).
  { intros d. induction qq as [|q0 qs0 IH]; intros r; [intros []|]. cbn [each_query]. destruct (is_run m q0 _); [apply IH|].
    destruct (x_search l m k d q0) as [ans|]; [|intros [H|[]]; discriminate H].
    specialize (IH (set_entries d ((match entries d r with Some o => o | None => [] end) ++ [mkEntry q0 m ans]) r)).
    destruct (each_query l m k d qs0 _) as [es o]. intros [H|[H|[H|H]]]; try discriminate H. exact (IH H). }
  assert (K : forall dd qq r, ~ In (XRows q) (fst (each_dist l m k dd qq r))).
  { induction dd as [|d ds0 IH]; intros qs0 r; [intros []|]. cbn [each_dist]. specialize (J d qs0 (match entries d r with Some _ => r | None => set_entries d [] r end)).
    destruct (each_query l m k d qs0 _) as [es [r'|]]; [|exact J]. specialize (IH qs0 r'). destruct (each_dist l m k ds0 qs0 r') as [es' o'].
    cbn [fst] in *. rewrite in_app_iff. tauto. }
  unfold run_method. destruct (x_load l); [|intros [H|[]]; discriminate H].
  assert (S : forall r, ~ In (XRows q) (fst (let (es, o) := each_dist l m k ds qs r in match o with Some r' => (XLoad :: es ++ [XUnload], Some r') | None => (XLoad :: es, None) end))).
  { intros r. specialize (K ds qs r). destruct (each_dist l m k ds qs r) as [es [r'|]]; cbn [fst] in *.
    - intros [H|H]; [discriminate H|]. apply in_app_iff in H. destruct H as [H|[H|[]]]; [exact (K H)|discriminate H].
    - intros [H|H]; [discriminate H|exact (K H)]. }
  destruct f as [[r|]|]; [apply S|intros [H|[]]; discriminate H|apply S].
Qed.
Lemma xleft_queries es x x' : xleft es x x' -> (forall q, ~ In (XRows q) es) -> x_queries x' = x_queries x.
Proof.
  intros (n & ->). revert n x. induction es as [|e es IH]; intros n x H; [rewrite firstn_nil; reflexivity|].
  destruct n as [|n]; [reflexivity|]. simpl. rewrite (IH n (xafter x e)) by (intros q Hq; exact (H q (or_intror Hq))).
  destruct e as [q| |d q| |r|]; try reflexivity. contradiction (H q (or_introl eq_refl)).
Qed.
Theorem C80_same_queries l k x x' qs : runs l k x x' -> x_queries x = Some qs -> x_queries x' = Some qs.
Proof.
  induction 1 as [x|m ds fresh x x1 x2 Hl H IH]; intros E; [exact E|]. apply IH. rewrite <- E. apply (xleft_queries _ _ _ Hl).
  intros q. unfold experiment. rewrite E. apply fine_no_rows.
Qed.

(** But if the first run is killed while it writes them, all later runs use fewer queries than
    asked for, without saying so. *)
Theorem C80_fewer_refuted l k m ds fresh x n : x_queries x = None -> (n <= length fresh)%nat ->
  exists x1, xleft (fst (experiment l m k ds fresh x)) x x1 /\ forall x2, runs l k x1 x2 -> x_queries x2 = Some (firstn n fresh).
Proof.
  intros Q Hn. exists (fold_left xafter (firstn (S n) (fst (experiment l m k ds fresh x))) x). split; [exists (S n); reflexivity|].
  intros x2 H. refine (C80_same_queries _ _ _ _ _ H _). unfold experiment. rewrite Q.
  destruct (run_method l m k ds fresh (x_results x)) as [es o]. cbn [fst].
  rewrite firstn_app. replace (S n - length (write_rows fresh))%nat with 0%nat by (unfold write_rows; rewrite map_length, seq_length; lia).
  change (firstn 0 es) with (@nil xevent). rewrite app_nil_r. unfold write_rows. rewrite firstn_map.
  assert (E : firstn (S n) (seq 0 (S (length fresh))) = seq 0 n ++ [n]).
  { replace (S (length fresh)) with (S n + (length fresh - n))%nat by lia. rewrite seq_app, firstn_app, seq_length, Nat.sub_diag. rewrite firstn_O, app_nil_r, firstn_all2 by (rewrite seq_length; lia). apply seq_S. }
  rewrite E, map_app, fold_left_app. reflexivity.
Qed.

(** A run killed while it writes the results loses the results of all methods for the data set, and no
    later run of any of the scripts searches it again. *)
Theorem C80_killed_refuted l k m ds fresh x r : In (XDump r) (fst (experiment l m k ds fresh x)) ->
  exists x1, xleft (fst (experiment l m k ds fresh x)) x x1 /\ x_results x1 = Some XCut /\
    forall m' k' ds' fresh', searches (fst (experiment l m' k' ds' fresh' x1)) = [] /\ snd (experiment l m' k' ds' fresh' x1) = None.
Proof.
  intros H. apply experiment_dump in H as Hm. destruct Hm as (qs & Hm).
  assert (T : In XTrunc (fst (experiment l m k ds fresh x))).
  { assert (J : forall d qq r0, In (XDump r) (fst (each_query l m k d qq r0)) -> In XTrunc (fst (each_query l m k d qq r0))).
    { intros d. induction qq as [|q0 qs0 IH]; intros r0; [intros []|]. cbn [each_query]. destruct (is_run m q0 _); [apply IH|].
      destruct (x_search l m k d q0) as [ans|]; [|intros [G|[]]; discriminate G]. destruct (each_query l m k d qs0 _) as [es o]. intros _. right; left; reflexivity. }
    assert (K : forall dd qq r0, In (XDump r) (fst (each_dist l m k dd qq r0)) -> In XTrunc (fst (each_dist l m k dd qq r0))).
    { induction dd as [|d ds0 IH]; intros qs0 r0; [intros []|]. cbn [each_dist]. specialize (J d qs0 (match entries d r0 with Some _ => r0 | None => set_entries d [] r0 end)).
      destruct (each_query l m k d qs0 _) as [es [r'|]]; [|exact J]. specialize (IH qs0 r'). destruct (each_dist l m k ds0 qs0 r') as [es' o'].
      cbn [fst] in *. rewrite !in_app_iff. tauto. }
    assert (M : forall qs, In (XDump r) (fst (run_method l m k ds qs (x_results x))) -> In XTrunc (fst (run_method l m k ds qs (x_results x)))).
    { intros qs0. unfold run_method. destruct (x_load l); [|intros [G|[]]; discriminate G].
      assert (S : forall r0, In (XDump r) (fst (let (es, o) := each_dist l m k ds qs0 r0 in match o with Some r' => (XLoad :: es ++ [XUnload], Some r') | None => (XLoad :: es, None) end)) ->
        In XTrunc (fst (let (es, o) := each_dist l m k ds qs0 r0 in match o with Some r' => (XLoad :: es ++ [XUnload], Some r') | None => (XLoad :: es, None) end))).
      { intros r0. specialize (K ds qs0 r0). destruct (each_dist l m k ds qs0 r0) as [es [r'|]]; cbn [fst] in *.
        - intros [G|G]; [discriminate G|]. apply in_app_iff in G. destruct G as [G|[G|[]]]; [right; apply in_app_iff; left; exact (K G)|discriminate G].
        - intros [G|G]; [discriminate G|right; exact (K G)]. }
      destruct (x_results x) as [[r0|]|]; [apply S|intros [G|[]]; discriminate G|apply S]. }
    revert H. unfold experiment. destruct (x_queries x) as [q|]; [apply M|]. specialize (M fresh). destruct (run_method l m k ds fresh (x_results x)) as [es o]. cbn [fst] in *.
    rewrite !in_app_iff. intros [G|G]; [apply rows_events in G as (q & G); discriminate G|right; exact (M G)]. }
  clear H Hm qs. assert (G : forall es x, In XTrunc es -> exists x1, xleft es x x1 /\ x_results x1 = Some XCut).
  { induction es as [|e es IH]; intros x0 G; [destruct G|]. destruct G as [->|G].
    - exists (xafter x0 XTrunc). split; [exists 1%nat; reflexivity|reflexivity].
    - destruct (IH (xafter x0 e) G) as (x1 & (n & Hn) & E). exists x1. split; [exists (S n); exact Hn|exact E]. }
  destruct (G _ x T) as (x1 & L & E). exists x1. split; [exact L|split; [exact E|]]. intros m' k' ds' fresh'. unfold experiment, run_method. rewrite E.
  assert (W : searches (write_rows fresh') = []) by (unfold write_rows; induction (seq 0 (S (length fresh'))) as [|a b IHb]; [reflexivity|exact IHb]).
  destruct (x_queries x1); destruct (x_load l); try (split; reflexivity); cbn [fst snd]; rewrite searches_app, W; split; reflexivity.
Qed.

(** The number of matches is not recorded: after a run for one number, a run for any other
    number makes no search and leaves the old results in place. *)
Theorem C80_other_k_refuted l m k' ds fresh x qs r : x_queries x = Some qs -> x_results x = Some (XWhole r) -> x_load l = true ->
  (forall d q, In d ds -> In q qs -> has_run r m d q) ->
  searches (fst (experiment l m k' ds fresh x)) = [] /\ snd (experiment l m k' ds fresh x) <> None /\
  xfinished (fst (experiment l m k' ds fresh x)) x = x.
Proof.
  intros Q E Hload Hall. unfold experiment, run_method. rewrite Q, Hload, E.
  assert (J : forall d qs r, (forall q, In q qs -> has_run r m d q) -> each_query l m k' d qs r = ([], Some r)).
  { intros d qs0. induction qs0 as [|q qs0 IH]; intros r0 H; [reflexivity|]. cbn [each_query]. fold (ents r0 d).
    rewrite (proj2 (is_run_has m q r0 d) (H q (or_introl eq_refl))). apply IH. intros q' Hq. apply H. right; exact Hq. }
  assert (K : forall dd r, (forall d q, In d dd -> In q qs -> has_run r m d q) -> exists r', each_dist l m k' dd qs r = ([], Some r')).
  { induction dd as [|d ds0 IH]; intros r0 H; [exists r0; reflexivity|]. cbn [each_dist].
    assert (S0 : same r0 (match entries d r0 with Some _ => r0 | None => set_entries d [] r0 end)).
    { destruct (entries d r0) eqn:E0; intros d'; [reflexivity|]. rewrite ents_set. destruct (String.eqb d' d) eqn:E'; [|reflexivity].
      apply String.eqb_eq in E'. subst. unfold ents. rewrite E0. reflexivity. }
    rewrite J by (intros q Hq; apply (has_run_adds r0); [apply same_adds; exact S0|apply H; [left; reflexivity|exact Hq]]).
    destruct (IH (match entries d r0 with Some _ => r0 | None => set_entries d [] r0 end)) as (r' & ->).
    - intros d' q Hd Hq. apply (has_run_adds r0); [apply same_adds; exact S0|apply H; [right; exact Hd|exact Hq]].
    - exists r'. reflexivity. }
  destruct (K ds r Hall) as (r' & ->). simpl. split; [reflexivity|split; [discriminate|reflexivity]].
Qed.

(** ** examples *)
Definition ex_rnd (i : nat) : list draw := [(0, (3, 1)); (1, (2, 2))].
Example C80_example_queries : fair 2 2 4 ex_rnd /\
  generate 5 2 2 4 0 ex_rnd = GRows [mkQuery 0 1 3 0; mkQuery 0 1 3 0].
Proof. split; [intros i; split; [reflexivity|repeat constructor; simpl; lia]|reflexivity]. Qed.

Definition ex_xlib : xlib := mkXLib true (fun m k d q => Some (m ++ d ++ (if (k =? 1)%Z then "1" else "15"))%string).
Definition ex_q1 : query := mkQuery 0 1 3 0.
Definition ex_q2 : query := mkQuery 0 0 3 1.
Definition ex_x0 : xdisk := mkX None None.
(** brute force killed after the first query, then finished; then PAA *)
Definition ex_x1 : xdisk := fold_left xafter (firstn 8 (fst (experiment ex_xlib "bf" 15 ["euclidean"] [ex_q1; ex_q2] ex_x0))) ex_x0.
Example C80_example_resume : runs ex_xlib 15 ex_x0 ex_x1 /\
  xreadable ex_x1 [("euclidean", [mkEntry ex_q1 "bf" "bfeuclidean15"])] /\ x_queries ex_x1 = Some [ex_q1; ex_q2] /\
  searches (fst (experiment ex_xlib "bf" 15 ["euclidean"] [] ex_x1)) = [("euclidean", ex_q2)] /\
  searches (fst (experiment ex_xlib "paa" 15 ["euclidean"] [] ex_x1)) = [("euclidean", ex_q1); ("euclidean", ex_q2)].
Proof.
  split; [|split; [reflexivity|split; [reflexivity|split; reflexivity]]].
  apply (r_run _ _ "bf" ["euclidean"] [ex_q1; ex_q2] ex_x0 ex_x1 ex_x1); [exists 8%nat; reflexivity|constructor].
Qed.
(** one match instead of fifteen: the library answers something else, but is not asked *)
Definition ex_x2 : xdisk := xfinished (fst (experiment ex_xlib "bf" 15 ["euclidean"] [] ex_x1)) ex_x1.
Example C80_example_other_k :
  searches (fst (experiment ex_xlib "bf" 1 ["euclidean"] [] ex_x2)) = [] /\
  x_results (xfinished (fst (experiment ex_xlib "bf" 1 ["euclidean"] [] ex_x2)) ex_x2) =
    Some (XWhole [("euclidean", [mkEntry ex_q1 "bf" "bfeuclidean15"; mkEntry ex_q2 "bf" "bfeuclidean15"])]) /\
  x_search ex_xlib "bf" 1 "euclidean" ex_q1 = Some "bfeuclidean1".
Proof. repeat split. Qed.
Example C80_example_killed : In (XDump [("euclidean", [mkEntry ex_q1 "bf" "bfeuclidean15"])]) (fst (experiment ex_xlib "bf" 15 ["euclidean"] [ex_q1; ex_q2] ex_x0)).
Proof. simpl. auto 10. Qed.

Print Assumptions C80_queries.
Print Assumptions C80_every_stretch.
Print Assumptions C80_last_point_refuted.
Print Assumptions C80_short_refuted.
Print Assumptions C80_results.
Print Assumptions C80_same_queries.
Print Assumptions C80_fewer_refuted.
Print Assumptions C80_killed_refuted.
Print Assumptions C80_other_k_refuted.
