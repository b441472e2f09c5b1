(** Property C39, continued: equality of time series objects as a relation.  Specification: TSObjSpec.v. *)
From Coq Require Import String Lia.
From Flocq Require Import IEEE754.BinarySingleNaN.
From Verif Require Import Base Num NumB64 NumLaws NumB64Laws LoopFacts TimeSeries Distance DtwSpec DistSpec DistLink PropsDistance
  TSObject TSObjSpec TSObjProofs TSObjOwn TSObjValue PropsObject PropsSwap.
Local Open Scope Z_scope.
Local Open Scope list_scope.

(** the series has its points, or it has lost them to another series in a move *)
Definition usable (w : bworld) (i : nat) : Prop :=
  exists o, get_obj w i = Some o /\ (o_data o = None \/ exists pts, points w i pts).

(** ** from here on proofs *)
Lemma ptr_eqb_true p q : ptr_eqb p q = true <-> p = q.
Proof.
  destruct p as [[b o]|], q as [[b' o']|]; cbn [ptr_eqb]; try (split; [discriminate|congruence]); [|split; auto].
  rewrite Bool.andb_true_iff, Nat.eqb_eq, Z.eqb_eq. split; [intros [-> ->]; reflexivity|intros E; injection E as -> ->; auto].
Qed.
Lemma near_comm x y : near x y -> near y x.
Proof. unfold near. rewrite (abs_diff_comm y x). auto. Qed.
Lemma nears_comm xs ys : Forall2 near xs ys -> Forall2 near ys xs.
Proof. induction 1; constructor; [apply near_comm|]; assumption. Qed.

(** a series equals itself, whatever its points are and even if it has lost them in a move *)
Theorem C39_equal_itself : forall (w : bworld) (i : nat) (o : obj B64), get_obj w i = Some o ->
  exec (OEq i i) w = (w, Ret (VBool true)).
Proof.
  intros w i o Hi. cbn [exec]. unfold ts_eq. rewrite Hi. rewrite (proj2 (ptr_eqb_true _ _) eq_refl). reflexivity.
Qed.
Print Assumptions C39_equal_itself.

(** series that have lost their points in a move equal each other and nothing else *)
Theorem C39_equal_moved : forall (w : bworld) (i j : nat) (oi oj : obj B64), get_obj w i = Some oi -> get_obj w j = Some oj ->
  o_data oi = None -> exists b, exec (OEq i j) w = (w, Ret (VBool b)) /\ exec (OEq j i) w = (w, Ret (VBool b)) /\ (b = true <-> o_data oj = None).
Proof.
  intros w i j oi oj Hi Hj Hn. cbn [exec]. unfold ts_eq. rewrite Hi, Hj, Hn. destruct (o_data oj) as [p|]; cbn [ptr_eqb].
  - exists false. destruct p. repeat split; discriminate.
  - exists true. repeat split.
Qed.
Print Assumptions C39_equal_moved.

(** the order of the two series does not matter *)
Theorem C39_equal_symmetric : forall (w : bworld) (i j : nat), usable w i -> usable w j ->
  exists b, exec (OEq i j) w = (w, Ret (VBool b)) /\ exec (OEq j i) w = (w, Ret (VBool b)).
Proof.
  intros w i j (oi & Hi & Ui) (oj & Hj & Uj).
  destruct (o_data oi) as [pi|] eqn:Ei; [|destruct (C39_equal_moved w i j oi oj Hi Hj Ei) as (b & A & B & _); eauto].
  destruct (o_data oj) as [pj|] eqn:Ej; [|destruct (C39_equal_moved w j i oj oi Hj Hi Ej) as (b & A & B & _); eauto].
  destruct (ptr_eqb (Some pi) (Some pj)) eqn:Ep.
  - exists true. cbn [exec]. unfold ts_eq. rewrite Hi, Hj, Ei, Ej, Ep. apply ptr_eqb_true in Ep. rewrite Ep.
    rewrite (proj2 (ptr_eqb_true _ _) eq_refl). auto.
  - destruct Ui as [Ui|[xs Vi]]; [discriminate|]. destruct Uj as [Uj|[ys Vj]]; [discriminate|].
    assert (Hne : o_data oi <> o_data oj) by (rewrite Ei, Ej; intros E; apply ptr_eqb_true in E; congruence).
    destruct (C39_equal_partial w i j oi oj xs ys Hi Hj Vi Vj Hne) as (b & A & B); [congruence|congruence|].
    destruct (C39_equal_partial w j i oj oi ys xs Hj Hi Vj Vi) as (b' & A' & B'); [congruence..|].
    exists b. split; [exact A|]. rewrite A'. do 3 f_equal. apply Bool.eq_iff_eq_true. rewrite B, B'. split; apply nears_comm.
Qed.
Print Assumptions C39_equal_symmetric.

(** Refuted: a series containing a NaN equals every series of its length whose other points are near. *)
Definition with_nan : list bop := [OBuf [Some (B754_nan : D B64); Some (zb 7)]; OBuf (cells [1; 7]); OData (Some (0%nat, 0)) 2; OData (Some (1%nat, 0)) 2].
Theorem C39_equal_nan_refuted : exists w, history any with_nan w /\ points w 0 [B754_nan : D B64; zb 7] /\ points w 1 (map zb [1; 7]) /\
  snd (exec (OEq 0 1) w) = Ret (VBool true).
Proof.
  assert (H : match ran with_nan with Some w => (see w 0, see w 1, outcome (snd (exec (OEq 0 1) w))) | None => ([], [], Hang) end
              = (map (B2SF (prec := 53) (emax := 1024)) [B754_nan; zb 7], seen [1; 7], Ret 1%nat)) by (vm_compute; reflexivity).
  unfold ran in H. destruct (run with_nan world0) as [w|] eqn:E; [|discriminate H]. apply both in H as [H H3]. apply both in H as [H1 H2]. exists w. splits.
  - exact (run_history with_nan [] world0 w (no_history _) E).
  - unfold see in H1. destruct (rdall w 0) as [p|] eqn:Er; [|discriminate H1]. apply B2SF_map_inj in H1. apply rdall_ok in Er as [Er _]. exact (eq_ind p (fun z => points w 0 z) Er _ H1).
  - apply (see_ok w 1 [1; 7] H2). discriminate.
  - destruct (snd (exec (OEq 0 1) w)) as [[| | |[]|]|e|u|]; cbn in H3; congruence.
Qed.
Print Assumptions C39_equal_nan_refuted.

(** two series of which one has lost its points to the other, and a third one *)
Definition moved : list bop := [OOwned 2; OOwned 2; OOwned 2; OMove 0 1].
Example C39_equal_case : exists w o1, history any moved w /\ get_obj w 1 = Some o1 /\ o_data o1 = None /\
  usable w 0 /\ usable w 1 /\ usable w 2.
Proof.
  assert (H : match ran moved with Some w => (see w 0, see w 2, map (option_map (fun o => o_data o)) (w_objs w)) | None => ([], [], []) end
              = (seen [0; 0], seen [0; 0], [Some (Some (1%nat, 0)); Some None; Some (Some (2%nat, 0))])) by (vm_compute; reflexivity).
  unfold ran in H. destruct (run moved world0) as [w|] eqn:E; [|discriminate H]. apply both in H as [H Ho]. apply both in H as [H0 H2].
  apply see_ok in H0; [|discriminate]. apply see_ok in H2; [|discriminate].
  destruct w as [h os]. cbn [w_objs] in Ho. destruct os as [|[o0|] [|[o1|] [|[o2|] [|]]]]; try discriminate Ho. cbn in Ho.
  pose proof (f_equal (fun l => nth 1 l None) Ho) as A1. cbn in A1. injection A1 as A1.
  exists (mkWorld h [Some o0; Some o1; Some o2]), o1. splits; try reflexivity; try assumption.
  - exact (run_history moved [] world0 _ (no_history _) E).
  - exists o0. split; [reflexivity|]. right. eexists. exact H0.
  - exists o1. split; [reflexivity|]. left. exact A1.
  - exists o2. split; [reflexivity|]. right. eexists. exact H2.
Qed.
