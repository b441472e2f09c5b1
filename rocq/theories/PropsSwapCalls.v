(** Property C96: calls about different data sets can be made in either order.
    Specification: ApiSpec.v, ApartSpec.v. *)
From Coq Require Import String Ascii Lia.
From Verif Require Import Base Num NumB64 LoopFacts TimeSeries Distance TSSet StdAlg Candidate Group GroupSpace Loader Archive OldFormat BruteForce PAA
  Api ApiSpec ApiProofs ApiPaa ApiLocal ApartSpec PropsLoader PropsApi PropsApart.
Local Open Scope Z_scope.
Local Open Scope list_scope.

Section Proofs.
Context {N : Num}.
Implicit Types (s : api N).

(** a call about the data sets in [V] leaves all others alone *)
Lemma own_foreign (V W : string -> bool) (c : call N) : own V c = true -> foreign W c -> foreign (fun n => negb (V n)) c.
Proof.
  intros Ho Hf. destruct c; cbn [own foreign needs forallb] in *; try exact I; try contradiction;
    repeat match goal with H : (_ && _)%bool = true |- _ => apply andb_prop in H as [? ?] end;
    match goal with H : V ?n = true |- negb (V ?n) = false => rewrite H; reflexivity end.
Qed.
Lemma same_trans s1 s2 s3 n : same_local s1 s2 n -> same_local s2 s3 n -> same_local s1 s3 n.
Proof. intros [A B] [C D]. split; congruence. Qed.
Lemma same_sym s1 s2 n : same_local s1 s2 n -> same_local s2 s1 n.
Proof. intros [A B]. split; congruence. Qed.

Lemma swap V1 V2 e1 c1 e2 c2 s a1 r1 a12 r2 : good s -> paas s ->
  own V1 c1 = true -> own V2 c2 = true -> foreign V2 c1 -> foreign V1 c2 ->
  exec e1 c1 s = (a1, r1) -> exec e2 c2 a1 = (a12, r2) -> ends r1 -> ends r2 ->
  exists a2 a21, exec e2 c2 s = (a2, r2) /\ exec e1 c1 a2 = (a21, r1) /\
    good a12 /\ good a21 /\ paas a12 /\ paas a21 /\ a_ratio a12 = a_ratio a21 /\ forall n, same_local a12 a21 n.
Proof.
  intros G P O1 O2 F1 F2 E1 E12 R1 R2.
  pose proof (proj1 (exec_good e1 c1 s a1 r1 G E1 R1)) as G1. pose proof (step_paas e1 c1 s a1 r1 G P E1 R1) as P1.
  pose proof (proj1 (exec_good e2 c2 a1 a12 r2 G1 E12 R2)) as G12. pose proof (step_paas e2 c2 a1 a12 r2 G1 P1 E12 R2) as P12.
  destruct (foreign_local V2 e1 c1 s a1 r1 G P F1 E1 R1) as [Q1 L1].
  destruct (exec e2 c2 s) as [a2 r2'] eqn:E2.
  destruct (local_step (fun n => V2 n = true) e2 c2 a1 s a12 r2 a2 r2' G1 G P1 P Q1 L1 (own_inside _ _ O2) E12 E2) as [<- M2].
  destruct (M2 R2) as [_ L12]. clear M2.
  pose proof (proj1 (exec_good e2 c2 s a2 r2 G E2 R2)) as G2. pose proof (step_paas e2 c2 s a2 r2 G P E2 R2) as P2.
  destruct (foreign_local V1 e2 c2 s a2 r2 G P F2 E2 R2) as [Q2 L2].
  destruct (exec e1 c1 a2) as [a21 r1'] eqn:E21.
  destruct (local_step (fun n => V1 n = true) e1 c1 a2 s a21 r1' a1 r1 G2 G P2 P Q2 L2 (own_inside _ _ O1) E21 E1) as [-> M1].
  destruct (M1 R1) as [_ L21]. clear M1.
  pose proof (proj1 (exec_good e1 c1 a2 a21 r1 G2 E21 R1)) as G21. pose proof (step_paas e1 c1 a2 a21 r1 G2 P2 E21 R1) as P21.
  destruct (foreign_local V2 e1 c1 a2 a21 r1 G2 P2 F1 E21 R1) as [Q21 K21].
  destruct (foreign_local V1 e2 c2 a1 a12 r2 G1 P1 F2 E12 R2) as [Q12 K12].
  exists a2, a21. split; [reflexivity|]. split; [exact E21|]. repeat (split; [assumption|]). split; [congruence|].
  intros n. destruct (V1 n) eqn:E1n; [|destruct (V2 n) eqn:E2n].
  - exact (same_trans _ _ _ _ (K12 n E1n) (same_sym _ _ _ (L21 n E1n))).
  - exact (same_trans _ _ _ _ (L12 n E2n) (same_sym _ _ _ (K21 n E2n))).
  - pose proof (own_foreign V1 V2 c1 O1 F1) as W1. pose proof (own_foreign V2 V1 c2 O2 F2) as W2.
    assert (N1 : negb (V1 n) = true) by (rewrite E1n; reflexivity). assert (N2 : negb (V2 n) = true) by (rewrite E2n; reflexivity).
    destruct (foreign_local _ e1 c1 s a1 r1 G P W1 E1 R1) as [_ X1]. destruct (foreign_local _ e2 c2 a1 a12 r2 G1 P1 W2 E12 R2) as [_ X12].
    destruct (foreign_local _ e2 c2 s a2 r2 G P W2 E2 R2) as [_ X2]. destruct (foreign_local _ e1 c1 a2 a21 r1 G2 P2 W1 E21 R1) as [_ X21].
    exact (same_trans _ _ _ _ (same_trans _ _ _ _ (X12 n N2) (X1 n N1)) (same_sym _ _ _ (same_trans _ _ _ _ (X21 n N1) (X2 n N2)))).
Qed.
End Proofs.

(** Two calls that end, of which neither is meant to change a data set the other is about, can be swapped: both
    get the same replies, and so do all later calls. *)
Theorem C96_swap : forall (N : Num) (r0 : D N) (h : list event) (s : api N) (V1 V2 : string -> bool) e1 c1 e2 c2 cs r1 r2 rs,
  run r0 h s -> own V1 c1 = true -> own V2 c2 = true -> foreign V2 c1 -> foreign V1 c2 -> ends r1 -> ends r2 ->
  play ((e1, c1) :: (e2, c2) :: cs) s = r1 :: r2 :: rs -> play ((e2, c2) :: (e1, c1) :: cs) s = r2 :: r1 :: rs.
Proof.
  intros N r0 h s V1 V2 e1 c1 e2 c2 cs r1 r2 rs Hrun O1 O2 F1 F2 R1 R2 E. cbn [play] in E.
  destruct (exec e1 c1 s) as [a1 x1] eqn:E1. destruct (exec e2 c2 a1) as [a12 x2] eqn:E12.
  assert (x1 = r1) by (exact (f_equal (hd r1) E)). subst x1.
  assert (T : (match r1 with Ret _ | Throw _ => x2 :: match x2 with Ret _ | Throw _ => play cs a12 | _ => [] end | _ => [] end) = r2 :: rs)
    by exact (f_equal (@tl _) E).
  assert (T' : x2 :: match x2 with Ret _ | Throw _ => play cs a12 | _ => [] end = r2 :: rs) by (destruct r1; try contradiction; exact T).
  assert (x2 = r2) by (exact (f_equal (hd r2) T')). subst x2.
  assert (Ers : play cs a12 = rs) by (pose proof (f_equal (@tl _) T') as X; cbn [tl] in X; destruct r2; try contradiction; exact X).
  destruct (swap V1 V2 e1 c1 e2 c2 s a1 r1 a12 r2 (run_good _ _ _ Hrun) (run_paas _ _ _ Hrun) O1 O2 F1 F2 E1 E12 R1 R2)
    as (a2 & a21 & E2 & E21 & G12 & G21 & P12 & P21 & Q & L).
  assert (Ep : play cs a21 = rs).
  { rewrite <- Ers. symmetry. apply (play_local (fun _ => True)); auto. intros e c _. destruct c; cbn; auto. }
  cbn [play]. rewrite E2, E21, Ep. destruct r1; try contradiction; destruct r2; try contradiction; reflexivity.
Qed.
Print Assumptions C96_swap.

(** Two data sets are loaded in either order; one is grouped while the other is normalised. *)
Definition swap_s : api B64 := fst (exec ex_env (ex_load "y") ex_s1).
Definition swap_group : call B64 := CGroup (N := B64) "x" (b64_ofZ 1) "euclidean" 1 false.
Example C96_example :
  own (String.eqb "x") (ex_load "x") = true /\ own (String.eqb "y") (ex_load "y") = true /\ foreign (String.eqb "y") (ex_load "x") /\ foreign (String.eqb "x") (ex_load "y") /\
  map sight (play [(ex_env, ex_load "x"); (ex_env, ex_load "y"); (ex_env, CAllInfo)] ex_start) = [Done; Done; Done] /\
  own (String.eqb "x") swap_group = true /\ own (String.eqb "y") (CNormalize (N := B64) "y") = true /\ foreign (String.eqb "y") swap_group /\
  foreign (String.eqb "x") (CNormalize (N := B64) "y") /\
  map sight (play [(ex_env, swap_group); (ex_env, CNormalize "y"); (ex_env, CBest "x" "y" 0 (-1) (-1))] swap_s) = [Done; Done; Done].
Proof. repeat split; vm_compute; reflexivity. Qed.
