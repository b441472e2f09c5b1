(** Rounding errors of the point-to-point distances and of the cut-off of the
    Euclidean one. *)
From Coq Require Import String Reals Lra Psatz Lia ZArith.
From Flocq Require Import Core BinarySingleNaN.
From Verif Require Import Base Num NumB64 NumLaws NumFacts NumXR NumXRLaws NumB64Laws LoopFacts TimeSeries Distance
  DtwSpec DtwPaths DtwProofs Metrics DtwMain DtwResults DtwBounds DtwReal Pairwise DistSpec DistFacts DistLink
  AccReal AccDtw AccEnd AccKinds AccLink.
Local Open Scope R_scope.

Lemma diag_bpath k : bpath 0 (Z.of_nat k) (Z.of_nat k) (diag (S k)).
Proof.
  induction k as [|k IH]; [constructor|]. rewrite diag_S.
  apply (bpS 0 (Z.of_nat k) (Z.of_nat k)); auto; [|lia]. right; right; simpl; f_equal; lia.
Qed.

Lemma diag_length k : length (diag k) = k.
Proof. unfold diag. rewrite map_length, seq_length. reflexivity. Qed.

Lemma diag_in c k : In c (diag k) -> (0 <= fst c < Z.of_nat k)%Z /\ (0 <= snd c < Z.of_nat k)%Z.
Proof. unfold diag. intros H. apply in_map_iff in H as (i & <- & Hi). apply in_seq in Hi. simpl. lia. Qed.

Section Pair.
Variables a b : TS B64.
Hypothesis Ha : ts_ok a.
Hypothesis Hb : ts_ok b.
Hypothesis Hlen : ts_length a = ts_length b.
Hypothesis Hm : (1 <= ts_length a <= 2 ^ 30)%Z.
Hypothesis Fa : Forall (@nfin B64) (ts_points a).
Hypothesis Fb : Forall (@nfin B64) (ts_points b).
Notation m := (ts_length a).
Notation xs := (reals a).
Notation ys := (reals b).
Notation N := (Z.to_nat m).

Lemma fin_diag_a i : In i (map fst (diag N)) -> bfinb (pt a i) = true.
Proof.
  intros Hi. apply in_map_iff in Hi as (c & <- & Hc). apply diag_in in Hc.
  apply nfin_b. rewrite Forall_forall in Fa. apply Fa, pt_in; auto. lia.
Qed.
Lemma fin_diag_b i : In i (map snd (diag N)) -> bfinb (pt b i) = true.
Proof.
  intros Hi. apply in_map_iff in Hi as (c & <- & Hc). apply diag_in in Hc.
  apply nfin_b. rewrite Forall_forall in Fb. apply Fb, pt_in; auto. lia.
Qed.

Lemma N_len : length xs = N /\ length ys = N.
Proof.
  pose proof (reals_len a Ha) as E1. pose proof (reals_len b Hb) as E2. unfold Rlen in *. lia.
Qed.

Lemma N_range : 1 <= INR N /\ INR N <= KK /\ INR N = IZR m.
Proof.
  splits; [apply (le_INR 1); lia|rewrite INR_IZR_INZ, KK_val; apply IZR_le; lia|rewrite INR_IZR_INZ; f_equal; lia].
Qed.

Lemma sum_diag f : path_sum f xs ys (diag N) = pair_sum f xs ys.
Proof. destruct N_len as [E1 E2]. rewrite <- E1. apply path_sum_diag. lia. Qed.
Lemma max_diag f : path_max f xs ys (diag N) = pair_max f xs ys.
Proof. destruct N_len as [E1 E2]. rewrite <- E1. apply path_max_diag. lia. Qed.

Definition total (M : Metric B64) := path_acc M a b (diag N).

Lemma ok_man : @nle B64 n0 (total (@Manhattan B64)).
Proof.
  apply (diag_ok (@Manhattan B64) Manhattan_nice a b); auto; lia.
Qed.
Lemma ok_euc : @nle B64 n0 (total (@Euclidean B64)).
Proof.
  apply (diag_ok (@Euclidean B64) Euclidean_nice a b); auto; lia.
Qed.

(** normalised values: infinite, or finite and given by the rounded formula *)
Lemma man_full : val (pw_full (@Manhattan B64) a b) = PInf \/
  (bfinb (pw_full (@Manhattan B64) a b) = true /\ bfinb (total (@Manhattan B64)) = true /\
   bval (pw_full (@Manhattan B64) a b) = rne (bval (total (@Manhattan B64)) / IZR m)).
Proof.
  change (pw_full (@Manhattan B64) a b) with (Bdiv mode_NE (total (@Manhattan B64)) (b64_ofZ (Z.max m m))).
  rewrite Z.max_id. pose proof ok_man as Hv. set (v := total (@Manhattan B64)) in *.
  destruct (ofZ_facts m ltac:(lia)) as (F & Ev & Ez). assert (Pz : 1 <= IZR m) by (apply (IZR_le 1); lia).
  assert (Hd : val (Bdiv mode_NE v (b64_ofZ m)) = xdiv R64 (val v) (val (b64_ofZ m))).
  { apply val_div. left. rewrite Ev. lra. }
  rewrite Ez in Hd. destruct (ok_val v Hv) as [E|(Fv & Pv & E)]; rewrite E in Hd; cbn [xdiv] in Hd.
  - rewrite Rlt_bool_false in Hd by lra. auto.
  - rewrite Req_bool_false in Hd by lra. destruct (R64_cases (bval v / IZR m)) as [E2|E2]; [apply Rle_mult_inv_pos; lra| |];
      rewrite E2 in Hd; [|auto]. right. destruct (val_Fin _ _ Hd) as [F2 E3]. auto.
Qed.

Lemma euc_full : val (pw_full (@Euclidean B64) a b) = PInf \/
  (bfinb (pw_full (@Euclidean B64) a b) = true /\ bfinb (total (@Euclidean B64)) = true /\
   bval (pw_full (@Euclidean B64) a b) = rne (sqrt (rne (bval (total (@Euclidean B64)) / IZR m)))).
Proof.
  change (pw_full (@Euclidean B64) a b) with (Bsqrt mode_NE (Bdiv mode_NE (total (@Euclidean B64)) (b64_ofZ (Z.max m m)))).
  rewrite Z.max_id. pose proof ok_euc as Hv. set (v := total (@Euclidean B64)) in *.
  destruct (ofZ_facts m ltac:(lia)) as (F & Ev & Ez). assert (Pz : 1 <= IZR m) by (apply (IZR_le 1); lia).
  assert (Hd : val (Bdiv mode_NE v (b64_ofZ m)) = xdiv R64 (val v) (val (b64_ofZ m))).
  { apply val_div. left. rewrite Ev. lra. }
  rewrite Ez in Hd. pose proof (val_sqrt (Bdiv mode_NE v (b64_ofZ m))) as Hs.
  set (q := Bdiv mode_NE v (b64_ofZ m)) in *.
  destruct (ok_val v Hv) as [E|(Fv & Pv & E)]; rewrite E in Hd; cbn [xdiv] in Hd.
  - rewrite Rlt_bool_false in Hd by lra. rewrite Hd in Hs. auto.
  - rewrite Req_bool_false in Hd by lra.
    assert (P1 : 0 <= bval v / IZR m) by (apply Rle_mult_inv_pos; lra).
    destruct (R64_cases (bval v / IZR m) P1) as [E2|E2]; rewrite E2 in Hd; rewrite Hd in Hs; cbn [xsqrt] in Hs; [|auto].
    pose proof (rne_pos _ P1) as P2. rewrite Rlt_bool_false in Hs by auto.
    destruct (R64_cases (sqrt (rne (bval v / IZR m))) (R_sqrt.sqrt_pos _)) as [E3|E3]; rewrite E3 in Hs; [|auto].
    destruct (val_Fin _ _ Hs) as [F3 E4]. right. auto.
Qed.

Lemma cheb_full : val (pw_full (@Chebyshev B64) a b) = PInf \/
  (bfinb (pw_full (@Chebyshev B64) a b) = true /\
   Rabs (bval (pw_full (@Chebyshev B64) a b) - pair_max absd xs ys) <= uu * pair_max absd xs ys).
Proof.
  assert (Hge : @nle B64 n0 (pw_full (@Chebyshev B64) a b)).
  { assert (HN : exists N', N = S N') by (exists (Nat.pred N); lia). destruct HN as [N' EN].
    pose proof (diag_bpath N') as Hp. unfold pw_full. rewrite EN, diag_S.
    change (m_norm (@Chebyshev B64) ?v m m) with v. rewrite path_acc_snoc.
    set (v := path_acc (@Chebyshev B64) a b (diag N')).
    change (m_reduce (@Chebyshev B64) v (pt a (Z.of_nat N')) (pt b (Z.of_nat N')))
      with (m_normDTW (@Chebyshev B64) (m_reduce (@Chebyshev B64) v (pt a (Z.of_nat N')) (pt b (Z.of_nat N'))) m m).
    apply (ng_norm_pos _ Chebyshev_nice).
    - lia.
    - unfold v. destruct N' as [|N'']; [apply (ng_init _ Chebyshev_nice)|].
      apply (diag_ok (@Chebyshev B64) Chebyshev_nice a b); auto; lia.
    - rewrite Forall_forall in Fa. apply Fa, pt_in; auto. lia.
    - rewrite Forall_forall in Fb. apply Fb, pt_in; auto. lia. }
  destruct (ok_val _ Hge) as [E|(F & P & E)]; auto. right. split; auto.
  change (pw_full (@Chebyshev B64) a b) with (path_acc (@Chebyshev B64) a b (diag N) : b64) in *.
  rewrite <- max_diag. apply cheb_along; auto.
  - intros E0. apply (f_equal (@length _)) in E0. rewrite diag_length in E0. simpl in E0. lia.
  - exact fin_diag_a.
  - exact fin_diag_b.
Qed.

(** without a cut-off the full value is returned *)
Lemma inv_inf (M : Metric B64) mt :
  (forall v, pw_exceeds M a (@ninf B64) v = false) -> pairwiseDistance M a b (@ninf B64) mt = Ret (pw_full M a b, mt).
Proof.
  intros H. destruct (pw_run M a b Ha Hb Hlen ninf mt ltac:(lia)) as (k & _ & [(E & _)|(_ & _ & Hx)]); auto.
  rewrite H in Hx. discriminate Hx.
Qed.
End Pair.
