(** Lemmas for C75: series whose points are changed by a function that no metric notices, the sign
    of doubles, and paths walked backwards. *)
From Coq Require Import String Reals Lra Lia ZArith FunctionalExtensionality.
From Flocq Require Import Core BinarySingleNaN.
From Verif Require Import Base Num NumB64 NumLaws NumXR NumXRLaws NumB64Laws LoopFacts TimeSeries TSSet Distance DtwSpec DtwExt DtwPaths DistSpec
  Group GroupSpace DataSpec DataProofs.
Local Open Scope Z_scope.
Local Open Scope list_scope.

(** ** series that a metric cannot tell apart *)
Section Reduce.
Context {N : Num}.
Variables (M : Metric N) (a b a' b' : TS N).
Hypothesis La : ts_length a' = ts_length a.
Hypothesis Lb : ts_length b' = ts_length b.
Hypothesis Hred : forall i j (prev : acc M),
  (x <- ts_get a' i ;; y <- ts_get b' j ;; Ret (m_reduce M prev x y)) = (x <- ts_get a i ;; y <- ts_get b j ;; Ret (m_reduce M prev x y)).

Lemma bind_reduce {B : Type} i j prev (f : acc M -> res B) :
  (x <- ts_get a' i ;; y <- ts_get b' j ;; f (m_reduce M prev x y)) = (x <- ts_get a i ;; y <- ts_get b j ;; f (m_reduce M prev x y)).
Proof.
  pose proof (Hred i j prev) as H.
  destruct (ts_get a' i) as [x'| | |], (ts_get a i) as [x| | |]; cbn [bind] in *;
    try (destruct (ts_get b' j) as [y'| | |]); try (destruct (ts_get b j) as [y| | |]); cbn [bind] in *; congruence.
Qed.

Lemma put_cell_same : put_cell M a' b' = put_cell M a b.
Proof.
  apply functional_extensionality. intros i. apply functional_extensionality. intros j. apply functional_extensionality. intros prev.
  apply functional_extensionality. intros c. unfold put_cell. rewrite La, Lb.
  apply (bind_reduce i j prev (fun v => cost' <- mset (fst c) i j (Some v) ;; ncost' <- mset (snd c) i j (m_normDTW M v (ts_length a) (ts_length b)) ;; Ret (cost', ncost'))).
Qed.

Lemma warped_same (ratio cut : D N) mt : warpedDistance M a' b' ratio cut mt = warpedDistance M a b ratio cut mt.
Proof.
  unfold warpedDistance, warped_fill, row_loop, cell_step, row_step, col_step. rewrite put_cell_same, La, Lb.
  pose proof (bind_reduce 0 0 (m_init M) (fun v => Ret (m_normDTW M v (ts_length a) (ts_length b), mt))) as H. cbn beta in H. rewrite H. reflexivity.
Qed.

Lemma pairwise_same (cut : D N) mt : pairwiseDistance M a' b' cut mt = pairwiseDistance M a b cut mt.
Proof.
  unfold pairwiseDistance. rewrite La, Lb.
  assert (E : pairwise_step M a' b' = pairwise_step M a b).
  { apply functional_extensionality. intros dr. apply functional_extensionality. intros i. apply functional_extensionality. intros t. unfold pairwise_step. rewrite La, Lb.
    apply (bind_reduce i i t (fun total => Ret (total, match m_inv M with None => nltb dr (m_norm M total (ts_length a) (ts_length b)) | Some (_, rd) => nltb dr (rd total) end))). }
  rewrite E. reflexivity.
Qed.
End Reduce.

(** the points of [a'] are those of [a], each changed by [f] *)
Definition changed {N : Num} (f : D N -> D N) (a a' : TS N) : Prop := ts_ok a /\ ts_ok a' /\ ts_points a' = map f (ts_points a).

Lemma changed_get {N : Num} (f : D N -> D N) (a a' : TS N) i : changed f a a' -> ts_get a' i = (x <- ts_get a i ;; Ret (f x)).
Proof.
  intros (Ha & Ha' & E). rewrite (DtwExt.ts_get_points a), (DtwExt.ts_get_points a') by auto.
  rewrite <- (DtwPaths.ts_points_length a), <- (DtwPaths.ts_points_length a'), E, map_length by auto.
  destruct ((i <? 0) || (Z.of_nat (length (ts_points a)) <=? i)); [reflexivity|]. unfold aget.
  destruct (0 <=? i); [|reflexivity]. rewrite nth_error_map. destruct (nth_error (ts_points a) (Z.to_nat i)); reflexivity.
Qed.

Lemma changed_length {N : Num} (f : D N -> D N) (a a' : TS N) : changed f a a' -> ts_length a' = ts_length a.
Proof. intros (Ha & Ha' & E). rewrite <- (DtwPaths.ts_points_length a), <- (DtwPaths.ts_points_length a'), E, map_length by auto. reflexivity. Qed.

(** a change that the metric does not notice *)
Definition unnoticed {N : Num} (f : D N -> D N) (M : Metric N) : Prop := forall prev x y, m_reduce M prev (f x) (f y) = m_reduce M prev x y.

Lemma changed_reduce {N : Num} (f : D N -> D N) (M : Metric N) (a a' b b' : TS N) : changed f a a' -> changed f b b' -> unnoticed f M -> forall i j (prev : acc M),
  (x <- ts_get a' i ;; y <- ts_get b' j ;; Ret (m_reduce M prev x y)) = (x <- ts_get a i ;; y <- ts_get b j ;; Ret (m_reduce M prev x y)).
Proof.
  intros Ha Hb Hf i j prev. rewrite (changed_get f a a' i Ha), (changed_get f b b' j Hb).
  destruct (ts_get a i) as [x| | |]; cbn [bind]; auto. destruct (ts_get b j) as [y| | |]; cbn [bind]; auto. rewrite Hf. reflexivity.
Qed.

Lemma changed_warped {N : Num} (f : D N -> D N) (M : Metric N) (a a' b b' : TS N) ratio cut mt : changed f a a' -> changed f b b' -> unnoticed f M ->
  warpedDistance M a' b' ratio cut mt = warpedDistance M a b ratio cut mt.
Proof.
  intros Ha Hb Hf. apply warped_same; [apply (changed_length f), Ha|apply (changed_length f), Hb|apply (changed_reduce f); auto].
Qed.
Lemma changed_pairwise {N : Num} (f : D N -> D N) (M : Metric N) (a a' b b' : TS N) cut mt : changed f a a' -> changed f b b' -> unnoticed f M ->
  pairwiseDistance M a' b' cut mt = pairwiseDistance M a b cut mt.
Proof.
  intros Ha Hb Hf. apply pairwise_same; [apply (changed_length f), Ha|apply (changed_length f), Hb|apply (changed_reduce f); auto].
Qed.

(** ** the sign of doubles *)
Section Sign.
Notation opp := (@Bopp prec64 emax64).

(** opposite, or zeros *)
Definition opposite (x y : b64) : Prop := y = opp x \/ (is_finite x = true /\ is_finite y = true /\ B2R x = 0%R /\ B2R y = 0%R).

Lemma opposite_finite x y : is_finite x = true -> is_finite y = true -> B2R y = (- B2R x)%R -> opposite x y.
Proof.
  intros Fx Fy E. destruct (Req_dec (B2R x) 0) as [Hz|Hz].
  - right. rewrite E, Hz. repeat split; auto. lra.
  - left. apply B2R_inj.
    + destruct y as [[]|[]| |s m e H]; try discriminate Fy; try reflexivity; exfalso; apply Hz; cbn in E; lra.
    + destruct x as [[]|[]| |s m e H]; try discriminate Fx; try reflexivity; exfalso; apply Hz; reflexivity.
    + rewrite B2R_Bopp. exact E.
Qed.

Lemma zero_is (x : b64) : is_finite x = true -> B2R x = 0%R -> exists s, x = B754_zero s.
Proof.
  destruct x as [s|s| |s m e H]; try discriminate; intros _ E; [eauto|]. exfalso. cbn in E. apply eq_0_F2R in E. destruct s; discriminate E.
Qed.

Ltac by_parts x y :=
  destruct x as [[]|[]| |sx mx ex Hx]; destruct y as [[]|[]| |sy my ey Hy]; try (left; reflexivity); try reflexivity; try (destruct sx; left; reflexivity); try (destruct sy; left; reflexivity).

Lemma not_both_minus x y : is_finite x && is_finite y = false -> opposite (Bminus mode_NE x y) (Bminus mode_NE (opp x) (opp y)).
Proof. intros H. left. by_parts x y; try discriminate H. Qed.
Lemma not_both_plus x y : is_finite x && is_finite y = false -> opposite (Bplus mode_NE x y) (Bplus mode_NE (opp x) (opp y)).
Proof. intros H. left. by_parts x y; try discriminate H. Qed.
Lemma not_both_mult x y : is_finite x && is_finite y = false -> Bmult mode_NE (opp x) (opp y) = Bmult mode_NE x y.
Proof. intros H. by_parts x y; try discriminate H; destruct sx + destruct sy; reflexivity. Qed.

Lemma fin_opp (x : b64) : is_finite (opp x) = is_finite x. Proof. destruct x; reflexivity. Qed.
Lemma sign_opp (x : b64) : is_nan x = false -> Bsign (opp x) = negb (Bsign x). Proof. destruct x; try discriminate; reflexivity. Qed.
Lemma fin_nan (x : b64) : is_finite x = true -> is_nan x = false. Proof. destruct x; try discriminate; reflexivity. Qed.

Lemma minus_opp x y : opposite (Bminus mode_NE x y) (Bminus mode_NE (opp x) (opp y)).
Proof.
  destruct (is_finite x && is_finite y) eqn:F; [|apply not_both_minus, F]. apply andb_prop in F as [Fx Fy].
  pose proof (Bminus_correct prec64 emax64 _ _ mode_NE x y Fx Fy) as H.
  pose proof (Bminus_correct prec64 emax64 _ _ mode_NE (opp x) (opp y) ltac:(rewrite fin_opp; exact Fx) ltac:(rewrite fin_opp; exact Fy)) as H'.
  rewrite !B2R_Bopp in H'. replace (- B2R x - - B2R y)%R with (- (B2R x - B2R y))%R in H' by lra. cbn [round_mode] in H, H'. rewrite round_NE_opp, Rabs_Ropp in H'.
  destruct (Rlt_bool _ _).
  - destruct H as (V & F & _), H' as (V' & F' & _). apply opposite_finite; auto. rewrite V'. f_equal. symmetry. exact V.
  - destruct H as (V & _), H' as (V' & _). left. apply (B2SF_inj prec64 emax64). rewrite V'. rewrite sign_opp by (apply fin_nan, Fx).
    destruct (Bminus mode_NE x y); cbn [B2SF] in V; try discriminate V. injection V as ->. reflexivity.
Qed.

Lemma plus_opp x y : opposite (Bplus mode_NE x y) (Bplus mode_NE (opp x) (opp y)).
Proof.
  destruct (is_finite x && is_finite y) eqn:F; [|apply not_both_plus, F]. apply andb_prop in F as [Fx Fy].
  pose proof (Bplus_correct prec64 emax64 _ _ mode_NE x y Fx Fy) as H.
  pose proof (Bplus_correct prec64 emax64 _ _ mode_NE (opp x) (opp y) ltac:(rewrite fin_opp; exact Fx) ltac:(rewrite fin_opp; exact Fy)) as H'.
  rewrite !B2R_Bopp in H'. replace (- B2R x + - B2R y)%R with (- (B2R x + B2R y))%R in H' by lra. cbn [round_mode] in H, H'. rewrite round_NE_opp, Rabs_Ropp in H'.
  destruct (Rlt_bool _ _).
  - destruct H as (V & F & _), H' as (V' & F' & _). apply opposite_finite; auto. rewrite V'. f_equal. symmetry. exact V.
  - destruct H as (V & _), H' as (V' & _). left. apply (B2SF_inj prec64 emax64). rewrite V'. rewrite sign_opp by (apply fin_nan, Fx).
    destruct (Bplus mode_NE x y); cbn [B2SF] in V; try discriminate V. injection V as ->. reflexivity.
Qed.

Lemma mult_opp x y : Bmult mode_NE (opp x) (opp y) = Bmult mode_NE x y.
Proof.
  destruct (is_finite x && is_finite y) eqn:F; [|apply not_both_mult, F]. apply andb_prop in F as [Fx Fy].
  pose proof (Bmult_correct prec64 emax64 _ _ mode_NE x y) as H.
  pose proof (Bmult_correct prec64 emax64 _ _ mode_NE (opp x) (opp y)) as H'.
  rewrite !B2R_Bopp in H'. replace (- B2R x * - B2R y)%R with (B2R x * B2R y)%R in H' by lra.
  rewrite !sign_opp, !fin_opp in H' by (apply fin_nan; assumption). rewrite Fx, Fy in H, H'.
  replace (xorb (negb (Bsign x)) (negb (Bsign y))) with (xorb (Bsign x) (Bsign y)) in H' by (destruct (Bsign x), (Bsign y); reflexivity).
  destruct (Rlt_bool _ _).
  - destruct H as (V & F & S), H' as (V' & F' & S'). cbn [andb] in F, F'. apply B2R_Bsign_inj; auto; [congruence|].
    rewrite S by (apply fin_nan; exact F). apply S', fin_nan, F'.
  - apply (B2SF_inj prec64 emax64). congruence.
Qed.

Lemma abs_opposite x y : opposite x y -> Babs y = Babs x.
Proof.
  intros [->|(Fx & Fy & Ex & Ey)]; [destruct x; reflexivity|].
  destruct (zero_is x Fx Ex) as [s ->], (zero_is y Fy Ey) as [s' ->]. reflexivity.
Qed.
Lemma square_opposite x y : opposite x y -> Bmult mode_NE y y = Bmult mode_NE x x.
Proof.
  intros [->|(Fx & Fy & Ex & Ey)]; [apply mult_opp|].
  destruct (zero_is x Fx Ex) as [s ->], (zero_is y Fy Ey) as [s' ->]. destruct s, s'; reflexivity.
Qed.
End Sign.

(** ** paths walked backwards *)
Definition facing (m n : Z) (c : Z * Z) : Z * Z := (m - 1 - fst c, n - 1 - snd c).
Definition back (m n : Z) (p : list (Z * Z)) : list (Z * Z) := rev (map (facing m n) p).

Lemma facing_step m n c c' : wstep c c' -> wstep (facing m n c') (facing m n c).
Proof. destruct c as [i j]. intros [->|[->| ->]]; unfold wstep, facing; cbn [fst snd]; [left|right; left|right; right]; f_equal; lia. Qed.

Lemma last_cons {A} (c : A) l d : last (c :: l) d = last l c.
Proof. revert c d. induction l as [|x l IH]; intros c d; [reflexivity|]. change (last (x :: l) d = last (x :: l) c). rewrite !IH. reflexivity. Qed.

Lemma chain_back m n p : forall c, chain c p -> exists t, back m n (c :: p) = facing m n (last p c) :: t /\ chain (facing m n (last p c)) t.
Proof.
  induction p as [|c' p IH]; intros c Hc.
  - exists []. split; [reflexivity|exact I].
  - destruct Hc as [Hs Hc]. destruct (IH c' Hc) as (t & E & H). exists (t ++ [facing m n c]). rewrite last_cons. split.
    + unfold back in *. cbn [map rev] in *. rewrite E. reflexivity.
    + apply chain_snoc. split; [exact H|].
      assert (L : last (facing m n (last p c') :: t) (0, 0) = facing m n c') by (rewrite <- E; unfold back; cbn [map rev]; apply last_snoc).
      rewrite L. apply facing_step, Hs.
Qed.

Lemma back_path m n p : warping_path m n p -> warping_path m n (back m n p).
Proof.
  destruct p as [|c p]; [intros []|]. intros (E & Hc & Hl). destruct (chain_back m n p c Hc) as (t & Eb & Hb).
  rewrite last_cons in Hl. rewrite Hl in Eb, Hb. rewrite Eb. unfold warping_path.
  assert (F : facing m n (m - 1, n - 1) = (0, 0)) by (unfold facing; cbn [fst snd]; f_equal; lia).
  split; [exact F|]. split; [exact Hb|]. rewrite <- Eb. unfold back. cbn [map rev]. rewrite last_snoc, E. unfold facing. cbn [fst snd]. f_equal; lia.
Qed.

Lemma back_back m n p : back m n (back m n p) = p.
Proof.
  unfold back. rewrite map_rev, rev_involutive, map_map. rewrite <- (map_id p) at 2. apply map_ext. intros [i j]. unfold facing. cbn [fst snd]. f_equal; lia.
Qed.

Lemma back_band m n r p : warping_path m n p -> in_band r p -> m = n \/ Z.max m n - 1 <= r -> in_band r (back m n p).
Proof.
  intros Hp Hb [E|Hr].
  - unfold in_band, back in *. apply Forall_rev. apply Forall_map. eapply Forall_impl; [|exact Hb]. intros [i j]. unfold facing. cbn [fst snd]. lia.
  - apply (full_band m n); [apply back_path, Hp|exact Hr].
Qed.

Lemma rev_nth_Z {A} (l : list A) i (dflt : A) : 0 <= i < Z.of_nat (length l) -> nth (Z.to_nat (Z.of_nat (length l) - 1 - i)) (rev l) dflt = nth (Z.to_nat i) l dflt.
Proof. intros H. rewrite rev_nth by lia. f_equal. lia. Qed.

Lemma fold_right_perm {A B} (g : A -> B -> B) (z : B) l l' : (forall x y s, g x (g y s) = g y (g x s)) -> Permutation.Permutation l l' -> fold_right g z l = fold_right g z l'.
Proof. intros Hg. induction 1; cbn; auto; congruence. Qed.
Lemma fold_left_rev' {A B} (g : B -> A -> B) (z : B) l : (forall x y s, g (g s x) y = g (g s y) x) -> fold_left g (rev l) z = fold_left g l z.
Proof.
  intros Hg. rewrite <- fold_left_rev_right, rev_involutive. rewrite (fold_right_perm _ z l (rev l)); [|intros; apply Hg|apply Permutation.Permutation_rev].
  rewrite fold_left_rev_right. reflexivity.
Qed.
