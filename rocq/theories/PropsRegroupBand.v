(** Property C92: the warping band set while a data set is grouped does not matter for its groups.
    Specification: ApiSpec.v. *)
From Coq Require Import String Ascii Lia.
From Verif Require Import Base Num NumB64 LoopFacts TimeSeries Distance TSSet StdAlg Candidate Group GroupSpace Loader Archive OldFormat BruteForce PAA
  DataSpec DataProofs GroupDist QuerySpec Api ApiSpec ApiProofs HeapFacts PropsLoader PropsApi.
Local Open Scope Z_scope.
Local Open Scope list_scope.

Lemma paired_names_only {N : Num} name (pw : dist_fn N) w : getDistanceFromName name = Ret pw -> warpedFor (N := N) name = Ret w ->
  forall r r', pw r = pw r'.
Proof.
  unfold getDistanceFromName, allDistances. cbn [assoc app].
  repeat (match goal with |- context [String.eqb name ?x] => destruct (String.eqb_spec name x) as [->|_] end;
    [intros E Ew; first [discriminate Ew|injection E as <-; intros r r'; reflexivity]|]).
  discriminate.
Qed.
Lemma loop_band {N : Num} clock (d : dataset N) (pw : dist_fn N) r r' thr : pw r = pw r' ->
  forall k i gs, group_loop clock d pw r thr k i gs = group_loop clock d pw r' thr k i gs.
Proof.
  intros E. induction k as [|k IH]; intros i gs; cbn [group_loop]; [reflexivity|].
  replace (group_level clock d pw r thr i) with (group_level clock d pw r' thr i).
  - destruct (group_level clock d pw r' thr i); try reflexivity. destruct (aset _ _ _); try reflexivity. apply IH.
  - unfold group_level, generateGroups, Group.place, nearest_step. rewrite E. reflexivity.
Qed.
Lemma group_band {N : Num} clock (d : dataset N) r r' gs name thr whole : gg_group clock d r gs name thr whole = gg_group clock d r' gs name thr whole.
Proof.
  unfold gg_group, gg_loadDistance. destruct (getDistanceFromName name) as [pw| | |] eqn:Ep; try reflexivity.
  destruct (warpedFor name) as [w| | |] eqn:Ew; try reflexivity. cbn [gg_pw]. destruct (_ <? 0); [reflexivity|].
  apply loop_band. exact (paired_names_only name pw w Ep Ew r r').
Qed.

(** Setting the band and then grouping, or grouping and then setting the band: the outcome of the grouping and the
    state after both are the same. *)
Theorem C92_band : forall (N : Num) (s : api N) e e' n thr dist threads whole ratio s1 s2 r a,
  exec e (CRatio ratio) s = (s1, Ret a) -> exec e' (CGroup n thr dist threads whole) s1 = (s2, r) ->
  exists s3, exec e' (CGroup n thr dist threads whole) s = (s3, r) /\ exec e (CRatio ratio) s3 = (s2, Ret a).
Proof.
  intros N s e e' n thr dist threads whole ratio s1 s2 r a E1 E2. cbn [exec] in *. injection E1 as <- <-.
  unfold on_set, find_id, deref_set in *. cbn [a_sets a_objs a_ratio] in E2.
  destruct (assoc n (a_sets s)) as [id|]; [|injection E2 as <- <-; eexists; split; reflexivity].
  destruct (nth_error (a_objs s) id) as [[g|]|]; [|injection E2 as <- <-; eexists; split; reflexivity..].
  unfold groupAllLengths in *. destruct (negb _).
  - injection E2 as <- <-. eexists. split; reflexivity.
  - destruct (1 <=? threads).
    + rewrite (group_band _ _ ratio (a_ratio s)) in E2. destruct (gg_group _ _ _ _ _ _ _) as [gs r']. injection E2 as <- <-.
      eexists. split; reflexivity.
    + injection E2 as <- <-. eexists. split; reflexivity.
Qed.
Print Assumptions C92_band.

(** The same for every call but a search, a matching, or a distance under the name of a warped distance. *)
Definition without_warping {N : Num} (c : call N) : Prop :=
  match c with
  | CBest _ _ _ _ _ | CKBest _ _ _ _ _ _ _ | CBrute _ _ _ _ _ _ _ | CPAA _ _ _ _ _ _ _ | CMatching _ _ _ _ _ _ _ _ _ => False
  | CDistance _ _ _ _ _ _ _ _ dist => forall name, dist <> (name ++ "_dtw")%string
  | _ => True
  end.
Lemma paired_name {N : Num} name (f : dist_fn N) : (forall n, name <> (n ++ "_dtw")%string) -> getDistanceFromName name = Ret f -> forall r r', f r = f r'.
Proof.
  intros H. unfold getDistanceFromName, allDistances. cbn [assoc app].
  repeat (match goal with |- context [String.eqb name ?x] => destruct (String.eqb_spec name x) as [Ex|_] end;
    [intros E; first [injection E as <-; intros r r'; reflexivity|exfalso; exact (H _ Ex)]|]).
  discriminate.
Qed.
Definition banded {N : Num} (s : api N) (r : D N) : api N := mkApi (a_sets s) (a_objs s) (a_paa s) (a_count s) r.
Lemma info_band {N : Num} (s : api N) r n : getDatasetInfo (banded s r) n = getDatasetInfo s n.
Proof. reflexivity. Qed.
Lemma infos_band {N : Num} (s : api N) r ns : each_info (banded s r) ns = each_info s ns.
Proof. induction ns as [|n ns IH]; cbn [each_info]; [reflexivity|]. rewrite IH. reflexivity. Qed.
Lemma on_set_band {N : Num} (s : api N) r n f f' : (forall g, f g = f' g) ->
  on_set (banded s r) n f = (banded (fst (on_set s n f')) r, snd (on_set s n f')).
Proof.
  intros E. unfold on_set, find_id, deref_set, banded. cbn [a_sets a_objs]. destruct (assoc n (a_sets s)) as [id|]; [|reflexivity].
  destruct (nth_error (a_objs s) id) as [[g|]|]; [|reflexivity..]. rewrite E. destruct (f' g). reflexivity.
Qed.
Lemma exec_band {N : Num} e (c : call N) s r : without_warping c -> exec e c (banded s r) = (let '(s', x) := exec e c s in (banded s' (match c with CRatio q => q | _ => r end), x)).
Proof.
  intros Hc. destruct c; cbn [without_warping] in Hc; try contradiction; try reflexivity; cbn [exec].
  - cbn [banded a_sets]. destruct (assoc name (a_sets s)); [reflexivity|]. destruct (loadData _ _ _ _ _ _ _ _) as [d [u|[]| |]]; reflexivity.
  - unfold find_id, deref_set, banded. cbn [a_sets a_objs a_paa]. destruct (assoc name (a_sets s)) as [id|]; [|reflexivity].
    destruct (nth_error (a_objs s) id) as [[g|]|]; reflexivity.
  - unfold pure. rewrite infos_band. reflexivity.
  - rewrite (on_set_band s r name _ _ (fun g => eq_refl)). destruct (on_set s name _). reflexivity.
  - rewrite (on_set_band s r name _ (fun g => let '(g', r0) := groupAllLengths (e_clock e) (a_ratio s) g distance threshold numThreads whole in (g', n <- r0 ;; Ret (AInt n)))).
    + destruct (on_set s name _). reflexivity.
    + intros g. unfold groupAllLengths. destruct (negb _); [reflexivity|]. destruct (1 <=? numThreads); [|reflexivity].
      rewrite (group_band _ _ (a_ratio (banded s r)) (a_ratio s)). reflexivity.
  - rewrite (on_set_band s r name _ _ (fun g => eq_refl)). destruct (on_set s name _). reflexivity.
  - rewrite (on_set_band s r name _ _ (fun g => eq_refl)). destruct (on_set s name _). reflexivity.
  - unfold find_id, deref_set, wrapper_generate, banded. cbn [a_sets a_objs a_paa]. destruct (assoc name (a_sets s)) as [id|]; [|reflexivity].
    destruct (match assoc name (a_paa s) with Some w => _ | None => _ end) as [w| | |]; [|reflexivity..].
    destruct (nth_error (a_objs s) (fst w)) as [[g|]|]; [|reflexivity..]. destruct (generatePAAMatrix _ _ _). reflexivity.
  - unfold pure. f_equal. replace (two_series (banded s r)) with (two_series s) by reflexivity. cbn [banded a_ratio].
    destruct (two_series s _ _ _ _ _ _ _ _) as [[a b]| | |]; [|reflexivity..]. cbn [bind].
    destruct (getDistanceFromName distance) as [f| | |] eqn:Ef; [|reflexivity..]. cbn [bind].
    rewrite (paired_name distance f Hc Ef r (a_ratio s)). reflexivity.
Qed.
Theorem C92_other_calls : forall (N : Num) (s : api N) e e' c ratio s1 s2 r a,
  without_warping c -> (forall q, c <> CRatio q) ->
  exec e (CRatio ratio) s = (s1, Ret a) -> exec e' c s1 = (s2, r) ->
  exists s3, exec e' c s = (s3, r) /\ exec e (CRatio ratio) s3 = (s2, Ret a).
Proof.
  intros N s e e' c ratio s1 s2 r a Hc Hq E1 E2. cbn [exec] in E1. injection E1 as <- <-.
  pose proof (exec_band e' c s ratio Hc) as E. unfold banded at 1 in E. rewrite E2 in E. destruct (exec e' c s) as [s3 x].
  injection E as -> ->. exists s3. split; [reflexivity|]. cbn [exec]. destruct c; try reflexivity. exfalso. exact (Hq _ eq_refl).
Qed.
Print Assumptions C92_other_calls.

(** The data set of the examples of C32: a band of width 0 is set, then it is grouped into three groups. *)
Definition band_s : api B64 := fst (exec ex_env (CRatio (N := B64) (b64_ofZ 0)) ex_s1).
Definition replied (r : res (answer B64)) : option Z := match r with Ret (AInt z) => Some z | _ => None end.
Example C92_band_example : (exists a, exec ex_env (CRatio (N := B64) (b64_ofZ 0)) ex_s1 = (band_s, Ret a)) /\
  replied (snd (exec ex_env (CGroup (N := B64) "x" (b64_ofZ 1) "euclidean" 1 false) band_s)) = Some 3 /\
  neqb (n := B64) (a_ratio band_s) (a_ratio ex_s1) = false.
Proof. split; [eexists; reflexivity|]. vm_compute. auto. Qed.

(** The point-to-point distance of two series meets the condition of [C92_other_calls]; their warped distance does
    depend on the band: 1,2,1,1 and 1,1,2,1. *)
Definition bump_env : env B64 :=
  mkEnv (N := B64) stodZ putZ putZ (fun _ => None) (fun _ => Some (mkFile ("1,2,1,1" ++ nl1 ++ "1,1,2,1")%string None)) (fun _ => true) (fun _ => None) (fun _ => false) simple_alg.
Definition bump_wide : api B64 := fst (exec bump_env (CLoad "x" "f" "," 0 0 false) (api_new (N := B64) (b64_ofZ 1))).
Definition bump_narrow : api B64 := fst (exec bump_env (CRatio (N := B64) (b64_ofZ 0)) bump_wide).
Definition bump (dist : string) : call B64 := CDistance "x" 0 (-1) (-1) "x" 1 (-1) (-1) dist.
Definition positive (r : res (answer B64)) : option bool := match r with Ret (AValue v) => Some (nltb (n := B64) (b64_ofZ 0) v) | _ => None end.
Example C92_other_calls_example :
  without_warping (bump "euclidean") /\ positive (snd (exec bump_env (bump "euclidean") bump_narrow)) = Some true /\
  ~ without_warping (bump "euclidean_dtw") /\
  positive (snd (exec bump_env (bump "euclidean_dtw") bump_wide)) = Some false /\
  positive (snd (exec bump_env (bump "euclidean_dtw") bump_narrow)) = Some true.
Proof.
  split.
  - intros name E. assert (L := f_equal String.length E). do 10 (destruct name as [|? name]; [first [discriminate L|discriminate E]|]).
    discriminate L.
  - split; [vm_compute; reflexivity|]. split; [intros H; exact (H "euclidean"%string eq_refl)|]. split; vm_compute; reflexivity.
Qed.
