(** C83: what the experiments with queries against groups explore and record. *)
From Coq Require Import String Lia Reals Lra.
From Verif Require Import Base Num NumLaws NumXR NumFacts LoopFacts Lemire TimeSeries TSSet Distance DistSpec DtwReal StdAlg HeapFacts Candidate BruteForce
  DataSpec DataProofs GroupSpec Members Group GroupSpace GroupAll GroupView SearchSpec QuerySpec ErrorSpec BruteProofs SearchCases
  Experiment Extent ExtentSpec ExtentNum ExtentProofs.
From Verif Require Import PropsGroup.
From Verif Require PropsError.
Local Open Scope string_scope.
Local Open Scope Z_scope.
Local Open Scope list_scope.

(** ** the extents *)

(** The thousand extents are the integers nearest to 1/1000, 2/1000, ... of the number of
    subsequences, for all numbers up to 2^39, although they are computed in doubles.  They
    ascend, and the last one is the number of subsequences. *)
Theorem C83_extents : forall n, 0 <= n <= 2 ^ 39 ->
  length (extents n) = 1000%nat /\
  (forall i ke, nth_error (extents n) i = Some ke -> thousandths n i ke /\ 0 <= ke <= n) /\
  (forall i j ke ke', (i < j)%nat -> nth_error (extents n) i = Some ke -> nth_error (extents n) j = Some ke' -> ke <= ke') /\
  nth_error (extents n) 999 = Some n /\
  (forall k, 1000 * k - 500 < n -> Forall (fun ke => k <= ke) (extents n)) /\
  (forall k ke, n < 1000 * k - 500 -> nth_error (extents n) 0 = Some ke -> ke < k).
Proof.
  intros n Hn. pose proof (extents_length n) as L.
  assert (P : forall i ke, nth_error (extents n) i = Some ke -> thousandths n i ke) by (intros i ke; apply extents_nth; exact Hn).
  assert (B : forall i ke, nth_error (extents n) i = Some ke -> (i < 1000)%nat) by (intros i ke Hi; rewrite <- L; apply nth_error_Some; congruence).
  split; [exact L|]. split; [|split; [|split; [|split]]].
  - intros i ke Hi. split; [exact (P i ke Hi)|]. pose proof (P i ke Hi) as Q. pose proof (B i ke Hi). unfold thousandths in Q. nia.
  - intros i j ke ke' Hij Hi Hj. pose proof (P i ke Hi) as Q. pose proof (P j ke' Hj) as Q'. unfold thousandths in Q, Q'.
    destruct (Z.le_gt_cases ke ke') as [|C]; [assumption|]. exfalso.
    (* halves are rounded the same way *)
    assert (S1 : 1000 * ke - (Z.of_nat i + 1) * n <= 500) by lia.
    assert (S2 : -500 <= 1000 * ke' - (Z.of_nat j + 1) * n) by lia.
    assert (Z.of_nat i + 1 <= Z.of_nat j) by lia.
    assert (n = 0 \/ 1 <= n) as [->|Hpos] by lia; [lia|]. nia.
  - destruct (nth_error (extents n) 999) as [ke|] eqn:E; [|apply nth_error_None in E; lia]. f_equal. pose proof (P _ _ E) as Q. unfold thousandths in Q. lia.
  - intros k Hk. apply Forall_forall. intros ke Hke. apply In_nth_error in Hke as [i Hi]. pose proof (P i ke Hi) as Q. unfold thousandths in Q. nia.
  - intros k ke Hk Hi. pose proof (P _ _ Hi) as Q. unfold thousandths in Q. lia.
Qed.
Print Assumptions C83_extents.

(** ** the records *)
Theorem C83_records : forall (T A E : Type) (l : glib T A E) k n ds qs f f' ok, 0 <= n <= 2 ^ 39 ->
  run_genex T A E l k n ds qs f = (f', ok) ->
  grown A E f f' /\ (once A E f -> once A E f') /\
  (forall d o, in_one A E f' d o -> in_one A E f d o \/
     (exists st t t', g_exists _ _ _ l d st = true /\ o_method _ o = ("genex_" ++ st)%string /\ g_sim _ _ _ l t (o_query _ o) = Some (o_answer _ o, t'))) /\
  (forall d o, in_many A E f' d o -> in_many A E f d o \/
     (exists st b, g_exists _ _ _ l d st = true /\ m_method _ o = ("genex_" ++ st)%string /\
        in_one A E f d b /\ o_method _ b = "bf" /\ o_query _ b = m_query _ o /\
        explored T A E l k n (m_query _ o) (o_answer _ b) (m_errs _ o))) /\
  (ok = true -> forall d st q, In d ds -> In st similarities -> g_exists _ _ _ l d st = true -> In q qs -> served A E d st q f').
Proof.
  intros T A E l k n ds qs f f' ok Hn H. destruct (run_step T A E l k n Hn ds qs f f' ok H) as [S V].
  refine (conj (st_grown _ _ _ _ _ _ _ _ S) (conj (st_once _ _ _ _ _ _ _ _ S) (conj (st_one _ _ _ _ _ _ _ _ S) (conj (st_many _ _ _ _ _ _ _ _ S) V)))).
Qed.
Print Assumptions C83_records.

(** Every data set of at least 1000 k - 500 subsequences is processed, if the library raises
    for no other reason. *)
Theorem C83_all_processed : forall (T A E : Type) k ds (sets : list (exset T A E)),
  (forall s, In s sets -> 1000 * k - 500 < s_subseq s <= 2 ^ 39 /\ 0 <= s_subseq s /\ works T A E (s_lib s) k (s_files s)) ->
  Forall2 (fun s f => run_genex T A E (s_lib s) k (s_subseq s) ds (s_queries s) (s_files s) = (f, true) /\
      forall d st q, In d ds -> In st similarities -> g_exists _ _ _ (s_lib s) d st = true -> In q (s_queries s) -> served A E d st q f)
    sets (genex_script k ds sets).
Proof.
  intros T A E k ds sets. induction sets as [|s sets IH]; intros Hs; cbn [genex_script]; [constructor|].
  destruct (Hs s (or_introl eq_refl)) as (Hb & H0 & W).
  pose proof (run_works T A E (s_lib s) k (s_subseq s) ltac:(lia) ltac:(lia) ds (s_queries s) (s_files s) W) as Hok.
  destruct (run_genex T A E (s_lib s) k (s_subseq s) ds (s_queries s) (s_files s)) as [f ok] eqn:Er. cbn [snd] in Hok. subst ok.
  constructor.
  - split; [exact Er|]. destruct (C83_records T A E (s_lib s) k (s_subseq s) ds (s_queries s) (s_files s) f true ltac:(lia) Er) as (_ & _ & _ & _ & V). apply V. reflexivity.
  - apply IH. intros s' Hs'. apply Hs. right. exact Hs'.
Qed.
Print Assumptions C83_all_processed.

(** A data set of fewer subsequences with a query that has an exhaustive answer but no errors
    yet stops the script: it is not finished, nor are the data sets after it even begun.  The
    search for k matches raises if it is to look at fewer than k subsequences (C25). *)
Theorem C83_small_stops : forall (T A E : Type) k ds (before after : list (exset T A E)) s d st q b,
  0 <= s_subseq s < 1000 * k - 500 -> s_subseq s <= 2 ^ 39 ->
  (forall t ke q, ke < k -> g_ksim _ _ _ (s_lib s) t k ke q = None) ->
  In d ds -> In st similarities -> g_exists _ _ _ (s_lib s) d st = true -> In q (s_queries s) ->
  in_one A E (s_files s) d b -> o_method _ b = "bf" -> o_query _ b = q ->
  (forall o, in_many A E (s_files s) d o -> m_method _ o = ("genex_" ++ st)%string -> m_query _ o <> q) ->
  exists done f, genex_script k ds (before ++ s :: after) = done ++ f :: map s_files after /\ length done = length before /\
    ~ served A E d st q f.
Proof.
  intros T A E k ds before after s d st q b Hn Hb Hraise Hd Hst He Hq B1 B2 B3 Hnew.
  assert (Hno : forall f, (exists ok, run_genex T A E (s_lib s) k (s_subseq s) ds (s_queries s) (s_files s) = (f, ok)) \/ f = s_files s -> ~ served A E d st q f).
  { intros f Hf [_ V].
    assert (R : grown A E (s_files s) f /\ (forall d o, in_many A E f d o -> in_many A E (s_files s) d o \/
     (exists st b, g_exists _ _ _ (s_lib s) d st = true /\ m_method _ o = ("genex_" ++ st)%string /\
        in_one A E (s_files s) d b /\ o_method _ b = "bf" /\ o_query _ b = m_query _ o /\
        explored T A E (s_lib s) k (s_subseq s) (m_query _ o) (o_answer _ b) (m_errs _ o)))).
    { destruct Hf as [[ok Er]| ->].
      - destruct (C83_records T A E (s_lib s) k (s_subseq s) ds (s_queries s) (s_files s) f ok ltac:(lia) Er) as (G & _ & _ & M & _). auto.
      - split; [apply grown_refl|]. auto. }
    destruct R as [G M]. destruct V as (o & Ho & Hm & Ho2).
    { exists b. split; [exact (grown_one _ _ _ _ _ _ G B1)|auto]. }
    destruct (M d o Ho) as [Hin|(st' & b' & _ & _ & _ & _ & _ & [Hl X])]; [exact (Hnew o Hin Hm Ho2)|].
    destruct (m_errs E o) as [|e es] eqn:Ees; [cbn in Hl; lia|].
    destruct (X 0%nat e eq_refl) as ((ke & t & t' & a & Hke & Hks & _) & _). unfold thousandths in Hke.
    rewrite Hraise in Hks by lia. discriminate Hks. }
  induction before as [|s0 before IH]; cbn [app genex_script].
  - destruct (run_genex T A E (s_lib s) k (s_subseq s) ds (s_queries s) (s_files s)) as [f ok] eqn:Er.
    destruct ok.
    + exfalso. apply (Hno f); [left; eauto|]. destruct (C83_records T A E (s_lib s) k (s_subseq s) ds (s_queries s) (s_files s) f true ltac:(lia) Er) as (_ & _ & _ & _ & V). apply V; auto.
    + exists [], f. split; [reflexivity|]. split; [reflexivity|]. apply Hno. left. eauto.
  - destruct (run_genex T A E (s_lib s0) k (s_subseq s0) ds (s_queries s0) (s_files s0)) as [f0 ok0].
    destruct ok0.
    + destruct IH as (done & f & -> & Hl & Hf). exists (f0 :: done), f. split; [reflexivity|]. split; [cbn; lia|exact Hf].
    + exists (f0 :: map s_files before), (s_files s). split; [rewrite map_app; reflexivity|]. split; [cbn; rewrite map_length; reflexivity|].
      apply Hno. right. reflexivity.
Qed.
Print Assumptions C83_small_stops.

(** ** the last extent *)

Lemma flat_length {X Y} (g : X -> list Y) xs c : (forall x, In x xs -> length (g x) = c) -> length (flat_map g xs) = (length xs * c)%nat.
Proof.
  induction xs as [|x xs IH]; intros H; cbn [flat_map]; [reflexivity|]. rewrite app_length, (H x (or_introl eq_refl)), IH; [reflexivity|]. intros y Hy. apply H. right. exact Hy.
Qed.

Lemma triangle {Y} (g : Z -> Z -> Y) : forall m a n, n - a + 1 = Z.of_nat m ->
  2 * Z.of_nat (length (flat_map (fun l => map (g l) (zseq 0 (Z.to_nat (n - l + 1)))) (zseq a m))) = Z.of_nat m * (Z.of_nat m + 1).
Proof.
  induction m as [|m IH]; intros a n Hn; [reflexivity|]. cbn [zseq flat_map]. rewrite app_length, map_length, zseq_length, Nat2Z.inj_add, Z2Nat.id by lia.
  rewrite Z.mul_add_distr_l, IH by lia. lia.
Qed.

Lemma count_places {N : Num} (rows : list (list (D N))) (L : nat) : (1 <= L)%nat -> (forall row, In row rows -> length row = L) ->
  2 * Z.of_nat (length (bf_places rows)) = Z.of_nat (length rows) * (Z.of_nat L * (Z.of_nat L - 1)).
Proof.
  intros HL1 HL. unfold bf_places.
  assert (J : forall idx, In idx (zseq 0 (length rows)) -> 2 * Z.of_nat (length (row_places rows idx)) = Z.of_nat L * (Z.of_nat L - 1)).
  { intros idx Hi. apply zseq_In in Hi. unfold row_places. destruct (row_of rows idx) as [row|] eqn:Er.
    - cbv zeta. apply row_of_Some in Er as [_ Er]. apply nth_error_In in Er. rewrite (HL row Er).
      rewrite triangle by lia. rewrite Z2Nat.id by lia. lia.
    - exfalso. unfold row_of in Er. destruct (idx <? 0) eqn:E0; [lia|]. apply nth_error_None in Er. lia. }
  assert (K : forall xs, (forall idx, In idx xs -> 2 * Z.of_nat (length (row_places rows idx)) = Z.of_nat L * (Z.of_nat L - 1)) ->
     2 * Z.of_nat (length (flat_map (row_places rows) xs)) = Z.of_nat (length xs) * (Z.of_nat L * (Z.of_nat L - 1))).
  { clear. induction xs as [|x xs IH]; intros H; [reflexivity|]. cbn [flat_map length]. rewrite app_length, Nat2Z.inj_add, Z.mul_add_distr_l, (H x (or_introl eq_refl)), IH by (intros; apply H; right; assumption). lia. }
  rewrite (K _ J), zseq_length. reflexivity.
Qed.

(** at most as many if some series are shorter *)
Lemma count_places_le {N : Num} (rows : list (list (D N))) (L : nat) : (1 <= L)%nat -> (forall row, In row rows -> (length row <= L)%nat) ->
  2 * Z.of_nat (length (bf_places rows)) <= Z.of_nat (length rows) * (Z.of_nat L * (Z.of_nat L - 1)).
Proof.
  intros HL1 HL. unfold bf_places.
  assert (J : forall idx, In idx (zseq 0 (length rows)) -> 2 * Z.of_nat (length (row_places rows idx)) <= Z.of_nat L * (Z.of_nat L - 1)).
  { intros idx Hi. apply zseq_In in Hi. unfold row_places. destruct (row_of rows idx) as [row|] eqn:Er.
    - cbv zeta. apply row_of_Some in Er as [_ Er]. apply nth_error_In in Er. pose proof (HL row Er) as Hrow.
      destruct (length row) as [|m] eqn:Em; [cbn; nia|].
      rewrite triangle by lia. rewrite Z2Nat.id by lia. nia.
    - exfalso. unfold row_of in Er. destruct (idx <? 0) eqn:E0; [lia|]. apply nth_error_None in Er. lia. }
  assert (K : forall xs, (forall idx, In idx xs -> 2 * Z.of_nat (length (row_places rows idx)) <= Z.of_nat L * (Z.of_nat L - 1)) ->
     2 * Z.of_nat (length (flat_map (row_places rows) xs)) <= Z.of_nat (length xs) * (Z.of_nat L * (Z.of_nat L - 1))).
  { clear. induction xs as [|x xs IH]; intros H; [cbn; lia|]. cbn [flat_map length]. rewrite app_length, Nat2Z.inj_add, Z.mul_add_distr_l.
    pose proof (H x (or_introl eq_refl)). specialize (IH ltac:(intros; apply H; right; assumption)). lia. }
  pose proof (K _ J) as X. rewrite zseq_length in X. exact X.
Qed.

(** In exact arithmetic, on data whose series have at most [L] points (the length recorded
    for the data set) and which was not grouped by whole series only: the searches look at more and more until the last one, which
    looks at everything, has the error 0.  So the errors recorded are never negative and end
    with one that is tiny. *)
Theorem C83_last_exact : forall (H : std_alg) (kd : kind) (d : dataset XR) (rows : list (list R)) (L : nat)
    old clock (ratio0 : Num.D XR) (t : R) threads g0 total g (query : TS XR) (xs : list R) (ratio : R) k n,
  std_ok H ->
  holds d (real_rows rows) -> (1 <= L)%nat -> (forall row, In row rows -> (length row <= L)%nat) ->
  2 * n = Z.of_nat (length rows) * (Z.of_nat L * (Z.of_nat L - 1)) -> 1000 * k - 500 < n <= 2 ^ 39 ->
  1 <= threads -> log_safe d clock -> ds_maxcol d <= 2 ^ 30 ->
  groupAllLengths (N := XR) clock ratio0 (mkGS d old) (kind_name kd) (Fin t) threads false = (g0, Ret total) ->
  asked (N := XR) H g0 g ->
  is_series query xs -> 2 <= ts_length query <= ds_maxcol d -> (0 <= ratio <= 1)%R -> 1 <= k ->
  no_near_ties (N := XR) (real_rows rows) kd (Fin ratio) (map Fin xs) (long_enough (real_rows rows)) ->
  at_least (searched_place (N := XR) d (real_rows rows) false (Fin ratio) (ts_length query)) k ->
  exists best b, getKBestMatchesBruteForce (N := XR) H (Fin ratio) d query k (kind_name kd) = Ret best /\ distances best b /\
    forall i ke, nth_error (extents n) i = Some ke ->
      exists g' cs a, getKBestMatches (N := XR) H (Fin ratio) g query k ke = Ret (g', cs) /\ distances cs a /\
        length a = length b /\ (0 <= mean_error a b)%R /\ (i = 999%nat -> mean_error a b = 0%R).
Proof.
  intros H kd d rows L old clock ratio0 t threads g0 total g query xs ratio k n Hok Hd HL1 HL Hn Hk Ht Hlog Hmax E Ha Hq Hql Hr Hk1 Hties Hat.
  assert (Hex : forall i ke, nth_error (extents n) i = Some ke -> k <= ke /\ (i = 999%nat -> ke = n)).
  { destruct (C83_extents n ltac:(lia)) as (_ & _ & _ & X & Y & _). intros i ke Hi. split.
    - pose proof (Y k ltac:(lia)) as Z1. rewrite Forall_forall in Z1. apply Z1. eapply nth_error_In; eauto.
    - intros ->. congruence. }
  assert (Hplaces : forall ps, NoDup ps -> (forall p, In p ps -> searched_place (N := XR) d (real_rows rows) false (Fin ratio) (ts_length query) p) -> Z.of_nat (length ps) <= n).
  { intros ps Hnd Hps.
    assert (Hlen : (length ps <= length (bf_places (N := XR) (real_rows rows)))%nat).
    { apply NoDup_incl_length; [exact Hnd|]. intros p Hp. apply BruteProofs.bf_places_In. apply (PropsError.searched_long (N := XR) d _ false (Fin ratio) (ts_length query)); [lia|apply Hps; exact Hp]. }
    assert (Hc : 2 * Z.of_nat (length (bf_places (N := XR) (real_rows rows))) <= Z.of_nat (length (real_rows rows)) * (Z.of_nat L * (Z.of_nat L - 1))).
    { apply (count_places_le (N := XR)); [exact HL1|]. intros row Hrow. unfold real_rows in Hrow. apply in_map_iff in Hrow as (r0 & <- & Hr0). rewrite map_length. exact (HL r0 Hr0). }
    unfold real_rows in Hc at 2. rewrite map_length in Hc. clear -Hc Hlen Hn. lia. }
  destruct (PropsError.C81_error_exact H kd d rows old clock ratio0 t threads false g0 total g query xs ratio k k Hok Hd Ht Hlog Hmax E Ha Hq Hql Hr ltac:(lia) Hties Hat)
    as (_ & _ & best & _ & b & _ & Eb & _ & Db & _ & Lb & _).
  exists best, b. split; [exact Eb|]. split; [exact Db|]. intros i ke Hi. destruct (Hex i ke Hi) as [Hke Hlast].
  destruct (PropsError.C81_error_exact H kd d rows old clock ratio0 t threads false g0 total g query xs ratio k ke Hok Hd Ht Hlog Hmax E Ha Hq Hql Hr ltac:(lia) Hties Hat)
    as (g' & cs & best' & a & b' & Ek & Eb' & Da & Db' & La & Lb' & Hpos & _ & _ & Hall).
  assert (best' = best) as -> by congruence.
  assert (b' = b) as ->.
  { unfold distances in Db, Db'. rewrite Db in Db'. clear -Db'. revert b' Db'. induction b as [|x b IH]; intros [|y b'] Hb; try discriminate Hb; [reflexivity|]. injection Hb as -> Hb. f_equal. apply IH. exact Hb. }
  exists g', cs, a. split; [exact Ek|]. split; [exact Da|]. split; [lia|]. split; [exact Hpos|].
  intros Hi9. apply Hall; [reflexivity|]. rewrite (Hlast Hi9). exact Hplaces.
Qed.
Print Assumptions C83_last_exact.

(** The number of subsequences in the records (C84) is the number of subsequences of at least two
    points if all series are equally long, and not less in any case. *)
Theorem C83_subsequences : forall (N : Num) (rows : list (list (Num.D N))) (L : nat), (1 <= L)%nat ->
  exists ps, NoDup ps /\ (forall p, In p ps <-> long_enough rows p) /\
    ((forall row, In row rows -> length row = L) -> Z.of_nat (length ps) = Z.of_nat (length rows) * (Z.of_nat L * (Z.of_nat L - 1) / 2)) /\
    ((forall row, In row rows -> (length row <= L)%nat) -> Z.of_nat (length ps) <= Z.of_nat (length rows) * (Z.of_nat L * (Z.of_nat L - 1) / 2)).
Proof.
  intros N rows L HL. exists (bf_places rows). split; [apply bf_places_NoDup|]. split; [apply BruteProofs.bf_places_In|].
  assert (H : exists m, Z.of_nat L * (Z.of_nat L - 1) = m * 2).
  { destruct (Z.Even_or_Odd (Z.of_nat L)) as [[j ->]|[j ->]]; [exists (j * (2 * j - 1))|exists ((2 * j + 1) * j)]; ring. }
  destruct H as [m H]. rewrite H, Z.div_mul by lia. split; intros Hr.
  - pose proof (count_places rows L HL Hr) as C. rewrite H in C. lia.
  - pose proof (count_places_le rows L HL Hr) as C. rewrite H in C. lia.
Qed.
Print Assumptions C83_subsequences.

(** ** examples *)

(** a library whose answers improve with the extent; group files for 0.1 and 0.3 *)
Definition toy : glib nat Z Z :=
  mkGLib nat Z Z (Some 0%nat) (fun d st => String.eqb st "0.1" || String.eqb st "0.3")
    (fun t d st => Some (S t)) (fun t q => Some (q_index q, S t))
    (fun t k ke q => if ke <? k then None else Some (ke, S t))
    (fun a b => Some (b - a)) (fun e => e <=? 0).
Definition q1 := mkQuery 3 0 9 0.
Definition q2 := mkQuery 4 1 7 1.
(** an exhaustive answer is recorded for the first query only *)
Definition start : files Z Z := mkFiles Z Z [("euclidean", [mkOne Z q1 "bf" 55])] [].
Definition small_set := mkExset "Small" toy 14000 [q1; q2] start.
Definition large_set := mkExset "Large" toy 20000 [q1; q2] start.

Example C83_example_run : run_genex nat Z Z toy 15 20000 ["euclidean"] [q1; q2] start =
  (mkFiles Z Z
     [("euclidean", [mkOne Z q1 "bf" 55; mkOne Z q1 "genex_0.1" 3; mkOne Z q2 "genex_0.1" 4; mkOne Z q1 "genex_0.3" 3; mkOne Z q2 "genex_0.3" 4])]
     [("euclidean", [mkMany Z q1 "genex_0.1" [35; 15; -5]; mkMany Z q1 "genex_0.3" [35; 15; -5]])], true).
Proof. vm_compute. reflexivity. Qed.

Lemma toy_works : works nat Z Z toy 15 start.
Proof.
  split; cbn; try discriminate.
  intros t ke q Hk. destruct (Z.ltb_spec ke 15); [lia|discriminate].
Qed.

Example C83_example_pre : once Z Z start /\
  (forall s, In s [large_set; large_set] -> 1000 * 15 - 500 < s_subseq s <= 2 ^ 39 /\ 0 <= s_subseq s /\ works nat Z Z (s_lib s) 15 (s_files s)) /\
  (0 <= s_subseq small_set < 1000 * 15 - 500) /\ (forall t ke q, ke < 15 -> g_ksim _ _ _ (s_lib small_set) t 15 ke q = None) /\
  in_one Z Z (s_files small_set) "euclidean" (mkOne Z q1 "bf" 55) /\
  (* one series of 33 points has enough subsequences for one match *)
  2 * 528 = Z.of_nat 1 * (Z.of_nat 33 * (Z.of_nat 33 - 1)) /\ 1000 * 1 - 500 < 528.
Proof.
  split; [|split; [|split; [|split; [|split]]]].
  - intros d. unfold start. cbn [f_one f_many rows_at]. destruct (String.eqb "euclidean" d); cbn; split; repeat constructor; cbn; auto.
  - intros s [<-|[<-|[]]]; (split; [cbn; lia|split; [cbn; lia|exact toy_works]]).
  - cbn. lia.
  - intros t ke q Hk. cbn. destruct (Z.ltb_spec ke 15); [reflexivity|lia].
  - left. reflexivity.
  - lia.
Qed.

(** One data set that is too small keeps the script from processing the others: the large
    one alone is processed, after the small one it is left as it was. *)
Theorem C83_small_refuted : exists (s s' : exset nat Z Z) q,
  works nat Z Z (s_lib s') 15 (s_files s') /\ In q (s_queries s') /\ g_exists _ _ _ (s_lib s') "euclidean" "0.1" = true /\
  (exists f, genex_script 15 ["euclidean"] [s'] = [f] /\ served Z Z "euclidean" "0.1" q f) /\
  (exists f, genex_script 15 ["euclidean"] [s; s'] = [f; s_files s'] /\ ~ served Z Z "euclidean" "0.1" q (s_files s')).
Proof.
  exists small_set, large_set, q1. split; [exact toy_works|]. split; [left; reflexivity|]. split; [reflexivity|]. split.
  - pose proof (C83_all_processed nat Z Z 15 ["euclidean"] [large_set]) as P.
    specialize (P ltac:(intros s [<-|[]]; split; [cbn; lia|split; [cbn; lia|exact toy_works]])).
    revert P. generalize (genex_script 15 ["euclidean"] [large_set]). intros fs P.
    inversion P as [|s f ss fs' [Er V] P2 E1 E2]. inversion P2. subst. exists f. split; [reflexivity|]. apply V; [left; reflexivity|left; reflexivity|reflexivity|left; reflexivity].
  - destruct (C83_small_stops nat Z Z 15 ["euclidean"] [] [large_set] small_set "euclidean" "0.1" q1 (mkOne Z q1 "bf" 55)) as (done & f & Eq & Hl & _).
    + cbn. lia.
    + cbn. lia.
    + intros t ke q Hk. cbn. destruct (Z.ltb_spec ke 15); [reflexivity|lia].
    + left; reflexivity.
    + left; reflexivity.
    + reflexivity.
    + left; reflexivity.
    + left; reflexivity.
    + reflexivity.
    + reflexivity.
    + intros o [].
    + destruct done; [|discriminate Hl]. exists f. split; [exact Eq|]. intros [(o & Ho & Hm & _) _]. destruct Ho as [<-|[]]. discriminate Hm.
Qed.
Print Assumptions C83_small_refuted.
