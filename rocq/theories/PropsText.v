(** C71: what is kept of the values of a data set when it is saved as text and loaded again.
    [put_double 6] is the output of a double with the default precision, [stod_double] is
    std::stod (PrintDec.v). *)
From Coq Require Import ZArith Lia Reals Lra String Ascii.
From Flocq Require Import Core BinarySingleNaN.
From Verif Require Import Base Num NumB64 NumB64Laws LoopFacts TSSet Loader DataSpec LoaderSpec LoaderProofs PrintDec DecText DecReal DecRound.
From Verif Require PropsLoader.
Local Open Scope string_scope.
Local Open Scope Z_scope.

(** ** Specification *)

(** [y] is [r] rounded to [p] decimal digits: a nearest number with [p] digits, and the one
    with an even last digit if there are two *)
Definition rounded_to (p : Z) (r y : R) : Prop :=
  (r = 0 /\ y = 0)%R \/
  exists M k : Z, 10 ^ (p - 1) <= Z.abs M < 10 ^ p /\ y = (IZR M * b10 k)%R /\ (Rabs (r - y) <= b10 k / 2)%R /\
    (Rabs (r - y) = b10 k / 2 -> Z.even M = true)%R.

(** zero, or of a size that is far from the limits of the type double *)
Definition of_ordinary_size (x : b64) : Prop :=
  is_finite x = true /\ (B2R x = 0 \/ b2 (-1021) <= Rabs (B2R x) <= b2 1023)%R.

(** at most [p] significant decimal digits: whole numbers below 10^p, and 0.25, 12.5e-7, ... *)
Definition short (p : Z) (x : b64) : Prop :=
  exists N j : Z, Z.abs N < 10 ^ p /\ B2R x = near (IZR N * b10 j).

(** a character that can separate the fields of a file *)
Definition separates (c : ascii) : Prop := ~ number_char c /\ c <> newline /\ c <> zero.

(** ** One number *)
Theorem C71_one_number : forall (p : Z) (x : b64), 1 <= p -> of_ordinary_size x ->
  exists (v : b64) (y : R), stod_double (put_double p x) = Parsed v /\ is_finite v = true /\ Bsign v = Bsign x /\
  rounded_to p (B2R x) y /\ B2R v = near y /\
  (Rabs (B2R v - B2R x) <= (b10 (1 - p) / 2 + b2 (-52)) * Rabs (B2R x))%R.
Proof.
  intros p x Hp Hx. pose proof Hx as [Hf _]. destruct (Req_dec (B2R x) 0) as [Z|NZ].
  - destruct (zero_text p x Hf Z) as [_ E]. exists x, 0%R. splits; auto.
    + left. auto.
    + rewrite Z, near_0. reflexivity.
    + rewrite Z, Rminus_0_r, Rabs_R0. lra.
  - destruct (write_read p x Hp Hx NZ) as (M & k & v & HM & E & H1 & H2 & Hy & V & Vf & Vs & Vv & Vn & Vt).
    set (y := (IZR M * b10 (k - p + 1))%R) in *. set (s := Bsign x) in *. pose proof (sign_value x Hf) as Sx. fold s in Sx.
    assert (Ds : forall a b, Rabs (signed s a - signed s b) = Rabs (a - b)).
    { intros a b. destruct s; cbn; [|reflexivity]. replace (- a - - b)%R with (- (a - b))%R by ring. apply Rabs_Ropp. }
    exists v, (signed s y). splits; auto.
    + right. exists (if s then - M else M), (k - p + 1). splits.
      * destruct s; lia.
      * destruct s; lia.
      * unfold y. destruct s; cbn [signed]; [rewrite opp_IZR; ring|reflexivity].
      * rewrite Sx, Ds. exact H1.
      * rewrite Sx, Ds. intros Ht. specialize (Vt Ht). destruct s; [rewrite Z.even_opp|]; exact Vt.
    + rewrite Vv. destruct s; cbn [signed]; [|reflexivity]. unfold near. rewrite round_NE_opp. reflexivity.
    + rewrite Sx, Vv, Ds, signed_abs by apply Rabs_pos. set (a := Rabs (B2R x)) in *. pose proof (near_err y Hy) as NE.
      pose proof (b10_small p Hp). assert (0 <= a)%R by apply Rabs_pos. pose proof (b2_pos (-53)).
      assert (E2 : (b2 (-52) = 2 * b2 (-53))%R) by (change 2%R with (b2 1); rewrite <- bpow_plus; reflexivity).
      assert (Hr : (b10 (1 - p) / 2 * a <= a / 2)%R) by (replace (a / 2)%R with (1 / 2 * a)%R by lra; apply Rmult_le_compat_r; lra).
      assert (y <= a * 2)%R by (unfold Rabs in H2; destruct Rcase_abs; lra).
      assert (b2 (-53) * y <= b2 (-53) * (a * 2))%R by (apply Rmult_le_compat_l; lra).
      replace (near y - a)%R with ((near y - y) + - (a - y))%R by ring.
      apply Rle_trans with (1 := Rabs_triang _ _). rewrite Rabs_Ropp, E2, Rmult_plus_distr_r. lra.
Qed.

(** Numbers with at most p digits come back as they were. *)
Theorem C71_short_numbers : forall (p : Z) (x : b64), 1 <= p <= 14 -> of_ordinary_size x -> short p x ->
  stod_double (put_double p x) = Parsed x.
Proof. intros p x Hp Hx (N & j & HN & E). exact (short_same p x N j Hp Hx HN E). Qed.

(** What was read is written as before: nothing more is lost the second time. *)
Theorem C71_second_time : forall (p : Z) (x v : b64), 1 <= p <= 14 -> of_ordinary_size x ->
  stod_double (put_double p x) = Parsed v -> put_double p v = put_double p x.
Proof. intros p x v Hp Hx E. destruct (write_again p x Hp Hx) as (v' & E' & _ & T & _). assert (v' = v) by congruence. subst v'. exact T. Qed.

(** ** A data set *)
Lemma minus_number s : every number_char (minus s).
Proof. destruct s; [|exact I]. cbn. split; [|exact I]. unfold number_char. auto 6. Qed.

Lemma text_clean sep p (x : b64) : 1 <= p -> separates sep -> is_finite x = true -> clean sep (put_double p x).
Proof.
  intros Hp (S1 & S2 & _) Hf. assert (G : forall w, w <> "" -> every number_char w -> clean sep w).
  { intros w Hw Hev. split; [exact Hw|]. revert Hev. apply every_impl. intros c Hc. split; [intros ->; contradiction|]. intros ->.
    destruct Hc as [Hc|[Hc|[Hc|[Hc|Hc]]]]; try discriminate. apply Hc. reflexivity. }
  destruct (Req_dec (B2R x) 0) as [Z|NZ].
  - destruct (zero_text p x Hf Z) as [E _]. rewrite E. apply G; [destruct (Bsign x); discriminate|]. apply LoaderProofs.every_app; [apply minus_number|].
    cbn. split; [|exact I]. left. discriminate.
  - destruct (put_is p x Hp Hf NZ) as (M & k & E & HM & _). rewrite E. assert (0 < 10 ^ (p - 1)) by (apply Z.pow_pos_nonneg; lia). apply G.
    + destruct (format_parts p M k Hp HM) as (m & sc & _ & _ & _ & Hns). destruct (Bsign x); [discriminate|]. cbn. intros C. rewrite C in Hns. exact Hns.
    + apply LoaderProofs.every_app; [apply minus_number|]. apply format_number. lia.
Qed.

Lemma fields_same {N : Num} (put : D N -> string) names rows rows' : map (map put) rows = map (map put) rows' -> fields_of put names rows = fields_of put names rows'.
Proof.
  intros H. unfold fields_of. destruct names as [|a l]; [exact H|]. clear -H.
  revert rows rows' H. generalize (a :: l). induction l0 as [|b l0 IH]; intros [|r rows] [|r' rows'] H; try discriminate; try reflexivity.
  cbn in *. injection H as H1 H2. rewrite H1. f_equal. apply IH. exact H2.
Qed.

Lemma save_load_save {N : Num} (stod : string -> parsed (D N)) (put : D N -> string) sep (d : dataset N) rows rows' path :
  holds d rows -> ds_names d = [] \/ length (ds_names d) = length rows -> sep <> newline -> sep <> zero ->
  Forall (clean sep) (ds_names d) -> Forall (Forall (fun v => clean sep (put v))) rows -> ds_count d * (ds_maxcol d + 1) <= int_max ->
  table stod (map (map put) rows) = Ret rows' -> map (map put) rows' = map (map put) rows ->
  exists text, saveData put true d path sep = Ret text /\
  forall (fs : files) (path' : string), fs path' = Some (mkFile text None) ->
  exists d' : dataset N, loadData stod fs ds_new path' 0 0 (String sep "") (match ds_names d with [] => false | _ => true end) = (d', Ret tt) /\
    holds d' rows' /\ ds_names d' = ds_names d /\ forall path'', saveData put true d' path'' sep = Ret text.
Proof.
  intros Hd Hn Snl Sz HN HR Hsz Et T. destruct (round_trip stod put sep d rows path Hd Hn Snl Sz HN HR Hsz) as (text & E1 & E2).
  exists text. split; [exact E1|]. intros fs path' Ef. specialize (E2 fs path' Ef). cbv zeta in E2. rewrite Et in E2.
  destruct E2 as (d' & L1 & L2 & L3 & _). exists d'. split; [exact L1|]. split; [exact L2|]. split; [exact L3|].
  intros path''. assert (Len : length rows' = length rows) by (apply (f_equal (@length _)) in T; rewrite !map_length in T; exact T).
  assert (Hn' : ds_names d' = [] \/ length (ds_names d') = length rows') by (rewrite L3, Len; exact Hn).
  rewrite (saveData_ok put sep d' rows' path'' L2 Hn'). rewrite (saveData_ok put sep d rows path Hd Hn) in E1.
  rewrite <- E1, L3, (fields_same put (ds_names d) rows' rows T). reflexivity.
Qed.

Definition close_to (x v : b64) : Prop :=
  is_finite v = true /\ Bsign v = Bsign x /\ (exists y, rounded_to 6 (B2R x) y /\ B2R v = near y) /\ (Rabs (B2R v - B2R x) <= 6 / 1000000 * Rabs (B2R x))%R.

Lemma reload_close (x : b64) : of_ordinary_size x -> exists v, stod_double (put_double 6 x) = Parsed v /\ close_to x v /\ put_double 6 v = put_double 6 x.
Proof.
  intros Hx. destruct (C71_one_number 6 x ltac:(lia) Hx) as (v & y & E & Hf & Hs & Hr & Hv & Herr). exists v. split; [exact E|]. split.
  - split; [exact Hf|]. split; [exact Hs|]. split; [exists y; auto|]. apply Rle_trans with (1 := Herr). apply Rmult_le_compat_r; [apply Rabs_pos|].
    assert (E5 : (b10 (1 - 6) = 1 / 100000)%R) by (cbn; lra). rewrite E5.
    assert (E6 : (b2 (-52) <= b2 (-30))%R) by (apply bpow_le; lia). assert (E7 : (b2 (-30) = / 1073741824)%R) by reflexivity. lra.
  - apply (C71_second_time 6 x v); auto. lia.
Qed.

Lemma numbers_close (row : list b64) : Forall of_ordinary_size row ->
  exists row', numbers (N := B64) stod_double (map (put_double 6) row) = Ret row' /\ Forall2 close_to row row' /\ map (put_double 6) row' = map (put_double 6) row.
Proof.
  induction 1 as [|x row Hx _ (row' & E & F & T)].
  - exists []. auto.
  - destruct (reload_close x Hx) as (v & Ev & Hc & Tv). exists (v :: row'). split; [|split; [constructor; auto|cbn; congruence]].
    cbn [map numbers]. rewrite Ev, E. reflexivity.
Qed.
Lemma table_close (rows : list (list b64)) : Forall (Forall of_ordinary_size) rows ->
  exists rows', table (N := B64) stod_double (map (map (put_double 6)) rows) = Ret rows' /\ Forall2 (Forall2 close_to) rows rows' /\
  map (map (put_double 6)) rows' = map (map (put_double 6)) rows.
Proof.
  induction 1 as [|r rows Hr _ (rows' & E & F & T)].
  - exists []. auto.
  - destruct (numbers_close r Hr) as (r' & Er & Fr & Tr). exists (r' :: rows'). split; [|split; [constructor; auto|cbn; congruence]].
    cbn [map table]. rewrite Er, E. reflexivity.
Qed.

(** Saving a data set and loading the file gives the same names and lengths, every value
    rounded to six decimal digits, and saving the result writes the same file again. *)
Theorem C71_dataset : forall (sep : ascii) (d : dataset B64) (rows : list (list b64)) (path : string),
  holds d rows -> ds_names d = [] \/ length (ds_names d) = length rows -> separates sep ->
  Forall (clean sep) (ds_names d) -> Forall (Forall of_ordinary_size) rows -> ds_count d * (ds_maxcol d + 1) <= int_max ->
  exists text, saveData (N := B64) (put_double 6) true d path sep = Ret text /\
  forall (fs : files) (path' : string), fs path' = Some (mkFile text None) ->
  exists (d' : dataset B64) (rows' : list (list b64)),
    loadData (N := B64) stod_double fs ds_new path' 0 0 (String sep "") (match ds_names d with [] => false | _ => true end) = (d', Ret tt) /\
    holds d' rows' /\ ds_names d' = ds_names d /\ Forall2 (Forall2 close_to) rows rows' /\
    forall path'', saveData (N := B64) (put_double 6) true d' path'' sep = Ret text.
Proof.
  intros sep d rows path Hd Hn Hsep HN HR Hsz. pose proof Hsep as (_ & Snl & Sz).
  assert (HR1 : Forall (Forall (fun v => clean sep (put_double 6 v))) rows).
  { revert HR. apply Forall_impl. intros r. apply Forall_impl. intros x [Hf _]. apply text_clean; auto. lia. }
  destruct (table_close rows HR) as (rows' & Et & F & T).
  destruct (save_load_save (N := B64) stod_double (put_double 6) sep d rows rows' path Hd Hn Snl Sz HN HR1 Hsz Et T) as (text & E1 & E2).
  exists text. split; [exact E1|]. intros fs path' Ef. destruct (E2 fs path' Ef) as (d' & L1 & L2 & L3 & L4). exists d', rows'.
  split; [exact L1|]. split; [exact L2|]. split; [exact L3|]. split; [exact F|exact L4].
Qed.

(** Data sets of short numbers come back unchanged. *)
Theorem C71_short_dataset : forall (sep : ascii) (d : dataset B64) (rows : list (list b64)) (path : string),
  holds d rows -> ds_names d = [] \/ length (ds_names d) = length rows -> separates sep ->
  Forall (clean sep) (ds_names d) -> Forall (Forall (fun x => of_ordinary_size x /\ short 6 x)) rows -> ds_count d * (ds_maxcol d + 1) <= int_max ->
  exists text, saveData (N := B64) (put_double 6) true d path sep = Ret text /\
  forall (fs : files) (path' : string), fs path' = Some (mkFile text None) ->
  exists d', loadData (N := B64) stod_double fs ds_new path' 0 0 (String sep "") (match ds_names d with [] => false | _ => true end) = (d', Ret tt) /\
    holds d' rows /\ ds_names d' = ds_names d.
Proof.
  intros sep d rows path Hd Hn Hsep HN HR Hsz. pose proof Hsep as (_ & Snl & Sz).
  apply PropsLoader.C30_lossless; auto. revert HR. apply Forall_impl. intros r. apply Forall_impl. intros x [Hx Hs]. split.
  - apply text_clean; auto; [lia|apply Hx].
  - apply C71_short_numbers; auto. lia.
Qed.

(** ** What is not kept *)
Definition pair_of (a b : b64) : dataset B64 := mkDS (N := B64) (Some [a; b]) [] [1; 1] 2 1 "f" false.
Lemma pair_holds a b : holds (N := B64) (pair_of a b) [[a]; [b]].
Proof.
  exists [a; b]. splits; try reflexivity; try (unfold int_max; simpl; lia).
  intros i row E. destruct i as [|[|i]]; [| |destruct i; discriminate]; injection E as <-; splits; try reflexivity;
    try (simpl; lia); intros j v Ej; destruct j as [|j]; [injection Ej as <-; reflexivity|destruct j; discriminate|injection Ej as <-; reflexivity|destruct j; discriminate].
Qed.

Lemma int_ordinary z : 1 <= z < 2 ^ 53 -> is_finite (b64_ofZ z) = true /\ B2R (b64_ofZ z) = IZR z /\ of_ordinary_size (b64_ofZ z).
Proof.
  intros Hz. destruct (val_Fin (b64_ofZ z) (IZR z)) as [F V]; [apply ofZ_small; lia|]. split; [exact F|]. split; [exact V|]. split; [exact F|].
  right. change (BinarySingleNaN.B2R (b64_ofZ z)) with (B2R (b64_ofZ z)). rewrite V. assert (1 <= IZR z)%R by (apply IZR_le; lia). rewrite Rabs_pos_eq by lra. split.
  - apply Rle_trans with (b2 0); [apply bpow_le; lia|exact H].
  - apply Rle_trans with (b2 53); [|apply bpow_le; lia]. rewrite <- IZR_2 by lia. apply IZR_le. lia.
Qed.

Lemma comma_ok : separates ",".
Proof. split; [|split; discriminate]. intros [H|[H|[H|[H|H]]]]; try discriminate. apply H. reflexivity. Qed.

(** It is not true that saved data sets are loaded as they were: two series that differ,
    1234567 and 1234568, are equal afterwards. *)
Theorem C71_kept_refuted : exists (a b c : b64) (d : dataset B64),
  B2R a = 1234567%R /\ B2R b = 1234568%R /\ of_ordinary_size a /\ of_ordinary_size b /\ holds d [[a]; [b]] /\
  exists text, saveData (N := B64) (put_double 6) true d "f" "," = Ret text /\
  forall (fs : files) (path' : string), fs path' = Some (mkFile text None) ->
  exists d' : dataset B64, loadData (N := B64) stod_double fs ds_new path' 0 0 "," false = (d', Ret tt) /\ holds d' [[c]; [c]].
Proof.
  destruct (int_ordinary 1234567 ltac:(lia)) as (Fa & Va & Oa). destruct (int_ordinary 1234568 ltac:(lia)) as (Fb & Vb & Ob).
  assert (T : put_double 6 (b64_ofZ 1234568) = put_double 6 (b64_ofZ 1234567)) by (vm_compute; reflexivity).
  set (a := b64_ofZ 1234567) in *. set (b := b64_ofZ 1234568) in *. clearbody a b.
  destruct (reload_close a Oa) as (c & Ec & _ & Tc). exists a, b, c, (pair_of a b).
  split; [exact Va|]. split; [exact Vb|]. split; [exact Oa|]. split; [exact Ob|]. split; [apply pair_holds|].
  destruct comma_ok as (_ & Snl & Sz).
  destruct (save_load_save (N := B64) stod_double (put_double 6) "," (pair_of a b) [[a]; [b]] [[c]; [c]] "f" (pair_holds a b) (or_introl eq_refl) Snl Sz) as (text & E1 & E2).
  - constructor.
  - repeat apply Forall_cons; try apply Forall_nil; (apply text_clean; [lia|exact comma_ok|assumption]).
  - cbn. unfold int_max. lia.
  - cbn [map]. rewrite T. cbn [table numbers]. rewrite Ec. reflexivity.
  - cbn [map]. rewrite T, Tc. reflexivity.
  - exists text. split; [exact E1|]. intros fs path' Ef. destruct (E2 fs path' Ef) as (d' & L1 & L2 & _). exists d'. split; [exact L1|exact L2].
Qed.

(** Nor can every saved data set be loaded: the smallest normal double, 2^-1022, is
    written as 2.22507e-308, and std::stod throws std::out_of_range for this text. *)
Definition smallest : b64 := nearest 1 (2 ^ 1022).
Lemma smallest_value : is_finite smallest = true /\ B2R smallest = b2 (-1022).
Proof.
  assert (E : (IZR 1 / IZR (2 ^ 1022) = b2 (-1022))%R) by (rewrite IZR_2 by lia; change (-1022) with (- (1022)); rewrite bpow_opp; unfold Rdiv; apply Rmult_1_l).
  destruct (nearest_ok 1 (2 ^ 1022) eq_refl eq_refl) as [F V].
  - rewrite E, near_b2 by lia. apply bpow_lt. lia.
  - rewrite E, near_b2 in V by lia. split; [exact F|exact V].
Qed.
Theorem C71_loadable_refuted : exists (a : b64) (d : dataset B64), is_finite a = true /\ B2R a = b2 (-1022) /\ holds d [[a]; [a]] /\
  exists text, saveData (N := B64) (put_double 6) true d "f" "," = Ret text /\
  forall (fs : files) (path' : string), fs path' = Some (mkFile text None) ->
  exists d' : dataset B64, loadData (N := B64) stod_double fs ds_new path' 0 0 "," false = (d', Throw (GenexExc "Values are out of range")).
Proof.
  destruct smallest_value as [F V].
  assert (O : match stod_double (put_double 6 smallest) with OutOfRange => true | _ => false end = true) by (vm_compute; reflexivity).
  set (a := smallest) in *. clearbody a. exists a, (pair_of a a). split; [exact F|]. split; [exact V|]. split; [apply pair_holds|].
  destruct comma_ok as (_ & Snl & Sz).
  destruct (PropsLoader.C30_save_reload B64 stod_double (put_double 6) "," (pair_of a a) [[a]; [a]] "f" (pair_holds a a) (or_introl eq_refl) Snl Sz) as (text & E1 & E2).
  - constructor.
  - repeat apply Forall_cons; try apply Forall_nil; (apply text_clean; [lia|exact comma_ok|assumption]).
  - cbn. unfold int_max. lia.
  - exists text. split; [exact E1|]. intros fs path' Ef. specialize (E2 fs path' Ef). cbv zeta in E2. cbn [map table numbers] in E2.
    destruct (stod_double (put_double 6 a)) as [v| |]; try discriminate O. cbn [bind] in E2. destruct E2 as (d' & L & _). exists d'. exact L.
Qed.

(** ** Non-vacuity: a data set of three-digit and of long numbers *)
Example C71_example :
  holds (pair_of (b64_ofZ 250) (b64_ofZ 1234567)) [[b64_ofZ 250]; [b64_ofZ 1234567]] /\
  Forall (Forall of_ordinary_size) [[b64_ofZ 250]; [b64_ofZ 1234567]] /\ short 6 (b64_ofZ 250) /\ separates "," /\
  saveData (N := B64) (put_double 6) true (pair_of (b64_ofZ 250) (b64_ofZ 1234567)) "f" "," = Ret ("250," ++ PropsLoader.nl1 ++ "1.23457e+06," ++ PropsLoader.nl1).
Proof.
  split; [apply pair_holds|]. split.
  { repeat apply Forall_cons; try apply Forall_nil; apply int_ordinary; lia. }
  split. { exists 250, 0. split; [reflexivity|]. destruct (int_ordinary 250 ltac:(lia)) as (F & V & _). change (b10 0) with 1%R. rewrite Rmult_1_r, <- V. symmetry. apply near_id. exact F. }
  split; [exact comma_ok|]. vm_compute. reflexivity.
Qed.

Print Assumptions C71_one_number.
Print Assumptions C71_short_numbers.
Print Assumptions C71_second_time.
Print Assumptions C71_dataset.
Print Assumptions C71_short_dataset.
Print Assumptions C71_kept_refuted.
Print Assumptions C71_loadable_refuted.

(** ** examples: known output of `%g` *)
Example put_ex1 : map (put_double 6) [b64_ofZ 0; b64_ofZ 1; b64_ofZ (-25); b64_lit 1 10; b64_lit 1 3; b64_ofZ 1234567; b64_ofZ 999999;
   b64_lit 9999995 10; b64_lit 1 10000; b64_lit 1 100000; b64_lit 123456789 1000; b64_ofZ 1000005; b64_ofZ 1000015]
  = ["0"; "1"; "-25"; "0.1"; "0.333333"; "1.23457e+06"; "999999"; "1e+06"; "0.0001"; "1e-05"; "123457"; "1e+06"; "1.00002e+06"].
Proof. vm_compute. reflexivity. Qed.
Example put_ex2 : map (put_double 16) [b64_lit 1 10; b64_lit 1 3; Bplus mode_NE (b64_lit 1 10) (b64_lit 2 10); b64_ofZ (2 ^ 53)]
  = ["0.1"; "0.3333333333333333"; "0.3"; "9007199254740992"].
Proof. vm_compute. reflexivity. Qed.
Example scan_ex : map (fun w => option_map B2SF (scan_double w)) ["0.1"; "-2.5e1"; "1e-05"; "1.23457e+06"; "+.5"; "x"; "1x"; "e5"; "1e999"; "-"]
  = map (option_map B2SF) [Some (b64_lit 1 10); Some (b64_ofZ (-25)); Some (b64_lit 1 100000); Some (b64_ofZ 1234570); Some (b64_lit 1 2); None; None; None; None; None].
Proof. vm_compute. reflexivity. Qed.
