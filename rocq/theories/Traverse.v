(** The lengths a query looks at (generateTraverseOrder,
    genex/group/GlobalGroupSpace.cpp:250-287). *)
From Coq Require Import Reals Lra.
From Flocq Require Import Core BinarySingleNaN.
From Verif Require Import Base Num NumB64 NumB64Laws NumLaws NumFacts NumXR NumXRLaws LoopFacts TimeSeries Lemire Distance
  TSSet StdAlg Candidate Group GroupSpace Band.
Local Open Scope Z_scope.
Local Open Scope list_scope.

Section Traverse.
Context {N : Num}.
Notation D := (D N).
Variable ratio : D.
Variables q total : Z.
Hypothesis Hq : 2 <= q <= total.
Variable bd : Z -> Z.
Hypothesis Hbd : forall l, 2 <= l <= total -> band ratio l = Ret (bd l).
Hypothesis Hpos : forall l, 2 <= l <= total -> 0 <= bd l.

Record tinv (low high : Z) (ls hs : bool) (order : list Z) : Prop := {
  ti_low : 1 <= low < q;
  ti_high : q < high <= total + 1;
  ti_hd : exists rest, order = q :: rest;
  ti_nd : NoDup order;
  ti_in : forall l, In l order <-> low < l < high;
  ti_ls : ls = true -> low < 2 \/ low + bd q < q;
  ti_hs : hs = true -> total < high \/ q + bd high < high;
  ti_okl : forall l, low < l < q -> q <= l + bd q;
  ti_okh : forall h, q < h < high -> h <= q + bd h
}.

Definition left_ (low high : Z) (ls hs : bool) : Z :=
  (if ls then 0 else low) + (if hs then 0 else total + 2 - high).

Lemma NoDup_snoc (l : list Z) x : NoDup l -> ~ In x l -> NoDup (l ++ [x]).
Proof.
  intros Hn Hx. apply Permutation.Permutation_NoDup with (x :: l).
  - apply Permutation.Permutation_cons_append.
  - constructor; auto.
Qed.

(** the fuel is enough *)
Lemma traverse_fuel : forall fuel low high ls hs order, tinv low high ls hs order ->
  left_ low high ls hs <= Z.of_nat fuel ->
  exists order' low' high', traverse_loop ratio q total fuel low high ls hs order = Ret order' /\
    tinv low' high' true true order'.
Proof.
  induction fuel as [|fuel IH]; intros low high ls hs order HI Hf; simpl.
  - destruct ls, hs; simpl; try (unfold left_ in Hf; destruct HI; exfalso; lia).
    exists order, low, high. auto.
  - destruct (ls && hs) eqn:Eb.
    { apply andb_true_iff in Eb as [-> ->]. exists order, low, high. auto. }
    assert (H1 : exists low1 ls1 order1,
      (if negb (ls || (low <? 2)) then
           r <- band ratio q ;;
           if q <=? low + r then Ret (low - 1, false, order ++ [low]) else Ret (low, true, order)
         else Ret (low, ls || (low <? 2), order)) = Ret (low1, ls1, order1) /\
      tinv low1 high ls1 hs order1 /\
      (if ls1 then 0 else low1) <= (if ls then 0 else low) - (if ls then 0 else 1)).
    { destruct HI as [A1 A2 A3 A4 A5 A6 A7 A8 A9]. destruct ls; cbn [orb negb].
      - exists low, true, order. splits; auto; [constructor; auto|lia].
      - destruct (Z.ltb_spec low 2); cbn [negb].
        + exists low, true, order. splits; auto; [|lia]. constructor; auto.
        + rewrite (Hbd q ltac:(lia)). cbn [bind]. destruct (Z.leb_spec q (low + bd q)).
          * exists (low - 1), false, (order ++ [low]). splits; auto; [|lia]. constructor; auto; try lia.
            -- destruct A3 as [rest ->]. exists (rest ++ [low]). reflexivity.
            -- apply NoDup_snoc; auto. rewrite A5. lia.
            -- intros l. rewrite in_app_iff, A5. simpl. lia.
          * exists low, true, order. splits; auto; [|lia]. constructor; auto. }
    destruct H1 as (low1 & ls1 & order1 & E1 & I1 & M1). rewrite E1. cbn [bind].
    assert (H2 : exists high1 hs1 order2,
      (if negb (hs || (total <? high)) then
           r <- band ratio high ;;
           if high <=? q + r then Ret (high + 1, false, order1 ++ [high]) else Ret (high, true, order1)
         else Ret (high, hs || (total <? high), order1)) = Ret (high1, hs1, order2) /\
      tinv low1 high1 ls1 hs1 order2 /\
      (if hs1 then 0 else total + 2 - high1) <= (if hs then 0 else total + 2 - high) - (if hs then 0 else 1)).
    { destruct I1 as [A1 A2 A3 A4 A5 A6 A7 A8 A9]. destruct hs; cbn [orb negb].
      - exists high, true, order1. splits; auto; [constructor; auto|lia].
      - destruct (Z.ltb_spec total high); cbn [negb].
        + exists high, true, order1. splits; auto; [|lia]. constructor; auto.
        + rewrite (Hbd high ltac:(lia)). cbn [bind]. destruct (Z.leb_spec high (q + bd high)).
          * exists (high + 1), false, (order1 ++ [high]). splits; auto; [|lia]. constructor; auto; try lia.
            -- destruct A3 as [rest ->]. exists (rest ++ [high]). reflexivity.
            -- apply NoDup_snoc; auto. rewrite A5. lia.
            -- intros l. rewrite in_app_iff, A5. simpl. lia.
            -- intros l Hl. destruct (Z.eq_dec l high) as [->|]; [lia|]. apply A9. lia.
          * exists high, true, order1. splits; auto; [|lia]. constructor; auto. }
    destruct H2 as (high1 & hs1 & order2 & E2 & I2 & M2). rewrite E2. cbn [bind].
    apply IH; auto. unfold left_ in *. destruct ls, hs; try discriminate; lia.
Qed.

Lemma traverse_inv : exists order low high,
  generateTraverseOrder ratio q total = Ret order /\ tinv low high true true order.
Proof.
  unfold generateTraverseOrder.
  destruct (traverse_fuel (Z.to_nat (Z.abs q + Z.max 0 total + 2)) (q - 1) (q + 1) false false [q])
    as (order & low & high & E & HI).
  - constructor; try lia; try discriminate.
    + exists []. reflexivity.
    + constructor; auto. constructor.
    + intros l. simpl. lia.
  - unfold left_. lia.
  - exists order, low, high. auto.
Qed.

(** the band grows by at most one when the length grows by one *)
Hypothesis slow : forall h, q < h < total -> bd (h + 1) <= bd h + 1.

Lemma traverse_exact : exists rest,
  generateTraverseOrder ratio q total = Ret (q :: rest) /\ NoDup (q :: rest) /\
  forall l, In l (q :: rest) <-> 2 <= l <= total /\ Z.abs (l - q) <= bd (Z.max l q).
Proof.
  destruct traverse_inv as (order & low & high & E & [A1 A2 [rest ->] A4 A5 A6 A7 A8 A9]).
  exists rest. splits; auto. intros l. rewrite A5. split.
  - intros Hl. split; [lia|]. destruct (Z.lt_trichotomy l q) as [H|[->|H]].
    + rewrite Z.max_r by lia. specialize (A8 l ltac:(lia)). lia.
    + rewrite Z.max_id, Z.sub_diag. apply Hpos. lia.
    + rewrite Z.max_l by lia. specialize (A9 l ltac:(lia)). lia.
  - intros [Hl Hb]. destruct (Z.lt_trichotomy l q) as [H|[->|H]]; [| lia |].
    + rewrite Z.max_r in Hb by lia. destruct (A6 eq_refl); lia.
    + rewrite Z.max_l in Hb by lia. split; [lia|]. destruct (A7 eq_refl) as [H'|H']; [lia|].
      destruct (Z.lt_ge_cases l high) as [|Hge]; auto. exfalso.
      (* beyond the first failing length all fail *)
      assert (G : forall n, high + Z.of_nat n <= total -> q + bd (high + Z.of_nat n) < high + Z.of_nat n).
      { induction n as [|n IH]; intros Hn; [rewrite Z.add_0_r; exact H'|].
        specialize (IH ltac:(lia)). specialize (slow (high + Z.of_nat n) ltac:(lia)).
        replace (high + Z.of_nat (S n)) with (high + Z.of_nat n + 1) by lia. lia. }
      specialize (G (Z.to_nat (l - high)) ltac:(lia)). rewrite Z2Nat.id in G by lia.
      replace (high + (l - high)) with l in G by lia. lia.
Qed.
End Traverse.

(** ** the band grows slowly *)
Lemma band_slow_xr (ratio : R) h b b' : (0 <= ratio <= 1)%R -> 1 <= h ->
  band (N := XR) (Fin ratio) h = Ret b -> band (N := XR) (Fin ratio) (h + 1) = Ret b' -> b' <= b + 1.
Proof.
  intros Hr Hh. unfold band. simpl.
  destruct (_ && _); [|discriminate]. destruct (_ && _); [|discriminate].
  intros E E'. injection E as <-. injection E' as <-.
  assert (Zfloor (IZR (h + 1) * ratio) <= Zfloor (IZR h * ratio) + 1).
  { apply Z.lt_succ_r, lt_IZR. apply Rle_lt_trans with (IZR (h + 1) * ratio)%R; [apply Zfloor_lb|].
    pose proof (Zfloor_ub (IZR h * ratio)). rewrite succ_IZR, !plus_IZR. lra. }
  lia.
Qed.

(** With doubles the product is rounded, but up to length 2^26 that makes no
    difference. *)
Lemma rne_err x : (0 <= x <= bpow radix2 26)%R -> (rne x <= x + bpow radix2 (-27))%R.
Proof.
  intros Hx. pose proof (error_le_half_ulp radix2 fexp64 (fun z => negb (Z.even z)) x) as He.
  assert (Hu : (ulp radix2 fexp64 x <= ulp radix2 fexp64 (bpow radix2 26))%R).
  { apply ulp_le_pos; auto with typeclass_instances; apply Hx. }
  rewrite ulp_bpow in Hu. change (fexp64 (26 + 1)) with (-26) in Hu.
  change (round radix2 fexp64 (Znearest (fun z => negb (Z.even z))) x) with (rne x) in He.
  pose proof (Rle_abs (rne x - x)).
  change (bpow radix2 (-26)) with (bpow radix2 (1 + -27)) in Hu. rewrite bpow_plus in Hu.
  change (bpow radix2 1) with 2%R in Hu. lra.
Qed.

Lemma band_slow_b64 (ratio : b64) h b b' : nle (N := B64) (nofZ 0) ratio -> nle (N := B64) ratio (nofZ 1) ->
  1 <= h -> h + 1 <= 2 ^ 26 ->
  band (N := B64) ratio h = Ret b -> band (N := B64) ratio (h + 1) = Ret b' -> b' <= b + 1.
Proof.
  intros H0 H1 Hh Hm. unfold band.
  assert (Fr : nfin (N := B64) ratio).
  { apply (nfin_between (N := B64) (nofZ 0) ratio (nofZ 1)); auto; split; reflexivity. }
  rewrite nleP_val in H0, H1. change (@nofZ B64) with b64_ofZ in *.
  change (@nfloor B64) with b64_floor. change (@nmul B64) with (Bmult (prec := prec64) (emax := emax64) mode_NE).
  rewrite !val_floor, !val_mult, !ofZ_small in * by lia.
  apply bfin_iff in Fr. rewrite (fin_val ratio Fr) in *. simpl in H0, H1. simpl xmul.
  set (r := B2R ratio) in *. simpl xleP in H0, H1.
  assert (Hx : forall k y, 1 <= k <= 2 ^ 26 -> R64 (IZR k * r) = Fin y -> y = rne (IZR k * r)).
  { intros k y _. unfold R64. destruct (Rlt_bool _ _); [congruence|]. destruct (Rlt_bool _ _); discriminate. }
  destruct (R64 (IZR h * r)) as [y| | |] eqn:Ey; simpl; try discriminate.
  destruct (_ && _); [|discriminate]. intros E. injection E as <-.
  destruct (R64 (IZR (h + 1) * r)) as [y'| | |] eqn:Ey'; simpl; try discriminate.
  destruct (_ && _); [|discriminate]. intros E. injection E as <-.
  apply Hx in Ey; [|lia]. apply Hx in Ey'; [|lia].
  destruct (Z.le_gt_cases (h - 1) (Zfloor y)) as [Hc|Hc]; [lia|].
  destruct (Z.le_gt_cases (Zfloor y') (Zfloor y + 1)) as [Hd|Hd]; [lia|exfalso].
  set (m := Zfloor y) in *.
  assert (Hh1 : (1 <= IZR h)%R) by (apply IZR_le; lia).
  assert (Hp : (0 <= IZR h * r)%R) by nra.
  assert (Hm0 : 0 <= m).
  { unfold m. rewrite <- (Zfloor_IZR 0). apply Zfloor_le. rewrite Ey. apply rne_pos, Hp. }
  assert (Hlt : (IZR h * r < IZR (m + 1))%R).
  { destruct (Rlt_le_dec (IZR h * r) (IZR (m + 1))) as [|Hge]; auto. exfalso.
    apply rne_mono in Hge. rewrite rne_fmt in Hge by (apply fmt64_Z; lia). rewrite <- Ey in Hge.
    pose proof (Zfloor_ub y) as Hu. rewrite plus_IZR in Hge. fold m in Hu. lra. }
  assert (Hy' : (IZR (m + 2) <= y')%R).
  { apply Rle_trans with (IZR (Zfloor y')); [apply IZR_le; lia|apply Zfloor_lb]. }
  assert (Hb26 : bpow radix2 26 = IZR (2 ^ 26)) by reflexivity.
  assert (Hle : (IZR (h + 1) <= bpow radix2 26)%R) by (rewrite Hb26; apply IZR_le; lia).
  rewrite plus_IZR in *. 
  assert (He := rne_err ((IZR h + 1) * r) ltac:(split; nra)). rewrite <- Ey' in He.
  assert (Hh27 : (IZR h * bpow radix2 (-27) <= 1 / 2)%R).
  { apply Rle_trans with (bpow radix2 26 * bpow radix2 (-27))%R.
    - apply Rmult_le_compat_r; [apply bpow_ge_0|lra].
    - rewrite <- bpow_plus. simpl. lra. }
  assert (Hmh : (IZR m + 1 < IZR h)%R) by (rewrite <- plus_IZR; apply IZR_lt; lia).
  assert (Hmh' : (IZR m + 1 <= IZR h - 1)%R).
  { rewrite <- (plus_IZR m 1), <- (minus_IZR h 1). apply IZR_le. apply lt_IZR in Hmh || idtac. lia. }
  pose proof (bpow_gt_0 radix2 (-27)). set (e := bpow radix2 (-27)) in *.
  assert (1 - r < e)%R by lra. nra.
Qed.
