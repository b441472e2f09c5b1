(** Proofs about the text of numbers (PrintDec.v), part 1: digits, writing and reading. *)
From Coq Require Import String Ascii ZArith Lia Decimal DecimalPos DecimalN DecimalZ DecimalString DecimalFacts.
From Verif Require Import Base OldFormat LoopFacts LoaderSpec PrintDec.
Local Open Scope string_scope.
Local Open Scope Z_scope.

Definition len (s : string) : Z := Z.of_nat (String.length s).
Definition digit (c : ascii) : Prop := digit_of c <> None.
Definition alldig (s : string) : Prop := every digit s.
Definition no_digit (s : string) : Prop := match s with "" => True | String c _ => digit_of c = None end.

(** the number that digits stand for, after those of [acc] *)
Fixpoint dval (acc : Z) (s : string) : Z :=
  match s with "" => acc | String c s' => dval (match digit_of c with Some v => 10 * acc + v | None => acc end) s' end.

Lemma len_cons c s : len (String c s) = 1 + len s.
Proof. unfold len. cbn [String.length]. lia. Qed.
Lemma len_pos s : 0 <= len s. Proof. unfold len. lia. Qed.
Lemma len_app s t : len (s ++ t) = len s + len t.
Proof. induction s as [|c s IH]; [reflexivity|]. cbn [append]. rewrite !len_cons, IH. lia. Qed.
Lemma app_nil_s s : s ++ "" = s. Proof. induction s; cbn; congruence. Qed.
Lemma app_assoc_s s t u : (s ++ t) ++ u = s ++ (t ++ u). Proof. induction s; cbn; congruence. Qed.

Lemma every_app P s t : every P (s ++ t) <-> every P s /\ every P t.
Proof. induction s as [|c s IH]; cbn; [tauto|]. rewrite IH. tauto. Qed.

Lemma digit_range c v : digit_of c = Some v -> 0 <= v <= 9.
Proof. unfold digit_of. destruct (_ && _) eqn:E; [|discriminate]. intros H. injection H as <-. apply andb_true_iff in E as [E1 E2]. lia. Qed.

Lemma read_digits_app s rest : forall acc n, alldig s -> no_digit rest -> read_digits (s ++ rest) acc n = (dval acc s, n + len s, rest).
Proof.
  induction s as [|c s IH]; intros acc n Hs Hr; cbn [append read_digits dval].
  - destruct rest as [|c r]; cbn [read_digits]; [|cbn in Hr; rewrite Hr]; f_equal; f_equal; unfold len; cbn; lia.
  - destruct Hs as [Hc Hs]. destruct (digit_of c) as [v|] eqn:E; [|contradiction]. rewrite IH; auto. f_equal. f_equal. rewrite len_cons. lia.
Qed.

Lemma dval_app s t : forall acc, dval acc (s ++ t) = dval (dval acc s) t.
Proof. induction s as [|c s IH]; intros acc; cbn; auto. Qed.

Lemma dval_acc s : forall acc, alldig s -> dval acc s = acc * 10 ^ len s + dval 0 s.
Proof.
  induction s as [|c s IH]; intros acc Hs; cbn [dval]; [unfold len; cbn; lia|]. destruct Hs as [Hc Hs].
  destruct (digit_of c) as [v|] eqn:E; [|contradiction]. rewrite (IH (10 * acc + v)), (IH (10 * 0 + v)) by exact Hs.
  rewrite len_cons, Z.pow_add_r by (pose proof (len_pos s); lia). lia.
Qed.

Lemma dval_range s : alldig s -> 0 <= dval 0 s < 10 ^ len s.
Proof.
  induction s as [|c s IH]; intros Hs; [cbn; lia|]. destruct Hs as [Hc Hs]. cbn [dval]. destruct (digit_of c) as [v|] eqn:E; [|contradiction].
  rewrite dval_acc by exact Hs. specialize (IH Hs). apply digit_range in E. rewrite len_cons, Z.pow_add_r by (pose proof (len_pos s); lia). nia.
Qed.

Lemma zeros_len n : len (zeros n) = Z.of_nat n.
Proof. induction n as [|n IH]; [reflexivity|]. cbn [zeros]. rewrite len_cons, IH. lia. Qed.
Lemma zeros_dig n : alldig (zeros n).
Proof. induction n as [|n IH]; cbn; [exact I|]. split; [discriminate|exact IH]. Qed.
Lemma dval_zeros n acc : dval acc (zeros n) = acc * 10 ^ Z.of_nat n.
Proof.
  rewrite dval_acc by apply zeros_dig. rewrite zeros_len. assert (E : dval 0 (zeros n) = 0); [|lia].
  induction n as [|n IH]; [reflexivity|]. cbn [zeros dval]. exact IH.
Qed.

(** ** trailing zeros *)
Lemma zeros_snoc n : zeros n ++ "0" = zeros (S n).
Proof. induction n as [|n IH]; [reflexivity|]. cbn [zeros append]. rewrite IH. reflexivity. Qed.

Lemma strip_zeros s : exists n, s = strip s ++ zeros n.
Proof.
  induction s as [|c s [n IH]]; [exists 0%nat; reflexivity|]. cbn [strip]. destruct (strip s) as [|c' t] eqn:E.
  - destruct (Ascii.eqb_spec c "0") as [->|Hc]; [exists (S n); cbn; cbn in IH; congruence|]. exists n. cbn in *. congruence.
  - exists n. cbn [append]. cbn [append] in IH. congruence.
Qed.

(** ** integers *)
Lemma digit_dig (c : ascii) v : digit_of c = Some v -> forall acc s, dval acc (String c s) = dval (10 * acc + v) s.
Proof. intros E acc s. cbn [dval]. rewrite E. reflexivity. Qed.

Ltac one_digit := cbn [dval]; match goal with |- context [digit_of ?c] => let v := eval vm_compute in (digit_of c) in change (digit_of c) with v end; cbv iota beta.

Lemma uint_acc d : forall a, dval (Zpos a) (NilEmpty.string_of_uint d) = Zpos (Pos.of_uint_acc d a).
Proof.
  induction d as [|d IH|d IH|d IH|d IH|d IH|d IH|d IH|d IH|d IH|d IH]; intros a; [reflexivity| | | | | | | | | |];
    cbn [NilEmpty.string_of_uint]; one_digit; cbn [Pos.of_uint_acc]; rewrite <- IH; f_equal; lia.
Qed.
Lemma uint_val d : dval 0 (NilEmpty.string_of_uint d) = Z.of_N (Pos.of_uint d).
Proof.
  induction d as [|d IH|d IH|d IH|d IH|d IH|d IH|d IH|d IH|d IH|d IH]; [reflexivity| | | | | | | | | |];
    cbn [NilEmpty.string_of_uint]; one_digit; cbn [Pos.of_uint Z.of_N]; [exact IH|..]; rewrite <- uint_acc; reflexivity.
Qed.
Lemma uint_dig d : alldig (NilEmpty.string_of_uint d).
Proof. induction d; cbn; auto; (split; [discriminate|assumption]). Qed.

(** the first digit is not 0 *)
Definition leads (s : string) : Prop := match s with "" => False | String c _ => exists v, digit_of c = Some v /\ 1 <= v end.

Lemma nz_leads d : nzhead d = d -> d <> Nil -> leads (NilEmpty.string_of_uint d).
Proof.
  intros H Hn. destruct d as [|d|d|d|d|d|d|d|d|d|d]; [contradiction| | | | | | | | | |]; cbn; try (eexists; split; [reflexivity|lia]).
  exfalso. cbn in H. assert (G : forall d, (nb_digits (nzhead d) <= nb_digits d)%nat) by (clear; induction d; cbn; lia).
  specialize (G d). rewrite H in G. cbn in G. lia.
Qed.

Lemma put_pos M : 0 < M -> put_int M = NilEmpty.string_of_uint (Pos.to_uint (Z.to_pos M)) /\ dval 0 (put_int M) = M /\ alldig (put_int M) /\ leads (put_int M).
Proof.
  intros HM. destruct M as [|p|p]; try lia. unfold put_int. cbn [Z.to_int Z.to_pos].
  assert (E : NilZero.string_of_int (Pos (Pos.to_uint p)) = NilEmpty.string_of_uint (Pos.to_uint p)).
  { cbn. unfold NilZero.string_of_uint. pose proof (DecimalPos.Unsigned.to_uint_nonnil p). destruct (Pos.to_uint p); [contradiction|..]; reflexivity. }
  rewrite E. split; [reflexivity|]. split; [rewrite uint_val, DecimalPos.Unsigned.of_to; reflexivity|]. split; [apply uint_dig|].
  pose proof (DecimalN.Unsigned.to_of (Pos.to_uint p)) as H. unfold N.of_uint in H. rewrite DecimalPos.Unsigned.of_to in H. cbn in H.
  pose proof (DecimalPos.Unsigned.to_uint_nonnil p) as Hn. unfold unorm in H.
  destruct (nzhead (Pos.to_uint p)) as [|d|d|d|d|d|d|d|d|d|d] eqn:En; try (apply nz_leads; [rewrite En; symmetry; exact H|exact Hn]).
  exfalso. pose proof (DecimalPos.Unsigned.of_to p) as X. rewrite H in X. discriminate X.
Qed.

Lemma leads_range s : alldig s -> leads s -> 10 ^ (len s - 1) <= dval 0 s.
Proof.
  destruct s as [|c s]; [intros _ []|]. intros [_ Hs] (v & E & Hv). cbn [dval]. rewrite E, dval_acc by exact Hs. rewrite len_cons.
  replace (1 + len s - 1) with (len s) by lia. pose proof (dval_range s Hs). assert (0 < 10 ^ len s) by (apply Z.pow_pos_nonneg; [lia|apply len_pos]). nia.
Qed.

Lemma put_len p M : 1 <= p -> 10 ^ (p - 1) <= M < 10 ^ p -> len (put_int M) = p.
Proof.
  intros Hp HM. assert (0 < 10 ^ (p - 1)) by (apply Z.pow_pos_nonneg; lia). destruct (put_pos M ltac:(lia)) as (_ & E & Hd & Hl).
  pose proof (dval_range _ Hd) as H1. pose proof (leads_range _ Hd Hl) as H2. rewrite E in H1, H2.
  assert (A : 10 ^ (p - 1) < 10 ^ len (put_int M)) by lia. assert (B : 10 ^ (len (put_int M) - 1) < 10 ^ p) by lia.
  apply Z.pow_lt_mono_r_iff in A; [|lia|apply len_pos].
  apply Z.pow_lt_mono_r_iff in B; [|lia|lia]. lia.
Qed.

(** ** pieces *)
Lemma substring_all s : forall m, (String.length s <= m)%nat -> substring 0 m s = s.
Proof. induction s as [|c s IH]; intros [|m] H; cbn in *; try lia; auto. rewrite IH by lia. reflexivity. Qed.
Lemma substring_long s : forall n m, (String.length s <= m)%nat -> substring n m s = substring n (String.length s) s.
Proof.
  induction s as [|c s IH]; intros n m H; [destruct n, m; reflexivity|]. destruct n; cbn [substring String.length].
  - destruct m as [|m]; [cbn in H; lia|]. f_equal. rewrite !substring_all; auto. cbn in H. lia.
  - cbn [String.length] in H. rewrite (IH n m), (IH n (S (String.length s))) by lia. reflexivity.
Qed.
Lemma substring_split n : forall s, (n <= String.length s)%nat -> substring 0 n s ++ substring n (String.length s) s = s /\ String.length (substring 0 n s) = n.
Proof.
  induction n as [|n IH]; intros s H.
  - replace (substring 0 0 s) with "" by (destruct s; reflexivity). cbn [append String.length]. split; [apply substring_all; lia|reflexivity].
  - destruct s as [|c s]; [cbn in H; lia|]. cbn [String.length] in H. destruct (IH s ltac:(lia)) as [I1 I2]. cbn [substring append String.length].
    split; [|rewrite I2; reflexivity]. f_equal. rewrite (substring_long s n (S (String.length s))) by lia. exact I1.
Qed.

(** ** reading what was written *)

(** the number in [w]: digits and power of ten, if [w] is a number *)
Definition parts (w : string) : option (Z * Z) :=
  let '(a, na, w) := read_digits w 0 0 in
  let '(m, nf, w) := match w with
                     | String "." w' => let '(m, n, w'') := read_digits w' a 0 in (m, n, w'')
                     | _ => (a, 0, w)
                     end in
  if na + nf =? 0 then None else
  let ex := match w with
            | "" => Some 0
            | String c w' =>
                if Ascii.eqb c "e" || Ascii.eqb c "E" then
                  let '(eneg, w') := read_sign w' in
                  let '(e, ne, w'') := read_digits w' 0 0 in
                  match w'' with "" => if ne =? 0 then None else Some (if eneg then - e else e) | _ => None end
                else None
            end in
  match ex with Some e => Some (m, e - nf) | None => None end.

Lemma scan_parts w : scan_double w = let '(neg, w) := read_sign w in
  match parts w with
  | None => None
  | Some (m, s) =>
      let v := nearest (m * 10 ^ Z.max s 0) (10 ^ Z.max (- s) 0) in
      match v with
      | BinarySingleNaN.B754_infinity _ | BinarySingleNaN.B754_nan => None
      | BinarySingleNaN.B754_zero _ => Some (if neg then BinarySingleNaN.B754_zero true else v)
      | BinarySingleNaN.B754_finite _ mm ee H => Some (if neg then BinarySingleNaN.Bopp v else v)
      end
  end.
Proof.
  unfold scan_double, parts. destruct (read_sign w) as [neg w1]. destruct (read_digits w1 0 0) as [[a na] w2].
  destruct (match w2 with String "." w' => let '(m, n, w'') := read_digits w' a 0 in (m, n, w'') | _ => (a, 0, w2) end) as [[m nf] w3].
  destruct (na + nf =? 0); [reflexivity|].
  destruct (match w3 with
            | "" => Some 0
            | String c w' =>
                if Ascii.eqb c "e" || Ascii.eqb c "E" then
                  let '(eneg, w') := read_sign w' in
                  let '(e, ne, w'') := read_digits w' 0 0 in
                  match w'' with "" => if ne =? 0 then None else Some (if eneg then - e else e) | _ => None end
                else None
            end); reflexivity.
Qed.

(** the exponent at the end: nothing, or e and a number *)
Definition exponent_text (w : string) (e : Z) : Prop := (w = "" /\ e = 0) \/ (w = put_exponent e).

Lemma read_exponent w e : exponent_text w e ->
  match w with
  | "" => Some 0
  | String c w' =>
      if Ascii.eqb c "e" || Ascii.eqb c "E" then
        let '(eneg, w') := read_sign w' in
        let '(e, ne, w'') := read_digits w' 0 0 in
        match w'' with "" => if ne =? 0 then None else Some (if eneg then - e else e) | _ => None end
      else None
  end = Some e.
Proof.
  intros [[-> ->]| ->]; [reflexivity|]. unfold put_exponent.
  set (body := (if Z.abs e <? 10 then "0" else "") ++ put_int (Z.abs e)).
  assert (Hb : alldig body /\ dval 0 body = Z.abs e /\ 1 <= len body).
  { unfold body. destruct (Z.eq_dec e 0) as [->|He]; [cbn; repeat split; try discriminate; unfold len; cbn; lia|].
    destruct (put_pos (Z.abs e) ltac:(lia)) as (_ & E & Hd & Hl). assert (1 <= len (put_int (Z.abs e))).
    { destruct (put_int (Z.abs e)); [destruct Hl|]. rewrite len_cons. pose proof (len_pos s). lia. }
    destruct (Z.abs e <? 10); cbn [append]; [|auto]. split; [split; [discriminate|exact Hd]|]. split; [cbn [dval]; exact E|]. rewrite len_cons. lia. }
  destruct Hb as (H1 & H2 & H3).
  assert (Er : read_digits body 0 0 = (Z.abs e, len body, "")).
  { rewrite <- (app_nil_s body) at 1. rewrite (read_digits_app body "" 0 0 H1 I), H2. reflexivity. }
  clearbody body. destruct (Z.ltb_spec e 0); cbn [append]; change (Ascii.eqb "e" "e" || Ascii.eqb "e" "E")%bool with true; cbv iota; cbn [read_sign]; rewrite Er; (destruct (Z.eqb_spec (len body) 0); [lia|]); f_equal; lia.
Qed.

Lemma exponent_first w e : exponent_text w e -> no_digit w /\ match w with String "." _ => False | _ => True end.
Proof. intros [[-> ->]| ->]; [split; exact I|]. unfold put_exponent. destruct (e <? 0); split; reflexivity || exact I. Qed.

(** digits, a point and more digits without trailing zeros, and an exponent *)
Lemma parts_point whole frac ex e : alldig whole -> alldig frac -> whole <> "" -> exponent_text ex e ->
  exists m n, parts (with_point whole frac ++ ex) = Some (m, e - n) /\ 0 <= n <= len frac /\ dval 0 (whole ++ frac) = m * 10 ^ (len frac - n).
Proof.
  intros Hw Hf Hne Hex. destruct (strip_zeros frac) as [z Ez]. destruct (exponent_first ex e Hex) as [X1 X2].
  assert (Hs : alldig (strip frac)) by (rewrite Ez in Hf; apply every_app in Hf; apply Hf).
  assert (Ln : 1 <= len whole) by (destruct whole; [contradiction|]; rewrite len_cons; pose proof (len_pos whole); lia).
  assert (Lz : len frac = len (strip frac) + Z.of_nat z) by (rewrite Ez at 1; rewrite len_app, zeros_len; reflexivity).
  assert (Vz : dval 0 (whole ++ frac) = dval 0 (whole ++ strip frac) * 10 ^ (len frac - len (strip frac))).
  { rewrite Ez at 1. rewrite <- app_assoc_s, dval_app, dval_zeros. f_equal. f_equal. lia. }
  exists (dval 0 (whole ++ strip frac)), (len (strip frac)). split; [|split; [pose proof (len_pos (strip frac)); lia|exact Vz]].
  unfold with_point. destruct (strip frac) as [|c t] eqn:Es.
  - rewrite app_nil_s. unfold parts. rewrite (read_digits_app whole ex 0 0 Hw X1). cbn [Z.add].
    assert (Em : match ex with String "." w' => let '(m, n, w'') := read_digits w' (dval 0 whole) 0 in (m, n, w'') | _ => (dval 0 whole, 0, ex) end = (dval 0 whole, 0, ex)).
    { clear - X2. destruct ex as [|c ex]; [reflexivity|]. destruct c as [[|] [|] [|] [|] [|] [|] [|] [|]]; try reflexivity. destruct X2. }
    rewrite Em. destruct (Z.eqb_spec (len whole + 0) 0); [lia|]. rewrite (read_exponent ex e Hex). reflexivity.
  - rewrite <- Es in *. replace ((whole ++ "." ++ strip frac) ++ ex) with (whole ++ String "." (strip frac ++ ex)) by (rewrite app_assoc_s; reflexivity).
    unfold parts. rewrite (read_digits_app whole (String "." (strip frac ++ ex)) 0 0 Hw eq_refl). cbv iota beta. rewrite (read_digits_app (strip frac) ex _ 0 Hs X1).
    rewrite <- dval_app. destruct (Z.eqb_spec (0 + len whole + (0 + len (strip frac))) 0); [pose proof (len_pos (strip frac)); lia|].
    rewrite (read_exponent ex e Hex). reflexivity.
Qed.

(** no sign in front *)
Definition no_sign (w : string) : Prop := match w with String c _ => digit c | "" => False end.

(** the text of M * 10^(k - p + 1) *)
Lemma format_parts p M k : 1 <= p -> 10 ^ (p - 1) <= M < 10 ^ p ->
  exists m s, parts (format_g p M k) = Some (m, s) /\ 0 < m /\ M * 10 ^ Z.max (k - p + 1) 0 * 10 ^ Z.max (- s) 0 = m * 10 ^ Z.max s 0 * 10 ^ Z.max (p - 1 - k) 0 /\
  no_sign (format_g p M k).
Proof.
  intros Hp HM. assert (P0 : 0 < 10 ^ (p - 1)) by (apply Z.pow_pos_nonneg; lia). pose proof (put_len p M Hp HM) as El. destruct (put_pos M ltac:(lia)) as (_ & Ev & Hd & _).
  assert (Hpos : forall m n, M = m * 10 ^ n -> 0 < m).
  { intros m n E. destruct (Z.lt_trichotomy m 0) as [H|[->|H]]; [|lia|exact H]. assert (0 <= 10 ^ n) by (apply Z.pow_nonneg; lia). nia. }
  assert (Hsign : forall whole frac ex, alldig whole -> whole <> "" -> no_sign (with_point whole frac ++ ex)).
  { intros whole frac ex Hw Hn. destruct whole as [|c w]; [contradiction|]. destruct Hw as [Hc _]. unfold with_point. destruct (strip frac); exact Hc. }
  assert (Hcut : forall n, 1 <= n <= p -> let whole := substring 0 (Z.to_nat n) (put_int M) in let frac := substring (Z.to_nat n) (String.length (put_int M)) (put_int M) in
     alldig whole /\ alldig frac /\ whole <> "" /\ whole ++ frac = put_int M /\ len frac = p - n).
  { intros n Hn whole frac. destruct (substring_split (Z.to_nat n) (put_int M)) as [S1 S2]; [unfold len in El; lia|].
    fold whole in S1, S2. fold frac in S1. rewrite <- S1 in Hd. apply every_app in Hd as [D1 D2].
    assert (Lw : len whole = n) by (unfold len; rewrite S2; lia).
    splits; auto. - intros E. rewrite E in Lw. cbn in Lw. lia. - rewrite <- S1 in El. rewrite len_app in El. lia. }
  unfold format_g. destruct ((k <? -4) || (p <=? k))%bool eqn:C1; [|destruct (Z.leb_spec 0 k) as [C2|C2]].
  - destruct (Hcut 1 ltac:(lia)) as (A1 & A2 & A3 & A4 & A5). change (Z.to_nat 1) with 1%nat in *.
    destruct (parts_point _ _ (put_exponent k) k A1 A2 A3 (or_intror eq_refl)) as (m & n & E1 & E2 & E3). rewrite A4, Ev, A5 in E3. rewrite A5 in E2.
    exists m, (k - n). split; [exact E1|]. split; [apply (Hpos _ _ E3)|]. split; [|apply Hsign; auto].
    rewrite E3, <- !Z.mul_assoc, <- !Z.pow_add_r by lia. f_equal. f_equal. lia.
  - apply orb_false_iff in C1 as [_ C1]. apply Z.leb_gt in C1. destruct (Hcut (k + 1) ltac:(lia)) as (A1 & A2 & A3 & A4 & A5).
    destruct (parts_point _ _ "" 0 A1 A2 A3 (or_introl (conj eq_refl eq_refl))) as (m & n & E1 & E2 & E3). rewrite A4, Ev, A5 in E3. rewrite A5 in E2. rewrite app_nil_s in E1.
    exists m, (0 - n). split; [exact E1|]. split; [apply (Hpos _ _ E3)|]. split; [|rewrite <- (app_nil_s (with_point _ _)); apply Hsign; auto].
    rewrite E3, <- !Z.mul_assoc, <- !Z.pow_add_r by lia. f_equal. f_equal. lia.
  - apply orb_false_iff in C1 as [C0 _]. apply Z.ltb_ge in C0. set (frac := zeros (Z.to_nat (- k - 1)) ++ put_int M).
    assert (Lf : len frac = p - 1 - k) by (unfold frac; rewrite len_app, zeros_len, El; lia).
    assert (A2 : alldig frac) by (apply every_app; split; [apply zeros_dig|exact Hd]).
    assert (A1 : alldig "0") by (split; [discriminate|exact I]).
    destruct (parts_point "0" frac "" 0 A1 A2 ltac:(discriminate) (or_introl (conj eq_refl eq_refl))) as (m & n & E1 & E2 & E3). rewrite app_nil_s in E1.
    assert (E4 : dval 0 ("0" ++ frac) = M). { cbn [append dval]. change (digit_of "0") with (Some 0). cbv iota. unfold frac. rewrite dval_app, dval_zeros. exact Ev. }
    rewrite E4, Lf in E3. rewrite Lf in E2.
    exists m, (0 - n). split; [exact E1|]. split; [apply (Hpos _ _ E3)|]. split; [|rewrite <- (app_nil_s (with_point _ _)); apply Hsign; [exact A1|discriminate]].
    rewrite E3, <- !Z.mul_assoc, <- !Z.pow_add_r by lia. f_equal. f_equal. lia.
Qed.

(** the characters that occur *)
Definition number_char (c : ascii) : Prop := digit c \/ c = "."%char \/ c = "e"%char \/ c = "+"%char \/ c = "-"%char.
Lemma dig_number s : alldig s -> every number_char s.
Proof. induction s as [|c s IH]; [auto|]. intros [H1 H2]. split; [left; exact H1|apply IH, H2]. Qed.
Lemma put_number z : 0 <= z -> every number_char (put_int z) /\ put_int z <> "".
Proof.
  intros Hz. destruct (Z.eq_dec z 0) as [->|H]; [split; [split; [left; discriminate|exact I]|discriminate]|].
  destruct (put_pos z ltac:(lia)) as (_ & _ & Hd & Hl). split; [apply dig_number, Hd|]. intros E. rewrite E in Hl. destruct Hl.
Qed.
Lemma strip_every P s : every P s -> every P (strip s).
Proof. intros H. destruct (strip_zeros s) as [n E]. rewrite E in H. apply every_app in H. apply H. Qed.
Lemma point_number a b : every number_char a -> every number_char b -> every number_char (with_point a b).
Proof.
  intros Ha Hb. apply strip_every in Hb. unfold with_point. destruct (strip b); [exact Ha|]. apply every_app. split; [exact Ha|].
  cbn [append every]. split; [right; left; reflexivity|exact Hb].
Qed.
Lemma substring_every P s : forall n m, every P s -> every P (substring n m s).
Proof.
  induction s as [|c s IH]; intros n m H; [destruct n, m; exact I|]. destruct H as [H1 H2]. destruct n; cbn [substring]; [|apply IH, H2].
  destruct m; [exact I|]. split; [exact H1|apply IH, H2].
Qed.
Lemma exponent_number k : every number_char (put_exponent k).
Proof.
  destruct (put_number (Z.abs k) ltac:(lia)) as [H _]. unfold put_exponent. rewrite !every_app. split; [|split; [|exact H]].
  - destruct (k <? 0); repeat split; unfold number_char; auto.
  - destruct (Z.abs k <? 10); repeat split. left. discriminate.
Qed.
Lemma format_number p M k : 0 < M -> every number_char (format_g p M k).
Proof.
  intros HM. destruct (put_number M ltac:(lia)) as [H _]. unfold format_g. destruct (_ || _)%bool.
  - apply every_app. split; [apply point_number; apply substring_every, H|apply exponent_number].
  - destruct (0 <=? k); apply point_number; try (apply substring_every, H); [repeat split; left; discriminate|].
    apply every_app. split; [apply dig_number, zeros_dig|exact H].
Qed.
