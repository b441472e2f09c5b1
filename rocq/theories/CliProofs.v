(** Lemmas about the model of the shell. *)
From Coq Require Import String Ascii.
From Verif Require Import Base Num LoopFacts Loader LoaderSpec LoaderProofs OldFormat Archive OldProofs Api ApiSpec ApiProofs Cli CliSpec.
Local Open Scope string_scope.
Local Open Scope Z_scope.

Lemma words_tokens line ws : words line ws -> tokenize " " line = ws.
Proof. intros H. apply tokenize_ok. exact H. Qed.

(** ** numbers *)
Lemma digit_value_ok c v : digit c v -> digit_value c = Some v.
Proof.
  intros [Hv ->]. unfold digit_value. rewrite nat_ascii_embedding by lia.
  replace ((48 <=? Z.of_nat (48 + Z.to_nat v)) && (Z.of_nat (48 + Z.to_nat v) <=? 57)) with true.
  - f_equal. lia.
  - symmetry. apply andb_true_iff. rewrite !Z.leb_le. lia.
Qed.

Lemma digit_value_digit c v : digit_value c = Some v -> digit c v.
Proof.
  unfold digit_value. destruct ((48 <=? _) && _) eqn:E; [|discriminate]. intros [= <-].
  apply andb_true_iff in E. rewrite !Z.leb_le in E. split; [lia|].
  rewrite <- (ascii_nat_embedding c) at 1. f_equal. lia.
Qed.

(** [s] consists of digits only *)
Definition all_digits (s : string) : Prop := every (fun c => digit_value c <> None) s.
Definition value_of (l : list Z) : Z := fold_left (fun v d => 10 * v + d) l 0.

Lemma leading_snoc s c v : all_digits s -> digit_value c = Some v -> leading_digits (s ++ String c "") = (leading_digits s ++ [v])%list.
Proof.
  intros Hs Hc. induction s as [|d s IH]; cbn.
  - rewrite Hc. reflexivity.
  - destruct Hs as [Hd Hs]. destruct (digit_value d); [|contradiction]. cbn. f_equal. apply IH, Hs.
Qed.

Lemma every_app P s t : every P s -> every P t -> every P (s ++ t).
Proof. induction s as [|c s IH]; cbn; intuition. Qed.

Lemma digits_ok s v : digits s v -> all_digits s /\ s <> "" /\ value_of (leading_digits s) = v.
Proof.
  induction 1 as [c v Hc|s v c d Hs (IH1 & IH2 & IH3) Hc]; apply digit_value_ok in Hc.
  - split; [|split]; cbn; rewrite ?Hc; try discriminate; try reflexivity. split; [discriminate|exact I].
  - split; [|split].
    + apply every_app; [exact IH1|]. cbn. rewrite Hc. split; [discriminate|exact I].
    + destruct s; discriminate.
    + rewrite (leading_snoc s c d) by auto. unfold value_of in *. rewrite fold_left_app, IH3. reflexivity.
Qed.

Lemma digit_not c v : digit_value c = Some v -> mem_char c spaces = false /\ c <> "+"%char /\ c <> "-"%char.
Proof.
  intros H. apply digit_value_digit in H as [Hv ->].
  assert (Z.to_nat v <= 9)%nat by lia. generalize dependent (Z.to_nat v). clear. intros n Hn.
  do 10 (destruct n as [|n]; [vm_compute; splits; [reflexivity|discriminate|discriminate]|]). lia.
Qed.

Lemma stoi_digits s v : digits s v ->
  (match leading_digits s with [] => None | ds => Some (value_of ds) end) = Some v /\
  exists c s', s = String c s' /\ exists d, digit_value c = Some d.
Proof.
  intros H. apply digits_ok in H as (H1 & H2 & H3). destruct s as [|c s]; [contradiction|].
  destruct H1 as [Hc _]. destruct (digit_value c) as [d|] eqn:E; [|contradiction]. split; [|eauto].
  revert H3. cbn [leading_digits]. rewrite E. intros ->. reflexivity.
Qed.

Lemma stoi_integer w z : integer w z -> stoi w = if (int_min <=? z) && (z <=? int_max) then Some z else None.
Proof.
  intros [s v Hs|s v Hs|s v Hs]; destruct (stoi_digits s v Hs) as (Hv & c & s' & -> & d & Hd).
  - destruct (digit_not c d Hd) as (Hsp & Hp & Hm). unfold stoi. cbn [skip_spaces]. rewrite Hsp.
    assert (E : (match String c s' with String "-" s'' => (true, s'') | String "+" s'' => (false, s'') | _ => (false, String c s') end) = (false, String c s')).
    { revert Hp Hm. clear. intros Hp Hm. destruct c as [[] [] [] [] [] [] [] []]; try reflexivity; congruence. }
    rewrite E. destruct (leading_digits (String c s')); [discriminate|]. injection Hv as <-. reflexivity.
  - unfold stoi. change (skip_spaces ("+" ++ String c s')) with ("+" ++ String c s'). cbn [append].
    destruct (leading_digits (String c s')); [discriminate|]. injection Hv as <-. reflexivity.
  - unfold stoi. change (skip_spaces ("-" ++ String c s')) with ("-" ++ String c s'). cbn [append].
    destruct (leading_digits (String c s')); [discriminate|]. injection Hv as <-. reflexivity.
Qed.

Lemma stoi_number w z : number w z -> stoi w = Some z.
Proof.
  intros [Hi Hr]. rewrite (stoi_integer w z Hi). unfold in_range in Hr.
  replace (_ && _) with true; [reflexivity|]. symmetry. apply andb_true_iff. rewrite !Z.leb_le. exact Hr.
Qed.

Lemma stoi_no_number w : no_number w -> stoi w = None.
Proof.
  intros [(c & w' & -> & Hs & Hd & Hsp)|(z & Hi & Hr)].
  - unfold stoi. cbn [skip_spaces]. rewrite Hsp.
    assert (E : (match String c w' with String "-" s'' => (true, s'') | String "+" s'' => (false, s'') | _ => (false, String c w') end) = (false, String c w')).
    { revert Hs. clear. intros Hs. destruct c as [[] [] [] [] [] [] [] []]; try reflexivity; exfalso; apply Hs; cbn; auto. }
    rewrite E. cbn [leading_digits]. destruct (digit_value c) as [v|] eqn:Ev; [|reflexivity].
    exfalso. apply (Hd v). apply digit_value_digit, Ev.
  - rewrite (stoi_integer w z Hi). destruct (_ && _) eqn:E; [|reflexivity]. exfalso. apply Hr.
    apply andb_true_iff in E. rewrite !Z.leb_le in E. exact E.
Qed.

Lemma flag_num w b : flag w b -> exists z, stoi w = Some z /\ b = negb (z =? 0).
Proof.
  intros (z & Hz & Hb). exists z. split; [apply stoi_number, Hz|].
  destruct (Z.eqb_spec z 0) as [E|E], b; cbn; auto; exfalso; intuition congruence.
Qed.

Lemma replace_blanks s t : blanks s t -> replace_s s = t.
Proof.
  induction 1 as [|s t Hs IH|c s t Hn Hs IH].
  - reflexivity.
  - cbn. rewrite IH. reflexivity.
  - destruct s as [|d s]; [inversion Hs; subst; reflexivity|].
    cbn [replace_s]. destruct (Ascii.eqb c "\" && Ascii.eqb d "s") eqn:E.
    + apply andb_true_iff in E as [E1 E2]. apply Ascii.eqb_eq in E1, E2. subst. exfalso. apply (Hn s). reflexivity.
    + cbn [replace_s] in IH. rewrite IH. reflexivity.
Qed.
