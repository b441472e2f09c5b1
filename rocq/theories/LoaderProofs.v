From Coq Require Import String Ascii.
From Verif Require Import Base Num NumFacts LoopFacts TSSet Loader LoaderSpec DataSpec DataProofs Members.
Local Open Scope string_scope.
Local Open Scope Z_scope.

(** ** lines *)
Lemma app_nil_s (s : string) : s ++ "" = s.
Proof. induction s as [|c s IH]; [reflexivity|]. simpl. rewrite IH. reflexivity. Qed.

Lemma app_assoc_s (a b c : string) : (a ++ b) ++ c = a ++ b ++ c.
Proof. induction a as [|x a IH]; [reflexivity|]. simpl. rewrite IH. reflexivity. Qed.

Lemma file_lines_cons l rest : is_line l -> file_lines (l ++ String newline rest) = l :: file_lines rest.
Proof.
  induction l as [|c l IH]; intros Hl; simpl.
  - reflexivity.
  - destruct Hl as [Hc Hl]. rewrite IH by exact Hl. destruct (Ascii.eqb_spec c newline); [contradiction|reflexivity].
Qed.

Lemma file_lines_last l : is_line l -> l <> "" -> file_lines l = [l].
Proof.
  induction l as [|c l IH]; intros Hl Hne; [contradiction|]. destruct Hl as [Hc Hl]. simpl.
  destruct (Ascii.eqb_spec c newline); [contradiction|]. destruct l as [|c' l]; [reflexivity|].
  rewrite IH; auto. discriminate.
Qed.

Lemma file_lines_app ls rest : Forall is_line ls -> file_lines (text_of ls ++ rest) = (ls ++ file_lines rest)%list.
Proof.
  intros HF. induction HF as [|l ls Hl HF IH]; [reflexivity|]. simpl. rewrite app_assoc_s. simpl.
  rewrite file_lines_cons by exact Hl. rewrite IH. reflexivity.
Qed.

Lemma file_lines_ok text ls : has_lines text ls -> file_lines text = ls.
Proof.
  intros [HF [->|(ls' & l & -> & Hne & ->)]].
  - rewrite <- (app_nil_s (text_of ls)), file_lines_app by exact HF. simpl. apply app_nil_r.
  - apply Forall_app in HF as [HF Hl]. inversion Hl; subst. rewrite file_lines_app by exact HF.
    rewrite file_lines_last; auto.
Qed.

Lemma has_lines_file text : has_lines text (file_lines text).
Proof.
  induction text as [|c s IH].
  - split; [constructor|left; reflexivity].
  - simpl. destruct IH as [HF HT]. revert HF HT. generalize (file_lines s). intros ls HF HT.
    destruct (Ascii.eqb_spec c newline) as [->|Hc].
    + split; [constructor; [exact I|exact HF]|]. destruct HT as [->|(ls' & l & -> & Hne & ->)].
      * left. reflexivity.
      * right. exists ("" :: ls'), l. auto.
    + destruct ls as [|l0 ls].
      * split; [repeat constructor; auto|]. destruct HT as [->|(ls' & l & E & _)]; [|destruct ls'; discriminate].
        right. exists [], (String c ""). simpl. splits; auto; discriminate.
      * inversion HF as [|? ? Hl0 HF']; subst. split; [constructor; [split; auto|exact HF']|].
        destruct HT as [->|(ls' & l & E & Hne & ->)]; [left; reflexivity|].
        right. destruct ls' as [|l1 ls']; injection E as -> ->.
        -- exists [], (String c l). simpl. splits; auto; discriminate.
        -- exists (String c l1 :: ls'), l. simpl. auto.
Qed.

(** ** fields *)
Lemma tokens_skip seps pre s : every (sep_char seps) pre ->
  (let '(t, ts) := tokens_from seps (pre ++ s) in push_token t ts) = (let '(t, ts) := tokens_from seps s in push_token t ts).
Proof.
  induction pre as [|c pre IH]; intros Hp; [reflexivity|]. destruct Hp as [Hc Hp]. simpl. rewrite <- (IH Hp).
  destruct (tokens_from seps (pre ++ s)) as [t ts]. rewrite Hc. reflexivity.
Qed.

Lemma tokens_word seps t rest : every (fun c => ~ sep_char seps c) t ->
  tokens_from seps (t ++ rest) = (let '(u, us) := tokens_from seps rest in (t ++ u, us)).
Proof.
  induction t as [|c t IH]; intros Ht; simpl.
  - destruct (tokens_from seps rest). reflexivity.
  - destruct Ht as [Hc Ht]. rewrite (IH Ht). destruct (tokens_from seps rest) as [u us].
    unfold sep_char in Hc. destruct (mem_char c seps); [exfalso; auto|reflexivity].
Qed.

Lemma tokenize_ok separators s ts : has_fields (c_str separators) s ts -> tokenize separators s = ts.
Proof.
  unfold tokenize. generalize (c_str separators). intros seps HF.
  induction HF as [s Hs|pre t rest ts Hp Hne Ht Hr HF IH].
  - rewrite <- (app_nil_s s). rewrite tokens_skip by exact Hs. reflexivity.
  - rewrite tokens_skip by exact Hp. rewrite tokens_word by exact Ht.
    destruct (tokens_from seps rest) as [u us] eqn:E.
    assert (u = "").
    { destruct Hr as [->|(c & rest' & -> & Hc)]; [simpl in E; congruence|]. simpl in E.
      destruct (tokens_from seps rest'). rewrite Hc in E. congruence. }
    subst u. rewrite app_nil_s. simpl in IH. subst us. destruct t; [contradiction|reflexivity].
Qed.

Lemma sep_dec seps c : sep_char seps c \/ ~ sep_char seps c.
Proof. unfold sep_char. destruct (mem_char c seps); auto. Qed.

Lemma has_fields_ex seps s : exists ts, has_fields seps s ts.
Proof.
  assert (G : forall n s, (String.length s <= n)%nat -> exists ts, has_fields seps s ts).
  { induction n as [|n IH]; intros s0 Hn.
    - destruct s0; [|simpl in Hn; lia]. exists []. constructor. exact I.
    - destruct s0 as [|c s0]; [exists []; constructor; exact I|]. simpl in Hn.
      destruct (IH s0 ltac:(lia)) as [ts HF].
      destruct (sep_dec seps c) as [Hc|Hc].
      + exists ts. inversion HF as [s1 Hs|pre t rest ts' Hp Hne Ht Hr HF']; subst.
        * constructor. split; auto.
        * change (String c (pre ++ t ++ rest)) with (String c pre ++ t ++ rest). constructor; auto. split; auto.
      + destruct s0 as [|c2 s0].
        * exists [String c ""]. change (String c "") with ("" ++ String c "" ++ "") at 1.
          constructor; simpl; auto; [discriminate|constructor; exact I].
        * destruct (sep_dec seps c2) as [Hc2|Hc2].
          -- exists (String c "" :: ts). change (String c (String c2 s0)) with ("" ++ String c "" ++ String c2 s0).
             constructor; simpl; auto; [discriminate|]. right. exists c2, s0. auto.
          -- inversion HF as [s1 Hs|pre t rest ts' Hp Hne Ht Hr HF' E1]; subst; [destruct Hs; contradiction|].
             destruct pre as [|c3 pre].
             2:{ simpl in E1. injection E1 as -> _. destruct Hp. contradiction. }
             exists (String c t :: ts').
             change (String c ("" ++ t ++ rest)) with ("" ++ String c t ++ rest).
             constructor; simpl; auto. discriminate. }
  apply (G (String.length s)). lia.
Qed.

(** ** a line *)
Section Load.
Context {N : Num}.
Notation D := (D N).
Variable stod : string -> parsed D.

Fixpoint write (buf : list D) (pos : nat) (vs : list D) : list D :=
  match vs with [] => buf | v :: vs' => write (upd buf pos v) (S pos) vs' end.

Lemma write_length vs : forall buf pos, length (write buf pos vs) = length buf.
Proof. induction vs as [|v vs IH]; intros buf pos; [reflexivity|]. simpl. rewrite IH. apply upd_length. Qed.

Lemma write_nth vs : forall buf pos k, (pos + length vs <= length buf)%nat ->
  nth_error (write buf pos vs) k = if (pos <=? k)%nat && (k <? pos + length vs)%nat then nth_error vs (k - pos) else nth_error buf k.
Proof.
  induction vs as [|v vs IH]; intros buf pos k Hl; cbn [write length] in *.
  - destruct (Nat.leb_spec pos k); destruct (Nat.ltb_spec k (pos + 0)); simpl; auto; lia.
  - rewrite IH by (rewrite upd_length; lia). rewrite nth_error_upd_eq.
    destruct (Nat.leb_spec (S pos) k); destruct (Nat.ltb_spec k (S pos + length vs)); destruct (Nat.leb_spec pos k);
      destruct (Nat.ltb_spec k (pos + S (length vs))); simpl; try lia.
    + replace (k - pos)%nat with (S (k - S pos)) by lia. reflexivity.
    + destruct (Nat.eqb_spec k pos); [lia|]. reflexivity.
    + assert (k = pos) by lia. subst k. rewrite Nat.sub_diag, Nat.eqb_refl. destruct (Nat.ltb_spec pos (length buf)); [reflexivity|lia].
    + destruct (Nat.eqb_spec k pos); [lia|]. reflexivity.
Qed.

Variables (start raw : Z) (has : bool).
Hypothesis H0 : 0 <= start.
Notation w := (raw - start - b2z has).
Notation sk := (Z.to_nat (start + b2z has)).

Lemma b2z_range : 0 <= b2z has <= 1.
Proof. destruct has; simpl; lia. Qed.

Lemma less_ok x : 0 <= x <= int_max -> 0 <= x - start - b2z has -> less x start has = Ret (x - start - b2z has).
Proof.
  intros Hx Hw. pose proof b2z_range. unfold less. rewrite isub_ok by (unfold int_min, int_max in *; lia). cbn [bind].
  apply isub_ok. unfold int_min, int_max in *. lia.
Qed.

Lemma cell_index_ok row col : raw <= int_max -> 0 <= w -> 0 <= row * w -> 0 <= col <= int_max -> 0 <= col - start - b2z has ->
  row * w + (col - start - b2z has) <= int_max ->
  cell_index row start raw has col = Ret (row * w + (col - start - b2z has)).
Proof.
  intros Hr Hw Hp Hc Hc' Hx. pose proof b2z_range. unfold cell_index. rewrite less_ok by lia. cbn [bind].
  rewrite imul_ok by (unfold int_min; lia). cbn [bind]. rewrite less_ok by lia. cbn [bind].
  apply iadd_ok. unfold int_min. lia.
Qed.

Hypothesis Hraw : raw <= int_max.

Lemma load_vals row names : forall toks col buf, 0 <= w -> 0 <= row * w -> Z.of_nat (length buf) <= int_max -> col + Z.of_nat (length toks) <= raw -> start <= col -> (start < col \/ has = false) ->
  0 <= row * w + (col - start - b2z has) -> row * w + (col - start - b2z has) + Z.of_nat (length toks) <= Z.of_nat (length buf) ->
  load_tokens stod row start raw has col toks names buf =
  (vs <- numbers stod toks ;; Ret (names, write buf (Z.to_nat (row * w + (col - start - b2z has))) vs)).
Proof.
  pose proof b2z_range as Hb2.
  induction toks as [|t toks IH]; intros col buf Hw Hrw Hbuf Hraw' Hc Hn Hp Hl; [reflexivity|]. cbn [load_tokens numbers length] in *.
  destruct (Z.leb_spec start col); [|lia].
  replace ((col =? start) && has) with false.
  2:{ symmetry. apply andb_false_iff. destruct Hn as [Hn| ->]; auto. left. apply Z.eqb_neq. lia. }
  rewrite cell_index_ok by (try lia; destruct Hn as [Hn| ->]; cbn [b2z] in *; lia). cbn [bind].
  destruct (stod t) as [v| |]; try reflexivity.
  rewrite aset_in by lia. cbn [bind]. rewrite IH by (rewrite ?upd_length; lia).
  destruct (numbers stod toks) as [vs| | |]; cbn [bind]; auto. f_equal. f_equal. cbn [write].
  f_equal. lia.
Qed.

Lemma load_line row names buf : 0 <= w -> Z.of_nat (length buf) <= int_max -> forall toks col, col + Z.of_nat (length toks) <= raw -> 0 <= col <= start -> start + b2z has <= col + Z.of_nat (length toks) ->
  0 <= row * w -> row * w + (col + Z.of_nat (length toks) - start - b2z has) <= Z.of_nat (length buf) ->
  load_tokens stod row start raw has col toks names buf =
  (vs <- numbers stod (skipn (Z.to_nat (start + b2z has - col)) toks) ;;
   Ret ((names ++ if has then [nth (Z.to_nat (start - col)) toks ""] else [])%list, write buf (Z.to_nat (row * w)) vs)).
Proof.
  pose proof b2z_range as Hb. intros Hw Hbm.
  induction toks as [|t toks IH]; intros col Hraw' Hc Hl Hp Hbuf.
  - simpl in Hl. assert (has = false) by (destruct has; simpl in *; auto; lia). 
    assert (Hk : Z.to_nat (start + b2z has - col) = 0%nat) by lia. rewrite Hk. simpl. subst has. rewrite app_nil_r. reflexivity.
  - cbn [length] in *. destruct (Z.eq_dec col start) as [->|Hne].
    + destruct has eqn:Eh; cbn [b2z] in *.
      * cbn [load_tokens]. rewrite Z.leb_refl, Z.eqb_refl. cbn [andb].
        rewrite <- Eh in *. rewrite load_vals by (rewrite ?Eh; cbn [b2z]; lia). rewrite Eh. cbn [b2z].
        replace (Z.to_nat (start + 1 - start)) with 1%nat by lia. replace (Z.to_nat (start - start)) with 0%nat by lia.
        cbn [skipn nth]. replace (row * (raw - start - 1) + (start + 1 - start - 1)) with (row * (raw - start - 1)) by lia. reflexivity.
      * rewrite <- Eh in *. rewrite load_vals by (rewrite ?Eh; cbn [b2z length]; lia). rewrite Eh. cbn [b2z].
        replace (Z.to_nat (start + 0 - start)) with 0%nat by lia. cbn [skipn]. rewrite app_nil_r.
        replace (row * (raw - start - 0) + (start - start - 0)) with (row * (raw - start - 0)) by lia. reflexivity.
    + cbn [load_tokens]. destruct (Z.leb_spec start col); [lia|].
      rewrite IH by lia. replace (Z.to_nat (start + b2z has - col)) with (S (Z.to_nat (start + b2z has - (col + 1)))) by lia.
      replace (Z.to_nat (start - col)) with (S (Z.to_nat (start - (col + 1)))) by lia. reflexivity.
Qed.

Fixpoint write_rows (buf : list D) (row : Z) (rows : list (list D)) : list D :=
  match rows with [] => buf | r :: rows' => write_rows (write buf (Z.to_nat (row * w)) r) (row + 1) rows' end.

Lemma numbers_length ts : forall vs, numbers stod ts = Ret vs -> length vs = length ts.
Proof.
  induction ts as [|t ts IH]; intros vs E; simpl in E; [injection E as <-; reflexivity|].
  destruct (stod t); try discriminate. destruct (numbers stod ts) as [vs'| | |]; try discriminate. injection E as <-. simpl. auto.
Qed.

Definition name_of (toks : list string) : list string := if has then [nth (Z.to_nat start) toks ""] else [].

Lemma load_rows_ok seps : forall n ls row lengths names buf,
  (forall line, In line (firstn n ls) -> start + b2z has <= Z.of_nat (length (tokenize seps line)) <= raw) ->
  0 <= row -> 0 <= w -> (row + Z.of_nat (length (firstn n ls))) * w <= Z.of_nat (length buf) <= int_max ->
  exists lens, load_rows stod seps start raw has n row ls lengths names buf =
    (lens, rows <- table stod (map (fun line => skipn sk (tokenize seps line)) (firstn n ls)) ;;
           Ret (row + Z.of_nat (length (firstn n ls)), (names ++ flat_map name_of (map (tokenize seps) (firstn n ls)))%list, write_rows buf row rows)) /\
    forall rows, table stod (map (fun line => skipn sk (tokenize seps line)) (firstn n ls)) = Ret rows ->
      lens = (lengths ++ map (fun r => Z.of_nat (length r)) rows)%list.
Proof.
  pose proof b2z_range as Hb.
  induction n as [|n IH]; intros ls row lengths names buf Ht Hr Hw Hl.
  { exists lengths. simpl. rewrite Z.add_0_r, app_nil_r. split; [reflexivity|]. intros rows E. injection E as <-. simpl. rewrite app_nil_r. reflexivity. }
  destruct ls as [|line ls].
  { exists lengths. simpl. rewrite Z.add_0_r, app_nil_r. split; [reflexivity|]. intros rows E. injection E as <-. simpl. rewrite app_nil_r. reflexivity. }
  cbn [firstn map load_rows table flat_map] in *. cbn [length] in Hl.
  pose proof (Ht line (or_introl eq_refl)) as Hline.
  rewrite load_line; try lia.
  2:{ nia. }
  2:{ nia. }
  rewrite !Z.sub_0_r.
  pose proof (numbers_length (skipn sk (tokenize seps line))) as Hnl.
  destruct (numbers stod (skipn sk (tokenize seps line))) as [vs| | |] eqn:Ev; cbn [bind];
    try (eexists; split; [reflexivity|intros rows E; discriminate E]).
  edestruct (IH ls (row + 1)) as (lens & E & Hlens); [| | | |rewrite E; clear E].
  - intros l Hl'. apply Ht. simpl. auto.
  - lia.
  - lia.
  - rewrite write_length. nia.
  - exists lens. split.
    + destruct (table stod _) as [rows| | |]; cbn [bind]; auto. rewrite <- app_assoc. cbn [length].
      replace (row + Z.of_nat (S (length (firstn n ls)))) with (row + 1 + Z.of_nat (length (firstn n ls))) by lia. reflexivity.
    + intros rows E. destruct (table stod _) as [rows'| | |]; try discriminate. cbn [bind] in E. injection E as <-.
      rewrite (Hlens rows' eq_refl), <- app_assoc. cbn [map app]. f_equal. f_equal.
      specialize (Hnl vs eq_refl). rewrite skipn_length in Hnl. lia.
Qed.

Lemma write_rows_length rows : forall buf row, length (write_rows buf row rows) = length buf.
Proof. induction rows as [|r rows IH]; intros buf row; [reflexivity|]. simpl. rewrite IH. apply write_length. Qed.

Lemma write_rows_before rows : forall buf row k, 0 <= row -> 0 <= w -> (forall r, In r rows -> Z.of_nat (length r) <= w) ->
  (row + Z.of_nat (length rows)) * w <= Z.of_nat (length buf) -> Z.of_nat k < row * w ->
  nth_error (write_rows buf row rows) k = nth_error buf k.
Proof.
  induction rows as [|r rows IH]; intros buf row k Hr Hw Hlen Hb Hk; [reflexivity|]. cbn [write_rows length] in *.
  pose proof (Hlen r (or_introl eq_refl)).
  rewrite IH; [|lia|auto|intros; apply Hlen; simpl; auto|rewrite write_length; nia|nia].
  rewrite write_nth by nia. destruct (Nat.leb_spec (Z.to_nat (row * w)) k); [lia|reflexivity].
Qed.

Lemma write_rows_nth rows : forall buf row i r j v, 0 <= row -> 0 <= w -> (forall r, In r rows -> Z.of_nat (length r) <= w) ->
  (row + Z.of_nat (length rows)) * w <= Z.of_nat (length buf) ->
  nth_error rows i = Some r -> nth_error r j = Some v ->
  nth_error (write_rows buf row rows) (Z.to_nat ((row + Z.of_nat i) * w + Z.of_nat j)) = Some v.
Proof.
  induction rows as [|r0 rows IH]; intros buf row i r j v Hr Hw Hlen Hb Ei Ej; [destruct i; discriminate|].
  cbn [write_rows length] in *. pose proof (Hlen r0 (or_introl eq_refl)).
  destruct i as [|i].
  - injection Ei as ->. assert (Hj : (j < length r)%nat) by (apply nth_error_Some; congruence).
    rewrite write_rows_before; [|lia|auto|intros; apply Hlen; simpl; auto|rewrite write_length; nia|nia].
    rewrite write_nth by nia. replace (Z.to_nat ((row + Z.of_nat 0) * w + Z.of_nat j)) with (Z.to_nat (row * w) + j)%nat by nia.
    destruct (Nat.leb_spec (Z.to_nat (row * w)) (Z.to_nat (row * w) + j)); [|lia].
    destruct (Nat.ltb_spec (Z.to_nat (row * w) + j) (Z.to_nat (row * w) + length r)); [|lia]. simpl.
    replace (Z.to_nat (row * w) + j - Z.to_nat (row * w))%nat with j by lia. exact Ej.
  - replace (row + Z.of_nat (S i)) with (row + 1 + Z.of_nat i) by lia.
    apply (IH _ (row + 1) i r j v); auto; [lia|intros; apply Hlen; simpl; auto|rewrite write_length; nia].
Qed.
End Load.

Lemma map_tokenize seps ls tbl : Forall2 (has_fields (c_str seps)) ls tbl -> map (tokenize seps) ls = tbl.
Proof. intros HF. induction HF as [|l t ls tbl Hl HF IH]; [reflexivity|]. simpl. rewrite (tokenize_ok _ _ _ Hl), IH. reflexivity. Qed.

Lemma max_columns_ok seps ls tbl m : map (tokenize seps) ls = tbl -> widest tbl m -> max_columns seps ls = m.
Proof.
  intros <- [Hle (r & Hr & Hm)]. unfold max_columns.
  assert (G : forall l a, (forall x, In x (map (tokenize seps) l) -> Z.of_nat (length x) <= m) -> a <= m ->
    let b := fold_left (fun m0 line => let n := Z.of_nat (length (tokenize seps line)) in if m0 <? n then n else m0) l a in
    a <= b <= m /\ forall x, In x (map (tokenize seps) l) -> Z.of_nat (length x) <= b).
  { induction l as [|x l IH]; intros a Hx Ha; cbn [fold_left map].
    - cbv zeta. split; [lia|]. intros ? [].
    - cbv zeta. pose proof (Hx _ (or_introl eq_refl)) as Hx0.
      destruct (IH (if a <? Z.of_nat (length (tokenize seps x)) then Z.of_nat (length (tokenize seps x)) else a)) as [I1 I2].
      + intros y Hy. apply Hx. simpl. auto.
      + destruct (Z.ltb_spec a (Z.of_nat (length (tokenize seps x)))); lia.
      + cbv zeta in I1, I2. destruct (Z.ltb_spec a (Z.of_nat (length (tokenize seps x)))) as [Hlt|Hge];
          (split; [lia|intros y [<-|Hy]; [lia|apply I2; auto]]). }
  destruct (G ls 0 Hle) as [G1 G2]; [lia|]. cbv zeta in G1, G2. specialize (G2 r Hr). lia.
Qed.

Lemma numbers_outcome {N : Num} (stod : string -> parsed (D N)) ts :
  (exists vs, numbers stod ts = Ret vs) \/ numbers stod ts = Throw unparsable \/ numbers stod ts = Throw out_of_range.
Proof.
  induction ts as [|t ts IH]; simpl; [eauto|]. destruct (stod t); auto.
  destruct IH as [[vs ->]|[->| ->]]; simpl; eauto.
Qed.

Lemma table_outcome {N : Num} (stod : string -> parsed (D N)) rs :
  (exists rows, table stod rs = Ret rows) \/ table stod rs = Throw unparsable \/ table stod rs = Throw out_of_range.
Proof.
  induction rs as [|r rs IH]; simpl; [eauto|].
  destruct (numbers_outcome stod r) as [[vs ->]|[->| ->]]; simpl; auto.
  destruct IH as [[vss ->]|[->| ->]]; simpl; eauto.
Qed.

Lemma table_shape {N : Num} (stod : string -> parsed (D N)) rs : forall rows, table stod rs = Ret rows ->
  Forall2 (fun r row => length r = length row) rs rows.
Proof.
  induction rs as [|r rs IH]; intros rows E; simpl in E; [injection E as <-; constructor|].
  destruct (numbers stod r) as [vs| | |] eqn:Ev; try discriminate. simpl in E.
  destruct (table stod rs) as [vss| | |]; try discriminate. injection E as <-. constructor; auto.
  symmetry. eapply numbers_length; eauto.
Qed.

Section LoadData.
Context {N : Num}.
Notation D := (D N).
Variable stod : string -> parsed D.

Lemma wanted_firstn {A} maxNumRow (l : list A) :
  wanted maxNumRow l = firstn (Z.to_nat (if maxNumRow <=? 0 then Z.of_nat (length l) else Z.min maxNumRow (Z.of_nat (length l)))) l.
Proof.
  unfold wanted. destruct (Z.leb_spec maxNumRow 0).
  - rewrite Nat2Z.id, firstn_all. reflexivity.
  - destruct (Z.le_ge_cases maxNumRow (Z.of_nat (length l))).
    + rewrite Z.min_l by lia. reflexivity.
    + rewrite Z.min_r by lia. rewrite Nat2Z.id, firstn_all. apply firstn_all2. lia.
Qed.

Lemma wanted_length {A} maxNumRow (l : list A) :
  Z.of_nat (length (wanted maxNumRow l)) = if maxNumRow <=? 0 then Z.of_nat (length l) else Z.min maxNumRow (Z.of_nat (length l)).
Proof. rewrite wanted_firstn, firstn_length. destruct (Z.leb_spec maxNumRow 0); lia. Qed.

Lemma wanted_map {A B} (f : A -> B) maxNumRow l : wanted maxNumRow (map f l) = map f (wanted maxNumRow l).
Proof. unfold wanted. destruct (maxNumRow <=? 0); auto. apply firstn_map. Qed.

Lemma load_ok (fs : files) d path text maxNumRow start seps has ls tbl m :
  fs path = Some (mkFile text None) -> has_lines text ls -> Forall2 (has_fields (c_str seps)) ls tbl ->
  ls <> [] -> 0 <= start -> ds_lengths d = [] -> widest tbl m ->
  (forall r, In r (wanted maxNumRow tbl) -> start + b2z has <= Z.of_nat (length r)) ->
  Z.of_nat (length (wanted maxNumRow tbl)) * m <= int_max ->
  match table stod (map (skipn (Z.to_nat (start + b2z has))) (wanted maxNumRow tbl)) with
  | Ret rows => exists d', loadData stod fs d path maxNumRow start seps has = (d', Ret tt) /\
      holds d' rows /\ ds_maxcol d' = m - start - b2z has /\
      ds_names d' = (if has then map (fun r => nth (Z.to_nat start) r "") (wanted maxNumRow tbl) else []) /\
      ds_lengths d' = map (fun r => Z.of_nat (length r)) rows /\ ds_path d' = path
  | Throw e => exists d', loadData stod fs d path maxNumRow start seps has = (d', Throw e) /\ ds_data d' = None /\ ds_count d' = 0
  | _ => False
  end.
Proof.
  intros Ef Hls HF Hne H0 Hd Hm Hlen Hsize. pose proof (file_lines_ok _ _ Hls) as El.
  pose proof (map_tokenize _ _ _ HF) as Et. pose proof (max_columns_ok _ _ _ _ Et Hm) as Em.
  pose proof (b2z_range has) as Hb.
  unfold loadData. rewrite Ef. cbn [tf_text tf_fail]. rewrite El, Em.
  rewrite <- wanted_length. set (R := Z.of_nat (length (wanted maxNumRow ls))).
  assert (ER : Z.of_nat (length (wanted maxNumRow tbl)) = R) by (rewrite <- Et, wanted_map, map_length; reflexivity).
  rewrite ER in Hsize.
  assert (Hm0 : 0 <= m) by (destruct Hm as [_ (r & _ & <-)]; lia).
  rewrite imul_ok by (unfold int_min, int_max in *; nia).
  assert (Ew : firstn (Z.to_nat R) ls = wanted maxNumRow ls).
  { unfold R. rewrite wanted_length. symmetry. apply wanted_firstn. }
  assert (Hwt : wanted maxNumRow tbl = map (tokenize seps) (wanted maxNumRow ls)) by (rewrite <- Et; apply wanted_map).
  assert (Hle : forall r, In r (wanted maxNumRow tbl) -> Z.of_nat (length r) <= m).
  { intros r Hr. apply (proj1 Hm). unfold wanted in Hr. destruct (maxNumRow <=? 0); auto.
    rewrite <- (firstn_skipn (Z.to_nat maxNumRow)). apply in_or_app. auto. }
  assert (Hw : 0 <= m - start - b2z has).
  { destruct (wanted maxNumRow tbl) as [|r l] eqn:E.
    - exfalso. unfold R in ER. rewrite wanted_length in ER. destruct ls as [|x ls]; [contradiction|].
      simpl length in ER. destruct (Z.leb_spec maxNumRow 0); lia.
    - pose proof (Hlen r (or_introl eq_refl)). pose proof (Hle r (or_introl eq_refl)). lia. }
  assert (HR1 : 1 <= R).
  { unfold R. rewrite wanted_length. destruct ls as [|x ls']; [contradiction|]. simpl length.
    destruct (Z.leb_spec maxNumRow 0); lia. }
  assert (Hmi : m <= int_max) by nia.
  destruct (load_rows_ok stod start m has H0 Hmi seps (Z.to_nat R) ls 0 (ds_lengths d) [] (repeat n0 (Z.to_nat (R * m)))) as (lens & E & Hlens).
  - intros line Hl. rewrite Ew in Hl. apply (in_map (tokenize seps)) in Hl. rewrite <- Hwt in Hl. split; auto.
  - lia.
  - exact Hw.
  - rewrite repeat_length, Ew. unfold R. nia.
  - rewrite E. clear E. rewrite Ew in *. rewrite Hwt, map_map.
    destruct (table stod (map _ _)) as [rows|e| |] eqn:Etb.
    + cbn [bind]. rewrite (less_ok start has H0) by lia. eexists. split; [reflexivity|]. cbn [ds_data ds_maxcol ds_names ds_lengths ds_count ds_path].
      specialize (Hlens rows eq_refl). rewrite Hd in Hlens. cbn [app] in Hlens.
      pose proof (table_shape _ _ _ Etb) as Hsh. pose proof (Forall2_length _ _ _ Hsh) as Hcount. rewrite map_length in Hcount.
      assert (Hrl : forall r, In r rows -> Z.of_nat (length r) <= m - start - b2z has).
      { intros r Hr. apply In_nth_error in Hr as [i Ei]. destruct (Forall2_nth_ex_r _ _ _ _ _ Hsh Ei) as (r' & Ei' & El').
        apply nth_error_In in Ei'. apply in_map_iff in Ei' as (line & <- & Hline).
        apply (in_map (tokenize seps)) in Hline. rewrite <- Hwt in Hline. pose proof (Hle _ Hline). pose proof (Hlen _ Hline).
        rewrite skipn_length in El'. lia. }
      splits; auto.
      * exists (write_rows start m has (repeat n0 (Z.to_nat (R * m))) 0 rows). cbn [ds_data ds_maxcol ds_names ds_lengths ds_count].
        rewrite write_rows_length, repeat_length. splits; auto.
        -- lia.
        -- unfold R. nia.
        -- lia.
        -- intros i row Ei. rewrite Hlens. splits.
           ++ rewrite nth_error_map, Ei. reflexivity.
           ++ apply Hrl. eapply nth_error_In; eauto.
           ++ intros j v Ej. apply aget_Ret. split; [nia|].
              apply (write_rows_nth start m has rows _ 0 i row j v); auto; [lia|]. rewrite repeat_length. unfold R. nia.
      * clear. induction (wanted maxNumRow ls) as [|l ll IH]; [destruct has; reflexivity|].
        cbn [map flat_map]. simpl app at 1. unfold name_of at 1. destruct has; simpl; [f_equal|]; exact IH.
    + cbn [bind]. eexists. split; [reflexivity|]. split; reflexivity.
    + destruct (table_outcome stod (map (fun line => skipn (Z.to_nat (start + b2z has)) (tokenize seps line)) (wanted maxNumRow ls)))
        as [[rows E]|[E|E]]; congruence.
    + destruct (table_outcome stod (map (fun line => skipn (Z.to_nat (start + b2z has)) (tokenize seps line)) (wanted maxNumRow ls)))
        as [[rows E]|[E|E]]; congruence.
Qed.
End LoadData.

(** ** saving *)
Lemma text_of_snoc ls l : text_of (ls ++ [l]) = text_of ls ++ l ++ String newline "".
Proof. induction ls as [|x ls IH]; simpl; [reflexivity|]. rewrite IH, app_assoc_s. reflexivity. Qed.

Lemma firstn_snoc {A} (l : list A) k x : nth_error l k = Some x -> firstn (S k) l = (firstn k l ++ [x])%list.
Proof.
  revert k. induction l as [|y l IH]; intros [|k] E; simpl in E; try discriminate.
  - injection E as ->. reflexivity.
  - simpl. f_equal. apply IH, E.
Qed.

Section Save.
Context {N : Num}.
Notation D := (D N).
Variable put : D -> string.
Variable sep : ascii.

Definition line_of (fs : list string) : string := fold_right (fun f s => f ++ String sep s) "" fs.
Definition fields_of (names : list string) (rows : list (list D)) : list (list string) :=
  match names with
  | [] => map (map put) rows
  | _ => map (fun p => fst p :: map put (snd p)) (combine names rows)
  end.

Lemma line_of_snoc fs f : line_of (fs ++ [f]) = line_of fs ++ f ++ String sep "".
Proof. induction fs as [|x fs IH]; simpl; [reflexivity|]. rewrite IH, app_assoc_s. reflexivity. Qed.

Lemma fields_of_nth names rows i row : names = [] \/ length names = length rows -> nth_error rows i = Some row ->
  nth_error (fields_of names rows) i =
  Some (match names with [] => [] | _ => [nth i names ""] end ++ map put row)%list.
Proof.
  intros Hn Ei. unfold fields_of. destruct names as [|a names].
  - rewrite nth_error_map, Ei. reflexivity.
  - destruct Hn as [|Hn]; [discriminate|]. rewrite nth_error_map.
    assert (E : nth_error (combine (a :: names) rows) i = Some (nth i (a :: names) "", row)).
    { revert Hn Ei. generalize (a :: names). intros l. revert rows i. clear. induction l as [|x l IH]; intros [|r rows] [|i] Hn Ei; simpl in *; try discriminate.
      - injection Ei as ->. reflexivity.
      - apply IH; auto. }
    rewrite E. reflexivity.
Qed.

Lemma fields_of_length names rows : names = [] \/ length names = length rows -> length (fields_of names rows) = length rows.
Proof.
  intros Hn. unfold fields_of. destruct names; rewrite map_length; auto. destruct Hn as [|Hn]; [discriminate|].
  rewrite combine_length, Hn. lia.
Qed.

Lemma save_row_ok d rows i row out : holds d rows -> ds_names d = [] \/ length (ds_names d) = length rows ->
  nth_error rows i = Some row ->
  save_row put d sep (Z.of_nat i) out =
  Ret (out ++ line_of (match ds_names d with [] => [] | _ => [nth i (ds_names d) ""] end ++ map put row) ++ String newline "").
Proof.
  intros (buf & Eb & Ec & Hc & Hbuf & Hr) Hn Ei. destruct (Hr i row Ei) as (El & Hle & Hv).
  unfold save_row.
  assert (E1 : match ds_names d with
         | [] => Ret out
         | _ => name <- aget (ds_names d) (Z.of_nat i) ;; Ret (out ++ name ++ String sep "")
         end = Ret (out ++ line_of (match ds_names d with [] => [] | _ => [nth i (ds_names d) ""] end))).
  { destruct (ds_names d) as [|a l] eqn:E; [simpl; rewrite app_nil_s; reflexivity|].
    destruct Hn as [|Hn]; [discriminate|]. assert (Hi : (i < length (a :: l))%nat).
    { rewrite Hn. apply nth_error_Some. congruence. }
    rewrite (proj2 (aget_Ret _ _ (nth i (a :: l) ""))); [reflexivity|]. split; [lia|]. rewrite Nat2Z.id. apply nth_error_nth'. exact Hi. }
  rewrite E1. cbn [bind].
  unfold getItemLength. rewrite (proj2 (aget_Ret _ _ (Z.of_nat (length row)))) by (split; [lia|rewrite Nat2Z.id; exact El]). cbn [bind].
  set (pre := match ds_names d with [] => [] | _ => [nth i (ds_names d) ""] end).
  destruct (for_inv (fun k o => o = out ++ line_of (pre ++ map put (firstn (Z.to_nat k) row)))
    (fun j out0 => buf0 <- deref (ds_data d) ;; row <- imul (Z.of_nat i) (ds_maxcol d) ;; pos <- iadd row j ;; v <- aget buf0 pos ;; Ret (out0 ++ put v ++ String sep ""))
    0 (Z.of_nat (length row)) (out ++ line_of pre)) as (o & E & Ho).
  - lia.
  - simpl. rewrite app_nil_r. reflexivity.
  - intros k s Hk ->. destruct (nth_error row (Z.to_nat k)) as [v|] eqn:Ev.
    2:{ apply nth_error_None in Ev. lia. }
    assert (Hic : Z.of_nat i < ds_count d) by (rewrite Ec; apply Nat2Z.inj_lt, nth_error_Some; congruence).
    rewrite Eb. cbn [deref bind]. rewrite imul_ok by (unfold int_min; nia). cbn [bind].
    rewrite iadd_ok by (unfold int_min; nia). cbn [bind]. specialize (Hv _ _ Ev). rewrite Z2Nat.id in Hv by lia. rewrite Hv. cbn [bind].
    eexists. split; [reflexivity|]. replace (Z.to_nat (k + 1)) with (S (Z.to_nat k)) by lia.
    rewrite (firstn_snoc _ _ _ Ev), map_app, app_assoc. simpl map. rewrite line_of_snoc, !app_assoc_s. reflexivity.
  - rewrite E. cbn [bind]. rewrite Ho, Nat2Z.id, firstn_all, app_assoc_s. reflexivity.
Qed.

Lemma saveData_ok d rows path : holds d rows -> ds_names d = [] \/ length (ds_names d) = length rows ->
  saveData put true d path sep = Ret (text_of (map line_of (fields_of (ds_names d) rows))).
Proof.
  intros Hd Hn. pose proof Hd as (buf & _ & Ec & _). unfold saveData.
  destruct (for_inv (fun k o => o = text_of (map line_of (firstn (Z.to_nat k) (fields_of (ds_names d) rows))))
     (save_row put d sep) 0 (ds_count d) "") as (o & E & Ho).
  - lia.
  - reflexivity.
  - intros k s Hk ->. destruct (nth_error rows (Z.to_nat k)) as [row|] eqn:Er.
    2:{ apply nth_error_None in Er. lia. }
    pose proof (save_row_ok d rows _ row (text_of (map line_of (firstn (Z.to_nat k) (fields_of (ds_names d) rows)))) Hd Hn Er) as E1.
    rewrite Z2Nat.id in E1 by lia. rewrite E1. eexists. split; [reflexivity|].
    pose proof (fields_of_nth _ _ _ _ Hn Er) as E2. replace (Z.to_nat (k + 1)) with (S (Z.to_nat k)) by lia.
    rewrite (firstn_snoc _ _ _ E2), map_app. simpl map. rewrite text_of_snoc. reflexivity.
  - rewrite E, Ho, Ec, Nat2Z.id, <- (fields_of_length _ _ Hn), firstn_all. reflexivity.
Qed.

Lemma every_app P a b : every P a -> every P b -> every P (a ++ b).
Proof. induction a as [|c a IH]; simpl; auto. intros [H1 H2] H3. split; auto. Qed.
Lemma every_impl (P Q : ascii -> Prop) s : (forall c, P c -> Q c) -> every P s -> every Q s.
Proof. intros H. induction s as [|c s IH]; simpl; auto. intros [H1 H2]. split; auto. Qed.

Hypothesis Hnl : sep <> newline.

Lemma line_of_line fs : Forall (clean sep) fs -> is_line (line_of fs).
Proof.
  intros HF. induction HF as [|f fs [_ Hf] HF IH]; [exact I|]. simpl. apply every_app.
  - revert Hf. apply every_impl. tauto.
  - split; auto.
Qed.

Lemma sep_char_one c : sep_char (String sep "") c <-> c = sep.
Proof. unfold sep_char. simpl. rewrite orb_false_r. destruct (Ascii.eqb_spec c sep); split; congruence. Qed.

Lemma line_of_fields fs : Forall (clean sep) fs -> has_fields (String sep "") (line_of fs) fs.
Proof.
  intros HF. assert (G : fs <> [] -> has_fields (String sep "") (String sep (line_of fs)) fs /\ has_fields (String sep "") (line_of fs) fs).
  { induction HF as [|f fs [Hne Hf] HF IH]; [contradiction|]. intros _.
    assert (Hr : has_fields (String sep "") (String sep (line_of fs)) fs).
    { destruct fs; [|apply IH; discriminate]. constructor. simpl. split; auto. apply sep_char_one. reflexivity. }
    assert (Hf' : every (fun c => ~ sep_char (String sep "") c) f).
    { revert Hf. apply every_impl. intros c [H _] H1. apply sep_char_one in H1. contradiction. }
    split.
    - apply (fields_cons _ (String sep "") f (String sep (line_of fs)) fs); auto.
      + simpl. split; auto. apply sep_char_one. reflexivity.
      + right. eexists _, _. split; [reflexivity|]. apply sep_char_one. reflexivity.
    - apply (fields_cons _ "" f (String sep (line_of fs)) fs); auto.
      + exact I.
      + right. eexists _, _. split; [reflexivity|]. apply sep_char_one. reflexivity. }
  destruct fs; [constructor; exact I|apply G; discriminate].
Qed.
End Save.

Lemma nth_ext_error {A} : forall (l1 l2 : list A), (forall i, nth_error l1 i = nth_error l2 i) -> l1 = l2.
Proof.
  induction l1 as [|x l1 IH]; intros [|y l2] H; auto; try (specialize (H O); discriminate).
  pose proof (H O) as H0. injection H0 as ->. f_equal. apply IH. intros i. apply (H (S i)).
Qed.

Lemma widest_ex tbl : tbl <> [] -> exists m, widest tbl m.
Proof.
  induction tbl as [|r tbl IH]; [contradiction|]. intros _. destruct tbl as [|r' tbl].
  - exists (Z.of_nat (length r)). split; [intros x [<-|[]]; lia|exists r; split; simpl; auto].
  - destruct IH as (m & H1 & r0 & H2 & H3); [discriminate|].
    destruct (Z.le_ge_cases (Z.of_nat (length r)) m).
    + exists m. split; [intros x [<-|Hx]; auto|exists r0; split; simpl in *; auto].
    + exists (Z.of_nat (length r)). split; [intros x [<-|Hx]; [lia|specialize (H1 x Hx); lia]|exists r; split; simpl; auto].
Qed.

Lemma round_trip {N : Num} (stod : string -> parsed (D N)) (put : D N -> string) sep d rows path :
  holds d rows -> ds_names d = [] \/ length (ds_names d) = length rows ->
  sep <> newline -> sep <> zero ->
  Forall (clean sep) (ds_names d) -> Forall (Forall (fun v => clean sep (put v))) rows ->
  ds_count d * (ds_maxcol d + 1) <= int_max ->
  exists text, saveData put true d path sep = Ret text /\
  forall fs path', fs path' = Some (mkFile text None) ->
  let has := match ds_names d with [] => false | _ => true end in
  match table stod (map (map put) rows) with
  | Ret rows' => exists d', loadData stod fs ds_new path' 0 0 (String sep "") has = (d', Ret tt) /\
      holds d' rows' /\ ds_names d' = ds_names d /\ ds_lengths d' = map (fun r => Z.of_nat (length r)) rows'
  | Throw e => exists d', loadData stod fs ds_new path' 0 0 (String sep "") has = (d', Throw e) /\ ds_data d' = None /\ ds_count d' = 0
  | _ => False
  end.
Proof.
  intros Hd Hn Hnl Hz HN HR Hsz. eexists. split; [apply (saveData_ok put sep d rows path Hd Hn)|].
  intros fs path' Ef has. pose proof Hd as (buf & Eb & Ec & Hc & Hbuf & Hr).
  destruct rows as [|row0 rows0] eqn:Erows.
  { assert (E : ds_names d = []) by (destruct Hn as [|Hn]; auto; destruct (ds_names d); auto; discriminate).
    unfold has. rewrite E in *. cbn [map table fields_of text_of] in *. eexists. splits.
    - unfold loadData. rewrite Ef. cbn. reflexivity.
    - exists []. cbn. splits; auto; try lia. intros [|i] row Ei; discriminate.
    - reflexivity.
    - reflexivity. }
  rewrite <- Erows in *. assert (Hne : rows <> []) by (rewrite Erows; discriminate). clear Erows row0 rows0.
  set (tbl := fields_of put (ds_names d) rows) in *.
  assert (Hlen : length tbl = length rows) by (apply fields_of_length; auto).
  assert (Htbl : forall i r, nth_error tbl i = Some r -> exists row, nth_error rows i = Some row /\
     r = (match ds_names d with [] => [] | _ => [nth i (ds_names d) ""] end ++ map put row)%list).
  { intros i r Ei. destruct (nth_error rows i) as [row|] eqn:Er.
    - exists row. split; auto. unfold tbl in Ei. rewrite (fields_of_nth put _ _ _ _ Hn Er) in Ei. congruence.
    - apply nth_error_None in Er. assert (nth_error tbl i <> None) by congruence. apply nth_error_Some in H. lia. }
  assert (Hclean : Forall (Forall (clean sep)) tbl).
  { apply Forall_forall. intros r Hin. apply In_nth_error in Hin as [i Ei]. destruct (Htbl i r Ei) as (row & Er & ->).
    apply Forall_app. split.
    - destruct (ds_names d) as [|a l] eqn:E; [constructor|]. constructor; [|constructor]. rewrite Forall_forall in HN. apply HN.
      apply nth_In. destruct Hn as [|Hn]; [discriminate|]. rewrite Hn. apply nth_error_Some. congruence.
    - apply nth_error_In in Er. rewrite Forall_forall in HR. specialize (HR _ Er). clear -HR.
      induction HR; simpl; constructor; auto. }
  assert (Htne : tbl <> []) by (intros E; apply Hne; destruct rows; auto; rewrite E in Hlen; discriminate).
  destruct (widest_ex tbl Htne) as [m Hm].
  assert (Hhas : forall i, Z.of_nat (length (match ds_names d with [] => [] | _ => [nth i (ds_names d) ""] end)) = b2z has).
  { intros i. unfold has. destruct (ds_names d); reflexivity. }
  assert (Hcs : c_str (String sep "") = String sep "").
  { simpl. destruct (Ascii.eqb_spec sep zero); [contradiction|reflexivity]. }
  pose proof (load_ok stod fs ds_new path' (text_of (map (line_of sep) tbl)) 0 0 (String sep "") has (map (line_of sep) tbl) tbl m Ef) as L.
  unfold wanted in L. cbn [Z.leb Z.compare] in L.
  replace (map (skipn (Z.to_nat (0 + b2z has))) tbl) with (map (map put) rows) in L.
  2:{ apply nth_ext_error. intros i. rewrite !nth_error_map. destruct (nth_error tbl i) as [r|] eqn:Ei.
      - destruct (Htbl i r Ei) as (row & Er & ->). rewrite Er. simpl. f_equal.
        specialize (Hhas i). rewrite skipn_app. rewrite skipn_all2 by lia. simpl.
        replace (Z.to_nat (b2z has) - _)%nat with O by lia. reflexivity.
      - apply nth_error_None in Ei. assert (E : nth_error rows i = None) by (apply nth_error_None; lia). rewrite E. reflexivity. }
  specialize (L (conj (proj2 (Forall_map _ _ _) (Forall_impl _ (line_of_line sep Hnl) Hclean)) (or_introl eq_refl))).
  rewrite Hcs in L.
  assert (A1 : Forall2 (has_fields (String sep "")) (map (line_of sep) tbl) tbl).
  { clear -Hclean. induction Hclean; simpl; constructor; auto. apply line_of_fields; auto. }
  assert (A2 : map (line_of sep) tbl <> []) by (destruct tbl; [contradiction|discriminate]).
  assert (A3 : forall r, In r tbl -> 0 + b2z has <= Z.of_nat (length r)).
  { intros r Hin. apply In_nth_error in Hin as [i Ei]. destruct (Htbl i r Ei) as (row & Er & ->). rewrite app_length. specialize (Hhas i). lia. }
  assert (A4 : Z.of_nat (length tbl) * m <= int_max).
  { destruct Hm as [_ (r & Hin & <-)]. apply In_nth_error in Hin as [i Ei]. destruct (Htbl i r Ei) as (row & Er & ->).
    destruct (Hr _ _ Er) as (_ & Hle & _). rewrite app_length, map_length. specialize (Hhas i). pose proof (b2z_range has). nia. }
  specialize (L A1 A2 (Z.le_refl 0) eq_refl Hm A3 A4).
  destruct (table stod (map (map put) rows)) as [rows'|e| |]; auto.
  destruct L as (d' & L1 & L2 & L3 & L4 & L5 & L6). exists d'. splits; auto. rewrite L4. unfold has.
  destruct (ds_names d) as [|a l] eqn:E; [reflexivity|].
  destruct Hn as [|Hn]; [discriminate|]. apply nth_ext_error. intros i. rewrite nth_error_map.
  destruct (nth_error tbl i) as [r|] eqn:Ei.
  - destruct (Htbl i r Ei) as (row & Er & ->). cbn [option_map]. transitivity (Some (nth i (a :: l) "")); [reflexivity|]. symmetry. apply nth_error_nth'.
    rewrite Hn. apply nth_error_Some. congruence.
  - apply nth_error_None in Ei. symmetry. apply nth_error_None. lia.
Qed.

Lemma load_fail {N : Num} (stod : string -> parsed (D N)) (fs : files) d path text maxNumRow start seps has ls tbl m n :
  fs path = Some (mkFile text (Some n)) -> has_lines text ls -> Forall2 (has_fields (c_str seps)) ls tbl ->
  0 <= start -> widest tbl m -> (n < length (wanted maxNumRow tbl))%nat ->
  (forall r, In r (wanted maxNumRow tbl) -> start + b2z has <= Z.of_nat (length r)) ->
  Z.of_nat (length (wanted maxNumRow tbl)) * m <= int_max ->
  exists d' msg, loadData stod fs d path maxNumRow start seps has = (d', Throw (GenexExc msg)) /\ ds_data d' = None /\ ds_count d' = 0.
Proof.
  intros Ef Hls HF H0 Hm Hn Hlen Hsize. pose proof (file_lines_ok _ _ Hls) as El.
  pose proof (map_tokenize _ _ _ HF) as Et. pose proof (max_columns_ok _ _ _ _ Et Hm) as Em.
  pose proof (b2z_range has) as Hb.
  unfold loadData. rewrite Ef. cbn [tf_text tf_fail]. rewrite El, Em.
  rewrite <- wanted_length. set (R := Z.of_nat (length (wanted maxNumRow ls))).
  assert (ER : Z.of_nat (length (wanted maxNumRow tbl)) = R) by (rewrite <- Et, wanted_map, map_length; reflexivity).
  rewrite ER in Hsize.
  assert (Hm0 : 0 <= m) by (destruct Hm as [_ (r & _ & <-)]; lia).
  rewrite imul_ok by (unfold int_min, int_max in *; nia).
  replace (Z.of_nat n <? R) with true by (symmetry; apply Z.ltb_lt; lia).
  assert (Hwt : wanted maxNumRow tbl = map (tokenize seps) (wanted maxNumRow ls)) by (rewrite <- Et; apply wanted_map).
  assert (Ew : wanted maxNumRow ls = firstn (Z.to_nat R) ls).
  { unfold R. rewrite wanted_length. apply wanted_firstn. }
  assert (Hle : forall r, In r (wanted maxNumRow tbl) -> Z.of_nat (length r) <= m).
  { intros r Hr. apply (proj1 Hm). unfold wanted in Hr. destruct (maxNumRow <=? 0); auto.
    rewrite <- (firstn_skipn (Z.to_nat maxNumRow)). apply in_or_app. auto. }
  assert (Hw : 0 <= m - start - b2z has).
  { destruct (wanted maxNumRow tbl) as [|r l] eqn:E; [simpl in Hn; lia|].
    pose proof (Hlen r (or_introl eq_refl)). pose proof (Hle r (or_introl eq_refl)). lia. }
  assert (Hmi : m <= int_max) by nia.
  destruct (load_rows_ok stod start m has H0 Hmi seps (Z.to_nat R) (firstn n ls) 0 (ds_lengths d) [] (repeat n0 (Z.to_nat (R * m)))) as (lens & E & Hlens).
  - intros line Hl. rewrite firstn_firstn in Hl.
    assert (Hl' : In line (wanted maxNumRow ls)).
    { rewrite Ew. rewrite Nat.min_comm, <- firstn_firstn in Hl. rewrite <- (firstn_skipn n). apply in_or_app. auto. }
    apply (in_map (tokenize seps)) in Hl'. rewrite <- Hwt in Hl'. split; auto.
  - lia.
  - exact Hw.
  - rewrite repeat_length. assert ((length (firstn (Z.to_nat R) (firstn n ls)) <= Z.to_nat R)%nat) by apply firstn_le_length. nia.
  - rewrite E. clear E.
    destruct (table_outcome stod (map (fun line => skipn (Z.to_nat (start + b2z has)) (tokenize seps line)) (firstn (Z.to_nat R) (firstn n ls))))
        as [[rows E]|[E|E]]; rewrite E; cbn [bind]; eexists _, _; splits; reflexivity.
Qed.
