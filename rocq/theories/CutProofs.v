(** Proofs about data files that were cut off (C72). *)
From Coq Require Import String Ascii Lia.
From Verif Require Import Base Num LoopFacts TSSet Loader DataSpec LoaderSpec LoaderProofs CutSpec.
Local Open Scope string_scope.
Local Open Scope Z_scope.

Lemma substring_app_short a b : forall n, (n <= String.length a)%nat -> substring 0 n (a ++ b) = substring 0 n a.
Proof. induction a as [|c a IH]; intros [|n] H; cbn in *; try reflexivity; [destruct b; reflexivity|lia|]. rewrite IH by lia. reflexivity. Qed.
Lemma substring_app_long a b : forall n, substring 0 (String.length a + n) (a ++ b) = a ++ substring 0 n b.
Proof. induction a as [|c a IH]; intros n; cbn; [reflexivity|]. rewrite IH. reflexivity. Qed.
Lemma substring_0 s : substring 0 0 s = "". Proof. destruct s; reflexivity. Qed.
Lemma substring_full s : substring 0 (String.length s) s = s. Proof. induction s; cbn; congruence. Qed.
Lemma substring_prefix s : forall n, begins (substring 0 n s) s.
Proof.
  induction s as [|c s IH]; intros [|n]; cbn.
  - exists "". reflexivity.
  - exists "". reflexivity.
  - exists (String c s). reflexivity.
  - destruct (IH n) as [r E]. exists r. cbn. congruence.
Qed.
Lemma substring_length s : forall n, (n <= String.length s)%nat -> String.length (substring 0 n s) = n.
Proof. induction s as [|c s IH]; intros [|n] H; cbn in *; try reflexivity; [lia|]. rewrite IH by lia. reflexivity. Qed.
Lemma every_substring P s : forall n, every P s -> every P (substring 0 n s).
Proof. induction s as [|c s IH]; intros [|n] H; cbn in *; auto. destruct H. auto. Qed.

Lemma fields_sep sep s ts : has_fields (String sep "") s ts -> has_fields (String sep "") (String sep s) ts.
Proof.
  assert (S : sep_char (String sep "") sep) by (apply sep_char_one; reflexivity).
  intros H. inversion H as [? E|pre t rest ts' H1 H2 H3 H4 H5]; subst.
  - constructor. split; auto.
  - apply (fields_cons _ (String sep pre) t rest ts'); auto. split; auto.
Qed.

Section Cut.
Variable sep : ascii.
Hypothesis (Hnl : sep <> newline).

Lemma clean_no_sep f : clean sep f -> every (fun c => ~ sep_char (String sep "") c) f.
Proof. intros [_ H]. revert H. apply every_impl. intros c [H _] H1. apply sep_char_one in H1. contradiction. Qed.

Lemma cut_line fs : Forall (clean sep) fs -> forall n, exists r,
  row_left fs r /\ has_fields (String sep "") (substring 0 n (line_of sep fs)) r /\ (substring 0 n (line_of sep fs) <> "" -> r <> []).
Proof.
  induction 1 as [|f fs Hf HF IH]; intros n.
  - exists []. split; [exists O, []; auto|]. split; [|cbn; destruct n; intros C; elim C; reflexivity]. constructor. destruct n; exact I.
  - pose proof (clean_no_sep f Hf) as Hns. cbn [line_of fold_right]. fold (line_of sep fs).
    destruct (Nat.le_gt_cases n (String.length f)) as [C|C].
    + rewrite substring_app_short by exact C. destruct (Nat.eq_dec n 0) as [->|Hn].
      { rewrite substring_0. exists []. split; [exists O, []; auto|]. split; [constructor; exact I|intros X; elim X; reflexivity]. }
      set (w := substring 0 n f). assert (Lw : String.length w = n) by (apply substring_length; exact C).
      assert (Hw : w <> "") by (intros E; rewrite E in Lw; cbn in Lw; lia).
      assert (Hfw : has_fields (String sep "") w [w]).
      { replace w with ("" ++ w ++ "") at 1 by (cbn; apply app_nil_s). apply fields_cons; auto; try exact I.
        - apply every_substring. exact Hns.
        - constructor. exact I. }
      exists [w]. split; [|split; [exact Hfw|discriminate]].
      destruct (Nat.eq_dec n (String.length f)) as [E|E].
      * exists 1%nat, []. split; [left; reflexivity|]. cbn. f_equal. unfold w. rewrite E. apply substring_full.
      * exists O, [w]. split; [|reflexivity]. right. exists w, f. splits; auto.
        -- intros E1. rewrite E1 in Lw. lia.
        -- apply substring_prefix.
    + set (n' := (n - String.length f - 1)%nat). replace n with (String.length f + S n')%nat by (unfold n'; lia). rewrite substring_app_long.
      cbn [substring]. destruct (IH n') as (r & (j & frag & Hfrag & Er) & H1 & _). exists (f :: r). split; [|split].
      * exists (S j), frag. split; [|cbn; congruence]. destruct Hfrag as [|(w & g & A)]; [left; assumption|right; exists w, g; exact A].
      * change (f ++ String sep (substring 0 n' (line_of sep fs))) with ("" ++ f ++ String sep (substring 0 n' (line_of sep fs))).
        apply fields_cons; auto.
        -- exact I.
        -- apply Hf.
        -- right. eexists _, _. split; [reflexivity|]. apply sep_char_one. reflexivity.
        -- apply fields_sep. exact H1.
      * discriminate.
Qed.

Lemma has_lines_cons l text ls : is_line l -> has_lines text ls -> has_lines (l ++ String newline text) (l :: ls).
Proof.
  intros Hl [HF H]. split; [constructor; auto|]. destruct H as [->|(ls' & x & -> & Hx & ->)].
  - left. reflexivity.
  - right. exists (l :: ls'), x. splits; auto. cbn. rewrite app_assoc_s. reflexivity.
Qed.

Lemma cut_text tbl : Forall (Forall (clean sep)) tbl -> forall n, exists tbl' ls,
  what_is_left tbl tbl' /\ has_lines (substring 0 n (text_of (map (line_of sep) tbl))) ls /\ Forall2 (has_fields (String sep "")) ls tbl'.
Proof.
  induction 1 as [|fs tbl Hfs HF IH]; intros n.
  - exists [], []. splits; [exists O; left; reflexivity| |constructor]. split; [constructor|]. left. destruct n; reflexivity.
  - cbn [map text_of]. destruct (Nat.le_gt_cases n (String.length (line_of sep fs))) as [C|C].
    + rewrite substring_app_short by exact C. destruct (cut_line fs Hfs n) as (r & Hr & Hfr & Hne).
      destruct (string_dec (substring 0 n (line_of sep fs)) "") as [E|E].
      * rewrite E. exists [], []. splits; [exists O; left; reflexivity| |constructor]. split; [constructor|left; reflexivity].
      * exists [r], [substring 0 n (line_of sep fs)]. splits.
        -- exists O. right. exists fs, r. splits; auto.
        -- split; [constructor; [|constructor]; apply every_substring, line_of_line; auto|]. right. exists [], (substring 0 n (line_of sep fs)). auto.
        -- constructor; [exact Hfr|constructor].
    + set (n' := (n - String.length (line_of sep fs) - 1)%nat). replace n with (String.length (line_of sep fs) + S n')%nat by (unfold n'; lia).
      rewrite substring_app_long. cbn [substring]. destruct (IH n') as (tbl' & ls & (k & Hk) & Hl & Ht).
      exists (fs :: tbl'), (line_of sep fs :: ls). splits.
      * exists (S k). destruct Hk as [->|(fs' & r & A & B & Cc & ->)]; [left; reflexivity|right; exists fs', r; splits; auto].
      * apply has_lines_cons; [apply line_of_line; auto|exact Hl].
      * constructor; [apply line_of_fields; auto|exact Ht].
Qed.

(** the text of the first k lines *)
Lemma lines_text tbl k : exists n, (forall r, nth_error tbl k = Some r -> (n < String.length (text_of (map (line_of sep) tbl)))%nat) /\
  substring 0 n (text_of (map (line_of sep) tbl)) = text_of (map (line_of sep) (firstn k tbl)).
Proof.
  revert tbl. induction k as [|k IH]; intros tbl.
  - exists O. split; [|cbn; apply substring_0]. intros r E. destruct tbl as [|fs tbl]; [discriminate|]. cbn. clear. destruct (line_of sep fs); cbn; lia.
  - destruct tbl as [|fs tbl]; [exists O; split; [intros r E; discriminate|reflexivity]|]. destruct (IH tbl) as (n & Hn & E).
    exists (String.length (line_of sep fs) + S n)%nat. split.
    + intros r Er. cbn in Er. specialize (Hn r Er). cbn [map text_of]. clear -Hn. revert Hn. generalize (text_of (map (line_of sep) tbl)). intros t Hn.
      induction (line_of sep fs); cbn; lia.
    + cbn [map text_of firstn]. rewrite substring_app_long. cbn [substring]. rewrite E. reflexivity.
Qed.
End Cut.
