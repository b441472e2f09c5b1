(** What reaches a disk of limited room is the beginning of the text. *)
From Coq Require Import String Ascii.
From Verif Require Import Base Num LoopFacts TSSet Loader GroupSpace Api Disk.
Local Open Scope Z_scope.
Local Open Scope string_scope.

Lemma substring_all s : forall n, (String.length s <= n)%nat -> substring 0 n s = s.
Proof. induction s as [|c s IH]; intros [|n] H; cbn in *; try reflexivity; try lia. rewrite IH by lia. reflexivity. Qed.
Lemma substring_app_l s t : forall n, (n <= String.length s)%nat -> substring 0 n (s ++ t) = substring 0 n s.
Proof.
  induction s as [|c s IH]; intros [|n] H; cbn in *; try reflexivity; try lia; [destruct t; reflexivity|]. rewrite IH by lia. reflexivity.
Qed.
Lemma substring_app_r s t : forall n, (String.length s <= n)%nat -> substring 0 n (s ++ t) = s ++ substring 0 (n - String.length s) t.
Proof.
  induction s as [|c s IH]; intros [|n] H; cbn in *; try reflexivity; try lia. rewrite IH by lia. reflexivity.
Qed.
Lemma substring_length_le s : forall n, (String.length (substring 0 n s) <= n)%nat.
Proof. induction s as [|c s IH]; intros [|n]; cbn; try lia. specialize (IH n). lia. Qed.
Lemma string_length_app s t : String.length (s ++ t) = (String.length s + String.length t)%nat.
Proof. induction s as [|c s IH]; cbn; [reflexivity|]. rewrite IH. reflexivity. Qed.

(** the stream after writing [t] to a disk with [room] *)
Definition wrote (room : nat) (t : string) (s : stream) : Prop :=
  st_text s = substring 0 room t /\ st_good s = (String.length t <=? room)%nat /\
  (st_good s = true -> st_room s = (room - String.length t)%nat).

Lemma emit_wrote room t w s : wrote room t s -> wrote room (t ++ w) (emit w s).
Proof.
  intros (H1 & H2 & H3). unfold emit, wrote. rewrite string_length_app. destruct (st_good s) eqn:G.
  - symmetry in H2. apply Nat.leb_le in H2. specialize (H3 eq_refl). rewrite substring_all in H1 by exact H2.
    destruct (Nat.leb_spec (String.length w) (st_room s)) as [C|C]; cbn [st_text st_room st_good].
    + split; [rewrite substring_all, H1 by (rewrite string_length_app; lia); reflexivity|]. split; [symmetry; apply Nat.leb_le; lia|]. intros _. lia.
    + split; [rewrite substring_app_r, H1, H3 by exact H2; reflexivity|]. split; [symmetry; apply Nat.leb_gt; lia|discriminate].
  - symmetry in H2. apply Nat.leb_gt in H2. rewrite G. split; [rewrite H1, substring_app_l by lia; reflexivity|]. split; [symmetry; apply Nat.leb_gt; lia|discriminate].
Qed.

(** equal outcomes, up to a relation between the results *)
Definition matches {A B} (R : A -> B -> Prop) (x : res A) (y : res B) : Prop :=
  match x, y with
  | Ret a, Ret b => R a b | Throw e, Throw f => e = f | UB u, UB v => u = v | Hang, Hang => True | _, _ => False
  end.

Lemma matches_bind {A B A' B'} (R : A -> B -> Prop) (R' : A' -> B' -> Prop) x y f g :
  matches R x y -> (forall a b, R a b -> matches R' (f a) (g b)) -> matches R' (bind x f) (bind y g).
Proof. destruct x, y; cbn; intros H; try contradiction; auto. Qed.

Lemma matches_bind_same {A A' B'} (R' : A' -> B' -> Prop) (x : res A) f g :
  (forall a, matches R' (f a) (g a)) -> matches R' (bind x f) (bind x g).
Proof. destruct x; cbn; auto. Qed.

Lemma matches_for {A B} (R : A -> B -> Prop) (f : Z -> A -> res A) (g : Z -> B -> res B) lo hi a b : R a b ->
  (forall i a b, R a b -> matches R (f i a) (g i b)) -> matches R (for_ lo hi f a) (for_ lo hi g b).
Proof.
  intros H0 Hs. unfold for_. generalize (Z.to_nat (hi - lo)) as n. intros n. revert lo a b H0.
  induction n as [|n IH]; intros lo a b H0; cbn [for_n]; [exact H0|]. apply (matches_bind R R); [apply Hs; exact H0|]. intros. apply IH. assumption.
Qed.

Lemma emit_assoc t a b : (t ++ a) ++ b = t ++ a ++ b.
Proof. induction t as [|c t IH]; cbn; [reflexivity|]. rewrite IH. reflexivity. Qed.

Section Rows.
Context {N : Num} (put : D N -> string).

Lemma row_matches room d sep i t s : wrote room t s ->
  matches (wrote room) (save_row put d sep i t) (save_row_disk put d sep i s).
Proof.
  intros H. unfold save_row, save_row_disk. apply (matches_bind (wrote room)).
  - destruct (ds_names d) as [|a l]; [exact H|]. apply matches_bind_same. intros name. cbn.
    rewrite <- (emit_assoc t name). apply emit_wrote, emit_wrote. exact H.
  - clear t s H. intros t s H. apply matches_bind_same. intros len. apply (matches_bind (wrote room)).
    + apply matches_for; [exact H|]. clear t s H. intros j t s H.
      repeat (apply matches_bind_same; intros ?). cbn. rewrite <- emit_assoc. apply emit_wrote, emit_wrote. exact H.
    + clear t s H. intros t s H. cbn. apply emit_wrote. exact H.
Qed.

Lemma save_matches room can_open d path sep k :
  match saveData put can_open d path sep with
  | Ret text => saveData_disk put can_open d path sep room k = (on_disk path (substring 0 room text) k, Ret tt)
  | Throw x => saveData_disk put can_open d path sep room k = (k, Throw x)
  | UB u => saveData_disk put can_open d path sep room k = (k, UB u)
  | Hang => saveData_disk put can_open d path sep room k = (k, Hang)
  end.
Proof.
  unfold saveData, saveData_disk. destruct can_open; [|reflexivity].
  assert (H0 : wrote room "" (mkStream "" room true)) by (split; [destruct room; reflexivity|split; [reflexivity|cbn; lia]]).
  pose proof (matches_for (wrote room) (save_row put d sep) (save_row_disk put d sep) 0 (ds_count d) _ _ H0 (fun i t s => row_matches room d sep i t s)) as H.
  destruct (for_ 0 (ds_count d) (save_row put d sep) ""), (for_ 0 (ds_count d) (save_row_disk put d sep) (mkStream "" room true)); cbn in H; try contradiction; subst; try reflexivity.
  destruct H as (-> & _). reflexivity.
Qed.
End Rows.
