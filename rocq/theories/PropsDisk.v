(** C74: saving a data set when the disk is full.  The disk is modelled in Disk.v. *)
From Coq Require Import String Ascii.
From Verif Require Import Base Num NumB64 LoopFacts TSSet Loader DataSpec LoaderSpec LoaderProofs GroupSpace Archive Api ApiSpec ApiProofs ApiQuery Disk DiskProofs PropsCut PropsApi.
From Verif Require PropsData PropsLoader.
Local Open Scope Z_scope.
Local Open Scope string_scope.

(** What is on the disk after saveDataset, in every state: the beginning of the text that it
    writes to a disk with enough room, as much as there is room for; no other file changes.
    Whether the call ends with an exception does not depend on the room. *)
Theorem C74_what_is_written : forall (N : Num) (s : api N) e name path sep room (k : disk),
  match exec e (CSave name path sep) s with
  | (s', Ret a) => exists text k', a = AText text /\ s' = s /\
      saveDataset_disk (e_put e) s name path sep (e_writable e path) room k = (k', Ret tt) /\
      k' path = Some (substring 0 room text) /\ forall p, p <> path -> k' p = k p
  | (s', Throw x) => s' = s /\ saveDataset_disk (e_put e) s name path sep (e_writable e path) room k = (k, Throw x)
  | (_, UB u) => snd (saveDataset_disk (e_put e) s name path sep (e_writable e path) room k) = UB u
  | (_, Hang) => snd (saveDataset_disk (e_put e) s name path sep (e_writable e path) room k) = Hang
  end.
Proof.
  intros N s e name path sep room k. cbn [exec]. unfold pure, saveDataset_disk. destruct (find_set s name) as [g|x|u|]; cbn [bind]; auto.
  pose proof (save_matches (e_put e) room (e_writable e path) (gt_data g) path sep k) as H.
  destruct (saveData (e_put e) (e_writable e path) (gt_data g) path sep) as [text|x|u|]; cbn [bind]; rewrite H; auto.
  exists text, (on_disk path (substring 0 room text) k). split; [reflexivity|]. split; [reflexivity|]. split; [reflexivity|]. unfold on_disk. split.
  - rewrite String.eqb_refl. reflexivity.
  - intros p Hp. destruct (String.eqb_spec p path); [contradiction|reflexivity].
Qed.
Print Assumptions C74_what_is_written.

(** With enough room the whole text is on the disk. *)
Theorem C74_enough_room : forall (N : Num) (s s' : api N) e name path sep room (k : disk) text,
  exec e (CSave name path sep) s = (s', Ret (AText text)) -> (String.length text <= room)%nat ->
  exists k', saveDataset_disk (e_put e) s name path sep (e_writable e path) room k = (k', Ret tt) /\ k' path = Some text.
Proof.
  intros N s s' e name path sep room k text E H. pose proof (C74_what_is_written N s e name path sep room k) as C. rewrite E in C.
  destruct C as (t & k' & Et & _ & H1 & H2 & _). injection Et as <-. exists k'. split; [exact H1|]. rewrite H2, substring_all by exact H. reflexivity.
Qed.
Print Assumptions C74_enough_room.

(** C74 is false: with less room the call returns in the same way, for every data set, and
    the text is not on the disk. *)
Theorem C74_noticed_refuted : forall (N : Num) (s s' : api N) e name path sep room (k : disk) text,
  exec e (CSave name path sep) s = (s', Ret (AText text)) -> (room < String.length text)%nat ->
  exists k', saveDataset_disk (e_put e) s name path sep (e_writable e path) room k = (k', Ret tt) /\ k' path <> Some text.
Proof.
  intros N s s' e name path sep room k text E H. pose proof (C74_what_is_written N s e name path sep room k) as C. rewrite E in C.
  destruct C as (t & k' & Et & _ & H1 & H2 & _). injection Et as <-. exists k'. split; [exact H1|]. rewrite H2. intros X. injection X as X.
  pose proof (substring_length_le text room) as L. rewrite X in L. lia.
Qed.
Print Assumptions C74_noticed_refuted.

(** What was in the file before is lost, even if nothing can be written. *)
Theorem C74_old_file_refuted : forall (N : Num) (s s' : api N) e name path sep (k : disk) text old,
  exec e (CSave name path sep) s = (s', Ret (AText text)) -> k path = Some old ->
  exists k', saveDataset_disk (e_put e) s name path sep (e_writable e path) 0 k = (k', Ret tt) /\ k' path = Some "".
Proof.
  intros N s s' e name path sep k text old E H. pose proof (C74_what_is_written N s e name path sep 0 k) as C. rewrite E in C.
  destruct C as (t & k' & _ & _ & H1 & H2 & _). exists k'. split; [exact H1|]. rewrite H2. destruct t; reflexivity.
Qed.
Print Assumptions C74_old_file_refuted.

(** The files of a disk, as loading sees them. *)
Definition files_of (k : disk) : files := fun p => match k p with Some text => Some (mkFile text None) | None => None end.

(** The loss is not noticed later either: for every data set and every number of its series
    there is an amount of room so that saving returns and loading the file succeeds, with
    only the first series. *)
Theorem C74_loaded_again_refuted : forall (N : Num) (r0 : D N) h (s : api N) e name path sep g rows (n : nat) (k : disk),
  run r0 h s -> held s name = Some g -> let d := gt_data g in
  holds d rows -> ds_names d = [] \/ length (ds_names d) = length rows -> e_writable e path = true ->
  sep <> newline -> sep <> zero ->
  Forall (clean sep) (ds_names d) -> Forall (Forall (fun v => clean sep (e_put e v) /\ e_stod e (e_put e v) = Parsed v)) rows ->
  ds_count d * (ds_maxcol d + 1) <= int_max -> (0 < n < length rows)%nat ->
  exists room k' d', saveDataset_disk (e_put e) s name path sep (e_writable e path) room k = (k', Ret tt) /\
    loadData (e_stod e) (files_of k') ds_new path 0 0 (String sep "") (has_names d) = (d', Ret tt) /\
    holds d' (firstn n rows) /\ ds_names d' = firstn n (ds_names d).
Proof.
  intros N r0 h s e name path sep g rows n k Hrun Hh d Hd Hn Hw H1 H2 H3 H4 H5 H6. pose proof (run_good r0 h s Hrun) as G.
  destruct (C72_noticed_refuted N (e_stod e) (e_put e) sep d rows path n Hd Hn H1 H2 H3 H4 H5 H6) as (text & room & E & _ & HL).
  destruct (held_find s name g G Hh) as (id & _ & _ & Fs).
  pose proof (save_matches (e_put e) room true d path sep k) as M. rewrite E in M.
  destruct (HL (files_of (on_disk path (substring 0 room text) k)) path) as (d' & L1 & L2 & L3).
  { unfold files_of, on_disk. rewrite String.eqb_refl. reflexivity. }
  exists room, (on_disk path (substring 0 room text) k), d'. split; [|auto].
  unfold saveDataset_disk. rewrite Fs, Hw. exact M.
Qed.
Print Assumptions C74_loaded_again_refuted.

(** ** a case that meets the hypotheses: three series of two numbers *)
Definition shows (r : disk * res unit) (path : string) : option string * bool := (fst r path, is_ret (snd r)).
Example C74_example :
  (exists d, held ex_s1 "x" = Some (mkGS d None) /\ holds (N := B64) d ex_rows /\ ds_names d = []) /\
  map (fun room => shows (saveDataset_disk (e_put ex_env) ex_s1 "x" "out" "," true room (fun _ => Some "old")) "out") [0; 3; 6; 100]%nat =
    [(Some "", true); (Some "1,2", true); (Some ("1,2," ++ PropsLoader.nl1 ++ "3"), true);
     (Some ("1,2," ++ PropsLoader.nl1 ++ "3,4," ++ PropsLoader.nl1 ++ "5,6," ++ PropsLoader.nl1), true)].
Proof.
  split; [|vm_compute; reflexivity]. destruct ex_held as (d & Hh & Hd & _). exists d. split; [exact Hh|]. split; [exact Hd|].
  assert (E : option_map (fun g => ds_names (gt_data g)) (held ex_s1 "x") = Some []) by (vm_compute; reflexivity).
  rewrite Hh in E. cbn in E. injection E as E. exact E.
Qed.
