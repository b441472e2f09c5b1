(** Properties C29 and C30: reading and writing data sets as text.
    Specification: LoaderSpec.v, DataSpec.v ([holds]). *)
From Coq Require Import String Ascii DecimalString.
From Flocq Require Import IEEE754.BinarySingleNaN.
From Verif Require Import Base Num NumB64 LoopFacts TSSet DataSpec Loader LoaderSpec LoaderProofs PropsData.
Local Open Scope string_scope.
Local Open Scope Z_scope.

(** C29: for every conversion [stod] of text to numbers, every file with lines [ls],
    the fields of line i being the i-th list of [tbl]: a new data set object then holds
    exactly the numbers of the wanted lines, starting after the name column; names,
    lengths and the item length are those of the table.  If a field is no number, the
    library's exception is thrown and the object holds no data.  Nothing else can
    happen; in particular no write leaves the buffer. *)
Theorem C29_load_table : forall (N : Num) (stod : string -> parsed (D N)) (fs : files) (path text seps : string)
  (maxNumRow start : Z) (has : bool) (ls : list string) (tbl : list (list string)) (w : Z),
  fs path = Some (mkFile text None) -> has_lines text ls -> Forall2 (has_fields (c_str seps)) ls tbl ->
  ls <> [] -> 0 <= start -> widest tbl w ->
  (forall r, In r (wanted maxNumRow tbl) -> start + (if has then 1 else 0) <= Z.of_nat (length r)) ->
  Z.of_nat (length (wanted maxNumRow tbl)) * w <= int_max ->
  match table stod (map (skipn (Z.to_nat (start + (if has then 1 else 0)))) (wanted maxNumRow tbl)) with
  | Ret rows => exists d, loadData stod fs ds_new path maxNumRow start seps has = (d, Ret tt) /\
      holds d rows /\ ds_maxcol d = w - start - (if has then 1 else 0) /\
      ds_names d = (if has then map (fun r => nth (Z.to_nat start) r "") (wanted maxNumRow tbl) else []) /\
      ds_lengths d = map (fun r => Z.of_nat (length r)) rows /\ ds_path d = path
  | Throw e => (exists m, e = GenexExc m) /\
      exists d, loadData stod fs ds_new path maxNumRow start seps has = (d, Throw e) /\ ds_data d = None /\ ds_count d = 0
  | _ => False
  end.
Proof.
  intros N stod fs path text seps maxNumRow start has ls tbl w Ef Hl HF Hne H0 Hw Hlen Hsz.
  pose proof (load_ok stod fs ds_new path text maxNumRow start seps has ls tbl w Ef Hl HF Hne H0 eq_refl Hw Hlen Hsz) as L.
  change (b2z has) with (if has then 1 else 0) in L.
  destruct (table_outcome stod (map (skipn (Z.to_nat (start + (if has then 1 else 0)))) (wanted maxNumRow tbl))) as [[rows E]|[E|E]];
    rewrite E in *; auto; split; auto; eexists; reflexivity.
Qed.

(** Every text has lines and every line has fields, so the theorem applies to every
    readable file. *)
Theorem C29_every_file : forall text seps : string,
  exists ls tbl, has_lines text ls /\ Forall2 (has_fields (c_str seps)) ls tbl /\
    forall ls' tbl', has_lines text ls' -> Forall2 (has_fields (c_str seps)) ls' tbl' -> ls' = ls /\ tbl' = tbl.
Proof.
  intros text seps. exists (file_lines text). pose proof (has_lines_file text) as HL.
  assert (G : forall l, exists tbl, Forall2 (has_fields (c_str seps)) l tbl).
  { induction l as [|x l [t IH]]; [exists []; constructor|]. destruct (has_fields_ex (c_str seps) x) as [ts H]. exists (ts :: t). constructor; auto. }
  destruct (G (file_lines text)) as [tbl HF]. exists tbl. splits; auto.
  intros ls' tbl' HL' HF'. rewrite <- (file_lines_ok _ _ HL') in *. split; auto.
  rewrite <- (map_tokenize _ _ _ HF), <- (map_tokenize _ _ _ HF'). reflexivity.
Qed.

(** A file that cannot be opened, or cannot be read to the end, is rejected with the
    library's exception and leaves no data. *)
Theorem C29_unreadable : forall (N : Num) (stod : string -> parsed (D N)) (fs : files) (path seps : string)
  (maxNumRow start : Z) (has : bool),
  (fs path = None ->
   exists d m, loadData stod fs ds_new path maxNumRow start seps has = (d, Throw (GenexExc m)) /\ ds_data d = None /\ ds_count d = 0) /\
  (forall text ls tbl w n, fs path = Some (mkFile text (Some n)) -> has_lines text ls -> Forall2 (has_fields (c_str seps)) ls tbl ->
   0 <= start -> widest tbl w -> (n < length (wanted maxNumRow tbl))%nat ->
   (forall r, In r (wanted maxNumRow tbl) -> start + (if has then 1 else 0) <= Z.of_nat (length r)) ->
   Z.of_nat (length (wanted maxNumRow tbl)) * w <= int_max ->
   exists d m, loadData stod fs ds_new path maxNumRow start seps has = (d, Throw (GenexExc m)) /\ ds_data d = None /\ ds_count d = 0).
Proof.
  intros N stod fs path seps maxNumRow start has. split.
  - intros E. unfold loadData. rewrite E. eexists _, _. splits; reflexivity.
  - intros text ls tbl w n Ef HL HF H0 Hw Hn Hlen Hsz. apply (load_fail stod fs ds_new path text maxNumRow start seps has ls tbl w n); auto.
Qed.

(** C30: a data set (without names or with a name for each series), names and printed
    values being clean fields: the saved file, read again with the same separator,
    yields a data set with the same names whose values are the printed and reparsed
    ones -- or the exception for the first value whose printed form is not a number
    for [stod]. *)
Theorem C30_save_reload : forall (N : Num) (stod : string -> parsed (D N)) (put : D N -> string)
  (sep : ascii) (d : dataset N) (rows : list (list (D N))) (path : string),
  holds d rows -> ds_names d = [] \/ length (ds_names d) = length rows ->
  sep <> newline -> sep <> zero ->
  Forall (clean sep) (ds_names d) -> Forall (Forall (fun v => clean sep (put v))) rows ->
  ds_count d * (ds_maxcol d + 1) <= int_max ->
  exists text, saveData put true d path sep = Ret text /\
  forall (fs : files) (path' : string), fs path' = Some (mkFile text None) ->
  let has := match ds_names d with [] => false | _ => true end in
  match table stod (map (map put) rows) with
  | Ret rows' => exists d', loadData stod fs ds_new path' 0 0 (String sep "") has = (d', Ret tt) /\
      holds d' rows' /\ ds_names d' = ds_names d /\ ds_lengths d' = map (fun r => Z.of_nat (length r)) rows'
  | Throw e => exists d', loadData stod fs ds_new path' 0 0 (String sep "") has = (d', Throw e) /\ ds_data d' = None /\ ds_count d' = 0
  | _ => False
  end.
Proof. intros N stod put sep d rows path. apply round_trip. Qed.

(** In particular the same data if [stod] reads back what is printed. *)
Theorem C30_lossless : forall (N : Num) (stod : string -> parsed (D N)) (put : D N -> string)
  (sep : ascii) (d : dataset N) (rows : list (list (D N))) (path : string),
  holds d rows -> ds_names d = [] \/ length (ds_names d) = length rows ->
  sep <> newline -> sep <> zero ->
  Forall (clean sep) (ds_names d) -> Forall (Forall (fun v => clean sep (put v) /\ stod (put v) = Parsed v)) rows ->
  ds_count d * (ds_maxcol d + 1) <= int_max ->
  exists text, saveData put true d path sep = Ret text /\
  forall (fs : files) (path' : string), fs path' = Some (mkFile text None) ->
  exists d', loadData stod fs ds_new path' 0 0 (String sep "") (match ds_names d with [] => false | _ => true end) = (d', Ret tt) /\
      holds d' rows /\ ds_names d' = ds_names d.
Proof.
  intros N stod put sep d rows path Hd Hn Hnl Hz HN HR Hsz.
  assert (HR1 : Forall (Forall (fun v => clean sep (put v))) rows).
  { revert HR. apply Forall_impl. intros r. apply Forall_impl. tauto. }
  destruct (round_trip stod put sep d rows path Hd Hn Hnl Hz HN HR1 Hsz) as (text & E1 & E2).
  exists text. split; auto. intros fs path' Ef. specialize (E2 fs path' Ef). cbv zeta in E2.
  replace (table stod (map (map put) rows)) with (@Ret (list (list (D N))) rows) in E2.
  - destruct E2 as (d' & L1 & L2 & L3 & _). exists d'. splits; auto.
  - clear -HR. induction HR as [|r rows Hr HR IH]; [reflexivity|]. simpl. rewrite <- IH.
    assert (E : numbers stod (map put r) = Ret r).
    { clear -Hr. induction Hr as [|v r [_ Hv] Hr IH]; [reflexivity|]. simpl. rewrite Hv, IH. reflexivity. }
    rewrite E. reflexivity.
Qed.

(** ** Examples *)
(** a conversion for integers *)
Definition stodZ (s : string) : parsed b64 :=
  match NilZero.int_of_string s with Some i => Parsed (b64_ofZ (Z.of_int i)) | None => InvalidArgument end.
Definition putZ (v : b64) : string :=
  match nfloor (n := B64) v with Some z => NilZero.string_of_int (Z.to_int z) | None => "nan" end.

Definition nl1 : string := String newline "".
Definition ex_text : string := "a,1,2,30" ++ nl1 ++ ",,b;,4,-5" ++ nl1 ++ "c,x,7,8,9".
Definition ex_lines : list string := ["a,1,2,30"; ",,b;,4,-5"; "c,x,7,8,9"].
Definition ex_table : list (list string) := [["a"; "1"; "2"; "30"]; ["b;"; "4"; "-5"]; ["c"; "x"; "7"; "8"; "9"]].
Definition ex_fs : files := fun p => if String.eqb p "f" then Some (mkFile ex_text None) else None.

(** what is seen of the result *)
Definition show (x : dataset B64 * res unit) :=
  (snd x, (ds_names (fst x), ds_lengths (fst x), ds_count (fst x), ds_maxcol (fst x)), option_map (map putZ) (ds_data (fst x))).

Example C29_example :
  ex_fs "f" = Some (mkFile ex_text None) /\ has_lines ex_text ex_lines /\ Forall2 (has_fields (c_str ",")) ex_lines ex_table /\
  widest ex_table 5 /\ (forall r, In r (wanted 2 ex_table) -> 0 + 1 <= Z.of_nat (length r)) /\
  (* two lines *)
  show (loadData (N := B64) stodZ ex_fs ds_new "f" 2 0 "," true) =
    (Ret tt, (["a"; "b;"], [3; 2], 2, 4), Some ["1"; "2"; "30"; "0"; "4"; "-5"; "0"; "0"; "0"; "0"]) /\
  (* all lines: the third has a field that is no number *)
  snd (loadData (N := B64) stodZ ex_fs ds_new "f" 0 0 "," true) = Throw (GenexExc "Dataset file contains unparsable text").
Proof.
  splits.
  - reflexivity.
  - change ex_lines with (file_lines ex_text). apply has_lines_file.
  - change ex_table with (map (tokenize ",") ex_lines).
    assert (G : forall l, Forall2 (has_fields (c_str ",")) l (map (tokenize ",") l)).
    { induction l as [|x l IH]; [constructor|]. simpl map. constructor; auto.
      destruct (has_fields_ex (c_str ",") x) as [ts H]. rewrite (tokenize_ok _ _ _ H). exact H. }
    apply G.
  - split; [intros r [<-|[<-|[<-|[]]]]; vm_compute; discriminate|]. exists ["c"; "x"; "7"; "8"; "9"]. split; [simpl; auto|reflexivity].
  - intros r [<-|[<-|[]]]; vm_compute; discriminate.
  - vm_compute. reflexivity.
  - vm_compute. reflexivity.
Qed.

(** The preconditions of C29 are needed.  A negative start column makes the program
    write outside the buffer or read a token that is not there; a line with too few
    fields gives a series of negative length; reading into an object that was loaded
    before keeps the old lengths. *)
Example C29_needs_start : exists (fs : files),
  match snd (loadData (N := B64) stodZ fs ds_new "f" 0 (-1) "," false) with UB _ => true | _ => false end = true.
Proof. exists (fun _ => Some (mkFile "1,2" None)). vm_compute. reflexivity. Qed.

Example C29_needs_fields : exists (fs : files),
  show (loadData (N := B64) stodZ fs ds_new "f" 0 2 "," false) = (Ret tt, ([], [-1; 1], 2, 1), Some ["0"; "3"; "0"; "0"; "0"; "0"]).
Proof. exists (fun _ => Some (mkFile ("1" ++ nl1 ++ "1,2,3") None)). vm_compute. reflexivity. Qed.

Example C29_needs_new_object : exists (fs : files),
  let x := loadData (N := B64) stodZ fs ds_new "f" 0 0 "," false in
  show x = (Ret tt, ([], [2], 1, 2), Some ["1"; "2"]) /\
  show (loadData (N := B64) stodZ fs (fst x) "g" 0 0 "," false) = (Ret tt, ([], [2; 1], 1, 1), Some ["3"]).
Proof.
  exists (fun p => Some (mkFile (if String.eqb p "f" then "1,2" else "3") None)). split; vm_compute; reflexivity.
Qed.

Definition ex_saved : dataset B64 :=
  mkDS (N := B64) (Some (map b64_ofZ [3; 1; 2; 5; -4; 0])) ["p"; "q"] [3; 2] 2 3 "f" false.
Lemma ex_saved_holds : holds ex_saved ex_rows.
Proof. exact ex_holds. Qed.

Lemma putZ_ok z t : putZ (b64_ofZ z) = t -> clean ";" t -> stodZ t = Parsed (b64_ofZ z) ->
  clean ";" (putZ (b64_ofZ z)) /\ stodZ (putZ (b64_ofZ z)) = Parsed (b64_ofZ z).
Proof. intros -> H1 H2. split; auto. Qed.

Example C30_example :
  holds ex_saved ex_rows /\ length (ds_names ex_saved) = length ex_rows /\
  Forall (clean ";") (ds_names ex_saved) /\
  Forall (Forall (fun v => clean ";" (putZ v) /\ stodZ (putZ v) = Parsed v)) ex_rows /\
  ds_count ex_saved * (ds_maxcol ex_saved + 1) <= int_max /\
  saveData (N := B64) putZ true ex_saved "g" ";" = Ret ("p;3;1;2;" ++ nl1 ++ "q;5;-4;" ++ nl1).
Proof.
  splits.
  - exact ex_saved_holds.
  - reflexivity.
  - repeat constructor; discriminate.
  - repeat (apply Forall_cons || apply Forall_nil); (eapply putZ_ok; [vm_compute; reflexivity|repeat constructor; discriminate|reflexivity]).
  - vm_compute. discriminate.
  - vm_compute. reflexivity.
Qed.

Print Assumptions C29_load_table.
Print Assumptions C29_every_file.
Print Assumptions C29_unreadable.
Print Assumptions C30_save_reload.
Print Assumptions C30_lossless.
