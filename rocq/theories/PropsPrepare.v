(** C84: the scripts that prepare the data sets and their records. *)
From Coq Require Import String Ascii Lia.
From Verif Require Import Base Script Prepare PrepareSpec PrepareProofs.
From Verif Require ScriptProofs.
Local Open Scope string_scope.
Local Open Scope Z_scope.
Local Open Scope list_scope.

(** ** copying *)

(** On the unpacked archive, in whatever order its folders are listed, every data set is
    copied, and nothing else is changed. *)
Theorem C84_copied : forall r train test l, unpacked r train test -> lists l r ->
  exists acts, process l r = (acts, true) /\
    (forall ds, r ds <> None -> hidden ds = false ->
       after_acts acts r (ds ++ "_QUERY")%string = Some (NFile (train ds)) /\ after_acts acts r (ds ++ "_DATA")%string = Some (NFile (test ds))) /\
    (forall n, ~ written l n -> after_acts acts r n = r n).
Proof.
  intros r train test l Hu [Hnd Hl].
  destruct (process_all train test l r Hnd) as (acts & E & P).
  { intros ds Hds Hh. destruct (r ds) as [x|] eqn:Er; [|exfalso; apply Hl in Hds; congruence]. destruct (Hu ds x Hh Er) as (inside & -> & H). exists inside. split; [reflexivity|exact H]. }
  exists acts. split; [exact E|]. split.
  - intros ds Hr Hh. apply P; [apply Hl; exact Hr|exact Hh].
  - intros n Hn. apply after_other. intros a Ha <-. exact (Hn (process_names _ _ _ _ E a Ha)).
Qed.
Print Assumptions C84_copied.

(** Whatever the folder holds, wherever the script is stopped: folders and files that are not
    copies stay as they are. *)
Theorem C84_interrupted : forall l r acts ok k n, process l r = (acts, ok) ->
  ~ written l n \/ (exists inside, r n = Some (NFolder inside)) -> after_acts (firstn k acts) r n = r n.
Proof.
  intros l r acts ok k n E Hn. apply after_other. intros a Ha.
  assert (Hin : In a acts) by (rewrite <- (firstn_skipn k acts); apply in_or_app; left; exact Ha).
  destruct Hn as [Hn|(inside & Hn)].
  - intros <-. exact (Hn (process_names _ _ _ _ E a Hin)).
  - exact (process_keeps _ _ _ _ _ _ E Hn a Hin).
Qed.
Print Assumptions C84_interrupted.

(** Once it has written anything, the script cannot be repeated without an exception: it takes
    its own copies for folders of data sets. *)
Theorem C84_again_raises : forall l r acts ok k l' acts' ok', process l r = (acts, ok) -> firstn k acts <> [] ->
  lists l' (after_acts (firstn k acts) r) -> process l' (after_acts (firstn k acts) r) = (acts', ok') -> ok' = false.
Proof.
  intros l r acts ok k l' acts' ok' E Hk [_ Hl] E'.
  destruct (firstn k acts) as [|a0 rest] eqn:Ef; [congruence|]. clear Hk.
  assert (Ha0 : In a0 acts) by (rewrite <- (firstn_skipn k acts), Ef; left; reflexivity).
  destruct (process_names _ _ _ _ E a0 Ha0) as (ds & Hds & Hh & Hw).
  assert (Hfile : forall b q, (exists t, q (act_name a0) = Some (NFile t)) -> exists t, after_acts b q (act_name a0) = Some (NFile t)).
  { clear. induction b as [|a b IH]; intros q Hq; [exact Hq|]. unfold after_acts in *. cbn [fold_left]. apply IH.
    destruct a as [m|m t]; cbn [after_act]; unfold put; destruct (String.eqb (act_name a0) m); eauto. }
  destruct (Hfile rest (after_act r a0)) as [t Ht].
  { destruct a0 as [m|m t]; cbn [act_name after_act]; rewrite put_same; eauto. }
  change (after_acts rest (after_act r a0)) with (after_acts (a0 :: rest) r) in Ht.
  apply (process_raises (act_name a0) l' (after_acts (a0 :: rest) r) acts' ok'); [apply Hl; congruence| |intros inside; congruence|exact E'].
  destruct Hw as [-> | ->]; apply hidden_target; auto.
Qed.
Print Assumptions C84_again_raises.

(** ** the records *)
Lemma halves c l : c * l * (l - 1) / 2 = c * (l * (l - 1) / 2).
Proof.
  assert (H : exists m, l * (l - 1) = m * 2).
  { destruct (Z.Even_or_Odd l) as [[j ->]|[j ->]]; [exists (j * (2 * j - 1))|exists ((2 * j + 1) * j)]; ring. }
  destruct H as [m H]. rewrite H, Z.div_mul by lia. replace (c * l * (l - 1)) with (c * m * 2) by (rewrite <- !Z.mul_assoc; f_equal; lia).
  rewrite Z.div_mul by lia. reflexivity.
Qed.

Lemma lookup_records n d : lookup n (records_of d) = match get n d with Some x => Some (mkInfo (fst x) (snd x) (fst x * snd x * (snd x - 1) / 2) None) | None => None end.
Proof. induction d as [|[m x] d IH]; cbn; [reflexivity|]. destruct (String.eqb m n); [reflexivity|exact IH]. Qed.

(** If everything can be loaded and no name of a data set ends in _out, the records are those
    of the data and of the queries of each data set, in whatever order the files are listed,
    and the next scripts see exactly the data sets, with the numbers of their subsequences. *)
Theorem C84_records : forall describe r sets l, prepared describe r sets -> lists l r ->
  (forall ds i, In (ds, i) sets -> ends_with "_out" ds = false) ->
  exists recs, extract_info describe r l = Some recs /\
    (forall ds x y, In (ds, (x, y)) sets ->
       lookup ds recs = Some (mkInfo (fst x) (snd x) (all_subsequences x) None) /\
       lookup (ds ++ "_out")%string recs = Some (mkInfo (fst y) (snd y) (all_subsequences y) None)) /\
    (forall n ds, In (n, ds) (order recs) <-> exists x y, In (ds, (x, y)) sets /\ n = all_subsequences x) /\
    NoDup (map snd (order recs)).
Proof.
  intros describe r sets l (Hnd & Hdata & Hload) [Hl1 Hl2] Hout.
  assert (Hout' : forall ds, In ds (map fst sets) -> ~ In (ds ++ "_out")%string (map fst sets)).
  { intros ds _ C. apply in_map_iff in C as ([m i] & E & Hm). cbn [fst] in E. subst m. pose proof (Hout _ _ Hm) as X. rewrite ends_with_app in X. discriminate X. }
  destruct (extract_all describe r sets Hnd Hdata Hload Hout' l [] [] []) as (d & loaded & E & (S1 & S2 & S3) & _).
  - exact Hl1.
  - intros n Hn. apply Hl2. exact Hn.
  - intros n. split; [intros []|intros [[] _]].
  - split; [constructor|]. split; [|intros ds x y []]. intros n. split; [intros []|intros (ds & [] & _)].
  - cbn [app] in S2, S3. exists (records_of d). unfold extract_info. rewrite E. split; [reflexivity|].
    assert (Hlisted : forall ds x y, In (ds, (x, y)) sets -> In (ds ++ "_DATA")%string l).
    { intros ds x y H. apply Hl2. destruct (Hload ds x y H) as ((t & R1 & _) & _). congruence. }
    assert (Keys : map fst (records_of d) = map fst d) by (unfold records_of; rewrite map_map; reflexivity).
    split; [|split].
    + intros ds x y H. destruct (S3 ds x y (Hlisted _ _ _ H) H) as [G1 G2]. rewrite !lookup_records, G1, G2, !halves. split; reflexivity.
    + intros n ds. rewrite ScriptProofs.in_order. split.
      * intros (i & Hi & <- & Ho).
        assert (Hk : In ds (map fst d)) by (rewrite <- Keys; apply in_map_iff; exists (ds, i); auto).
        apply S2 in Hk as (m & _ & Hm & [-> | ->]).
        -- apply in_map_iff in Hm as ([m' [x y]] & Em & Hm). cbn [fst] in Em. subst m'. exists x, y. split; [exact Hm|].
           destruct (S3 m x y (Hlisted _ _ _ Hm) Hm) as [G1 _].
           assert (G : In (m, x) d -> i_subseq i = all_subsequences x).
           { unfold records_of in Hi. apply in_map_iff in Hi as ([m' x'] & Ei & Hx'). cbn [fst snd] in Ei. injection Ei as -> <-. intros Hx.
             assert (x' = x) as ->; [|apply halves]. clear -S1 Hx Hx'. induction d as [|[a b] d IH]; [destruct Hx|]. cbn [map fst] in S1. inversion S1 as [|? ? Hn Hd]. subst.
             destruct Hx as [Hx|Hx], Hx' as [Hx'|Hx']; try congruence; try (apply IH; assumption); exfalso; apply Hn; apply in_map_iff.
             - injection Hx as -> ->. exists (m, x'). auto.
             - injection Hx' as -> ->. exists (m, x). auto. }
           apply G. clear -G1. induction d as [|[a b] d IH]; [discriminate G1|]. cbn [get] in G1. destruct (String.eqb_spec a m) as [->|]; [injection G1 as ->; left; reflexivity|right; auto].
        -- exfalso. change (is_out (m ++ "_out")%string) with (ends_with "_out" (m ++ "_out")%string) in Ho. rewrite ends_with_app in Ho. discriminate Ho.
      * intros (x & y & H & ->). destruct (S3 ds x y (Hlisted _ _ _ H) H) as [G1 _].
        exists (mkInfo (fst x) (snd x) (fst x * snd x * (snd x - 1) / 2) None). split; [|split; [apply halves|exact (Hout _ _ H)]].
        unfold records_of. apply in_map_iff. exists (ds, x). split; [reflexivity|].
        clear -G1. induction d as [|[a b] d IH]; [discriminate G1|]. cbn [get] in G1. destruct (String.eqb_spec a ds) as [->|]; [injection G1 as ->; left; reflexivity|right; auto].
    + apply ScriptProofs.order_nodup. rewrite Keys. exact S1.
Qed.
Print Assumptions C84_records.

(** One file that cannot be loaded, and there are no records at all. *)
Theorem C84_one_bad : forall describe r l n, lists l r -> r n <> None -> ends_with "DATA" n = true ->
  (forall t x, r n = Some (NFile t) -> describe t = Some x -> False) \/ (forall t x, r (data_name n ++ "_QUERY")%string = Some (NFile t) -> describe t = Some x -> False) ->
  extract_info describe r l = None.
Proof.
  intros describe r l n [_ Hl] Hn He Hbad. unfold extract_info. rewrite (extract_raises describe r n l [] []); auto. apply Hl. exact Hn.
Qed.
Print Assumptions C84_one_bad.

(** ** examples and counterexamples *)
Definition inside_of (n : string) : node :=
  NFolder (fun m => if String.eqb m (n ++ "_TRAIN") then Some "1,2,3"%string else if String.eqb m (n ++ "_TEST") then Some "1,4,5"%string else None).
Definition archive : folder := fun n =>
  if String.eqb n "Adiac" then Some (inside_of "Adiac") else if String.eqb n "Beef" then Some (inside_of "Beef") else if String.eqb n ".cache" then Some (NFile "") else None.

Ltac names := repeat match goal with |- context [String.eqb ?a ?b] => destruct (String.eqb_spec a b); subst end; try discriminate.

Lemma archive_lists : lists ["Beef"; ".cache"; "Adiac"] archive.
Proof.
  split; [repeat constructor; cbn; intuition discriminate|]. intros n. unfold archive. split.
  - intros [<-|[<-|[<-|[]]]]; discriminate.
  - names; cbn; intros H; auto; try congruence.
Qed.
Lemma archive_unpacked : unpacked archive (fun _ => "1,2,3") (fun _ => "1,4,5").
Proof.
  intros ds x Hh H. unfold archive in H.
  destruct (String.eqb_spec ds "Adiac") as [->|]; [|destruct (String.eqb_spec ds "Beef") as [->|]; [|destruct (String.eqb_spec ds ".cache") as [->|]; [discriminate Hh|discriminate H]]];
  injection H as <-; eexists; repeat split; reflexivity.
Qed.

Example C84_example_copied : unpacked archive (fun _ => "1,2,3") (fun _ => "1,4,5") /\ lists ["Beef"; ".cache"; "Adiac"] archive /\
  exists acts, process ["Beef"; ".cache"; "Adiac"] archive = (acts, true) /\ after_acts acts archive "Adiac_DATA" = Some (NFile "1,4,5").
Proof. split; [exact archive_unpacked|]. split; [exact archive_lists|]. eexists. split; vm_compute; reflexivity. Qed.

(** A run that was stopped after its first copy cannot be made up for by a second run: here it
    copies nothing at all. *)
Theorem C84_again_refuted : exists r l train test acts l' acts', unpacked r train test /\ lists l r /\ process l r = (acts, true) /\
  lists l' (after_acts (firstn 2 acts) r) /\ process l' (after_acts (firstn 2 acts) r) = (acts', false) /\
  exists ds, r ds <> None /\ hidden ds = false /\ after_acts acts' (after_acts (firstn 2 acts) r) (ds ++ "_DATA")%string = None.
Proof.
  exists archive, ["Beef"; ".cache"; "Adiac"], (fun _ => "1,2,3"), (fun _ => "1,4,5").
  eexists. exists ["Beef_QUERY"; "Beef"; ".cache"; "Adiac"], [].
  split; [exact archive_unpacked|]. split; [exact archive_lists|]. split; [vm_compute; reflexivity|].
  split; [|split].
  - split; [repeat constructor; cbn; intuition discriminate|]. intros n. cbn [firstn after_acts fold_left after_act]. unfold put, archive. split.
    + intros [<-|[<-|[<-|[<-|[]]]]]; discriminate.
    + names; cbn; intros H; auto; try congruence.
  - vm_compute. reflexivity.
  - exists "Adiac". split; [discriminate|]. split; reflexivity.
Qed.
Print Assumptions C84_again_refuted.

(** contents are read as number and length of the series *)
Definition tell (t : string) : option (Z * Z) := if String.eqb t "data" then Some (30, 10) else if String.eqb t "queries" then Some (5, 10) else None.
Definition ready (names : list string) : folder := fun n =>
  if existsb (fun ds => String.eqb n (ds ++ "_DATA")) names then Some (NFile "data")
  else if existsb (fun ds => String.eqb n (ds ++ "_QUERY")) names then Some (NFile "queries") else None.

Example C84_example_records : prepared tell (ready ["Adiac"; "Beef"]) [("Adiac", ((30, 10), (5, 10))); ("Beef", ((30, 10), (5, 10)))] /\
  lists ["Beef_QUERY"; "Adiac_DATA"; "Adiac_QUERY"; "Beef_DATA"] (ready ["Adiac"; "Beef"]) /\
  extract_info tell (ready ["Adiac"; "Beef"]) ["Beef_QUERY"; "Adiac_DATA"; "Adiac_QUERY"; "Beef_DATA"] =
    Some [("Adiac", mkInfo 30 10 1350 None); ("Adiac_out", mkInfo 5 10 225 None); ("Beef", mkInfo 30 10 1350 None); ("Beef_out", mkInfo 5 10 225 None)].
Proof.
  split; [|split; [|vm_compute; reflexivity]].
  - split; [repeat constructor; cbn; intuition discriminate|]. split.
    + intros n x H He. unfold ready in H. cbn [existsb append] in H. rewrite !orb_false_r in H. revert H.
      names; cbn; intros H; try discriminate H; try (vm_compute in He; discriminate He); [exists "Adiac"|exists "Beef"]; eexists; (split; [auto|reflexivity]).
    + intros ds x y [H|[H|[]]]; injection H as <- <- <-; (split; eexists; split; reflexivity).
  - split; [repeat constructor; cbn; intuition discriminate|]. intros n. unfold ready. cbn [existsb append]. rewrite !orb_false_r. split.
    + intros [<-|[<-|[<-|[<-|[]]]]]; discriminate.
    + names; cbn; intros H; auto; try congruence.
Qed.

(** A data set whose name ends in _out is lost: its numbers are overwritten by those of the
    queries of another one, and the next scripts do not see it. *)
Theorem C84_out_refuted : exists describe r sets l recs, prepared describe r sets /\ lists l r /\ extract_info describe r l = Some recs /\
  exists ds x y, In (ds, (x, y)) sets /\ lookup ds recs <> Some (mkInfo (fst x) (snd x) (all_subsequences x) None) /\
    ~ (exists n, In (n, ds) (order recs)).
Proof.
  exists tell, (ready ["Time"; "Time_out"]), [("Time", ((30, 10), (5, 10))); ("Time_out", ((30, 10), (5, 10)))],
    ["Time_out_DATA"; "Time_out_QUERY"; "Time_DATA"; "Time_QUERY"].
  eexists. split; [|split; [|split; [vm_compute; reflexivity|]]].
  - split; [repeat constructor; cbn; intuition discriminate|]. split.
    + intros n x H He. unfold ready in H. cbn [existsb append] in H. rewrite !orb_false_r in H. revert H.
      names; cbn; intros H; try discriminate H; try (vm_compute in He; discriminate He); [exists "Time"|exists "Time_out"]; eexists; (split; [auto|reflexivity]).
    + intros ds x y [H|[H|[]]]; injection H as <- <- <-; (split; eexists; split; reflexivity).
  - split; [repeat constructor; cbn; intuition discriminate|]. intros n. unfold ready. cbn [existsb append]. rewrite !orb_false_r. split.
    + intros [<-|[<-|[<-|[<-|[]]]]]; discriminate.
    + names; cbn; intros H; auto; try congruence.
  - exists "Time_out", (30, 10), (5, 10). split; [right; left; reflexivity|]. split; [discriminate|].
    intros (n & H). vm_compute in H. destruct H as [H|[]]. discriminate H.
Qed.
Print Assumptions C84_out_refuted.
