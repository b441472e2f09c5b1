(** Properties C40 and C46: the interactive shell.  Specification: CliSpec.v. *)
From Coq Require Import String Ascii.
From Verif Require Import Base Num NumB64 LoopFacts TimeSeries Distance TSSet StdAlg Candidate Group GroupSpace Loader Archive OldFormat
  LoaderSpec LoaderProofs Api ApiSpec ApiProofs PropsApi PropsLoader Cli CliSpec CliProofs.
Local Open Scope string_scope.
Local Open Scope Z_scope.

(** ** C40 *)

Lemma is_command {N : Num} (e : env N) threads w : assoc w (commands e threads) = None -> ~ In w (map fst arity).
Proof.
  unfold commands. cbn [assoc]. intros H Hin. cbn in Hin.
  repeat match type of H with context [String.eqb w ?b] => destruct (String.eqb_spec w b) as [?|?]; [discriminate H|] end.
  intuition congruence.
Qed.

Lemma no_command {N : Num} (e : env N) threads w : ~ In w (map fst arity) -> assoc w (commands e threads) = None.
Proof.
  intros H. unfold commands. cbn [assoc]. cbn in H.
  repeat match goal with |- context [String.eqb w ?b] => destruct (String.eqb_spec w b) as [?|?]; [exfalso; apply H; subst; tauto|] end.
  reflexivity.
Qed.

Lemma not_quits w args : ~ quits (w :: args) -> (String.eqb w "quit" || String.eqb w "exit")%bool = false.
Proof.
  intros H. destruct (String.eqb_spec w "quit") as [->|]; [exfalso; apply H; exists args; auto|].
  destruct (String.eqb_spec w "exit") as [->|]; [exfalso; apply H; exists args; auto|]. reflexivity.
Qed.

(** reading the arguments of a command raises nothing but std::logic_error *)
Definition quiet {N : Num} (r : res (action N)) : Prop :=
  match r with Ret _ => True | Throw (StdExc what) => In what ["stoi"; "stod"] | _ => False end.

Lemma num_quiet {N : Num} w (k : Z -> res (action N)) : (forall z, quiet (k z)) -> quiet (z <- num w ;; k z).
Proof. intros H. unfold num. destruct (stoi w); cbn; auto. Qed.
Lemma commands_quiet {N : Num} (e : env N) threads w cmd args : assoc w (commands e threads) = Some cmd -> quiet (cmd args).
Proof.
  unfold commands. cbn [assoc].
  repeat match goal with |- context [String.eqb w ?b] => destruct (String.eqb w b); [intros [= <-]|] end; [..|discriminate];
  unfold cmd_load, cmd_save, cmd_unload, cmd_list, cmd_timer, cmd_distance, cmd_group, cmd_saveGroups, cmd_loadGroups, cmd_normalize,
    cmd_sim, cmd_ksim, cmd_ksimBF, cmd_print, limited, num, dnum;
  repeat (first [ exact I | progress cbn [bind quiet In]
    | match goal with
      | |- _ \/ _ => auto
      | |- context [if ?b then _ else _] => destruct b
      | |- context [stoi ?x] => destruct (stoi x)
      | |- context [e_stod e ?x] => destruct (e_stod e x)
      end ]).
Qed.

(** what a line comes to: quitting, no call of the library, or one *)
Lemma step_cases {N : Num} (e : env N) threads line ws s st' r : words line ws ->
  shell_step e threads (Some line) (Prompt, s) = (st', r) ->
  (quits ws /\ st' = (Over, s) /\ r = Ret []) \/
  (~ quits ws /\ fst st' = Prompt /\ se_api (snd st') = se_api s /\ exists out, r = Ret out) \/
  (~ quits ws /\ exists c a' r0, exec e c (se_api s) = (a', r0) /\ st' = (Prompt, mkSession a' (se_timer s)) /\
     r = match r0 with
         | Ret a => match show e a with Ret _ => Ret [SAnswer a] | Throw x => Ret [SError (report x)] | UB u => UB u | Hang => Hang end
         | Throw x => Ret [SError (report x)] | UB u => UB u | Hang => Hang
         end).
Proof.
  intros Hw. cbn [shell_step]. unfold processLine. rewrite (words_tokens line ws Hw). destruct ws as [|w args]; cbv beta iota.
  - intros [= <- <-]. right; left. split; [intros (a & [E|E]); discriminate|]. cbn. eauto.
  - assert (Hq : quits (w :: args) \/ ~ quits (w :: args)).
    { destruct (string_dec w "quit") as [->|H1]; [left; exists args; auto|]. destruct (string_dec w "exit") as [->|H2]; [left; exists args; auto|].
      right. intros (a & [E|E]); congruence. }
    destruct Hq as [Hq|Hq].
    + intros H. left. split; [exact Hq|]. destruct Hq as (a & [E|E]); injection E as -> ->; injection H as <- <-; auto.
    + rewrite (not_quits w args Hq). destruct (String.prefix "//" w); [intros [= <- <-]; right; left; cbn; eauto|].
      destruct (String.eqb w "help"); [intros [= <- <-]; right; left; cbn; eauto|].
      destruct (assoc w (commands e threads)) as [cmd|] eqn:Ec; [|intros [= <- <-]; right; left; cbn; eauto].
      pose proof (commands_quiet e threads w cmd args Ec) as Hcq. destruct (cmd args) as [a|[m|m]| |]; try contradiction Hcq.
      * destruct a as [out|[b|]|c]; cbn [perform].
        -- intros [= <- <-]. right; left. cbn. eauto.
        -- intros [= <- <-]. right; left. cbn. eauto.
        -- intros [= <- <-]. right; left. cbn. eauto.
        -- destruct (exec e c (se_api s)) as [a' r0] eqn:Ex. intros H. right; right. split; [exact Hq|]. exists c, a', r0. split; [exact Ex|].
           destruct r0 as [a| | |]; cbn [bind] in H; try (injection H as <- <-; auto).
           destruct (show e a); cbn [bind] in H; injection H as <- <-; auto.
      * intros [= <- <-]. right; left. cbn. eauto.
Qed.

Definition leaves {N : Num} (e : env N) (c : call N) (s : session N) : Prop :=
  ~ ends (snd (exec e c (se_api s))) \/
  exists t, snd (exec e c (se_api s)) = Ret (ASeries t) /\ ~ ends (print_data (e_put16 e) t).

(** Whatever is typed at the prompt, no exception ends the program.  After quit or exit it
    is over, and nothing else happened; after any other line it is at the prompt again, unless
    a call of the library (or printing the series it returned) left defined behaviour or
    never returned. *)
Theorem C40_line : forall (N : Num) (e : env N) threads line ws s, words line ws ->
  exists m s' r, shell_step e threads (Some line) (Prompt, s) = ((m, s'), r) /\
  (quits ws -> m = Over /\ s' = s /\ r = Ret []) /\
  (~ quits ws -> m = Prompt) /\
  (forall x, r <> Throw x) /\
  ((exists out, r = Ret out) \/ exists c, leaves e c s).
Proof.
  intros N e threads line ws s Hw. destruct (shell_step e threads (Some line) (Prompt, s)) as [[m s'] r] eqn:E.
  exists m, s', r. split; [reflexivity|].
  destruct (step_cases e threads line ws s _ r Hw E) as [(Hq & H & ->)|[(Hq & H & _ & out & ->)|(Hq & c & a' & r0 & Ex & H & ->)]].
  - injection H as -> ->. splits; auto; [intros H; contradiction|discriminate|left; eauto].
  - cbn in H. subst m. splits; auto; [intros H; contradiction|discriminate|left; eauto].
  - injection H as -> ->. splits; auto; [intros H; contradiction| |].
    + intros x. destruct r0 as [a| | |]; try discriminate. destruct (show e a); discriminate.
    + assert (L : ~ ends r0 -> leaves e c s) by (intros H; left; rewrite Ex; exact H).
      destruct r0 as [a|x|u|]; try (right; exists c; apply L; cbn; tauto); [|left; eauto].
      destruct a; cbn [show]; eauto. destruct (print_data (e_put16 e) t) as [o|x|u|] eqn:Ep; cbn [bind]; eauto;
        right; exists c; right; exists t; rewrite Ex, Ep; cbn; auto.
Qed.
Print Assumptions C40_line.

Lemma asked_det is m : asked is m -> forall m', asked is m' -> m = m'.
Proof.
  induction 1; intros m' H'; inversion H'; subst;
    repeat match goal with
    | E : (_ ++ [_])%list = [] |- _ => apply app_eq_nil in E as [_ E]; discriminate E
    | E : [] = (_ ++ [_])%list |- _ => symmetry in E
    | E : (_ ++ [_])%list = (_ ++ [_])%list |- _ => apply app_inj_tail in E as [? ?]; subst
    end; try reflexivity; try discriminate;
    repeat match goal with
    | A : asked ?is ?m1, IH : forall m', asked ?is m' -> _ = m' |- _ => apply IH in A
    end; try discriminate; try congruence;
    repeat match goal with
    | E : Some _ = Some _ |- _ => injection E as E; subst
    end;
    try match goal with
    | W1 : words ?l ?a, W2 : words ?l ?b |- _ => apply words_tokens in W1, W2; congruence
    | H : ~ In _ _ |- _ => exfalso; apply H; cbn; tauto
    end.
Qed.

(** Whether a session is over is decided by its inputs alone, whatever the library
    returned or raised: it ends by quit or exit at the prompt, or by the end of the input
    and its confirmation, and by nothing else.  All the while the library is in a state
    reached by regular calls. *)
Theorem C40_session : forall (N : Num) (r0 : D N) is outs m s, talk r0 is outs (m, s) ->
  (forall m', asked is m' <-> m' = m) /\ length outs = length is /\ exists h, run r0 h (se_api s).
Proof.
  intros N r0 is outs m s H.
  assert (G : asked is m /\ length outs = length is /\ exists h, run r0 h (se_api s)).
  { remember (m, s) as st eqn:Est. revert m s Est. induction H as [|is outs [m0 s0] e threads i st' out H IH E]; intros m s Est.
    - injection Est as <- <-. splits; [constructor|reflexivity|]. exists []. constructor.
    - subst st'. destruct (IH m0 s0 eq_refl) as (Ha & Hl & h & Hr). rewrite !app_length, Hl. cbn [length].
      assert (G : asked (is ++ [i])%list m /\ exists h, run r0 h (se_api s)); [|tauto].
      destruct m0.
      + destruct i as [line|]; [|injection E as <- <- _; split; [constructor; auto|eauto]].
        destruct (has_fields_ex " " line) as [ws Hw].
        destruct (step_cases e threads line ws s0 _ _ Hw E) as [(Hq & H0 & _)|[(Hq & Hm & Hs & _)|(Hq & c & a' & r & Ex & H0 & Er)]].
        * injection H0 as -> ->. split; [eapply asked_quit; eauto|eauto].
        * cbn in Hm, Hs. subst m. rewrite Hs. split; [eapply asked_line; eauto|eauto].
        * injection H0 as -> ->. split; [eapply asked_line; eauto|]. cbn. exists (h ++ [(c, r)])%list.
          eapply run_call; [exact Hr|exact Ex|]. destruct r; try discriminate Er; exact I.
      + cbn [shell_step] in E. destruct i as [l|]; [|injection E as <- <- _; split; [apply asked_eof2; auto|eauto]].
        destruct (String.eqb_spec l "y") as [->|Hy]; [injection E as <- <- _; split; [apply asked_yes; auto|eauto]|].
        destruct (String.eqb_spec l "") as [->|He]; [injection E as <- <- _; split; [apply asked_enter; auto|eauto]|]. cbn [orb] in E.
        destruct (String.eqb_spec l "n") as [->|Hn]; [injection E as <- <- _; split; [apply asked_no; auto|eauto]|].
        injection E as <- <- _. split; [|eauto]. apply asked_again; auto. cbn. intuition congruence.
      + injection E as <- <- _. split; [apply asked_over; auto|eauto]. }
  destruct G as (Ha & Hl & Hr). splits; auto. intros m'. split; [intros H'; symmetry; eapply asked_det; eauto|intros ->; exact Ha].
Qed.
Print Assumptions C40_session.

(** Empty lines and comments print nothing and do nothing. *)
Theorem C40_idle : forall (N : Num) (e : env N) threads line ws s, words line ws -> idle ws ->
  shell_step e threads (Some line) (Prompt, s) = ((Prompt, s), Ret []).
Proof.
  intros N e threads line ws s Hw Hi. cbn [shell_step]. unfold processLine. rewrite (words_tokens line ws Hw).
  destruct Hi as [->|(w & args & ->)]; [reflexivity|].
  assert (E : String.prefix "//" ("//" ++ w) = true) by (cbn; destruct w; reflexivity). cbv beta iota. rewrite E. reflexivity.
Qed.
Print Assumptions C40_idle.

Lemma prefix_slashes w : String.prefix "//" w = true -> exists w', w = "//" ++ w'.
Proof.
  destruct w as [|c w]; [discriminate|]. cbn [String.prefix]. destruct (ascii_dec "/" c) as [<-|]; [|discriminate].
  destruct w as [|d w]; [discriminate|]. cbn [String.prefix]. destruct (ascii_dec "/" d) as [<-|]; [|discriminate]. exists w. reflexivity.
Qed.

(** Nor does help or a word that is no command change anything. *)
Theorem C40_no_command : forall (N : Num) (e : env N) threads line w args s, words line (w :: args) ->
  ~ quits (w :: args) -> ~ In w (map fst arity) ->
  exists out, shell_step e threads (Some line) (Prompt, s) = ((Prompt, s), Ret out) /\
    (~ idle (w :: args) -> w <> "help" -> out = [SError ("Cannot find command: " ++ w)]).
Proof.
  intros N e threads line w args s Hw Hq Hn. cbn [shell_step]. unfold processLine. rewrite (words_tokens line _ Hw). cbv beta iota.
  rewrite (not_quits w args Hq), (no_command e threads w Hn).
  destruct (String.prefix "//" w) eqn:Ep.
  - exists []. split; [reflexivity|]. intros Hi. exfalso. apply Hi. right.
    destruct (prefix_slashes w Ep) as (w' & ->). exists w', args. reflexivity.
  - destruct (String.eqb_spec w "help") as [->|Hh]; eexists; (split; [reflexivity|]); intros; congruence.
Qed.
Print Assumptions C40_no_command.

Ltac in_arity H := cbn [In arity] in H; repeat (destruct H as [H|H]; [injection H as <- <- <-|]); [..|contradiction H].

Lemma command_line {N : Num} (e : env N) threads line w lo hi args s : words line (w :: args) -> In (w, (lo, hi)) arity ->
  exists cmd, assoc w (commands e threads) = Some cmd /\
  shell_step e threads (Some line) (Prompt, s) =
    match cmd args with
    | Ret a => let '(s', r) := perform e a s in
               match ('(ok, out) <- r ;; Ret (if (ok : bool) then out else (out ++ [SHelp w])%list)) with
               | Ret out => ((Prompt, s'), Ret out)
               | Throw x => ((Prompt, s'), Ret [SError (report x)])
               | UB u => ((Prompt, s'), UB u)
               | Hang => ((Prompt, s'), Hang)
               end
    | Throw x => ((Prompt, s), Ret [SError (report x)])
    | UB u => ((Prompt, s), UB u)
    | Hang => ((Prompt, s), Hang)
    end.
Proof.
  intros Hw Ha. cbn [shell_step]. unfold processLine. rewrite (words_tokens line _ Hw). cbv beta iota.
  assert (C : String.prefix "//" w = false /\ (String.eqb w "quit" || String.eqb w "exit")%bool = false /\ String.eqb w "help" = false /\
              exists cmd, assoc w (commands e threads) = Some cmd).
  { in_arity Ha; (split; [reflexivity|]; split; [reflexivity|]; split; [reflexivity|]; eexists; reflexivity). }
  destruct C as (-> & -> & -> & cmd & E). exists cmd. split; [exact E|]. rewrite E. destruct (cmd args) as [a| | |]; try reflexivity.
  destruct (perform e a s) as [s' [[ok out]| | |]]; reflexivity.
Qed.

(** A command with too few or too many arguments does nothing but complain and show its help text. *)
Theorem C40_arguments : forall (N : Num) (e : env N) threads line w lo hi args s, words line (w :: args) ->
  In (w, (lo, hi)) arity -> (length args < lo)%nat \/ (hi < length args)%nat ->
  exists m, shell_step e threads (Some line) (Prompt, s) = ((Prompt, s), Ret [SError m; SHelp w]) /\
    In m ["Too few arguments"; "Too many arguments"].
Proof.
  intros N e threads line w lo hi args s Hw Ha Hl.
  destruct (command_line e threads line w lo hi args s Hw Ha) as (cmd & Ec & ->).
  assert (L : exists k, cmd args = limited args lo hi k).
  { in_arity Ha; injection Ec as <-; eexists; reflexivity. }
  destruct L as (k & ->). unfold limited.
  destruct (Nat.ltb_spec (length args) lo); [eexists; split; [reflexivity|cbn; auto]|].
  destruct (Nat.ltb_spec hi (length args)); [eexists; split; [reflexivity|cbn; auto]|lia].
Qed.
Print Assumptions C40_arguments.

Definition no_numeric : string := "Cannot convert some value to numeric".

Ltac read_numbers := repeat (first [ reflexivity | progress cbn [bind]
    | match goal with |- context [match stoi ?x with _ => _ end] => destruct (stoi x) end
    | match goal with |- context [if ?b then _ else _] => destruct b end ]).

Ltac split_args Hl args :=
  first [ exfalso; cbn [length] in Hl; lia | destruct args as [|? args]; [ | split_args Hl args ] ].

(** A word that is no number where the command needs one: nothing is done. *)
Theorem C40_not_a_number : forall (N : Num) (e : env N) threads line w lo hi args s i x, words line (w :: args) ->
  In (w, (lo, hi)) arity -> (lo <= length args <= hi)%nat ->
  nth_error args i = Some x -> needs_integer w (length args) i -> no_number x ->
  shell_step e threads (Some line) (Prompt, s) = ((Prompt, s), Ret [SError no_numeric]).
Proof.
  intros N e threads line w lo hi args s i x Hw Ha Hl Hi Hn Hx. apply stoi_no_number in Hx.
  destruct (command_line e threads line w lo hi args s Hw Ha) as (cmd & Ec & ->).
  assert (L : cmd args = Throw (StdExc "stoi")); [|rewrite L; reflexivity]. clear Hw line s.
  assert (A : forall lo' hi' (k : res (action N)), lo' = lo -> hi' = hi -> limited args lo' hi' k = k).
  { intros lo' hi' k -> ->. unfold limited. destruct (Nat.ltb_spec (length args) lo); [lia|]. destruct (Nat.ltb_spec hi (length args)); [lia|reflexivity]. }
  unfold needs_integer in Hn.
  in_arity Ha; injection Ec as <-;
  repeat match type of Hn with (_ /\ _) \/ _ => destruct Hn as [[Hn0 Hn]|Hn]; [try discriminate Hn0|] end;
  try (destruct Hn as [Hn0 Hn]; try discriminate Hn0); cbn [In] in Hn;
  unfold cmd_load, cmd_distance, cmd_saveGroups, cmd_sim, cmd_ksim, cmd_ksimBF, cmd_print; rewrite A by reflexivity;
  split_args Hl args; try (exfalso; cbn [length] in Hl; lia); cbn [length] in *; clear A Hl;
  cbn [given at_ nth length Nat.ltb Nat.leb Nat.eqb]; unfold num.
  all: repeat match type of Hn with
       | False => contradiction Hn
       | _ \/ _ => destruct Hn as [Hn|Hn]
       | _ /\ _ => let H := fresh in destruct Hn as [H Hn]; try discriminate H
       end; subst i; cbn [nth_error] in Hi; try discriminate Hi; injection Hi as ->; rewrite ?Hx; read_numbers.
Qed.
Print Assumptions C40_not_a_number.

(** So it is with the threshold of group. *)
Theorem C40_no_threshold : forall (N : Num) (e : env N) threads line n x args s, words line ("group" :: n :: x :: args) ->
  (length args <= 1)%nat -> (forall v, e_stod e x <> Parsed v) ->
  shell_step e threads (Some line) (Prompt, s) = ((Prompt, s), Ret [SError no_numeric]).
Proof.
  intros N e threads line n x args s Hw Hl Hx.
  destruct (command_line e threads line "group" 2 3 _ s Hw) as (cmd & Ec & ->); [cbn; tauto|]. injection Ec as <-.
  unfold cmd_group, limited. destruct args as [|? [|]]; [..|cbn in Hl; lia]; cbn [length Nat.ltb Nat.leb at_ nth]; unfold dnum;
  (destruct (e_stod e x) as [v| |]; [destruct (Hx v eq_refl)|..]); reflexivity.
Qed.
Print Assumptions C40_no_threshold.

(** The commands for which the library has no precondition: in no session do they leave
    defined behaviour. *)
Theorem C40_harmless : forall (N : Num) (r0 : D N) is outs s e threads line w args, talk r0 is outs (Prompt, s) ->
  words line (w :: args) -> In w ["unload"; "timer"; "help"; "quit"; "exit"] \/ (w = "list" /\ args <> ["dataset"]) ->
  exists st out, shell_step e threads (Some line) (Prompt, s) = (st, Ret out).
Proof.
  intros N r0 is outs s e threads line w args Ht Hw Hc.
  destruct (C40_session N r0 is outs Prompt s Ht) as (_ & _ & h & Hr). apply run_good in Hr.
  destruct (shell_step e threads (Some line) (Prompt, s)) as [st r] eqn:E. exists st.
  destruct Hc as [Hc|[-> Hc]].
  - cbn [In] in Hc. destruct Hc as [<-|[<-|[<-|[<-|[<-|[]]]]]].
    + destruct (command_line e threads line "unload" 1 1 args s Hw) as (cmd & Ec & E'); [cbn; tauto|]. rewrite E' in E. injection Ec as <-.
      unfold cmd_unload, limited in E. destruct (_ <? _)%nat; [injection E as _ <-; eauto|]. destruct (_ <? _)%nat; [injection E as _ <-; eauto|].
      cbn [perform] in E. destruct (exec e (CUnload (at_ args 0)) (se_api s)) as [a' r'] eqn:Ex.
      destruct (unload_spec e _ _ _ _ Hr Ex) as [(_ & _ & ->)|(_ & -> & _)]; cbn in E; injection E as _ <-; eauto.
    + destruct (command_line e threads line "timer" 0 1 args s Hw) as (cmd & Ec & E'); [cbn; tauto|]. rewrite E' in E. injection Ec as <-.
      unfold cmd_timer, limited in E.
      repeat match type of E with context [if ?b then _ else _] => destruct b end; cbn in E; injection E as _ <-; eauto.
    + cbn [shell_step] in E. unfold processLine in E. rewrite (words_tokens line _ Hw) in E. injection E as _ <-. eauto.
    + cbn [shell_step] in E. unfold processLine in E. rewrite (words_tokens line _ Hw) in E. injection E as _ <-. eauto.
    + cbn [shell_step] in E. unfold processLine in E. rewrite (words_tokens line _ Hw) in E. injection E as _ <-. eauto.
  - destruct (command_line e threads line "list" 1 1 args s Hw) as (cmd & Ec & E'); [cbn; tauto|]. rewrite E' in E. injection Ec as <-.
    unfold cmd_list, limited in E. destruct args as [|a [|b args]]; cbn [length Nat.ltb Nat.leb at_ nth] in E; try (injection E as _ <-; eauto; fail).
    destruct (String.eqb_spec a "dataset") as [->|]; [congruence|].
    destruct (String.eqb a "distance"); cbn in E; injection E as _ <-; eauto.
Qed.
Print Assumptions C40_harmless.

(** ** C46 *)
Lemma means_command {N : Num} (e : env N) threads ws c : means e threads ws c -> ~ distance_default ws -> ~ ksim_all ws ->
  exists w lo hi args cmd, ws = w :: args /\ In (w, (lo, hi)) arity /\ assoc w (commands e threads) = Some cmd /\ cmd args = Ret (Call c).
Proof.
  intros Hm Hd Hk. destruct Hm;
  repeat match goal with
  | H : number _ _ |- _ => apply stoi_number in H
  | H : blanks _ _ |- _ => apply replace_blanks in H
  | H : flag _ _ |- _ => let z := fresh "z" in let H1 := fresh in let H2 := fresh in apply flag_num in H as (z & H1 & H2)
  end;
  try (exfalso; apply Hd; eexists; split; [reflexivity|reflexivity]);
  try (exfalso; apply Hk; eexists; split; [reflexivity|reflexivity]);
  match goal with |- exists w lo hi args cmd, ?w0 :: ?a0 = _ /\ _ =>
    let l := eval cbv in (assoc w0 arity) in
    match l with Some (?lo, ?hi) => exists w0, lo, hi, a0 end end;
  (eexists; split; [reflexivity|]; split; [cbn; tauto|]; split; [reflexivity|]);
  unfold cmd_load, cmd_save, cmd_unload, cmd_list, cmd_timer, cmd_distance, cmd_group, cmd_saveGroups, cmd_loadGroups, cmd_normalize,
    cmd_sim, cmd_ksim, cmd_ksimBF, cmd_print, limited, num, dnum;
  cbn [length Nat.ltb Nat.leb Nat.eqb given at_ nth];
  repeat match goal with H : stoi ?w = _ |- _ => rewrite H; clear H | H : replace_s ?w = _ |- _ => rewrite H; clear H
                       | H : e_stod _ ?w = _ |- _ => rewrite H; clear H end; subst; cbn [bind replace_s]; try reflexivity.
  - match goal with |- context [if ?b then _ else _] => destruct b; [reflexivity|discriminate] end.
  - match goal with |- context [if ?b then _ else _] => destruct b; [discriminate|reflexivity] end.
Qed.

(** A command makes exactly the library call that its help text describes and prints the
    result or the exception, except in the two cases below. *)
Theorem C46_call : forall (N : Num) (e : env N) threads line ws c s a' r, words line ws -> means e threads ws c ->
  ~ distance_default ws -> ~ ksim_all ws -> exec e c (se_api s) = (a', r) ->
  exists out, shell_step e threads (Some line) (Prompt, s) = ((Prompt, mkSession a' (se_timer s)), out) /\
    (forall a, r = Ret a -> (forall t, a = ASeries t -> exists o, print_data (e_put16 e) t = Ret o) -> out = Ret [SAnswer a]) /\
    (forall m, r = Throw (GenexExc m) -> out = Ret [SError m]) /\
    (forall m, r = Throw (StdExc m) -> exists m', out = Ret [SError m']).
Proof.
  intros N e threads line ws c s a' r Hw Hm Hd Hk Ex.
  destruct (means_command e threads ws c Hm Hd Hk) as (w & lo & hi & args & cmd & -> & Ha & Ec & Er).
  destruct (command_line e threads line w lo hi args s Hw Ha) as (cmd' & Ec' & ->). assert (cmd' = cmd) by congruence. subst cmd'.
  rewrite Er. cbn [perform]. rewrite Ex. destruct r as [a|[m|m]|u|]; cbn [bind report];
    try (eexists; split; [reflexivity|]; splits; intros; try discriminate; try congruence; eauto; fail).
  destruct a; cbn [show bind];
    try (eexists; split; [reflexivity|]; splits; try discriminate; intros a0 [= <-] _; reflexivity).
  destruct (print_data (e_put16 e) t) as [o| | |] eqn:Ep; cbn [bind];
    (eexists; split; [reflexivity|]; splits; try discriminate; intros a0 [= <-] Hp; destruct (Hp t eq_refl) as (o' & Ho); try congruence; reflexivity).
Qed.
Print Assumptions C46_call.

(** C46 is false for ksim with all its arguments: the positions are not even read, the whole series is the query. *)
Theorem C46_ksim_refuted : forall (N : Num) (e : env N) threads line wk k t q w i w1 w2 wke ke s a' r,
  words line ["ksim"; wk; t; q; w; w1; w2; wke] -> number wk k -> number w i -> number wke ke ->
  exec e (CKBest k ke t q i (-1) (-1)) (se_api s) = (a', r) ->
  exists out, shell_step e threads (Some line) (Prompt, s) = ((Prompt, mkSession a' (se_timer s)), out) /\
    forall a, r = Ret a -> out = Ret [SAnswer a].
Proof.
  intros N e threads line wk k t q w i w1 w2 wke ke s a' r Hw Hk Hi Hke Ex. apply stoi_number in Hk, Hi, Hke.
  destruct (command_line e threads line _ 4 7 _ s Hw) as (cmd & Ec & ->); [cbn; tauto|]. injection Ec as <-.
  unfold cmd_ksim, limited, num. cbn [length Nat.ltb Nat.leb Nat.eqb at_ nth]. rewrite Hk, Hi, Hke. cbn [bind perform]. rewrite Ex.
  assert (A : forall a, r = Ret a -> exists l, a = ACands l).
  { intros a ->. cbn [exec] in Ex. unfold search_groups in Ex. destruct (query_series _ _ _ _ _ _) as [ts| | |]; try discriminate Ex.
    unfold on_set in Ex. destruct (find_id _ _) as [id| | |]; try discriminate Ex. destruct (deref_set _ _) as [g| | |]; try discriminate Ex.
    unfold or_same in Ex. destruct (getKBestMatches _ _ _ _ _ _) as [[g' cs]| | |]; cbn in Ex; try discriminate Ex. injection Ex as _ <-. eauto. }
  destruct r as [a|x|u|]; cbn [bind]; try (eexists; split; [reflexivity|discriminate]).
  destruct (A a eq_refl) as (l & ->). cbn. eexists. split; [reflexivity|]. intros a0 [= <-]. reflexivity.
Qed.
Print Assumptions C46_ksim_refuted.

(** It is false for distance without the name of a distance: the help text names the
    Euclidean distance as the default, the command takes euclidean_dtw. *)
Theorem C46_distance_refuted : forall (N : Num) (e : env N) threads line n w1 i w2 b w3 t n' w1' i' w2' b' w3' t' s a r,
  words line ["distance"; n; w1; w2; w3; n'; w1'; w2'; w3'] ->
  number w1 i -> number w2 b -> number w3 t -> number w1' i' -> number w2' b' -> number w3' t' ->
  exec e (CDistance n i b t n' i' b' t' "euclidean_dtw") (se_api s) = (a, r) ->
  exists out, shell_step e threads (Some line) (Prompt, s) = ((Prompt, s), out) /\ forall v, r = Ret (AValue v) -> out = Ret [SAnswer (AValue v)].
Proof.
  intros N e threads line n w1 i w2 b w3 t n' w1' i' w2' b' w3' t' s a r Hw H1 H2 H3 H4 H5 H6 Ex. apply stoi_number in H1, H2, H3, H4, H5, H6.
  destruct (command_line e threads line _ 8 9 _ s Hw) as (cmd & Ec & ->); [cbn; tauto|]. injection Ec as <-.
  unfold cmd_distance, limited, num. cbn [length Nat.ltb Nat.leb Nat.eqb given at_ nth]. rewrite H1, H2, H3, H4, H5, H6. cbn [bind perform]. rewrite Ex.
  assert (a = se_api s) as ->. { cbn [exec] in Ex. unfold pure in Ex. congruence. }
  destruct s as [sa st]. cbn [se_api se_timer].
  destruct r as [x|x|u|]; cbn [bind]; try (eexists; split; [reflexivity|discriminate]).
  destruct x; cbn; try (eexists; split; [reflexivity|discriminate]); try (eexists; split; [reflexivity|intros v [= <-]; reflexivity]).
  destruct (print_data _ _); cbn; (eexists; split; [reflexivity|discriminate]).
Qed.
Print Assumptions C46_distance_refuted.

(** Two commands are not known under the names in their help texts. *)
Theorem C46_names_refuted : forall (N : Num) (e : env N) threads line w args s, words line (w :: args) -> In w ["kSimBF"; "printTS"] ->
  shell_step e threads (Some line) (Prompt, s) = ((Prompt, s), Ret [SError ("Cannot find command: " ++ w)]).
Proof.
  intros N e threads line w args s Hw Hin.
  destruct (C40_no_command N e threads line w args s Hw) as (out & -> & Hout).
  - intros (a & [E|E]); injection E as -> _; cbn in Hin; intuition discriminate.
  - intros H. cbn in H. destruct Hin as [<-|[<-|[]]]; intuition discriminate.
  - rewrite Hout; [reflexivity| |].
    + intros [E|(w' & a & E)]; [discriminate|]. injection E as -> _. cbn in Hin. intuition discriminate.
    + intros ->. cbn in Hin. intuition discriminate.
Qed.
Print Assumptions C46_names_refuted.

(** Arguments of ksimBF that the help text does not know are dropped without a word. *)
Theorem C46_ignored_refuted : forall (N : Num) (e : env N) threads line line' wk t q w rest s,
  words line ["ksimBF"; wk; t; q; w] -> words line' ("ksimBF" :: wk :: t :: q :: w :: rest) -> In (length rest) [1; 3]%nat ->
  shell_step e threads (Some line') (Prompt, s) = shell_step e threads (Some line) (Prompt, s).
Proof.
  intros N e threads line line' wk t q w rest s Hw Hw' Hl.
  destruct (command_line e threads line _ 4 7 _ s Hw) as (cmd & Ec & ->); [cbn; tauto|]. injection Ec as <-.
  destruct (command_line e threads line' _ 4 7 _ s Hw') as (cmd & Ec & ->); [cbn; tauto|]. injection Ec as <-.
  destruct rest as [|? [|? [|? [|? rest]]]]; cbn in Hl; try (exfalso; intuition discriminate); reflexivity.
Qed.
Print Assumptions C46_ignored_refuted.

(** ** Examples *)
Lemma words_of line ws : tokenize " " line = ws -> words line ws.
Proof. intros E. destruct (has_fields_ex " " line) as [ts H]. rewrite (words_tokens line ts H) in E. subst. exact H. Qed.

Definition said_ret {A} (r : res A) : bool := match r with Ret _ => true | _ => false end.
Lemma talk_step {N : Num} r0 is outs (st : mode * session N) e threads i : talk r0 is outs st ->
  said_ret (snd (shell_step e threads i st)) = true ->
  exists out, talk r0 (is ++ [i])%list (outs ++ [out])%list (fst (shell_step e threads i st)).
Proof.
  intros H Hr. destruct (shell_step e threads i st) as [st' r] eqn:E. destruct r as [out| | |]; try discriminate Hr.
  exists out. eapply talk_input; eauto.
Qed.

(** a session of some lines, started anew *)
Definition ex_session (lines : list string) : mode * session B64 :=
  fold_left (fun st l => fst (shell_step ex_env 1 (Some l) st)) lines (session0 (N := B64) (b64_ofZ 1)).
Definition ex_said (lines : list string) (line : string) : res (list (said B64)) := snd (shell_step ex_env 1 (Some line) (ex_session lines)).
Fixpoint ex_fine (lines : list string) (st : mode * session B64) : bool :=
  match lines with
  | [] => true
  | l :: ls => let '(st', r) := shell_step ex_env 1 (Some l) st in said_ret r && ex_fine ls st'
  end.

Lemma ex_talk lines : ex_fine lines (session0 (N := B64) (b64_ofZ 1)) = true ->
  exists outs, talk (N := B64) (b64_ofZ 1) (map Some lines) outs (ex_session lines).
Proof.
  assert (G : forall lines is outs st, talk (N := B64) (b64_ofZ 1) is outs st -> ex_fine lines st = true ->
    exists outs', talk (N := B64) (b64_ofZ 1) (is ++ map Some lines)%list outs' (fold_left (fun st l => fst (shell_step ex_env 1 (Some l) st)) lines st)).
  { induction lines0 as [|l ls IH]; intros is outs st Ht Hf; cbn [map fold_left]; [rewrite app_nil_r; eauto|].
    cbn [ex_fine] in Hf. destruct (shell_step ex_env 1 (Some l) st) as [st' r] eqn:E. apply andb_true_iff in Hf as [Hr Hf].
    destruct r as [out| | |]; try discriminate Hr. change (Some l :: map Some ls) with ([Some l] ++ map Some ls)%list. rewrite app_assoc. cbn [fst].
    eapply IH; [|exact Hf]. eapply talk_input; eauto. }
  intros Hf. destruct (G lines [] [] _ (talk_start _) Hf) as (outs & H). exists outs. exact H.
Qed.

(** what is seen of a message *)
Inductive shown := Err (m : string) | Other | Values (v : SpecFloat.spec_float) | Found (l : list (Z * Z * Z)).
Definition show1 (x : said B64) : shown :=
  match x with
  | SError m => Err m
  | SAnswer (AValue v) => Values (BinarySingleNaN.B2SF (v : b64))
  | SAnswer (ACands l) => Found (map (fun c => (ts_index (c_data c), ts_start (c_data c), ts_end (c_data c))) l)
  | _ => Other
  end.
Definition shown_of (r : res (list (said B64))) : list shown + seen :=
  match r with Ret l => inl (map show1 l) | _ => inr (sight r) end.

(** C40 is false as it stands: after a group command that failed, two other commands leave
    defined behaviour. *)
Definition ex_broken := ["load x f ,"; "group x 1 nosuch"].
Theorem C40_defined_refuted : exists outs, talk (N := B64) (b64_ofZ 1) (map Some ex_broken) outs (ex_session ex_broken) /\
  shown_of (ex_said ex_broken "list dataset") = inr (Undefined Uninit) /\
  shown_of (ex_said ex_broken "sim x x 0") = inr (Undefined OutOfBounds).
Proof.
  destruct (ex_talk ex_broken) as (outs & H); [vm_compute; reflexivity|]. exists outs. split; [exact H|]. vm_compute. auto.
Qed.
Print Assumptions C40_defined_refuted.

(** A session: errors of all kinds, and it goes on. *)
Definition ex_lines :=
  ["  // a comment"; ""; "load"; "load x f"; "load x f ,"; "load x f ,"; "print x 7 0 2"; "print x zero 0 2"; "sim x x 0"; "frobnicate";
   "help load"; "unload y"; "group x 1"; "sim x x 0 0"; "sim x x 0 0 2"; "timer off"].
Example C40_example :
  (exists outs, talk (N := B64) (b64_ofZ 1) (map Some ex_lines) outs (ex_session ex_lines)) /\
  fst (ex_session ex_lines) = Prompt /\ fst (ex_session (ex_lines ++ ["quit"])) = Over /\
  shown_of (ex_said [] "load") = inl [Err "Too few arguments"; Other] /\
  shown_of (ex_said [] "load x f ,") = inl [Other] /\
  shown_of (ex_said ["load x f ,"] "load x f ,") = inl [Err "Name has already been used"] /\
  shown_of (ex_said ["load x f ,"] "print x zero 0 2") = inl [Err "Cannot convert some value to numeric"] /\
  shown_of (ex_said ["load x f ,"] "sim x x 0") = inl [Err "Dataset is not grouped"] /\
  shown_of (ex_said ["load x f ,"; "group x 1"] "sim x x 0 0") = inl [Other; Other].
Proof.
  split; [destruct (ex_talk ex_lines) as (outs & H); [vm_compute; reflexivity|exists outs; exact H]|]. vm_compute. auto 10.
Qed.

(** the hypotheses of the other theorems *)
Example C40_example_words :
  words " print   x zero 0 2 " ["print"; "x"; "zero"; "0"; "2"] /\ no_number "zero" /\ no_number "99999999999" /\
  needs_integer "print" 4 1 /\ In ("print", (4, 4)%nat) arity /\ idle ["//x"; "y"] /\ quits ["quit"; "now"].
Proof.
  assert (D : forall n c v, (n <= 9)%nat -> c = ascii_of_nat (48 + n) -> v = Z.of_nat n -> digit c v) by (intros; subst; split; [lia|rewrite Nat2Z.id; reflexivity]).
  splits.
  - apply words_of. vm_compute. reflexivity.
  - left. eexists _, _. split; [reflexivity|]. splits; [cbn; intuition discriminate| |reflexivity].
    intros v H. apply digit_value_ok in H. discriminate H.
  - right. exists 99999999999. split; [|intros [_ H]; vm_compute in H; apply H; reflexivity].
    apply int_plain. assert (D9 : digit "9" 9) by (apply (D 9%nat); auto; reflexivity).
    change "99999999999" with ((((((((((("9" ++ "9") ++ "9") ++ "9") ++ "9") ++ "9") ++ "9") ++ "9") ++ "9") ++ "9") ++ "9")).
    change 99999999999 with (10 * (10 * (10 * (10 * (10 * (10 * (10 * (10 * (10 * (10 * 9 + 9) + 9) + 9) + 9) + 9) + 9) + 9) + 9) + 9) + 9).
    repeat (apply digits_more; [|exact D9]). apply digits_one, D9.
  - unfold needs_integer. cbn. tauto.
  - cbn. tauto.
  - right. exists "x", ["y"]. reflexivity.
  - exists ["now"]. left. reflexivity.
Qed.

(** C46: the meaning of some lines *)
Lemma small n : (n <= 9)%nat -> number (String (ascii_of_nat (48 + n)) "") (Z.of_nat n).
Proof.
  intros Hn. split; [apply int_plain, digits_one; split; [lia|rewrite Nat2Z.id; reflexivity]|].
  unfold in_range, int_min, int_max. cbn. lia.
Qed.
Example C46_example_means :
  means ex_env 1 ["load"; "x"; "f"; ",\s"; "3"; "0"; "1"] (CLoad "x" "f" ", " 3 0 true) /\
  means ex_env 1 ["ksim"; "2"; "x"; "y"; "0"; "3"] (CKBest 2 3 "x" "y" 0 (-1) (-1)) /\
  means ex_env 1 ["ksim"; "2"; "x"; "y"; "0"; "1"; "3"] (CKBest 2 2 "x" "y" 0 1 3).
Proof.
  splits.
  - apply means_load6.
    + apply blanks_other; [discriminate|]. apply (blanks_blank "" ""), blanks_none.
    + exact (small 3 ltac:(lia)).
    + exact (small 0 ltac:(lia)).
    + exists 1. split; [exact (small 1 ltac:(lia))|]. split; [discriminate|reflexivity].
  - apply means_ksim5; [exact (small 2 ltac:(lia))|exact (small 0 ltac:(lia))|exact (small 3 ltac:(lia))].
  - apply means_ksim6; [exact (small 2 ltac:(lia))|exact (small 0 ltac:(lia))|exact (small 1 ltac:(lia))|exact (small 3 ltac:(lia))].
Qed.

(** the answers differ from those that the help text promises *)
Definition ex_y := ["load y g ,"; "group y 1"].
Definition promised (lines : list string) (c : call B64) : list shown + seen :=
  shown_of (a <- snd (exec ex_env c (se_api (snd (ex_session lines)))) ;; Ret [SAnswer a]).
Example C46_example :
  shown_of (ex_said ex_y "ksim 1 y y 0 1 3 1") = inl [Found [(0, 0, 4)]] /\
  promised ex_y (CKBest 1 1 "y" "y" 0 1 3) = inl [Found [(0, 1, 3)]] /\
  shown_of (ex_said ex_y "ksim 1 y y 0 1 3") = inl [Found [(0, 1, 3)]] /\
  shown_of (ex_said ex_y "distance y 0 0 3 y 0 1 4") <> promised ex_y (CDistance "y" 0 0 3 "y" 0 1 4 "euclidean") /\
  shown_of (ex_said ex_y "distance y 0 0 3 y 0 1 4") = promised ex_y (CDistance "y" 0 0 3 "y" 0 1 4 "euclidean_dtw") /\
  shown_of (ex_said ex_y "printTS y 0 0 2") = inl [Err "Cannot find command: printTS"] /\
  shown_of (ex_said ex_y "ksimBF 1 y y 0 1 3 9") = shown_of (ex_said ex_y "ksimBF 1 y y 0") /\
  (* what follows the digits of a number is ignored *)
  shown_of (ex_said ex_y "ksim 1.9 y y 0x 1 3") = inl [Found [(0, 1, 3)]].
Proof. vm_compute. splits; try reflexivity. discriminate. Qed.
