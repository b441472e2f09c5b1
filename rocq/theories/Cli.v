(** Model of the interactive shell, cli/GenexCLI.cpp.  Of what is printed, only the kind of
    each message and the results are kept; the time measurements and the line
    "Grouping using ... threads" are dropped.  [delete] of memory that readline got from
    malloc is not modelled. *)
From Coq Require Import String Ascii.
From Verif Require Import Base Num TimeSeries Distance TSSet StdAlg Candidate Group GroupSpace Loader Archive OldFormat Api.
Local Open Scope string_scope.
Local Open Scope Z_scope.

(** ** numbers *)

(** std::stoi: white space, a sign, then as many digits as there are; what follows is
    ignored.  None: std::invalid_argument or std::out_of_range *)
Definition digit_value (c : ascii) : option Z :=
  let n := Z.of_nat (nat_of_ascii c) in
  if (48 <=? n) && (n <=? 57) then Some (n - 48) else None.
Fixpoint leading_digits (s : string) : list Z :=
  match s with
  | "" => []
  | String c s' => match digit_value c with Some v => v :: leading_digits s' | None => [] end
  end.
Fixpoint skip_spaces (s : string) : string :=
  match s with String c s' => if mem_char c spaces then skip_spaces s' else s | "" => "" end.
Definition stoi (w : string) : option Z :=
  let s := skip_spaces w in
  let '(neg, s) := match s with String "-" s' => (true, s') | String "+" s' => (false, s') | _ => (false, s) end in
  match leading_digits s with
  | [] => None
  | ds => let v := fold_left (fun v d => 10 * v + d) ds 0 in
          let v := if neg then - v else v in
          if (int_min <=? v) && (v <=? int_max) then Some v else None
  end.

(** boost::replace_all(s, "\\s", " ") *)
Fixpoint replace_s (s : string) : string :=
  match s with
  | "" => ""
  | String c s' =>
      match s' with
      | String d s'' => if Ascii.eqb c "\" && Ascii.eqb d "s" then String " " (replace_s s'') else String c (replace_s s')
      | "" => String c ""
      end
  end.

(** std::logic_error and what is derived from it, among the exceptions of the model *)
Definition logic_error (what : string) : bool :=
  existsb (String.eqb what)
    ["stoi"; "stod"; "basic_string::substr"; "vector::_M_default_append"; "cannot create std::vector larger than max_size()"].

Section Cli.
Context {N : Num}.
Notation D := (D N).

(** what is printed *)
Inductive said :=
| SError (msg : string)          (* "Error! ..." *)
| SNote (msg : string)
| SAnswer (a : answer N)         (* the result of a library call *)
| STimer (on : bool)
| SHelp (command : string)       (* the help text of a command *)
| SAllHelp.

(** gGenexAPI and gTimerEnabled, cli/GenexCLI.cpp:34-35 *)
Record session := mkSession { se_api : api N; se_timer : bool }.

(** What a command does once its arguments are read: it prints something and returns false,
    shows or sets the timer, or makes a call and prints its result. *)
Inductive action :=
| Refuse (out : list said)
| Timer (set : option bool)
| Call (c : call N).

Definition num (w : string) : res Z := match stoi w with Some z => Ret z | None => Throw (StdExc "stoi") end.
Definition dnum (e : env N) (w : string) : res D :=
  match e_stod e w with Parsed v => Ret v | _ => Throw (StdExc "stod") end.

(** tooFewArgs, tooManyArgs, cli/GenexCLI.cpp:38-54; [args] are the words after the
    command: args[i+1] of the code is [at_ args i] *)
Definition limited (args : list string) (lo hi : nat) (k : res action) : res action :=
  if (length args <? lo)%nat then Ret (Refuse [SError "Too few arguments"])
  else if (hi <? length args)%nat then Ret (Refuse [SError "Too many arguments"])
  else k.
Definition at_ (args : list string) (i : nat) : string := nth i args "".
Definition given (args : list string) (i : nat) : bool := (i <? length args)%nat.

(** LoadDataset, cli/GenexCLI.cpp:74-104 *)
Definition cmd_load (args : list string) : res action := limited args 2 6 (
  let separators := if given args 2 then at_ args 2 else " " in
  maxNumRow <- (if given args 3 then num (at_ args 3) else Ret 0) ;;
  startCol <- (if given args 4 then num (at_ args 4) else Ret 0) ;;
  hasName <- (if given args 5 then num (at_ args 5) else Ret 0) ;;
  Ret (Call (CLoad (at_ args 0) (at_ args 1) (replace_s separators) maxNumRow startCol (negb (hasName =? 0))))).

(** SaveDataset, cli/GenexCLI.cpp:122-139; [separators[0]] of an empty string is NUL *)
Definition cmd_save (args : list string) : res action := limited args 2 3 (
  let separators := replace_s (if given args 2 then at_ args 2 else " ") in
  Ret (Call (CSave (at_ args 0) (at_ args 1) (match separators with String c _ => c | "" => zero end)))).

(** UnloadDataset, cli/GenexCLI.cpp:150-163 *)
Definition cmd_unload (args : list string) : res action := limited args 1 1 (Ret (Call (CUnload (at_ args 0)))).

(** List, cli/GenexCLI.cpp:172-209 *)
Definition cmd_list (args : list string) : res action := limited args 1 1 (
  if String.eqb (at_ args 0) "dataset" then Ret (Call CAllInfo)
  else if String.eqb (at_ args 0) "distance" then Ret (Call CAllDistances)
  else Ret (Refuse [SError ("Unknown object: " ++ at_ args 0)])).

(** Timer, cli/GenexCLI.cpp:216-245 *)
Definition cmd_timer (args : list string) : res action := limited args 0 1 (
  if given args 0 then
    if String.eqb (at_ args 0) "on" then Ret (Timer (Some true))
    else if String.eqb (at_ args 0) "off" then Ret (Timer (Some false))
    else Ret (Refuse [SError "Argument for timer must be 'on' or 'off'"])
  else Ret (Timer None)).

(** Distance, cli/GenexCLI.cpp:256-283 *)
Definition cmd_distance (args : list string) : res action := limited args 8 9 (
  i1 <- num (at_ args 1) ;; s1 <- num (at_ args 2) ;; e1 <- num (at_ args 3) ;;
  i2 <- num (at_ args 5) ;; s2 <- num (at_ args 6) ;; e2 <- num (at_ args 7) ;;
  let distance := if given args 8 then at_ args 8 else "euclidean_dtw" in
  Ret (Call (CDistance (at_ args 0) i1 s1 e1 (at_ args 4) i2 s2 e2 distance))).

(** GroupDataset, cli/GenexCLI.cpp:301-322.  [threads]: std::thread::hardware_concurrency(),
    which may be 0 *)
Definition cmd_group (e : env N) (threads : Z) (args : list string) : res action := limited args 2 3 (
  threshold <- dnum e (at_ args 1) ;;
  let distance := if given args 2 then at_ args 2 else "euclidean" in
  Ret (Call (CGroup (at_ args 0) threshold distance threads false))).

(** SaveGroups, cli/GenexCLI.cpp:337-356 *)
Definition cmd_saveGroups (args : list string) : res action := limited args 2 3 (
  sizeOnly <- (if given args 2 then num (at_ args 2) else Ret 0) ;;
  Ret (Call (if sizeOnly =? 0 then CSaveGroups (at_ args 0) (at_ args 1) else CSaveText (at_ args 0) (at_ args 1) true))).

(** LoadGroups, cli/GenexCLI.cpp:367-382 *)
Definition cmd_loadGroups (args : list string) : res action := limited args 2 2 (
  Ret (Call (CLoadGroups (at_ args 0) (at_ args 1)))).

(** Normalize, cli/GenexCLI.cpp:394-407 *)
Definition cmd_normalize (args : list string) : res action := limited args 1 1 (Ret (Call (CNormalize (at_ args 0)))).

(** Sim, cli/GenexCLI.cpp:415-451 *)
Definition cmd_sim (args : list string) : res action := limited args 3 5 (
  i <- num (at_ args 2) ;;
  if (length args =? 5)%nat then
    s <- num (at_ args 3) ;; e <- num (at_ args 4) ;; Ret (Call (CBest (at_ args 0) (at_ args 1) i s e))
  else if (length args =? 4)%nat then Ret (Refuse [SNote "Both starting and ending positions must be provided."])
  else Ret (Call (CBest (at_ args 0) (at_ args 1) i (-1) (-1)))).

(** KSim, cli/GenexCLI.cpp:466-513 *)
Definition cmd_ksim (args : list string) : res action := limited args 4 7 (
  k <- num (at_ args 0) ;; i <- num (at_ args 3) ;;
  '(s, e, ke) <- (if (length args =? 5)%nat then ke <- num (at_ args 4) ;; Ret (-1, -1, ke)
                  else if (length args =? 6)%nat then s <- num (at_ args 4) ;; e <- num (at_ args 5) ;; Ret (s, e, k)
                  else Ret (-1, -1, k)) ;;
  ke <- (if (6 <? length args)%nat then num (at_ args 6) else Ret ke) ;;
  Ret (Call (CKBest k ke (at_ args 1) (at_ args 2) i s e))).

(** KSimBF, cli/GenexCLI.cpp:530-568 *)
Definition cmd_ksimBF (args : list string) : res action := limited args 4 7 (
  k <- num (at_ args 0) ;; i <- num (at_ args 3) ;;
  '(s, e) <- (if (length args =? 6)%nat then s <- num (at_ args 4) ;; e <- num (at_ args 5) ;; Ret (s, e) else Ret (-1, -1)) ;;
  Ret (Call (CBrute k (at_ args 1) (at_ args 2) i s e "euclidean"))).

(** Print, cli/GenexCLI.cpp:584-599 *)
Definition cmd_print (args : list string) : res action := limited args 4 4 (
  i <- num (at_ args 1) ;; s <- num (at_ args 2) ;; e <- num (at_ args 3) ;;
  Ret (Call (CSeries (at_ args 0) i s e))).

(** the map of commands, cli/GenexCLI.cpp:673-688 *)
Definition commands (e : env N) (threads : Z) : list (string * (list string -> res action)) :=
  [("load", cmd_load); ("save", cmd_save); ("unload", cmd_unload); ("list", cmd_list); ("timer", cmd_timer);
   ("distance", cmd_distance); ("group", cmd_group e threads); ("saveGroups", cmd_saveGroups); ("loadGroups", cmd_loadGroups);
   ("normalize", cmd_normalize); ("sim", cmd_sim); ("ksim", cmd_ksim); ("ksimBF", cmd_ksimBF); ("print", cmd_print)].

(** printing a result: a time series is read from the memory of its data set
    (operator<<, genex/TimeSeries.hpp:199-202), the other results are complete *)
Definition show (e : env N) (a : answer N) : res unit :=
  match a with ASeries t => _ <- print_data (e_put16 e) t ;; Ret tt | _ => Ret tt end.

(** doCommand, after its arguments were read: what it returns and what was printed *)
Definition perform (e : env N) (a : action) (s : session) : session * res (bool * list said) :=
  match a with
  | Refuse out => (s, Ret (false, out))
  | Timer None => (s, Ret (true, [STimer (se_timer s)]))
  | Timer (Some b) => (mkSession (se_api s) b, Ret (true, [STimer b]))
  | Call c => let '(api', r) := exec e c (se_api s) in
              (mkSession api' (se_timer s), a <- r ;; _ <- show e a ;; Ret (true, [SAnswer a]))
  end.

(** showHelp, cli/GenexCLI.cpp:704-723 *)
Definition showHelp (e : env N) (threads : Z) (command : string) : list said :=
  if (String.eqb command "help" || String.eqb command "exit" || String.eqb command "quit")%bool then [SHelp command]
  else match assoc command (commands e threads) with
       | Some _ => [SHelp command]
       | None => [SError ("Cannot find help for command: " ++ command)]
       end.

(** processLine, cli/GenexCLI.cpp:742-787: whether to quit *)
Definition processLine (e : env N) (threads : Z) (line : string) (s : session) : session * res (bool * list said) :=
  match tokenize " " line with
  | [] => (s, Ret (false, []))
  | w :: args =>
      if String.prefix "//" w then (s, Ret (false, []))
      else if (String.eqb w "quit" || String.eqb w "exit")%bool then (s, Ret (true, []))
      else if String.eqb w "help" then
        (s, Ret (false, match args with
                        | [] => [SAllHelp]
                        | [c] => showHelp e threads c
                        | _ => [SError "Too many arguments for 'help'"]
                        end))
      else match assoc w (commands e threads) with
           | None => (s, Ret (false, [SError ("Cannot find command: " ++ w)]))
           | Some cmd =>
               match cmd args with
               | Ret a => let '(s', r) := perform e a s in
                          (s', '(ok, out) <- r ;; Ret (false, if (ok : bool) then out else (out ++ [SHelp w])%list))
               | Throw x => (s, Throw x) | UB u => (s, UB u) | Hang => (s, Hang)
               end
           end
  end.

(** What the program is waiting for: a command, the answer whether to quit, or nothing
    because it has ended. *)
Inductive mode := Prompt | Confirm | Over.

(** the message for an exception that leaves processLine, cli/GenexCLI.cpp:835-846 *)
Definition report (x : exn) : string :=
  match x with
  | GenexExc m => m
  | StdExc what => if logic_error what then "Cannot convert some value to numeric" else what
  end.

(** One round of main, cli/GenexCLI.cpp:816-856, or of the loop of wantToQuitByEOF, 789-804.
    [input] is what readline returns; None at the end of the input. *)
Definition shell_step (e : env N) (threads : Z) (input : option string) (st : mode * session) : (mode * session) * res (list said) :=
  let '(m, s) := st in
  match m with
  | Over => (st, Ret [])
  | Confirm =>
      match input with
      | None => ((Over, s), Ret [])
      | Some l => if (String.eqb l "y" || String.eqb l "")%bool then ((Over, s), Ret [])
                  else if String.eqb l "n" then ((Prompt, s), Ret [])
                  else ((Confirm, s), Ret [])
      end
  | Prompt =>
      match input with
      | None => ((Confirm, s), Ret [])
      | Some line =>
          let '(s', r) := processLine e threads line s in
          match r with
          | Ret (quit, out) => ((if (quit : bool) then Over else Prompt, s'), Ret out)
          | Throw x => ((Prompt, s'), Ret [SError (report x)])
          | UB u => ((Prompt, s'), UB u)
          | Hang => ((Prompt, s'), Hang)
          end
      end
  end.

(** the start of the program *)
Definition session0 (ratio : D) : mode * session := (Prompt, mkSession (api_new ratio) true).
End Cli.
Arguments said : clear implicits.
Arguments session : clear implicits.
Arguments action : clear implicits.
