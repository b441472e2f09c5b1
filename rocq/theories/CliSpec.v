(** Specification of the interactive shell: what a line says, what the help texts promise,
    and when a session is over. *)
From Coq Require Import String Ascii.
From Verif Require Import Base Num Loader LoaderSpec OldFormat Api Cli.
Local Open Scope string_scope.
Local Open Scope Z_scope.

(** the words of a line, separated by blanks *)
Definition words (line : string) (ws : list string) : Prop := has_fields " " line ws.

(** lines that end the session *)
Definition quits (ws : list string) : Prop := exists args, ws = "quit" :: args \/ ws = "exit" :: args.
(** empty lines and comments *)
Definition idle (ws : list string) : Prop := ws = [] \/ exists w args, ws = ("//" ++ w) :: args.

(** how many arguments a command takes, according to its help text (for ksimBF see
    [C46_ignored_refuted]) *)
Definition arity : list (string * (nat * nat)) :=
  [("load", (2, 6)); ("save", (2, 3)); ("unload", (1, 1)); ("list", (1, 1)); ("timer", (0, 1)); ("distance", (8, 9));
   ("group", (2, 3)); ("saveGroups", (2, 3)); ("loadGroups", (2, 2)); ("normalize", (1, 1)); ("sim", (3, 5));
   ("ksim", (4, 7)); ("ksimBF", (4, 7)); ("print", (4, 4))]%nat.

(** ** integers *)
Definition digit (c : ascii) (v : Z) : Prop := 0 <= v <= 9 /\ c = ascii_of_nat (48 + Z.to_nat v).
Inductive digits : string -> Z -> Prop :=
| digits_one c v : digit c v -> digits (String c "") v
| digits_more s v c d : digits s v -> digit c d -> digits (s ++ String c "") (10 * v + d).
Inductive integer : string -> Z -> Prop :=
| int_plain s v : digits s v -> integer s v
| int_plus s v : digits s v -> integer ("+" ++ s) v
| int_minus s v : digits s v -> integer ("-" ++ s) (- v).
Definition in_range (z : Z) : Prop := int_min <= z <= int_max.
(** [w] is written as the number [z] of type int *)
Definition number (w : string) (z : Z) : Prop := integer w z /\ in_range z.
(** [w] is no such number and does not begin like one, or is too large *)
Definition no_number (w : string) : Prop :=
  (exists c w', w = String c w' /\ ~ In c ["+"; "-"]%char /\ (forall v, ~ digit c v) /\ mem_char c spaces = false) \/
  (exists z, integer w z /\ ~ in_range z).
Definition flag (w : string) (b : bool) : Prop := exists z, number w z /\ (b = true <-> z <> 0).

(** with [n] arguments, this command needs an integer as argument [i] (counted from 0) *)
Definition needs_integer (command : string) (n i : nat) : Prop :=
  ((command = "load" /\ In i [3; 4; 5]) \/ (command = "distance" /\ In i [1; 2; 3; 5; 6; 7]) \/
  (command = "saveGroups" /\ i = 2) \/ (command = "sim" /\ (i = 2 \/ n = 5 /\ In i [3; 4])) \/
  (command = "ksim" /\ (In i [0; 3; 6] \/ n = 5 /\ i = 4 \/ n = 6 /\ In i [4; 5])) \/
  (command = "ksimBF" /\ (In i [0; 3] \/ n = 6 /\ In i [4; 5])) \/
  (command = "print" /\ In i [1; 2; 3]))%nat.

(** the two characters backslash and s stand for a blank *)
Inductive blanks : string -> string -> Prop :=
| blanks_none : blanks "" ""
| blanks_blank s t : blanks s t -> blanks ("\s" ++ s) (" " ++ t)
| blanks_other c s t : (forall s', String c s <> "\s" ++ s') -> blanks s t -> blanks (String c s) (String c t).

Section Means.
Context {N : Num}.
Variable e : env N.
Variable threads : Z.
Notation call := (call N).

(** [means ws c]: by the help text, the command [ws] makes the call [c] *)
Inductive means : list string -> call -> Prop :=
| means_load2 n p : means ["load"; n; p] (CLoad n p " " 0 0 false)
| means_load3 n p w seps : blanks w seps -> means ["load"; n; p; w] (CLoad n p seps 0 0 false)
| means_load4 n p w seps w3 m : blanks w seps -> number w3 m -> means ["load"; n; p; w; w3] (CLoad n p seps m 0 false)
| means_load5 n p w seps w3 m w4 c : blanks w seps -> number w3 m -> number w4 c ->
    means ["load"; n; p; w; w3; w4] (CLoad n p seps m c false)
| means_load6 n p w seps w3 m w4 c w5 b : blanks w seps -> number w3 m -> number w4 c -> flag w5 b ->
    means ["load"; n; p; w; w3; w4; w5] (CLoad n p seps m c b)
| means_save2 n p : means ["save"; n; p] (CSave n p " ")
| means_save3 n p w c : blanks w (String c "") -> means ["save"; n; p; w] (CSave n p c)
| means_unload n : means ["unload"; n] (CUnload n)
| means_list_dataset : means ["list"; "dataset"] CAllInfo
| means_list_distance : means ["list"; "distance"] CAllDistances
| means_distance8 n w1 i w2 s w3 t n' w1' i' w2' s' w3' t' : number w1 i -> number w2 s -> number w3 t ->
    number w1' i' -> number w2' s' -> number w3' t' ->
    means ["distance"; n; w1; w2; w3; n'; w1'; w2'; w3'] (CDistance n i s t n' i' s' t' "euclidean")
| means_distance9 n w1 i w2 s w3 t n' w1' i' w2' s' w3' t' d : number w1 i -> number w2 s -> number w3 t ->
    number w1' i' -> number w2' s' -> number w3' t' ->
    means ["distance"; n; w1; w2; w3; n'; w1'; w2'; w3'; d] (CDistance n i s t n' i' s' t' d)
| means_group2 n w v : e_stod e w = Parsed v -> means ["group"; n; w] (CGroup n v "euclidean" threads false)
| means_group3 n w v d : e_stod e w = Parsed v -> means ["group"; n; w; d] (CGroup n v d threads false)
| means_saveGroups2 n p : means ["saveGroups"; n; p] (CSaveGroups n p)
| means_saveGroups3 n p w : flag w false -> means ["saveGroups"; n; p; w] (CSaveGroups n p)
| means_saveSizes n p w : flag w true -> means ["saveGroups"; n; p; w] (CSaveText n p true)
| means_loadGroups n p : means ["loadGroups"; n; p] (CLoadGroups n p)
| means_normalize n : means ["normalize"; n] (CNormalize n)
| means_sim3 t q w i : number w i -> means ["sim"; t; q; w] (CBest t q i (-1) (-1))
| means_sim5 t q w i w1 s w2 u : number w i -> number w1 s -> number w2 u -> means ["sim"; t; q; w; w1; w2] (CBest t q i s u)
| means_ksim4 wk k t q w i : number wk k -> number w i -> means ["ksim"; wk; t; q; w] (CKBest k k t q i (-1) (-1))
| means_ksim5 wk k t q w i wke ke : number wk k -> number w i -> number wke ke ->
    means ["ksim"; wk; t; q; w; wke] (CKBest k ke t q i (-1) (-1))
| means_ksim6 wk k t q w i w1 s w2 u : number wk k -> number w i -> number w1 s -> number w2 u ->
    means ["ksim"; wk; t; q; w; w1; w2] (CKBest k k t q i s u)
| means_ksim7 wk k t q w i w1 s w2 u wke ke : number wk k -> number w i -> number w1 s -> number w2 u -> number wke ke ->
    means ["ksim"; wk; t; q; w; w1; w2; wke] (CKBest k ke t q i s u)
| means_ksimBF4 wk k t q w i : number wk k -> number w i -> means ["ksimBF"; wk; t; q; w] (CBrute k t q i (-1) (-1) "euclidean")
| means_ksimBF6 wk k t q w i w1 s w2 u : number wk k -> number w i -> number w1 s -> number w2 u ->
    means ["ksimBF"; wk; t; q; w; w1; w2] (CBrute k t q i s u "euclidean")
| means_print n w1 i w2 s w3 u : number w1 i -> number w2 s -> number w3 u -> means ["print"; n; w1; w2; w3] (CSeries n i s u).

(** the two usages that the program does not follow *)
Definition distance_default (ws : list string) : Prop := exists args, ws = "distance" :: args /\ length args = 8%nat.
Definition ksim_all (ws : list string) : Prop := exists args, ws = "ksim" :: args /\ length args = 7%nat.
End Means.

(** ** sessions *)
Section Sessions.
Context {N : Num}.

(** [talk r0 inputs outs st]: a session with these inputs (None: end of the input) prints
    [outs], one list for each input, and leads to [st].  The surroundings may be others each time. *)
Inductive talk (r0 : D N) : list (option string) -> list (list (said N)) -> mode * session N -> Prop :=
| talk_start : talk r0 [] [] (session0 r0)
| talk_input is outs st e threads i st' out : talk r0 is outs st -> shell_step e threads i st = (st', Ret out) ->
    talk r0 (is ++ [i])%list (outs ++ [out])%list st'.
End Sessions.

(** What the user has been asked after these inputs, the last one given: it depends on
    nothing but the inputs. *)
Inductive asked : list (option string) -> mode -> Prop :=
| asked_first : asked [] Prompt
| asked_line is line ws : asked is Prompt -> words line ws -> ~ quits ws -> asked (is ++ [Some line])%list Prompt
| asked_quit is line ws : asked is Prompt -> words line ws -> quits ws -> asked (is ++ [Some line])%list Over
| asked_eof is : asked is Prompt -> asked (is ++ [None])%list Confirm
| asked_eof2 is : asked is Confirm -> asked (is ++ [None])%list Over
| asked_yes is : asked is Confirm -> asked (is ++ [Some "y"])%list Over
| asked_enter is : asked is Confirm -> asked (is ++ [Some ""])%list Over
| asked_no is : asked is Confirm -> asked (is ++ [Some "n"])%list Prompt
| asked_again is l : asked is Confirm -> ~ In l ["y"; ""; "n"] -> asked (is ++ [Some l])%list Confirm
| asked_over is i : asked is Over -> asked (is ++ [i])%list Over.
