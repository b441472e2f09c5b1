(** Specification of the interface: histories of calls and which names are in use. *)
From Coq Require Import Sorted.
From Verif Require Import Base Num TimeSeries TSSet GroupSpace PAA Api.
Local Open Scope Z_scope.
Local Open Scope list_scope.

Section Spec.
Context {N : Num}.

(** the call ends regularly or with an exception *)
Definition ends {A} (r : res A) : Prop := match r with Ret _ | Throw _ => True | _ => False end.

(** [run r0 h s]: the calls of [h], each with its outcome, in this order, lead a new
    program with band ratio [r0] to [s].  The surroundings may be others for each call. *)
Definition event : Type := call N * res (answer N).
Inductive run (r0 : D N) : list event -> api N -> Prop :=
| run_start : run r0 [] (api_new r0)
| run_call h s e c s' r : run r0 h s -> exec e c s = (s', r) -> ends r -> run r0 (h ++ [(c, r)]) s'.

(** what a call and its outcome mean for the name [n]: it is in use from a successful load
    until it is unloaded *)
Definition in_use_after (n : string) (before : bool) (ev : event) : bool :=
  match ev with
  | (CLoad m _ _ _ _ _, Ret _) => if String.eqb m n then true else before
  | (CUnload m, Ret _) => if String.eqb m n then false else before
  | (CUnloadAll, Ret _) => false
  | _ => before
  end.
Definition in_use (h : list event) (n : string) : bool := fold_left (in_use_after n) h false.

(** the data set called [n] *)
Definition held (s : api N) (n : string) : option (gset N) :=
  match find_set s n with Ret g => Some g | _ => None end.

(** the names of data sets that a call needs *)
Definition needs (c : call N) : list string :=
  match c with
  | CSave n _ _ | CUnload n | CSeriesName n _ | CSeriesLength n _ | CInfo n | CSeries n _ _ _ | CNormalize n
  | CGroup n _ _ _ _ | CSaveGroups n _ | CLoadGroups n _ | CSaveText n _ _ | CLoadText n _ | CPrepare n _ => [n]
  | CBest t q _ _ _ | CKBest _ _ t q _ _ _ | CBrute _ t q _ _ _ _ | CPAA _ t q _ _ _ _ => [t; q]
  | CDistance n _ _ _ m _ _ _ _ | CMatching n _ _ _ m _ _ _ _ => [n; m]
  | _ => []
  end.

(** the data set a call works on may change; with that of no other name *)
Definition concerns (c : call N) (n : string) : Prop :=
  match c with
  | CLoad m _ _ _ _ _ | CUnload m | CNormalize m | CGroup m _ _ _ _ | CLoadGroups m _ | CLoadText m _ => m = n
  | CBest t _ _ _ _ | CKBest _ _ t _ _ _ _ => t = n
  | CUnloadAll => True
  | _ => False
  end.

(** in ascending order, without repetitions *)
Definition ascending_names (l : list string) : Prop := StronglySorted (fun a b => String.compare a b = Lt) l.
End Spec.

(** ** the time after a data set was grouped *)
Section Later.
Context {N : Num}.

(** calls that leave the groups of the data set [t] as they are: all but those that
    normalise it, group it, load groups for it or unload it *)
Definition spares (c : call N) (t : string) : Prop :=
  match c with
  | CUnload m | CNormalize m | CGroup m _ _ _ _ | CLoadGroups m _ | CLoadText m _ => m <> t
  | CUnloadAll => False
  | _ => True
  end.

(** [s'] comes after [s], by any calls that spare [t] *)
Inductive later (H : StdAlg.std_alg) (t : string) (s : api N) : api N -> Prop :=
| later_now : later H t s s
| later_call s1 e c s2 r : later H t s s1 -> e_alg e = H -> spares c t -> exec e c s1 = (s2, r) -> ends r ->
    later H t s s2.
End Later.

(** ** the life of a PAA preparation *)
Section Paa.
Context {N : Num}.
(** in this history [n] was prepared and later unloaded by [c] *)
Definition prepared_then_unloaded (h : list (@event N)) (n : string) (c : call N) : Prop :=
  exists h1 b a h2 a' h3, h = h1 ++ (CPrepare n b, Ret a) :: h2 ++ (c, Ret a') :: h3.
End Paa.

(** ** concrete histories *)
Definition is_ret {A} (r : res A) : bool := match r with Ret _ => true | _ => false end.
Lemma run_ret {N : Num} r0 h (s : api N) e c : run r0 h s -> is_ret (snd (exec e c s)) = true ->
  exists a, run r0 (h ++ [(c, Ret a)]) (fst (exec e c s)).
Proof.
  intros Hrun Hr. destruct (exec e c s) as [s' r] eqn:E. destruct r as [a| | |]; try discriminate Hr. exists a.
  eapply run_call; [exact Hrun|exact E|exact I].
Qed.
