(** Specification of the replies to sequences of calls, and of which calls belong to
    which data sets. *)
From Verif Require Import Base Num TSSet GroupSpace PAA Api ApiSpec.
Local Open Scope Z_scope.
Local Open Scope list_scope.

Section Spec.
Context {N : Num}.

(** the replies to the calls [cs], each with its surroundings, from [s] on; nothing
    follows a call that does not end or is undefined *)
Fixpoint play (cs : list (env N * call N)) (s : api N) : list (res (answer N)) :=
  match cs with
  | [] => []
  | (e, c) :: cs' =>
      let '(s', r) := exec e c s in
      r :: match r with Ret _ | Throw _ => play cs' s' | _ => [] end
  end.

(** calls that give a data set groups or prepare it *)
Definition builds (c : call N) : Prop :=
  match c with CGroup _ _ _ _ _ | CLoadGroups _ _ | CLoadText _ _ | CPrepare _ _ => True | _ => False end.

(** calls about the data sets with names in [V] alone, about none, or about all
    (except counting and listing) *)
Definition own (V : string -> bool) (c : call N) : bool :=
  match c with
  | CCount | CAllInfo => false
  | CLoad n _ _ _ _ _ => V n
  | _ => forallb V (needs c)
  end.

(** calls that are not meant to change any data set with a name in [V] *)
Definition foreign (V : string -> bool) (c : call N) : Prop :=
  match c with
  | CRatio _ | CUnloadAll => False
  | CLoad n _ _ _ _ _ | CUnload n | CNormalize n | CGroup n _ _ _ _ | CLoadGroups n _ | CLoadText n _ | CPrepare n _
  | CBest n _ _ _ _ | CKBest _ _ n _ _ _ _ => V n = false
  | _ => True
  end.

(** the replies to the calls of [cs] that belong to [V], among the replies [rs] to all of [cs] *)
Definition replies_to_own (V : string -> bool) (cs : list (env N * call N)) (rs : list (res (answer N))) : list (res (answer N)) :=
  map snd (filter (fun p => own V (snd (fst p))) (combine cs rs)).
End Spec.
