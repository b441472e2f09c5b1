(** Specification of calls that only ask, and of data sets that were not normalised since
    their groups were made. *)
From Verif Require Import Base Num TSSet GroupSpace Api ApiSpec.
Local Open Scope list_scope.

Section Spec.
Context {N : Num}.

(** calls that are meant to give information only (saving writes files, not data sets) *)
Definition asks (c : call N) : Prop :=
  match c with
  | CSave _ _ _ | CCount | CSeriesName _ _ | CSeriesLength _ _ | CInfo _ | CAllInfo | CAllDistances | CSeries _ _ _ _
  | CSaveGroups _ _ | CSaveText _ _ _ | CBest _ _ _ _ _ | CKBest _ _ _ _ _ _ _ | CBrute _ _ _ _ _ _ _ | CPAA _ _ _ _ _ _ _
  | CDistance _ _ _ _ _ _ _ _ _ | CMatching _ _ _ _ _ _ _ _ _ => True
  | _ => False
  end.

(** searches of the groups of [t] *)
Definition searches (c : call N) (t : string) : Prop :=
  match c with CBest n _ _ _ _ | CKBest _ _ n _ _ _ _ => n = t | _ => False end.

(** calls after which [t] has new groups, or is new *)
Definition makes (c : call N) (t : string) : Prop :=
  match c with CLoad n _ _ _ _ _ | CGroup n _ _ _ _ | CLoadGroups n _ | CLoadText n _ => n = t | _ => False end.

(** [t] was not normalised since it was loaded or last got groups *)
Definition settled (h : list (event (N := N))) (t : string) : Prop :=
  exists h1 c a h2, h = h1 ++ (c, Ret a) :: h2 /\ makes c t /\ forall r, ~ In (CNormalize t, r) h2.
End Spec.
