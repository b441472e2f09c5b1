(** Specification of normalising a data set that has groups. *)
From Verif Require Import Base Num NumB64 NumLaws TimeSeries Distance DistSpec TSSet StdAlg Candidate Group GroupSpace DataSpec GroupSpec GroupView SearchSpec PropsGroup Api ApiSpec.
Local Open Scope Z_scope.
Local Open Scope list_scope.

(** [s'] comes after [s], by any calls that do not work on the data set [t] *)
Inductive undisturbed {N : Num} (t : string) (s : api N) : api N -> Prop :=
| und_now : undisturbed t s s
| und_call s1 e c s2 r : undisturbed t s s1 -> ~ concerns c t -> exec e c s1 = (s2, r) -> ends r -> undisturbed t s s2.

(** the values [rows'] arise from [rows] by normalising: the smallest value becomes 0, the
    largest 1, the others keep their order in between; equal values all become 0 *)
Definition normal_form (rows rows' : list (list (D B64))) : Prop :=
  exists f mn mx, rows' = map (map f) rows /\ In mn (concat rows) /\ In mx (concat rows) /\
    (forall v, In v (concat rows) -> @nle B64 mn v /\ @nle B64 v mx) /\
    (forall v, In v (concat rows) -> @nle B64 n0 (f v) /\ @nle B64 (f v) (nofZ (n := B64) 1)) /\
    (forall u v, In u (concat rows) -> In v (concat rows) -> @nle B64 u v -> @nle B64 (f u) (f v)) /\
    @neqv B64 (f mn) n0 /\ (@nlt B64 mn mx -> @neqv B64 (f mx) (nofZ (n := B64) 1)).

(** In [s] the data set [t], which once held [rows], is grouped and normalised: it was
    grouped with the distance [k], no call worked on it until it was normalised, and since
    then it was not normalised again, grouped, loaded groups for or unloaded. *)
Definition normalised_since (H : std_alg) (s : api B64) (t : string) (k : kind) (whole : bool) (d : dataset B64) (rows : list (list (D B64))) : Prop :=
  exists (r0 : D B64) h s0 e (thr : D B64) threads s1 n g s2 e' s3 a, @run B64 r0 h s0 /\ held s0 t = Some g /\ gt_data g = d /\
    holds d rows /\ moderate_data rows /\ concat rows <> [] /\ 1 <= ds_maxcol d <= 2 ^ 26 /\
    nltb (n := B64) (ndiv (n := B64) thr (nofZ 2)) ninf = true /\ log_safe d (e_clock e) /\
    exec e (CGroup t thr (kind_name k) threads whole) s0 = (s1, Ret n) /\ undisturbed t s1 s2 /\
    exec e' (CNormalize t) s2 = (s3, Ret a) /\ later H t s3 s.
