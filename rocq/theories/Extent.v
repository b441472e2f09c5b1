(** Model of scripts/5_genex.py: the experiments with queries against groups. *)
From Coq Require Import String Ascii.
From Flocq Require Import IEEE754.BinarySingleNaN.
From Verif Require Import Base NumB64 Experiment.
Local Open Scope string_scope.
Local Open Scope Z_scope.
Local Open Scope list_scope.

(** ** the extents of the search *)

(** the smallest integer that is not less than a number that is not negative *)
Definition ceiling (x : b64) : Z :=
  match B2SF x with
  | SpecFloat.S754_finite false m e => if 0 <=? e then Zpos m * 2 ^ e else (Zpos m + 2 ^ (- e) - 1) / 2 ^ (- e)
  | _ => 0
  end.

(** int(round(x)) in Python 2: to the nearest integer, halves away from zero.
    Simplification: only for finite numbers, as are all the ones here *)
Definition round_away (x : b64) : Z :=
  match B2SF x with
  | SpecFloat.S754_finite s m e =>
      let v := if 0 <=? e then Zpos m * 2 ^ e else (2 * Zpos m + 2 ^ (- e)) / (2 * 2 ^ (- e)) in
      if s then - v else v
  | _ => 0
  end.

(** np.arange(start, stop, step): its length, and its elements, computed from the first and
    the difference to the second *)
Definition arange_length (start stop step : b64) : nat :=
  Z.to_nat (ceiling (Bdiv mode_NE (Bminus mode_NE stop start) step)).
Definition arange_nth (start step : b64) (i : nat) : b64 :=
  Bplus mode_NE start (Bmult mode_NE (b64_ofZ (Z.of_nat i)) (Bminus mode_NE (Bplus mode_NE start step) start)).

(** np.arange(0.1, 100.1, 0.1), scripts/5_genex.py:150 *)
Definition tenth : b64 := b64_lit 1 10.
Definition percents : list b64 := map (arange_nth tenth tenth) (seq 0 (arange_length tenth (b64_lit 1001 10) tenth)).

(** int(round(ke_ratio/100 * subseq)), scripts/5_genex.py:151 *)
Definition extent (subseq : Z) (ratio : b64) : Z :=
  round_away (Bmult mode_NE (Bdiv mode_NE ratio (b64_ofZ 100)) (b64_ofZ subseq)).
Definition extents (subseq : Z) : list Z := map (extent subseq) percents.

(** ** the experiments *)
Section Run.
(** [T]: what the library holds; [A]: answers; [E]: errors *)
Variables (T A E : Type).

(** The library for one data set: loading and normalising it with its queries; loading the
    groups of a distance and threshold if the file is there ([None]: the call raises); the
    search for one match and for k matches.  compute_rel_error of an answer and a recorded
    one, scripts/common.py:142-145; and abs(err) < 1e-9, scripts/5_genex.py:166. *)
Record glib := mkGLib {
  g_load : option T;
  g_exists : string -> string -> bool;
  g_groups : T -> string -> string -> option T;
  g_sim : T -> query -> option (A * T);
  g_ksim : T -> Z -> Z -> query -> option (A * T);
  g_err : A -> A -> option E;
  g_tiny : E -> bool }.

(** entries of the two results files of a data set, scripts/5_genex.py:29-57 *)
Record one := mkOne { o_query : query; o_method : string; o_answer : A }.
Record many := mkMany { m_query : query; m_method : string; m_errs : list E }.
Definition by_dist (X : Type) := list (string * list X).
Record files := mkFiles { f_one : by_dist one; f_many : by_dist many }.

Fixpoint rows_at {X} (d : string) (r : by_dist X) : list X :=
  match r with [] => [] | (n, l) :: r' => if String.eqb n d then l else rows_at d r' end.
Fixpoint add_row {X} (d : string) (x : X) (r : by_dist X) : by_dist X :=
  match r with [] => [(d, [x])] | (n, l) :: r' => if String.eqb n d then (n, l ++ [x]) :: r' else (n, l) :: add_row d x r' end.

Variable l : glib.

(** the loop over the extents, scripts/5_genex.py:150-167 *)
Fixpoint try_extents (t : T) (k : Z) (q : query) (bf : A) (kes : list Z) : option (list E * T) :=
  match kes with
  | [] => Some ([], t)
  | ke :: kes' =>
      match g_ksim l t k ke q with
      | None => None
      | Some (a, t') =>
          match g_err l a bf with
          | None => None
          | Some e => if g_tiny l e then Some ([e], t')
                      else match try_extents t' k q bf kes' with None => None | Some (es, t'') => Some (e :: es, t'') end
          end
      end
  end.

(** scripts/5_genex.py:99-100, 138-139 *)
Definition one_run (m : string) (q : query) (o : one) : bool := String.eqb (o_method o) m && query_eqb (o_query o) q.
Definition many_run (m : string) (q : query) (o : many) : bool := String.eqb (m_method o) m && query_eqb (m_query o) q.

(** one query, scripts/5_genex.py:86-182.  [inl f]: an exception, and the files are [f].
    Simplification: the results files are written as a whole (C80 is about kills while
    writing; the files are written the same way here) *)
Definition one_query (k subseq : Z) (d key : string) (q : query) (t : T) (f : files) : files + T * files :=
  match
    (if existsb (one_run key q) (rows_at d (f_one f)) then Some (t, f)
     else match g_sim l t q with
          | None => None
          | Some (a, t') => Some (t', mkFiles (add_row d (mkOne q key a) (f_one f)) (f_many f))
          end)
  with
  | None => inl f
  | Some (t1, f1) =>
      match filter (one_run "bf" q) (rows_at d (f_one f1)) with
      | [] => inr (t1, f1)
      | b :: _ =>
          if existsb (many_run key q) (rows_at d (f_many f1)) then inr (t1, f1)
          else match try_extents t1 k q (o_answer b) (extents subseq) with
               | None => inl f1
               | Some (es, t2) => inr (t2, mkFiles (f_one f1) (add_row d (mkMany q key es) (f_many f1)))
               end
      end
  end.

Fixpoint each_query (k subseq : Z) (d key : string) (qs : list query) (t : T) (f : files) : files + T * files :=
  match qs with
  | [] => inr (t, f)
  | q :: qs' => match one_query k subseq d key q t f with inl f' => inl f' | inr (t', f') => each_query k subseq d key qs' t' f' end
  end.

(** the loop over the similarity thresholds, scripts/5_genex.py:73-85 *)
Fixpoint each_st (k subseq : Z) (d : string) (sts : list string) (qs : list query) (t : T) (f : files) : files + T * files :=
  match sts with
  | [] => inr (t, f)
  | st :: sts' =>
      if g_exists l d st then
        match g_groups l t d st with
        | None => inl f
        | Some t1 => match each_query k subseq d ("genex_" ++ st)%string qs t1 f with inl f' => inl f' | inr (t', f') => each_st k subseq d sts' qs t' f' end
        end
      else each_st k subseq d sts' qs t f
  end.

(** the loop over the distances, scripts/5_genex.py:65-71 *)
Fixpoint each_dist (k subseq : Z) (ds sts : list string) (qs : list query) (t : T) (f : files) : files + T * files :=
  match ds with
  | [] => inr (t, f)
  | d :: ds' => match each_st k subseq d sts qs t f with inl f' => inl f' | inr (t', f') => each_dist k subseq ds' sts qs t' f' end
  end.

(** the thresholds, scripts/5_genex.py:73 *)
Definition thresholds : list string := ["0.1"; "0.2"; "0.3"; "0.4"; "0.5"].

(** run_genex without dry run, scripts/5_genex.py:18-188: the files it leaves and whether it
    came to the end *)
Definition run_genex (k subseq : Z) (ds : list string) (qs : list query) (f : files) : files * bool :=
  match g_load l with
  | None => (f, false)
  | Some t => match each_dist k subseq ds thresholds qs t f with inl f' => (f', false) | inr (_, f') => (f', true) end
  end.
End Run.
Arguments rows_at {X}. Arguments add_row {X}.

(** a data set with its number of subsequences, its queries and its results files *)
Record exset (T A E : Type) := mkExset { s_name : string; s_lib : glib T A E; s_subseq : Z; s_queries : list query; s_files : files A E }.
Arguments s_name {T A E}. Arguments s_lib {T A E}. Arguments s_subseq {T A E}. Arguments s_queries {T A E}. Arguments s_files {T A E}.
Arguments mkExset {T A E}.

(** the script, scripts/5_genex.py:200-231: the data sets in the order given (get_dataset_order:
    fewest subsequences first), an exception stops it.  Simplifications: the data sets out of
    the range asked for are left out; the query files are there (C80) *)
Fixpoint genex_script {T A E} (k : Z) (ds : list string) (sets : list (exset T A E)) : list (files A E) :=
  match sets with
  | [] => []
  | s :: sets' =>
      let (f, ok) := run_genex T A E (s_lib s) k (s_subseq s) ds (s_queries s) (s_files s) in
      f :: (if ok then genex_script k ds sets' else map s_files sets')
  end.
