(** Saving groups to and loading them from a file: the boost archive format
    (genex/group/Group.hpp:180-207, LocalLengthGroupSpace.hpp:90-115,
    GlobalGroupSpace.hpp:102-126, GroupableTimeSeriesSet.hpp:93-121, IO.hpp:22-65). *)
From Verif Require Import Base Num TimeSeries Lemire Distance TSSet StdAlg Candidate Group GroupSpace.
Local Open Scope string_scope.
Local Open Scope Z_scope.

Section Archive.
Context {N : Num}.
Notation D := (D N).

(** A boost binary archive behind zlib: what was put in comes out in the same
    order (ints and size_t, strings, doubles).  The archive header is not modelled.
    The archive holds no types; reading an item as another kind than it was written
    (a file not written by the library) is modelled as a failure of the stream. *)
Inductive tok := TI (z : Z) | TStr (s : string) | TD (x : D).

Definition stream_error : exn := StdExc "input stream error".

Definition get_int (ts : list tok) : res (Z * list tok) :=
  match ts with TI z :: ts' => Ret (z, ts') | _ => Throw stream_error end.
Definition get_str (ts : list tok) : res (string * list tok) :=
  match ts with TStr s :: ts' => Ret (s, ts') | _ => Throw stream_error end.
Definition get_dbl (ts : list tok) : res (D * list tok) :=
  match ts with TD x :: ts' => Ret (x, ts') | _ => Throw stream_error end.

(** ** saving *)

(** Group::save, genex/group/Group.hpp:180-192.  A centroid that is not a view of
    the data set has index 0 and start 0 (genex/TimeSeries.cpp:35-46). *)
Definition save_group (sub : Z) (mm : mmap) (g : group N) : res (list tok) :=
  ms <- memberCoords sub mm g ;;
  let '(ci, cs) := match g_cent g with CView i s => (i, s) | COwn _ => (0, 0) end in
  Ret (TI ci :: TI cs :: TI (g_count g) :: flat_map (fun c => [TI (fst c); TI (snd c)]) ms).

(** [for (auto g : groups) ar << *g], genex/group/LocalLengthGroupSpace.hpp:93-95 *)
Fixpoint save_groups (sub : Z) (mm : mmap) (gs : list (group N)) : res (list tok) :=
  match gs with
  | [] => Ret []
  | g :: gs' => t <- save_group sub mm g ;; ts <- save_groups sub mm gs' ;; Ret (t ++ ts)%list
  end.

(** LocalLengthGroupSpace::save, genex/group/LocalLengthGroupSpace.hpp:90-96 *)
Definition save_level (L : llgs N) : res (list tok) :=
  ts <- save_groups (ll_sub L) (ll_map L) (ll_groups L) ;;
  Ret (TI (Z.of_nat (length (ll_groups L))) :: ts).

(** GlobalGroupSpace::save, genex/group/GlobalGroupSpace.hpp:102-110 *)
Definition save_space (gs : ggs N) : res (list tok) :=
  let maxLen := Z.of_nat (length (gg_levels gs)) in
  let minLen := gg_minLength gs in
  th <- init_get (gg_threshold gs) ;;
  ts <- for_ minLen maxLen (fun i acc =>
          o <- aget (gg_levels gs) i ;; L <- deref o ;; t <- save_level L ;; Ret (acc ++ t)%list) [] ;;
  Ret (TI minLen :: TI maxLen :: TStr (gg_name gs) :: TD th :: ts).

(** GroupableTimeSeriesSet::save, genex/GroupableTimeSeriesSet.hpp:93-104 *)
Definition save (g : gset N) : res (list tok) :=
  match gt_groups g with
  | None => Throw (GenexExc "No group found")
  | Some gs =>
      ts <- save_space gs ;;
      Ret (TI (ds_count (gt_data g)) :: TI (ds_maxcol (gt_data g)) :: ts)
  end.

(** ** loading *)

(** body of the loop of Group::load, genex/group/Group.hpp:202-204 *)
Definition load_member (sub : Z) (_ : Z) (st : group N * mmap * list tok) : res (group N * mmap * list tok) :=
  let '(g, mm, ts) := st in
  '(index, ts) <- get_int ts ;;
  '(start, ts) <- get_int ts ;;
  '(g', mm') <- addMember sub g mm index start ;;
  Ret (g', mm', ts).

(** Group::load, genex/group/Group.hpp:194-206 *)
Definition load_group (d : dataset N) (len sub : Z) (g : group N) (mm : mmap) (ts : list tok)
  : res (group N * mmap * list tok) :=
  '(ci, ts) <- get_int ts ;;
  '(cs, ts) <- get_int ts ;;
  g <- setCentroid d len g ci cs ;;
  '(cnt, ts) <- get_int ts ;;
  for_ 0 cnt (load_member sub) (g, mm, ts).

(** LocalLengthGroupSpace::load, genex/group/LocalLengthGroupSpace.hpp:98-115.  An
    object abandoned by an exception is not freed. *)
Definition load_level_step (d : dataset N) (_ : Z) (st : llgs N * list tok) : res (llgs N * list tok) :=
  let '(L, ts) := st in
  '(g, mm, ts) <- load_group d (ll_length L) (ll_sub L) (group_new (ll_length L)) (ll_map L) ts ;;
  Ret (mkLL (ll_length L) (ll_sub L) (ll_groups L ++ [g])%list mm, ts).
Definition load_level (d : dataset N) (L : llgs N) (ts : list tok) : res (llgs N * list tok) :=
  '(n, ts) <- get_int ts ;; for_ 0 n (load_level_step d) (L, ts).

(** outcome with the object as it is left *)
Definition and_then {S A B} (x : S * res A) (f : S -> A -> S * res B) : S * res B :=
  match x with
  | (s, Ret a) => f s a
  | (s, Throw e) => (s, Throw e)
  | (s, UB u) => (s, UB u)
  | (s, Hang) => (s, Hang)
  end.

(** the loop of GlobalGroupSpace::load, genex/group/GlobalGroupSpace.hpp:120-125,
    for [n] lengths from [i] on *)
Fixpoint load_levels (d : dataset N) (n : nat) (i : Z) (gs : ggs N) (ts : list tok) : ggs N * res (list tok) :=
  match n with
  | O => (gs, Ret ts)
  | S n' =>
      and_then (gs, (L <- ll_new d i ;; '(L', ts') <- load_level d L ts ;;
                     levels <- aset (gg_levels gs) i (Some L') ;; Ret (L', levels, ts')))
        (fun gs r => let '(L', levels, ts') := r in
           load_levels d n' (i + 1)
             (mkGG (gg_name gs) levels (gg_pw gs) (gg_warp gs) (gg_threshold gs)
                   (gg_total gs + Z.of_nat (length (ll_groups L'))) (gg_whole gs)) ts')
  end.

(** GlobalGroupSpace::load, genex/group/GlobalGroupSpace.hpp:112-126.  [minLen] and
    [maxLen] are size_t; a negative one stands for a huge one, for which
    LocalLengthGroupSpace is not constructible: here no length is read then. *)
Definition load_space (d : dataset N) (gs : ggs N) (ts : list tok) : ggs N * res (list tok) :=
  and_then (gs, '(minLen, ts) <- get_int ts ;; '(maxLen, ts) <- get_int ts ;;
                '(name, ts) <- get_str ts ;; Ret (minLen, maxLen, name, ts))
  (fun gs r => let '(minLen, maxLen, name, ts) := r in
   let gs := mkGG name (gg_levels gs) (gg_pw gs) (gg_warp gs) (gg_threshold gs) (gg_total gs) (gg_whole gs) in
   and_then (gs, get_dbl ts) (fun gs r => let '(th, ts) := r in
   let gs := mkGG name (gg_levels gs) (gg_pw gs) (gg_warp gs) (Some th) (gg_total gs) (gg_whole gs) in
   and_then (gg_loadDistance gs name) (fun gs _ =>
   let size := ds_maxcol d + 1 in
   if size <? 0 then (gs, Throw (StdExc "vector::_M_default_append")) else
   let gs := mkGG (gg_name gs)
                  (firstn (Z.to_nat size) (gg_levels gs) ++ repeat None (Z.to_nat size - length (gg_levels gs)))%list
                  (gg_pw gs) (gg_warp gs) (gg_threshold gs) 0 (gg_whole gs) in
   load_levels d (Z.to_nat (maxLen - minLen)) minLen gs ts))).

(** GroupableTimeSeriesSet::load, genex/GroupableTimeSeriesSet.hpp:106-121 *)
Definition load (g : gset N) (ts : list tok) : gset N * res unit :=
  and_then (g, '(cnt, ts) <- get_int ts ;; '(len, ts) <- get_int ts ;; Ret (cnt, len, ts))
  (fun g r => let '(cnt, len, ts) := r in
   if negb (cnt =? ds_count (gt_data g)) then (g, Throw (GenexExc "Incompatible item count")) else
   if negb (len =? ds_maxcol (gt_data g)) then (g, Throw (GenexExc "Incompatible item length")) else
   let '(gs, r) := load_space (gt_data g) gg_new ts in
   (mkGS (gt_data g) (Some gs), _ <- r ;; Ret tt)).

(** ** files (genex/IO.hpp) *)

(** saveToFile, genex/IO.hpp:22-43: the contents of the file afterwards and the
    outcome.  The file is truncated on opening, before anything is saved; if the
    saving throws (which it can only do before the first item) the file is left
    with an archive without items. *)
Definition saveToFile (writable : bool) (old : option (list tok)) (g : gset N)
  : option (list tok) * res unit :=
  if writable then
    match save g with
    | Ret ts => (Some ts, Ret tt)
    | Throw e => (Some [], Throw e)
    | UB u => (Some [], UB u)
    | Hang => (Some [], Hang)
    end
  else (old, Throw (GenexExc "Cannot open file")).

(** loadFromFile, genex/IO.hpp:45-65 *)
Definition loadFromFile (file : option (list tok)) (g : gset N) : gset N * res unit :=
  match file with
  | Some ts => load g ts
  | None => (g, Throw (GenexExc "Cannot open file"))
  end.

End Archive.
Arguments tok : clear implicits.
