(** The older file format for groups, plain text: saveGroupsOld and loadGroupsOld
    (genex/GroupableTimeSeriesSet.cpp:89-142, genex/group/GlobalGroupSpace.cpp:216-248,
    LocalLengthGroupSpace.cpp:125-161, Group.cpp:139-172). *)
From Coq Require Import String Ascii DecimalString.
From Verif Require Import Base Num TimeSeries TSSet StdAlg Candidate Group GroupSpace Loader Archive.
Local Open Scope string_scope.
Local Open Scope Z_scope.

(** [out << n] for an integer *)
Definition put_int (n : Z) : string := NilZero.string_of_int (Z.to_int n).

(** the characters skipped by [in >> x]: std::isspace *)
Definition spaces : string :=
  String " " (String "009" (String "010" (String "011" (String "012" (String "013" "")))))%char.

(** An input stream: the words (maximal pieces without white space) still to come and
    whether no extraction has failed. *)
Record instream := mkIn { in_words : list string; in_ok : bool }.
Definition in_open (text : string) : instream := mkIn (tokenize spaces text) true.

(** Extraction of a word into a variable with the given old value.  At the end of the
    file, and after a failure, the variable keeps its value. *)
Definition extract {A} (conv : string -> A * bool) (old : A) (s : instream) : A * instream :=
  if in_ok s then
    match in_words s with
    | [] => (old, mkIn [] false)
    | w :: ws => let '(v, good) := conv w in (v, mkIn ws good)
    end
  else (old, s).

(** [in >> n] for an int: a word that is no integer gives 0, one outside of int the
    nearest int; both are failures.  Simplification: a word that only begins like an
    integer is a failure at once (in C++ at the next extraction). *)
Definition drop_plus (w : string) : string := match w with String "+" w' => w' | _ => w end.
Definition conv_int (w : string) : option Z * bool :=
  match NilZero.int_of_string (drop_plus w) with
  | None => (Some 0, false)
  | Some i => let z := Z.of_int i in
              if z <? int_min then (Some int_min, false)
              else if int_max <? z then (Some int_max, false) else (Some z, true)
  end.
(** int variables: None is uninitialised *)
Definition read_int : option Z -> instream -> option Z * instream := extract conv_int.
Definition read_str : string -> instream -> string * instream := extract (fun w => (w, true)).

Section OldFormat.
Context {N : Num}.
Notation D := (D N).
(** [out << x] for a double with six digits, and with sixteen
    (std::setprecision(digits10 + 1), genex/TimeSeries.cpp:229) *)
Variable put put16 : D -> string.
(** [in >> x] for a double from one word; None: no number, the variable becomes 0 *)
Variable scan : string -> option D.

Definition read_dbl : D -> instream -> D * instream :=
  extract (fun w => match scan w with Some v => (v, true) | None => (n0, false) end).

Definition nl : string := String newline "".

(** ** saving *)

(** TimeSeries::printData, genex/TimeSeries.cpp:226-233 *)
Definition print_data (t : TS N) : res string :=
  for_ 0 (ts_length t) (fun i out => v <- ts_get t i ;; Ret (out ++ put16 v ++ " ")) "".

Definition print_coord (c : coord) : string := put_int (fst c) ++ " " ++ put_int (snd c) ++ " ".

(** Group::saveGroupOld, genex/group/Group.cpp:139-155 *)
Definition save_group_old (d : dataset N) (len sub : Z) (mm : mmap) (g : group N) : res string :=
  t <- cent_ts d len (g_cent g) ;;
  values <- print_data t ;;
  ms <- memberCoords sub mm g ;;
  Ret (values ++ nl ++ put_int (g_count g) ++ " " ++ String.concat "" (map print_coord ms) ++ nl).

Fixpoint save_groups_old (d : dataset N) (len sub : Z) (mm : mmap) (gs : list (group N)) : res string :=
  match gs with
  | [] => Ret ""
  | g :: gs' => t <- save_group_old d len sub mm g ;; ts <- save_groups_old d len sub mm gs' ;; Ret (t ++ ts)
  end.

(** LocalLengthGroupSpace::saveGroupsOld, genex/group/LocalLengthGroupSpace.cpp:125-143 *)
Definition save_level_old (d : dataset N) (sizeOnly : bool) (L : llgs N) : res string :=
  body <- (if sizeOnly then Ret (String.concat "" (map (fun g => put_int (g_count g) ++ " ") (ll_groups L)) ++ nl)
           else save_groups_old d (ll_length L) (ll_sub L) (ll_map L) (ll_groups L)) ;;
  Ret (put_int (Z.of_nat (length (ll_groups L))) ++ nl ++ body).

(** a size_t *)
Definition unsigned (n : Z) : Z := if n <? 0 then n + 2 ^ 64 else n.

(** GlobalGroupSpace::saveGroupsOld, genex/group/GlobalGroupSpace.cpp:216-229 *)
Definition save_space_old (d : dataset N) (sizeOnly : bool) (gs : ggs N) : res string :=
  let minLength := unsigned (gg_minLength gs) in
  let maxLength := Z.of_nat (length (gg_levels gs)) in
  body <- for_ minLength maxLength (fun i out =>
            o <- aget (gg_levels gs) i ;;
            match o with
            | None => Ret out
            | Some L => t <- save_level_old d sizeOnly L ;; Ret (out ++ t)
            end) "" ;;
  Ret (put_int minLength ++ " " ++ put_int maxLength ++ nl ++ gg_name gs ++ nl ++ body).

(** GroupableTimeSeriesSet::saveGroupsOld, genex/GroupableTimeSeriesSet.cpp:89-109: what
    is written; GROUP_FILE_VERSION is 1, genex/GroupableTimeSeriesSet.hpp:12 *)
Definition saveGroupsOld (writable : bool) (sizeOnly : bool) (g : gset N) : res string :=
  match gt_groups g with
  | None => Throw (GenexExc "No group found")
  | Some gs =>
      if writable then
        th <- init_get (gg_threshold gs) ;;
        body <- save_space_old (gt_data g) sizeOnly gs ;;
        Ret (put_int 1 ++ " " ++ put th ++ " " ++ put_int (ds_count (gt_data g)) ++ " " ++
             put_int (ds_maxcol (gt_data g)) ++ nl ++ body)
      else Throw (GenexExc "Cannot open file")
  end.

(** ** loading *)

(** the loop of genex/group/Group.cpp:162-164: the values of the new centroid, zeros at
    first (genex/TimeSeries.cpp:35-45) *)
Fixpoint read_values (n : nat) (s : instream) : list D * instream :=
  match n with
  | O => ([], s)
  | S n' => let '(v, s1) := read_dbl n0 s in let '(vs, s2) := read_values n' s1 in ((v :: vs)%list, s2)
  end.

(** the loop of genex/group/Group.cpp:168-171; [index] and [start] keep their values
    from one round to the next *)
Definition load_member_old (sub : Z) (_ : Z) (st : group N * mmap * option Z * option Z * instream)
  : res (group N * mmap * option Z * option Z * instream) :=
  let '(g, mm, index, start, s) := st in
  let '(index, s) := read_int index s in
  let '(start, s) := read_int start s in
  i <- init_get index ;; p <- init_get start ;;
  '(g', mm') <- addMember sub g mm i p ;;
  Ret (g', mm', index, start, s).

(** Group::loadGroupOld, genex/group/Group.cpp:157-172, on a new group.  The centroid is
    replaced by a move assignment; a new group has no cached envelope. *)
Definition load_group_old (len sub : Z) (mm : mmap) (s : instream) : res (group N * mmap * instream) :=
  let '(vals, s) := read_values (Z.to_nat len) s in
  let '(cnt, s) := read_int None s in
  n <- init_get cnt ;;
  '(g, mm, _, _, s) <- for_ 0 n (load_member_old sub) (mkGroup (COwn vals) None (-1, -1) 0, mm, None, None, s) ;;
  Ret (g, mm, s).

(** LocalLengthGroupSpace::loadGroupsOld, genex/group/LocalLengthGroupSpace.cpp:145-161,
    on a new space: the space, what is returned, and the stream *)
Definition load_level_old_step (_ : Z) (st : llgs N * instream) : res (llgs N * instream) :=
  let '(L, s) := st in
  '(g, mm, s) <- load_group_old (ll_length L) (ll_sub L) (ll_map L) s ;;
  Ret (mkLL (ll_length L) (ll_sub L) (ll_groups L ++ [g])%list mm, s).
Definition load_level_old (L : llgs N) (s : instream) : res (llgs N * Z * instream) :=
  let '(cnt, s) := read_int None s in
  n <- init_get cnt ;;
  '(L, s) <- for_ 0 n load_level_old_step (L, s) ;;
  Ret (L, n, s).

(** the loop of genex/group/GlobalGroupSpace.cpp:242-246, for [n] lengths from [i] on *)
Fixpoint load_levels_old (d : dataset N) (n : nat) (i : Z) (gs : ggs N) (s : instream) : ggs N * res Z :=
  match n with
  | O => (gs, Ret (gg_total gs))
  | S n' =>
      and_then (gs, (L <- ll_new d i ;; load_level_old L s))
        (fun gs r => let '(L, m, s') := r in
           let gs := mkGG (gg_name gs) (gg_levels gs) (gg_pw gs) (gg_warp gs) (gg_threshold gs) (gg_total gs + m) (gg_whole gs) in
           and_then (gs, aset (gg_levels gs) i (Some L))
             (fun gs levels => load_levels_old d n' (i + 1) (with_levels gs levels) s'))
  end.

(** GlobalGroupSpace::loadGroupsOld, genex/group/GlobalGroupSpace.cpp:231-248, on a new
    space.  boost::trim_right does nothing on a word. *)
Definition load_space_old (d : dataset N) (s : instream) : ggs N * res Z :=
  let '(lenFrom, s) := read_int None s in
  let '(lenTo, s) := read_int None s in
  let '(name, s) := read_str "" s in
  and_then (gg_loadDistance gg_new name) (fun gs _ =>
  let size := ds_maxcol d + 1 in
  if size <? 0 then (gs, Throw (StdExc "vector::_M_default_append")) else
  let gs := mkGG (gg_name gs) (repeat None (Z.to_nat size)) (gg_pw gs) (gg_warp gs) (gg_threshold gs) 0 (gg_whole gs) in
  and_then (gs, (lo <- init_get lenFrom ;; hi <- init_get lenTo ;; Ret (lo, hi))) (fun gs r =>
  load_levels_old d (Z.to_nat (snd r - fst r)) (fst r) gs s)).

(** GroupableTimeSeriesSet::loadGroupsOld, genex/GroupableTimeSeriesSet.cpp:111-142 *)
Definition loadGroupsOld (file : option string) (g : gset N) : gset N * res Z :=
  match file with
  | None => (g, Throw (GenexExc "Cannot open file"))
  | Some text =>
      let '(version, s) := read_int None (in_open text) in
      let '(_, s) := read_dbl n0 s in
      let '(cnt, s) := read_int None s in
      let '(_, s) := read_int None s in
      and_then (g, init_get version) (fun g v =>
      if negb (v =? 1) then (g, Throw (GenexExc "Incompatible file version")) else
      and_then (g, init_get cnt) (fun g c =>
      if negb (c =? ds_count (gt_data g)) then (g, Throw (GenexExc "Incompatible item count")) else
      let '(gs, r) := load_space_old (gt_data g) s in
      (mkGS (gt_data g) (Some gs), r)))
  end.
End OldFormat.
