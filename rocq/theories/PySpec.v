(** Specification of the Python module, after the comments of pygenex/GENEXBindings.cpp,
    which are its documentation (README.md). *)
From Coq Require Import Ascii.
From Verif Require Import Base Num TimeSeries TSSet Distance Candidate Api ApiSpec Py.
Local Open Scope Z_scope.
Local Open Scope list_scope.
Local Open Scope string_scope.

Section Spec.
Context {N : Num}.
Variable pe : pyenv N.

(** the parameters of the functions in their order: name, type, and default of the
    optional ones *)
Inductive ptype := Text | Number | Flag | Real.
Definition need (n : string) (t : ptype) : string * ptype * option (pyval N) := (n, t, None).
Definition opt (n : string) (t : ptype) (v : pyval N) : string * ptype * option (pyval N) := (n, t, Some v).

Definition signature (f : string) : option (list (string * ptype * option (pyval N))) :=
  assoc f [
  ("loadDataset", [need "name" Text; need "path" Text; opt "separators" Text (PStr " "); opt "maxNumRow" Number (PInt 0);
                   opt "startCol" Number (PInt 0); opt "hasNameCol" Flag (PBool false)]);
  ("unloadDataset", [need "name" Text]);
  ("saveDataset", [need "name" Text; need "path" Text; need "separator" Text]);
  ("normalize", [need "name" Text]);
  ("getTimeSeriesName", [need "name" Text; need "index" Number]);
  ("getTimeSeriesLength", [need "name" Text; need "index" Number]);
  ("group", [need "name" Text; need "threshold" Real; opt "distanceName" Text (PStr "euclidean"); opt "numThreads" Number (PInt 1);
             opt "wholeSeriesOnly" Flag (PBool false)]);
  ("preparePAA", [need "name" Text; need "blockSize" Number]);
  ("saveGroups", [need "name" Text; need "path" Text]);
  ("saveGroupsSize", [need "name" Text; need "path" Text]);
  ("loadGroups", [need "name" Text; need "path" Text]);
  ("distance", [need "name1" Text; need "idx1" Number; need "start1" Number; need "end1" Number;
                need "name2" Text; need "idx2" Number; need "start2" Number; need "end2" Number; need "distanceName" Text]);
  ("getMatching", [need "name1" Text; need "idx1" Number; need "start1" Number; need "end1" Number;
                   need "name2" Text; need "idx2" Number; need "start2" Number; need "end2" Number; need "distanceName" Text]);
  ("sim", [need "target_name" Text; need "query_name" Text; need "index" Number; opt "start" Number (PInt (-1)); opt "end" Number (PInt (-1))]);
  ("ksim", [need "k" Number; need "ke" Number; need "target_name" Text; need "query_name" Text; need "index" Number;
            opt "start" Number (PInt (-1)); opt "end" Number (PInt (-1))]);
  ("ksimbf", [need "k" Number; need "target_name" Text; need "query_name" Text; need "index" Number;
              opt "start" Number (PInt (-1)); opt "end" Number (PInt (-1)); opt "distance" Text (PStr "euclidean")]);
  ("ksimpaa", [need "k" Number; need "target_name" Text; need "query_name" Text; need "index" Number;
               opt "start" Number (PInt (-1)); opt "end" Number (PInt (-1)); opt "distance" Text (PStr "euclidean")]);
  ("getTimeSeries", [need "name" Text; need "idx" Number; opt "start" Number (PInt (-1)); opt "end" Number (PInt (-1))]);
  ("getAllDistances", []);
  ("setWarpingBandRatio", [need "ratio" Real])
  ].

(** how many arguments have to be given *)
Definition required (sig : list (string * ptype * option (pyval N))) : nat :=
  length (filter (fun p => match snd p with None => true | Some _ => false end) sig).

(** the rule of Python, with the required parameters given by position: first the
    positional arguments, then the optional parameters by keyword or default; every
    keyword names a parameter not yet given, no keyword twice *)
Inductive bound : list (string * ptype * option (pyval N)) -> list (pyval N) -> list (string * pyval N) -> list (pyval N) -> Prop :=
| b_end : bound [] [] [] []
| b_given p ps v args kw vs : bound ps args kw vs -> ~ In (fst (fst p)) (map fst kw) -> bound (p :: ps) (v :: args) kw (v :: vs)
| b_keyword n t d ps v kw1 kw2 vs : bound ps [] (kw1 ++ kw2) vs -> ~ In n (map fst (kw1 ++ kw2)) ->
    bound ((n, t, Some d) :: ps) [] (kw1 ++ (n, v) :: kw2) (v :: vs)
| b_default n t d ps kw vs : bound ps [] kw vs -> ~ In n (map fst kw) -> bound ((n, t, Some d) :: ps) [] kw (d :: vs).

(** values of the right type: an int may be given for a float or a flag, a bool is an int
    and None is a false flag *)
Inductive has_type : ptype -> pyval N -> Prop :=
| ty_text s : has_type Text (PStr s)
| ty_int z : has_type Number (PInt z)
| ty_int_bool b : has_type Number (PBool b)
| ty_flag b : has_type Flag (PBool b)
| ty_flag_int z : has_type Flag (PInt z)
| ty_flag_none : has_type Flag PNone
| ty_float x : has_type Real (PFloat x)
| ty_float_int z : has_type Real (PInt z)
| ty_float_bool b : has_type Real (PBool b).

(** what a value stands for in C++ *)
Definition an_int (v : pyval N) (z : Z) : Prop :=
  int_min <= z <= int_max /\ (v = PInt z \/ (v = PBool true /\ z = 1) \/ (v = PBool false /\ z = 0)).
Definition a_flag (v : pyval N) (b : bool) : Prop :=
  v = PBool b \/ (v = PNone /\ b = false) \/ exists z, v = PInt z /\ (b = true <-> z <> 0).
Definition a_double (v : pyval N) (x : D N) : Prop :=
  v = PFloat x \/ exists z, (v = PInt z \/ (v = PBool true /\ z = 1) \/ (v = PBool false /\ z = 0)) /\ p_float pe z = Some x.

(** the call of the library that a call of a function, with all its parameters, stands for *)
Inductive documented : string -> list (pyval N) -> call N -> Prop :=
| d_load n p s m m' c c' h h' : an_int m m' -> an_int c c' -> a_flag h h' ->
    documented "loadDataset" [PStr n; PStr p; PStr s; m; c; h] (CLoad n p s m' c' h')
| d_unload n : documented "unloadDataset" [PStr n] (CUnload n)
| d_save n p c s : documented "saveDataset" [PStr n; PStr p; PStr (String c s)] (CSave n p c)
| d_normalize n : documented "normalize" [PStr n] (CNormalize n)
| d_name n i i' : an_int i i' -> documented "getTimeSeriesName" [PStr n; i] (CSeriesName n i')
| d_length n i i' : an_int i i' -> documented "getTimeSeriesLength" [PStr n; i] (CSeriesLength n i')
| d_group n t t' d k k' w w' : a_double t t' -> an_int k k' -> a_flag w w' ->
    documented "group" [PStr n; t; PStr d; k; w] (CGroup n t' d k' w')
| d_prepare n b b' : an_int b b' -> documented "preparePAA" [PStr n; b] (CPrepare n b')
| d_save_groups n p : documented "saveGroups" [PStr n; PStr p] (CSaveGroups n p)
| d_save_sizes n p : documented "saveGroupsSize" [PStr n; PStr p] (CSaveText n p true)
| d_load_groups n p : documented "loadGroups" [PStr n; PStr p] (CLoadGroups n p)
| d_distance n1 i1 j1 s1 a1 e1 b1 n2 i2 j2 s2 a2 e2 b2 d :
    an_int i1 j1 -> an_int s1 a1 -> an_int e1 b1 -> an_int i2 j2 -> an_int s2 a2 -> an_int e2 b2 ->
    documented "distance" [PStr n1; i1; s1; e1; PStr n2; i2; s2; e2; PStr d] (CDistance n1 j1 a1 b1 n2 j2 a2 b2 d)
| d_matching n1 i1 j1 s1 a1 e1 b1 n2 i2 j2 s2 a2 e2 b2 d :
    an_int i1 j1 -> an_int s1 a1 -> an_int e1 b1 -> an_int i2 j2 -> an_int s2 a2 -> an_int e2 b2 ->
    documented "getMatching" [PStr n1; i1; s1; e1; PStr n2; i2; s2; e2; PStr d] (CMatching n1 j1 a1 b1 n2 j2 a2 b2 d)
| d_sim t q i j s a e b : an_int i j -> an_int s a -> an_int e b -> documented "sim" [PStr t; PStr q; i; s; e] (CBest t q j a b)
| d_ksim k k' ke ke' t q i j s a e b : an_int k k' -> an_int ke ke' -> an_int i j -> an_int s a -> an_int e b ->
    documented "ksim" [k; ke; PStr t; PStr q; i; s; e] (CKBest k' ke' t q j a b)
| d_ksimbf k k' t q i j s a e b d : an_int k k' -> an_int i j -> an_int s a -> an_int e b ->
    documented "ksimbf" [k; PStr t; PStr q; i; s; e; PStr d] (CBrute k' t q j a b d)
| d_ksimpaa k k' t q i j s a e b d : an_int k k' -> an_int i j -> an_int s a -> an_int e b ->
    documented "ksimpaa" [k; PStr t; PStr q; i; s; e; PStr d] (CPAA k' t q j a b d)
| d_series n i j s a e b : an_int i j -> an_int s a -> an_int e b -> documented "getTimeSeries" [PStr n; i; s; e] (CSeries n j a b)
| d_distances : documented "getAllDistances" [] CAllDistances
| d_ratio r r' : a_double r r' -> documented "setWarpingBandRatio" [r] (CRatio r').

(** the documented forms of the results *)
Definition place_dict (t : TS N) : pyval N :=
  PDict [("index", PInt (ts_index t)); ("start", PInt (ts_start t)); ("end", PInt (ts_start t + ts_length t))].
Definition match_dict (c : cand N) : pyval N := PDict [("dist", PFloat (c_dist c)); ("data", place_dict (c_data c))].
Definition whole (t : TS N) : Prop := ts_end t = ts_start t + ts_length t.

Inductive shows : answer N -> pyval N -> Prop :=
| s_unit : shows AUnit PNone
| s_text t : shows (AText t) PNone
| s_file t : shows (AArchive t) PNone
| s_int z : shows (AInt z) (PInt z)
| s_name n : p_utf8 pe n = true -> shows (AName n) (PStr n)
| s_info i : p_utf8 pe (i_name i) = true ->
    shows (AInfo i) (PDict [("name", PStr (i_name i)); ("count", PInt (i_count i)); ("length", PInt (i_length i))])
| s_names l : shows (ADistances l) (PList (map PStr l))
| s_series t : ts_ok t -> shows (ASeries t) (PList (map PFloat (ts_points t)))
| s_pair x y : shows (APair x y) (PTuple [PFloat x; PFloat y])
| s_match c : whole (c_data c) -> shows (ACand c) (match_dict c)
| s_matches l : Forall (fun c => whole (c_data c)) l -> shows (ACands l) (PList (map match_dict l))
| s_value x : shows (AValue x) (PFloat x)
| s_matching m : shows (AMatching m) (PList (map (fun c : Z * Z => PTuple [PInt (fst c); PInt (snd c)]) m)).

(** outcomes of the library as seen from Python *)
Inductive seen_as : res (answer N) -> pyres N -> Prop :=
| as_value a v : shows a v -> seen_as (Ret a) (PRet v)
| as_genex m : seen_as (Throw (GenexExc m)) (PRaise (mkExn "RuntimeError" m))
| as_std w : seen_as (Throw (StdExc w)) (PRaise (p_std pe w))
| as_ub u : seen_as (UB u) (PUB u)
| as_hang : seen_as Hang PHang.
End Spec.

(** sessions: the calls of a Python program that return or raise an exception; everything
    around them may change from call to call *)
Inductive pyrun {N : Num} (r0 : D N) : list (string * pyres N) -> api N -> Prop :=
| py_start : pyrun r0 [] (api_new r0)
| py_step h s pe e f args kw s' r : pyrun r0 h s -> pycall pe e f args kw s = (s', r) ->
    (match r with PRet _ | PRaise _ => True | _ => False end) -> pyrun r0 (h ++ [(f, r)]) s'.
