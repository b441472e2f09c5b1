(** Model of the Python module: pygenex/GENEXBindings.cpp, and of the way Boost.Python
    matches the arguments of a Python call with the parameters of a C++ function. *)
From Coq Require Import Ascii.
From Verif Require Import Base Num TimeSeries TSSet Distance Candidate Api.
Local Open Scope Z_scope.
Local Open Scope list_scope.

Section Py.
Context {N : Num}.
Notation D := (D N).

(** Python values: of the built-in types that are arguments or results of the module.  A
    string is the list of the bytes of its UTF-8 form. *)
Inductive pyval :=
| PNone
| PBool (b : bool)
| PInt (z : Z)
| PFloat (x : D)
| PStr (s : string)
| PList (l : list pyval)
| PTuple (l : list pyval)
| PDict (l : list (string * pyval)).

(** Python exceptions: class and text.  The text of those made by Boost.Python is left
    out. *)
Record pyexn := mkExn { x_class : string; x_text : string }.

(** how a Python call ends; [PUB], [PHang]: as in [res]; [PUnspecified]: outside of what
    is modelled of Boost.Python *)
Inductive pyres :=
| PRet (v : pyval)
| PRaise (x : pyexn)
| PUB (u : ub)
| PHang
| PUnspecified.

(** What belongs to Python and Boost.Python: float of an int ([None]: too large), which
    bytes are UTF-8, and the class and text a C++ exception other than GenexException gets
    (by its type: MemoryError, OverflowError, IndexError, ValueError or RuntimeError). *)
Record pyenv := mkPyEnv {
  p_float : Z -> option D;
  p_utf8 : string -> bool;
  p_std : string -> pyexn
}.

(** ** from Python to C++ *)

(** the parameter types of the functions: const string&, int, bool, data_t (double) *)
Inductive ctype := TStr | TInt | TBool | TDouble.
Inductive cval := VStr (s : string) | VInt (z : Z) | VBool (b : bool) | VDouble (x : D).

(** whether Boost.Python has a conversion: a str to a string; an int to an int (a bool is
    an int); an int, a bool or None to a bool; a float or an int to a double *)
Definition convertible (t : ctype) (v : pyval) : bool :=
  match t, v with
  | TStr, PStr _ => true
  | TInt, (PInt _ | PBool _) => true
  | TBool, (PNone | PInt _ | PBool _) => true
  | TDouble, (PFloat _ | PInt _ | PBool _) => true
  | _, _ => false
  end.

Definition b2z (b : bool) : Z := if b then 1 else 0.

(** the conversion; [None]: the number does not fit, OverflowError *)
Definition extract (pe : pyenv) (t : ctype) (v : pyval) : option cval :=
  let to_int z := if (int_min <=? z) && (z <=? int_max) then Some (VInt z) else None in
  let to_double z := match p_float pe z with Some x => Some (VDouble x) | None => None end in
  match t, v with
  | TStr, PStr s => Some (VStr s)
  | TInt, PInt z => to_int z
  | TInt, PBool b => to_int (b2z b)
  | TBool, PNone => Some (VBool false)
  | TBool, PInt z => Some (VBool (negb (z =? 0)))
  | TBool, PBool b => Some (VBool b)
  | TDouble, PFloat x => Some (VDouble x)
  | TDouble, PInt z => to_double z
  | TDouble, PBool b => to_double (b2z b)
  | _, _ => None
  end.

(** a function of the module: the types of its parameters and the keywords given to
    py::def, with their defaults *)
Record pyfun := mkFun {
  f_types : list ctype;
  f_keys : list (string * pyval);
  f_call : list cval -> option (call N)
}.

(** the keywords belong to the last parameters; the ones before have no name *)
Definition named (f : pyfun) : list (option (string * pyval)) :=
  repeat None (length (f_types f) - length (f_keys f)) ++ map Some (f_keys f).

(** matching: the arguments, or no match, or a missing argument without a name *)
Inductive matched := Match (l : list pyval) | NoMatch | Unnamed.

(** the parameters after the positional arguments: by name, else by default; also counts
    the keyword arguments used *)
Fixpoint fill (ps : list (option (string * pyval))) (kw : list (string * pyval)) : option (list pyval * nat) :=
  match ps with
  | [] => Some ([], 0%nat)
  | None :: _ => None
  | Some (n, dflt) :: ps' =>
      match fill ps' kw with
      | Some (vs, c) => match assoc n kw with Some v => Some (v :: vs, S c) | None => Some (dflt :: vs, c) end
      | None => None
      end
  end.

(** boost::python::objects::function::call, as documented: a plausible number of
    arguments; without keywords and with all arguments they are taken as they are; a
    function without names takes no keywords; no keyword may be left over *)
Definition match_args (f : pyfun) (args : list pyval) (kw : list (string * pyval)) : matched :=
  let n := (length args + length kw)%nat in
  let arity := length (f_types f) in
  if ((arity <=? n + length (f_keys f)) && (n <=? arity))%nat then
    if ((0 <? length kw) || (n <? arity))%nat then
      match f_keys f with
      | [] => NoMatch
      | _ =>
          match fill (skipn (length args) (named f)) kw with
          | None => Unnamed
          | Some (vs, c) => if (length args + c <? n)%nat then NoMatch else Match (args ++ vs)
          end
      end
    else Match args
  else NoMatch.

Fixpoint extract_all (pe : pyenv) (ts : list ctype) (vs : list pyval) : option (list cval) :=
  match ts, vs with
  | [], [] => Some []
  | t :: ts', v :: vs' =>
      match extract pe t v, extract_all pe ts' vs' with Some c, Some cs => Some (c :: cs) | _, _ => None end
  | _, _ => None
  end.
Fixpoint all_convertible (ts : list ctype) (vs : list pyval) : bool :=
  match ts, vs with
  | [], [] => true
  | t :: ts', v :: vs' => convertible t v && all_convertible ts' vs'
  | _, _ => false
  end.

(** ** from C++ to Python *)

(** timeSeriesToPythonList, pygenex/GENEXBindings.cpp:12-20 *)
Definition series_list (t : TS N) : res pyval :=
  l <- for_ 0 (ts_length t) (fun i acc => x <- ts_get t i ;; Ret (acc ++ [PFloat x])) [] ;; Ret (PList l).

(** timeSeriesToPythonDict, pygenex/GENEXBindings.cpp:22-29 *)
Definition series_dict (t : TS N) : pyval :=
  PDict [("index"%string, PInt (ts_index t)); ("start"%string, PInt (ts_start t)); ("end"%string, PInt (ts_end t))].

(** candidateTimeSeriesToPythonDict, pygenex/GENEXBindings.cpp:31-37 *)
Definition cand_dict (c : cand N) : pyval :=
  PDict [("dist"%string, PFloat (c_dist c)); ("data"%string, series_dict (c_data c))].

Definition unicode_error : pyexn := mkExn "UnicodeDecodeError" "".
Definition py_str (pe : pyenv) (s : string) : pyres := if p_utf8 pe s then PRet (PStr s) else PRaise unicode_error.

(** exceptions of the library: a GenexException is a std::runtime_error *)
Definition translate (pe : pyenv) (x : exn) : pyexn :=
  match x with GenexExc m => mkExn "RuntimeError" m | StdExc w => p_std pe w end.

Definition of_res {A} (pe : pyenv) (r : res A) (k : A -> pyres) : pyres :=
  match r with Ret a => k a | Throw x => PRaise (translate pe x) | UB u => PUB u | Hang => PHang end.

(** what the functions make of the answer of the library; void functions give None *)
Definition pack (pe : pyenv) (a : answer N) : pyres :=
  match a with
  | AUnit | AText _ | AArchive _ => PRet PNone
  | AInt z => PRet (PInt z)
  | AName s => py_str pe s
  (* loadDataset, pygenex/GENEXBindings.cpp:82-86 *)
  | AInfo i => match py_str pe (i_name i) with
               | PRet n => PRet (PDict [("name"%string, n); ("count"%string, PInt (i_count i)); ("length"%string, PInt (i_length i))])
               | r => r
               end
  (* getAllDistances, 420-429: the names are ASCII *)
  | ADistances l => PRet (PList (map PStr l))
  (* getTimeSeries, 415-418 *)
  | ASeries t => of_res pe (series_list t) PRet
  (* normalize, 126-130 *)
  | APair x y => PRet (PTuple [PFloat x; PFloat y])
  (* sim, 289-297 *)
  | ACand c => PRet (cand_dict c)
  (* ksim, ksimbf, ksimpaa, 318-332, 347-362, 387-402 *)
  | ACands l => PRet (PList (map cand_dict l))
  | AValue x => PRet (PFloat x)
  (* getMatching, 258-270 *)
  | AMatching m => PRet (PList (map (fun c : Z * Z => PTuple [PInt (fst c); PInt (snd c)]) m))
  (* not returned by any function of the module *)
  | AInfos _ => PRet PNone
  end.

(** ** the functions, pygenex/GENEXBindings.cpp:437-466 *)
Definition int_default : pyval := PInt (-1).
Definition pymodule : list (string * pyfun) := [
  (* 70-87, 439-443 *)
  ("loadDataset", mkFun [TStr; TStr; TStr; TInt; TInt; TBool]
     [("separators", PStr " "); ("maxNumRow", PInt 0); ("startCol", PInt 0); ("hasNameCol", PBool false)]
     (fun l => match l with [VStr n; VStr p; VStr s; VInt m; VInt c; VBool h] => Some (CLoad n p s m c h) | _ => None end));
  (* 94-97 *)
  ("unloadDataset", mkFun [TStr] [] (fun l => match l with [VStr n] => Some (CUnload n) | _ => None end));
  (* 108-113: separator[0], which is the character 0 for an empty string *)
  ("saveDataset", mkFun [TStr; TStr; TStr] []
     (fun l => match l with
               | [VStr n; VStr p; VStr s] => Some (CSave n p (match s with String c _ => c | EmptyString => zero end))
               | _ => None end));
  (* 126-130 *)
  ("normalize", mkFun [TStr] [] (fun l => match l with [VStr n] => Some (CNormalize n) | _ => None end));
  (* 139-142 *)
  ("getTimeSeriesName", mkFun [TStr; TInt] [] (fun l => match l with [VStr n; VInt i] => Some (CSeriesName n i) | _ => None end));
  (* 151-154 *)
  ("getTimeSeriesLength", mkFun [TStr; TInt] [] (fun l => match l with [VStr n; VInt i] => Some (CSeriesLength n i) | _ => None end));
  (* 166-174, 449-452 *)
  ("group", mkFun [TStr; TDouble; TStr; TInt; TBool]
     [("distanceName", PStr "euclidean"); ("numThreads", PInt 1); ("wholeSeriesOnly", PBool false)]
     (fun l => match l with [VStr n; VDouble t; VStr d; VInt k; VBool w] => Some (CGroup n t d k w) | _ => None end));
  (* 369-372 *)
  ("preparePAA", mkFun [TStr; TInt] [] (fun l => match l with [VStr n; VInt b] => Some (CPrepare n b) | _ => None end));
  (* 186-189 *)
  ("saveGroups", mkFun [TStr; TStr] [] (fun l => match l with [VStr n; VStr p] => Some (CSaveGroups n p) | _ => None end));
  (* 197-200 *)
  ("saveGroupsSize", mkFun [TStr; TStr] [] (fun l => match l with [VStr n; VStr p] => Some (CSaveText n p true) | _ => None end));
  (* 212-215 *)
  ("loadGroups", mkFun [TStr; TStr] [] (fun l => match l with [VStr n; VStr p] => Some (CLoadGroups n p) | _ => None end));
  (* 231-238 *)
  ("distance", mkFun [TStr; TInt; TInt; TInt; TStr; TInt; TInt; TInt; TStr] []
     (fun l => match l with
               | [VStr n; VInt i; VInt s; VInt e; VStr n'; VInt i'; VInt s'; VInt e'; VStr d] => Some (CDistance n i s e n' i' s' e' d)
               | _ => None end));
  (* 258-270, 458 *)
  ("getMatching", mkFun [TStr; TInt; TInt; TInt; TStr; TInt; TInt; TInt; TStr]
     [("start2", int_default); ("end2", int_default)]
     (fun l => match l with
               | [VStr n; VInt i; VInt s; VInt e; VStr n'; VInt i'; VInt s'; VInt e'; VStr d] => Some (CMatching n i s e n' i' s' e' d)
               | _ => None end));
  (* 289-297, 459 *)
  ("sim", mkFun [TStr; TStr; TInt; TInt; TInt] [("start", int_default); ("end", int_default)]
     (fun l => match l with [VStr t; VStr q; VInt i; VInt s; VInt e] => Some (CBest t q i s e) | _ => None end));
  (* 318-332, 460 *)
  ("ksim", mkFun [TInt; TInt; TStr; TStr; TInt; TInt; TInt] [("start", int_default); ("end", int_default)]
     (fun l => match l with [VInt k; VInt ke; VStr t; VStr q; VInt i; VInt s; VInt e] => Some (CKBest k ke t q i s e) | _ => None end));
  (* 347-362, 461 *)
  ("ksimbf", mkFun [TInt; TStr; TStr; TInt; TInt; TInt; TStr] [("start", int_default); ("end", int_default); ("distance", PStr "euclidean")]
     (fun l => match l with [VInt k; VStr t; VStr q; VInt i; VInt s; VInt e; VStr d] => Some (CBrute k t q i s e d) | _ => None end));
  (* 387-402, 462 *)
  ("ksimpaa", mkFun [TInt; TStr; TStr; TInt; TInt; TInt; TStr] [("start", int_default); ("end", int_default); ("distance", PStr "euclidean")]
     (fun l => match l with [VInt k; VStr t; VStr q; VInt i; VInt s; VInt e; VStr d] => Some (CPAA k t q i s e d) | _ => None end));
  (* 415-418, 463 *)
  ("getTimeSeries", mkFun [TStr; TInt; TInt; TInt] [("start", int_default); ("end", int_default)]
     (fun l => match l with [VStr n; VInt i; VInt s; VInt e] => Some (CSeries n i s e) | _ => None end));
  (* 420-429 *)
  ("getAllDistances", mkFun [] [] (fun l => match l with [] => Some CAllDistances | _ => None end));
  (* 465: the function of genex/distance/Distance.hpp; the wrapper of lines 433-435 has
     another name.  GenexAPI::setWarpingBandRatio calls the same function. *)
  ("setWarpingBandRatio", mkFun [TDouble] [] (fun l => match l with [VDouble r] => Some (CRatio r) | _ => None end))
  ]%string.

Definition argument_error : pyexn := mkExn "ArgumentError" "".
Definition overflow_error : pyexn := mkExn "OverflowError" "".
Definition attribute_error : pyexn := mkExn "AttributeError" "".

(** pygenex.<name>(args, kw): first all arguments are matched and checked, then
    converted, then the function is called *)
Definition pycall (pe : pyenv) (e : env N) (name : string) (args : list pyval) (kw : list (string * pyval)) (s : api N)
  : api N * pyres :=
  match assoc name pymodule with
  | None => (s, PRaise attribute_error)
  | Some f =>
      match match_args f args kw with
      | NoMatch => (s, PRaise argument_error)
      | Unnamed => (s, PUnspecified)
      | Match vs =>
          if all_convertible (f_types f) vs then
            match extract_all pe (f_types f) vs with
            | None => (s, PRaise overflow_error)
            | Some cs =>
                match f_call f cs with
                | Some c => let '(s', r) := exec e c s in (s', of_res pe r (pack pe))
                | None => (s, PUnspecified)
                end
            end
          else (s, PRaise argument_error)
      end
  end.
End Py.
Arguments pyval : clear implicits.
Arguments pyres : clear implicits.
Arguments pyenv : clear implicits.
Arguments cval : clear implicits.
Arguments pyfun : clear implicits.
