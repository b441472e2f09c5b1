(** Extended reals with a rounding function; exact arithmetic is the instance
    [XR] with no rounding. *)
From Coq Require Import Reals Lra.
From Flocq Require Import Core.Raux.
From Verif Require Import Base Num NumLaws.
Local Open Scope R_scope.

Inductive xr := Fin (r : R) | PInf | NInf | XNaN.

Definition xltb (x y : xr) : bool :=
  match x, y with
  | Fin a, Fin b => Rlt_bool a b
  | Fin _, PInf => true
  | NInf, Fin _ => true
  | NInf, PInf => true
  | _, _ => false
  end.

Definition xeqb (x y : xr) : bool :=
  match x, y with
  | Fin a, Fin b => Req_bool a b
  | PInf, PInf => true
  | NInf, NInf => true
  | _, _ => false
  end.

Definition xopp (x : xr) : xr :=
  match x with Fin a => Fin (- a) | PInf => NInf | NInf => PInf | XNaN => XNaN end.

Definition xabs (x : xr) : xr :=
  match x with Fin a => Fin (Rabs a) | PInf => PInf | NInf => PInf | XNaN => XNaN end.

(** sign of an extended real times infinity *)
Definition xsgn_inf (a : R) (pos : bool) : xr :=
  if Req_bool a 0 then XNaN
  else if Rlt_bool 0 a then (if pos then PInf else NInf) else (if pos then NInf else PInf).

Section Rnd.
Variable rnd : R -> xr.

Definition xadd (x y : xr) : xr :=
  match x, y with
  | Fin a, Fin b => rnd (a + b)
  | XNaN, _ | _, XNaN => XNaN
  | PInf, NInf | NInf, PInf => XNaN
  | PInf, _ | _, PInf => PInf
  | NInf, _ | _, NInf => NInf
  end.

Definition xsub (x y : xr) : xr :=
  match x, y with
  | Fin a, Fin b => rnd (a - b)
  | XNaN, _ | _, XNaN => XNaN
  | PInf, PInf | NInf, NInf => XNaN
  | PInf, _ | _, NInf => PInf
  | NInf, _ | _, PInf => NInf
  end.

Definition xmul (x y : xr) : xr :=
  match x, y with
  | Fin a, Fin b => rnd (a * b)
  | XNaN, _ | _, XNaN => XNaN
  | Fin a, PInf | PInf, Fin a => xsgn_inf a true
  | Fin a, NInf | NInf, Fin a => xsgn_inf a false
  | PInf, PInf | NInf, NInf => PInf
  | PInf, NInf | NInf, PInf => NInf
  end.

(** Division by zero: the sign of the zero is not represented; treated as +0. *)
Definition xdiv (x y : xr) : xr :=
  match x, y with
  | Fin a, Fin b =>
      if Req_bool b 0 then
        (if Req_bool a 0 then XNaN else if Rlt_bool 0 a then PInf else NInf)
      else rnd (a / b)
  | XNaN, _ | _, XNaN => XNaN
  | Fin _, _ => Fin 0
  | PInf, Fin b => if Rlt_bool b 0 then NInf else PInf
  | NInf, Fin b => if Rlt_bool b 0 then PInf else NInf
  | _, _ => XNaN
  end.

Definition xsqrt (x : xr) : xr :=
  match x with
  | Fin a => if Rlt_bool a 0 then XNaN else rnd (sqrt a)
  | PInf => PInf
  | _ => XNaN
  end.

Definition xofZ (k : Z) : xr := rnd (IZR k).

Definition xfloor (x : xr) : option Z :=
  match x with Fin a => Some (Zfloor a) | _ => None end.

Definition XRN : Num :=
  {| D := xr; nltb := xltb; neqb := xeqb; nadd := xadd; nsub := xsub; nmul := xmul;
     ndiv := xdiv; nsqrt := xsqrt; nabs := xabs; nofZ := xofZ; nfloor := xfloor;
     ninf := PInf; nninf := NInf; neps := rnd (1 / 1000000000) |}.
End Rnd.

(** Exact arithmetic. *)
Definition XR : Num := XRN Fin.
