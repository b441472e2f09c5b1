(** IEEE-754 binary64 instance: what the C++ [double] computes with the
    default rounding mode (round to nearest, ties to even). *)
From Flocq Require Import Core BinarySingleNaN.
From Verif Require Import Base Num.
Open Scope Z_scope.

Definition prec64 : Z := 53.
Definition emax64 : Z := 1024.

Lemma prec64_gt_0 : FLX.Prec_gt_0 prec64. Proof. reflexivity. Qed.
Lemma prec64_lt_emax : Prec_lt_emax prec64 emax64. Proof. reflexivity. Qed.
#[global] Existing Instance prec64_gt_0.
#[global] Existing Instance prec64_lt_emax.

Definition b64 : Type := binary_float prec64 emax64.

(** floor of a finite double, as an integer *)
Definition b64_floor (x : b64) : option Z :=
  match x with
  | B754_zero _ => Some 0
  | B754_finite s m e _ =>
      let v := if s then Z.neg m else Z.pos m in
      Some (if 0 <=? e then v * 2 ^ e else v / 2 ^ (- e))
  | _ => None
  end.

Definition b64_ofZ (z : Z) : b64 := binary_normalize prec64 emax64 _ _ mode_NE z 0 false.

Definition B64 : Num :=
  {| D := b64;
     nltb := @Bltb prec64 emax64;
     neqb := @Beqb prec64 emax64;
     nadd := Bplus mode_NE;
     nsub := Bminus mode_NE;
     nmul := Bmult mode_NE;
     ndiv := Bdiv mode_NE;
     nsqrt := Bsqrt mode_NE;
     nabs := @Babs prec64 emax64;
     nofZ := b64_ofZ;
     nfloor := b64_floor;
     ninf := B754_infinity false;
     nninf := B754_infinity true;
     neps := Bdiv mode_NE (b64_ofZ 1) (b64_ofZ 1000000000) |}.

(** n/d correctly rounded: decimal literals *)
Definition b64_lit (n d : Z) : b64 := Bdiv mode_NE (b64_ofZ n) (b64_ofZ d).
