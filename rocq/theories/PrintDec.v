(** Doubles as text: what [out << x] writes with a given number of significant digits
    (6 by default, genex/TimeSeriesSet.cpp:164; 16 after std::setprecision(digits10 + 1),
    genex/TimeSeries.cpp:229), and what [in >> x] and std::stod read from one word.
    These are library functions, modelled by their specification (the format %g of
    printf; correct rounding to nearest, ties to even); the proofs about files hold for
    any printing, this one serves to show what is lost with these numbers of digits. *)
From Coq Require Import String Ascii.
From Flocq Require Import Core BinarySingleNaN.
From Verif Require Import Base Num NumB64 Loader OldFormat.
Local Open Scope string_scope.
Local Open Scope Z_scope.

(** ** writing *)

(** n / d rounded to an integer, ties to even *)
Definition round_even (n d : Z) : Z :=
  let q := n / d in let r := n mod d in
  if 2 * r <? d then q else if d <? 2 * r then q + 1 else if Z.even q then q else q + 1.

(** the largest k <= [k0] with 10^k <= n/d, looking at [fuel] numbers; [k0] is estimated
    from the binary lengths *)
Fixpoint dec_exp (fuel : nat) (k0 n d : Z) : Z :=
  match fuel with
  | O => k0
  | S f => if (10 ^ Z.max k0 0) * d <=? n * 10 ^ Z.max (- k0) 0 then k0 else dec_exp f (k0 - 1) n d
  end.

(** n/d > 0 to [p] significant digits: M with p digits and k, for M / 10^(p-1) * 10^k *)
Definition significant (p n d : Z) : Z * Z :=
  let k := dec_exp 5 ((Z.log2 n - Z.log2 d + 1) * 30103 / 100000 + 1) n d in
  let s := p - 1 - k in
  let M := round_even (n * 10 ^ Z.max s 0) (d * 10 ^ Z.max (- s) 0) in
  if M =? 10 ^ p then (10 ^ (p - 1), k + 1) else (M, k).

(** trailing zeros removed, and the point if no digit is left *)
Fixpoint strip (s : string) : string :=
  match s with
  | "" => ""
  | String c s' => match strip s' with "" => if Ascii.eqb c "0" then "" else String c "" | t => String c t end
  end.
Definition with_point (whole frac : string) : string :=
  match strip frac with "" => whole | f => whole ++ "." ++ f end.
Fixpoint zeros (n : nat) : string := match n with O => "" | S n' => String "0" (zeros n') end.

Definition put_exponent (k : Z) : string :=
  let a := Z.abs k in
  (if k <? 0 then "e-" else "e+") ++ (if a <? 10 then "0" else "") ++ put_int a.

Definition format_g (p M k : Z) : string :=
  let ds := put_int M in
  if (k <? -4) || (p <=? k) then
    with_point (substring 0 1 ds) (substring 1 (String.length ds) ds) ++ put_exponent k
  else if 0 <=? k then
    with_point (substring 0 (Z.to_nat (k + 1)) ds) (substring (Z.to_nat (k + 1)) (String.length ds) ds)
  else with_point "0" (zeros (Z.to_nat (- k - 1)) ++ ds).

Definition put_double (p : Z) (x : b64) : string :=
  match x with
  | B754_nan => "nan"
  | B754_infinity s => if s then "-inf" else "inf"
  | B754_zero s => if s then "-0" else "0"
  | B754_finite s m e _ =>
      let '(M, k) := significant p (Z.pos m * 2 ^ Z.max e 0) (2 ^ Z.max (- e) 0) in
      (if s then "-" else "") ++ format_g p M k
  end.

(** ** reading *)

(** the digits at the beginning of a word: their value, how many, and what follows *)
Definition digit_of (c : ascii) : option Z :=
  let n := Z.of_N (N_of_ascii c) in if (48 <=? n) && (n <=? 57) then Some (n - 48) else None.
Fixpoint read_digits (s : string) (acc : Z) (n : Z) : Z * Z * string :=
  match s with
  | "" => (acc, n, "")
  | String c s' => match digit_of c with Some v => read_digits s' (10 * acc + v) (n + 1) | None => (acc, n, s) end
  end.
Definition read_sign (s : string) : bool * string :=
  match s with String "-" s' => (true, s') | String "+" s' => (false, s') | _ => (false, s) end.

(** the double nearest to n/d (n >= 0, d > 0): 66 or more bits of the quotient, the last
    one set if a remainder is left, are rounded *)
Definition nearest (n d : Z) : b64 :=
  let k := Z.max 0 (66 - Z.log2 n + Z.log2 d) in
  let q := n * 2 ^ k / d in
  let z := 2 * q + (if n * 2 ^ k mod d =? 0 then 0 else 1) in
  binary_normalize prec64 emax64 _ _ mode_NE z (- k - 1) false.

(** a number in decimal notation that makes up the whole word; None also for a number
    too large for a double *)
Definition scan_double (w : string) : option b64 :=
  let '(neg, w) := read_sign w in
  let '(a, na, w) := read_digits w 0 0 in
  let '(m, nf, w) := match w with
                     | String "." w' => let '(m, n, w'') := read_digits w' a 0 in (m, n, w'')
                     | _ => (a, 0, w)
                     end in
  if na + nf =? 0 then None else
  let ex := match w with
            | "" => Some 0
            | String c w' =>
                if Ascii.eqb c "e" || Ascii.eqb c "E" then
                  let '(eneg, w') := read_sign w' in
                  let '(e, ne, w'') := read_digits w' 0 0 in
                  match w'' with "" => if ne =? 0 then None else Some (if eneg then - e else e) | _ => None end
                else None
            end in
  match ex with
  | None => None
  | Some e =>
      let s := e - nf in
      let v := nearest (m * 10 ^ Z.max s 0) (10 ^ Z.max (- s) 0) in
      match v with
      | B754_infinity _ | B754_nan => None
      | B754_zero _ => Some (if neg then B754_zero true else v)
      | B754_finite _ mm ee H => Some (if neg then Bopp v else v)
      end
  end.

(** std::stod: strtod of the GNU C library sets errno for a result below the normal range
    (2^-1022), and then std::out_of_range is thrown. Simplified: results below the normal
    range that are exact, which need hundreds of digits, are not told apart; a number too
    large for a double gives InvalidArgument instead of OutOfRange; and a number that is
    followed by other characters, which std::stod takes, is not taken. *)
Definition below_normal (v : b64) : bool :=
  match v with B754_finite _ m _ _ => Z.pos m <? 2 ^ 52 | _ => false end.
Definition stod_double (w : string) : parsed b64 :=
  match scan_double w with
  | Some v => if below_normal v then OutOfRange else Parsed v
  | None => InvalidArgument
  end.
