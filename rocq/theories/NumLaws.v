(** The laws of arithmetic the proofs rely on.  They hold for exact extended
    reals (NumXR.v) and for IEEE binary64 with rounding and overflow
    (NumB64Laws.v). *)
From Verif Require Import Base Num.

Section Defs.
Context {N : Num}.
Notation D := (D N).

(** not NaN *)
Definition nn (x : D) : Prop := neqb x x = true.
(** x <= y, neither is NaN *)
Definition nle (x y : D) : Prop := nn x /\ nn y /\ nltb y x = false.
(** x < y *)
Definition nlt (x y : D) : Prop := nltb x y = true.
(** equal as numbers (0 and -0 are) *)
Definition neqv (x y : D) : Prop := nle x y /\ nle y x.
(** finite: -INF < x < INF *)
Definition nfin (x : D) : Prop := nltb nninf x = true /\ nltb x ninf = true.

End Defs.

Record NumLaws (N : Num) := mkLaws {
  (* order *)
  lw_irrefl : forall x : D N, nltb x x = false;
  lw_trans : forall x y z : D N, nltb x y = true -> nltb y z = true -> nltb x z = true;
  lw_lt_nn : forall x y : D N, nltb x y = true -> nn x /\ nn y;
  lw_cotrans : forall x y z : D N, nn x -> nn y -> nn z -> nltb x z = true ->
      nltb x y = true \/ nltb y z = true;
  lw_eqb : forall x y : D N, neqb x y = true <->
      nn x /\ nn y /\ nltb x y = false /\ nltb y x = false;
  lw_inf_nn : nn (@ninf N);
  lw_inf_top : forall x : D N, nltb ninf x = false;
  lw_ninf_nn : nn (@nninf N);
  lw_ninf_bot : forall x : D N, nltb x nninf = false;

  (* integers *)
  lw_ofZ_fin : forall k, Z.abs k <= 2 ^ 53 -> nfin (@nofZ N k);
  lw_ofZ_le : forall k k', k <= k' -> nle (@nofZ N k) (nofZ k');
  lw_ofZ_lt : forall k k', k < k' -> Z.abs k <= 2 ^ 53 -> Z.abs k' <= 2 ^ 53 ->
      nlt (@nofZ N k) (nofZ k');
  lw_floor_ofZ : forall k, Z.abs k <= 2 ^ 53 -> nfloor (@nofZ N k) = Some k;
  lw_floor_fin : forall x : D N, nfin x -> exists k, nfloor x = Some k;
  lw_floor_some : forall (x : D N) k, nfloor x = Some k -> nfin x;
  lw_floor_mono : forall (x y : D N) k k', nle x y ->
      nfloor x = Some k -> nfloor y = Some k' -> k <= k';

  (* subtraction of finite values *)
  lw_sub_nn : forall x y : D N, nfin x -> nfin y -> nn (nsub x y);
  lw_sub_mono : forall x x' y y' : D N, nfin x -> nfin x' -> nfin y -> nfin y' ->
      nle x x' -> nle y' y -> nle (nsub x y) (nsub x' y');
  lw_sub_self : forall x : D N, nfin x -> neqv (nsub x x) n0;
  lw_sub_opp : forall x y : D N, nfin x -> nfin y ->
      nabs (nsub x y) = nabs (nsub y x);
  lw_sub_0 : forall x : D N, nfin x -> neqv (nsub x n0) x;

  (* absolute value *)
  lw_abs_nn : forall x : D N, nn x -> nle n0 (nabs x);
  lw_abs_fin : forall x : D N, nfin x -> nfin (nabs x);
  lw_abs_pos : forall x : D N, nle n0 x -> neqv (nabs x) x;
  lw_abs_neg_mono : forall x y : D N, nle x y -> nle y n0 -> nle (nabs y) (nabs x);

  (* products *)
  lw_sq_mono : forall x y : D N, nn x -> nn y -> nle (nabs x) (nabs y) ->
      nle (nmul x x) (nmul y y);
  lw_sq_pos : forall x : D N, nn x -> nle n0 (nmul x x);
  lw_mul_abs : forall x y : D N, nabs x = nabs y -> nmul x x = nmul y y;
  lw_mul_mono : forall x x' y : D N, nfin x' -> nfin y -> nle n0 x -> nle x x' -> nle n0 y ->
      nle (nmul x y) (nmul x' y);
  lw_mul_1 : forall x : D N, nfin x -> neqv (nmul x (nofZ 1)) x;
  lw_mul_mono_r : forall x y y' : D N, nfin x -> nfin y' -> nle n0 x -> nle n0 y -> nle y y' ->
      nle (nmul x y) (nmul x y');

  (* sums of non-negative values *)
  lw_add_mono : forall x x' y y' : D N, nle n0 x -> nle x x' -> nle n0 y -> nle y y' ->
      nle (nadd x y) (nadd x' y');
  lw_add_l : forall x y : D N, nle n0 x -> nle n0 y -> nle x (nadd x y);
  lw_add_r : forall x y : D N, nle n0 x -> nle n0 y -> nle y (nadd x y);
  lw_add_0 : forall x : D N, nle n0 x -> neqv (nadd x n0) x;

  (* square root *)
  lw_sqrt_mono : forall x y : D N, nle n0 x -> nle x y -> nle (nsqrt x) (nsqrt y);
  lw_sqrt_0 : neqv (nsqrt (@n0 N)) n0;

  (* division by a positive integer *)
  lw_div_mono : forall (x y : D N) k, 1 <= k <= 2 ^ 53 -> nle n0 x -> nle x y ->
      nle (ndiv x (nofZ k)) (ndiv y (nofZ k));
  lw_div_0 : forall k, 1 <= k <= 2 ^ 53 -> neqv (ndiv (@n0 N) (nofZ k)) n0;

  (* quotients of finite non-negative values by a positive one *)
  lw_quo_mono : forall x y z : D N, nfin x -> nfin y -> nfin z -> nle n0 x -> nle x y -> nlt n0 z ->
      nle (ndiv x z) (ndiv y z);
  lw_quo_self : forall x : D N, nfin x -> nlt n0 x -> neqv (ndiv x x) (nofZ 1);
  lw_quo_0 : forall x : D N, nfin x -> nlt n0 x -> neqv (ndiv n0 x) n0;
  lw_quo_1 : forall x : D N, nfin x -> neqv (ndiv x (nofZ 1)) x
}.

Existing Class NumLaws.
Arguments lw_irrefl {N _}. Arguments lw_trans {N _}. Arguments lw_lt_nn {N _}.
Arguments lw_cotrans {N _}. Arguments lw_eqb {N _}. Arguments lw_inf_nn {N _}.
Arguments lw_inf_top {N _}. Arguments lw_ninf_nn {N _}. Arguments lw_ninf_bot {N _}.
Arguments lw_ofZ_fin {N _}. Arguments lw_ofZ_le {N _}. Arguments lw_ofZ_lt {N _}.
Arguments lw_floor_ofZ {N _}. Arguments lw_floor_fin {N _}. Arguments lw_floor_some {N _}.
Arguments lw_floor_mono {N _}. Arguments lw_sub_nn {N _}. Arguments lw_sub_mono {N _}.
Arguments lw_sub_self {N _}. Arguments lw_sub_opp {N _}. Arguments lw_sub_0 {N _}.
Arguments lw_abs_nn {N _}. Arguments lw_abs_fin {N _}. Arguments lw_abs_pos {N _}.
Arguments lw_abs_neg_mono {N _}. Arguments lw_sq_mono {N _}. Arguments lw_sq_pos {N _}.
Arguments lw_mul_abs {N _}. Arguments lw_mul_mono {N _}. Arguments lw_mul_1 {N _}.
Arguments lw_mul_mono_r {N _}. Arguments lw_add_mono {N _}. Arguments lw_add_l {N _}.
Arguments lw_add_r {N _}. Arguments lw_add_0 {N _}. Arguments lw_sqrt_mono {N _}.
Arguments lw_sqrt_0 {N _}. Arguments lw_div_mono {N _}. Arguments lw_div_0 {N _}.
Arguments lw_quo_mono {N _}. Arguments lw_quo_self {N _}. Arguments lw_quo_0 {N _}.
Arguments lw_quo_1 {N _}.
