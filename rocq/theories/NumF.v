(** IEEE-754 binary64 arithmetic: the [Num] instance over Coq's primitive
    floats.  This is what zsl_real_t is with the default configuration
    (CONFIG_ZSL_SINGLE_PRECISION=n, include/zsl/zsl.h:45-49). *)
From Coq Require Import ZArith Bool PrimFloat Uint63 FloatOps.
From Verif Require Import Base.

Definition F_of_Z (z : Z) : float :=
  match z with
  | Z0 => zero
  | Zpos _ => of_uint63 (Uint63.of_Z z)
  | Zneg p => (- of_uint63 (Uint63.of_Z (Zpos p)))%float
  end.

Fixpoint F_pow10 (n : nat) : float :=
  match n with O => one | S n' => (F_of_Z 10 * F_pow10 n')%float end.

(** Decimal literal m * 10^-e.  For |m| < 2^53 and |e| <= 22 both operands are
    exact, so the single rounding of / or * is the rounding of the literal. *)
Definition F_lit (m e : Z) : float :=
  if (0 <=? e)%Z then (F_of_Z m / F_pow10 (Z.to_nat e))%float
  else (F_of_Z m * F_pow10 (Z.to_nat (- e)))%float.

Definition F_isnan (x : float) : bool := negb (x =? x)%float.

(** Same representation (NaN payloads are not visible in Coq's floats). *)
Definition F_bits (x y : float) : bool :=
  if F_isnan x then F_isnan y
  else ((x =? y) && Bool.eqb (get_sign x) (get_sign y))%float.

#[global] Instance NumF : Num float := {
  f0 := zero;
  f1 := one;
  fadd := PrimFloat.add;
  fsub := PrimFloat.sub;
  fmul := PrimFloat.mul;
  fdiv := fun x y => Ok (x / y)%float;
  fneg := PrimFloat.opp;
  fabs := PrimFloat.abs;
  fsqrt := fun x => Ok (PrimFloat.sqrt x);
  flt := PrimFloat.ltb;
  fle := PrimFloat.leb;
  feq := PrimFloat.eqb;
  fbits := F_bits;
  flit := F_lit;
  fofZ := F_of_Z;
  fnan := nan
}.

Definition F (m e : Z) : float := F_lit m e.
