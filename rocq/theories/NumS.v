(** IEEE-754 binary32 arithmetic: the [Num] instance for the configuration
    CONFIG_ZSL_SINGLE_PRECISION=y, where zsl_real_t is float
    (include/zsl/zsl.h:48-49) and ZSL_SQRT is sqrtf (:67).  The numbers and
    operations are those of Flocq, rounded to nearest.

    Simplification: in C a literal without suffix is a double, so that an
    expression mixing it with a float is evaluated in double and rounded when
    stored.  Here literals are rounded to float.  The theorems are about
    functions whose only literals are 0.0 and 1.0. *)
From Coq Require Import ZArith Bool.
From Flocq Require Import Core BinarySingleNaN.
From Verif Require Import Base.

Notation single := (binary_float 24 128).

Lemma prec24 : Prec_gt_0 24. Proof. reflexivity. Qed.
Lemma max128 : Prec_lt_emax 24 128. Proof. reflexivity. Qed.

Definition S_add : single -> single -> single := @Bplus 24 128 prec24 max128 mode_NE.
Definition S_sub : single -> single -> single := @Bminus 24 128 prec24 max128 mode_NE.
Definition S_mul : single -> single -> single := @Bmult 24 128 prec24 max128 mode_NE.
Definition S_div : single -> single -> single := @Bdiv 24 128 prec24 max128 mode_NE.
Definition S_sqrt : single -> single := @Bsqrt 24 128 prec24 max128 mode_NE.
Definition S_of_Z (z : Z) : single := @binary_normalize 24 128 prec24 max128 mode_NE z 0 false.

(** Decimal literal m * 10^-e, rounded once when both operands are exact *)
Definition S_lit (m e : Z) : single :=
  if (0 <=? e)%Z then S_div (S_of_Z m) (S_of_Z (10 ^ e)) else S_of_Z (m * 10 ^ (- e)).

(** Same representation (NaN payloads are not visible here) *)
Definition S_bits (x y : single) : bool :=
  match x, y with
  | B754_nan, B754_nan => true
  | B754_nan, _ | _, B754_nan => false
  | _, _ => Beqb x y && Bool.eqb (Bsign x) (Bsign y)
  end.

#[global] Instance NumS : Num single := {
  f0 := B754_zero false;
  f1 := S_of_Z 1;
  fadd := S_add;
  fsub := S_sub;
  fmul := S_mul;
  fdiv := fun x y => Ok (S_div x y);
  fneg := Bopp;
  fabs := Babs;
  fsqrt := fun x => Ok (S_sqrt x);
  flt := Bltb;
  fle := Bleb;
  feq := Beqb;
  fbits := S_bits;
  flit := S_lit;
  fofZ := S_of_Z;
  fnan := B754_nan
}.
