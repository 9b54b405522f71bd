(** What a binary32 number means, and the constants of the classical error
    bounds in single precision. *)
From Flocq Require Import Core BinarySingleNaN.
From Coq Require Import ZArith Reals.
From Verif Require Import NumS.
Open Scope R_scope.

(** The real number a finite machine number stands for (0 for infinities and
    NaN, which the theorems exclude) *)
Definition SR (x : single) : R :=
  match x with
  | B754_finite s m e _ => (if s then -1 else 1) * IZR (Zpos m) * powerRZ 2 e
  | _ => 0
  end.

(** Neither an infinity nor a NaN *)
Definition finites (x : single) : Prop := is_finite x = true.

(** Unit roundoff: half a unit in the last place of 1 *)
Definition us : R := / 2 ^ 24.

(** Half the smallest positive machine number (2^-149) *)
Definition etas : R := / 2 ^ 150.

(** Growth of k relative errors of at most [us] each *)
Definition gams (k : nat) : R := (1 + us) ^ k - 1.

(** Bound on the error of an n-term sum of products, a being the sum of the
    absolute values of the products *)
Definition dot_bounds (n : nat) (a : R) : R := gams (S n) * a + (1 + gams n) * INR n * etas.

(** Contribution of underflow to the error of an n-term norm (about
    sqrt n * 10^-23) *)
Definition tinys (n : nat) : R := (1 + us) * sqrt ((1 + gams n) * INR n * etas).
