(** What a binary64 number means, and the constants of the classical error
    bounds.  Only the standard library's [Prim2SF] (mantissa and exponent of a
    machine number) is used. *)
From Coq Require Import PrimFloat FloatOps SpecFloat.
From Coq Require Import ZArith Reals List.
Open Scope R_scope.

(** The real number a finite machine number stands for (0 for infinities and
    NaN, which the theorems exclude) *)
Definition FR (x : float) : R :=
  match Prim2SF x with
  | S754_finite s m e => (if s then -1 else 1) * IZR (Zpos m) * powerRZ 2 e
  | _ => 0
  end.

(** Neither an infinity nor a NaN *)
Definition finite (x : float) : Prop := PrimFloat.is_finite x = true.

(** Unit roundoff: half a unit in the last place of 1 *)
Definition uu : R := / 2 ^ 53.

(** Half the smallest positive machine number (2^-1074) *)
Definition eta : R := / 2 ^ 1075.

(** Growth of k relative errors of at most [uu] each *)
Definition gam (k : nat) : R := (1 + uu) ^ k - 1.

(** Bound on the error of an n-term sum of products, a being the sum of the
    absolute values of the products *)
Definition dot_bound (n : nat) (a : R) : R := gam (S n) * a + (1 + gam n) * INR n * eta.

(** Contribution of underflow to the error of an n-term norm (about
    sqrt n * 10^-162) *)
Definition tiny (n : nat) : R := (1 + uu) * sqrt ((1 + gam n) * INR n * eta).
