(** Scalar output parameters and C integers. *)
From Coq Require Import ZArith Bool.
From Verif Require Import Base.

(** What a function did to a scalar output parameter: nothing, assigned NAN,
    or assigned a number. *)
Inductive out (T : Type) : Type :=
| Kept
| NaN
| Set_ (x : T).
Arguments Kept {T}.
Arguments NaN {T}.
Arguments Set_ {T} x.

(** int: 32 bits; signed overflow is undefined (C11 6.5p5) *)
Definition INT_MAX : Z := 2147483647.
Definition INT_MIN : Z := -2147483648.
Definition in_int (z : Z) : bool := ((INT_MIN <=? z) && (z <=? INT_MAX))%Z.
Definition int_ (z : Z) : outcome Z := if in_int z then Ok z else UB IntOverflow.
(** a / b on int truncates towards zero (C11 6.5.5p6) *)
Definition idiv (a b : Z) : outcome Z :=
  if (b =? 0)%Z then UB IntDivZero else int_ (Z.quot a b).
