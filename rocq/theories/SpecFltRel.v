(** Relative accuracy of a chain of machine operations. *)
From Coq Require Import PrimFloat Reals.
From Verif Require Import SpecFlt.
Open Scope R_scope.

(** The finite machine number x is r up to k roundings: each of them
    multiplies or divides by at most 1 + 2^-53. *)
Definition within (k : nat) (x : float) (r : R) : Prop :=
  finite x /\ exists t, / (1 + uu) ^ k <= t <= (1 + uu) ^ k /\ FR x = r * t.

(** A machine number of moderate size: between 2^-100 (about 8e-31) and 2^100
    (about 1e30) in magnitude, neither NaN nor infinite *)
Definition moderate (x : float) : Prop :=
  finite x /\ / 2 ^ 100 <= Rabs (FR x) <= 2 ^ 100.

(** ... and greater than zero *)
Definition positive (x : float) : Prop := moderate x /\ 0 < FR x.
