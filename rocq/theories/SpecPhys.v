(** What the physics helpers promise: an answer that obeys a law, or a
    rejection. *)
From Coq Require Import ZArith Reals.
From Verif Require Import Base Out.
Local Open Scope R_scope.

(** The call accepts exactly the valid arguments.  It then returns 0 and stores
    a number that obeys the law; otherwise it returns -EINVAL and stores NAN. *)
Definition answers (r : outcome (Z * out R)) (valid : Prop) (law : R -> Prop) : Prop :=
  (valid -> exists x, r = Ok (0%Z, Set_ x) /\ law x)
  /\ (~ valid -> r = Ok ((- EINVAL)%Z, NaN)).

(** The call returns 0 and stores [x]. *)
Definition gives (r : outcome (Z * out R)) (x : R) : Prop := r = Ok (0%Z, Set_ x).

(** The call returns -EINVAL and stores NAN. *)
Definition rejects (r : outcome (Z * out R)) : Prop := r = Ok ((- EINVAL)%Z, NaN).

(** [x] is the root of [y]. *)
Definition root (y x : R) : Prop := 0 <= x /\ x * x = y.

(** Physical constants, in SI units, to the digits of include/zsl/consts.h. *)
Definition gravity : R := 9.807.              (* on the surface of the Earth *)
Definition newton_G : R := 6.67408e-11.
Definition planck_h : R := 6.62607015e-34.
Definition planck_hbar : R := 1.054571800e-34.
Definition charge_e : R := 1.602176634e-19.   (* also joules in an electronvolt *)
Definition coulomb_k : R := 8987551787.
Definition electron_m : R := 9.1093835611e-31.
Definition light_c : R := 299792458.
Definition gas_R : R := 8.314462618.
Definition vacuum_eps : R := 8.85e-12.
(** the circle constant to eleven decimals *)
Definition pi11 : R := 3.14159265359.
(** the base of the exponential to eleven decimals *)
Definition e11 : R := 2.71828182845.
