(** Quaternions of binary32 numbers: what "unit up to rounding" means. *)
From Flocq Require Import Core BinarySingleNaN.
From Coq Require Import ZArith Reals List.
From Verif Require Import Base NumS SpecVec SpecSgl MQuat.
Open Scope R_scope.

(** Every component is a number *)
Definition finite_quat_s (q : quat single) : Prop :=
  finites (qr q) /\ finites (qi q) /\ finites (qj q) /\ finites (qk q).

(** The exact square of the length *)
Definition norm2_s (q : quat single) : R :=
  SR (qr q) * SR (qr q) + SR (qi q) * SR (qi q) + SR (qj q) * SR (qj q) + SR (qk q) * SR (qk q).

(** Length 1 up to nine units of 2^-24 in its square: about 3e-7 *)
Definition near_unit_s (q : quat single) : Prop := finite_quat_s q /\ Rabs (norm2_s q - 1) <= 9 * us.

(** All components are 0 or -0 *)
Definition zero_quat_s (q : quat single) : Prop :=
  finite_quat_s q /\ SR (qr q) = 0 /\ SR (qi q) = 0 /\ SR (qj q) = 0 /\ SR (qk q) = 0.

(** Some component is NaN or infinite *)
Definition broken_s (q : quat single) : Prop := ~ finite_quat_s q.
