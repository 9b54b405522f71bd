(** Quaternions of machine numbers: what "unit up to rounding" means. *)
From Coq Require Import Floats.PrimFloat.
From Coq Require Import ZArith Reals List.
From Verif Require Import Base SpecVec SpecFlt MQuat SpecSafeFus.
Import ListNotations.
Open Scope R_scope.

(** Every component is a number *)
Definition finite_quat (q : quat float) : Prop :=
  finite (qr q) /\ finite (qi q) /\ finite (qj q) /\ finite (qk q).

(** The exact square of the length *)
Definition norm2 (q : quat float) : R :=
  FR (qr q) * FR (qr q) + FR (qi q) * FR (qi q) + FR (qj q) * FR (qj q) + FR (qk q) * FR (qk q).

(** Length 1 up to nine units of 2^-53 in its square: about 5e-16 *)
Definition near_unit (q : quat float) : Prop := finite_quat q /\ Rabs (norm2 q - 1) <= 9 * uu.

(** All components are 0 or -0 *)
Definition zero_quat (q : quat float) : Prop :=
  finite_quat q /\ FR (qr q) = 0 /\ FR (qi q) = 0 /\ FR (qj q) = 0 /\ FR (qk q) = 0.

(** Some component is NaN or infinite *)
Definition broken (q : quat float) : Prop := ~ finite_quat q.

(** Every component is NaN *)
Definition all_nan (q : quat float) : Prop :=
  is_nan (qr q) = true /\ is_nan (qi q) = true /\ is_nan (qj q) = true /\ is_nan (qk q) = true.

(** Some component is NaN *)
Definition has_nan (q : quat float) : Prop :=
  is_nan (qr q) = true \/ is_nan (qi q) = true \/ is_nan (qj q) = true \/ is_nan (qk q) = true.

(** A sensor's vector with a NaN among its three components *)
Definition nan_in (v : vec float) : Prop :=
  exists i x, (i < 3)%nat /\ nth_error (vbuf v) i = Some (Some x) /\ is_nan x = true.

(** Only the gyroscope speaks, with finite rates of at most B *)
Definition gyro_only (B : R) (i : reading float) : Prop :=
  accel i = None /\ magn i = None /\ exists a b c tl, gyro i = Some (vec_of [a; b; c] tl)
  /\ finite a /\ finite b /\ finite c /\ Rabs (FR a) <= B /\ Rabs (FR b) <= B /\ Rabs (FR c) <= B.
