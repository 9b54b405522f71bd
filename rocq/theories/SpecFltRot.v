(** Quaternions of machine numbers as quaternions of reals, and the distance
    between two quaternions. *)
From Coq Require Import Floats.PrimFloat.
From Coq Require Import Reals.
From Verif Require Import Base SpecFlt MQuat SpecQuat.
Open Scope R_scope.

(** The real quaternion a machine quaternion stands for *)
Definition FQ (q : quat float) : quat R := Quat (FR (qr q)) (FR (qi q)) (FR (qj q)) (FR (qk q)).

(** Euclidean distance in four dimensions *)
Definition qdist (p q : quat R) : R := qnorm (qplus p (qscale (-1) q)).
