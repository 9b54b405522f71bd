(** Quaternions, independently of the code: a quaternion is a scalar and a
    vector of R^3. *)
From Coq Require Import Reals.
From Verif Require Import MQuat.
Local Open Scope R_scope.

Definition v3 : Type := (R * R * R)%type.
Definition vadd (u v : v3) : v3 :=
  match u, v with (a, b, c), (x, y, z) => (a + x, b + y, c + z) end.
Definition vscale (s : R) (u : v3) : v3 := match u with (a, b, c) => (s * a, s * b, s * c) end.
Definition vdot (u v : v3) : R :=
  match u, v with (a, b, c), (x, y, z) => a * x + b * y + c * z end.
Definition vcross (u v : v3) : v3 :=
  match u, v with (a, b, c), (x, y, z) => (b * z - c * y, c * x - a * z, a * y - b * x) end.
Definition vlen (u : v3) : R := sqrt (vdot u u).

(** scalar and vector part *)
Definition re (q : quat R) : R := qr q.
Definition im (q : quat R) : v3 := (qi q, qj q, qk q).
Definition mkq (s : R) (v : v3) : quat R := match v with (x, y, z) => Quat s x y z end.

(** Hamilton's product: (a, u)(b, v) = (ab - u.v, a v + b u + u x v) *)
Definition hprod (p q : quat R) : quat R :=
  mkq (re p * re q - vdot (im p) (im q))
      (vadd (vadd (vscale (re p) (im q)) (vscale (re q) (im p))) (vcross (im p) (im q))).

(** conjugate, square of the magnitude, magnitude, inner product *)
Definition qconj (q : quat R) : quat R := mkq (re q) (vscale (-1) (im q)).
Definition qdot (p q : quat R) : R := re p * re q + vdot (im p) (im q).
Definition qnorm (q : quat R) : R := sqrt (qdot q q).
Definition qscale (s : R) (q : quat R) : quat R := mkq (s * re q) (vscale s (im q)).
Definition qplus (p q : quat R) : quat R := mkq (re p + re q) (vadd (im p) (im q)).
Definition qone : quat R := mkq 1 (0, 0, 0).
Definition qzero : quat R := mkq 0 (0, 0, 0).
Definition unit_quat (q : quat R) : Prop := qdot q q = 1.

(** q^n *)
Fixpoint qpown (q : quat R) (n : nat) : quat R :=
  match n with O => qone | S n' => hprod q (qpown q n') end.

(** the rotation of R^3 by a unit quaternion (a, u):
    v + 2a (u x v) + 2 u x (u x v) *)
Definition rotate (q : quat R) (v : v3) : v3 :=
  vadd v (vadd (vscale (2 * re q) (vcross (im q) v))
               (vscale 2 (vcross (im q) (vcross (im q) v)))).

(** rotation by the angle b about the unit axis n (Rodrigues) *)
Definition rodrigues (n : v3) (b : R) (v : v3) : v3 :=
  vadd (vscale (cos b) v)
       (vadd (vscale (sin b) (vcross n v)) (vscale ((1 - cos b) * vdot n v) n)).

(** elementary rotations *)
Definition rot_x (a : R) : quat R := Quat (cos (a / 2)) (sin (a / 2)) 0 0.
Definition rot_y (a : R) : quat R := Quat (cos (a / 2)) 0 (sin (a / 2)) 0.
Definition rot_z (a : R) : quat R := Quat (cos (a / 2)) 0 0 (sin (a / 2)).

(** the matrix of a rotation: column j is the image of the j-th basis vector *)
Definition basis (j : nat) : v3 :=
  match j with 0%nat => (1, 0, 0) | 1%nat => (0, 1, 0) | _ => (0, 0, 1) end.
Definition coord (i : nat) (v : v3) : R :=
  match v with (x, y, z) => match i with 0%nat => x | 1%nat => y | _ => z end end.
Definition rotm (q : quat R) (i j : nat) : R := coord i (rotate q (basis j)).
(** a 3 x 3 matrix applied to a vector, and its determinant *)
Definition mapply (m : nat -> nat -> R) (v : v3) : v3 :=
  match v with (x, y, z) =>
    (m 0%nat 0%nat * x + m 0%nat 1%nat * y + m 0%nat 2%nat * z,
     m 1%nat 0%nat * x + m 1%nat 1%nat * y + m 1%nat 2%nat * z,
     m 2%nat 0%nat * x + m 2%nat 1%nat * y + m 2%nat 2%nat * z)
  end.
Definition mdet (m : nat -> nat -> R) : R :=
  vdot (m 0%nat 0%nat, m 1%nat 0%nat, m 2%nat 0%nat)
       (vcross (m 0%nat 1%nat, m 1%nat 1%nat, m 2%nat 1%nat)
               (m 0%nat 2%nat, m 1%nat 2%nat, m 2%nat 2%nat)).
