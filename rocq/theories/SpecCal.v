(** What magnetometer readings look like: points of an ellipsoid. *)
From Coq Require Import List Reals.
From Verif Require Import SpecReal SpecStat.
Local Open Scope R_scope.

(** (x - c)^T M (x - c) *)
Definition quad_at (M : nat -> nat -> R) (c x : nat -> R) : R :=
  bigsum 3 (fun i => bigsum 3 (fun j => M i j * (x i - c i) * (x j - c j))).

(** x lies on the ellipsoid of centre c and shape M *)
Definition on_ellipsoid (M : nat -> nat -> R) (c x : nat -> R) : Prop := quad_at M c x = 1.

(** x lies on the sphere of centre c and radius rho *)
Definition on_sphere (c : nat -> R) (rho : R) (x : nat -> R) : Prop :=
  bigsum 3 (fun i => (x i - c i) * (x i - c i)) = rho * rho.

(** along axis j some reading is at each end of the sphere *)
Definition reaches_poles (n : nat) (p : nat -> nat -> R) (c : nat -> R) (rho : R) (j : nat) : Prop :=
  (exists i, (i < n)%nat /\ p i j = c j + rho) /\ (exists i, (i < n)%nat /\ p i j = c j - rho).

(** the nine quadric terms of reading i *)
Definition design (p : nat -> nat -> R) (i j : nat) : R :=
  nth j (quad_terms (p i 0%nat) (p i 1%nat) (p i 2%nat)) 0.

(** the magnitude of the field: 50 when the caller gives none *)
Definition field_of (me : option R) : R := match me with Some x => x | None => 50 end.
