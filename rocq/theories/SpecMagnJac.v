(** What the iterative magnetometer calibration minimises: how far corrected
    readings are from having one magnitude R. *)
From Coq Require Import List Arith Reals.
From Verif Require Import SpecReal.
Import ListNotations.
Local Open Scope R_scope.

(** The reading h with the offset b added *)
Definition moved_by (b h : nat -> R) : list R := [h 0%nat + b 0%nat; h 1%nat + b 1%nat; h 2%nat + b 2%nat].

(** Sphere: the sum over the readings of R - |h + b| *)
Definition misfit_sphere (n : nat) (p : nat -> nat -> R) (r : R) (b : nat -> R) : R :=
  bigsum n (fun i => r - rnorm (moved_by b (p i))).

(** The nine parameters of the ellipsoid fit in the order the code keeps them:
    the upper triangle of K row by row, then the offset *)
Definition soft (g : nat -> R) (i j : nat) : R :=
  match i, j with
  | 0, 0 => g 0 | 0, 1 | 1, 0 => g 1 | 0, 2 | 2, 0 => g 2
  | 1, 1 => g 3 | 1, 2 | 2, 1 => g 4 | _, _ => g 5
  end%nat.
Definition hard (g : nat -> R) (k : nat) : R := g (6 + k)%nat.

(** K (h + b) *)
Definition corrected (K : nat -> nat -> R) (b h : nat -> R) (i : nat) : R :=
  bigsum 3 (fun j => K i j * (h j + b j)).
Definition corrected3 (K : nat -> nat -> R) (b h : nat -> R) : list R := map (corrected K b h) [0; 1; 2]%nat.

(** Ellipsoid: the sum over the readings of R - |K (h + b)| *)
Definition misfit_ellipsoid (n : nat) (p : nat -> nat -> R) (r : R) (g : nat -> R) : R :=
  bigsum n (fun i => r - rnorm (corrected3 (soft g) (hard g) (p i))).

(** Parameter k replaced by x *)
Definition with_par (g : nat -> R) (k : nat) (x : R) (i : nat) : R := if (i =? k)%nat then x else g i.
