(** Real-number specifications: sums, dot products, norms. *)
From Coq Require Import List Reals.
Import ListNotations.
Local Open Scope R_scope.

Fixpoint rsum (xs : list R) : R :=
  match xs with [] => 0 | x :: xs' => x + rsum xs' end.

Fixpoint rdot (xs ys : list R) : R :=
  match xs, ys with
  | x :: xs', y :: ys' => x * y + rdot xs' ys'
  | _, _ => 0
  end.

Definition rnorm (xs : list R) : R := sqrt (rdot xs xs).

Definition rscale (k : R) (xs : list R) : list R := map (fun x => k * x) xs.

(** x_0 + x_1 + ... + x_{n-1} of a function *)
Fixpoint bigsum (n : nat) (f : nat -> R) : R :=
  match n with O => 0 | S n' => bigsum n' f + f n' end.

(** product of matrices given by their entries, n being the inner size *)
Definition mmul (n : nat) (f g : nat -> nat -> R) : nat -> nat -> R :=
  fun i j => bigsum n (fun k => f i k * g k j).

(** arithmetic mean *)
Definition rmean (xs : list R) : R := rsum xs / INR (length xs).
