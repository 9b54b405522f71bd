(** Vocabulary for the convergence of eigenvalue computations. *)
From Coq Require Import Reals.
Set Warnings "-notation-overridden,-ambiguous-paths".
From mathcomp Require Import all_ssreflect all_algebra.
From Verif Require Import SpecReal RField SpecMx.
Local Delimit Scope R_scope with Re.
Local Open Scope ring_scope.

Definition symmetric (n : nat) (f : nat -> nat -> R) : Prop :=
  forall i j, (i < n)%coq_nat -> (j < n)%coq_nat -> f i j = f j i.

(** x^T f x >= 0 for every x *)
Definition positive_semidefinite (n : nat) (f : nat -> nat -> R) : Prop :=
  forall x : nat -> R, (0 <= bigsum n (fun a => bigsum n (fun b => Rmult (Rmult (x a) (f a b)) (x b))))%Re.

(** no two eigenvalues other than 0 are opposite *)
Definition no_opposite_eigenvalues (n : nat) (f : nat -> nat -> R) : Prop :=
  forall x : R, x <> 0%Re -> eigenvalue (mx n n f) x -> eigenvalue (mx n n f) (Ropp x) -> False.

(** l_0, ..., l_{n-1} are the eigenvalues of f with their multiplicities *)
Definition eigenvalues_of (n : nat) (f : nat -> nat -> R) (l : nat -> R) : Prop :=
  char_poly (mx n n f) = \prod_(i < n) ('X - (l i)%:P).
