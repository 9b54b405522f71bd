(** Specification vocabulary for matrix decompositions: plain sums over index
    functions, no reference to the model. *)
From Coq Require Import Arith Reals.
From Verif Require Import SpecReal.
Local Open Scope R_scope.

(** Kronecker delta *)
Definition delta (i j : nat) : R := if (i =? j)%nat then 1 else 0.

(** rows and columns of the n x n matrix q are orthonormal *)
Definition orthogonal (n : nat) (q : nat -> nat -> R) : Prop :=
  (forall i j, (i < n)%nat -> (j < n)%nat -> bigsum n (fun k => q k i * q k j) = delta i j) /\
  (forall i j, (i < n)%nat -> (j < n)%nat -> bigsum n (fun k => q i k * q j k) = delta i j).

(** zero below the diagonal; zero below the first subdiagonal *)
Definition upper_triangular (n : nat) (r : nat -> nat -> R) : Prop :=
  forall i j, (i < n)%nat -> (j < i)%nat -> r i j = 0.
Definition upper_hessenberg (n : nat) (r : nat -> nat -> R) : Prop :=
  forall i j, (i < n)%nat -> (S j < i)%nat -> r i j = 0.

(** f = g as n x n matrices *)
Definition same (n : nat) (f g : nat -> nat -> R) : Prop :=
  forall i j, (i < n)%nat -> (j < n)%nat -> f i j = g i j.

(** the columns of the r x c matrix f are linearly independent *)
Definition independent_columns (r c : nat) (f : nat -> nat -> R) : Prop :=
  forall x : nat -> R, (forall i, (i < r)%nat -> bigsum c (fun j => f i j * x j) = 0) ->
  forall j, (j < c)%nat -> x j = 0.

(** x^T f x > 0 for every non-zero x *)
Definition positive_definite (n : nat) (f : nat -> nat -> R) : Prop :=
  forall x : nat -> R, (exists i, (i < n)%nat /\ x i <> 0) ->
  0 < bigsum n (fun a => bigsum n (fun b => x a * f a b * x b)).
