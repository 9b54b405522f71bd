(** The size of a determinant with all its products taken positive, and the
    bound on the error of the library's expansion in machine arithmetic. *)
From Coq Require Import Reals Arith Factorial.
From Verif Require Import SpecFlt SpecReal.
Open Scope R_scope.

(** f without its first row and its column j *)
Definition drop (j : nat) (f : nat -> nat -> R) : nat -> nat -> R :=
  fun a b => f (S a) (if (b <? j)%nat then b else S b).

(** The sum over all ways to choose one element from every row and column of
    the products of their absolute values (for non-negative f, the permanent) *)
Fixpoint absperm (n : nat) (f : nat -> nat -> R) : R :=
  match n with
  | O => 1
  | S n' => bigsum (S n') (fun j => Rabs (f O j) * absperm n' (drop j f))
  end.

(** Error of an n x n determinant of entries of size at most A (A >= 1): n^2
    roundings, and the contribution of underflow *)
Definition det_bound (n : nat) (f : nat -> nat -> R) (A : R) : R :=
  gam (n * n) * absperm n f + (1 + gam (n * n)) * (4 ^ n * INR (fact n) * A ^ n) * eta.
