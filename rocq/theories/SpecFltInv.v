(** The inverse of a 3 x 3 matrix: what it is, and the bound on its error in
    machine arithmetic. *)
From Coq Require Import Reals Arith.
From Verif Require Import SpecFlt SpecReal SpecFltDet.
Open Scope R_scope.

(** X is the inverse of F *)
Definition inverse3 (F X : nat -> nat -> R) : Prop :=
  forall i j, (i < 3)%nat -> (j < 3)%nat ->
  F i 0%nat * X 0%nat j + F i 1%nat * X 1%nat j + F i 2%nat * X 2%nat j = (if (i =? j)%nat then 1 else 0).

(** the determinant *)
Definition sarrus (F : nat -> nat -> R) : R :=
  F 0%nat 0%nat * (F 1%nat 1%nat * F 2%nat 2%nat - F 2%nat 1%nat * F 1%nat 2%nat)
  - F 1%nat 0%nat * (F 0%nat 1%nat * F 2%nat 2%nat - F 2%nat 1%nat * F 0%nat 2%nat)
  + F 2%nat 0%nat * (F 0%nat 1%nat * F 1%nat 2%nat - F 1%nat 1%nat * F 0%nat 2%nat).

(** the two products that make entry (i, j) of the adjoint, taken positive *)
Definition next (k : nat) : nat := match k with 0 => 1 | 1 => 2 | _ => 0 end.
Definition abscof (F : nat -> nat -> R) (i j : nat) : R :=
  Rabs (F (next j) (next i)) * Rabs (F (next (next j)) (next (next i)))
  + Rabs (F (next (next j)) (next i)) * Rabs (F (next j) (next (next i))).

(** Error of entry (i, j): four roundings, the error of the determinant, and
    underflow.  D is the determinant, b its error, A bounds the entries. *)
Definition inv_bound (F : nat -> nat -> R) (A b : R) (i j : nat) : R :=
  let D := Rabs (sarrus F) in
  abscof F i j / (D - b) * (gam 4 + b / D) + 4 * (A ^ 2 + / (D - b) + 1) * eta.
