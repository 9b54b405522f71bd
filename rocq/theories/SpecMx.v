(** The matrices of the Mathematical Components library as the specification
    of linear algebra: [mx r c f] is the r x c real matrix with elements f i j. *)
From Coq Require Import Reals.
Set Warnings "-notation-overridden,-ambiguous-paths".
From mathcomp Require Import all_ssreflect all_algebra.
From Verif Require Import RField.
Set Implicit Arguments.

Definition mx (r c : nat) (f : nat -> nat -> R) : 'M[R]_(r, c) := \matrix_(i < r, j < c) f i j.
