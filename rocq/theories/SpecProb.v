(** Specification vocabulary for probability: binomial numbers, the
    probability of a count, entropy. *)
From Coq Require Import List ZArith Reals.
From Verif Require Import SpecReal.
Import ListNotations.
Local Open Scope R_scope.

(** the number of k-element subsets of n elements: Pascal's triangle *)
Fixpoint choose (n k : nat) : nat :=
  match n, k with
  | _, O => 1
  | O, S _ => 0
  | S n, S k => choose n k + choose n (S k)
  end.

(** the probability of exactly k successes in n independent trials, by the
    outcome of the last one *)
Fixpoint successes (p : R) (n k : nat) : R :=
  match n, k with
  | O, O => 1
  | O, S _ => 0
  | S n, O => (1 - p) * successes p n 0
  | S n, S k => p * successes p n k + (1 - p) * successes p n (S k)
  end.

Definition log2 (x : R) : R := ln x / ln 2.

(** Shannon entropy in bits *)
Definition shannon (ps : list R) : R := rsum (map (fun p => p * log2 (/ p)) ps).
