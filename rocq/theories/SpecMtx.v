(** Vocabulary of the matrix specifications (independent of the model's loops). *)
From Coq Require Import List Arith ZArith Bool.
From Verif Require Import Base.
Import ListNotations.
Set Implicit Arguments.

(** The r x c matrix with element f i j in row i, column j, stored row by row
    in a buffer that has [tl] behind it. *)
Definition mat_of {T} (r c : nat) (f : nat -> nat -> T) (tl : buf T) : mtx T :=
  Mtx r c (cells (map (fun k => f (k / c) (k mod c)) (seq 0 (r * c))) ++ tl).

(** An r x c matrix object with any contents, initialised or not. *)
Definition room {T} (r c : nat) (m : mtx T) : Prop :=
  mrows m = r /\ mcols m = c /\ r * c <= length (mbuf m).

(** The memory behind the elements of a matrix object. *)
Definition rest {T} (m : mtx T) : buf T := skipn (mrows m * mcols m) (mbuf m).

(** Row i and column j as lists. *)
Definition row_of {T} (c : nat) (f : nat -> nat -> T) (i : nat) : list T :=
  map (fun j => f i j) (seq 0 c).
Definition col_of {T} (r : nat) (f : nat -> nat -> T) (j : nat) : list T :=
  map (fun i => f i j) (seq 0 r).

(** ((0 + g 0) + g 1) + ... + g (n-1), in machine arithmetic *)
Definition msum {T} {N : Num T} (n : nat) (g : nat -> T) : T :=
  fold_left fadd (map g (seq 0 n)) f0.

(** The identity matrix *)
Definition mid {T} {N : Num T} (i j : nat) : T := if i =? j then f1 else f0.

(** Index a of the matrix obtained by deleting row (or column) i. *)
Definition skip_at (i a : nat) : nat := if a <? i then a else S a.
