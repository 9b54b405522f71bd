(** Vocabulary of the vector specifications (independent of the model's loops). *)
From Coq Require Import List Arith ZArith Bool.
From Verif Require Import Base.
Import ListNotations.
Set Implicit Arguments.

(** The vector with elements xs in a buffer that has [tl] behind them. *)
Definition vec_of {T} (xs : list T) (tl : buf T) : vec T :=
  Vec (length xs) (cells xs ++ tl).

(** Element-wise combination of two lists. *)
Fixpoint map2 {A B C} (f : A -> B -> C) (xs : list A) (ys : list B) : list C :=
  match xs, ys with
  | x :: xs', y :: ys' => f x y :: map2 f xs' ys'
  | _, _ => []
  end.

(** Sum of products in the order and with the operations of the machine:
    ((0 + x0*y0) + x1*y1) + ... *)
Definition dot {T} {N : Num T} (xs ys : list T) : T :=
  fold_left fadd (map2 fmul xs ys) f0.

(** ((0 + x0) + x1) + ... *)
Definition total {T} {N : Num T} (xs : list T) : T := fold_left fadd xs f0.
