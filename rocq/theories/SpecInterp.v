(** Specification vocabulary for interpolation tables. *)
From Coq Require Import List Arith Reals.
Import ListNotations.
Local Open Scope R_scope.

(** abscissa and ordinate of entry i *)
Definition X (xy : list (R * R)) (i : nat) : R := fst (nth i xy (0, 0)).
Definition Y (xy : list (R * R)) (i : nat) : R := snd (nth i xy (0, 0)).

Definition ascending (xy : list (R * R)) : Prop :=
  forall i, (S i < length xy)%nat -> X xy i <= X xy (S i).
Definition descending (xy : list (R * R)) : Prop :=
  forall i, (S i < length xy)%nat -> X xy (S i) <= X xy i.

(** y lies on the straight line through (x1,y1) and (x3,y3) above x *)
Definition on_line (x1 y1 x3 y3 x y : R) : Prop := (y - y1) * (x3 - x1) = (x - x1) * (y3 - y1).

(** The cubic through (x0,y0) and (x1,y1) with second derivatives z0 and z1 at
    these points. *)
Definition cubic (x0 y0 z0 x1 y1 z1 x : R) : R :=
  y0 + (x - x0) * ((y1 - y0) / (x1 - x0) - (x1 - x0) * (2 * z0 + z1) / 6)
  + (x - x0) ^ 2 * (z0 / 2) + (x - x0) ^ 3 * ((z1 - z0) / (6 * (x1 - x0))).
