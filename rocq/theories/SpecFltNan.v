(** Not a number: what goes in and what comes out. *)
From Coq Require Import PrimFloat List.
From Verif Require Import Base Out Libm.

(** One of the arguments is NaN. *)
Definition nan_among (xs : list float) : Prop := Exists (fun x => is_nan x = true) xs.

(** What is stored is NaN, by the guard (the macro NAN) or by arithmetic. *)
Definition lost (o : out float) : Prop :=
  match o with Kept => False | NaN => True | Set_ y => is_nan y = true end.

(** IEEE 754 on the mathematical library *)
Definition nan_through (M : NumM float) : Prop :=
  (forall x, is_nan x = true -> is_nan (fexp x) = true)
  /\ (forall x, is_nan x = true -> is_nan (fsin x) = true)
  /\ (forall x, is_nan x = true -> is_nan (fcos x) = true)
  /\ (forall x y, is_nan x = true -> flog10 x = Ok y -> is_nan y = true)
  /\ (forall x y, is_nan x = true -> fasin x = Ok y -> is_nan y = true)
  /\ (forall x y z, is_nan x = true -> (y =? 0)%float = false -> fpow x y = Ok z -> is_nan z = true)
  /\ (forall x y z, is_nan y = true -> (x =? 1)%float = false -> fpow x y = Ok z -> is_nan z = true).
