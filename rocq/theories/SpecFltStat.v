(** What is assumed of the machine's floor and conversion to an integer by the
    theorems about order statistics in double precision: that they are exact on
    the indices that occur (below 2^31). *)
From Coq Require Import Floats.PrimFloat.
From Coq Require Import ZArith Reals.
From Verif Require Import Base Libm SpecFlt.
Open Scope R_scope.

Definition floors (M : NumM PrimFloat.float) : Prop :=
  (forall x : PrimFloat.float, finite x -> 0 <= FR x < 2147483648 ->
     finite (ffloor x) /\ FR (ffloor x) = IZR (Int_part (FR x))) /\
  (forall (x : PrimFloat.float) k, finite x -> FR x = IZR k -> (0 <= k < 2147483648)%Z -> ftrunc x = k).
