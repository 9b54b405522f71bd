(** What the safety theorems for vectors, quaternions, colours and physics say. *)
From Coq Require Import List Arith ZArith.
From Verif Require Import Base Libm SpecSafe MVec.
Set Implicit Arguments.

(** All elements of a vector have values; its elements lie inside its buffer *)
Definition wf T (v : vec T) : Prop := vec_filled (vsz v) v.
Definition fits T (v : vec T) : Prop := vsz v <= length (vbuf v).

(** Sizes need only agree when CONFIG_ZSL_BOUNDS_CHECKS is off *)
Definition unless_checked (bc : bool) (P : Prop) : Prop := bc = true \/ P.

(** A function of the mathematical library answers a number, or has none in an
    arithmetic whose own operations need not have one either *)
Definition answers_or_none T (N : Num T) (m : outcome T) : Prop :=
  (exists x, m = Ok x) \/ (m = NotReal /\ ~ total N).
Definition lawful_libm T (N : Num T) (M : NumM T) : Prop :=
  (forall x, answers_or_none N (facos x)) /\ (forall x, answers_or_none N (fasin x)) /\
  (forall x, answers_or_none N (ftan x)) /\ (forall x, answers_or_none N (flog x)) /\
  (forall x, answers_or_none N (flog10 x)) /\ (forall x y, answers_or_none N (fpow x y)).

Definition anything A (_ : A) : Prop := True.

(** Code 0 and a vector of n elements with values, or code -EINVAL and the
    output as it was *)
Definition done_or_refused T (old : vec T) (n : nat) (r : Z * vec T) : Prop :=
  (fst r = 0%Z /\ vec_filled n (snd r)) \/ (fst r = (- EINVAL)%Z /\ snd r = old).
