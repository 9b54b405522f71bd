(** What it means for a call to be safe, for any arithmetic. *)
From Coq Require Import List Arith ZArith.
From Verif Require Import Base.
Set Implicit Arguments.

(** Division and square root answer a number, or have none (exact arithmetic). *)
Definition lawful T (N : Num T) : Prop :=
  (forall a b : T, (exists c, fdiv a b = Ok c) \/ fdiv a b = NotReal) /\
  (forall a : T, (exists c, fsqrt a = Ok c) \/ fsqrt a = NotReal).

(** Division and square root always answer (IEEE 754: infinities and NaNs are
    answers). *)
Definition total T (N : Num T) : Prop :=
  (forall a b : T, exists c, fdiv a b = Ok c) /\ (forall a : T, exists c, fsqrt a = Ok c).

(** No undefined behaviour: nothing outside a buffer is touched and nothing
    indeterminate is used. *)
Definition never_ub A (m : outcome A) : Prop := forall u, m <> UB u.

(** The call ends without undefined behaviour; when it answers the answer
    satisfies P; and it does answer when the arithmetic is total. *)
Definition safe T (N : Num T) A (P : A -> Prop) (m : outcome A) : Prop :=
  never_ub m /\ m <> OutOfFuel /\ (forall r, m = Ok r -> P r) /\ (total N -> exists r, m = Ok r).

(** The first n cells of a buffer, the elements of a vector, of a matrix, have
    values. *)
Definition filled T (n : nat) (b : buf T) : Prop :=
  forall i, i < n -> exists x, nth_error b i = Some (Some x).
Definition vec_filled T (n : nat) (v : vec T) : Prop := vsz v = n /\ filled n (vbuf v).
Definition mtx_filled T (r c : nat) (m : mtx T) : Prop :=
  mrows m = r /\ mcols m = c /\ filled (r * c) (mbuf m).

(** Code 0 and an output with property P *)
Definition code_0 B (P : B -> Prop) (x : Z * B) : Prop := fst x = 0%Z /\ P (snd x).
Definition any_code B (P : B -> Prop) (x : Z * B) : Prop := P (snd x).
