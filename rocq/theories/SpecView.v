(** What a history of vector operations does to a family of angle triples
    (object p has the triple A p), said without memory. *)
From Coq Require Import List Arith ZArith.
From Verif Require Import Base MView.
Import ListNotations.

Section SpecView.
Context {T : Type} {N : Num T}.

Definition triple : Type := T * T * T.
Definition each (f : T -> T) (a : triple) : triple :=
  let '(x, y, z) := a in (f x, f y, f z).
Definition pairwise (f : T -> T -> T) (a b : triple) : triple :=
  let '(x, y, z) := a in let '(x', y', z') := b in (f x x', f y y', f z z').
Definition swapped (a : triple) : triple := let '(x, y, z) := a in (z, y, x).

(** object p gets the triple a, nothing else changes *)
Definition assign (A : nat -> triple) (p : nat) (a : triple) : nat -> triple :=
  fun k => if (k =? p)%nat then a else A k.

Definition effect (A : nat -> triple) (c : vcall) : nat -> triple :=
  match c with
  | CNeg p => assign A p (each fneg (A p))
  | CShift p s => assign A p (each (fun x => fadd x s) (A p))
  | CScale p s => assign A p (each (fun x => fmul x s) (A p))
  | CRev p => assign A p (swapped (A p))
  | CAdd p q r => assign A r (pairwise fadd (A p) (A q))
  | CSub p q r => assign A r (pairwise fsub (A p) (A q))
  end.

Definition effects (A : nat -> triple) (cs : list vcall) : nat -> triple :=
  fold_left effect cs A.

(** the call uses objects below n only *)
Definition uses_below (n : nat) (c : @vcall T) : Prop :=
  match c with
  | CNeg p | CShift p _ | CScale p _ | CRev p => (p < n)%nat
  | CAdd p q r | CSub p q r => (p < n /\ q < n /\ r < n)%nat
  end.

(** the memory: n objects, object p holding A p *)
Definition memory (n : nat) (A : nat -> triple) : store T :=
  map (fun p => let '(x, y, z) := A p in [Some x; Some y; Some z]) (seq 0 n).
End SpecView.
Arguments triple : clear implicits.
