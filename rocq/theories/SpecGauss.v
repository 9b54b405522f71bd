(** Textbook Gauss-Jordan elimination on real matrices, used to say when the
    library's tolerance of 1e-6 cannot interfere. *)
From Coq Require Import List Arith Bool Reals.
Import ListNotations.
Local Open Scope R_scope.

(** Row k gets the first row below it whose column k is not zero added to it,
    when its own element in column k is zero. *)
Definition pivot_row (n k : nat) (g : nat -> nat -> R) : option nat :=
  find (fun q => if Req_EM_T (g q k) 0 then false else true) (seq (S k) (n - S k)).

Definition pivoted (n k : nat) (g : nat -> nat -> R) : nat -> nat -> R :=
  if Req_EM_T (g k k) 0 then
    match pivot_row n k g with
    | Some q => fun a b => if (a =? k)%nat then g k b + g q b else g a b
    | None => g
    end
  else g.

(** Row k is divided by its element in column k, and a multiple of it is
    subtracted from every other row to clear the column. *)
Definition cleared (k : nat) (g : nat -> nat -> R) : nat -> nat -> R :=
  fun a b => if (a =? k)%nat then g k b / g k k else g a b - g a k / g k k * g k b.

(** The matrix after the first k columns have been dealt with *)
Fixpoint gj (n k : nat) (f : nat -> nat -> R) : nat -> nat -> R :=
  match k with
  | O => f
  | S k' => cleared k' (pivoted n k' (gj n k' f))
  end.

(** Every number the elimination looks at is zero or at least 1e-6 in magnitude. *)
Definition gj_clear (n : nat) (f : nat -> nat -> R) : Prop :=
  forall k i, (k < n)%nat -> (i < n)%nat ->
    gj n k f i k = 0 \/ / 1000000 <= Rabs (gj n k f i k).
