(** What calling a user's function for each entry of a matrix means. *)
From Coq Require Import List Arith ZArith.
From Verif Require Import Base.
Import ListNotations.
Set Implicit Arguments.

(** The entries of an r x c matrix, row after row *)
Definition row_major (r c : nat) : list (nat * nat) := list_prod (seq 0 r) (seq 0 c).

(** Call [f] for each entry of the list in turn; stop at the first answer
    other than 0 and give that answer *)
Fixpoint in_turn {S} (entries : list (nat * nat)) (f : nat -> nat -> S -> outcome (Z * S)) (s : S) : outcome (Z * S) :=
  match entries with
  | [] => Ok (0%Z, s)
  | (i, j) :: more =>
      let! (rc, s') := f i j s in
      if (rc =? 0)%Z then in_turn more f s' else Ok (rc, s')
  end.

(** [before a b i j]: entry (i,j) is visited before entry (a,b) *)
Definition before (a b i j : nat) : bool := (i <? a)%nat || ((i =? a)%nat && (j <? b)%nat).
