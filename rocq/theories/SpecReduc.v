(** Gauss-Jordan elimination of a square matrix that may be singular, with the
    library's choice of rows, in exact arithmetic; and what its result is. *)
From Coq Require Import List Arith Bool Reals.
From Verif Require Import SpecReal SpecGauss.
Import ListNotations.
Local Open Scope R_scope.

Definition nz (x : R) : bool := if Req_EM_T x 0 then false else true.

(** The row added to row k when its element in column k is zero: the first with
    a non-zero element there that is not an earlier pivot row. *)
Definition pick_row (n k : nat) (g : nat -> nat -> R) : option nat :=
  find (fun q => nz (g q k) && negb ((q <? k)%nat && nz (g q q))) (seq 0 n).

Definition prepared (n k : nat) (g : nat -> nat -> R) : nat -> nat -> R :=
  if Req_EM_T (g k k) 0 then
    match pick_row n k g with
    | Some q => fun a b => if (a =? k)%nat then g k b + g q b else g a b
    | None => g
    end
  else g.

(** The matrix after the first k columns; a column without pivot is left alone. *)
Fixpoint reduc (n k : nat) (f : nat -> nat -> R) : nat -> nat -> R :=
  match k with
  | O => f
  | S k' => let g := prepared n k' (reduc n k' f) in
            if Req_EM_T (g k' k') 0 then g else cleared k' g
  end.

(** Every number the elimination looks at is zero or at least 1e-6 in magnitude. *)
Definition reduc_clear (n : nat) (f : nat -> nat -> R) : Prop :=
  forall k i, (k < n)%nat -> (i < n)%nat ->
    reduc n k f i k = 0 \/ / 1000000 <= Rabs (reduc n k f i k).

(** x solves f x = 0 *)
Definition solves (n : nat) (f : nat -> nat -> R) (x : nat -> R) : Prop :=
  forall i, (i < n)%nat -> bigsum n (fun j => f i j * x j) = 0.

(** Reduced form: a column is either a unit column with its 1 on the diagonal,
    or has a 0 on the diagonal; a row with a 0 on the diagonal is zero. *)
Definition reduced (n : nat) (g : nat -> nat -> R) : Prop :=
  (forall j, (j < n)%nat -> g j j = 0 \/ g j j = 1)
  /\ (forall i j, (i < n)%nat -> (j < n)%nat -> g j j = 1 -> i <> j -> g i j = 0)
  /\ (forall i j, (i < n)%nat -> (j < n)%nat -> g i i = 0 -> g i j = 0).

(** f - l * identity *)
Definition shifted (f : nat -> nat -> R) (l : R) : nat -> nat -> R :=
  fun i j => if (i =? j)%nat then f i j - l else f i j.

(** x is an eigenvector of f for l *)
Definition eigenvector (n : nat) (f : nat -> nat -> R) (l : R) (x : nat -> R) : Prop :=
  (exists i, (i < n)%nat /\ x i <> 0) /\
  forall i, (i < n)%nat -> bigsum n (fun j => f i j * x j) = l * x i.

(** The distinct values among the first q of a sequence, leaving out those
    below 1e-6 in magnitude and those within 1e-6 of an earlier one. *)
Definition close (x y : R) : bool := if Rlt_dec (Rabs (x - y)) (/ 1000000) then true else false.
Fixpoint distinct_values (q : nat) (k : nat -> R) : list R :=
  match q with
  | O => []
  | S q' => let l := distinct_values q' k in
            if close (k q') 0 || existsb (fun a => close a (k q')) l then l else l ++ [k q']
  end.
(** ... followed by 0 if some value is below 1e-6 in magnitude. *)
Definition eigen_list (n : nat) (k : nat -> R) : list R :=
  distinct_values n k ++ (if existsb (fun q => close (k q) 0) (seq 0 n) then [0] else []).
