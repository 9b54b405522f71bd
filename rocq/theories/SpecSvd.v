(** What a singular value decomposition and a pseudo-inverse are. *)
From Coq Require Import Arith Reals.
From Verif Require Import SpecReal SpecDecomp SpecReduc.
Local Open Scope R_scope.

(** m = u * diag(s) * v^T for an r x c matrix m, using the first c columns of u *)
Definition svd_product (r c : nat) (m u : nat -> nat -> R) (s : nat -> R) (v : nat -> nat -> R) : Prop :=
  forall i j, (i < r)%nat -> (j < c)%nat -> bigsum c (fun k => u i k * s k * v j k) = m i j.

(** the first c columns of u, of length r, are orthonormal *)
Definition orthonormal_columns (r c : nat) (u : nat -> nat -> R) : Prop :=
  forall i j, (i < c)%nat -> (j < c)%nat -> bigsum r (fun k => u k i * u k j) = delta i j.

(** column k of v is an eigenvector of m^T m for the eigenvalue s_k^2 *)
Definition gram_eigenvectors (r c : nat) (m : nat -> nat -> R) (s : nat -> R) (v : nat -> nat -> R) : Prop :=
  forall i k, (i < c)%nat -> (k < c)%nat ->
    bigsum c (fun j => bigsum r (fun l => m l i * m l j) * v j k) = s k * s k * v i k.

(** the four equations of Penrose *)
Definition pseudo_inverse (r c : nat) (m p : nat -> nat -> R) : Prop :=
  (forall i j, (i < r)%nat -> (j < c)%nat -> mmul r (mmul c m p) m i j = m i j)
  /\ (forall i j, (i < c)%nat -> (j < r)%nat -> mmul c (mmul r p m) p i j = p i j)
  /\ (forall i j, (i < r)%nat -> (j < r)%nat -> mmul c m p i j = mmul c m p j i)
  /\ (forall i j, (i < c)%nat -> (j < c)%nat -> mmul r p m i j = mmul r p m j i).

(** the n values are at least 1e-6 in magnitude and at least 1e-6 apart *)
Definition spread (n : nat) (k : nat -> R) : Prop :=
  (forall i, (i < n)%nat -> / 1000000 <= Rabs (k i))
  /\ forall i j, (i < n)%nat -> (j < n)%nat -> i <> j -> / 1000000 <= Rabs (k i - k j).

Definition diag_of (s : nat -> R) : nat -> nat -> R := fun i j => if (i =? j)%nat then s i else 0.

(** m^T m and m m^T for an r x c matrix m *)
Definition gram (r : nat) (m : nat -> nat -> R) : nat -> nat -> R := mmul r (fun i j => m j i) m.
Definition outer (c : nat) (m : nat -> nat -> R) : nat -> nat -> R := mmul c m (fun i j => m j i).

(** l_0, ..., l_{n-1} are eigenvalues of f, apart, and elimination of each
    f - l_i meets no number other than 0 below 1e-6 in magnitude *)
Definition exact_spread (n : nat) (f : nat -> nat -> R) (l : nat -> R) : Prop :=
  spread n l /\ forall i, (i < n)%nat -> (exists x, eigenvector n f (l i) x) /\ reduc_clear n (shifted f (l i)).
