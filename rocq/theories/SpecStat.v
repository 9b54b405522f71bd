(** Vocabulary of the statistics specifications. *)
From Coq Require Import List Reals Arith ZArith Bool.
From Verif Require Import Base NumR SpecVec SpecReal.
Import ListNotations.
Local Open Scope R_scope.

(** the deviations from the mean *)
Definition dev (xs : list R) : list R := map (fun x => x - rmean xs) xs.

(** sample variance and covariance (n - 1 in the denominator) *)
Definition covariance (xs ys : list R) : R := rdot (dev xs) (dev ys) / (INR (length xs) - 1).
Definition variance (xs : list R) : R := covariance xs xs.

(** how many of the data are at most / at least t *)
Definition count_le (t : R) (xs : list R) : nat := length (filter (fun x => Rleb x t) xs).
Definition count_ge (t : R) (xs : list R) : nat := length (filter (fun x => Rleb t x) xs).

(** [q] is a p-th percentile of the data: at least p per cent of them are at
    most q, and at least (100 - p) per cent are at least q *)
Definition is_percentile (p : R) (xs : list R) (q : R) : Prop :=
  p / 100 * INR (length xs) <= INR (count_le q xs) /\
  (1 - p / 100) * INR (length xs) <= INR (count_ge q xs).

(** how often a value occurs *)
Definition occ (x : R) (xs : list R) : nat := count_occ Req_EM_T xs x.

(** sum of the squared vertical distances of the points to the line
    y = a x + b *)
Definition line_error (a b : R) (xs ys : list R) : R :=
  rsum (map2 (fun x y => (y - (a * x + b)) * (y - (a * x + b))) xs ys).

(** sum over the r observations of d i * (y i - sum_j x i j * b j)^2 *)
Definition fit_error (r k : nat) (d : nat -> R) (x : nat -> nat -> R) (y b : nat -> R) : R :=
  bigsum r (fun i => d i * ((y i - bigsum k (fun j => x i j * b j))
                            * (y i - bigsum k (fun j => x i j * b j)))).

(** the data matrix with a column of ones in front *)
Definition with_ones (f : nat -> nat -> R) (i j : nat) : R :=
  match j with O => 1 | S j' => f i j' end.

(** the matrix X^T D X of the normal equations *)
Definition gram (r : nat) (d : nat -> R) (x : nat -> nat -> R) : nat -> nat -> R :=
  fun a b => bigsum r (fun i => x i a * d i * x i b).

(** the coefficient of determination 1 - (sum of squared residuals) / (sum of squared deviations) *)
Definition r_squared (r k : nat) (x : nat -> nat -> R) (ys : list R) (b : nat -> R) : outcome R :=
  let! q := Rdivo (fit_error r k (fun _ => 1) x (fun i => nth i ys 0) b) (rdot (dev ys) (dev ys)) in
  Ok (1 - q).

(** the nine terms of the quadric Ax^2+By^2+Cz^2+2Dxy+2Exz+2Fyz+2Gx+2Hy+2Iz *)
Definition quad_terms (x y z : R) : list R :=
  [x * x; y * y; z * z; 2 * x * y; 2 * x * z; 2 * y * z; 2 * x; 2 * y; 2 * z].

(** the p-th percentile of the sorted data ys: with x = p n / 100, the element
    of rank floor x (counting from 0), or the midpoint of the elements of ranks
    x - 1 and x when x is an integer *)
Definition pct (p : R) (ys : list R) : R :=
  let x := p * INR (length ys) / 100 in
  let k := Z.to_nat (Int_part x) in
  if Reqb x (IZR (Int_part x)) then (nth k ys 0 + nth (k - 1) ys 0) / 2 else nth k ys 0.

(** x lies in [l, h] *)
Definition within (l h x : R) : bool := Rleb l x && Rleb x h.

(** the data are not all equal *)
Definition spread (xs : list R) : Prop := ~ exists c, Forall (fun x => x = c) xs.

(** Pearson's correlation coefficient *)
Definition reg_corr (xs ys : list R) : R :=
  rdot (dev xs) (dev ys) / sqrt (rdot (dev xs) (dev xs) * rdot (dev ys) (dev ys)).

(** the area below the polygon through the points (time, value) *)
Fixpoint trapezoids (ps : list (R * R)) : R :=
  match ps with
  | p :: ((q :: _) as r) => (fst q - fst p) * (snd p + snd q) / 2 + trapezoids r
  | _ => 0
  end.

(** the total weight of the data that satisfy a test *)
Definition weight_of (test : R -> bool) (xs ws : list R) : R :=
  rsum (map2 (fun x w => if test x then w else 0) xs ws).

(** the data below / above m carry at most half of the weight, up to 1e-6 *)
Definition is_weighted_median (xs ws : list R) (m : R) : Prop :=
  weight_of (fun x => Rltb x m) xs ws <= 1 / 2
  /\ weight_of (fun x => Rltb m x) xs ws <= rsum ws - 1 / 2 + 1 / 1000000.
