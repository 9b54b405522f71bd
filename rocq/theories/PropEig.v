(** Property C138: the QR iteration of zsl_mtx_qrd_iter and zsl_mtx_eigenvalues
    (src/matrices.c) converges for symmetric matrices, in real arithmetic.

    Vocabulary (SpecEig): [symmetric], [positive_semidefinite],
    [no_opposite_eigenvalues n f] - no x <> 0 such that x and -x are both
    eigenvalues; [eigenvalues_of n f l] - l_0..l_{n-1} are the eigenvalues of f
    with their multiplicities.  [Un_cv u x] is convergence of a sequence in
    Coq's standard library. *)
From Coq Require Import Reals Lra ZArith.
Set Warnings "-notation-overridden,-ambiguous-paths".
From mathcomp Require Import all_ssreflect all_algebra.
From Coquelicot Require Import Coquelicot.
From Coq Require Import Lia List.
From Verif Require Import Base NumR BaseFacts SpecVec SpecReal SpecMtx SpecDecomp SpecReduc SpecSvd SpecEig MVec MMtx MDecomp
  PVec PVecR PDet PMtx PMtxOps PMtxR PFvec PChol PQr PBal PBalTerm PEigvec2 RField SpecMx PMx PDecompMx PQrSeq PQrLim PQrMx PQrPsd PQrEig PQrRun.
Import ListNotations.
Import GRing.Theory.
Local Delimit Scope R_scope with Re.
Local Open Scope ring_scope.

(** * QR iteration: the matrix converges to the diagonal matrix of eigenvalues *)
Theorem C138_qr_iteration :
  forall bc n f tl mo, (0 < n)%coq_nat -> room n n mo -> symmetric n f -> no_opposite_eigenvalues n f ->
  exists (g : nat -> nat -> nat -> R) (l : nat -> R),
  (forall iter, mtx_qrd_iter bc (mat_of n n f tl) mo iter = Ok (Z0, mat_of n n (g iter) (rest mo)))
  /\ eigenvalues_of n f l
  /\ (forall i, (i < n)%coq_nat -> Un_cv (fun iter => g iter i i) (l i))
  /\ (forall i j, (i < n)%coq_nat -> (j < n)%coq_nat -> i <> j -> Un_cv (fun iter => g iter i j) 0%Re).
Proof. exact: qr_iteration_cv. Qed.
Print Assumptions C138_qr_iteration.

(** * Eigenvalues.  The locals of zsl_mtx_balance start at zero (see C44). *)
Theorem C138_eigenvalues :
  forall bc n f tl, (0 < n)%coq_nat -> symmetric n f -> no_opposite_eigenvalues n f ->
  exists (v : nat -> nat -> R) (l : nat -> R),
  (forall fuel iter, mtx_eigenvalues bc (S fuel) (Some 0%Re) (Some 0%Re) (mat_of n n f tl) (vec_def n) iter
     = Ok (Z0, vec_of (List.map (v iter) (List.seq 0 n)) []))
  /\ eigenvalues_of n f l
  /\ (forall i, (i < n)%coq_nat -> Un_cv (fun iter => v iter i) (l i)).
Proof. exact: eigenvalues_cv. Qed.
Print Assumptions C138_eigenvalues.

(** Positive semidefinite matrices need no condition on the eigenvalues. *)
Theorem C138_positive_semidefinite :
  forall bc n f tl, (0 < n)%coq_nat -> symmetric n f -> positive_semidefinite n f ->
  exists (v : nat -> nat -> R) (l : nat -> R),
  (forall fuel iter, mtx_eigenvalues bc (S fuel) (Some 0%Re) (Some 0%Re) (mat_of n n f tl) (vec_def n) iter
     = Ok (Z0, vec_of (List.map (v iter) (List.seq 0 n)) []))
  /\ eigenvalues_of n f l /\ (forall i, (i < n)%coq_nat -> (0 <= l i)%Re)
  /\ (forall i, (i < n)%coq_nat -> Un_cv (fun iter => v iter i) (l i)).
Proof. exact: eigenvalues_psd_cv. Qed.
Print Assumptions C138_positive_semidefinite.

(** The squares of the singular values of any r x c matrix m, as zsl_mtx_svd
    computes them: the eigenvalues reported for m^T m. *)
Theorem C138_singular_values :
  forall bc r c m tl, (0 < c)%coq_nat ->
  exists (v : nat -> nat -> R) (l : nat -> R),
  (forall fuel iter, mtx_eigenvalues bc (S fuel) (Some 0%Re) (Some 0%Re) (mat_of c c (gram r m) tl) (vec_def c) iter
     = Ok (Z0, vec_of (List.map (v iter) (List.seq 0 c)) []))
  /\ char_poly ((mx r c m)^T *m mx r c m) = \prod_(i < c) ('X - (l i)%:P)
  /\ (forall i, (i < c)%coq_nat -> (0 <= l i)%Re)
  /\ (forall i, (i < c)%coq_nat -> Un_cv (fun iter => v iter i) (l i)).
Proof. exact: singular_cv. Qed.
Print Assumptions C138_singular_values.

(** (1 2; 2 1) has the eigenvalues 3 and -1 *)
Example C138_case : let f := fun i j => if Nat.eqb i j then 1%Re else 2%Re in
  symmetric 2 f /\ no_opposite_eigenvalues 2 f.
Proof.
split=> [i j _ _|x N]; first by rewrite Nat.eqb_sym.
have Ev y : eigenvalue (mx 2 2 (fun i j => if Nat.eqb i j then 1%Re else 2%Re)) y ->
    Rminus (Rmult (Rminus y 1) (Rminus y 1)) 4 = 0%Re.
  rewrite eigenvalue_root_char /root -char_eval => /eqP H. rewrite -[RHS]H.
  rewrite /ldet /bigsum /minor /skip_at /dg /sgn /=. ring.
move=> /Ev H /Ev K. lra.
Qed.

(** a matrix of ones is positive semidefinite, with a repeated eigenvalue 0 *)
Example C138_psd_case : symmetric 3 (fun _ _ => 1%Re) /\ positive_semidefinite 3 (fun _ _ => 1%Re).
Proof. split=> // x. rewrite /=. have := Rle_0_sqr (Rplus (Rplus (x 0%N) (x 1%N)) (x 2%N)). rewrite /Rsqr. lra. Qed.

(** Opposite eigenvalues: (0 1; 1 0) has 1 and -1, and 0, 0 is reported for
    every number of iterations. *)
Theorem C138_opposite_refuted :
  forall bc tl, exists v : nat -> nat -> R,
  (forall fuel iter, mtx_eigenvalues bc (S fuel) (Some 0%Re) (Some 0%Re) (mat_of 2 2 swap tl) (vec_def 2) iter
     = Ok (Z0, vec_of (List.map (v iter) (List.seq 0 2)) []))
  /\ forall l, eigenvalues_of 2 swap l -> ~ (forall i, (i < 2)%coq_nat -> Un_cv (fun iter => v iter i) (l i)).
Proof. exact: opposite_refuted. Qed.
Print Assumptions C138_opposite_refuted.
