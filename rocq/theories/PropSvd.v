(** Properties C128-C129: singular values, pseudo-inverses and eigenvectors
    (src/matrices.c), in real arithmetic unless stated otherwise.

    Vocabulary (SpecReduc, SpecSvd): [eigenvector n f l x] - f x = l x and x is
    not zero; [eigen_list n l] - the different ones among the values l, those
    below 1e-6 replaced by one 0 at the end; [reduc_clear n f] - Gauss-Jordan
    elimination of f meets no number other than 0 below 1e-6; [shifted f l] -
    f - l I; [spread n l] - the values are at least 1e-6 and at least 1e-6
    apart; [exact_spread n f l] - moreover eigenvalues of f whose eliminations
    are clear; [gram r m] and [outer c m] - m^T m and m m^T; [svd_product],
    [orthonormal_columns], [pseudo_inverse].  [eigenspace (mx n n f)^T a] is the
    Mathematical Components space of the x with f x = a x. *)
From Coq Require Import Reals Lra ZArith.
Set Warnings "-notation-overridden,-ambiguous-paths".
From mathcomp Require Import all_ssreflect all_algebra.
From Coq Require Import Lia List PrimFloat.
From Verif Require Import Base NumR NumF BaseFacts SpecVec SpecMtx SpecReal SpecDecomp SpecGauss SpecReduc SpecSvd MVec MMtx MDecomp
  PMtx PMtxOps PMtxR PFvec PReduc PEigvec PEigvec2 RField SpecMx PMx PEigMx PSvdR PSvdFwd PSvdDiag.
Import ListNotations.
Import GRing.Theory.
Local Delimit Scope R_scope with Re.
Local Delimit Scope Z_scope with Ze.
Local Open Scope ring_scope.

(** * C128: singular value decomposition and pseudo-inverse of an r x c matrix
    with r >= c, when the eigenvalues reported for m^T m are exact and apart.
    Missing for the full statement: matrices with repeated or zero singular
    values, for which it is false (below), and more columns than rows (C46). *)
Theorem C128_svd_partial :
  forall bc fuel r c M tlm h1 t1 h2 t2 u e v iter l tl l2 tl2,
  (0 < c)%coq_nat /\ (c <= r)%coq_nat -> room r r u -> room r c e -> room c c v ->
  mtx_eigenvalues bc (S fuel) (Some 0%Re) (Some 0%Re) (mat_of c c (gram r M) []) (vec_def c) iter
    = Ok (Z0, vec_of (List.map l (List.seq 0 c)) tl) ->
  exact_spread c (gram r M) l ->
  mtx_eigenvalues bc (S fuel) (Some 0%Re) (Some 0%Re) (mat_of r r (outer c M) []) (vec_def r) iter
    = Ok (Z0, vec_of (List.map l2 (List.seq 0 r)) tl2) ->
  (forall x, In x (eigen_list r l2) -> reduc_clear r (shifted (outer c M) x)) ->
  r = c \/ (forall rc up, mtx_eigenvectors bc (S fuel) (Some 0%Re) (Some 0%Re) (mbuf (mat_of r r h2 t2))
              (mat_of r r (outer c M) []) (mtx_def r r) iter true = Ok (rc, up) -> rc = Z0) ->
  let s := fun i => R_sqrt.sqrt (l i) in
  exists U V tv,
  mtx_svd bc (S fuel) (Some 0%Re) (Some 0%Re) (mbuf (mat_of c c h1 t1)) (mbuf (mat_of r r h2 t2)) (mat_of r c M tlm) u e v iter
  = Ok (Z0, (mat_of r r U (rest u), mat_of r c (diag_of s) (rest e), mat_of c c V tv))
  /\ (forall k, (k < c)%coq_nat -> (/ 1000 <= s k)%Re)
  /\ orthogonal c V /\ orthonormal_columns r c U /\ svd_product r c M U s V.
Proof.
move=> bc fuel r c M tlm h1 t1 h2 t2 u e v iter l tl l2 tl2 Hc Hu He Hv E1 Ex E2 HC Hf s.
have [U [V [tv [E [Hs [HV [HU [HP _]]]]]]]] :=
  @svd_total bc fuel r c M tlm h1 t1 h2 t2 u e v iter l tl l2 tl2 Hc Hu He Hv E1 Ex E2 HC Hf.
by exists U, V, tv.
Qed.
Print Assumptions C128_svd_partial.

Theorem C128_pinv_partial :
  forall bc fuel r c M tlm h1 t1 h2 t2 p iter l tl l2 tl2,
  (0 < c)%coq_nat /\ (c <= r)%coq_nat -> room c r p ->
  mtx_eigenvalues bc (S fuel) (Some 0%Re) (Some 0%Re) (mat_of c c (gram r M) []) (vec_def c) iter
    = Ok (Z0, vec_of (List.map l (List.seq 0 c)) tl) ->
  exact_spread c (gram r M) l ->
  mtx_eigenvalues bc (S fuel) (Some 0%Re) (Some 0%Re) (mat_of r r (outer c M) []) (vec_def r) iter
    = Ok (Z0, vec_of (List.map l2 (List.seq 0 r)) tl2) ->
  (forall x, In x (eigen_list r l2) -> reduc_clear r (shifted (outer c M) x)) ->
  r = c \/ (forall rc up, mtx_eigenvectors bc (S fuel) (Some 0%Re) (Some 0%Re) (mbuf (mat_of r r h2 t2))
              (mat_of r r (outer c M) []) (mtx_def r r) iter true = Ok (rc, up) -> rc = Z0) ->
  exists P,
  mtx_pinv bc (S fuel) (Some 0%Re) (Some 0%Re) (mbuf (mat_of c c h1 t1)) (mbuf (mat_of r r h2 t2)) (mat_of r c M tlm) p iter
  = Ok (Z0, mat_of c r P (rest p))
  /\ pseudo_inverse r c M P
  /\ (forall i j, (i < c)%coq_nat -> (j < c)%coq_nat -> mmul r P M i j = delta i j).
Proof. exact: pinv_total. Qed.
Print Assumptions C128_pinv_partial.

(** Diagonal matrices whose entries have squares at least 1e-6 and at least 1e-6
    apart: no hypothesis about any run is left. *)
Theorem C128_diagonal :
  forall bc fuel n d tlm h1 t1 h2 t2 u e v p iter,
  (0 < n)%coq_nat -> room n n u -> room n n e -> room n n v -> room n n p ->
  spread n (fun i => Rmult (d i) (d i)) ->
  (exists U V tv,
    mtx_svd bc (S fuel) (Some 0%Re) (Some 0%Re) (mbuf (mat_of n n h1 t1)) (mbuf (mat_of n n h2 t2)) (mat_of n n (diag_of d) tlm) u e v iter
    = Ok (Z0, (mat_of n n U (rest u), mat_of n n (diag_of (fun i => Rabs (d i))) (rest e), mat_of n n V tv))
    /\ orthogonal n U /\ orthogonal n V /\ svd_product n n (diag_of d) U (fun i => Rabs (d i)) V)
  /\ mtx_pinv bc (S fuel) (Some 0%Re) (Some 0%Re) (mbuf (mat_of n n h1 t1)) (mbuf (mat_of n n h2 t2)) (mat_of n n (diag_of d) tlm) p iter
    = Ok (Z0, mat_of n n (diag_of (fun i => Rdiv 1 (d i))) (rest p)).
Proof. exact: svd_diag. Qed.
Print Assumptions C128_diagonal.

(** The hypotheses are met: diag(1, -2, 3), and for C128_svd_partial and
    C128_pinv_partial the diagonal matrices of C128_diagonal, whose proof uses
    them. *)
Definition d123 (i : nat) : R := match i with 0%N => 1%Re | 1%N => (-2)%Re | _ => 3%Re end.
Lemma d123_spread : spread 3 (fun i => Rmult (d123 i) (d123 i)).
Proof.
split.
- move=> [|[|[|i]]] Hi; try lia; rewrite /d123 Rabs_pos_eq; lra.
- move=> [|[|[|i]]] [|[|[|j]]] Hi Hj N; try lia; try (now case: N); rewrite /d123; unfold Rabs; case: Rcase_abs => ?; lra.
Qed.
Example C128_case : forall iter, exists U V tv,
  mtx_svd true 9 (Some 0%Re) (Some 0%Re) (mbuf (mat_of 3 3 (fun _ _ => 0%Re) [])) (mbuf (mat_of 3 3 (fun _ _ => 0%Re) []))
     (mat_of 3 3 (diag_of d123) []) (mtx_def 3 3) (mtx_def 3 3) (mtx_def 3 3) iter
  = Ok (Z0, (mat_of 3 3 U [], mat_of 3 3 (diag_of (fun i => Rabs (d123 i))) [], mat_of 3 3 V tv))
  /\ orthogonal 3 U /\ orthogonal 3 V.
Proof.
move=> iter. have H3 : (0 < 3)%coq_nat by lia.
have [[U [V [tv [E [HU [HV _]]]]]] _] := @C128_diagonal true 8 3 d123 [] (fun _ _ => 0%Re) [] (fun _ _ => 0%Re) []
  (mtx_def 3 3) (mtx_def 3 3) (mtx_def 3 3) (mtx_def 3 3) iter H3 (room_def 3 3) (room_def 3 3) (room_def 3 3) (room_def 3 3) d123_spread.
rewrite !rest_def in E. exact (ex_intro _ U (ex_intro _ V (ex_intro _ tv (conj E (conj HU HV))))).
Qed.

(** Repeated singular values: diag(1, 2, 1) is invertible with inverse
    diag(1, 1/2, 1).  The pseudo-inverse answered (code 0) is diag(1, 2, 1/4),
    and the u of the decomposition is not orthogonal: the eigenvalues 1, 4, 1
    are paired with eigenvectors for 1, 1, 4. *)
Definition diag3 (a b c : float) : mtx float :=
  Mtx 3 3 [Some a; Some 0%float; Some 0%float; Some 0%float; Some b; Some 0%float; Some 0%float; Some 0%float; Some c].
Definition zeros (n : nat) : list (option float) := List.repeat (Some 0%float) n.

Theorem C128_pinv_repeated_refuted :
  mtx_pinv true 60 (Some 0%float) (Some 0%float) (zeros 9) (zeros 9) (diag3 1 2 1) (mtx_def 3 3) 10
  = Ok (Z0, diag3 1 2 0.25).
Proof. by vm_compute. Qed.
Print Assumptions C128_pinv_repeated_refuted.

Theorem C128_u_orthogonal_refuted :
  exists e v, mtx_svd true 60 (Some 0%float) (Some 0%float) (zeros 9) (zeros 9) (diag3 1 2 1)
    (mtx_def 3 3) (mtx_def 3 3) (mtx_def 3 3) 10
  = Ok (Z0, (Mtx 3 3 [Some 1%float; Some 0%float; Some 0%float;
                      Some 0%float; Some 0%float; Some 2%float;
                      Some 0%float; Some 0.5%float; Some 0%float], e, v)).
Proof. do 2 eexists. by vm_compute. Qed.
Print Assumptions C128_u_orthogonal_refuted.

(** * C129: eigenvectors *)

(** Gauss-Jordan reduction of any square matrix, singular or not, without tiny
    pivots: the result is in reduced form and has the same solutions. *)
Theorem C129_reduction_partial :
  forall bc n f h tf th mg, room n n mg -> reduc_clear n f ->
  exists h' g, mtx_gauss_reduc bc (mat_of n n f tf) (mat_of n n h th) mg = Ok (Z0, (mat_of n n h' th, mat_of n n g (rest mg)))
  /\ reduced n g /\ forall x, solves n g x <-> solves n f x.
Proof. exact: gauss_reduc_form. Qed.
Print Assumptions C129_reduction_partial.

(** When zsl_mtx_eigenvalues answers 0, it reports n values ... *)
Theorem C129_values_reported :
  forall bc fuel row0 col0 n (f : nat -> nat -> R) tl iter v, (0 < n)%coq_nat ->
  mtx_eigenvalues bc fuel row0 col0 (mat_of n n f tl) (vec_def n) iter = Ok (Z0, v) ->
  exists l t, v = vec_of (List.map l (List.seq 0 n)) t.
Proof. exact: eigenvalues_shape. Qed.
Print Assumptions C129_values_reported.

(** ... as it always does for a symmetric matrix: the diagonal of p^T f p for
    an orthogonal p. *)
Theorem C129_symmetric_values :
  forall bc fuel n f tl iter,
  (0 < n)%coq_nat -> (forall i j, (i < n)%coq_nat -> (j < n)%coq_nat -> f i j = f j i) ->
  exists A p, mtx_eigenvalues bc (S fuel) (Some 0%Re) (Some 0%Re) (mat_of n n f tl) (vec_def n) iter
  = Ok (Z0, vec_of (List.map (fun i => A i i) (List.seq 0 n)) [])
  /\ orthogonal n p /\ same n A (mmul n (mmul n (fun i j => p j i) f) p).
Proof. exact: eigenvalues_sym_list. Qed.
Print Assumptions C129_symmetric_values.

(** The columns returned are linearly independent eigenvectors for the reported
    values, unit vectors on request, and as many as the eigenspaces of the
    different reported values have dimensions; the code is 0 exactly when there
    are n.  For a symmetric matrix they are then orthonormal. *)
Theorem C129_eigenvectors_partial :
  forall bc fuel row0 col0 n f tf h th mev iter orth z l tl,
  room n n mev ->
  mtx_eigenvalues bc fuel row0 col0 (mat_of n n f tf) (vec_def n) iter = Ok (z, vec_of (List.map l (List.seq 0 n)) tl) ->
  (forall x, In x (eigen_list n l) -> reduc_clear n (shifted f x)) ->
  exists rc b V tv,
  mtx_eigenvectors bc fuel row0 col0 (mbuf (mat_of n n h th)) (mat_of n n f tf) mev iter orth = Ok (rc, mat_of n b V tv)
  /\ (b <= n)%coq_nat /\ (rc = Z0 <-> b = n)
  /\ b = (\sum_(a <- eigen_list n l) \rank (eigenspace (mx n n f)^T a))%N
  /\ (forall s, (s < b)%coq_nat -> exists x, In x (eigen_list n l) /\ eigenvector n f x (fun a => V a s))
  /\ independent_columns n b V
  /\ (orth = true -> forall s, (s < b)%coq_nat -> bigsum n (fun a => Rmult (V a s) (V a s)) = 1%Re)
  /\ (orth = true -> (forall i j, (i < n)%coq_nat -> (j < n)%coq_nat -> f i j = f j i) ->
      forall s s', (s < b)%coq_nat -> (s' < b)%coq_nat -> bigsum n (fun a => Rmult (V a s) (V a s')) = delta s s').
Proof.
move=> bc fuel row0 col0 n f tf h th mev iter orth z l tl Hm E HC.
have [rc [b [V [tv [H1 [H2 [H3 [H4 H5]]]]]]]] := @eigenvectors_total bc fuel row0 col0 n f tf h th mev iter orth z l tl Hm E HC.
exists rc, b, V, tv. split; first exact H1. split; first exact H2. split; first exact H3. split; last exact H5.
rewrite -kdims_sum. exact H4.
Qed.
Print Assumptions C129_eigenvectors_partial.

(** Eigenvalues reported exactly and apart: n columns, column j for value j. *)
Theorem C129_order :
  forall bc fuel row0 col0 n f tf h th mev iter orth z l tl,
  room n n mev ->
  mtx_eigenvalues bc fuel row0 col0 (mat_of n n f tf) (vec_def n) iter = Ok (z, vec_of (List.map l (List.seq 0 n)) tl) ->
  exact_spread n f l ->
  exists V tv,
  mtx_eigenvectors bc fuel row0 col0 (mbuf (mat_of n n h th)) (mat_of n n f tf) mev iter orth = Ok (Z0, mat_of n n V tv)
  /\ (forall j, (j < n)%coq_nat -> eigenvector n f (l j) (fun a => V a j))
  /\ (orth = true -> forall j, (j < n)%coq_nat -> bigsum n (fun a => Rmult (V a j) (V a j)) = 1%Re)
  /\ (orth = true -> (forall i j, (i < n)%coq_nat -> (j < n)%coq_nat -> f i j = f j i) -> orthonormal_columns n n V).
Proof.
move=> bc fuel row0 col0 n f tf h th mev iter orth z l tl Hm E [Sp He].
exact: (@eigenvectors_spread bc fuel row0 col0 n f tf h th mev iter orth z l tl Hm E Sp He).
Qed.
Print Assumptions C129_order.

(** The hypotheses are met by diag(1, 4, 9): the values are reported exactly. *)
Example C129_case : forall iter,
  let q := fun i => Rmult (d123 i) (d123 i) in
  exists V tv,
  mtx_eigenvectors true 9 (Some 0%Re) (Some 0%Re) (mbuf (mat_of 3 3 (fun _ _ => 0%Re) [])) (mat_of 3 3 (diag_of q) []) (mtx_def 3 3) iter true
  = Ok (Z0, mat_of 3 3 V tv)
  /\ (forall j, (j < 3)%coq_nat -> eigenvector 3 (diag_of q) (q j) (fun a => V a j)).
Proof.
move=> iter q. have H3 : (0 < 3)%coq_nat by lia.
have [V [tv [E [H _]]]] := @C129_order true 9 (Some 0%Re) (Some 0%Re) 3 (diag_of q) [] (fun _ _ => 0%Re) [] (mtx_def 3 3) iter true Z0 q []
  (room_def 3 3) (@eigenvalues_diag true 8 3 q [] iter H3) (@diag_exact_spread 3 q d123_spread).
exact (ex_intro _ V (ex_intro _ tv (conj E H))).
Qed.

(** Repeated values: for diag(1, 2, 1), whose eigenvalues are reported as
    1, 2, 1, the second eigenvector is one for 1 and the third one for 2. *)
Theorem C129_order_repeated_refuted :
  mtx_eigenvalues true 60 (Some 0%float) (Some 0%float) (diag3 1 2 1) (vec_def 3) 10
    = Ok (Z0, Vec 3 [Some 1%float; Some 2%float; Some 1%float])
  /\ mtx_eigenvectors true 60 (Some 0%float) (Some 0%float) (zeros 9) (diag3 1 2 1) (mtx_def 3 3) 10 true
    = Ok (Z0, Mtx 3 3 [Some 1%float; Some (-0)%float; Some 0%float;
                       Some (-0)%float; Some (-0)%float; Some 1%float;
                       Some (-0)%float; Some 1%float; Some 0%float]).
Proof. split; by vm_compute. Qed.
Print Assumptions C129_order_repeated_refuted.
