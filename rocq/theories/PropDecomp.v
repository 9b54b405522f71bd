(** Properties C37-C46: matrix decompositions (src/matrices.c), in real
    arithmetic unless stated otherwise.

    Vocabulary (SpecDecomp): [orthogonal n q] - rows and columns of q are
    orthonormal; [upper_triangular], [upper_hessenberg]; [same n f g] - f and g
    agree as n x n matrices; [independent_columns]; [positive_definite].
    [mx r c f] is the Mathematical Components matrix with elements f i j;
    [char_poly], [\tr], [\det], [eigenvalue] are that library's characteristic
    polynomial, trace, determinant and eigenvalue predicate. *)
From Coq Require Import Reals Lra ZArith.
Set Warnings "-notation-overridden,-ambiguous-paths".
From mathcomp Require Import all_ssreflect all_algebra.
From Coq Require Import Lia List PrimFloat.
From Verif Require Import Base NumR NumF BaseFacts SpecVec SpecMtx SpecReal SpecDecomp MVec MMtx MDecomp PMtx PMtxOps
  PMtxR PFvec PGram PChol PQr PBal PBalTerm PSvd RField SpecMx PMx PDecompMx.
Import ListNotations.
Import GRing.Theory.
Local Delimit Scope R_scope with Re.
Local Delimit Scope Z_scope with Ze.
Local Open Scope ring_scope.

(** * C37: Gram-Schmidt *)
Theorem C37_gram_schmidt :
  forall bc r c f tl mort, room r c mort -> independent_columns r c f ->
  exists g, mtx_gram_schmidt bc (mat_of r c f tl) mort = Ok (Z0, mat_of r c g (rest mort))
  /\ (forall a b, (a < c)%coq_nat -> (b < c)%coq_nat -> a <> b ->
        bigsum r (fun i => Rmult (g i a) (g i b)) = 0%Re)
  /\ (forall k, (k < c)%coq_nat -> exists i, (i < r)%coq_nat /\ g i k <> 0%Re)
  /\ (forall k, (k < c)%coq_nat -> exists co : nat -> R, forall i, (i < r)%coq_nat ->
        g i k = Rminus (f i k) (bigsum k (fun a => Rmult (co a) (g i a))))
  /\ (forall k, (k < c)%coq_nat -> exists co : nat -> R, forall i, (i < r)%coq_nat ->
        g i k = Rminus (f i k) (bigsum k (fun a => Rmult (co a) (f i a)))).
Proof. exact: gram_schmidt_ok. Qed.
Print Assumptions C37_gram_schmidt.

(** the columns (1,1) and (1,0) are independent *)
Example C37_case : independent_columns 2 2 (fun i j => if Nat.eqb (i + j) 2 then 0%Re else 1%Re).
Proof.
move=> x H. have H0 := H 0%N ltac:(lia). have H1 := H 1%N ltac:(lia). rewrite /= in H0, H1.
case=> [|[|j]] Hj; [lra|lra|exfalso; lia].
Qed.

(** Dependent columns: the second column becomes zero and the third would be
    divided by its norm. *)
Theorem C37_dependent_columns_refuted :
  exists f : nat -> nat -> float, forall bc,
  match mtx_gram_schmidt bc (mat_of 2 3 f []) (mtx_def 2 3) with
  | Ok (_, m) => Exists (fun x => match x with Some y => PrimFloat.is_nan y = true | None => False end) (mbuf m)
  | _ => False
  end.
Proof.
exists (fun i j => if Nat.eqb j 2 then 3%float else 1%float). case; vm_compute;
repeat first [apply Exists_cons_hd; reflexivity | apply Exists_cons_tl].
Qed.
Print Assumptions C37_dependent_columns_refuted.

(** * C38: column normalisation *)
Theorem C38_cols_norm :
  forall bc r c f tl mn, room r c mn ->
  (forall k, (k < c)%coq_nat -> exists i, (i < r)%coq_nat /\ f i k <> 0%Re) ->
  exists g, mtx_cols_norm bc (mat_of r c f tl) mn = Ok (Z0, mat_of r c g (rest mn))
  /\ (forall k, (k < c)%coq_nat -> bigsum r (fun i => Rmult (g i k) (g i k)) = 1%Re)
  /\ (forall k, (k < c)%coq_nat -> exists s, (0 < s)%Re /\ forall i, (i < r)%coq_nat -> f i k = Rmult s (g i k)).
Proof. exact: cols_norm_spec. Qed.
Print Assumptions C38_cols_norm.

Example C38_case : exists i, (i < 2)%coq_nat /\ (fun i j : nat => INR (i + j)) i 0%N <> 0%Re.
Proof. exists 1%N. split; [lia|rewrite /=; lra]. Qed.

(** * C39: Cholesky decomposition *)
Theorem C39_cholesky :
  forall bc n f tl l, room n n l ->
  (forall i j, (i < n)%coq_nat -> (j < n)%coq_nat -> f i j = f j i) -> positive_definite n f ->
  exists g, mtx_cholesky bc (mat_of n n f tl) l = Ok (Z0, mat_of n n g (rest l))
  /\ (forall i j, (i < j)%coq_nat -> (j < n)%coq_nat -> g i j = 0%Re)
  /\ (forall i, (i < n)%coq_nat -> (0 < g i i)%Re)
  /\ (forall i j, (i < n)%coq_nat -> (j < n)%coq_nat ->
        bigsum n (fun k => Rmult (g i k) (g j k)) = f i j).
Proof. exact: cholesky_spec. Qed.
Print Assumptions C39_cholesky.

Theorem C39_rejected :
  forall n c (f : nat -> nat -> R) tl l,
  n <> c \/ (exists i j, (i < n)%coq_nat /\ (j < n)%coq_nat /\ f i j <> f j i) \/ mrows l <> n \/ mcols l <> c ->
  mtx_cholesky true (mat_of n c f tl) l = Ok (Z.opp EINVAL, l).
Proof. move=> n c f tl l H. exact: (@cholesky_bad true n c f tl l erefl H). Qed.
Print Assumptions C39_rejected.

(** (2 1; 1 2) is symmetric and positive definite *)
Example C39_case : positive_definite 2 (fun i j => if Nat.eqb i j then 2%Re else 1%Re).
Proof.
move=> x [i [Hi Hx]]. rewrite /=.
have : (0 < x 0%N * x 0%N + x 1%N * x 1%N)%Re.
  case: i Hi Hx => [|[|i]] Hi Hx; [| |exfalso; lia]; nra.
nra.
Qed.

(** * C40: Householder reflections.  [d] is the row the reflection starts at. *)
Theorem C40_householder :
  forall bc n c f tl h (hess : bool),
  let d := if hess then 1%N else 0%N in
  (0 < c)%coq_nat -> (d < n)%coq_nat -> room n n h ->
  exists g, mtx_householder bc (mat_of n c f tl) h hess = Ok (Z0, mat_of n n g (rest h))
  /\ orthogonal n g /\ (forall i j, g i j = g j i)
  /\ (forall i, (d < i)%coq_nat /\ (i < n)%coq_nat -> bigsum n (fun k => Rmult (g i k) (f k 0%N)) = 0%Re)
  /\ (forall i j, (i < d)%coq_nat -> g i j = delta i j).
Proof. exact: householder_spec. Qed.
Print Assumptions C40_householder.

Example C40_case : room 3 3 (mtx_def (T := R) 3 3).
Proof. exact: room_def. Qed.

(** A 1 x 1 matrix with hessenberg set: the code writes past an empty array. *)
Theorem C40_hessenberg_1x1_refuted :
  forall bc x (h : mtx R), mtx_householder bc (Mtx 1 1 [Some x]) h true = UB OOBWrite.
Proof. by []. Qed.
Print Assumptions C40_hessenberg_1x1_refuted.

(** * C41: QR decomposition *)
Theorem C41_qr :
  forall bc n f tl q r, (0 < n)%coq_nat -> room n n q -> room n n r ->
  exists q' r', mtx_qrd bc (mat_of n n f tl) q r false
     = Ok (Z0, (mat_of n n q' (rest q), mat_of n n r' (rest r)))
  /\ orthogonal n q' /\ upper_triangular n r'
  /\ (forall i j, (i < n)%coq_nat -> (j < n)%coq_nat -> bigsum n (fun k => Rmult (q' i k) (r' k j)) = f i j).
Proof. exact: qrd_triangular. Qed.
Print Assumptions C41_qr.

Example C41_case : exists q' r', mtx_qrd true (mat_of 2 2 (fun i j => INR (2 * i + j)) []) (mtx_def 2 2) (mtx_def 2 2) false
     = Ok (Z0, (mat_of 2 2 q' [], mat_of 2 2 r' [])).
Proof.
have [q' [r' [H _]]] := C41_qr true 2 (fun i j => INR (2 * i + j)) [] (mtx_def 2 2) (mtx_def 2 2)
  ltac:(lia) (room_def 2 2) (room_def 2 2).
by exists q', r'; rewrite H !rest_def.
Qed.

(** * C42: Hessenberg reduction *)
Theorem C42_hessenberg :
  forall bc n f tl q r, (0 < n)%coq_nat -> room n n q -> room n n r ->
  exists q' r', mtx_qrd bc (mat_of n n f tl) q r true
     = Ok (Z0, (mat_of n n q' (rest q), mat_of n n r' (rest r)))
  /\ orthogonal n q' /\ upper_hessenberg n r'
  /\ (forall i j, (i < n)%coq_nat -> (j < n)%coq_nat ->
        bigsum n (fun b => Rmult (bigsum n (fun a => Rmult (q' i a) (r' a b))) (q' j b)) = f i j).
Proof.
move=> bc n f tl q r Hn Hq Hr. have [q' [r' [E [O [H [S _]]]]]] := @qrd_hessenberg bc n f tl q r Hn Hq Hr.
exists q', r'. do 3 (split; first done). exact: S.
Qed.
Print Assumptions C42_hessenberg.

Example C42_case : exists q' r', mtx_qrd true (mat_of 3 3 (fun i j => INR (2 * i + j)) []) (mtx_def 3 3) (mtx_def 3 3) true
     = Ok (Z0, (mat_of 3 3 q' [], mat_of 3 3 r' [])).
Proof.
have [q' [r' [H _]]] := C42_hessenberg true 3 (fun i j => INR (2 * i + j)) [] (mtx_def 3 3) (mtx_def 3 3)
  ltac:(lia) (room_def 3 3) (room_def 3 3).
by exists q', r'; rewrite H !rest_def.
Qed.

(** * C43: QR iteration *)
Theorem C43_qr_iteration :
  forall bc n f tl mo iter, (0 < n)%coq_nat \/ iter = 0%N -> room n n mo ->
  exists p g, mtx_qrd_iter bc (mat_of n n f tl) mo iter = Ok (Z0, mat_of n n g (rest mo))
  /\ orthogonal n p
  /\ mx n n g = (mx n n p)^T *m mx n n f *m mx n n p
  /\ char_poly (mx n n g) = char_poly (mx n n f)
  /\ \tr (mx n n g) = \tr (mx n n f)
  /\ \det (mx n n g) = \det (mx n n f).
Proof.
move=> bc n f tl mo iter Hn Hm. have [p [g [E [O S]]]] := @qrd_iter_ok bc n f tl mo iter Hn Hm.
exists p, g. split=> //. split=> //. have H := orth_similar n f g p O S. have [O1 _] := orth_mx n p O.
split=> //. split; first exact: similar_char O1 H. split; first exact: similar_tr O1 H. exact: similar_det O1 H.
Qed.
Print Assumptions C43_qr_iteration.

Example C43_case : (0 < 3)%coq_nat /\ room 3 3 (mtx_def (T := R) 3 3).
Proof. split; [lia|exact: room_def]. Qed.

(** * C44: balancing.  [row0], [col0]: what the uninitialised locals row and
    col hold.  If the call returns, whatever they held, the result is the input
    scaled by a diagonal matrix of powers of two. *)
Theorem C44_balance_partial :
  forall bc n fuel row0 col0 f tl mo rc out, room n n mo ->
  mtx_balance bc fuel row0 col0 (mat_of n n f tl) mo = Ok (rc, out) ->
  rc = Z0 /\ exists g (e : nat -> Z), out = mat_of n n g (rest mo)
  /\ (forall i j, g i j = Rmult (f i j) (powerRZ 2 (e j - e i)))
  /\ char_poly (mx n n g) = char_poly (mx n n f).
Proof.
move=> bc n fuel row0 col0 f tl mo rc out Hm /(@balance_inv bc n fuel row0 col0 f tl mo rc out Hm) [-> [e ->]].
split=> //. exists (balanced n f e), e. split=> //. split=> //.
have [d [_ [_ [D E]]]] := balanced_similar n f e. exact: similar_char D E.
Qed.
Print Assumptions C44_balance_partial.

(** Every run whose locals row and col start at zero ends, with code 0: with a
    large enough bound on its loops it answers, always the same matrix.  That
    matrix is the input scaled by powers of two, and it is balanced: with r and c
    the sums of the absolute values of row and column i, no power of two 2^k
    would bring c 2^k + r / 2^k below 95 % of c + r. *)
Theorem C44_balance_ends :
  forall bc n f tl mo, room n n mo ->
  exists F g (e : nat -> Z),
    (forall fuel, (F <= fuel)%coq_nat ->
       mtx_balance bc fuel (Some 0%Re) (Some 0%Re) (mat_of n n f tl) mo = Ok (Z0, mat_of n n g (rest mo)))
  /\ (forall i j, g i j = Rmult (f i j) (powerRZ 2 (e j - e i)))
  /\ char_poly (mx n n g) = char_poly (mx n n f)
  /\ (forall i, (i < n)%coq_nat ->
       let r := bigsum n (fun j => Rabs (g i j)) in
       let c := bigsum n (fun j => Rabs (g j i)) in
       r = 0%Re \/ c = 0%Re \/
       forall k : Z, (95 / 100 * (c + r) <= c * powerRZ 2 k + r / powerRZ 2 k)%Re).
Proof.
move=> bc n f tl mo Hm. have [F [e [E S]]] := @balance_ends bc n f tl mo Hm.
exists F, (balanced n f e), e. split=> //. split=> //. split; last exact: S.
have [d [_ [_ [D E']]]] := balanced_similar n f e. exact: similar_char D E'.
Qed.
Print Assumptions C44_balance_ends.

(** Should the locals start with something else, but not below zero, the run
    ends too: with a scaling by powers of two. *)
Theorem C44_balance_ends_nonnegative :
  forall bc n f tl mo row0 col0, room n n mo -> (0 <= row0)%Re -> (0 <= col0)%Re ->
  exists F g (e : nat -> Z),
    (forall fuel, (F <= fuel)%coq_nat ->
       mtx_balance bc fuel (Some row0) (Some col0) (mat_of n n f tl) mo = Ok (Z0, mat_of n n g (rest mo)))
  /\ (forall i j, g i j = Rmult (f i j) (powerRZ 2 (e j - e i)))
  /\ char_poly (mx n n g) = char_poly (mx n n f).
Proof.
move=> bc n f tl mo g h Hm Hg Hh. have [F [e E]] := @balance_ends_garbage bc n f tl mo g h Hm Hg Hh.
exists F, (balanced n f e), e. split=> //. split=> //.
have [d [_ [_ [D E']]]] := balanced_similar n f e. exact: similar_char D E'.
Qed.
Print Assumptions C44_balance_ends_nonnegative.

(** But the result need not be balanced: in double precision (0 16; 1 1000)
    comes back as it is if row and col start at a million, and scaled if they
    start at zero. *)
Theorem C44_garbage_unbalanced_refuted :
  let m := Mtx 2 2 [Some 0%float; Some 16%float; Some 1%float; Some 1000%float] in
  mtx_balance true 5 (Some 1000000%float) (Some 1000000%float) m (mtx_def 2 2) = Ok (Z0, m)
  /\ mtx_balance true 5 (Some 0%float) (Some 0%float) m (mtx_def 2 2)
     = Ok (Z0, Mtx 2 2 [Some 0%float; Some 4%float; Some 4%float; Some 1000%float]).
Proof. split; by vm_compute. Qed.
Print Assumptions C44_garbage_unbalanced_refuted.

(** a matrix whose row and column sums agree comes back unchanged *)
Theorem C44_already_balanced :
  forall bc n fuel f tl mo, room n n mo ->
  (forall i, (i < n)%coq_nat -> bigsum n (fun j => Rabs (f i j)) = bigsum n (fun j => Rabs (f j i))) ->
  mtx_balance bc (S fuel) (Some 0%Re) (Some 0%Re) (mat_of n n f tl) mo = Ok (Z0, mat_of n n f (rest mo)).
Proof. exact: balance_fixed. Qed.
Print Assumptions C44_already_balanced.

Example C44_case : mtx_balance true 2 (Some 0%Re) (Some 0%Re) (mat_of 2 2 (fun i j => INR (i + j)) []) (mtx_def 2 2)
  = Ok (Z0, mat_of 2 2 (fun i j => INR (i + j)) []).
Proof.
rewrite (@C44_already_balanced true 2 1 (fun i j => INR (i + j)) [] (mtx_def 2 2)).
- by rewrite rest_def.
- exact: room_def.
- move=> i Hi. congr bigsum. apply: FunctionalExtensionality.functional_extensionality => j. by rewrite addnC.
Qed.

(** The locals are used before they are set: undefined for every non-empty
    matrix. *)
Theorem C44_uninitialised_refuted :
  forall bc n (f : nat -> nat -> R) tl mo fuel, (0 < n)%coq_nat -> room n n mo ->
  mtx_balance bc (S fuel) None None (mat_of n n f tl) mo = UB Uninit.
Proof. exact: balance_uninit. Qed.
Print Assumptions C44_uninitialised_refuted.

(** On a machine where col happens to start at -10, balancing (1) never ends. *)
Theorem C44_garbage_refuted :
  forall bc fuel tl,
  mtx_balance bc fuel (Some 0%Re) (Some (-10)%Re) (mat_of 1 1 (fun _ _ => 1%Re) tl) (mtx_def 1 1) = OutOfFuel.
Proof. exact: balance_stuck. Qed.
Print Assumptions C44_garbage_refuted.

(** * C45: eigenvalues.  The computation ends with a matrix A similar to m,
    whose diagonal it reports; [zte_test a] says 0 <= a < 1e-6. *)
Theorem C45_eigenvalues_partial :
  forall bc n fuel row0 col0 f tl vs vb iter rc v',
  (0 < n)%coq_nat -> (n <= length vb)%coq_nat -> (vs <= length vb)%coq_nat ->
  mtx_eigenvalues bc fuel row0 col0 (mat_of n n f tl) (Vec vs vb) iter = Ok (rc, v') ->
  let symmetric := forall i j, (i < n)%coq_nat -> (j < n)%coq_nat -> (Rabs (f i j - f j i) < / 1000000)%Re in
  exists A, (exists P Q : 'M[R]_n, Q *m P = 1%:M /\ mx n n A = Q *m mx n n f *m P)
  /\ char_poly (mx n n A) = char_poly (mx n n f)
  /\ (upper_triangular n A -> char_poly (mx n n f) = \prod_(i < n) ('X - (A i i)%:P))
  /\ (symmetric -> rc = Z0 /\ vsz v' = vs /\ firstn n (vbuf v') = cells (List.map (fun i => A i i) (List.seq 0 n)))
  /\ (~ symmetric ->
       ((forall k, (S k < n)%coq_nat -> (Rabs (A (S k) k) < / 1000000)%Re) ->
          rc = Z0 /\ exists t, v' =
            let d := List.map (fun i => A i i) (List.seq 0 n) in
            vec_of (List.filter (fun a => negb (zte_test a)) d ++ List.repeat 0%Re (length (List.filter zte_test d))) t)
       /\ (~ (forall k, (S k < n)%coq_nat -> (Rabs (A (S k) k) < / 1000000)%Re) ->
          rc = Z.opp ECOMPLEXVAL /\ (vsz v' < n)%coq_nat)).
Proof. exact: eigenvalues_mx. Qed.
Print Assumptions C45_eigenvalues_partial.

(** An upper triangular matrix: its diagonal is reported, and those are exactly
    its eigenvalues. *)
Theorem C45_triangular :
  forall bc n fuel row0 col0 f tl vs vb iter rc v',
  (0 < n)%coq_nat -> (n <= length vb)%coq_nat -> (vs <= length vb)%coq_nat -> upper_triangular n f ->
  mtx_eigenvalues bc fuel row0 col0 (mat_of n n f tl) (Vec vs vb) iter = Ok (rc, v') ->
  let d := List.map (fun i => f i i) (List.seq 0 n) in
  rc = Z0
  /\ (firstn n (vbuf v') = cells d \/
      exists t, v' = vec_of (List.filter (fun a => negb (zte_test a)) d
                             ++ List.repeat 0%Re (length (List.filter zte_test d))) t)
  /\ (forall a, eigenvalue (mx n n f) a = true <-> In a d).
Proof. exact: eigenvalues_tri. Qed.
Print Assumptions C45_triangular.

(** With locals that start at zero the computation always answers, whatever the
    matrix and the number of iterations. *)
Theorem C45_eigenvalues_end :
  forall bc n f tl vs vb iter,
  (0 < n)%coq_nat -> (n <= length vb)%coq_nat -> (vs <= length vb)%coq_nat ->
  exists F rc v', forall fuel, (F <= fuel)%coq_nat ->
  mtx_eigenvalues bc fuel (Some 0%Re) (Some 0%Re) (mat_of n n f tl) (Vec vs vb) iter = Ok (rc, v').
Proof. exact: eigenvalues_end. Qed.
Print Assumptions C45_eigenvalues_end.

(** The eigenvalues of (0 1; 1 0) are 1 and -1; reported, for any number of
    iterations: 0 and 0, with return code 0. *)
Theorem C45_exchange_matrix_refuted :
  forall bc fuel tl vb iter, (2 <= length vb)%coq_nat ->
  mtx_eigenvalues bc (S fuel) (Some 0%Re) (Some 0%Re) (mat_of 2 2 swap tl) (Vec 2 vb) iter
  = Ok (Z0, vec_of [0%Re; 0%Re] (skipn 2 vb))
  /\ (forall a, eigenvalue (mx 2 2 swap) a = true <-> a = 1%Re \/ a = (-1)%Re).
Proof. move=> bc fuel tl vb iter H. split; [exact: eig_swap|exact: swap_eigen]. Qed.
Print Assumptions C45_exchange_matrix_refuted.

(** the hypotheses of C45_triangular are met: (1 1; 0 2), one iteration *)
Example C45_case : exists rc v, mtx_eigenvalues true 5 (Some 0%float) (Some 0%float)
   (Mtx 2 2 [Some 1%float; Some 1%float; Some 0%float; Some 2%float]) (vec_def 2) 1 = Ok (rc, v).
Proof. do 2 eexists. vm_compute. reflexivity. Qed.

(** * C46: the singular value decomposition of a matrix with more columns than
    rows always leaves its arrays, whatever the numbers, buffers and number of
    iterations. *)
Theorem C46_wide_matrix_refuted :
  forall T (N : Num T) bc fuel row0 col0 mida midb (m u e v pinv : mtx T) iter,
  (0 < mrows m)%coq_nat /\ (mrows m < mcols m)%coq_nat ->
  (forall out, mtx_svd bc fuel row0 col0 mida midb m u e v iter <> Ok out) /\
  (forall out, mtx_pinv bc fuel row0 col0 mida midb m pinv iter <> Ok out).
Proof. move=> T N bc fuel row0 col0 mida midb m u e v pinv iter H. split; [exact: svd_wide|exact: pinv_wide]. Qed.
Print Assumptions C46_wide_matrix_refuted.

(** a run on (1 2): a write outside the local array ui *)
Example C46_wide_case :
  mtx_svd true 60 (Some 0%float) (Some 0%float) (List.repeat (Some 0%float) 4) (List.repeat (Some 0%float) 1)
    (Mtx 1 2 [Some 1%float; Some 2%float]) (mtx_def 1 1) (mtx_def 1 2) (mtx_def 2 2) 20 = UB OOBWrite.
Proof. by vm_compute. Qed.

(** The pseudo-inverse of the singular diag(1, 0) exists and is diag(1, 0); the
    code divides by the zero singular value. *)
Theorem C46_pinv_singular_refuted :
  exists m pinv : mtx float, mrows m = 2%N /\ mcols m = 2%N /\
  match mtx_pinv true 60 (Some 0%float) (Some 0%float) (List.repeat (Some 0%float) 4) (List.repeat (Some 0%float) 4)
     m pinv 20 with
  | Ok (rc, out) => rc = Z0 /\ mbuf out = [Some PrimFloat.nan; Some PrimFloat.nan; Some PrimFloat.nan; Some PrimFloat.infinity]
  | _ => False
  end.
Proof.
exists (Mtx 2 2 [Some 1%float; Some 0%float; Some 0%float; Some 0%float]), (mtx_def 2 2). by vm_compute.
Qed.
Print Assumptions C46_pinv_singular_refuted.
