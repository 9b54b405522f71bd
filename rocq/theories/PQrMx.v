(** Algebra behind the convergence of QR iteration: traces, characteristic
    polynomials, symmetric matrices as polynomials of their squares. *)
From Coq Require Import Reals Lra ZArith.
Set Warnings "-notation-overridden,-ambiguous-paths".
From mathcomp Require Import all_ssreflect all_algebra.
From Coq Require Import Lia List.
From Verif Require Import Base SpecReal SpecMtx SpecDecomp SpecReduc PDet PMtxR PFvec PQr PBalTerm RField SpecMx SpecEig PMx PDecompMx.
Import GRing.Theory.
Local Delimit Scope R_scope with Re.
Local Open Scope ring_scope.

Notation psd := positive_semidefinite.

Definition colv n (x : nat -> R) : 'cV[R]_n := mx n 1 (fun i _ => x i).

Lemma quad_mx n f x :
  bigsum n (fun a => bigsum n (fun b => Rmult (Rmult (x a) (f a b)) (x b)))
  = ((colv n x)^T *m mx n n f *m colv n x) 0 0.
Proof.
rewrite -mulmxA mxE bigsum_sum. apply: eq_bigr => a _. rewrite !mxE bigsum_sum big_distrr /=.
apply: eq_bigr => b _. rewrite !mxE. change (x a * f a b * x b = x a * (f a b * x b)). by rewrite mulrA.
Qed.

Lemma psd_conj n f g q : same n g (mmul n (mmul n (tr q) f) q) -> psd n f -> psd n g.
Proof.
move=> H P x. rewrite quad_mx (same_mx _ _ _ H) !mx_mmul mx_tr.
have := P (fun i => bigsum n (fun j => Rmult (q i j) (x j))). rewrite quad_mx.
have -> : colv n (fun i => bigsum n (fun j => Rmult (q i j) (x j))) = mx n n q *m colv n x.
  by rewrite /colv -mx_mmul.
by rewrite trmx_mul !mulmxA.
Qed.

Lemma tr_bigsum n f : \tr (mx n n f) = bigsum n (fun i => f i i).
Proof. rewrite bigsum_sum /mxtrace. apply: eq_bigr => i _. by rewrite mxE. Qed.

Lemma trace_id n (A S : 'M[R]_n) :
  \tr ((A - S) *m A *m (A - S)) + \tr ((A - S) *m S *m (A - S)) = \tr ((A - S) *m (A *m A - S *m S)).
Proof.
rewrite (_ : A *m A - S *m S = (A - S) *m A + S *m (A - S)).
  set N := A - S. rewrite mulmxDr mxtraceD (mulmxA N S N). by rewrite (mxtrace_mulC N (N *m A)).
by rewrite mulmxBl mulmxBr addrA subrK.
Qed.

Definition dg (s : nat -> R) : nat -> nat -> R := fun i j => if Nat.eqb i j then s i else 0%Re.

Lemma mx_sub n f g : mx n n (fun i j => Rminus (f i j) (g i j)) = mx n n f - mx n n g.
Proof. apply/matrixP => i j. by rewrite !mxE. Qed.

Lemma mmul_dg_l n s f : same n (mmul n (dg s) f) (fun i j => Rmult (s i) (f i j)).
Proof.
move=> i j Hi Hj. rewrite /mmul (bigsum_ext n _ (fun k => if Nat.eqb k i then Rmult (s k) (f k j) else 0%Re)).
  exact: (bigsum_delta n (fun k => Rmult (s k) (f k j)) i Hi).
move=> k Hk. rewrite /dg Nat.eqb_sym. case: (Nat.eqb_spec k i) => [->//|_]. by rewrite Rmult_0_l.
Qed.

Lemma tr_ineq n a s : (forall i j, (i < n)%coq_nat -> (j < n)%coq_nat -> a i j = a j i) -> psd n a ->
  let N := fun i j => Rminus (a i j) (dg s i j) in
  (bigsum n (fun j => bigsum n (fun b => Rmult (s b) (Rmult (N b j) (N b j))))
   <= bigsum n (fun i => bigsum n (fun j => Rmult (N i j) (Rminus (mmul n a a j i) (dg (fun i => Rmult (s i) (s i)) j i)))))%Re.
Proof.
move=> Sy P N.
have SN : forall i j, (i < n)%coq_nat -> (j < n)%coq_nat -> N i j = N j i.
  move=> i j Hi Hj. rewrite /N Sy // /dg Nat.eqb_sym. by case: (Nat.eqb_spec j i) => [->|].
have T := trace_id n (mx n n a) (mx n n (dg s)).
have E2 : \tr ((mx n n a - mx n n (dg s)) *m mx n n (dg s) *m (mx n n a - mx n n (dg s)))
   = bigsum n (fun j => bigsum n (fun b => Rmult (s b) (Rmult (N b j) (N b j)))).
  rewrite -mx_sub -mulmxA -!mx_mmul tr_bigsum. apply: bigsum_ext => j Hj. apply: bigsum_ext => b Hb.
  rewrite mmul_dg_l // -/(N j b) -/(N b j) (SN j b) //. ring.
have E3 : \tr ((mx n n a - mx n n (dg s)) *m (mx n n a *m mx n n a - mx n n (dg s) *m mx n n (dg s)))
   = bigsum n (fun i => bigsum n (fun j => Rmult (N i j) (Rminus (mmul n a a j i) (dg (fun i => Rmult (s i) (s i)) j i)))).
  rewrite -!mx_mmul -!mx_sub -mx_mmul tr_bigsum. apply: bigsum_ext => i Hi. apply: bigsum_ext => j Hj.
  rewrite -/(N i j). congr Rmult. congr Rminus. rewrite mmul_dg_l // /dg. case: Nat.eqb_spec => [->|] //. by rewrite Rmult_0_r.
have E1 : (0 <= \tr ((mx n n a - mx n n (dg s)) *m mx n n a *m (mx n n a - mx n n (dg s))))%Re.
  rewrite -mx_sub -mulmxA -!mx_mmul tr_bigsum. apply: bsum_nonneg => j Hj.
  have := P (fun i => N i j). congr Rle. apply: bigsum_ext => b Hb. rewrite /mmul bigsum_mult_l.
  apply: bigsum_ext => c Hc. rewrite -/(N j b) -/(N c j) (SN j b) //. ring.
rewrite -E2 -E3 -T.
set u := \tr _ in E1 *. set v := \tr _. change (v <= Rplus u v)%Re. lra.
Qed.

(** ** Characteristic polynomials *)
Lemma char_eval n f x : ldet n (fun i j => Rminus (dg (fun _ => x) i j) (f i j)) = (char_poly (mx n n f)).[x].
Proof.
rewrite ldet_det /char_poly -horner_evalE -det_map_mx. congr (\det _). apply/matrixP => i j.
rewrite !mxE /= horner_evalE !hornerE hornerMn hornerX /dg.
case: eqP => [->|N]; first by rewrite Nat.eqb_refl.
case: Nat.eqb_spec => // E. exfalso. exact/N/ord_inj.
Qed.

Lemma poly_ext (p q : {poly R}) : (forall x, p.[x] = q.[x]) -> p = q.
Proof.
move=> H. apply/eqP. rewrite -subr_eq0. apply/negPn/negP => N.
have U : uniq [seq INR i | i <- iota 0 (size (p - q))] by rewrite map_inj_uniq ?iota_uniq //; exact: INR_eq.
have := max_poly_roots N _ U. rewrite size_map size_iota ltnn => K. suff : false by []. apply: K.
apply/allP => x _. rewrite /root hornerD hornerN H subrr. exact: eqxx.
Qed.

Lemma char_shift n f g c : same n g (fun i j => Rplus (f i j) (dg (fun _ => c) i j)) ->
  forall x, (char_poly (mx n n f)).[x] = (char_poly (mx n n g)).[Rplus x c].
Proof.
move=> H x. rewrite -!char_eval. apply: ldet_ext => i j Hi Hj. rewrite H // /dg. case: Nat.eqb; ring.
Qed.
