(** Linear algebra of the Kalman update, via the matrices of the Mathematical
    Components library: inverses, quadratic forms and the Joseph form. *)
From Coq Require Import Reals Lra ZArith.
Set Warnings "-notation-overridden,-ambiguous-paths".
From mathcomp Require Import all_ssreflect all_algebra.
From Coq Require Import Lia List.
From Verif Require Import Base NumR BaseFacts SpecVec SpecMtx SpecReal SpecGauss MVec MMtx PMtx PMtxOps PMtxR
  PDet PGauss PWedge RField SpecMx PMx PDetMx SpecFusion PFusion3.
Import ListNotations.
Set Implicit Arguments.
Unset Strict Implicit.
Unset Printing Implicit Defensive.
Import GRing.Theory.
Local Delimit Scope R_scope with Re.
Local Open Scope ring_scope.

Lemma det_of_left n f h :
  (forall i j, (i < n)%coq_nat -> (j < n)%coq_nat -> mmul n h f i j = mid i j) -> \det (mx n n f) <> 0.
Proof.
move=> H. have E : mx n n h *m mx n n f = 1%:M by rewrite -mx_mmul (mx_ext H) mx_id.
have := congr1 (fun A => \det A) E. rewrite det_mulmx det1 => D Z. rewrite Z mulr0 in D.
by have := @oner_neq0 R_comRingType; rewrite -D eqxx.
Qed.

Lemma inverse_both n f h : mx n n h = invmx (mx n n f) -> \det (mx n n f) <> 0 -> inverse_of n f h.
Proof.
move=> E D i j Hi Hj.
have R1 := right_inv E D. split; first exact: R1.
have L : mx n n (mmul n h f) = mx n n mid by rewrite mx_mmul mx_id E mulVmx // det_unit.
exact: (mx_inj L).
Qed.

Lemma inv_clear bc n f tl mi :
  (0 < n)%coq_nat -> n <> 3%N -> room n n mi ->
  (exists h, inverse_of n f h) -> gj_clear n f ->
  exists g, mtx_inv bc (mat_of n n f tl) mi = Ok (Z0, mat_of n n g (rest mi)) /\ inverse_of n f g.
Proof.
move=> Hn H3 Hr [h Hh] C.
have D : \det (mx n n f) <> 0 by apply: (@det_of_left n f h) => i j Hi Hj; case: (Hh i j Hi Hj).
have [g [E1 E2]] := @inv_n bc n f tl mi Hn Hr D (fun _ => C).
exists g. split => //. exact: inverse_both.
Qed.

Lemma qform_mx n f x : qform n f x = (mx 1 n (fun _ j => x j) *m mx n n f *m mx n 1 (fun i _ => x i)) 0 0.
Proof.
rewrite /qform bigsum_sum mxE.
transitivity (\sum_(i < n) \sum_(j < n) (x i * f i j * x j : R)).
  by apply: eq_bigr => i _; rewrite bigsum_sum.
rewrite exchange_big /=. apply: eq_bigr => j _. rewrite !mxE big_distrl /=.
apply: eq_bigr => i _. by rewrite !mxE.
Qed.

Lemma pd_inverse n f :
  (forall x, (exists i, (i < n)%coq_nat /\ x i <> 0%Re) -> (0 < qform n f x)%Re) -> exists h, inverse_of n f h.
Proof.
move=> PD.
have D : \det (mx n n f) <> 0.
  move=> Z. move/eqP: Z => /det0P [v Hv K].
  pose x := fun k : nat => match @idP (k < n)%N with ReflectT H => v 0 (Ordinal H) | ReflectF _ => 0%Re end.
  have Ex : forall i : 'I_n, x i = v 0 i.
    move=> i. rewrite /x. case: {-}_ / idP => [H|]; last by case; exact: ltn_ord.
    by congr (v 0 _); apply: val_inj.
  have Ev : mx 1 n (fun _ j => x j) = v.
    apply/matrixP => a b. by rewrite mxE Ex ord1.
  have Q : qform n f x = 0%Re by rewrite qform_mx Ev K mul0mx mxE.
  have : exists i, (i < n)%coq_nat /\ x i <> 0%Re.
    case/rV0Pn: Hv => i /eqP Hi. exists i. split; first exact/ltP. by rewrite Ex.
  move=> /PD. rewrite Q. exact: Rlt_irrefl.
pose h := fun i j : nat => match @idP (i < n)%N, @idP (j < n)%N with
  | ReflectT Hi, ReflectT Hj => invmx (mx n n f) (Ordinal Hi) (Ordinal Hj) | _, _ => 0%Re end.
exists h. apply: inverse_both => //.
apply/matrixP => i j. rewrite mxE /h.
case: {-}_ / idP => [Hi|]; last by case; exact: ltn_ord.
case: {-}_ / idP => [Hj|]; last by case; exact: ltn_ord.
by congr (invmx _ _ _); apply: val_inj.
Qed.

(** quadratic form of A P A^t *)
Lemma qform_congr n k A P x :
  qform n (mmul k (mmul k A P) (fun i j => A j i)) x = qform k P (fun j => bigsum n (fun i => Rmult (x i) (A i j))).
Proof.
rewrite !qform_mx. rewrite !mx_mmul (mx_tr n k A). cbv beta.
have E2 : mx k 1 (fun j _ => bigsum n (fun i => Rmult (x i) (A i j))) = (mx n k A)^T *m mx n 1 (fun i _ => x i).
  apply/matrixP => a b. rewrite !mxE bigsum_sum. apply: eq_bigr => i _. by rewrite !mxE mulrC.
by rewrite E2 !mulmxA.
Qed.

Lemma sym_congr n k A P : sym k P -> sym n (mmul k (mmul k A P) (fun i j => A j i)).
Proof.
move=> S.
have T : (mx k k P)^T = mx k k P by rewrite -mx_tr; apply: mx_ext => i j Hi Hj; rewrite S.
set M := mmul k _ _.
have EM : mx n n M = mx n k A *m mx k k P *m (mx n k A)^T by rewrite /M !mx_mmul (mx_tr n k A).
have E : mx n n M = mx n n (fun i j => M j i) by rewrite (mx_tr n n M) EM !trmx_mul trmxK T mulmxA.
move=> i j Hi Hj. exact: (mx_inj E).
Qed.

(** the Joseph form of the corrected covariance *)
Lemma joseph H V P Si :
  inverse_of 6 (kS H V P) Si ->
  let K := kK H P Si in
  let A := fun i j => Rminus (mid i j) (mmul 6 K H i j) in
  forall i j, (i < 4)%coq_nat -> (j < 4)%coq_nat ->
  kPnew K H P i j = Rplus (mmul 4 (mmul 4 A P) (fun i j => A j i) i j)
                          (mmul 6 (mmul 6 K V) (fun i j => K j i) i j).
Proof.
move=> Hi K A.
pose P_ := mx 4 4 P. pose H_ := mx 6 4 H. pose V_ := mx 6 6 V. pose K_ := mx 4 6 K. pose S_ := mx 6 6 (kS H V P).
have ES : S_ = H_ *m P_ *m H_^T + V_.
  apply/matrixP => a b. rewrite !mxE /kS /mmul bigsum_sum. congr (_ + _). apply: eq_bigr => c _.
  rewrite !mxE bigsum_sum. congr (_ * _). by apply: eq_bigr => e _; rewrite !mxE.
have EK : K_ = P_ *m H_^T *m mx 6 6 Si by rewrite /K_ /K /kK !mx_mmul (mx_tr 6 4 H).
have KS : K_ *m S_ = P_ *m H_^T.
  rewrite EK -mulmxA. have -> : mx 6 6 Si *m S_ = 1%:M; last by rewrite mulmx1.
  rewrite -mx_mmul -mx_id. apply: mx_ext => i j H1 H2. by case: (Hi i j H1 H2).
have EA : mx 4 4 A = 1%:M - K_ *m H_.
  by rewrite -mx_id -mx_mmul; apply/matrixP => a b; rewrite !mxE.
have EP : mx 4 4 (kPnew K H P) = (1%:M - K_ *m H_) *m P_ by rewrite /kPnew mx_mmul -EA.
have EJ : mx 4 4 (fun i j => Rplus (mmul 4 (mmul 4 A P) (fun i j => A j i) i j)
                          (mmul 6 (mmul 6 K V) (fun i j => K j i) i j))
        = (1%:M - K_ *m H_) *m P_ *m (1%:M - K_ *m H_)^T + K_ *m V_ *m K_^T.
  rewrite -EA -(mx_tr 4 6 K) -(mx_tr 4 4 A) -!mx_mmul. by apply/matrixP => a b; rewrite !mxE.
have E : mx 4 4 (kPnew K H P) = mx 4 4 (fun i j => Rplus (mmul 4 (mmul 4 A P) (fun i j => A j i) i j)
                          (mmul 6 (mmul 6 K V) (fun i j => K j i) i j)); last exact: (mx_inj E).
rewrite EP EJ.
have EV : K_ *m V_ *m K_^T = (1%:M - K_ *m H_) *m P_ *m (H_^T *m K_^T).
  rewrite !mulmxBl mul1mx !mulmxA -KS ES mulmxDr mulmxDl !mulmxA addrC addKr //.
by rewrite EV linearB /= trmx1 trmx_mul mulmxBr mulmx1 subrK.
Qed.
