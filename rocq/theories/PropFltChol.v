(** C150: Cholesky decomposition in double precision. *)
From Coq Require Import Floats.PrimFloat.
From Flocq Require Import Core.
From Coq Require Import ZArith Reals Lra Lia List Bool.
From Verif Require Import Base BaseFacts NumR NumF SpecVec SpecReal SpecMtx SpecFlt MVec MMtx MDecomp PMtx PFlt PFltSum PPoly PFltSort PFltStat PFltChol.
Import ListNotations.
Open Scope R_scope.

(** A symmetric matrix of finite doubles is always accepted and the result is
    lower triangular.  Where its entries are finite, the product of the result
    and its transpose is the given matrix up to [gam (j + 3)], about
    (j + 3) 2^-53, of the same product of absolute values, plus underflow.  A diagonal
    entry above a finite one is positive.  No condition number occurs: the error is that of a slightly different matrix. *)
Theorem C150_cholesky bc n (f : nat -> nat -> double) tl l :
  room n n l ->
  (forall i j, (i < n)%nat -> (j < n)%nat -> finite (f i j) /\ FR (f i j) = FR (f j i)) ->
  exists g, mtx_cholesky bc (mat_of n n f tl) l = Ok (0%Z, mat_of n n g (rest l)) /\
  (forall i j, (i < j)%nat -> (j < n)%nat -> FR (g i j) = 0) /\
  (forall i j, (j <= i)%nat -> (i < n)%nat -> finite (g i j) -> finite (g j j) ->
     0 <= FR (g j j) /\
     Rabs (FR (f i j) - bigsum (S j) (fun k => FR (g i k) * FR (g j k)))
       <= gam (j + 3) * bigsum (S j) (fun k => Rabs (FR (g i k)) * Rabs (FR (g j k)))
          + ((1 + gam j) * INR j + (1 + uu) * FR (g j j)) * eta) /\
  (forall i j, (j < i)%nat -> (i < n)%nat -> finite (g i j) -> finite (g j j) -> 0 < FR (g j j)).
Proof.
  intros HR Hf. exists (cholF f n). split; [|split; [|split] ].
  - apply cholesky_flt; auto. intros i j Hi Hj. destruct (Hf i j Hi Hj) as (F1 & E). destruct (Hf j i Hj Hi) as (F2 & _).
    rewrite eqb_dec by auto. rewrite E. destruct Req_EM_T; congruence.
  - intros i j Hi Hj. rewrite LF_upper by auto. apply FR_zero.
  - intros i j Hi Hj F1 F2. destruct (@LF_entry f n i j Hi Hj F1 F2) as (_ & A & B). auto.
  - intros i j Hi Hj F1 F2. destruct (@LF_entry f n i j) as (_ & A & _); auto; [lia|].
    rewrite LF_low in F1 by auto. assert (FR (cholF f n j j) <> 0) by (eapply div_zero; eassumption). lra.
Qed.
Print Assumptions C150_cholesky.

(** A matrix that is not positive definite: the return value is still 0 and
    entries are not numbers, although the header promises a decomposition *)
Theorem C150_indefinite_refuted :
  exists g : nat -> nat -> double,
  mtx_cholesky true (mat_of 2 2 (fun i j => if (i =? j)%nat then 1 else 2)%float []) (mtx_def 2 2) = Ok (0%Z, mat_of 2 2 g []) /\
  is_nan (g 1 1)%nat = true.
Proof.
  exists (fun i j => match i, j with O, O => 1 | 1%nat, O => 2 | 1%nat, 1%nat => nan | _, _ => 0 end)%float.
  split; reflexivity.
Qed.
Print Assumptions C150_indefinite_refuted.

(** A positive definite matrix whose decomposition is finite *)
Example C150_ex :
  let f := fun i j => match i, j with O, O => 4 | O, _ | _, O => 2 | _, _ => 10 end%float in
  (forall i j, (i < 2)%nat -> (j < 2)%nat -> finite (f i j) /\ FR (f i j) = FR (f j i)) /\
  mtx_cholesky true (mat_of 2 2 f []) (mtx_def 2 2)
    = Ok (0%Z, mat_of 2 2 (fun i j => match i, j with O, O => 2 | O, _ => 0 | _, O => 1 | _, _ => 3 end)%float []).
Proof.
  cbv zeta. split; [|reflexivity]. intros [|[|i]] [|[|j]] Hi Hj; try lia; split; reflexivity.
Qed.
