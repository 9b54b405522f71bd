(** Determinants in double precision (C147): the machine result against the
    determinant of the real matrix ([\det] is that of Mathematical Components,
    the signed sum over all permutations). *)
From Coq Require Import Reals Lra ZArith.
Set Warnings "-notation-overridden,-ambiguous-paths".
From mathcomp Require Import all_ssreflect all_algebra.
From Coq Require Import Lia List PrimFloat.
From Verif Require Import Base NumR NumF BaseFacts SpecMtx SpecReal SpecFlt SpecFltDet MVec MMtx PMtx PMtxOps PMtxR
  PDet RField SpecMx PMx PDetMx PFlt PFltUnit PFltQuat PFltDet.
Import ListNotations.
Import GRing.Theory.
Local Delimit Scope R_scope with Re.
Local Open Scope ring_scope.

Theorem C147_determinant :
  forall bc n (f : nat -> nat -> float) tl (A : R),
  (0 < n)%coq_nat -> (1 <= A)%Re ->
  (forall i j, (i < n)%coq_nat -> (j < n)%coq_nat -> (Rabs (FR (f i j)) <= A)%Re) ->
  exists x, mtx_deter bc (mat_of n n f tl) = Ok (Z0, Some x) /\
    (finite x -> (Rabs (FR x - \det (mx n n (fun i j => FR (f i j)))) <= det_bound n (fun i j => FR (f i j)) A)%Re).
Proof.
move=> bc n f tl A Hn HA HF. case: (deter_err bc n f tl A Hn HA HF) => x [E B].
exists x. split; [exact E|]. move=> /B. by rewrite ldet_det.
Qed.
Print Assumptions C147_determinant.

(** 1/(i + j + 2), all of them below one: the hypotheses hold with A = 1, and
    the result is finite and positive *)
Definition hilb (i j : nat) : float := PrimFloat.div one (F_of_Z (Z.of_nat (S (S (Nat.add i j))))).

Example C147_example :
  (forall i j, (i < 4)%coq_nat -> (j < 4)%coq_nat -> (Rabs (FR (hilb i j)) <= 1)%Re) /\
  exists x, mtx_deter true (mat_of 4 4 hilb []) = Ok (Z0, Some x) /\ finite x /\ PrimFloat.ltb zero x = true.
Proof.
split; last by eexists; split; [vm_compute; reflexivity|split; vm_compute; reflexivity].
have S : forall x, finite (abs x) -> PrimFloat.ltb (abs x) one = true -> (Rabs (FR x) <= 1)%Re.
{ move=> x F L. rewrite -abs_FR -FR_one. left. apply/ltb_FR; [exact: F|by vm_compute|exact: L]. }
move=> i j Hi Hj.
do 4 (destruct i as [|i]; [do 4 (destruct j as [|j]; [apply: S; vm_compute; reflexivity|]); lia|]). lia.
Qed.
