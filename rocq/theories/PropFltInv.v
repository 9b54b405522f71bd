(** Property C157: the inverse of a 3 x 3 matrix in double precision
    (zsl_mtx_inv, zsl_mtx_inv_3x3), by determinant and adjoint.

    [FR x] is the real value of a double, [finite x] says that it is neither
    infinite nor NaN; [inverse3 F X] says F X = I, and the bounds [inv_bound]
    and [det_bound] are in SpecFltInv and SpecFltDet. *)
From Coq Require Import Floats.PrimFloat.
From Coq Require Import ZArith Reals Lra Lia List Bool Arith.
From Verif Require Import Base NumF SpecMtx SpecReal SpecFlt SpecFltDet SpecFltInv MVec MMtx PMtx PDet PFlt PFltSum PFltUnit PFltDet PFltInv PPoly.
Import ListNotations.
Open Scope R_scope.

(** As long as the determinant is larger than the rounding error of its own
    computation, every finite entry of the answer is close to the entry of the
    exact inverse. *)
Theorem C157_inverse :
  forall bc (f : nat -> nat -> double) tl mi (A : R) (X : nat -> nat -> R),
  let F := fun i j => FR (f i j) in
  room 3 3 mi -> 1 <= A -> (forall i j, (i < 3)%nat -> (j < 3)%nat -> Rabs (F i j) <= A) ->
  inverse3 F X -> det_bound 3 F A < Rabs (sarrus F) ->
  exists g d, mtx_inv bc (mat_of 3 3 f tl) mi = Ok (0%Z, mat_of 3 3 g (rest mi))
  /\ mtx_deter bc (mat_of 3 3 f tl) = Ok (0%Z, Some d)
  /\ (finite d -> forall i j, (i < 3)%nat -> (j < 3)%nat -> finite (g i j) ->
       Rabs (FR (g i j) - X i j) <= inv_bound F A (det_bound 3 F A) i j).
Proof.
  intros bc f tl mi A X F Hm HA HF HX Hb.
  eexists _, (machine (det3 f)). split; [now apply inv3_F|].
  destruct (@deter_err bc 3 f tl A ltac:(lia) HA HF) as (x & Ex & Bx).
  assert (E : mtx_deter bc (mat_of 3 3 f tl) = Ok (0%Z, Some (machine (det3 f)))).
  { unfold mtx_deter. rewrite deter_F by (cbn [mrows mat_of]; lia). reflexivity. }
  split; [exact E|]. rewrite E in Ex. assert (X0 : x = machine (det3 f)) by congruence. clear Ex. subst x. intros Fd i j Hi Hj Fg. specialize (Bx Fd).
  assert (S : ldet 3 (RM f) = sarrus F) by (rewrite ldet_3; reflexivity). rewrite S in Bx.
  assert (N : PrimFloat.eqb (machine (det3 f)) zero = false).
  { rewrite PFltStat.eqb_dec by (auto; reflexivity). rewrite FR_zero. destruct Req_EM_T as [Z|]; [exfalso|reflexivity].
    rewrite Z in Bx. unfold Rminus in Bx. rewrite Rplus_0_l, Rabs_Ropp in Bx. change (RM f) with F in Bx. lra. }
  rewrite N in Fg |- *. apply (@inv3_err f A (det_bound 3 F A) X i j HA HF HX Hi Hj Fd Bx Hb Fg).
Qed.
Print Assumptions C157_inverse.

(** When the machine's determinant is zero the answer is the identity matrix
    with code 0, although the matrix may be invertible: 1e-110 times the
    identity, whose inverse is 1e110 times the identity, is answered with the
    identity. *)
Theorem C157_underflow_refuted :
  forall bc, mtx_inv bc (mat_of 3 3 (fun i j => if Nat.eqb i j then 1e-110%float else 0%float) []) (mtx_def 3 3)
  = Ok (0%Z, mat_of 3 3 (fun i j => if Nat.eqb i j then 1%float else 0%float) []).
Proof. intros [|]; vm_compute; reflexivity. Qed.
Print Assumptions C157_underflow_refuted.

(** *** Non-vacuity: (2 1 0; 0 2 1; 0 0 2) *)
Definition tri (i j : nat) : double := if Nat.eqb i j then 2%float else if Nat.eqb (S i) j then 1%float else 0%float.
Definition tri_inv (i j : nat) : R := if Nat.eqb i j then / 2 else if Nat.eqb (S i) j then - / 4 else if Nat.eqb (S (S i)) j then / 8 else 0.

Lemma FR_2 : FR 2%float = 2.
Proof.
  unfold FR. change (FloatOps.Prim2SF 2) with (SpecFloat.S754_finite false 4503599627370496 (-51)). cbn [powerRZ].
  rewrite pow_IZR. change (Pos.to_nat 51) with 51%nat. change (2 ^ Z.of_nat 51)%Z with 2251799813685248%Z. lra.
Qed.

Example C157_example :
  inverse3 (fun i j => FR (tri i j)) tri_inv /\ det_bound 3 (fun i j => FR (tri i j)) 2 < Rabs (sarrus (fun i j => FR (tri i j))).
Proof.
  assert (F1 : FR 1%float = 1) by exact FR_one. assert (F0 : FR 0%float = 0) by exact FR_zero.
  split.
  - intros i j Hi Hj. unfold tri, tri_inv.
    destruct i as [|[|[|]]]; [| | |lia]; (destruct j as [|[|[|]]]; [| | |lia]); cbn [Nat.eqb]; rewrite ?FR_2, ?F1, ?F0; lra.
  - assert (ES : sarrus (fun i j => FR (tri i j)) = 8) by (unfold sarrus, tri; cbn [Nat.eqb]; rewrite FR_2, F1, F0; ring).
    rewrite ES, (Rabs_pos_eq 8) by lra. unfold det_bound.
    assert (EA : absperm 3 (fun i j => FR (tri i j)) = 8).
    { cbn -[FR Rabs]. unfold drop, tri. cbn -[FR Rabs]. rewrite FR_2, F1, F0, Rabs_R0, Rabs_R1, (Rabs_pos_eq 2) by lra. ring. }
    rewrite EA. pose proof uu_pos as U. assert (Us : uu <= / 1000000) by (rewrite uu_val; lra).
    assert (G : gam (3 * 3) <= / 1000).
    { destruct (gam_bounds (3 * 3)) as (_ & G); [cbn; lra|]. eapply Rle_trans; [exact G|].
      replace (INR (3 * 3)) with 9 by (cbn; lra). apply Rmult_le_reg_r with (1 - 9 * uu); [lra|].
      unfold Rdiv. rewrite Rmult_assoc, Rinv_l by lra. lra. }
    pose proof (gam_nonneg (3 * 3)) as G0. pose proof eta_pos as E0.
    assert (E1 : eta <= / 1000000).
    { unfold eta. apply Rinv_le_contravar; [lra|]. apply Rle_trans with (2 ^ 20); [lra|]. apply Rle_pow; [lra|]. lia. }
    replace (INR (Factorial.fact 3)) with 6 by (cbn; lra).
    assert ((1 + gam (3 * 3)) * eta <= 2 * / 1000000) by (apply Rmult_le_compat; lra). nra.
Qed.
