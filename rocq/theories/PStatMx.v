(** Multiple regression and quadric fitting: the normal equations are solved. *)
From Coq Require Import Reals Lra ZArith.
Set Warnings "-notation-overridden,-ambiguous-paths".
From mathcomp Require Import all_ssreflect all_algebra.
From Coq Require Import Lia List.
From Verif Require Import Base NumR BaseFacts SpecVec SpecMtx SpecReal SpecStat SpecGauss MVec MMtx PMtx PMtxOps PMtxR
  PDet RField SpecMx PMx PDetMx Libm LibmR MStat PStat PStatReg PStatMult.
Import ListNotations.
Set Implicit Arguments.
Unset Strict Implicit.
Unset Printing Implicit Defensive.
Import GRing.Theory.
Local Delimit Scope R_scope with Re.
Local Delimit Scope Z_scope with Ze.
Local Open Scope ring_scope.

Lemma tiny_nz (x : R) : (/ 1000000 <= Rabs x)%Re -> x <> 0.
Proof. move=> H E. move: H. rewrite E Rabs_R0. lra. Qed.

Lemma nth_map_seq0 (b : nat -> R) k j : (j < k)%coq_nat -> List.nth j (map b (List.seq 0 k)) 0%Re = b j.
Proof. move=> H. by rewrite nth_map_seq. Qed.

Lemma fit_error_ext r k d x y b b' : (forall j, (j < k)%coq_nat -> b j = b' j) ->
  fit_error r k d x y b = fit_error r k d x y b'.
Proof.
move=> H. apply: bigsum_ext => i _.
rewrite (@bigsum_ext k _ (fun j => Rmult (x i j) (b' j))) //. move=> j Hj. by rewrite H.
Qed.

Lemma r_squared_ext r k x ys b b' : (forall j, (j < k)%coq_nat -> b j = b' j) ->
  r_squared r k x ys b = r_squared r k x ys b'.
Proof. move=> H. by rewrite /r_squared (@fit_error_ext _ _ _ _ _ b b'). Qed.

Lemma coeff_minimises r k d x y G :
  (forall i, (i < r)%coq_nat -> (0 <= d i)%Re) ->
  mx k k G = invmx (mx k k (gram r d x)) -> \det (mx k k (gram r d x)) <> 0 ->
  forall b', (fit_error r k d x y (coeff r k d x G y) <= fit_error r k d x y b')%Re.
Proof.
move=> Hd E D. apply: normal_equations_minimise => //.
apply: inverse_solves => //. exact: right_inv.
Qed.

Lemma mult_reg bc r c f tl ys ty bb (X := with_ones f) :
  length ys = r -> (1%N <= r)%coq_nat -> (Nat.add c 1%N <= length bb)%coq_nat ->
  (/ 1000000 <= Rabs (\det (mx (Nat.add c 1%N) (Nat.add c 1%N) (gram r (fun _ => 1%Re) X))))%Re ->
  ((Nat.add c 1%N) <> 3%N -> gj_clear (Nat.add c 1%N) (gram r (fun _ => 1%Re) X)) ->
  exists b, length b = (Nat.add c 1%N)
  /\ sta_mult_linear_reg bc (mat_of r c f tl) (vec_of ys ty) (Vec (Nat.add c 1%N) bb)
     = Ok (Z0, (vec_of b (skipn (Nat.add c 1%N) bb), Some (r_squared r (Nat.add c 1%N) X ys (fun j => List.nth j b 0%Re))))
  /\ forall b', (fit_error r (Nat.add c 1%N) (fun _ => 1%Re) X (fun i => List.nth i ys 0%Re) (fun j => List.nth j b 0%Re)
               <= fit_error r (Nat.add c 1%N) (fun _ => 1%Re) X (fun i => List.nth i ys 0%Re) b')%Re.
Proof.
move=> HL Hr Hb D C.
have Hn : (0%N < Nat.add c 1%N)%coq_nat by (clear; lia).
have [G [E1 E2]] := @inv_n bc (Nat.add c 1%N) (gram r (fun _ => 1%Re) X) [] (mtx_def (Nat.add c 1%N) (Nat.add c 1%N)) Hn (room_def _ _) (tiny_nz D) C.
rewrite rest_def in E1.
have R := @mult_reg_run bc r c f tl ys ty bb HL Hr Hb _ G (deter_det bc _ _ Hn) D E1.
exists (map (coeff r (Nat.add c 1%N) (fun _ => 1%Re) X G (fun i => List.nth i ys 0%Re)) (List.seq 0 (Nat.add c 1%N))).
split; first by rewrite map_length seq_length. split.
- rewrite R. cbv zeta. rewrite (@r_squared_ext r (Nat.add c 1%N) _ ys _ (fun j => List.nth j (map (coeff r (Nat.add c 1%N) (fun _ => 1%Re) X G (fun i => List.nth i ys 0%Re)) (List.seq 0 (Nat.add c 1%N))) 0%Re)) //.
  move=> j Hj. by rewrite nth_map_seq0.
- move=> b'. rewrite (@fit_error_ext _ _ _ _ _ _ (coeff r (Nat.add c 1%N) (fun _ => 1%Re) X G (fun i => List.nth i ys 0%Re))).
  + apply: coeff_minimises => //; [move=> *; lra|exact: tiny_nz].
  + move=> j Hj. by rewrite nth_map_seq0.
Qed.

Lemma mult_reg_sing bc r c f tl ys ty bb :
  length ys = r -> (Rabs (\det (mx (Nat.add c 1%N) (Nat.add c 1%N) (gram r (fun _ => 1%Re) (with_ones f)))) < / 1000000)%Re ->
  sta_mult_linear_reg bc (mat_of r c f tl) (vec_of ys ty) (Vec (Nat.add c 1%N) bb)
  = Ok (Z.opp EINVAL, (Vec (Nat.add c 1%N) bb, None)).
Proof.
move=> HL D. apply: mult_reg_singular => //; last exact: D.
apply: deter_det. clear; lia.
Qed.

Lemma wmult_reg bc r c f tl ys ty bb ws tw (X := with_ones f) (d := fun i => Rinv (List.nth i ws 0%Re)) :
  length ys = r -> (1%N <= r)%coq_nat -> (Nat.add c 1%N <= length bb)%coq_nat -> length ws = r ->
  Forall (fun w => / 1000000 <= w)%Re ws ->
  (/ 1000000 <= Rabs (\det (mx (Nat.add c 1%N) (Nat.add c 1%N) (gram r d X))))%Re ->
  ((Nat.add c 1%N) <> 3%N -> gj_clear (Nat.add c 1%N) (gram r d X)) ->
  exists b, length b = (Nat.add c 1%N)
  /\ sta_weighted_mult_linear_reg bc (mat_of r c f tl) (vec_of ys ty) (vec_of ws tw) (Vec (Nat.add c 1%N) bb)
     = Ok (Z0, (vec_of (map Rinv ws) tw, vec_of b (skipn (Nat.add c 1%N) bb), Some (r_squared r (Nat.add c 1%N) X ys (fun j => List.nth j b 0%Re))))
  /\ forall b', (fit_error r (Nat.add c 1%N) d X (fun i => List.nth i ys 0%Re) (fun j => List.nth j b 0%Re)
               <= fit_error r (Nat.add c 1%N) d X (fun i => List.nth i ys 0%Re) b')%Re.
Proof.
move=> HL Hr Hb HW Hw D C.
have Hn : (0%N < Nat.add c 1%N)%coq_nat by (clear; lia).
have Hz : Forall (fun w => / 1000000 <= Rabs w)%Re ws.
  by apply: Forall_impl Hw => w Hw; rewrite Rabs_right //; lra.
have [G [E1 E2]] := @inv_n bc (Nat.add c 1%N) (gram r d X) [] (mtx_def (Nat.add c 1%N) (Nat.add c 1%N)) Hn (room_def _ _) (tiny_nz D) C.
rewrite rest_def in E1.
have R := @wmult_reg_run bc r c f tl ys ty bb HL Hr Hb ws tw HW Hz _ G (deter_det bc _ _ Hn) D E1.
exists (map (coeff r (Nat.add c 1%N) d X G (fun i => List.nth i ys 0%Re)) (List.seq 0 (Nat.add c 1%N))).
split; first by rewrite map_length seq_length. split.
- rewrite R. cbv zeta. rewrite (@r_squared_ext r (Nat.add c 1%N) _ ys _ (fun j => List.nth j (map (coeff r (Nat.add c 1%N) d X G (fun i => List.nth i ys 0%Re)) (List.seq 0 (Nat.add c 1%N))) 0%Re)) //.
  move=> j Hj. by rewrite nth_map_seq0.
- move=> b'. rewrite (@fit_error_ext _ _ _ _ _ _ (coeff r (Nat.add c 1%N) d X G (fun i => List.nth i ys 0%Re))).
  + apply: coeff_minimises => //; last exact: tiny_nz.
    move=> i Hi. rewrite /d. apply: Rlt_le. apply: Rinv_0_lt_compat.
    have := proj1 (Forall_forall _ _) Hw (List.nth i ws 0%Re) ltac:(apply: nth_In; lia). lra.
  + move=> j Hj. by rewrite nth_map_seq0.
Qed.

Lemma quad_fit bc r f tl bb (X := quad_mono f) :
  (9%N <= length bb)%coq_nat ->
  \det (mx 9 9 (gram r (fun _ => 1%Re) X)) <> 0 -> gj_clear 9 (gram r (fun _ => 1%Re) X) ->
  exists b, length b = 9%N
  /\ sta_quad_fit bc (mat_of r 3 f tl) (Vec 9 bb) = Ok (Z0, vec_of b (skipn 9 bb))
  /\ forall b', (fit_error r 9 (fun _ => 1%Re) X (fun _ => 1%Re) (fun j => List.nth j b 0%Re)
               <= fit_error r 9 (fun _ => 1%Re) X (fun _ => 1%Re) b')%Re.
Proof.
move=> Hb D C.
have Hn : (0%N < 9%N)%coq_nat by lia.
have [G [E1 E2]] := @inv_n bc 9 (gram r (fun _ => 1%Re) X) [] (mtx_def 9 9) Hn (room_def _ _) D (fun _ => C).
rewrite rest_def in E1.
have R := @quad_fit_run bc r f tl bb G Hb E1.
exists (map (coeff r 9 (fun _ => 1%Re) X G (fun _ => 1%Re)) (List.seq 0 9)).
split; first by rewrite map_length seq_length. split; first exact: R.
move=> b'. rewrite (@fit_error_ext _ _ _ _ _ _ (coeff r 9 (fun _ => 1%Re) X G (fun _ => 1%Re))).
- apply: coeff_minimises => //. move=> *; lra.
- move=> j Hj. by rewrite nth_map_seq0.
Qed.
