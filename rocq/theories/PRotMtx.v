(** Every rotation matrix is the matrix of a unit quaternion. *)
From Coq Require Import List Arith ZArith Bool Lia Reals Nsatz Lra.
From Verif Require Import Base NumR SpecReal MQuat SpecQuat PQuatRot.
Local Open Scope R_scope.

Section R.
Variables a1 a2 a3 b1 b2 b3 c1 c2 c3 : R.
Hypothesis A : a1*a1+a2*a2+a3*a3 = 1.
Hypothesis B : b1*b1+b2*b2+b3*b3 = 1.
Hypothesis AB : a1*b1+a2*b2+a3*b3 = 0.
Hypothesis C1 : c1 = a2*b3-a3*b2.
Hypothesis C2 : c2 = a3*b1-a1*b3.
Hypothesis C3 : c3 = a1*b2-a2*b1.
Lemma cc : c1*c1+c2*c2+c3*c3 = 1. Proof. nsatz. Qed.
Lemma ac : a1*c1+a2*c2+a3*c3 = 0. Proof. nsatz. Qed.
Lemma bc_ : b1*c1+b2*c2+b3*c3 = 0. Proof. nsatz. Qed.
Lemma cr_a1 : a1 = b2*c3-b3*c2. Proof. nsatz. Qed.
Lemma cr_a2 : a2 = b3*c1-b1*c3. Proof. nsatz. Qed.
Lemma cr_a3 : a3 = b1*c2-b2*c1. Proof. nsatz. Qed.
Lemma cr_b1 : b1 = c2*a3-c3*a2. Proof. nsatz. Qed.
Lemma cr_b2 : b2 = c3*a1-c1*a3. Proof. nsatz. Qed.
Lemma cr_b3 : b3 = c1*a2-c2*a1. Proof. nsatz. Qed.
Lemma row1 : a1*a1+b1*b1+c1*c1 = 1. Proof. nsatz. Qed.
Lemma row2 : a2*a2+b2*b2+c2*c2 = 1. Proof. nsatz. Qed.
Lemma row3 : a3*a3+b3*b3+c3*c3 = 1. Proof. nsatz. Qed.

Lemma row12 : a1*a2+b1*b2+c1*c2 = 0. Proof. nsatz. Qed.
Lemma row13 : a1*a3+b1*b3+c1*c3 = 0. Proof. nsatz. Qed.
Lemma row23 : a2*a3+b2*b3+c2*c3 = 0. Proof. nsatz. Qed.

(** four times the product of the i-th and the j-th component *)
Definition pp (i j : nat) : R :=
  match i, j with
  | 0%nat, 0%nat => 1+a1+b2+c3 | 1%nat, 1%nat => 1+a1-b2-c3
  | 2%nat, 2%nat => 1-a1+b2-c3 | 3%nat, 3%nat => 1-a1-b2+c3
  | 0%nat, 1%nat | 1%nat, 0%nat => b3-c2 | 0%nat, 2%nat | 2%nat, 0%nat => c1-a3 | 0%nat, 3%nat | 3%nat, 0%nat => a2-b1
  | 1%nat, 2%nat | 2%nat, 1%nat => a2+b1 | 1%nat, 3%nat | 3%nat, 1%nat => c1+a3 | 2%nat, 3%nat | 3%nat, 2%nat => b3+c2
  | _, _ => 0
  end.

Lemma pp_rank1 i j k : (i < 4)%nat -> (j < 4)%nat -> (k < 4)%nat -> pp k i * pp k j = pp k k * pp i j.
Proof.
  generalize cc ac bc_ cr_a1 cr_a2 cr_a3 cr_b1 cr_b2 cr_b3 row1 row2 row3 row12 row13 row23. intros ? ? ? ? ? ? ? ? ? ? ? ? ? ? ? Hi Hj Hk.
  destruct i as [|[|[|[|]]]]; try lia; destruct j as [|[|[|[|]]]]; try lia; destruct k as [|[|[|[|]]]]; try lia; cbn [pp];
    clear Hi Hj Hk; first [ring|nsatz].
Qed.
Lemma pp_some : exists k, (k < 4)%nat /\ 0 < pp k k.
Proof.
  assert (E : pp 0 0 + pp 1 1 + pp 2 2 + pp 3 3 = 4) by (cbn [pp]; ring).
  destruct (Rlt_dec 0 (pp 0 0)); [exists 0%nat; auto with arith|].
  destruct (Rlt_dec 0 (pp 1 1)); [exists 1%nat; auto with arith|].
  destruct (Rlt_dec 0 (pp 2 2)); [exists 2%nat; auto with arith|].
  exists 3%nat. split; [lia|]. lra.
Qed.
Lemma pp_quat : exists q : nat -> R, forall i j, (i < 4)%nat -> (j < 4)%nat -> 4 * (q i * q j) = pp i j.
Proof.
  destruct pp_some as (k & Hk & P). exists (fun i => pp k i / (2 * sqrt (pp k k))). intros i j Hi Hj.
  assert (S : sqrt (pp k k) * sqrt (pp k k) = pp k k) by (apply sqrt_sqrt; lra).
  assert (S0 : 0 < sqrt (pp k k)) by now apply sqrt_lt_R0.
  replace (4 * _) with (pp k i * pp k j / (sqrt (pp k k) * sqrt (pp k k))) by (field; lra).
  rewrite S, pp_rank1 by assumption. field. lra.
Qed.
End R.

(** the columns u, v, w *)
Definition cols (u v w : v3) (i j : nat) : R :=
  match j with 0%nat => coord i u | 1%nat => coord i v | _ => coord i w end.

Lemma rot_quat u v w : vdot u u = 1 -> vdot v v = 1 -> vdot u v = 0 -> w = vcross u v ->
  exists q, unit_quat q /\ forall i j, (i < 3)%nat -> (j < 3)%nat -> rotm q i j = cols u v w i j.
Proof.
  destruct u as [[a1 a2] a3], v as [[b1 b2] b3], w as [[c1 c2] c3]. cbn [vdot vcross].
  intros A B AB [= C1 C2 C3].
  destruct (pp_quat a1 a2 a3 b1 b2 b3 c1 c2 c3 A B AB C1 C2 C3) as (q & H).
  exists (Quat (q 0%nat) (q 1%nat) (q 2%nat) (q 3%nat)).
  assert (H00 := H 0%nat 0%nat ltac:(lia) ltac:(lia)). assert (H11 := H 1%nat 1%nat ltac:(lia) ltac:(lia)).
  assert (H22 := H 2%nat 2%nat ltac:(lia) ltac:(lia)). assert (H33 := H 3%nat 3%nat ltac:(lia) ltac:(lia)).
  assert (H01 := H 0%nat 1%nat ltac:(lia) ltac:(lia)). assert (H02 := H 0%nat 2%nat ltac:(lia) ltac:(lia)).
  assert (H03 := H 0%nat 3%nat ltac:(lia) ltac:(lia)). assert (H12 := H 1%nat 2%nat ltac:(lia) ltac:(lia)).
  assert (H13 := H 1%nat 3%nat ltac:(lia) ltac:(lia)). assert (H23 := H 2%nat 3%nat ltac:(lia) ltac:(lia)).
  cbn [pp] in *. clear H. set (w := q 0%nat) in *. set (x := q 1%nat) in *. set (y := q 2%nat) in *. set (z := q 3%nat) in *.
  split; [unfold unit_quat, qdot, re, im, vdot; cbn [qr qi qj qk]; lra|].
  intros i j Hi Hj. unfold rotm, rotate, re, im, vadd, vscale, vcross.
  destruct i as [|[|[|]]]; try lia; destruct j as [|[|[|]]]; try lia; cbn -[Rplus Rmult Rminus IZR]; lra.
Qed.
