(** Proofs about rotations by quaternions: vectors, matrices, axis and angle. *)
From Coq Require Import List Arith ZArith Bool Reals Lra Lia.
From Verif Require Import Base BaseFacts NumR Libm LibmR RTac Out MVec SpecVec SpecReal PVec PVecR
  MMtx SpecMtx PMtx MQuat SpecQuat PQuat.
Import ListNotations.
Local Open Scope R_scope.
Implicit Types (p q a b : quat R).

(** equality of polynomials modulo q q* = 1 *)
Lemma rot_hprod q v r :
  unit_quat q -> hprod (hprod q (mkq r v)) (qconj q) = mkq r (rotate q v).
Proof.
  intros U. destruct q as [w x y z], v as [[a b] c]. unfold unit_quat, qdot in U. cbn in U.
  assert (E : w * w = 1 - (x * x + y * y + z * z)) by lra.
  unfold hprod, qconj, rotate, mkq, re, im, vadd, vscale, vdot, vcross. cbn.
  f_equal; ring [E].
Qed.

Lemma rotate_len q v : unit_quat q -> vdot (rotate q v) (rotate q v) = vdot v v.
Proof.
  intros U. destruct q as [w x y z], v as [[a b] c]. unfold unit_quat, qdot in U. cbn in U.
  assert (E : w * w = 1 - (x * x + y * y + z * z)) by lra.
  unfold rotate, mkq, re, im, vadd, vscale, vdot, vcross. cbn. ring [E].
Qed.

Lemma quat_rot_ok bc a b :
  bc = false \/ Rabs (re b) <= / 1000000 -> / 1000000 <= qnorm a ->
  quat_rot bc a b = Ok (0%Z, Some (mkq (re b) (rotate (unitised a) (im b)))).
Proof.
  intros Hb Ha. unfold quat_rot. rops.
  assert (G : bc && Rltb (1 / 1000000) (Rabs (qr b)) = false).
  { destruct bc; [|reflexivity]. cbn [andb]. destruct Hb as [Hb|Hb]; [discriminate|].
    unfold re in Hb. apply Rltb_false. lra. }
  rewrite G, quat_to_unit_ok. cbn [bind]. rewrite quat_mult_ok. cbn [bind].
  rewrite quat_inv_ok. cbn [bind]. rewrite quat_mult_ok. cbn [bind].
  pose proof (unitised_unit a Ha) as U. rewrite inverted_unit by exact U.
  do 3 f_equal. rewrite <- (rot_hprod _ (im b) (re b) U). now destruct b.
Qed.

(** ** The matrix *)
Lemma rotate_rotm q v : mapply (rotm q) v = rotate q v.
Proof.
  destruct q as [w x y z], v as [[a b] c].
  unfold mapply, rotm, coord, basis, rotate, re, im, vadd, vscale, vcross. cbn.
  f_equal; [f_equal|]; ring.
Qed.

Lemma quat_to_rot_mtx_ok bc q m :
  room 3 3 m -> quat_to_rot_mtx bc q m = Ok (0%Z, mat_of 3 3 (rotm q) (rest m)).
Proof.
  intros (Hr & Hc & Hl). destruct m as [r c d]. cbn in Hr, Hc, Hl. subst r c.
  do 9 (destruct d as [|? d]; [cbn in Hl; lia|]). clear Hl.
  unfold quat_to_rot_mtx, mtx_set, wr. rops.
  destruct q as [w x y z]. unfold mat_of, rest, cells, rotm, coord, basis, rotate, re, im, vadd,
    vscale, vcross.
  assert (C : forall (A : Type) (x y : A) l l', x = y -> l = l' -> x :: l = y :: l')
    by (intros; subst; reflexivity).
  destruct bc; lazy -[Rplus Rminus Rmult Rdiv IZR].
  all: match goal with |- Ok (_, Mtx _ _ ?u) = Ok (_, Mtx _ _ ?v) =>
      let H := fresh in assert (H : u = v); [|now rewrite H] end.
  all: repeat (apply C; [apply f_equal; field|]); reflexivity.
Qed.

Lemma rotm_orthogonal q i j :
  unit_quat q -> (i < 3)%nat -> (j < 3)%nat ->
  rotm q 0 i * rotm q 0 j + rotm q 1 i * rotm q 1 j + rotm q 2 i * rotm q 2 j
  = if Nat.eqb i j then 1 else 0.
Proof.
  intros U Hi Hj. destruct q as [w x y z]. unfold unit_quat, qdot in U. cbn in U.
  assert (E : w * w = 1 - (x * x + y * y + z * z)) by lra.
  unfold rotm, coord, rotate, re, im, vadd, vscale, vcross.
  destruct i as [|[|[|i]]]; try lia; destruct j as [|[|[|j]]]; try lia; cbn; ring [E].
Qed.
Lemma rotm_det q : unit_quat q -> mdet (rotm q) = 1.
Proof.
  intros U. destruct q as [w x y z]. unfold unit_quat, qdot in U. cbn in U.
  assert (E : w * w = 1 - (x * x + y * y + z * z)) by lra.
  unfold mdet, rotm, coord, rotate, re, im, vadd, vscale, vcross, vdot. cbn. ring [E].
Qed.

(** ** From a rotation matrix *)
Lemma sqrt_4sq x : sqrt (4 * (x * x)) = 2 * Rabs x.
Proof.
  replace (4 * (x * x)) with (Rsqr (2 * x)) by (unfold Rsqr; ring).
  rewrite sqrt_Rsqr_abs, Rabs_mult, (Rabs_right 2) by lra. reflexivity.
Qed.

Definition signed (x d : R) : R :=
  if Rlt_dec (/ 1000000) (Rabs d) then x * (d / Rabs d) else x.
Lemma with_sign_ok x d : with_sign x d = Ok (signed x d).
Proof.
  unfold with_sign, signed. rops. destruct (Rltb_spec (1 / 1000000) (Rabs d));
    destruct (Rlt_dec (/ 1000000) (Rabs d)); try lra; [|reflexivity].
  rewrite Rdivo_ok by lra. reflexivity.
Qed.

Lemma from_rot_mtx_ok bc q tl :
  unit_quat q ->
  quat_from_rot_mtx bc (mat_of 3 3 (rotm q) tl)
  = Ok (0%Z, Some (Quat (Rabs (qr q)) (signed (Rabs (qi q)) (4 * (qr q * qi q)))
                        (signed (Rabs (qj q)) (4 * (qr q * qj q)))
                        (signed (Rabs (qk q)) (4 * (qr q * qk q))))).
Proof.
  intros U. unfold quat_from_rot_mtx. rewrite andb_false_r.
  destruct q as [w x y z]. unfold unit_quat, qdot in U. cbn in U. cbn [qr qi qj qk].
  assert (E : w * w = 1 - (x * x + y * y + z * z)) by lra.
  set (m := mat_of 3 3 _ tl).
  assert (M0 : rd (mbuf m) 0 = Ok (1 - 2 * (y * y + z * z)))
    by (unfold m, rd, rotm, rotate; cbn -[Rplus Rminus Rmult]; f_equal; ring).
  assert (M4 : rd (mbuf m) 4 = Ok (1 - 2 * (x * x + z * z)))
    by (unfold m, rd, rotm, rotate; cbn -[Rplus Rminus Rmult]; f_equal; ring).
  assert (M8 : rd (mbuf m) 8 = Ok (1 - 2 * (x * x + y * y)))
    by (unfold m, rd, rotm, rotate; cbn -[Rplus Rminus Rmult]; f_equal; ring).
  assert (M7 : rd (mbuf m) 7 = Ok (2 * (y * z + x * w)))
    by (unfold m, rd, rotm, rotate; cbn -[Rplus Rminus Rmult]; f_equal; ring).
  assert (M5 : rd (mbuf m) 5 = Ok (2 * (y * z - x * w)))
    by (unfold m, rd, rotm, rotate; cbn -[Rplus Rminus Rmult]; f_equal; ring).
  assert (M2 : rd (mbuf m) 2 = Ok (2 * (x * z + y * w)))
    by (unfold m, rd, rotm, rotate; cbn -[Rplus Rminus Rmult]; f_equal; ring).
  assert (M6 : rd (mbuf m) 6 = Ok (2 * (x * z - y * w)))
    by (unfold m, rd, rotm, rotate; cbn -[Rplus Rminus Rmult]; f_equal; ring).
  assert (M3 : rd (mbuf m) 3 = Ok (2 * (x * y + z * w)))
    by (unfold m, rd, rotm, rotate; cbn -[Rplus Rminus Rmult]; f_equal; ring).
  assert (M1 : rd (mbuf m) 1 = Ok (2 * (x * y - z * w)))
    by (unfold m, rd, rotm, rotate; cbn -[Rplus Rminus Rmult]; f_equal; ring).
  rewrite M0, M4, M8. cbn [bind]. rops.
  assert (S : forall s t, s = 4 * (t * t) -> Rsqrto s = Ok (2 * Rabs t)).
  { intros s t ->. rewrite Rsqrto_ok by nra. now rewrite sqrt_4sq. }
  rewrite (S _ w) by (field_simplify; try lra; ring [E]). cbn [bind].
  rewrite (S _ x) by (field_simplify; try lra; ring [E]). cbn [bind].
  rewrite (S _ y) by (field_simplify; try lra; ring [E]). cbn [bind].
  rewrite (S _ z) by (field_simplify; try lra; ring [E]). cbn [bind].
  rewrite M7, M5. cbn [bind]. rewrite with_sign_ok. cbn [bind].
  rewrite M2, M6. cbn [bind]. rewrite with_sign_ok. cbn [bind].
  rewrite M3, M1. cbn [bind]. rewrite with_sign_ok. cbn [bind].
  do 3 f_equal. f_equal; try (field_simplify; lra); f_equal; field.
Qed.

Lemma signed_eq w c :
  / 1000000 < Rabs (4 * (w * c)) \/ c = 0 -> 0 < w -> signed (Rabs c) (4 * (w * c)) = c.
Proof.
  intros H P. unfold signed. destruct (Rlt_dec _ _) as [L|L].
  - destruct H as [H|H]; [|subst c; rewrite Rmult_0_r, Rmult_0_r, Rabs_R0 in L; lra].
    destruct (Rtotal_order c 0) as [N|[N|N]].
    + rewrite (Rabs_left1 c) by lra. rewrite Rabs_left1 by nra. field. lra.
    + subst c. rewrite Rmult_0_r, Rmult_0_r, Rabs_R0 in L. lra.
    + rewrite (Rabs_right c) by lra. rewrite Rabs_right by nra. field. lra.
  - destruct H as [H|H]; [lra|]. subst c. apply Rabs_R0.
Qed.
Lemma signed_eq_neg w c :
  / 1000000 < Rabs (4 * (w * c)) \/ c = 0 -> w < 0 -> signed (Rabs c) (4 * (w * c)) = - c.
Proof.
  intros H P. rewrite <- (Rabs_Ropp c).
  replace (4 * (w * c)) with (4 * (- w * - c)) by ring. apply signed_eq; [|lra].
  destruct H as [H|H]; [left|right; lra]. now replace (- w * - c) with (w * c) by ring.
Qed.
