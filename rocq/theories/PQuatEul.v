(** Proofs about quaternions and Euler angles. *)
From Coq Require Import List Arith ZArith Bool Reals Lra Lia.
From Verif Require Import Base BaseFacts NumR Libm LibmR RTac RAtan2 Out MVec SpecVec SpecReal PVec
  PVecR MMtx SpecMtx PMtx MQuat SpecQuat PQuat PQuatRot PQuatTrig.
Import ListNotations.
Local Open Scope R_scope.
Implicit Types (p q : quat R).

(** composition of rotations *)
Lemma rotate_hprod p q v :
  unit_quat p -> unit_quat q -> rotate (hprod p q) v = rotate p (rotate q v).
Proof.
  intros Up Uq.
  assert (U : unit_quat (hprod p q)) by (unfold unit_quat; rewrite qdot_hprod, Up, Uq; ring).
  pose proof (rot_hprod (hprod p q) v 0 U) as H1.
  pose proof (rot_hprod q v 0 Uq) as H2.
  pose proof (rot_hprod p (rotate q v) 0 Up) as H3.
  rewrite <- H2 in H3. rewrite qconj_hprod in H1.
  assert (E : mkq 0 (rotate (hprod p q) v) = mkq 0 (rotate p (rotate q v))).
  { rewrite <- H1, <- H3. now rewrite !hprod_assoc. }
  destruct (rotate (hprod p q) v) as [[a b] c], (rotate p (rotate q v)) as [[d e] f].
  unfold mkq in E. now injection E as -> -> ->.
Qed.

Definition eul (x y z : R) : quat R := hprod (hprod (rot_x x) (rot_y y)) (rot_z z).

Lemma rot_x_cis a : rot_x a = cis (1, 0, 0) (a / 2).
Proof. unfold rot_x, cis, mkq, vscale. f_equal; ring. Qed.
Lemma rot_y_cis a : rot_y a = cis (0, 1, 0) (a / 2).
Proof. unfold rot_y, cis, mkq, vscale. f_equal; ring. Qed.
Lemma rot_z_cis a : rot_z a = cis (0, 0, 1) (a / 2).
Proof. unfold rot_z, cis, mkq, vscale. f_equal; ring. Qed.
Lemma rot_x_unit a : unit_quat (rot_x a).
Proof. rewrite rot_x_cis. apply cis_unit. unfold vdot. ring. Qed.
Lemma rot_y_unit a : unit_quat (rot_y a).
Proof. rewrite rot_y_cis. apply cis_unit. unfold vdot. ring. Qed.
Lemma rot_z_unit a : unit_quat (rot_z a).
Proof. rewrite rot_z_cis. apply cis_unit. unfold vdot. ring. Qed.
Lemma hprod_unit p q : unit_quat p -> unit_quat q -> unit_quat (hprod p q).
Proof. intros Up Uq. unfold unit_quat. rewrite qdot_hprod, Up, Uq. ring. Qed.
Lemma eul_unit x y z : unit_quat (eul x y z).
Proof.
  apply hprod_unit; [apply hprod_unit|]; auto using rot_x_unit, rot_y_unit, rot_z_unit.
Qed.

Lemma from_euler_ok e : quat_from_euler e = (0%Z, eul (ex e) (ey e) (ez e)).
Proof.
  unfold quat_from_euler, eul. rops.
  replace (ex e * (5 / 10)) with (ex e / 2) by field.
  replace (ey e * (5 / 10)) with (ey e / 2) by field.
  replace (ez e * (5 / 10)) with (ez e / 2) by field.
  f_equal. unfold hprod, rot_x, rot_y, rot_z. cbn. f_equal; ring.
Qed.

(** entries of the matrix of Rx Ry Rz *)
Section Entries.
Variables x y z : R.
Lemma half (a : R) : cos a = 1 - 2 * sin (a / 2) * sin (a / 2) /\
                     sin a = 2 * sin (a / 2) * cos (a / 2).
Proof.
  split; [rewrite <- cos_2a_sin|rewrite <- sin_2a]; f_equal; field.
Qed.
Lemma eul_entries :
  let m := rotm (eul x y z) in
  m 0%nat 2%nat = sin y /\ m 1%nat 2%nat = - (sin x * cos y) /\ m 2%nat 2%nat = cos x * cos y /\
  m 0%nat 1%nat = - (cos y * sin z) /\ m 0%nat 0%nat = cos y * cos z /\
  m 2%nat 1%nat = sin x * cos z + cos x * sin y * sin z /\
  m 1%nat 1%nat = cos x * cos z - sin x * sin y * sin z.
Proof.
  cbn zeta. destruct (half x) as [cx sx], (half y) as [cy sy], (half z) as [cz sz].
  rewrite cx, sx, cy, sy, cz, sz.
  pose proof (sc1 (x / 2)) as X'. pose proof (sc1 (y / 2)) as Y'. pose proof (sc1 (z / 2)) as Z'.
  unfold eul, rotm, coord, basis, rotate, hprod, rot_x, rot_y, rot_z. cbn.
  revert X' Y' Z'. generalize (sin (x / 2)) (cos (x / 2)) (sin (y / 2)) (cos (y / 2))
    (sin (z / 2)) (cos (z / 2)). clear. intros sx cx sy cy sz cz HX HY HZ.
  assert (EX : sx * sx = 1 - cx * cx) by lra.
  assert (EY : sy * sy = 1 - cy * cy) by lra.
  assert (EZ : sz * sz = 1 - cz * cz) by lra.
  repeat split; ring [EX EY EZ].
Qed.
End Entries.

(** cofactors: a rotation matrix is the matrix of its minors *)
Lemma cofactors q :
  unit_quat q ->
  let m := rotm q in
  m 1%nat 0%nat = m 0%nat 2%nat * m 2%nat 1%nat - m 0%nat 1%nat * m 2%nat 2%nat /\
  m 1%nat 1%nat = m 0%nat 0%nat * m 2%nat 2%nat - m 0%nat 2%nat * m 2%nat 0%nat /\
  m 2%nat 0%nat = m 0%nat 1%nat * m 1%nat 2%nat - m 0%nat 2%nat * m 1%nat 1%nat /\
  m 2%nat 1%nat = m 0%nat 2%nat * m 1%nat 0%nat - m 0%nat 0%nat * m 1%nat 2%nat /\
  m 0%nat 2%nat * m 0%nat 2%nat + m 0%nat 1%nat * m 0%nat 1%nat + m 0%nat 0%nat * m 0%nat 0%nat = 1 /\
  m 0%nat 2%nat * m 0%nat 2%nat + m 1%nat 2%nat * m 1%nat 2%nat + m 2%nat 2%nat * m 2%nat 2%nat = 1 /\
  m 0%nat 1%nat * m 0%nat 1%nat + m 1%nat 1%nat * m 1%nat 1%nat + m 2%nat 1%nat * m 2%nat 1%nat = 1.
Proof.
  intros U. destruct q as [w x y z]. unfold unit_quat, qdot in U. cbn in U.
  assert (E : w * w = 1 - (x * x + y * y + z * z)) by lra.
  unfold rotm, coord, basis, rotate, re, im, vadd, vscale, vcross. cbn.
  repeat split; ring [E].
Qed.

(** a unit quaternion is determined up to sign by its rotation matrix *)
Lemma same_matrix p q :
  unit_quat p -> unit_quat q ->
  (forall i j, (i < 3)%nat -> (j < 3)%nat -> rotm p i j = rotm q i j) -> p = q \/ p = qscale (-1) q.
Proof.
  intros Up Uq H.
  pose proof (H 0 0 ltac:(lia) ltac:(lia))%nat as H00. pose proof (H 0 1 ltac:(lia) ltac:(lia))%nat as H01.
  pose proof (H 0 2 ltac:(lia) ltac:(lia))%nat as H02. pose proof (H 1 0 ltac:(lia) ltac:(lia))%nat as H10.
  pose proof (H 1 1 ltac:(lia) ltac:(lia))%nat as H11. pose proof (H 1 2 ltac:(lia) ltac:(lia))%nat as H12.
  pose proof (H 2 0 ltac:(lia) ltac:(lia))%nat as H20. pose proof (H 2 1 ltac:(lia) ltac:(lia))%nat as H21.
  pose proof (H 2 2 ltac:(lia) ltac:(lia))%nat as H22. clear H.
  destruct p as [a b c d], q as [w x y z]. unfold unit_quat, qdot in Up, Uq. cbn in Up, Uq.
  unfold rotm, coord, basis, rotate, re, im, vadd, vscale, vcross in *. cbn in *.
  assert (Eww : a * a = w * w) by lra. assert (Exx : b * b = x * x) by lra.
  assert (Eyy : c * c = y * y) by lra. assert (Ezz : d * d = z * z) by lra.
  assert (Ewx : a * b = w * x) by lra. assert (Ewy : a * c = w * y) by lra.
  assert (Ewz : a * d = w * z) by lra. assert (Exy : b * c = x * y) by lra.
  assert (Exz : b * d = x * z) by lra. assert (Eyz : c * d = y * z) by lra.
  assert (S : forall s t u v, s * s = t * t -> s * u = t * v -> t <> 0 ->
     (s = t /\ u = v) \/ (s = - t /\ u = - v)).
  { intros s t u v E1 E2 Ht. assert (F : (s - t) * (s + t) = 0) by lra.
    apply Rmult_integral in F. destruct F as [F|F]; [left|right].
    - assert (s = t) by lra. subst s. split; [reflexivity|]. apply (Rmult_eq_reg_l t); assumption.
    - assert (s = - t) by lra. subst s. split; [reflexivity|]. apply (Rmult_eq_reg_l t); lra. }
  assert (K : forall s t, s * s = t * t -> t <> 0 -> s = t \/ s = - t).
  { intros s t E1 Ht. destruct (S s t s t E1 E1 Ht) as [[? _]|[? _]]; auto. }
  unfold qscale. cbn.
  destruct (Req_dec w 0) as [Hw|Hw].
  2: { destruct (K a w Eww Hw) as [->| ->]; [left|right]; f_equal; try ring;
         apply (Rmult_eq_reg_l w); lra. }
  destruct (Req_dec x 0) as [Hx|Hx].
  2: { destruct (K b x Exx Hx) as [->| ->]; [left|right]; f_equal; try ring;
         apply (Rmult_eq_reg_l x); lra. }
  destruct (Req_dec y 0) as [Hy|Hy].
  2: { destruct (K c y Eyy Hy) as [->| ->]; [left|right]; f_equal; try ring;
         apply (Rmult_eq_reg_l y); lra. }
  subst w x y. assert (Hz : z <> 0) by (intros ->; lra).
  destruct (K d z Ezz Hz) as [->| ->]; [left|right]; f_equal; try ring;
         apply (Rmult_eq_reg_l z); lra.
Qed.

Lemma matrix_from_border p q :
  unit_quat p -> unit_quat q -> rotm q 0 2 * rotm q 0 2 <> 1 ->
  rotm p 0 0 = rotm q 0 0 -> rotm p 0 1 = rotm q 0 1 -> rotm p 0 2 = rotm q 0 2 ->
  rotm p 1 2 = rotm q 1 2 -> rotm p 2 2 = rotm q 2 2 -> p = q \/ p = qscale (-1) q.
Proof.
  intros Up Uq Hs H00 H01 H02 H12 H22.
  destruct (cofactors p Up) as (P10 & P11 & P20 & P21 & _).
  destruct (cofactors q Uq) as (Q10 & Q11 & Q20 & Q21 & _).
  assert (A : forall m00 m01 m02 m12 m22 u v, m02 * m02 <> 1 ->
    u = m00 * m22 - m02 * (m01 * m12 - m02 * u) -> v = m00 * m22 - m02 * (m01 * m12 - m02 * v) -> u = v).
  { intros m00 m01 m02 m12 m22 u v N Eu Ev. apply (Rmult_eq_reg_l (1 - m02 * m02)); lra. }
  assert (H11 : rotm p 1 1 = rotm q 1 1).
  { apply (A (rotm q 0 0) (rotm q 0 1) (rotm q 0 2) (rotm q 1 2) (rotm q 2 2)); [exact Hs| |].
    - rewrite P11 at 1. rewrite P20. rewrite H00, H01, H02, H12, H22. reflexivity.
    - rewrite Q11 at 1. rewrite Q20. reflexivity. }
  assert (H10 : rotm p 1 0 = rotm q 1 0).
  { apply (A (rotm q 0 1) (- rotm q 0 0) (rotm q 0 2) (- rotm q 1 2) (- rotm q 2 2)); [exact Hs| |].
    - rewrite P10 at 1. rewrite P21. rewrite H00, H01, H02, H12, H22. ring.
    - rewrite Q10 at 1. rewrite Q21. ring. }
  assert (H20 : rotm p 2 0 = rotm q 2 0) by (rewrite P20, Q20, H01, H12, H02, H11; reflexivity).
  assert (H21 : rotm p 2 1 = rotm q 2 1) by (rewrite P21, Q21, H00, H12, H02, H10; reflexivity).
  apply same_matrix; auto.
  intros i j Hi Hj. destruct i as [|[|[|i]]]; try lia; destruct j as [|[|[|j]]]; try lia; assumption.
Qed.

Lemma qnorm_half q : unit_quat q -> -1 <= rotm q 0 2 <= 1.
Proof.
  intros U. destruct (cofactors q U) as (_ & _ & _ & _ & E & _).
  pose proof (Rle_0_sqr (rotm q 0 1)). pose proof (Rle_0_sqr (rotm q 0 0)). unfold Rsqr in *. nra.
Qed.

Lemma to_euler_run q :
  unit_quat q ->
  quat_to_euler q =
    Ok (0%Z, if Rlt_dec (1 - / 500000) (Rabs (rotm q 0 2))
             then Euler (Ratan2 (rotm q 2 1) (rotm q 1 1)) (asin (rotm q 0 2)) 0
             else Euler (Ratan2 (- rotm q 1 2) (rotm q 2 2)) (asin (rotm q 0 2))
                        (Ratan2 (- rotm q 0 1) (rotm q 0 0))).
Proof.
  intros U. unfold quat_to_euler. rewrite quat_to_unit_ok, unitised_of_unit by exact U.
  cbn [bind]. rops. pose proof (qnorm_half q U) as B.
  assert (M02 : rotm q 0 2 = 2 * (qi q * qk q + qj q * qr q))
    by (destruct q; unfold rotm, coord, basis, rotate; cbn; ring).
  assert (M12 : - rotm q 1 2 = 20 / 10 * (qi q * qr q - qj q * qk q))
    by (destruct q; unfold rotm, coord, basis, rotate; cbn; field).
  assert (M22 : rotm q 2 2 = 10 / 10 - 20 / 10 * (qi q * qi q + qj q * qj q))
    by (destruct q; unfold rotm, coord, basis, rotate; cbn; field).
  assert (M01 : - rotm q 0 1 = 20 / 10 * (qk q * qr q - qi q * qj q))
    by (destruct q; unfold rotm, coord, basis, rotate; cbn; field).
  assert (M00 : rotm q 0 0 = 10 / 10 - 20 / 10 * (qj q * qj q + qk q * qk q))
    by (destruct q; unfold rotm, coord, basis, rotate; cbn; field).
  assert (M21 : rotm q 2 1 = 20 / 10 * (qj q * qk q + qi q * qr q))
    by (destruct q; unfold rotm, coord, basis, rotate; cbn; field).
  assert (M11 : rotm q 1 1 = 10 / 10 - 20 / 10 * (qi q * qi q + qk q * qk q))
    by (destruct q; unfold rotm, coord, basis, rotate; cbn; field).
  rewrite <- M12, <- M22, <- M01, <- M00, <- M21, <- M11.
  clear M12 M22 M01 M00 M21 M11.
  set (g := qi q * qk q + qj q * qr q) in *.
  replace (2 / 1 * g) with (rotm q 0 2) by (rewrite M02; field).
  destruct (Rltb_spec (10 / 10) (rotm q 0 2)); [lra|].
  destruct (Rltb_spec (rotm q 0 2) (- (10 / 10))); [lra|].
  unfold Rasin. destruct (Rle_dec (-1) (rotm q 0 2)); [|lra].
  destruct (Rle_dec (rotm q 0 2) 1); [|lra]. cbn [bind].
  assert (G : g = rotm q 0 2 / 2) by lra. rewrite G. clear M02 G g.
  destruct (Rlt_dec (1 - / 500000) (Rabs (rotm q 0 2))) as [L|L].
  - assert (T : Rltb (Rabs (rotm q 0 2 / 2 - 5 / 10)) (1 / 1000000)
                || Rltb (Rabs (rotm q 0 2 / 2 + 5 / 10)) (1 / 1000000) = true).
    { apply orb_true_iff. destruct (Rle_lt_dec 0 (rotm q 0 2)) as [S|S].
      - left. apply Rltb_true. rewrite Rabs_right in L by lra. apply Rabs_def1; lra.
      - right. apply Rltb_true. rewrite Rabs_left in L by lra. apply Rabs_def1; lra. }
    rewrite T. reflexivity.
  - assert (T : Rltb (Rabs (rotm q 0 2 / 2 - 5 / 10)) (1 / 1000000)
                || Rltb (Rabs (rotm q 0 2 / 2 + 5 / 10)) (1 / 1000000) = false).
    { apply Rnot_lt_le in L.
      assert (L1 : - (1 - / 500000) <= rotm q 0 2 <= 1 - / 500000)
        by (split; [apply Ropp_le_cancel; rewrite Ropp_involutive; apply Rle_trans with (2 := L);
                    rewrite <- Rabs_Ropp; apply Rle_abs
                   |apply Rle_trans with (2 := L); apply Rle_abs]).
      apply orb_false_iff. split; apply Rltb_false; [rewrite Rabs_left1 by lra|rewrite Rabs_right by lra];
        lra. }
    rewrite T. reflexivity.
Qed.

(** the matrix identities that make the two conversions inverse *)
Lemma euler_round_trip q e :
  unit_quat q -> Rabs (rotm q 0 2) <= 1 - / 500000 \/ Rabs (rotm q 0 2) = 1 ->
  quat_to_euler q = Ok (0%Z, e) ->
  eul (ex e) (ey e) (ez e) = q \/ eul (ex e) (ey e) (ez e) = qscale (-1) q.
Proof.
  intros U Hg He. rewrite to_euler_run in He by exact U.
  pose proof (qnorm_half q U) as B.
  destruct (cofactors q U) as (C10 & C11 & C20 & C21 & R0 & K2 & K1).
  destruct (Rlt_dec _ _) as [L|L]; injection He as <-; cbn [ex ey ez].
  - assert (S1 : Rabs (rotm q 0 2) = 1) by lra.
    set (x := Ratan2 _ _). set (y := asin _).
    destruct (eul_entries x y 0) as (E02 & E12 & E22 & E01 & E00 & E21 & E11).
    assert (Sy : sin y = rotm q 0 2) by (apply sin_asin; lra).
    assert (Q : rotm q 0 2 * rotm q 0 2 = 1).
    { destruct (Rle_lt_dec 0 (rotm q 0 2)).
      - rewrite Rabs_right in S1 by lra. rewrite S1. ring.
      - rewrite Rabs_left in S1 by lra. nra. }
    assert (Cy : cos y = 0).
    { pose proof (sc1 y) as T. rewrite Sy, Q in T. nra. }
    assert (Z01 : rotm q 0 1 = 0) by nra. assert (Z00 : rotm q 0 0 = 0) by nra.
    assert (Z12 : rotm q 1 2 = 0) by nra. assert (Z22 : rotm q 2 2 = 0) by nra.
    destruct (atan2_cos_sin (rotm q 1 1) (rotm q 2 1)) as [AC AS]. fold x in AC, AS.
    assert (H1 : hyp (rotm q 1 1) (rotm q 2 1) = 1).
    { unfold hyp. rewrite <- sqrt_1. f_equal. rewrite Z01 in K1. lra. }
    rewrite H1 in AC, AS. rewrite sin_0, cos_0 in *.
    apply same_matrix; [apply eul_unit|exact U|].
    destruct (cofactors _ (eul_unit x y 0)) as (D10 & D11 & D20 & D21 & _).
    assert (F11 : rotm (eul x y 0) 1 1 = rotm q 1 1) by (rewrite E11; lra).
    assert (F21 : rotm (eul x y 0) 2 1 = rotm q 2 1) by (rewrite E21; lra).
    assert (F02 : rotm (eul x y 0) 0 2 = rotm q 0 2) by (rewrite E02; exact Sy).
    assert (F01 : rotm (eul x y 0) 0 1 = rotm q 0 1) by (rewrite E01, Z01; lra).
    assert (F00 : rotm (eul x y 0) 0 0 = rotm q 0 0) by (rewrite E00, Z00, Cy; lra).
    assert (F12 : rotm (eul x y 0) 1 2 = rotm q 1 2) by (rewrite E12, Z12, Cy; lra).
    assert (F22 : rotm (eul x y 0) 2 2 = rotm q 2 2) by (rewrite E22, Z22, Cy; lra).
    assert (F10 : rotm (eul x y 0) 1 0 = rotm q 1 0)
      by (rewrite D10, C10, F02, F21, F01, F22; reflexivity).
    assert (F20 : rotm (eul x y 0) 2 0 = rotm q 2 0)
      by (rewrite D20, C20, F02, F11, F01, F12; reflexivity).
    intros i j Hi Hj. destruct i as [|[|[|i]]]; try lia; destruct j as [|[|[|j]]]; try lia; assumption.
  - apply Rnot_lt_le in L.
    set (x := Ratan2 (- rotm q 1 2) _). set (y := asin _). set (z := Ratan2 (- rotm q 0 1) _).
    destruct (eul_entries x y z) as (E02 & E12 & E22 & E01 & E00 & _ & _).
    assert (Sy : sin y = rotm q 0 2) by (apply sin_asin; lra).
    assert (N : rotm q 0 2 * rotm q 0 2 < 1).
    { destruct (Rle_lt_dec 0 (rotm q 0 2)).
      - rewrite Rabs_right in L by lra. nra.
      - rewrite Rabs_left in L by lra. nra. }
    assert (By : - (PI / 2) <= y <= PI / 2) by apply asin_bound.
    assert (Py : 0 <= cos y) by (apply cos_ge_0; lra).
    assert (C2 : cos y * cos y = 1 - rotm q 0 2 * rotm q 0 2) by (pose proof (sc1 y) as T; rewrite Sy in T; lra).
    destruct (atan2_cos_sin (rotm q 2 2) (- rotm q 1 2)) as [AC AS]. fold x in AC, AS.
    destruct (atan2_cos_sin (rotm q 0 0) (- rotm q 0 1)) as [BC BS]. fold z in BC, BS.
    assert (H1 : hyp (rotm q 2 2) (- rotm q 1 2) = cos y).
    { unfold hyp. rewrite <- (sqrt_square (cos y)) by exact Py. f_equal. rewrite C2. lra. }
    assert (H2 : hyp (rotm q 0 0) (- rotm q 0 1) = cos y).
    { unfold hyp. rewrite <- (sqrt_square (cos y)) by exact Py. f_equal. rewrite C2. lra. }
    rewrite H1 in AC, AS. rewrite H2 in BC, BS.
    apply matrix_from_border; [apply eul_unit|exact U|lra|..].
    + rewrite E00. exact BC.
    + rewrite E01. lra.
    + rewrite E02. exact Sy.
    + rewrite E12. lra.
    + rewrite E22. lra.
Qed.

Lemma euler_recovered x y z :
  - PI < x <= PI -> - PI < z <= PI -> - (PI / 2) <= y <= PI / 2 ->
  Rabs (sin y) <= 1 - / 500000 ->
  quat_to_euler (eul x y z) = Ok (0%Z, Euler x y z).
Proof.
  intros Hx Hz Hy Hs. rewrite to_euler_run by apply eul_unit.
  destruct (eul_entries x y z) as (E02 & E12 & E22 & E01 & E00 & _ & _).
  rewrite E02, E12, E22, E01, E00. destruct (Rlt_dec _ _) as [L|L]; [lra|].
  rewrite !Ropp_involutive.
  assert (Py : 0 < cos y).
  { assert (0 <= cos y) by (apply cos_ge_0; lra). pose proof (sc1 y).
    destruct (Rle_lt_or_eq_dec _ _ H) as [?|Z]; [assumption|].
    rewrite <- Z in H0. assert (Q : sin y * sin y = 1) by lra.
    destruct (Rle_lt_dec 0 (sin y)).
    - rewrite Rabs_right in Hs by lra. nra.
    - rewrite Rabs_left in Hs by lra. nra. }
  rewrite (Rmult_comm (sin x)), (Rmult_comm (cos x)), !atan2_polar by assumption.
  rewrite asin_sin by lra. reflexivity.
Qed.
