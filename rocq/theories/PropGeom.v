(** C182: rotating by a quaternion keeps the geometry. *)
From Coq Require Import List Arith ZArith Bool Lia Reals Lra.
From Verif Require Import Base BaseFacts SpecVec SpecReal SpecQuat MVec PVec PVecR NumR RTac MQuat
  PQuat PQuatRot PropVec PropQuat.
Import ListNotations.
Local Open Scope R_scope.

(** A vector as the functions of vectors and as zsl_quat_rot take it *)
Definition as_vec (v : v3) : vec R := match v with (x, y, z) => vec_of [x; y; z] [] end.
Definition as_quat (v : v3) : quat R := match v with (x, y, z) => Quat 0 x y z end.

Lemma rot_vec bc q v : / 1000000 <= qnorm q ->
  quat_rot bc q (as_quat v) = Ok (0%Z, Some (as_quat (rotate (unitised q) v))).
Proof.
  intros H. destruct v as [[x y] z]. cbn [as_quat].
  rewrite quat_rot_ok; [|right; cbn; rewrite Rabs_R0; lra|exact H]. reflexivity.
Qed.
Ltac go U q := destruct q as [w x y z]; unfold unit_quat, qdot in U; cbn in U;
  assert (E : w * w = 1 - (x * x + y * y + z * z)) by lra;
  unfold rotate, qconj, mkq, re, im, vadd, vscale, vdot, vcross; cbn.
Lemma rotate_dot q a b : unit_quat q -> vdot (rotate q a) (rotate q b) = vdot a b.
Proof. intros U. destruct a as [[a1 a2] a3], b as [[b1 b2] b3]. go U q. ring [E]. Qed.
Lemma rotate_cross q a b : unit_quat q -> vcross (rotate q a) (rotate q b) = rotate q (vcross a b).
Proof. intros U. destruct a as [[a1 a2] a3], b as [[b1 b2] b3]. go U q. f_equal; [f_equal|]; ring [E]. Qed.
Lemma rotate_add q a b : vadd (rotate q a) (rotate q b) = rotate q (vadd a b).
Proof.
  destruct a as [[a1 a2] a3], b as [[b1 b2] b3], q as [w x y z].
  unfold rotate, re, im, vadd, vscale, vcross. cbn. f_equal; [f_equal|]; ring.
Qed.
Lemma rotate_conj q a : unit_quat q -> rotate (qconj q) (rotate q a) = a.
Proof. intros U. destruct a as [[a1 a2] a3]. go U q. f_equal; [f_equal|]; ring [E]. Qed.
Lemma rotate_axis q s : rotate q (vscale s (im q)) = vscale s (im q).
Proof.
  destruct q as [w x y z]. unfold rotate, re, im, vadd, vscale, vcross. cbn. f_equal; [f_equal|]; ring.
Qed.
Lemma rotate_opp q v : rotate (qscale (-1) q) v = rotate q v.
Proof.
  destruct q as [w x y z], v as [[a b] c]. unfold rotate, qscale, mkq, re, im, vadd, vscale, vcross. cbn.
  f_equal; [f_equal|]; ring.
Qed.
Lemma norm_scale s q : qnorm (qscale s q) = Rabs s * qnorm q.
Proof.
  unfold qnorm. rewrite qdot_scale. rewrite sqrt_mult_alt by apply Rle_0_sqr.
  f_equal. apply sqrt_Rsqr_abs.
Qed.
Lemma norm_conj q : qnorm (qconj q) = qnorm q.
Proof. destruct q. unfold qnorm, qconj, qdot, mkq, re, im, vdot, vscale. cbn. f_equal. ring. Qed.
Lemma unit_conj q : / 1000000 <= qnorm q -> unitised (qconj q) = qconj (unitised q).
Proof.
  intros H. rewrite !unitised_big, norm_conj by (rewrite ?norm_conj; exact H).
  destruct q. unfold qscale, qconj, mkq, re, im, vscale. cbn. f_equal; ring.
Qed.

(** Angles, lengths, sums and cross products, so also the hand of a system of
    axes: rotating first and calculating then, or the other way round, is the same *)
Theorem C182_geometry bc q a b t1 t2 t3 :
  / 1000000 <= qnorm q ->
  exists a' b' s s' c c',
    quat_rot bc q (as_quat a) = Ok (0%Z, Some (as_quat a')) /\
    quat_rot bc q (as_quat b) = Ok (0%Z, Some (as_quat b')) /\
    vec_dot bc (as_vec a') (as_vec b') = vec_dot bc (as_vec a) (as_vec b) /\
    vec_add bc (as_vec a) (as_vec b) (Vec 3 [t1; t2; t3]) = Ok (0%Z, as_vec s) /\
    quat_rot bc q (as_quat s) = Ok (0%Z, Some (as_quat s')) /\
    vec_add bc (as_vec a') (as_vec b') (Vec 3 [t1; t2; t3]) = Ok (0%Z, as_vec s') /\
    vec_cross bc (as_vec a) (as_vec b) (Vec 3 [t1; t2; t3]) = Ok (0%Z, as_vec c) /\
    quat_rot bc q (as_quat c) = Ok (0%Z, Some (as_quat c')) /\
    vec_cross bc (as_vec a') (as_vec b') (Vec 3 [t1; t2; t3]) = Ok (0%Z, as_vec c').
Proof.
  intros H. pose proof (unitised_unit q H) as U. set (u := unitised q) in *.
  assert (D : forall v w, vec_dot bc (as_vec v) (as_vec w) = Ok (0%Z, Some (vdot v w))).
  { intros [[v1 v2] v3] [[w1 w2] w3]. cbn [as_vec]. rewrite C04_dot by reflexivity.
    do 3 f_equal. unfold vdot. cbn. ring. }
  assert (A : forall v w, vec_add bc (as_vec v) (as_vec w) (Vec 3 [t1; t2; t3]) = Ok (0%Z, as_vec (vadd v w))).
  { intros [[v1 v2] v3] [[w1 w2] w3]. cbn [as_vec].
    exact (C02_add _ NumR bc [v1; v2; v3] [w1; w2; w3] [] [] [t1; t2; t3] eq_refl ltac:(cbn; lia)). }
  assert (C : forall v w, vec_cross bc (as_vec v) (as_vec w) (Vec 3 [t1; t2; t3]) = Ok (0%Z, as_vec (vcross v w))).
  { intros [[v1 v2] v3] [[w1 w2] w3]. exact (C08_cross_any_arithmetic _ NumR bc _ _ _ _ _ _ [] [] t1 t2 t3 []). }
  exists (rotate u a), (rotate u b), (vadd a b), (rotate u (vadd a b)), (vcross a b), (rotate u (vcross a b)).
  rewrite !(rot_vec bc q) by exact H. fold u. rewrite !D, !A, !C, rotate_dot, rotate_add, rotate_cross by exact U.
  repeat split.
Qed.
Print Assumptions C182_geometry.

(** The conjugate rotates back, the vectors along the axis stay where they are,
    and the length and the sign of the quaternion do not matter *)
Theorem C182_inverse bc q a k s :
  / 1000000 <= qnorm q -> quat_conj q = Ok k ->
  exists a', quat_rot bc q (as_quat a) = Ok (0%Z, Some (as_quat a')) /\
    quat_rot bc k (as_quat a') = Ok (0%Z, Some (as_quat a)) /\
    let v := as_quat (s * qi q, s * qj q, s * qk q) in quat_rot bc q v = Ok (0%Z, Some v).
Proof.
  intros H K. rewrite quat_conj_ok in K. injection K as <-.
  exists (rotate (unitised q) a). rewrite rot_vec by exact H. split; [reflexivity|].
  rewrite rot_vec by (rewrite norm_conj; exact H). rewrite unit_conj by exact H.
  rewrite rotate_conj by now apply unitised_unit. split; [reflexivity|].
  cbn zeta. rewrite rot_vec by exact H. do 3 f_equal.
  rewrite unitised_big by exact H.
  replace (s * qi q, s * qj q, s * qk q) with (vscale (s * qnorm q) (im (qscale (/ qnorm q) q))).
  - f_equal. apply rotate_axis.
  - destruct q as [w x y z]. set (n := qnorm _) in *. unfold qscale, mkq, im, vscale. cbn.
    f_equal; [f_equal|]; field; lra.
Qed.
Print Assumptions C182_inverse.

Theorem C182_scale bc q a s p :
  quat_scale q s = Ok p -> / 1000000 <= qnorm q -> / 1000000 <= qnorm p ->
  exists v, quat_rot bc q (as_quat a) = Ok (0%Z, Some v) /\ quat_rot bc p (as_quat a) = Ok (0%Z, Some v).
Proof.
  intros P H H'. rewrite quat_scale_ok in P. injection P as <-.
  exists (as_quat (rotate (unitised q) a)). rewrite !rot_vec by assumption. split; [reflexivity|].
  do 4 f_equal. rewrite !unitised_big by assumption. rewrite norm_scale in H' |- *.
  assert (Z : 0 < Rabs s) by (destruct (Rabs_pos s) as [Z|Z]; [exact Z|rewrite <- Z in H'; lra]).
  destruct (Rle_or_lt 0 s) as [S|S].
  - f_equal. rewrite Rabs_pos_eq in * by exact S. destruct q as [w x y z]. set (n := qnorm _) in *.
    unfold qscale, mkq, re, im, vscale. cbn. f_equal; field; lra.
  - rewrite <- (rotate_opp (qscale (/ qnorm q) q)). f_equal. rewrite Rabs_left in * by exact S.
    destruct q as [w x y z]. set (n := qnorm _) in *.
    unfold qscale, mkq, re, im, vscale. cbn. f_equal; field; lra.
Qed.
Print Assumptions C182_scale.

Example C182_ex : / 1000000 <= qnorm (Quat 1 2 (-2) 4) /\ quat_conj (Quat 1 2 (-2) 4) = Ok (Quat 1 (-2) 2 (-4)).
Proof.
  split.
  - unfold qnorm, qdot, vdot, re, im. cbn. replace (_ + _) with (5 * 5) by ring. rewrite sqrt_square; lra.
  - rewrite quat_conj_ok. unfold qconj, mkq, re, im, vscale. cbn. do 2 f_equal; ring.
Qed.
