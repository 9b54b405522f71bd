(** C180: spherical interpolation moves at constant speed. *)
From Coq Require Import List Arith ZArith Bool Lia Reals Lra Psatz.
From Verif Require Import Base BaseFacts SpecVec SpecReal NumR Libm LibmR RTac Out MVec MMtx MQuat SpecQuat PQuat PQuatTrig PropQuat.
Import ListNotations.
Local Open Scope R_scope.

Lemma slerp_at bc qa qb t : 0 < t < 1 ->
  -1 + / 1000000 <= qdot (unitised qa) (unitised qb) <= 1 - / 1000000 ->
  let phi := acos (qdot (unitised qa) (unitised qb)) in
  quat_slerp bc qa qb t
  = Ok (0%Z, Some (qplus (qscale (sin (phi * (1 - t)) / sin phi) (unitised qa))
                         (qscale (sin (phi * t) / sin phi) (unitised qb)))).
Proof.
  intros Ht H. apply quat_slerp_ok; try lra; [rewrite Rabs_left by lra|rewrite Rabs_right by lra]; lra.
Qed.

Lemma sin_acos_pos d : -1 < d < 1 -> 0 < sin (acos d).
Proof.
  intros H. rewrite sin_acos by lra. apply sqrt_lt_R0. assert (d * d < 1) by nra. unfold Rsqr. lra.
Qed.

Lemma qdot_sym a b : qdot a b = qdot b a.
Proof. destruct a, b. unfold qdot. cbn. ring. Qed.
Lemma qdot_comb a b s u s' u' :
  qdot (qplus (qscale s a) (qscale u b)) (qplus (qscale s' a) (qscale u' b))
  = s * s' * qdot a a + (s * u' + u * s') * qdot a b + u * u' * qdot b b.
Proof. destruct a, b. unfold qdot, qplus, qscale. cbn. ring. Qed.

(** The angle between the answers for s and t is |t - s| times the angle
    between the end points *)
Theorem C180_speed bc qa qb a b s t :
  0 < s < 1 -> 0 < t < 1 -> / 1000000 <= qnorm qa -> / 1000000 <= qnorm qb ->
  quat_to_unit qa = Ok a -> quat_to_unit qb = Ok b ->
  -1 + / 1000000 <= qdot a b <= 1 - / 1000000 ->
  exists p q, quat_slerp bc qa qb s = Ok (0%Z, Some p) /\ quat_slerp bc qa qb t = Ok (0%Z, Some q) /\
    acos (qdot p q) = Rabs (t - s) * acos (qdot a b).
Proof.
  intros Hs Ht Ha Hb. rewrite !quat_to_unit_ok. intros E1 E2 Hd. injection E1 as <-. injection E2 as <-.
  do 2 eexists. split; [now apply slerp_at|]. split; [now apply slerp_at|].
  rewrite qdot_comb. pose proof (unitised_unit qa Ha) as Ua. pose proof (unitised_unit qb Hb) as Ub.
  unfold unit_quat in Ua, Ub. rewrite Ua, Ub.
  set (d := qdot (unitised qa) (unitised qb)) in *. set (phi := acos d).
  assert (C : cos phi = d) by (apply cos_acos; lra). pose proof (sin_acos_pos d ltac:(lra)) as S. fold phi in S.
  rewrite <- C. pose proof (sin2_cos2 phi) as SC. unfold Rsqr in SC.
  pose proof (acos_bound d) as B. fold phi in B.
  replace (phi * (1 - s)) with (phi - phi * s) by ring. replace (phi * (1 - t)) with (phi - phi * t) by ring.
  rewrite !sin_minus.
  match goal with |- acos ?e = _ => replace e with (cos (phi * t - phi * s)) end.
  - replace (phi * t - phi * s) with ((t - s) * phi) by ring.
    destruct (Rle_lt_dec 0 (t - s)) as [L|L].
    + rewrite (Rabs_pos_eq (t - s)) by exact L. apply acos_cos. split; nra.
    + rewrite (Rabs_left (t - s)) by exact L. rewrite <- cos_neg.
      replace (- ((t - s) * phi)) with (- (t - s) * phi) by ring. apply acos_cos. split; nra.
  - rewrite cos_minus. set (c := cos phi) in *. set (z := sin phi) in *.
    set (ca := cos (phi * s)). set (sa := sin (phi * s)). set (cb := cos (phi * t)). set (sb := sin (phi * t)).
    apply Rmult_eq_reg_r with (z * z); [|nra].
    replace (((z * ca - c * sa) / z * ((z * cb - c * sb) / z) * 1
      + ((z * ca - c * sa) / z * (sb / z) + sa / z * ((z * cb - c * sb) / z)) * c + sa / z * (sb / z) * 1) * (z * z))
      with ((z * ca - c * sa) * (z * cb - c * sb) + ((z * ca - c * sa) * sb + sa * (z * cb - c * sb)) * c + sa * sb) by (field; lra).
    replace (z * z) with (1 - c * c) by lra.
    replace ((z * ca - c * sa) * (z * cb - c * sb) + ((z * ca - c * sa) * sb + sa * (z * cb - c * sb)) * c + sa * sb)
      with (z * z * (ca * cb) + (1 - c * c) * (sa * sb)) by ring.
    replace (z * z) with (1 - c * c) by lra. ring.
Qed.
Print Assumptions C180_speed.

(** Going from b to a is going from a to b backwards *)
Theorem C180_reverse bc qa qb a b t :
  0 < t < 1 -> quat_to_unit qa = Ok a -> quat_to_unit qb = Ok b ->
  -1 + / 1000000 <= qdot a b <= 1 - / 1000000 ->
  exists q, quat_slerp bc qa qb t = Ok (0%Z, Some q) /\ quat_slerp bc qb qa (1 - t) = Ok (0%Z, Some q).
Proof.
  intros Ht. rewrite !quat_to_unit_ok. intros E1 E2 Hd. injection E1 as <-. injection E2 as <-.
  eexists. split; [now apply slerp_at|]. rewrite slerp_at; [|lra|rewrite qdot_sym; exact Hd].
  rewrite (qdot_sym (unitised qb)). do 3 f_equal. replace (1 - (1 - t)) with t by ring.
  unfold qplus, qscale. destruct (unitised qa), (unitised qb). cbn. f_equal; ring.
Qed.
Print Assumptions C180_reverse.

(** b and -b are the same orientation, but the answers on the way there are
    different orientations: the code does not take the shorter way *)
Theorem C180_orientation_refuted :
  exists a b p q, unit_quat a /\ unit_quat b /\
    quat_slerp true a b (1 / 2) = Ok (0%Z, Some p) /\
    quat_slerp true a (qscale (-1) b) (1 / 2) = Ok (0%Z, Some q) /\
    q <> p /\ q <> qscale (-1) p.
Proof.
  set (a := Quat 1 0 0 0). set (b := Quat 0 1 0 0).
  assert (Ua : unit_quat a) by (unfold unit_quat, qdot, a; cbn; ring).
  assert (Ub : unit_quat b) by (unfold unit_quat, qdot, b; cbn; ring).
  assert (Uc : unit_quat (qscale (-1) b)) by (unfold unit_quat, qdot, b; cbn; ring).
  assert (D1 : qdot (unitised a) (unitised b) = 0) by (rewrite !unitised_of_unit by assumption; unfold qdot; cbn; ring).
  assert (D2 : qdot (unitised a) (unitised (qscale (-1) b)) = 0)
    by (rewrite !unitised_of_unit by assumption; unfold qdot; cbn; ring).
  exists a, b. do 2 eexists. split; [exact Ua|]. split; [exact Ub|].
  split; [apply slerp_at; lra|]. split; [apply slerp_at; lra|].
  rewrite D1, D2, !unitised_of_unit by assumption. unfold qplus, qscale, a, b. cbn.
  rewrite acos_0, sin_PI2.
  replace (PI / 2 * (1 - 1 / 2)) with (PI / 4) by field. replace (PI / 2 * (1 / 2)) with (PI / 4) by field.
  assert (0 < sin (PI / 4)) by (apply sin_gt_0; pose proof PI_RGT_0; lra).
  split; intros E; injection E; intros; lra.
Qed.
Print Assumptions C180_orientation_refuted.

Example C180_ex : -1 + / 1000000 <= qdot (Quat 1 0 0 0) (Quat 0 1 0 0) <= 1 - / 1000000.
Proof. unfold qdot. cbn. lra. Qed.
