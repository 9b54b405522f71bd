(** Properties C77, C98: attitude, compass and gravity helpers. *)
From Coq Require Import List Arith ZArith Bool Reals Lra Lia.
From Verif Require Import Base BaseFacts NumR Libm LibmR RTac RAtan2 RPi Out MVec SpecVec SpecReal PVec
  PVecR MMtx MQuat MAhrs.
Import ListNotations.
Local Open Scope R_scope.

(** the angle x, in radians, in degrees *)
Definition degrees (x : R) : R := x * 180 / PI.

Lemma inv_PI : 0.318309886183 < / PI < 0.318309886184.
Proof.
  pose proof PI_bounds as B. assert (E : PI * / PI = 1) by (apply Rinv_r; lra).
  split; nra.
Qed.

Lemma R2D_close x : Rabs (x * (57295779513 / 1000000000) - degrees x) <= Rabs x * / 5000000000.
Proof.
  unfold degrees. replace (_ - _) with (x * (57295779513 / 1000000000 - 180 * / PI)) by (unfold Rdiv; ring).
  rewrite Rabs_mult. apply Rmult_le_compat_l; [apply Rabs_pos|].
  pose proof inv_PI as B. apply Rabs_le. lra.
Qed.

Lemma PI_close x : Rabs (x * 180 / (314159265359 / 100000000000) - degrees x) <= Rabs x * / 10000000000.
Proof.
  unfold degrees.
  replace (_ - _) with (x * (180 * / PI * ((PI - 314159265359 / 100000000000) / (314159265359 / 100000000000))))
    by (pose proof PI_bounds; field; lra).
  rewrite Rabs_mult. apply Rmult_le_compat_l; [apply Rabs_pos|].
  pose proof inv_PI as B. pose proof PI_bounds as P.
  rewrite Rabs_mult.
  assert (A : Rabs (180 * / PI) <= 58) by (apply Rabs_le; lra).
  assert (C : Rabs ((PI - 314159265359 / 100000000000) / (314159265359 / 100000000000)) <= / 1000000000000)
    by (apply Rabs_le; lra).
  pose proof (Rabs_pos (180 * / PI)).
  pose proof (Rabs_pos ((PI - 314159265359 / 100000000000) / (314159265359 / 100000000000))).
  nra.
Qed.

(** ** C77: attitude <-> Euler angles *)
(** full statement: the conversions are exact inverses; the two constants are
    rounded, so the product is only within 1e-10 *)
Theorem C77_attitude_round_trip_partial (a : att R) :
  let b := snd (att_from_euler (snd (att_to_euler a))) in
  Rabs (roll b - roll a) <= / 10000000000 * Rabs (roll a) /\
  Rabs (pitch b - pitch a) <= / 10000000000 * Rabs (pitch a) /\
  Rabs (yaw b - yaw a) <= / 10000000000 * Rabs (yaw a) /\ status b = 0%Z.
Proof.
  assert (K : forall x, Rabs (x * (1745329252 / 100000000000) * (57295779513 / 1000000000) - x)
                        <= / 10000000000 * Rabs x).
  { intros x. replace (_ - x) with ((1745329252 / 100000000000 * (57295779513 / 1000000000) - 1) * x) by ring.
    rewrite Rabs_mult. apply Rmult_le_compat_r; [apply Rabs_pos|]. apply Rabs_le. lra. }
  destruct a as [r p y s]. unfold att_from_euler, att_to_euler, DEG_TO_RAD, RAD_TO_DEG. rops. cbn.
  repeat split; apply K.
Qed.
Print Assumptions C77_attitude_round_trip_partial.

Theorem C77_attitude_round_trip_refuted :
  exists a : att R, roll (snd (att_from_euler (snd (att_to_euler a)))) <> roll a.
Proof.
  exists (Att 1 0 0 0%Z). unfold att_from_euler, att_to_euler, DEG_TO_RAD, RAD_TO_DEG. rops. cbn. lra.
Qed.
Print Assumptions C77_attitude_round_trip_refuted.

(** degrees to radians and radians to degrees are right to ten digits *)
Theorem C77_conversion (a : att R) (e : euler R) :
  let e' := snd (att_to_euler a) in
  let a' := snd (att_from_euler e) in
  Rabs (degrees (ex e') - roll a) <= / 10000000000 * Rabs (roll a) /\
  Rabs (degrees (ey e') - pitch a) <= / 10000000000 * Rabs (pitch a) /\
  Rabs (degrees (ez e') - yaw a) <= / 10000000000 * Rabs (yaw a) /\
  Rabs (roll a' - degrees (ex e)) <= Rabs (ex e) * / 5000000000 /\
  Rabs (pitch a' - degrees (ey e)) <= Rabs (ey e) * / 5000000000 /\
  Rabs (yaw a' - degrees (ez e)) <= Rabs (ez e) * / 5000000000.
Proof.
  assert (K : forall x, Rabs (degrees (x * (1745329252 / 100000000000)) - x) <= / 10000000000 * Rabs x).
  { intros x. unfold degrees.
    replace (_ - x) with ((1745329252 / 100000000000 * 180 * / PI - 1) * x) by (unfold Rdiv; ring).
    rewrite Rabs_mult. apply Rmult_le_compat_r; [apply Rabs_pos|]. pose proof inv_PI.
    apply Rabs_le. lra. }
  destruct a, e. unfold att_from_euler, att_to_euler, DEG_TO_RAD, RAD_TO_DEG. rops. cbn.
  repeat split; try apply K; apply R2D_close.
Qed.
Print Assumptions C77_conversion.
Example C77_conversion_case :
  Rabs (degrees (ex (snd (att_to_euler (Att 180 0 0 0%Z)))) - 180) <= / 10000000000 * 180.
Proof.
  pose proof (C77_conversion (Att 180 0 0 0%Z) (Euler 0 0 0)) as (H & _). cbn [roll] in H.
  now rewrite (Rabs_right 180) in H by lra.
Qed.

(** ** C77: degrees, minutes, seconds *)
Theorem C77_dms bc d m s :
  -180 <= d <= 180 -> 0 <= m <= 60 -> 0 <= s <= 60 ->
  exists v, comp_dms_to_dd bc d m s = Ok (0%Z, v) /\
    Rabs v * 3600 = Rabs d * 3600 + m * 60 + s /\ (0 <= d -> 0 <= v) /\ (d < 0 -> v < 0).
Proof.
  intros Hd Hm Hs. unfold comp_dms_to_dd. rops.
  destruct (Rltb_spec m 0); [lra|]. destruct (Rltb_spec (600 / 10) m); [lra|].
  destruct (Rltb_spec s 0); [lra|]. destruct (Rltb_spec (600 / 10) s); [lra|].
  destruct (Rltb_spec d (- (1800 / 10))); [lra|]. destruct (Rltb_spec (1800 / 10) d); [lra|].
  rewrite !andb_false_r, !Rdivo_ok by lra. cbn [bind].
  destruct (Rltb_spec d 0); eexists; (split; [reflexivity|]).
  - rewrite (Rabs_left (_ - _ - _)), (Rabs_left d) by lra. repeat split; lra.
  - rewrite (Rabs_right (_ + _ + _)), (Rabs_right d) by lra. repeat split; lra.
Qed.
Print Assumptions C77_dms.
Example C77_dms_case : -180 <= -90 <= 180 /\ 0 <= 30 <= 60 /\ 0 <= 59 <= 60.
Proof. lra. Qed.

Theorem C77_dms_rejects d m s :
  ~ (-180 <= d <= 180 /\ 0 <= m <= 60 /\ 0 <= s <= 60) ->
  comp_dms_to_dd true d m s = Ok ((- EINVAL)%Z, 0).
Proof.
  intros H. unfold comp_dms_to_dd. rops. cbn [andb].
  destruct (Rltb_spec m 0); [reflexivity|]. destruct (Rltb_spec (600 / 10) m); [reflexivity|].
  destruct (Rltb_spec s 0); [reflexivity|]. destruct (Rltb_spec (600 / 10) s); [reflexivity|].
  destruct (Rltb_spec d (- (1800 / 10))); [reflexivity|].
  destruct (Rltb_spec (1800 / 10) d); [reflexivity|].
  exfalso. apply H. lra.
Qed.
Print Assumptions C77_dms_rejects.

(** ** C77: compass heading *)
(** [theta] is the direction of the horizontal field (x, y) *)
Definition direction_of (x y theta : R) : Prop :=
  exists h, 0 < h /\ x = h * cos theta /\ y = h * sin theta.

Lemma atan2_swap x y : x <> 0 \/ y <> 0 -> direction_of x y (PI / 2 - Ratan2 x y).
Proof.
  intros H. exists (hyp y x). split; [apply hyp_pos; tauto|].
  rewrite cos_shift, sin_shift. destruct (atan2_cos_sin y x) as [C S]. split; now symmetry.
Qed.

Lemma atan2_pos x y : 0 < y -> - (PI / 2) < Ratan2 x y < PI / 2.
Proof. intros H. unfold Ratan2. destruct (Rlt_dec 0 y); [|contradiction]. pose proof (atan_bound (x / y)). lra.
Qed.

(** full statement: for every field.  Missing: fields with y < 0
    ([C77_heading_refuted]) and the rounding to 0 or 180 when |y| < 1e-6. *)
Theorem C77_heading_partial bc x y z tl :
  / 1000000 <= y ->
  exists d theta, comp_magn_north bc (vec_of [x; y; z] tl) = Ok (0%Z, Set_ d) /\
    direction_of x y theta /\ 0 < theta < PI /\ Rabs (d - degrees theta) <= / 1000000000.
Proof.
  intros Hy. unfold comp_magn_north, ZSL_PI. rops.
  change (vsz (vec_of [x; y; z] tl)) with 3%nat. cbn [Nat.eqb negb]. rewrite andb_false_r.
  change (vbuf (vec_of [x; y; z] tl)) with (cells [x; y; z] ++ tl).
  cbn [rd nth_error cells map app bind].
  destruct (Rltb_spec (Rabs y) (1 / 1000000)) as [L|L]; [rewrite Rabs_right in L; lra|].
  destruct (Rltb_spec 0 y); [|lra]. rewrite Rdivo_ok by lra. cbn [bind].
  eexists _, (PI / 2 - Ratan2 x y). split; [reflexivity|].
  pose proof (atan2_pos x y ltac:(lra)) as B.
  split; [apply atan2_swap; lra|]. split; [lra|].
  pose proof (PI_close (Ratan2 x y)) as C. pose proof PI_bounds as P.
  assert (D : degrees (PI / 2 - Ratan2 x y) = 90 - degrees (Ratan2 x y)) by (unfold degrees; field; lra).
  rewrite D. replace (1800 / 10) with 180 by field.
  replace (900 / 10 - _ - _) with (- (Ratan2 x y * 180 / (314159265359 / 100000000000) - degrees (Ratan2 x y)))
    by lra.
  rewrite Rabs_Ropp. eapply Rle_trans; [exact C|].
  assert (Rabs (Ratan2 x y) <= 2) by (apply Rabs_le; lra). lra.
Qed.
Print Assumptions C77_heading_partial.
Example C77_heading_case : / 1000000 <= 1.
Proof. lra. Qed.

(** along the x axis *)
Theorem C77_heading_axis bc x y z tl :
  Rabs y < / 1000000 ->
  comp_magn_north bc (vec_of [x; y; z] tl)
  = Ok (0%Z, Set_ (if Rlt_dec 0 x then 0 else 180)).
Proof.
  intros Hy. unfold comp_magn_north. rops.
  change (vsz (vec_of [x; y; z] tl)) with 3%nat. cbn [Nat.eqb negb]. rewrite andb_false_r.
  change (vbuf (vec_of [x; y; z] tl)) with (cells [x; y; z] ++ tl).
  cbn [rd nth_error cells map app bind].
  destruct (Rltb_spec (Rabs y) (1 / 1000000)); [|lra].
  destruct (Rltb_spec 0 x), (Rlt_dec 0 x); try contradiction; [reflexivity|].
  replace (1800 / 10) with 180 by field. reflexivity.
Qed.
Print Assumptions C77_heading_axis.

(** for y < 0 the code adds 180 degrees to the direction of the field *)
Theorem C77_heading_negative bc x y z tl :
  y <= - / 1000000 ->
  exists d theta, comp_magn_north bc (vec_of [x; y; z] tl) = Ok (0%Z, Set_ d) /\
    direction_of x y theta /\ - (PI / 2) <= theta < 3 * PI / 2 /\
    Rabs (d - (degrees theta + 180)) <= / 1000000000.
Proof.
  intros Hy. unfold comp_magn_north, ZSL_PI. rops.
  change (vsz (vec_of [x; y; z] tl)) with 3%nat. cbn [Nat.eqb negb]. rewrite andb_false_r.
  change (vbuf (vec_of [x; y; z] tl)) with (cells [x; y; z] ++ tl).
  cbn [rd nth_error cells map app bind].
  destruct (Rltb_spec (Rabs y) (1 / 1000000)) as [L|L]; [rewrite Rabs_left in L; lra|].
  destruct (Rltb_spec 0 y); [lra|]. destruct (Rltb_spec y 0); [|lra].
  rewrite Rdivo_ok by lra. cbn [bind].
  eexists _, (PI / 2 - Ratan2 x y). split; [reflexivity|].
  pose proof (atan2_bound x y) as B.
  split; [apply atan2_swap; lra|]. split; [lra|].
  pose proof (PI_close (Ratan2 x y)) as C. pose proof PI_bounds as P.
  assert (D : degrees (PI / 2 - Ratan2 x y) = 90 - degrees (Ratan2 x y)) by (unfold degrees; field; lra).
  rewrite D. replace (1800 / 10) with 180 by field.
  replace (2700 / 10 - _ - _) with (- (Ratan2 x y * 180 / (314159265359 / 100000000000) - degrees (Ratan2 x y)))
    by lra.
  rewrite Rabs_Ropp. eapply Rle_trans; [exact C|].
  assert (Rabs (Ratan2 x y) <= 4) by (apply Rabs_le; lra). lra.
Qed.
Print Assumptions C77_heading_negative.

(** a field along -y has heading 270, the code gives 90; a field along
    (-1, -1) is given a heading above 360 *)
Theorem C77_heading_refuted :
  direction_of 0 (-1) (3 * (PI / 2)) /\
  (exists d, comp_magn_north true (vec_of [0; -1; 0] []) = Ok (0%Z, Set_ d) /\ d < 91) /\
  (exists d, comp_magn_north true (vec_of [-1; -1; 0] []) = Ok (0%Z, Set_ d) /\ 404 < d).
Proof.
  pose proof PI_bounds as P. split.
  { exists 1. replace (3 * (PI / 2)) with (PI / 2 + PI) by field.
    rewrite neg_cos, neg_sin, cos_PI2, sin_PI2. lra. }
  unfold comp_magn_north, ZSL_PI. rops. cbn [vsz vec_of length Nat.eqb negb andb].
  change (vbuf (vec_of [0; -1; 0] [])) with (cells [0; -1; 0]).
  change (vbuf (vec_of [-1; -1; 0] [])) with (cells [-1; -1; 0]).
  cbn [rd nth_error cells map app bind].
  destruct (Rltb_spec (Rabs (-1)) (1 / 1000000)) as [L|L]; [rewrite Rabs_left in L; lra|].
  destruct (Rltb_spec 0 (-1)); [lra|]. destruct (Rltb_spec (-1) 0); [|lra].
  rewrite !Rdivo_ok by lra. cbn [bind].
  assert (A1 : Ratan2 0 (-1) = PI).
  { unfold Ratan2. destruct (Rlt_dec 0 (-1)); [lra|]. destruct (Rlt_dec (-1) 0); [|lra].
    destruct (Rle_dec 0 0); [|lra]. replace (0 / -1) with 0 by field. rewrite atan_0. ring. }
  assert (A2 : Ratan2 (-1) (-1) = PI / 4 - PI).
  { unfold Ratan2. destruct (Rlt_dec 0 (-1)); [lra|]. destruct (Rlt_dec (-1) 0); [|lra].
    destruct (Rle_dec 0 (-1)); [lra|]. replace (-1 / -1) with 1 by field. now rewrite atan_1. }
  rewrite A1, A2. split; eexists; (split; [reflexivity|lra]).
Qed.
Print Assumptions C77_heading_refuted.

(** declination is added; the sum is not brought back into [0, 360) *)
Theorem C77_declination bc x y z tl dec d0 :
  (let! (rc, d) := comp_magn_north bc (vec_of [x; y; z] tl) in
   Ok (rc, match d with Set_ d => Set_ (d + dec) | _ => d end))
  = comp_geo_north bc (vec_of [x; y; z] tl) dec d0.
Proof.
  unfold comp_geo_north, comp_magn_north, ZSL_PI. rops.
  change (vsz (vec_of [x; y; z] tl)) with 3%nat. cbn [Nat.eqb negb]. rewrite andb_false_r.
  change (vbuf (vec_of [x; y; z] tl)) with (cells [x; y; z] ++ tl).
  cbn [rd nth_error cells map app bind].
  destruct (Rltb_spec (Rabs y) (1 / 1000000)) as [L|L].
  { destruct (Rltb_spec 0 x); reflexivity. }
  rewrite Rdivo_ok by lra. cbn [bind].
  destruct (Rltb_spec 0 y); [reflexivity|]. destruct (Rltb_spec y 0); [reflexivity|].
  exfalso. apply L. replace y with 0 by lra. rewrite Rabs_R0. lra.
Qed.
Print Assumptions C77_declination.

Theorem C77_declination_range_refuted :
  comp_geo_north true (vec_of [-1; 0; 0] []) 200 None = Ok (0%Z, Set_ 380) /\
  comp_geo_north true (vec_of [1; 0; 0] []) (-10) None = Ok (0%Z, Set_ (-10)).
Proof.
  rewrite <- !C77_declination, !C77_heading_axis by (rewrite Rabs_R0; lra). cbn [bind].
  destruct (Rlt_dec 0 (-1)); [lra|]. destruct (Rlt_dec 0 1); [|lra]. split; do 3 f_equal; ring.
Qed.
Print Assumptions C77_declination_range_refuted.

(** ** C77: tilt from the accelerometer *)
(** the specific force g (-sin p, cos p sin r, cos p cos r) of a body with roll
    r and pitch p gives back r and p *)
Theorem C77_tilt bc g r p tl a :
  0 < g -> - PI < r <= PI -> - (PI / 2) < p < PI / 2 ->
  exists a', att_from_accel bc (vec_of [g * - sin p; g * (cos p * sin r); g * (cos p * cos r)] tl) a
             = Ok (0%Z, a') /\
    Rabs (roll a' - degrees r) <= / 1000000000 /\ Rabs (pitch a' - degrees p) <= / 1000000000 /\
    yaw a' = 0 /\ status a' = status a.
Proof.
  intros Hg Hr Hp. assert (C : 0 < cos p) by (apply cos_gt_0; lra).
  pose proof (sin2_cos2 p) as P. pose proof (sin2_cos2 r) as Q. unfold Rsqr in P, Q.
  set (xs := [g * - sin p; g * (cos p * sin r); g * (cos p * cos r)]).
  assert (Nm : rnorm xs = g).
  { unfold rnorm, xs, rdot. cbn [combine map fst snd fold_right rsum].
    replace (_ + _) with (g * g * (sin p * sin p + cos p * cos p * (sin r * sin r + cos r * cos r)))
      by (cbn; ring).
    rewrite Q, Rmult_1_r, P, Rmult_1_r. apply sqrt_square. lra. }
  unfold att_from_accel, RAD_TO_DEG. rops.
  change (vsz (vec_of xs tl)) with 3%nat. cbn [Nat.eqb negb]. rewrite andb_false_r.
  rewrite vec_copy_ok by (cbn; lia). cbn [bind]. rewrite vec_to_unit_R by lra. cbn [bind].
  rewrite Nm. change (skipn _ (fresh 3)) with (@nil (option R)).
  unfold xs, rscale. cbn [map vec_of vbuf cells app rd nth_error bind].
  replace (/ g * (g * - sin p)) with (- sin p) by (field; lra).
  replace (/ g * (g * (cos p * sin r))) with (cos p * sin r) by (field; lra).
  replace (/ g * (g * (cos p * cos r))) with (cos p * cos r) by (field; lra).
  replace (cos p * sin r * (cos p * sin r) + cos p * cos r * (cos p * cos r))
    with (cos p * cos p * (sin r * sin r + cos r * cos r)) by ring.
  rewrite Q, Rmult_1_r, Rsqrto_ok by nra. cbn [bind]. rewrite sqrt_square by lra.
  rewrite atan2_polar by assumption. rewrite Ropp_involutive.
  replace (Ratan2 (sin p) (cos p)) with p
    by (pose proof PI_RGT_0; rewrite <- (atan2_polar 1 p) at 1 by lra; now rewrite !Rmult_1_l).
  eexists. split; [reflexivity|]. cbn [roll pitch yaw status]. pose proof PI_bounds as B.
  split; [|split; [|split; reflexivity]].
  - eapply Rle_trans; [apply R2D_close|]. assert (Rabs r <= 4) by (apply Rabs_le; lra). lra.
  - eapply Rle_trans; [apply R2D_close|]. assert (Rabs p <= 4) by (apply Rabs_le; lra). lra.
Qed.
Print Assumptions C77_tilt.
Example C77_tilt_case : 0 < 9.807 /\ - PI < 1 <= PI /\ - (PI / 2) < 1 < PI / 2.
Proof. pose proof PI_bounds. lra. Qed.

(** a zero acceleration is not rejected: it is taken for nose down *)
Theorem C77_zero_accel_refuted :
  exists a', att_from_accel true (vec_of [0; 0; 0] []) (Att 0 0 0 0%Z) = Ok (0%Z, a') /\
             Rabs (pitch a' + 90) <= / 1000000000.
Proof.
  unfold att_from_accel, RAD_TO_DEG. rops.
  change (vsz (vec_of [0; 0; 0] [])) with 3%nat. cbn [Nat.eqb negb andb].
  rewrite vec_copy_ok by (cbn; lia). cbn [bind]. rewrite vec_to_unit_R0 by (repeat constructor).
  cbn [bind length repeat]. change (skipn _ (fresh 3)) with (@nil (option R)).
  cbn [vec_of vbuf cells map app rd nth_error bind]. rewrite Rsqrto_ok by lra. cbn [bind].
  eexists. split; [reflexivity|]. cbn [pitch]. replace (0 * 0 + 0 * 0) with 0 by ring.
  rewrite sqrt_0. unfold Ratan2.
  destruct (Rlt_dec 0 0); [lra|]. destruct (Rlt_dec 0 (- (1))); [lra|]. destruct (Rlt_dec (- (1)) 0); [|lra].
  pose proof (R2D_close (- (PI / 2))) as C. pose proof PI_bounds as B.
  assert (D : degrees (- (PI / 2)) = -90) by (unfold degrees; field; lra). rewrite D in C.
  replace (_ + 90) with (- (PI / 2) * (57295779513 / 1000000000) - -90) by ring.
  eapply Rle_trans; [exact C|]. rewrite Rabs_left by lra. lra.
Qed.
Print Assumptions C77_zero_accel_refuted.

(** ** C77: angle between two accelerations *)
Theorem C77_accel_angle bc x1 y1 z1 x2 y2 z2 t1 t2 :
  let xs := [x1; y1; z1] in let ys := [x2; y2; z2] in
  rnorm xs <> 0 -> rnorm ys <> 0 ->
  exists b, att_accel_angle bc (vec_of xs t1) (vec_of ys t2) = Ok (0%Z, Set_ b) /\
    0 <= b <= PI /\ x1 * x2 + y1 * y2 + z1 * z2 = rnorm xs * rnorm ys * cos b.
Proof.
  intros xs ys H1 H2. pose proof (rnorm_nonneg xs). pose proof (rnorm_nonneg ys).
  pose proof (rdot_le_norms xs ys) as CS.
  unfold att_accel_angle. change (vsz (vec_of xs t1)) with 3%nat. change (vsz (vec_of ys t2)) with 3%nat.
  cbn [Nat.eqb negb orb]. rewrite andb_false_r, !vec_norm_R, vec_dot_R by reflexivity. cbn [bind]. rops.
  assert (Pn : 0 < rnorm xs * rnorm ys) by (apply Rmult_lt_0_compat; lra).
  rewrite Rdivo_ok by lra. cbn [bind].
  assert (B : -1 <= rdot xs ys / (rnorm xs * rnorm ys) <= 1).
  { apply Rabs_le_inv in CS || idtac.
    assert (- (rnorm xs * rnorm ys) <= rdot xs ys <= rnorm xs * rnorm ys)
      by (pose proof (Rle_abs (rdot xs ys)); pose proof (Rle_abs (- rdot xs ys)); rewrite Rabs_Ropp in *; lra).
    split; apply (Rmult_le_reg_r (rnorm xs * rnorm ys)); try lra;
      unfold Rdiv; rewrite Rmult_assoc, Rinv_l; lra. }
  unfold Racos. destruct (Rle_dec (-1) _); [|lra]. destruct (Rle_dec _ 1); [|lra]. cbn [bind].
  eexists. split; [reflexivity|]. split; [apply acos_bound|].
  rewrite cos_acos by exact B. unfold xs at 2, ys at 2, rdot, rsum. cbn. field.
  split; assumption.
Qed.
Print Assumptions C77_accel_angle.
Example C77_accel_angle_case : rnorm [0; 3; 4] <> 0.
Proof.
  unfold rnorm, rdot. cbn. replace (0 * 0 + _) with (5 * 5) by ring. rewrite sqrt_square; lra.
Qed.

Theorem C77_accel_angle_zero_refuted :
  att_accel_angle true (vec_of [0; 0; 0] []) (vec_of [1; 0; 0] []) = NotReal.
Proof.
  unfold att_accel_angle. cbn [vsz vec_of length Nat.eqb negb orb andb].
  change (Vec 3 (cells [0; 0; 0] ++ [])) with (vec_of [0; 0; 0] []).
  change (Vec 3 (cells [1; 0; 0] ++ [])) with (vec_of [1; 0; 0] []).
  rewrite !vec_norm_R, vec_dot_R by reflexivity. cbn [bind]. rops.
  replace (rnorm [0; 0; 0]) with 0
    by (symmetry; apply rnorm_zero; repeat constructor).
  rewrite Rmult_0_l, Rdivo_0. reflexivity.
Qed.
Print Assumptions C77_accel_angle_zero_refuted.

(** ** C77: heading from accelerometer and magnetometer *)
(** turning the field back by the reported pitch and roll, its horizontal part
    points at minus the reported yaw *)
Theorem C77_tilt_compensation bc ax ay az mx my mz ta tm a t :
  rnorm [mx; my; mz] <> 0 ->
  att_from_accel bc (vec_of [ax; ay; az] ta) a = Ok (0%Z, t) ->
  let r := roll t * (1745329252 / 100000000000) in
  let p := pitch t * (1745329252 / 100000000000) in
  let hx := mx * cos p + sin p * (my * sin r + mz * cos r) in
  let hy := my * cos r - mz * sin r in
  exists a' y, att_from_accelmag bc (vec_of [ax; ay; az] ta) (vec_of [mx; my; mz] tm) a = Ok (0%Z, a') /\
    roll a' = roll t /\ pitch a' = pitch t /\ status a' = status a /\
    - PI < y <= PI /\ Rabs (yaw a' - degrees y) <= / 1000000000 /\
    (hx <> 0 \/ hy <> 0 -> direction_of hx hy (- y)).
Proof.
  intros Hm Ht r p hx hy. set (n := rnorm [mx; my; mz]) in *.
  assert (Hn : 0 < n) by (pose proof (rnorm_nonneg [mx; my; mz]) as Z; fold n in Z; lra).
  unfold att_from_accelmag, DEG_TO_RAD, RAD_TO_DEG. rops.
  change (vsz (vec_of [ax; ay; az] ta)) with 3%nat. change (vsz (vec_of [mx; my; mz] tm)) with 3%nat.
  cbn [Nat.eqb negb orb]. rewrite andb_false_r.
  rewrite vec_copy_ok by (cbn; lia). cbn [bind]. rewrite vec_to_unit_R by exact Hm. cbn [bind].
  rewrite Ht. cbn [bind]. fold n. change (skipn _ (fresh 3)) with (@nil (option R)).
  unfold rscale. cbn [map vec_of vbuf cells app rd nth_error bind]. fold r p.
  replace (/ n * mz * sin r - / n * my * cos r) with (/ n * - hy) by (unfold hy; ring).
  replace (/ n * mx * cos p + sin p * (/ n * my * sin r + / n * mz * cos r)) with (/ n * hx)
    by (unfold hx; ring).
  eexists _, (Ratan2 (/ n * - hy) (/ n * hx)). split; [reflexivity|]. cbn [roll pitch yaw status].
  pose proof (atan2_bound (/ n * - hy) (/ n * hx)) as B. pose proof PI_bounds.
  repeat (split; [first [reflexivity|exact B]|]). split.
  { eapply Rle_trans; [apply R2D_close|].
    assert (Rabs (Ratan2 (/ n * - hy) (/ n * hx)) <= 4) by (apply Rabs_le; lra). lra. }
  intros Hh. exists (n * hyp (/ n * hx) (/ n * - hy)).
  assert (In : / n <> 0) by (apply Rinv_neq_0_compat; lra).
  split.
  { apply Rmult_lt_0_compat; [exact Hn|]. apply hyp_pos.
    destruct Hh; [left|right]; apply Rmult_integral_contrapositive_currified; lra. }
  rewrite cos_neg, sin_neg. destruct (atan2_cos_sin (/ n * hx) (/ n * - hy)) as [E1 E2].
  split.
  - rewrite Rmult_assoc, E1. field. lra.
  - rewrite Rmult_assoc, Ropp_mult_distr_r_reverse, E2. field. lra.
Qed.
Print Assumptions C77_tilt_compensation.

Theorem C77_sizes (a1 a2 : vec R) (a : att R) dec d0 :
  vsz a1 <> 3%nat ->
  att_from_accel true a1 a = Ok ((- EINVAL)%Z, a) /\
  att_from_accelmag true a1 a2 a = Ok ((- EINVAL)%Z, a) /\
  att_from_accelmag true a2 a1 a = Ok ((- EINVAL)%Z, a) /\
  att_accel_angle true a1 a2 = Ok ((- EINVAL)%Z, Kept) /\
  att_accel_angle true a2 a1 = Ok ((- EINVAL)%Z, Kept) /\
  comp_magn_north true a1 = Ok ((- EINVAL)%Z, Kept) /\
  comp_geo_north true a1 dec d0 = Ok ((- EINVAL)%Z, Kept).
Proof.
  intros H. unfold att_from_accel, att_from_accelmag, att_accel_angle, comp_magn_north, comp_geo_north.
  destruct (Nat.eqb_spec (vsz a1) 3); [contradiction|]. cbn [andb orb negb].
  rewrite orb_true_r. repeat split; reflexivity.
Qed.
Print Assumptions C77_sizes.

(** ** C98: gravity *)
Theorem C98_gravity_guard lat alt :
  (alt < 0 \/ 90 < Rabs lat -> grav_lat_alt lat alt = Ok ((- EINVAL)%Z, NaN)) /\
  (0 <= alt -> Rabs lat <= 90 -> exists g, grav_lat_alt lat alt = Ok (0%Z, Set_ g)).
Proof.
  unfold grav_lat_alt, ZSL_PI. rops. replace (900 / 10) with 90 by field.
  split.
  - intros H. destruct (Rltb_spec alt 0); [reflexivity|]. destruct (Rltb_spec 90 lat); [reflexivity|].
    destruct (Rltb_spec lat (- (90))); [reflexivity|]. exfalso. destruct H as [H|H]; [lra|].
    assert (Rabs lat <= 90) by (apply Rabs_le; lra). lra.
  - intros Ha Hl. assert (L : -90 <= lat <= 90)
      by (pose proof (Rle_abs lat); pose proof (Rle_abs (- lat)); rewrite Rabs_Ropp in *; lra).
    destruct (Rltb_spec alt 0); [lra|]. destruct (Rltb_spec 90 lat); [lra|].
    destruct (Rltb_spec lat (- (90))); [lra|]. cbn [orb]. rewrite Rdivo_ok by lra. cbn [bind]. eauto.
Qed.
Print Assumptions C98_gravity_guard.

Lemma grav_run lat alt :
  0 <= alt -> -90 <= lat <= 90 ->
  let k := 314159265359 / 100000000000 / 180 in
  grav_lat_alt lat alt
  = Ok (0%Z, Set_ (9780318 / 1000000 * (1 + 53024 / 10000000 * Rsqr (sin (lat * k))
                     - 58 / 10000000 * Rsqr (sin (2 * lat * k))) - 3085 / 1000000000 * alt)).
Proof.
  intros Ha Hl k. unfold grav_lat_alt, ZSL_PI. rops. replace (900 / 10) with 90 by field.
  destruct (Rltb_spec alt 0); [lra|]. destruct (Rltb_spec 90 lat); [lra|].
  destruct (Rltb_spec lat (- (90))); [lra|]. cbn [orb]. rewrite Rdivo_ok by lra. cbn [bind].
  replace (1800 / 10) with 180 by field. fold k. replace (20 / 10 * lat) with (2 * lat) by field.
  unfold Rsqr. do 3 f_equal. field.
Qed.

(** between 9.78 and 9.84 at sea level, the same north and south, falling with
    the altitude at the free-air rate *)
Theorem C98_gravity_sea_level lat g :
  -90 <= lat <= 90 -> grav_lat_alt lat 0 = Ok (0%Z, Set_ g) -> 9.78 <= g <= 9.84.
Proof.
  intros Hl. rewrite grav_run by lra. intros E. injection E as <-.
  set (k := 314159265359 / 100000000000 / 180).
  assert (B : forall x, 0 <= Rsqr (sin x) <= 1).
  { intros x. split; [apply Rle_0_sqr|]. pose proof (sin2_cos2 x). pose proof (Rle_0_sqr (cos x)). lra. }
  assert (D : Rsqr (sin (2 * lat * k)) <= 4 * Rsqr (sin (lat * k))).
  { replace (2 * lat * k) with (2 * (lat * k)) by ring. rewrite sin_2a. unfold Rsqr.
    pose proof (B (lat * k)). pose proof (sin2_cos2 (lat * k)). unfold Rsqr in *.
    set (s := sin (lat * k)) in *. set (c := cos (lat * k)) in *.
    replace (2 * s * c * (2 * s * c)) with (4 * (s * s) * (c * c)) by ring.
    assert (c * c <= 1) by lra. assert (0 <= c * c) by apply Rle_0_sqr. nra. }
  pose proof (B (lat * k)). pose proof (B (2 * lat * k)). lra.
Qed.
Print Assumptions C98_gravity_sea_level.

Theorem C98_gravity_altitude lat a1 a2 g1 g2 :
  0 <= a1 -> 0 <= a2 ->
  grav_lat_alt lat a1 = Ok (0%Z, Set_ g1) -> grav_lat_alt lat a2 = Ok (0%Z, Set_ g2) ->
  g1 - g2 = 3085 / 1000000000 * (a2 - a1).
Proof.
  intros H1 H2. assert (L : -90 <= lat <= 90 \/ 90 < Rabs lat).
  { destruct (Rle_dec (Rabs lat) 90); [left|right; lra].
    pose proof (Rle_abs lat); pose proof (Rle_abs (- lat)); rewrite Rabs_Ropp in *; lra. }
  destruct L as [L|L].
  - rewrite !grav_run by lra. intros E1 E2. injection E1 as <-. injection E2 as <-. ring.
  - destruct (C98_gravity_guard lat a1) as [G _]. rewrite G by auto. discriminate.
Qed.
Print Assumptions C98_gravity_altitude.

Theorem C98_gravity_symmetric lat alt :
  0 <= alt -> -90 <= lat <= 90 -> grav_lat_alt (- lat) alt = grav_lat_alt lat alt.
Proof.
  intros Ha Hl. rewrite !grav_run by lra. set (k := 314159265359 / 100000000000 / 180).
  replace (- lat * k) with (- (lat * k)) by ring. replace (2 * - lat * k) with (- (2 * lat * k)) by ring.
  now rewrite !sin_neg, <- !Rsqr_neg.
Qed.
Print Assumptions C98_gravity_symmetric.

(** heavier towards the poles *)
Theorem C98_gravity_latitude l1 l2 alt g1 g2 :
  0 <= alt -> 0 <= l1 -> l1 <= l2 -> l2 <= 89.999 ->
  grav_lat_alt l1 alt = Ok (0%Z, Set_ g1) -> grav_lat_alt l2 alt = Ok (0%Z, Set_ g2) -> g1 <= g2.
Proof.
  intros Ha H1 H2 H3. rewrite !grav_run by lra. intros E1 E2. injection E1 as <-. injection E2 as <-.
  set (k := 314159265359 / 100000000000 / 180). pose proof PI_bounds as P.
  assert (K : 0 < k) by (unfold k; lra).
  assert (S : 0 <= sin (l1 * k) <= sin (l2 * k)).
  { assert (l2 * k < PI / 2) by (apply Rle_lt_trans with (89.999 * k); [nra|unfold k; lra]).
    assert (0 <= l1 * k) by nra. assert (l1 * k <= l2 * k) by nra.
    split; [apply sin_ge_0; lra|]. apply sin_incr_1; lra. }
  assert (T : forall x, Rsqr (sin (2 * x * k)) = 4 * (Rsqr (sin (x * k)) * (1 - Rsqr (sin (x * k))))).
  { intros x. replace (2 * x * k) with (2 * (x * k)) by ring. rewrite sin_2a, !Rsqr_mult.
    pose proof (cos2 (x * k)) as C. rewrite C. unfold Rsqr. ring. }
  rewrite !T. set (u := Rsqr (sin (l1 * k))). set (v := Rsqr (sin (l2 * k))).
  assert (U : 0 <= u) by apply Rle_0_sqr.
  assert (UV : u <= v) by (apply Rsqr_incr_1; lra).
  assert (V : v <= 1) by (unfold v; pose proof (sin2_cos2 (l2 * k)); pose proof (Rle_0_sqr (cos (l2 * k))); lra).
  assert (v * (1 - v) - u * (1 - u) <= v - u) by nra. lra.
Qed.
Print Assumptions C98_gravity_latitude.
Example C98_gravity_case : 0 <= 45 /\ 45 <= 60 /\ 60 <= 89.999.
Proof. lra. Qed.
