(** Proofs about quaternions and angles: axis and angle, interpolation,
    exponential, logarithm, power. *)
From Coq Require Import List Arith ZArith Bool Reals Lra Lia.
From Verif Require Import Base BaseFacts NumR Libm LibmR RTac Out MVec SpecVec SpecReal PVec PVecR
  MMtx SpecMtx PMtx MQuat SpecQuat PQuat PQuatRot.
Import ListNotations.
Local Open Scope R_scope.
Implicit Types (p q a b : quat R).

(** (cos h, n sin h) *)
Definition cis (n : v3) (h : R) : quat R := mkq (cos h) (vscale (sin h) n).

Lemma sc1 h : sin h * sin h + cos h * cos h = 1.
Proof. exact (sin2_cos2 h). Qed.
Lemma cis_unit n h : vdot n n = 1 -> unit_quat (cis n h).
Proof.
  intros Hn. destruct n as [[x y] z]. unfold unit_quat, qdot, cis, mkq, re, im, vscale, vdot in *.
  cbn. pose proof (sc1 h).
  replace (_ + _) with (cos h * cos h + sin h * sin h * (x * x + y * y + z * z)) by ring.
  rewrite Hn. lra.
Qed.
Lemma cis_hprod n g h : vdot n n = 1 -> hprod (cis n g) (cis n h) = cis n (g + h).
Proof.
  intros Hn. destruct n as [[x y] z]. unfold hprod, cis, mkq, re, im, vscale, vdot, vadd, vcross in *.
  cbn. rewrite cos_plus, sin_plus. f_equal; try ring.
  replace (_ - _) with (cos g * cos h - sin g * sin h * (x * x + y * y + z * z)) by ring.
  rewrite Hn. ring.
Qed.
Lemma cis_0 n : cis n 0 = qone.
Proof. destruct n as [[x y] z]. unfold cis, qone, mkq, vscale. rewrite cos_0, sin_0. f_equal; ring. Qed.
Lemma cis_conj n h : qconj (cis n h) = cis n (- h).
Proof.
  destruct n as [[x y] z]. unfold qconj, cis, mkq, vscale, re, im. cbn. rewrite cos_neg, sin_neg.
  f_equal; ring.
Qed.
Lemma cis_flip n h : cis (vscale (-1) n) (- h) = cis n h.
Proof.
  destruct n as [[x y] z]. unfold cis, mkq, vscale. rewrite cos_neg, sin_neg. f_equal; ring.
Qed.
Lemma vdot_scale s v : vdot (vscale s v) (vscale s v) = s * s * vdot v v.
Proof. destruct v as [[x y] z]. unfold vdot, vscale. ring. Qed.
Lemma vdot_nonneg v : 0 <= vdot v v.
Proof. destruct v as [[x y] z]. unfold vdot. nra. Qed.
Lemma vlen_sqr v : vlen v * vlen v = vdot v v.
Proof. apply sqrt_sqrt, vdot_nonneg. Qed.
Lemma vlen_nonneg v : 0 <= vlen v.
Proof. apply sqrt_pos. Qed.
Lemma vunit v : vlen v <> 0 -> vdot (vscale (/ vlen v) v) (vscale (/ vlen v) v) = 1.
Proof. intros H. rewrite vdot_scale, <- vlen_sqr. field. exact H. Qed.
Lemma vlen_0 v : vlen v = 0 -> v = (0, 0, 0).
Proof.
  intros H. pose proof (vlen_sqr v) as E. rewrite H in E. destruct v as [[x y] z].
  unfold vdot in E. f_equal; [f_equal|]; nra.
Qed.
Lemma vscale_vscale s t v : vscale s (vscale t v) = vscale (s * t) v.
Proof. destruct v as [[x y] z]. unfold vscale. f_equal; [f_equal|]; ring. Qed.
Lemma vscale_1 v : vscale 1 v = v.
Proof. destruct v as [[x y] z]. unfold vscale. f_equal; [f_equal|]; ring. Qed.
Lemma vlen_scale_unit s n : vdot n n = 1 -> vlen (vscale s n) = Rabs s.
Proof.
  intros H. unfold vlen. rewrite vdot_scale, H, Rmult_1_r. apply sqrt_Rsqr_abs.
Qed.

(** rotation by (cos b/2, n sin b/2) is the rotation by b about n *)
Lemma rotate_cis n (b : R) v : vdot n n = 1 -> rotate (cis n (b / 2)) v = rodrigues n b v.
Proof.
  intros Hn. destruct n as [[x y] z], v as [[u s] t].
  unfold rotate, rodrigues, cis, mkq, re, im, vscale, vadd, vcross, vdot in *. cbn.
  replace (cos b) with (cos (2 * (b / 2))) by (f_equal; field).
  replace (sin b) with (sin (2 * (b / 2))) by (f_equal; field).
  rewrite cos_2a_sin, sin_2a. generalize (sin (b / 2)) (cos (b / 2)). intros S C.
  assert (E : x * x = 1 - y * y - z * z) by lra.
  f_equal; [f_equal|]; ring [E].
Qed.

(** ** Vectors of length 3 *)
Lemma vec3_norm bc x y z : vec_norm bc (vec3 x y z) = Ok (vlen (x, y, z)).
Proof.
  pose proof (vec_norm_R bc [x; y; z] []) as H. unfold vec_of in H. cbn [app cells] in H.
  rewrite app_nil_r in H. unfold vec3. cbn [length] in H. rewrite H. f_equal.
  unfold rnorm, vlen, vdot. cbn. f_equal. ring.
Qed.
Lemma rnorm3 x y z : rnorm [x; y; z] = vlen (x, y, z).
Proof. unfold rnorm, vlen, vdot. cbn. f_equal. ring. Qed.

(** the unit vector the library takes for v: (1, 0, 0) for the zero vector *)
Definition direction (v : v3) : v3 :=
  if Req_EM_T (vlen v) 0 then (1, 0, 0) else vscale (/ vlen v) v.
Lemma direction_unit v : vdot (direction v) (direction v) = 1.
Proof.
  unfold direction. destruct (Req_EM_T _ _) as [E|E]; [unfold vdot; ring|]. now apply vunit.
Qed.
Lemma direction_len v : vscale (vlen v) (direction v) = v.
Proof.
  unfold direction. destruct (Req_EM_T _ _) as [E|E].
  - rewrite E. rewrite (vlen_0 v E). unfold vscale. f_equal; [f_equal|]; ring.
  - rewrite vscale_vscale, Rinv_r by exact E. apply vscale_1.
Qed.
Lemma vec3_unit bc x y z :
  vec_to_unit bc (vec3 x y z)
  = Ok (0%Z, vec3 (fst (fst (direction (x, y, z)))) (snd (fst (direction (x, y, z))))
                  (snd (direction (x, y, z)))).
Proof.
  change (vec3 x y z) with (vec_of [x; y; z] []). unfold direction.
  destruct (Req_EM_T (vlen (x, y, z)) 0) as [E|E].
  - pose proof (vlen_0 _ E) as V. injection V as -> -> ->.
    rewrite vec_to_unit_R0 by (repeat constructor). reflexivity.
  - rewrite vec_to_unit_R by (now rewrite rnorm3). rewrite rnorm3. reflexivity.
Qed.
Lemma vec_any3 (v : vec R) : vsz v = 3%nat -> (exists x y z tl, vbuf v = cells [x; y; z] ++ tl) ->
  exists x y z tl, v = vec_of [x; y; z] tl.
Proof.
  intros Hs (x & y & z & tl & Hb). exists x, y, z, tl. destruct v. cbn in *. subst. reflexivity.
Qed.

(** ** Axis and angle *)
Lemma from_axis_angle_ok bc x y z tl (b : R) :
  / 1000000 <= vlen (x, y, z) ->
  quat_from_axis_angle bc (vec_of [x; y; z] tl) b
  = Ok (0%Z, Some (cis (vscale (/ vlen (x, y, z)) (x, y, z)) (b / 2))).
Proof.
  intros H. unfold quat_from_axis_angle.
  change (vsz (vec_of [x; y; z] tl)) with 3%nat. cbn [Nat.eqb negb]. rewrite andb_false_r.
  change (vbuf (vec_of [x; y; z] tl)) with (cells [x; y; z] ++ tl).
  cbn [rd nth_error cells map app bind]. rops.
  assert (E : x * x + y * y + z * z = vdot (x, y, z) (x, y, z)) by reflexivity. rewrite E.
  rewrite Rsqrto_ok by apply vdot_nonneg. cbn [bind]. fold (vlen (x, y, z)).
  destruct (Rltb_spec (vlen (x, y, z)) (1 / 1000000)); [lra|].
  rewrite vec_copy_ok by (cbn; lia). cbn [bind].
  rewrite vec_scalar_div_ok with (g := fun t => t / vlen (x, y, z)).
  2: { cbn. apply Reqb_false. lra. }
  2: { intros t _. cbn. apply Rdivo_ok. lra. }
  cbn [bind]. rewrite Rdivo_ok by lra. cbn [bind rd nth_error map vec_of vbuf cells app].
  unfold cis, mkq, vscale. replace (b / (20 / 10)) with (b / 2) by field.
  do 3 f_equal. f_equal; field; lra.
Qed.
Lemma from_axis_angle_zero bc x y z tl (b : R) :
  vlen (x, y, z) < / 1000000 ->
  quat_from_axis_angle bc (vec_of [x; y; z] tl) b = Ok (0%Z, Some qzero).
Proof.
  intros H. unfold quat_from_axis_angle.
  change (vsz (vec_of [x; y; z] tl)) with 3%nat. cbn [Nat.eqb negb]. rewrite andb_false_r.
  change (vbuf (vec_of [x; y; z] tl)) with (cells [x; y; z] ++ tl).
  cbn [rd nth_error cells map app bind]. rops.
  assert (E : x * x + y * y + z * z = vdot (x, y, z) (x, y, z)) by reflexivity. rewrite E.
  rewrite Rsqrto_ok by apply vdot_nonneg. cbn [bind]. fold (vlen (x, y, z)).
  destruct (Rltb_spec (vlen (x, y, z)) (1 / 1000000)); [reflexivity|lra].
Qed.

Lemma to_axis_angle_ok bc q (bf : buf R) h n :
  (3 <= length bf)%nat -> vdot n n = 1 -> 0 < h < PI -> cos h <= 1 - / 1000000 ->
  / 1000000 <= qnorm q -> unitised q = cis n h ->
  quat_to_axis_angle bc q (Vec 3 bf)
  = Ok (0%Z, vec_of [coord 0 n; coord 1 n; coord 2 n] (skipn 3 bf), Set_ (2 * h)).
Proof.
  intros Hl Hn Hh Hc Hq Hu. unfold quat_to_axis_angle.
  cbn [vsz Nat.eqb negb vbuf]. rewrite andb_false_r, quat_to_unit_ok, Hu. cbn [bind]. rops.
  assert (Q : qr (cis n h) = cos h) by (destruct n as [[x y] z]; reflexivity). rewrite Q.
  destruct (Rltb_spec (Rabs (cos h - 10 / 10)) (1 / 1000000)) as [L|L].
  { rewrite Rabs_left1 in L by lra. lra. }
  assert (P : 0 < sin h) by (apply sin_gt_0; lra).
  assert (S : 10 / 10 - cos h * cos h = Rsqr (sin h)) by (pose proof (sc1 h); unfold Rsqr; lra).
  rewrite S, Rsqrto_ok by apply Rle_0_sqr. rewrite sqrt_Rsqr by lra. cbn [bind].
  unfold Racos. pose proof (COS_bound h) as CB.
  destruct (Rle_dec (-1) (cos h)); [|lra]. destruct (Rle_dec (cos h) 1); [|lra].
  rewrite acos_cos by lra. cbn [bind].
  do 3 (destruct bf as [|? bf]; [cbn in Hl; lia|]).
  destruct n as [[x y] z]. unfold cis, mkq, vscale. cbn [qi qj qk].
  rewrite Rdivo_ok by lra. cbn [bind]. unfold wr. cbn [length Nat.ltb Nat.leb upd bind].
  rewrite Rdivo_ok by lra. cbn [bind length Nat.ltb Nat.leb upd].
  rewrite Rdivo_ok by lra. cbn [bind length Nat.ltb Nat.leb upd].
  cbn [coord skipn]. unfold vec_of. cbn [length cells map app].
  replace (sin h * x / sin h) with x by (field; lra).
  replace (sin h * y / sin h) with y by (field; lra).
  replace (sin h * z / sin h) with z by (field; lra).
  replace (20 / 10 * h) with (2 * h) by field. reflexivity.
Qed.

(** polar form of a unit quaternion *)
Lemma polar q : unit_quat q -> exists n h, vdot n n = 1 /\ 0 <= h <= PI /\ q = cis n h /\
  n = direction (im q) /\ h = acos (re q).
Proof.
  intros U. exists (direction (im q)), (acos (re q)).
  assert (B : -1 <= re q <= 1).
  { destruct q as [w x y z]. unfold unit_quat, qdot in U. cbn in *. nra. }
  split; [apply direction_unit|]. split; [apply acos_bound|]. split; [|split; reflexivity].
  unfold cis. rewrite cos_acos by exact B. rewrite sin_acos by exact B.
  assert (E : sqrt (1 - (re q)²) = vlen (im q)).
  { unfold vlen. f_equal. unfold unit_quat, qdot in U. unfold Rsqr. lra. }
  rewrite E, direction_len. now destruct q.
Qed.
Lemma polar_any q : qnorm q <> 0 -> exists n h, vdot n n = 1 /\ 0 <= h <= PI /\
  q = qscale (qnorm q) (cis n h) /\ n = direction (im q) /\ h = acos (re q / qnorm q).
Proof.
  intros Hq. assert (P : 0 < qnorm q) by (pose proof (qnorm_nonneg q); lra).
  set (u := qscale (/ qnorm q) q).
  assert (U : unit_quat u) by (unfold u, unit_quat; rewrite qdot_scale, <- qnorm_sqr; field; lra).
  destruct (polar u U) as (n & h & Hn & Hh & E & En & Eh).
  exists n, h. split; [exact Hn|]. split; [exact Hh|]. split; [|split].
  - rewrite <- E. unfold u. rewrite qscale_qscale, Rinv_r by lra. symmetry. apply qscale_1.
  - rewrite En. unfold u. destruct q as [w x y z]. cbn. unfold direction.
    set (k := / qnorm _) in *.
    assert (Pk : 0 < k) by (unfold k; now apply Rinv_0_lt_compat).
    assert (V : vlen (k * x, k * y, k * z) = k * vlen (x, y, z)).
    { unfold vlen. change (k * x, k * y, k * z) with (vscale k (x, y, z)).
      rewrite vdot_scale, sqrt_mult by (try apply vdot_nonneg; nra). rewrite sqrt_square by lra.
      reflexivity. }
    unfold im. cbn [qi qj qk]. rewrite V. destruct (Req_EM_T (k * vlen (x, y, z)) 0) as [Z|Z];
      destruct (Req_EM_T (vlen (x, y, z)) 0) as [Z'|Z'].
    + reflexivity.
    + exfalso. apply Rmult_integral in Z. destruct Z; lra.
    + exfalso. apply Z. rewrite Z'. ring.
    + unfold vscale. f_equal; [f_equal|]; field; split; lra.
  - rewrite Eh. f_equal. unfold u. destruct q as [w x y z]. cbn. field. lra.
Qed.

(** ** Interpolation *)
Lemma quat_lerp_ok bc a b t :
  bc = false \/ 0 <= t <= 1 ->
  quat_lerp bc a b t
  = Ok (0%Z, Some (unitised (qplus (qscale (1 - t) (unitised a)) (qscale t (unitised b))))).
Proof.
  intros Ht. unfold quat_lerp. rops.
  assert (G : bc && (Rltb t 0 || Rltb (10 / 10) t) = false).
  { destruct bc; [|reflexivity]. destruct Ht as [Ht|Ht]; [discriminate|]. cbn [andb].
    apply orb_false_iff. split; apply Rltb_false; lra. }
  rewrite G, !quat_to_unit_ok. cbn [bind]. rewrite quat_scale_ok. cbn [bind].
  rewrite quat_scale_ok. cbn [bind]. unfold quat_to_unit_d_st.
  erewrite quat_to_unit_st_ok by (cbn; first [reflexivity|lia]). cbn [bind upd qget nth_error].
  replace (10 / 10 - t) with (1 - t) by field.
  reflexivity.
Qed.

Lemma quat_slerp_ok bc a b t :
  0 < t < 1 -> / 1000000 <= Rabs (qdot (unitised a) (unitised b) - 1) ->
  / 1000000 <= Rabs (qdot (unitised a) (unitised b) + 1) ->
  -1 <= qdot (unitised a) (unitised b) <= 1 ->
  let phi := acos (qdot (unitised a) (unitised b)) in
  quat_slerp bc a b t
  = Ok (0%Z, Some (qplus (qscale (sin (phi * (1 - t)) / sin phi) (unitised a))
                         (qscale (sin (phi * t) / sin phi) (unitised b)))).
Proof.
  intros Ht H1 H2 Hd phi. unfold quat_slerp. rops.
  assert (G : bc && (Rltb t 0 || Rltb (10 / 10) t) = false).
  { destruct bc; [|reflexivity]. cbn [andb]. apply orb_false_iff. split; apply Rltb_false; lra. }
  rewrite G, !quat_to_unit_ok. cbn [bind].
  destruct (Reqb_spec t 0); [lra|]. destruct (Reqb_spec t (10 / 10)); [lra|].
  set (u := unitised a) in *. set (v := unitised b) in *.
  assert (E : qr u * qr v + qi u * qi v + qj u * qj v + qk u * qk v = qdot u v)
    by (destruct u, v; unfold qdot; cbn; ring).
  rewrite E. replace (10 / 10) with 1 by field.
  destruct (Rltb_spec (Rabs (qdot u v - 1)) (1 / 1000000)); [lra|].
  destruct (Rltb_spec (Rabs (qdot u v + 1)) (1 / 1000000)); [lra|].
  unfold Racos. destruct (Rle_dec (-1) (qdot u v)); [|lra]. destruct (Rle_dec (qdot u v) 1); [|lra].
  cbn [bind]. fold phi.
  assert (P : 0 < sin phi).
  { unfold phi. rewrite sin_acos by exact Hd. apply sqrt_lt_R0. unfold Rsqr.
    assert (qdot u v <> 1) by (intros Z; rewrite Z, Rminus_diag_eq, Rabs_R0 in H1 by reflexivity; lra).
    assert (qdot u v <> -1).
    { intros Z. rewrite Z in H2. replace (-1 + 1) with 0 in H2 by ring. rewrite Rabs_R0 in H2. lra. }
    nra. }
  rewrite Rdivo_ok by lra. cbn [bind]. rewrite quat_scale_ok. cbn [bind].
  rewrite Rdivo_ok by lra. cbn [bind]. rewrite quat_scale_ok. cbn [bind].
  reflexivity.
Qed.

Lemma slerp_value a b t :
  unit_quat a -> unit_quat b -> -1 < qdot a b < 1 ->
  let phi := acos (qdot a b) in
  let s := qplus (qscale (sin (phi * (1 - t)) / sin phi) a)
                 (qscale (sin (phi * t) / sin phi) b) in
  unit_quat s /\ qdot a s = cos (phi * t) /\ qdot s b = cos (phi * (1 - t)).
Proof.
  intros Ua Ub Hd phi s.
  assert (D : qdot a b = cos phi) by (unfold phi; symmetry; apply cos_acos; lra).
  assert (P : 0 < sin phi).
  { unfold phi. rewrite sin_acos by lra. apply sqrt_lt_R0. unfold Rsqr. nra. }
  set (x := phi * t). set (y := phi * (1 - t)).
  assert (X : x + y = phi) by (unfold x, y; ring).
  assert (C : cos phi = cos x * cos y - sin x * sin y) by (rewrite <- X; apply cos_plus).
  assert (S : sin phi = sin x * cos y + cos x * sin y) by (rewrite <- X; apply sin_plus).
  assert (Q : forall u v, qdot (qplus (qscale u a) (qscale v b)) (qplus (qscale u a) (qscale v b))
              = u * u * qdot a a + 2 * u * v * qdot a b + v * v * qdot b b)
    by (intros; destruct a, b; unfold qdot, qplus, qscale; cbn; ring).
  assert (Q1 : forall u v, qdot a (qplus (qscale u a) (qscale v b)) = u * qdot a a + v * qdot a b)
    by (intros; destruct a, b; unfold qdot, qplus, qscale; cbn; ring).
  assert (Q2 : forall u v, qdot (qplus (qscale u a) (qscale v b)) b = u * qdot a b + v * qdot b b)
    by (intros; destruct a, b; unfold qdot, qplus, qscale; cbn; ring).
  unfold unit_quat in *. unfold s. fold x y. rewrite Q, Q1, Q2, Ua, Ub, D.
  pose proof (sc1 x) as X1. pose proof (sc1 y) as Y1.
  assert (X2 : sin x * sin x = 1 - cos x * cos x) by lra.
  assert (Y2 : sin y * sin y = 1 - cos y * cos y) by lra.
  repeat split.
  - apply (Rmult_eq_reg_r (sin phi * sin phi)); [|nra].
    replace (_ * (sin phi * sin phi)) with
      (sin y * sin y + 2 * sin y * sin x * cos phi + sin x * sin x) by (field; lra).
    rewrite C, S. ring [X2 Y2].
  - apply (Rmult_eq_reg_r (sin phi)); [|lra].
    replace (_ * sin phi) with (sin y + sin x * cos phi) by (field; lra).
    rewrite C, S. ring [X2 Y2].
  - apply (Rmult_eq_reg_r (sin phi)); [|lra].
    replace (_ * sin phi) with (sin y * cos phi + sin x) by (field; lra).
    rewrite C, S. ring [X2 Y2].
Qed.

(** ** Exponential and logarithm *)
Lemma quat_exp_ok bc l n h :
  vdot n n = 1 -> quat_exp bc (mkq l (vscale h n)) = Ok (0%Z, qscale (exp l) (cis n h)).
Proof.
  intros Hn. destruct n as [[x y] z]. unfold quat_exp, mkq, vscale. cbn [qr qi qj qk].
  rewrite vec3_norm. cbn [bind]. rewrite vec3_unit. cbn [bind vbuf vec3 rd nth_error cells map].
  rops. change (h * x, h * y, h * z) with (vscale h (x, y, z)).
  rewrite vlen_scale_unit by exact Hn.
  assert (D : vscale (sin (Rabs h)) (direction (vscale h (x, y, z))) = vscale (sin h) (x, y, z)).
  { unfold direction. rewrite vlen_scale_unit by exact Hn.
    destruct (Req_EM_T (Rabs h) 0) as [Z|Z].
    - rewrite Z. assert (h = 0) as -> by (destruct (Req_dec h 0) as [?|W]; [assumption|apply Rabs_no_R0 in W; contradiction]). rewrite sin_0.
      unfold vscale. f_equal; [f_equal|]; ring.
    - rewrite !vscale_vscale. f_equal. destruct (Rle_lt_dec 0 h) as [P|P].
      + rewrite Rabs_right by lra. field. intros ->. apply Z, Rabs_R0.
      + rewrite Rabs_left by lra. rewrite sin_neg. field. lra. }
  destruct (direction (vscale h (x, y, z))) as [[d e] f]. cbn [fst snd].
  unfold vscale in D. injection D as D1 D2 D3.
  assert (C : cos (Rabs h) = cos h).
  { unfold Rabs. destruct (Rcase_abs h); [apply cos_neg|reflexivity]. }
  rewrite C. unfold qscale, cis, mkq, vscale. cbn. do 2 f_equal.
  f_equal; [ring| | |].
  - rewrite <- D1. ring.
  - rewrite <- D2. ring.
  - rewrite <- D3. ring.
Qed.

Lemma quat_log_ok bc q :
  qnorm q <> 0 ->
  quat_log bc q = Ok (0%Z, mkq (ln (qnorm q))
    (vscale (acos (re q / qnorm q)) (direction (im q)))).
Proof.
  intros Hq. assert (P : 0 < qnorm q) by (pose proof (qnorm_nonneg q); lra).
  unfold quat_log. rewrite vec3_unit. cbn [bind]. rewrite quat_magn_ok. cbn [bind]. rops.
  rewrite Rdivo_ok by lra. cbn [bind].
  destruct (polar_any q Hq) as (n & h & Hn & Hh & E & En & Eh).
  assert (B : -1 <= qr q / qnorm q <= 1).
  { assert (X : qr q = qnorm q * cos h).
    { rewrite E at 1. destruct n as [[x y] z]. reflexivity. }
    rewrite X. replace (qnorm q * cos h / qnorm q) with (cos h) by (field; lra). apply COS_bound. }
  unfold Racos. destruct (Rle_dec (-1) (qr q / qnorm q)); [|lra].
  destruct (Rle_dec (qr q / qnorm q) 1); [|lra]. cbn [bind].
  rewrite Rlog_ok by exact P. cbn [bind vbuf vec3 rd nth_error cells map].
  unfold im, re. destruct (direction _) as [[x y] z]. cbn [fst snd]. unfold mkq, vscale.
  do 2 f_equal. f_equal; ring.
Qed.

Lemma quat_pow_ok bc q e n h :
  qnorm q <> 0 -> vdot n n = 1 -> n = direction (im q) -> h = acos (re q / qnorm q) ->
  quat_pow bc q e = Ok (0%Z, qscale (Rpower (qnorm q) e) (cis n (e * h))).
Proof.
  intros Hq Hn -> ->. unfold quat_pow. rewrite quat_log_ok by exact Hq. cbn [bind].
  rewrite quat_scale_ok. cbn [bind].
  assert (E : forall r s v, qscale e (mkq r (vscale s v)) = mkq (e * r) (vscale (e * s) v))
    by (intros r s [[x y] z]; unfold qscale, mkq, vscale; cbn; f_equal; ring).
  rewrite E, quat_exp_ok by exact Hn. reflexivity.
Qed.

(** ** Angular velocity *)
Lemma from_ang_vel_ok bc x y z tl q t :
  bc = false \/ 0 <= t -> / 1000000 <= qnorm q ->
  quat_from_ang_vel bc (vec_of [x; y; z] tl) q t
  = Ok (0%Z, Some (unitised (qplus (unitised q)
                     (qscale (t / 2) (hprod (Quat 0 x y z) (unitised q)))))).
Proof.
  intros Ht Hq. unfold quat_from_ang_vel. rops.
  change (vsz (vec_of [x; y; z] tl)) with 3%nat. cbn [Nat.eqb negb orb].
  assert (G : bc && Rltb t 0 = false).
  { destruct bc; [|reflexivity]. destruct Ht as [Ht|Ht]; [discriminate|]. now apply Rltb_false. }
  rewrite G. change (vbuf (vec_of [x; y; z] tl)) with (cells [x; y; z] ++ tl).
  cbn [rd nth_error cells map app bind]. rewrite quat_to_unit_ok. cbn [bind].
  rewrite quat_mult_ok. cbn [bind]. unfold quat_scale_d_st.
  erewrite quat_scale_st_ok by (cbn; first [reflexivity|lia]). cbn [bind upd qget nth_error].
  rewrite quat_to_unit_ok. cbn [bind]. replace (5 / 10 * t) with (t / 2) by field. reflexivity.
Qed.

Lemma ang_vel_norm u x y z s :
  unit_quat u ->
  qdot (qplus u (qscale s (hprod (Quat 0 x y z) u))) (qplus u (qscale s (hprod (Quat 0 x y z) u)))
  = 1 + s * s * (x * x + y * y + z * z).
Proof.
  intros U. destruct u as [a b c d]. unfold unit_quat, qdot in U. cbn in U.
  assert (E : a * a = 1 - (b * b + c * c + d * d)) by lra.
  unfold qdot, qplus, qscale, hprod. cbn. ring [E].
Qed.
