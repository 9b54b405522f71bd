(** Proofs about the complementary filter, SAAM, AQUA and the Kalman filter. *)
From Coq Require Import List Arith ZArith Bool Reals Lra Lia Nsatz.
From Verif Require Import Base BaseFacts NumR Libm LibmR RTac RAtan2 Out MVec SpecVec SpecReal PVec PVecR
  MMtx SpecMtx PMtx PMtxOps MDecomp MStat MQuat SpecQuat PQuat PQuatRot PQuatTrig PQuatEul MAhrs MFusion
  SpecFusion PFusion.
Import ListNotations.
Local Open Scope R_scope.
Implicit Types (p q u d : quat R) (v w a m : v3).

Lemma unit_norm_big q : unit_quat q -> / 1000000 <= qnorm q.
Proof. intros H. rewrite (qnorm_unit q H). lra. Qed.
Lemma qnormalise_of_unit q : unit_quat q -> qnormalise q = q.
Proof. intros H. unfold qnormalise. rewrite (qnorm_unit q H), Rinv_1. apply qscale_1. Qed.
Lemma spin_normalise t w q : qnorm q <> 0 -> spin t w (qnormalise q) = spin t w q.
Proof.
  intros H. unfold spin. now rewrite (qnormalise_of_unit (qnormalise q)) by now apply qnormalise_unit.
Qed.
Lemma qnorm_zero : qnorm qzero = 0.
Proof. unfold qnorm, qdot, qzero, mkq, re, im, vdot. cbn.
  replace (_ + _) with 0 by ring. apply sqrt_0. Qed.
Lemma unitised_idem q : unitised (unitised q) = unitised q.
Proof.
  destruct (Rlt_dec (qnorm q) (/ 1000000)) as [L|L].
  - rewrite (unitised_small q) by exact L. apply unitised_small. rewrite qnorm_zero. lra.
  - apply unitised_of_unit, unitised_unit. lra.
Qed.

(** ** Complementary filter *)
Lemma copy_hold v tl : vec_copy (Vec 3 (fresh 3)) (hold v tl) = Ok (0%Z, hold v []).
Proof. unfold hold. rewrite vec_copy_ok by (cbn; lia). reflexivity. Qed.

Lemma att_from_accel_total bc v tl (a0 : att R) :
  vlen v <> 0 -> exists t, att_from_accel bc (hold v tl) a0 = Ok (0%Z, t).
Proof.
  intros H. unfold att_from_accel. change (vsz (hold v tl)) with 3%nat. cbn [Nat.eqb negb].
  rewrite andb_false_r, copy_hold. cbn [bind]. rewrite unit_hold by exact H. cbn [bind].
  destruct (vnormalise v) as [[x y] z]. unfold hold.
  cbn [vec_of vbuf cells map app rd nth_error bind coord]. rops.
  rewrite Rsqrto_ok by nra. cbn [bind]. eauto.
Qed.
Lemma att_from_accelmag_total bc v m tv tm (a0 : att R) :
  vlen v <> 0 -> vlen m <> 0 ->
  exists t, att_from_accelmag bc (hold v tv) (hold m tm) a0 = Ok (0%Z, t).
Proof.
  intros Hv Hm. unfold att_from_accelmag. change (vsz (hold v tv)) with 3%nat.
  change (vsz (hold m tm)) with 3%nat. cbn [Nat.eqb negb orb].
  rewrite andb_false_r, copy_hold. cbn [bind]. rewrite unit_hold by exact Hm. cbn [bind].
  destruct (att_from_accel_total bc v tv a0 Hv) as [t ->]. cbn [bind].
  destruct (vnormalise m) as [[x y] z]. unfold hold.
  cbn [vec_of vbuf cells map app rd nth_error bind coord]. eauto.
Qed.

Definition d2r : R := 1745329252 / 100000000000.
Definition mix (t : R) p q : quat R := qplus (qscale (1 - t) p) (qscale t q).

Lemma fus_comp_ok bc freq al (a m : option v3) w q ta tm tg :
  (0 < freq)%Z -> / 1000000 <= qnorm q -> 0 <= al <= 1 ->
  exists q', fus_comp bc freq al (Sens (hold_opt a ta) (hold_opt m tm) (Some (hold w tg)) q)
  = Ok (0%Z, Sens (hold_opt a ta) (hold_opt m tm) (Some (hold w tg)) q') /\
  match usable a, usable m with
  | Some va, Some vm =>
      exists t, att_from_accelmag bc (hold va ta) (hold vm tm) (Att 0 0 0 0%Z) = Ok (0%Z, t) /\
      q' = unitised (mix al (spin (/ IZR freq) w q) (eul (roll t * d2r) (pitch t * d2r) (yaw t * d2r)))
  | _, _ => q' = spin (/ IZR freq) w q
  end.
Proof.
  intros Hf Hq Hal. unfold fus_comp. cbn [sg sa sm sq deref bind].
  rewrite !bad3_hold. change (vsz (hold w tg)) with 3%nat. cbn [Nat.eqb negb orb]. rops.
  rewrite Rltb_false by lra. rewrite Rltb_false by lra. cbn [orb]. rewrite andb_false_r.
  rewrite quat_magn_ok. cbn [bind]. rewrite magn_small by exact Hq.
  rewrite quat_to_unit_ok. cbn [bind]. rewrite unitised_normalise by exact Hq.
  set (u := qnormalise q). assert (Hu : unit_quat u) by (apply qnormalise_unit; lra).
  rewrite period_ok by exact Hf. cbn [bind]. assert (Pf : 0 < IZR freq) by now apply IZR_lt.
  assert (Hav : quat_from_ang_vel bc (hold w tg) u (/ IZR freq) = Ok (0%Z, Some (spin (/ IZR freq) w q))).
  { unfold hold. rewrite from_ang_vel_ok; [|right; left; now apply Rinv_0_lt_compat|now apply unit_norm_big].
    do 3 f_equal. rewrite (unitised_of_unit u Hu).
    replace (Quat 0 (coord 0 w) (coord 1 w) (coord 2 w)) with (pure w) by now destruct w as [[x y] z].
    unfold u at 1 2. apply unitised_normalise. pose proof (spin_inner (/ IZR freq) w q ltac:(lra)). lra. }
  rewrite Hav. cbn [bind local]. set (s := spin (/ IZR freq) w q).
  assert (Hs : unit_quat s) by (apply spin_unit; lra).
  rewrite valid_ok. cbn [bind]. destruct (usable m) as [vm|] eqn:Um.
  - cbn [hold_opt]. rewrite valid_ok. cbn [bind]. destruct (usable a) as [va|] eqn:Ua.
    + cbn [hold_opt]. destruct (usable_len _ _ Um) as [-> Lm]. destruct (usable_len _ _ Ua) as [-> La].
      destruct (att_from_accelmag_total bc va vm ta tm (Att 0 0 0 0%Z)) as [t Et]; [lra|lra|].
      change (Att f0 f0 f0 0%Z) with (Att 0 0 0 0%Z). rewrite Et. cbn [bind].
      unfold att_to_euler, DEG_TO_RAD. rewrite from_euler_ok. cbn [ex ey ez]. rops.
      fold d2r. rewrite quat_lerp_ok by auto. cbn [bind]. rewrite quat_to_unit_ok. cbn [bind].
      eexists. split; [reflexivity|]. exists t. split; [reflexivity|].
      rewrite unitised_idem, (unitised_of_unit s Hs), (unitised_of_unit _ (eul_unit _ _ _)). reflexivity.
    + cbn [hold_opt]. rewrite quat_to_unit_ok. cbn [bind]. rewrite (unitised_of_unit s Hs).
      eexists; split; reflexivity.
  - cbn [hold_opt bind]. rewrite quat_to_unit_ok. cbn [bind]. rewrite (unitised_of_unit s Hs).
    exists s. split; [reflexivity|]. destruct (usable a); reflexivity.
Qed.

Lemma mix_norm al p q :
  0 <= al <= 1 -> unit_quat p -> unit_quat q -> Rabs (1 - 2 * al) <= qnorm (mix al p q).
Proof.
  intros Ha Hp Hq. unfold qnorm.
  assert (E : qdot (mix al p q) (mix al p q) = (1 - al) * (1 - al) * qdot p p + al * al * qdot q q
                + 2 * (al * (1 - al)) * qdot p q).
  { destruct p as [a0 b0 c0 d0], q as [a1 b1 c1 d1].
    unfold mix, qdot, qplus, qscale, mkq, re, im, vdot, vadd, vscale. cbn. ring. }
  rewrite E. unfold unit_quat in Hp, Hq. pose proof (qdot_unit_bounds p q Hp Hq) as B.
  rewrite Hp, Hq. rewrite <- sqrt_Rsqr_abs. apply sqrt_le_1_alt. unfold Rsqr. 
  assert (0 <= al * (1 - al)) by nra. nra.
Qed.

(** ** SAAM *)
Definition saam_q (a m : v3) : quat R :=
  let bz := vdot a m in let bx := sqrt (1 - bz * bz) in
  match a, m with (a0, a1, a2), (m0, m1, m2) =>
    Quat (- a1 * (bx + m0) + a0 * m1) ((a2 - 1) * (bx + m0) + a0 * (bz - m2))
         ((a2 - 1) * m1 + a1 * (bz - m2)) (a2 * bz - a0 * bx - m2)
  end.

Lemma vnormalise_unit v : vlen v <> 0 -> vdot (vnormalise v) (vnormalise v) = 1.
Proof. exact (vunit v). Qed.
Lemma vdot_unit_bound a m : vdot a a = 1 -> vdot m m = 1 -> vdot a m * vdot a m <= 1.
Proof.
  destruct a as [[a0 a1] a2], m as [[m0 m1] m2]. unfold vdot. intros A M.
  pose proof (Rle_0_sqr (a0 * m1 - a1 * m0)). pose proof (Rle_0_sqr (a0 * m2 - a2 * m0)).
  pose proof (Rle_0_sqr (a1 * m2 - a2 * m1)). unfold Rsqr in *.
  assert (E : (a0 * a0 + a1 * a1 + a2 * a2) * (m0 * m0 + m1 * m1 + m2 * m2) = 1) by (rewrite A, M; ring).
  nra.
Qed.

Lemma dot_hold bc (u v : v3) tu tv :
  vec_dot bc (hold u tu) (hold v tv) = Ok (0%Z, Some (vdot u v)).
Proof.
  unfold hold. rewrite vec_dot_R by reflexivity. destruct u as [[x y] z], v as [[x' y'] z'].
  unfold rdot, vdot, coord. do 3 f_equal. ring.
Qed.

Lemma fus_saam_ok bc a m ta tm g q :
  / 1000000 <= vlen a -> / 1000000 <= vlen m ->
  fus_saam bc (Sens (Some (hold a ta)) (Some (hold m tm)) g q)
  = Ok (0%Z, Sens (Some (hold (vnormalise a) ta)) (Some (hold (vnormalise m) tm)) g
               (unitised (saam_q (vnormalise a) (vnormalise m)))).
Proof.
  intros Ha Hm. unfold fus_saam. cbn [sa sm sg deref bind].
  change (vsz (hold a ta)) with 3%nat. change (vsz (hold m tm)) with 3%nat. cbn [Nat.eqb negb].
  assert (Pa : present (Some a) = Some a) by (cbn; destruct (Rlt_dec (vlen a) (/ 1000000)); [lra|reflexivity]).
  assert (Pm : present (Some m) = Some m) by (cbn; destruct (Rlt_dec (vlen m) (/ 1000000)); [lra|reflexivity]).
  pose proof (missing_ok bc (Some a) ta) as Ea. pose proof (missing_ok bc (Some m) tm) as Em.
  rewrite Pa in Ea. rewrite Pm in Em. cbn [hold_opt] in Ea, Em.
  destruct bc; cbn [bind]; rewrite Em; cbn [bind]; rewrite Ea; cbn [bind];
  (rewrite unit_hold by lra; cbn [bind]; rewrite unit_hold by lra; cbn [bind];
   rewrite dot_hold; cbn [bind local]; rops;
   replace (10 / 10) with 1 by field;
   pose proof (vdot_unit_bound _ _ (vnormalise_unit a ltac:(lra)) (vnormalise_unit m ltac:(lra))) as B;
   rewrite Rsqrto_ok by lra; cbn [bind]; rewrite !rd3_hold;
   unfold saam_q;
   destruct (vnormalise a) as [[a0 a1] a2], (vnormalise m) as [[m0 m1] m2]; cbn [bind];
   rewrite quat_to_unit_ok; reflexivity).
Qed.

Lemma saam_align_a a m :
  vdot a a = 1 -> vdot m m = 1 ->
  hprod (qconj (saam_q a m)) (pure (0, 0, 1)) = hprod (pure a) (qconj (saam_q a m)).
Proof.
  intros A M. pose proof (vdot_unit_bound a m A M) as B. unfold saam_q.
  set (bz := vdot a m) in *. set (bx := sqrt (1 - bz * bz)).
  assert (X : bx * bx = 1 - bz * bz) by (apply sqrt_sqrt; lra). clearbody bx.
  assert (Z : bz = vdot a m) by reflexivity. clearbody bz. clear B.
  destruct a as [[a0 a1] a2], m as [[m0 m1] m2]. unfold vdot in *.
  unfold hprod, qconj, pure, mkq, re, im, vdot, vscale, vadd, vcross. cbn [qr qi qj qk].
  f_equal; nsatz.
Qed.
Lemma saam_align_m a m :
  vdot a a = 1 -> vdot m m = 1 ->
  let bz := vdot a m in let bx := sqrt (1 - bz * bz) in
  hprod (qconj (saam_q a m)) (pure (bx, 0, bz)) = hprod (pure m) (qconj (saam_q a m)).
Proof.
  intros A M. cbv zeta. pose proof (vdot_unit_bound a m A M) as B. unfold saam_q.
  set (bz := vdot a m) in *. set (bx := sqrt (1 - bz * bz)).
  assert (X : bx * bx = 1 - bz * bz) by (apply sqrt_sqrt; lra). clearbody bx.
  assert (Z : bz = vdot a m) by reflexivity. clearbody bz. clear B.
  destruct a as [[a0 a1] a2], m as [[m0 m1] m2]. unfold vdot in *.
  unfold hprod, qconj, pure, mkq, re, im, vdot, vscale, vadd, vcross. cbn [qr qi qj qk].
  f_equal; nsatz.
Qed.

(** from q v = w q to the rotation *)
Lemma rotate_of_intertwine q v w :
  qnorm q <> 0 -> hprod q (pure v) = hprod (pure w) q -> rotate (qnormalise q) v = w.
Proof.
  intros Hq E. pose proof (qnormalise_unit q Hq) as U.
  assert (P : pure (rotate (qnormalise q) v) = pure w).
  { unfold pure at 1. rewrite <- (rot_hprod _ v 0 U). fold (pure v). unfold qnormalise at 1.
    rewrite hprod_scale_l, E. rewrite <- hprod_scale_r. fold (qnormalise q).
    rewrite hprod_assoc, hprod_conj. unfold unit_quat in U. rewrite U, qscale_1. apply hprod_1_r. }
  destruct (rotate (qnormalise q) v) as [[x y] z], w as [[x' y'] z']. unfold pure, mkq in P.
  now injection P as -> -> ->.
Qed.

Lemma qnorm_conj q : qnorm (qconj q) = qnorm q.
Proof.
  unfold qnorm. f_equal. unfold qdot, qconj, mkq, re, im, vdot, vscale. cbn. ring.
Qed.
Lemma qconj_normalise q : qnormalise (qconj q) = qconj (qnormalise q).
Proof.
  unfold qnormalise. rewrite qnorm_conj. destruct q as [r i j k].
  unfold qconj, qscale, mkq, re, im, vscale. cbn. f_equal; ring.
Qed.
Lemma rotate_conj_inv q v w : unit_quat q -> rotate (qconj q) v = w -> rotate q w = v.
Proof.
  intros U <-. rewrite <- rotate_hprod by (try apply qconj_unit; exact U).
  rewrite hprod_conj. unfold unit_quat in U. rewrite U, qscale_1.
  destruct v as [[x y] z]. unfold rotate, qone, mkq, re, im, vadd, vscale, vcross. cbn. 
  f_equal; [f_equal|]; ring.
Qed.

(** ** AQUA *)
(** d is on the way from the identity to D, a fraction t of it *)
Definition toward (t : R) (D d : quat R) : Prop :=
  unit_quat d /\ (exists x y, 0 <= x /\ 0 <= y /\ d = qplus (qscale x qone) (qscale y D)) /\
  (t = 0 -> d = qone) /\ (t = 1 -> d = D).

Lemma identity_one : @quat_identity R _ = qone.
Proof. unfold quat_identity, qone, mkq. rops. f_equal; lra. Qed.
Lemma qone_unit : unit_quat qone.
Proof. unfold unit_quat, qdot, qone, mkq, re, im, vdot. cbn. ring. Qed.
Lemma qdot_one q : qdot qone q = qr q.
Proof. destruct q. unfold qdot, qone, mkq, re, im, vdot. cbn. ring. Qed.
Lemma qplus_1_0 (D : quat R) : qplus (qscale 1 qone) (qscale 0 D) = qone.
Proof. destruct D. unfold qplus, qscale, qone, mkq, re, im, vadd, vscale. cbn. f_equal; ring. Qed.
Lemma qplus_0_1 (D : quat R) : qplus (qscale 0 qone) (qscale 1 D) = D.
Proof. destruct D. unfold qplus, qscale, qone, mkq, re, im, vadd, vscale. cbn. f_equal; ring. Qed.
Lemma qscale_qplus s p q : qscale s (qplus p q) = qplus (qscale s p) (qscale s q).
Proof. destruct p, q. unfold qplus, qscale, mkq, re, im, vadd, vscale. cbn. f_equal; ring. Qed.

Lemma scale_down_ok bc (D : quat R) (e t : R) :
  unit_quat D -> 0 <= qr D -> 0 <= t <= 1 ->
  exists d, scale_down bc D e t = Ok d /\ toward t D d.
Proof.
  intros U P Ht. unfold scale_down. rewrite identity_one. rops.
  destruct (Rltb e (qr D)).
  - rewrite quat_lerp_ok by auto. cbn [bind local]. eexists; split; [reflexivity|].
    rewrite (unitised_of_unit _ qone_unit), (unitised_of_unit _ U).
    set (z := qplus _ _).
    assert (N : / 1000000 <= qnorm z).
    { apply Rle_trans with (sqrt (1 / 4)).
      - rewrite <- (sqrt_Rsqr (/ 1000000)) by lra. apply sqrt_le_1_alt. unfold Rsqr. lra.
      - apply sqrt_le_1_alt.
        assert (E : qdot z z = (1 - t) * (1 - t) * qdot qone qone + t * t * qdot D D
                               + 2 * (t * (1 - t)) * qdot qone D).
        { unfold z. destruct D. unfold qdot, qplus, qscale, qone, mkq, re, im, vdot, vadd, vscale.
          cbn. ring. }
        rewrite E, (qdot_one D). rewrite U, qone_unit.
        assert (0 <= t * (1 - t) * qr D) by (apply Rmult_le_pos; nra). nra. }
    split; [now apply unitised_unit|]. split; [|split].
    + rewrite unitised_big by exact N. exists (/ qnorm z * (1 - t)), (/ qnorm z * t).
      assert (0 < / qnorm z) by (apply Rinv_0_lt_compat; lra).
      split; [nra|]. split; [nra|]. unfold z. now rewrite qscale_qplus, !qscale_qscale.
    + intros ->. unfold z. rewrite Rminus_0_r, qplus_1_0. apply unitised_of_unit, qone_unit.
    + intros ->. unfold z. rewrite Rminus_diag_eq by reflexivity. rewrite qplus_0_1. now apply unitised_of_unit.
  - destruct (Req_EM_T t 0) as [->|T0].
    { unfold quat_slerp. rewrite !quat_to_unit_ok. cbn [bind]. rops.
      replace (10 / 10) with 1 by field. rewrite (Rltb_false 0 0), (Rltb_false 1 0) by lra.
      cbn [orb]. rewrite andb_false_r. rewrite (Reqb_true 0 0) by reflexivity. cbn [bind local].
      eexists; split; [reflexivity|]. rewrite (unitised_of_unit _ qone_unit).
      split; [apply qone_unit|]. split; [|split; [reflexivity|lra]].
      exists 1, 0. rewrite qplus_1_0. repeat split; lra. }
    destruct (Req_EM_T t 1) as [->|T1].
    { unfold quat_slerp. rewrite !quat_to_unit_ok. cbn [bind]. rops.
      replace (10 / 10) with 1 by field. rewrite (Rltb_false 1 0), (Rltb_false 1 1) by lra.
      cbn [orb]. rewrite andb_false_r. rewrite (Reqb_false 1 0) by lra.
      rewrite (Reqb_true 1 1) by reflexivity. cbn [bind local].
      eexists; split; [reflexivity|]. rewrite (unitised_of_unit _ U).
      split; [exact U|]. split; [|split; [lra|reflexivity]].
      exists 0, 1. rewrite qplus_0_1. repeat split; lra. }
    assert (B : qr D <= 1) by (pose proof (qdot_unit_bounds qone D qone_unit U) as B; rewrite qdot_one in B; lra).
    destruct (Rlt_dec (Rabs (qr D - 1)) (/ 1000000)) as [S|S].
    { unfold quat_slerp. rewrite !quat_to_unit_ok. cbn [bind]. rops.
      rewrite (unitised_of_unit _ qone_unit), (unitised_of_unit _ U).
      replace (10 / 10) with 1 by field. replace (1 / 1000000) with (/ 1000000) by field.
      rewrite (Rltb_false t 0), (Rltb_false 1 t) by lra.
      cbn [orb]. rewrite andb_false_r. rewrite (Reqb_false t 0), (Reqb_false t 1) by lra.
      match goal with |- context [Rltb (Rabs (?x - 1)) _] => replace x with (qr D) by (cbn; ring) end.
      rewrite Rltb_true by exact S. cbn [bind local].
      eexists; split; [reflexivity|]. 
      split; [apply qone_unit|]. split; [|split; [reflexivity|lra]].
      exists 1, 0. rewrite qplus_1_0. repeat split; lra. }
    rewrite quat_slerp_ok; rewrite ?(unitised_of_unit _ qone_unit), ?(unitised_of_unit _ U), ?qdot_one;
      try lra; [|rewrite Rabs_pos_eq by lra; lra].
    cbn [bind local]. eexists; split; [reflexivity|].
    assert (L : qr D < 1) by (destruct (Req_EM_T (qr D) 1) as [E|E]; [rewrite E in S; rewrite Rminus_diag_eq, Rabs_R0 in S by reflexivity; lra|lra]).
    pose proof (slerp_value qone D t qone_unit U) as V. rewrite qdot_one in V.
    specialize (V ltac:(lra)). destruct V as (V & _ & _).
    split; [exact V|]. split; [|split; lra].
    set (phi := acos (qr D)).
    assert (Hphi : 0 <= phi <= PI) by apply acos_bound.
    assert (Hs : 0 < sin phi).
    { unfold phi. rewrite sin_acos by lra. apply sqrt_lt_R0. unfold Rsqr. nra. }
    exists (sin (phi * (1 - t)) / sin phi), (sin (phi * t) / sin phi).
    split; [|split; [|reflexivity]];
      (apply Rmult_le_pos; [apply sin_ge_0; nra|left; now apply Rinv_0_lt_compat]).
Qed.

(** the rotation that turns the vertical into g, about a horizontal axis *)
Definition tilt (g : v3) : quat R :=
  match g with (x, y, z) =>
    Quat (sqrt ((z + 1) / 2)) (- y / sqrt (2 * (z + 1))) (x / sqrt (2 * (z + 1))) 0
  end.
(** the rotation about the vertical that turns the horizontal part of l from
    the north into that of l *)
Definition turn (l : v3) : quat R :=
  match l with (x, y, z) =>
    let h := sqrt (x * x + y * y) in
    Quat (sqrt ((h * h + x * h) / (2 * h * h))) 0 0 (y / sqrt (2 * (h * h + x * h)))
  end.

Lemma tilt_facts g :
  vdot g g = 1 -> coord 2 g <> -1 ->
  unit_quat (tilt g) /\ 0 < qr (tilt g) /\ rotate (tilt g) (0, 0, 1) = g.
Proof.
  destruct g as [[x y] z]. cbn [coord]. intros G H. unfold vdot in G.
  assert (Z : 0 < z + 1) by nra.
  set (r := sqrt ((z + 1) / 2)).
  assert (R2 : r * r = (z + 1) / 2) by (apply sqrt_sqrt; lra).
  assert (R0 : 0 < r) by (apply sqrt_lt_R0; lra).
  assert (S : sqrt (2 * (z + 1)) = 2 * r).
  { replace (2 * (z + 1)) with ((2 * r) * (2 * r)) by (replace ((2 * r) * (2 * r)) with (4 * (r * r)) by ring; rewrite R2; field).
    apply sqrt_square. lra. }
  unfold tilt. fold r. rewrite S.
  assert (I : / (2 * r) * (2 * r) = 1) by (apply Rinv_l; lra).
  unfold Rdiv. set (c := / (2 * r)) in *.
  assert (Hz : z = 2 * (r * r) - 1) by lra.
  unfold unit_quat, qdot, rotate, re, im, vdot, vadd, vscale, vcross. cbn [qr qi qj qk].
  split; [|split; [exact R0|]].
  - clear S R0 H Z R2. clearbody c r. nsatz.
  - clear S R0 H Z R2. clearbody c r. f_equal; [f_equal|]; nsatz.
Qed.
Lemma turn_facts l :
  let '(x, y, z) := l in let h := sqrt (x * x + y * y) in
  0 < h -> 0 < h + x ->
  unit_quat (turn l) /\ 0 < qr (turn l) /\ rotate (turn l) (h, 0, z) = l.
Proof.
  destruct l as [[x y] z]. cbv zeta. set (h := sqrt (x * x + y * y)). intros H P.
  assert (H2 : h * h = x * x + y * y) by (apply sqrt_sqrt; nra).
  unfold turn. fold h. set (r := sqrt ((h * h + x * h) / (2 * h * h))).
  assert (A : 0 < (h * h + x * h) / (2 * h * h)).
  { apply Rdiv_lt_0_compat; [nra|]. assert (0 < h * h) by nra. lra. }
  assert (R2 : r * r = (h * h + x * h) / (2 * h * h)) by (apply sqrt_sqrt; lra).
  assert (R0 : 0 < r) by (apply sqrt_lt_R0; exact A).
  assert (S : sqrt (2 * (h * h + x * h)) = 2 * h * r).
  { replace (2 * (h * h + x * h)) with ((2 * h * r) * (2 * h * r)).
    - apply sqrt_square. assert (0 < h * r) by nra. lra.
    - replace ((2 * h * r) * (2 * h * r)) with (4 * h * h * (r * r)) by ring. rewrite R2. field. lra. }
  rewrite S.
  assert (I : / (2 * h * r) * (2 * h * r) = 1) by (apply Rinv_l; assert (0 < h * r) by nra; lra).
  unfold Rdiv in *. set (c := / (2 * h * r)) in *.
  assert (R3 : 2 * h * (r * r) = h + x).
  { rewrite R2. field. lra. }
  assert (K : / h * h = 1) by (apply Rinv_l; lra). set (b := / h) in *.
  unfold unit_quat, qdot, rotate, re, im, vdot, vadd, vscale, vcross. cbn [qr qi qj qk].
  split; [|split; [exact R0|]].
  - clear S R0 H A R2 P. clearbody b c r h. nsatz.
  - clear S R0 H A R2 P. clearbody b c r h. f_equal; [f_equal|]; nsatz.
Qed.

Lemma neg_hold w tl : vec_scalar_mult (hold w tl) (-1) = Ok (0%Z, hold (vscale (-1) w) tl).
Proof.
  unfold hold. rewrite vec_scalar_mult_ok. destruct w as [[x y] z]. cbn [map coord vscale]. rops.
  do 3 f_equal. f_equal; [ring|f_equal; [ring|f_equal; ring]].
Qed.

Definition aqua_acc (t e : R) bc (s : quat R) (va : v3) (q1 : quat R) : Prop :=
  exists d, scale_down bc (tilt (rotate (qconj s) (vnormalise va))) e t = Ok d /\
            toward t (tilt (rotate (qconj s) (vnormalise va))) d /\ q1 = hprod s d.
Definition aqua_mag (t e : R) bc (s : quat R) (vm : v3) (q1 : quat R) : Prop :=
  exists d, scale_down bc (turn (rotate (qconj s) (vnormalise vm))) e t = Ok d /\
            toward t (turn (rotate (qconj s) (vnormalise vm))) d /\ q1 = hprod s d.

Lemma rotate_unit_len q v : unit_quat q -> vlen v <> 0 ->
  vdot (rotate q (vnormalise v)) (rotate q (vnormalise v)) = 1.
Proof. intros U H. rewrite rotate_len by exact U. now apply vnormalise_unit. Qed.

(** where the field can be corrected: it has a horizontal part, which does not
    point exactly south *)
Definition steerable (l : v3) : Prop :=
  let '(x, y, _) := l in y <> 0 \/ 0 < x.
Lemma steerable_pos x y z : steerable (x, y, z) <->
  0 < sqrt (x * x + y * y) /\ 0 < sqrt (x * x + y * y) + x.
Proof.
  assert (N : 0 <= x * x + y * y) by nra.
  pose proof (sqrt_pos (x * x + y * y)) as P.
  pose proof (sqrt_sqrt _ N) as Q. set (h := sqrt (x * x + y * y)) in *. unfold steerable. split.
  - intros [H|H].
    + assert (0 < y * y) by nra. split; nra.
    + split; nra.
  - intros [H1 H2]. destruct (Req_EM_T y 0) as [->|E]; [right|now left]. nra.
Qed.

Lemma fus_aqua_ok bc freq c (a m : option v3) w q ta tm tg :
  (0 < freq)%Z -> / 1000000 <= qnorm q -> 0 <= alpha c <= 1 -> 0 <= MFusion.beta c <= 1 ->
  let s := spin (/ IZR freq) (vscale (-1) w) q in
  match usable a with
  | None => fus_aqua bc freq c (Sens (hold_opt a ta) (hold_opt m tm) (Some (hold w tg)) q)
            = Ok (0%Z, Sens (hold_opt a ta) (hold_opt m tm) (Some (hold (vscale (-1) w) tg)) s)
  | Some va =>
      (coord 2 (rotate (qconj s) (vnormalise va)) = -1 ->
         fus_aqua bc freq c (Sens (hold_opt a ta) (hold_opt m tm) (Some (hold w tg)) q) = NotReal) /\
      (coord 2 (rotate (qconj s) (vnormalise va)) <> -1 ->
       exists q1, aqua_acc (alpha c) (e_a c) bc s va q1 /\ unit_quat q1 /\
       match usable m with
       | None => fus_aqua bc freq c (Sens (hold_opt a ta) (hold_opt m tm) (Some (hold w tg)) q)
            = Ok (0%Z, Sens (Some (hold (vnormalise va) ta)) (hold_opt m tm)
                          (Some (hold (vscale (-1) w) tg)) q1)
       | Some vm =>
           (~ steerable (rotate (qconj q1) (vnormalise vm)) ->
            fus_aqua bc freq c (Sens (hold_opt a ta) (hold_opt m tm) (Some (hold w tg)) q) = NotReal) /\
           (steerable (rotate (qconj q1) (vnormalise vm)) ->
            exists q2, aqua_mag (MFusion.beta c) (e_m c) bc q1 vm q2 /\ unit_quat q2 /\
            fus_aqua bc freq c (Sens (hold_opt a ta) (hold_opt m tm) (Some (hold w tg)) q)
            = Ok (0%Z, Sens (Some (hold (vnormalise va) ta)) (Some (hold (vnormalise vm) tm))
                          (Some (hold (vscale (-1) w) tg)) q2))
       end)
  end.
Proof.
  intros Hf Hq Hal Hbe s. assert (Us : unit_quat s) by (apply spin_unit; lra).
  assert (E : fus_aqua bc freq c (Sens (hold_opt a ta) (hold_opt m tm) (Some (hold w tg)) q)
    = match usable a with
      | None => Ok (0%Z, Sens (hold_opt a ta) (hold_opt m tm) (Some (hold (vscale (-1) w) tg)) s)
      | Some va =>
          let '(gx, gy, gz) := rotate (qconj s) (vnormalise va) in
          let! i := fdiv (- gy) (sqrt (2 * (gz + 1))) in
          let! j := fdiv gx (sqrt (2 * (gz + 1))) in
          let! q_acc := scale_down bc (Quat (sqrt ((gz + 1) / 2)) i j 0) (e_a c) (alpha c) in
          let q := hprod s q_acc in
          match usable m with
          | None =>
              Ok (0%Z, Sens (Some (hold (vnormalise va) ta)) (hold_opt m tm)
                         (Some (hold (vscale (-1) w) tg)) (unitised q))
          | Some vm =>
              let! qi_ := quat_inv q in
              let! ql := rot_ bc qi_ (pure (vnormalise vm)) in
              let! y := fsqrt (qi ql * qi ql + qj ql * qj ql)%num in
              let! h := fdiv (y * y + qi ql * y)%num (flit 20 1 * y * y)%num in
              let! r := fsqrt h in
              let! den := fsqrt (flit 20 1 * (y * y + qi ql * y))%num in
              let! k := fdiv (qj ql) den in
              let! q_mag := scale_down bc (Quat r 0 0 k) (e_m c) (MFusion.beta c) in
              let! q := quat_mult q q_mag in
              let! q := quat_to_unit q in
              Ok (0%Z, Sens (Some (hold (vnormalise va) ta)) (Some (hold (vnormalise vm) tm))
                         (Some (hold (vscale (-1) w) tg)) q)
          end
      end).
  { unfold fus_aqua. cbn [sg sa sm sq deref bind].
    rewrite !bad3_hold. change (vsz (hold w tg)) with 3%nat. cbn [Nat.eqb negb orb]. 
    rewrite andb_false_r. rewrite quat_magn_ok. cbn [bind]. rops. rewrite magn_small by exact Hq.
    rewrite quat_to_unit_ok. cbn [bind]. rewrite unitised_normalise by exact Hq.
    assert (Hu : unit_quat (qnormalise q)) by (apply qnormalise_unit; lra).
    replace (- (10 / 10)) with (-1) by field. rewrite neg_hold. cbn [bind].
    rewrite period_ok by exact Hf. cbn [bind].
    rewrite ang_vel_ok; [|left; apply Rinv_0_lt_compat; now apply IZR_lt|now apply unit_norm_big].
    cbn [bind]. rewrite spin_normalise by lra. fold s.
    rewrite valid_ok. cbn [bind]. destruct (usable a) as [va|] eqn:Ua; cbn [hold_opt].
    2:{ rewrite quat_to_unit_ok. cbn [bind]. now rewrite unitised_of_unit. }
    destruct (usable_len _ _ Ua) as [-> La].
    rewrite unit_hold by lra. cbn [bind]. rewrite rd3_hold. cbn [bind].
    rewrite quat_inv_ok, inverted_unit by exact Us.
    destruct (vnormalise va) as [[x y] z] eqn:Eva. cbn [bind].
    change (Quat 0 x y z) with (pure (x, y, z)). rewrite rot_ok by now apply qconj_unit. cbn [bind].
    pose proof (rotate_unit_len (qconj s) va (qconj_unit _ Us) ltac:(lra)) as G. rewrite Eva in G.
    destruct (rotate (qconj s) (x, y, z)) as [[gx gy] gz] eqn:Eg.
    unfold pure, mkq. cbn [qi qj qk]. unfold vdot in G. assert (B : -1 <= gz <= 1) by nra.
    replace (10 / 10) with 1 by field. replace (20 / 10) with 2 by field.
    rewrite Rdivo_ok by lra. cbn [bind]. rewrite Rsqrto_ok by lra. cbn [bind].
    rewrite Rsqrto_ok by lra. cbn [bind].
    destruct (Rdivo (- gy) _); cbn [bind]; try reflexivity.
    destruct (Rdivo gx _); cbn [bind]; try reflexivity.
    destruct (scale_down _ _ _ _); cbn [bind]; try reflexivity.
    rewrite quat_mult_ok. cbn [bind]. rewrite valid_ok. cbn [bind].
    destruct (usable m) as [vm|] eqn:Um; cbn [hold_opt].
    2:{ rewrite quat_to_unit_ok. reflexivity. }
    destruct (usable_len _ _ Um) as [-> Lm].
    rewrite unit_hold by lra. cbn [bind]. rewrite rd3_hold.
    destruct (vnormalise vm) as [[mx my] mz]. cbn [bind]. reflexivity. }
  destruct (usable a) as [va|] eqn:Ua; [|exact E].
  destruct (usable_len _ _ Ua) as [-> La].
  pose proof (rotate_unit_len (qconj s) va (qconj_unit _ Us) ltac:(lra)) as G.
  destruct (rotate (qconj s) (vnormalise va)) as [[gx gy] gz] eqn:Eg. cbn [coord].
  pose proof G as G'. unfold vdot in G. assert (B : -1 <= gz <= 1) by nra.
  split.
  { intros ->. rewrite E. replace (2 * (-1 + 1)) with 0 by ring. rewrite sqrt_0. rops.
    rewrite Rdivo_0. reflexivity. }
  intros H. destruct (tilt_facts _ G' H) as (U1 & P1 & _).
  assert (S2 : 0 < sqrt (2 * (gz + 1))) by (apply sqrt_lt_R0; lra).
  rops. rewrite !Rdivo_ok in E by lra. cbn [bind] in E. fold (tilt (gx, gy, gz)) in E.
  change (Quat (sqrt ((gz + 1) / 2)) (- gy / sqrt (2 * (gz + 1))) (gx / sqrt (2 * (gz + 1))) 0)
    with (tilt (gx, gy, gz)) in E.
  destruct (scale_down_ok bc (tilt (gx, gy, gz)) (e_a c) (alpha c) U1 ltac:(lra) Hal) as (d & Ed & Td).
  rewrite Ed in E. cbn [bind] in E.
  assert (Uq1 : unit_quat (hprod s d)) by (apply hprod_unit; [exact Us|apply Td]).
  exists (hprod s d). split; [|split; [exact Uq1|]].
  { exists d. rewrite Eg. auto. }
  destruct (usable m) as [vm|] eqn:Um.
  2:{ rewrite E. now rewrite unitised_of_unit. }
  destruct (usable_len _ _ Um) as [-> Lm].
  set (q1 := hprod s d) in *.
  rewrite quat_inv_ok, inverted_unit in E by exact Uq1. cbn [bind] in E.
  rewrite rot_ok in E by now apply qconj_unit. cbn [bind] in E.
  unfold aqua_mag.
  destruct (rotate (qconj q1) (vnormalise vm)) as [[lx ly] lz] eqn:El.
  cbn [pure mkq qi qj qk] in E. revert E. rops. intros E.
  replace (20 / 10) with 2 in E by field.
  rewrite Rsqrto_ok in E by nra. cbn [bind] in E.
  pose proof (sqrt_pos (lx * lx + ly * ly)) as Hp.
  assert (HH : sqrt (lx * lx + ly * ly) * sqrt (lx * lx + ly * ly) = lx * lx + ly * ly) by (apply sqrt_sqrt; nra).
  pose proof (turn_facts (lx, ly, lz)) as TF. cbv zeta in TF. pose proof (steerable_pos lx ly lz) as SP.
  unfold turn in *.
  set (h := sqrt (lx * lx + ly * ly)) in *. split.
  - intros NS. rewrite E. destruct (Req_EM_T h 0) as [H0|H0].
    { rewrite H0. replace (2 * 0 * 0) with 0 by ring. now rewrite Rdivo_0. }
    assert (Hx : h + lx <= 0) by (destruct (Rlt_dec 0 (h + lx)); [exfalso; apply NS, SP; lra|lra]).
    assert (Hx2 : h + lx = 0) by nra.
    rewrite Rdivo_ok by nra. cbn [bind].
    replace (h * h + lx * h) with (h * (h + lx)) by ring. rewrite Hx2, Rmult_0_r.
    replace (0 / (2 * h * h)) with 0 by (field; exact H0).
    rewrite Rsqrto_ok by lra. cbn [bind]. rewrite Rsqrto_ok by lra. cbn [bind].
    rewrite Rmult_0_r, sqrt_0. now rewrite Rdivo_0.
  - intros St. destruct (proj1 SP St) as [H0 H1]. destruct (TF H0 H1) as (U2 & P2 & _). cbv zeta in U2, P2.
    rewrite Rdivo_ok in E by nra. cbn [bind] in E.
    assert (A : 0 < h * h + lx * h) by nra.
    rewrite Rsqrto_ok in E.
    2:{ left. apply Rdiv_lt_0_compat; [exact A|]. assert (0 < h * h) by nra. lra. }
    cbn [bind] in E. rewrite Rsqrto_ok in E by lra. cbn [bind] in E.
    assert (S3 : 0 < sqrt (2 * (h * h + lx * h))) by (apply sqrt_lt_R0; lra).
    rewrite Rdivo_ok in E by lra. cbn [bind] in E.
    destruct (scale_down_ok bc _ (e_m c) (MFusion.beta c) U2 ltac:(lra) Hbe) as (d2 & Ed2 & Td2).
    rewrite Ed2 in E. cbn [bind] in E. rewrite quat_mult_ok in E. cbn [bind] in E.
    rewrite quat_to_unit_ok in E. cbn [bind] in E.
    assert (Uq2 : unit_quat (hprod q1 d2)) by (apply hprod_unit; [exact Uq1|apply Td2]).
    rewrite unitised_of_unit in E by exact Uq2.
    exists (hprod q1 d2). split; [|split; [exact Uq2|exact E]]. exists d2. auto.
Qed.

Lemma toward_dot (D d : quat R) t :
  unit_quat D -> 0 <= qr D -> toward t D d -> qr D <= qdot d D.
Proof.
  intros U P (Ud & (x & y & X & Y & ->) & _). set (r := qr D) in *.
  assert (Q : qdot (qplus (qscale x qone) (qscale y D)) (qplus (qscale x qone) (qscale y D))
              = x * x + 2 * x * y * r + y * y * qdot D D).
  { unfold r. destruct D. unfold qdot, qplus, qscale, qone, mkq, re, im, vdot, vadd, vscale. cbn. ring. }
  assert (Q2 : qdot (qplus (qscale x qone) (qscale y D)) D = x * r + y * qdot D D).
  { unfold r. destruct D. unfold qdot, qplus, qscale, qone, mkq, re, im, vdot, vadd, vscale. cbn. ring. }
  unfold unit_quat in *. rewrite Q, U in Ud. rewrite Q2, U.
  assert (B : r <= 1) by (pose proof (qdot_unit_bounds qone D qone_unit U) as B; rewrite qdot_one in B; apply B).
  assert (X1 : x * x <= 1) by (assert (0 <= x * y * r) by (repeat apply Rmult_le_pos; assumption); nra).
  assert (S : (x * r + y) * (x * r + y) = 1 - x * x * (1 - r * r)) by nra.
  assert (0 <= x * r + y) by nra.
  assert (0 <= (1 - x * x) * (1 - r * r)) by (apply Rmult_le_pos; nra).
  rewrite Rmult_1_r. apply Rsqr_incr_0_var; [unfold Rsqr; nra|assumption].
Qed.

Lemma rotate_conj_hprod s d v : unit_quat s -> unit_quat d ->
  rotate (qconj (hprod s d)) v = rotate (qconj d) (rotate (qconj s) v).
Proof.
  intros Us Ud. rewrite qconj_hprod. apply rotate_hprod; now apply qconj_unit.
Qed.

(** what a correction by the accelerometer does to the misalignment *)
Lemma aqua_acc_effect t e bc s va q1 :
  unit_quat s -> vlen va <> 0 -> coord 2 (rotate (qconj s) (vnormalise va)) <> -1 ->
  aqua_acc t e bc s va q1 ->
  coord 2 (rotate (qconj s) (vnormalise va)) <= coord 2 (rotate (qconj q1) (vnormalise va)) /\
  (t = 0 -> q1 = s) /\ (t = 1 -> rotate (qconj q1) (vnormalise va) = (0, 0, 1)).
Proof.
  intros Us Hv Hg (d & _ & T & ->).
  pose proof (rotate_unit_len (qconj s) va (qconj_unit _ Us) Hv) as G.
  rewrite rotate_conj_hprod by (try exact Us; apply T).
  set (g := rotate (qconj s) (vnormalise va)) in *.
  destruct (tilt_facts g G Hg) as (UD & PD & RD).
  pose proof (toward_dot (tilt g) d t UD ltac:(lra) T) as TD.
  destruct T as (Ud & (x & y & X & Y & Ed) & T0 & T1). split; [|split].
  - rewrite <- RD at 2. rewrite <- rotate_hprod by (try apply qconj_unit; assumption).
    rewrite Ed in TD, Ud |- *.
    assert (K : qk (tilt g) = 0) by (destruct g as [[? ?] ?]; reflexivity).
    assert (Z : coord 2 g = 2 * (qr (tilt g) * qr (tilt g)) - 1).
    { rewrite <- RD at 1. destruct (tilt g) as [r i j k]. cbn in K. subst k. unfold unit_quat in UD.
      unfold qdot, rotate, mkq, re, im, vdot, vadd, vscale, vcross, coord in *. cbn in *. nra. }
    rewrite Z. destruct (tilt g) as [r i j k]. cbn in K. subst k. unfold unit_quat in UD, Ud.
    unfold qdot, qplus, qscale, qone, hprod, qconj, rotate, mkq, re, im, vdot, vadd, vscale, vcross, coord in *.
    cbn in *.
    match goal with |- _ <= ?w =>
      replace w with (2 * ((y * (r * r + (i * i + j * j)) + x * r) * (y * (r * r + (i * i + j * j)) + x * r)) - 1) end.
    + nra.
    + clear TD PD X Y T0 T1 RD Z Ed G Hg Hv Us. clearbody g. clear s va g d. nsatz.
  - intros ->. rewrite (T0 eq_refl). apply hprod_1_r.
  - intros ->. rewrite (T1 eq_refl). rewrite <- RD at 2.
    rewrite <- rotate_hprod by (try apply qconj_unit; assumption).
    rewrite conj_hprod. unfold unit_quat in UD. rewrite UD, qscale_1.
    unfold rotate, qone, mkq, re, im, vadd, vscale, vcross. cbn. f_equal; [f_equal|]; ring.
Qed.

Lemma aqua_mag_effect t e bc s vm q1 :
  unit_quat s -> vlen vm <> 0 -> steerable (rotate (qconj s) (vnormalise vm)) ->
  aqua_mag t e bc s vm q1 ->
  let l := rotate (qconj s) (vnormalise vm) in
  let l' := rotate (qconj q1) (vnormalise vm) in
  coord 0 l <= coord 0 l' /\ coord 2 l' = coord 2 l /\
  (forall v, coord 2 (rotate (qconj q1) v) = coord 2 (rotate (qconj s) v)) /\
  (t = 0 -> q1 = s) /\
  (t = 1 -> l' = (sqrt (coord 0 l * coord 0 l + coord 1 l * coord 1 l), 0, coord 2 l)).
Proof.
  intros Us Hv Hs (d & _ & T & ->). cbv zeta.
  rewrite !rotate_conj_hprod by (try exact Us; apply T).
  set (l := rotate (qconj s) (vnormalise vm)) in *.
  pose proof (turn_facts l) as F. destruct l as [[lx ly] lz]. cbv zeta in F.
  apply steerable_pos in Hs. destruct (F (proj1 Hs) (proj2 Hs)) as (UD & PD & RD).
  pose proof (toward_dot _ d t UD ltac:(lra) T) as TD.
  assert (KI : qi (turn (lx, ly, lz)) = 0) by reflexivity.
  assert (KJ : qj (turn (lx, ly, lz)) = 0) by reflexivity.
  set (h := sqrt (lx * lx + ly * ly)) in *.
  set (D := turn (lx, ly, lz)) in *. clearbody D.
  destruct T as (Ud & (x & y & X & Y & Ed) & T0 & T1).
  assert (V : forall v, coord 2 (rotate (qconj d) v) = coord 2 v).
  { intros [[a b] c]. rewrite Ed. destruct D as [r i j k]. cbn in KI, KJ. subst i j.
    unfold qdot, qplus, qscale, qone, hprod, qconj, rotate, mkq, re, im, vdot, vadd, vscale, vcross, coord. cbn. ring. }
  cbn [coord]. split; [|split; [|split; [|split]]].
  - rewrite <- RD. rewrite <- rotate_hprod by (try apply qconj_unit; assumption).
    assert (Z : lx = h * (2 * (qr D * qr D) - 1)).
    { clear TD T0 T1 V. destruct D as [r i j k]. cbn in KI, KJ. subst i j.
      unfold unit_quat, qdot, rotate, mkq, re, im, vdot, vadd, vscale, vcross in *. cbn in *.
      injection RD as R1 _. nra. }
    rewrite Z. rewrite Ed in TD, Ud |- *. clear Z RD F V T0 T1 Ed. destruct D as [r i j k]. cbn in KI, KJ. subst i j. unfold unit_quat in UD, Ud.
    unfold qdot, qplus, qscale, qone, hprod, qconj, rotate, mkq, re, im, vdot, vadd, vscale, vcross, coord in *.
    cbn in *.
    assert (H0 : 0 < h) by apply Hs. clearbody h. clear Hs Hv Us d s vm.
    match goal with |- _ <= ?w =>
      replace w with (h * (2 * ((y * (r * r + k * k) + x * r) * (y * (r * r + k * k) + x * r)) - 1)) end.
    + apply Rmult_le_compat_l; [lra|]. nra.
    + clear TD PD X Y H0. nsatz.
  - apply V.
  - intros v. rewrite rotate_conj_hprod by (try exact Us; exact Ud). apply V.
  - intros ->. rewrite (T0 eq_refl). apply hprod_1_r.
  - intros ->. rewrite (T1 eq_refl). fold h. rewrite <- RD.
    rewrite <- rotate_hprod by (try apply qconj_unit; assumption).
    rewrite conj_hprod. unfold unit_quat in UD. rewrite UD, qscale_1.
    unfold rotate, qone, mkq, re, im, vadd, vscale, vcross. cbn. f_equal; [f_equal|]; ring.
Qed.
