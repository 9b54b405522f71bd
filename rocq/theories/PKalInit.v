(** The first feed of the Kalman filter. *)
From Coq Require Import List Arith ZArith Bool Lia Reals Lra.
From Verif Require Import Base BaseFacts NumR Libm LibmR RTac Out SpecVec SpecMtx SpecReal SpecQuat SpecFusion
  MVec MMtx MQuat MFusion PVec PVecR PMtx PMtxOps PQuat PQuatRot PQuatTrig PFusion PFusion2 PRotMtx.
Import ListNotations.
Local Open Scope R_scope.

Lemma vlen_pos v : vlen v <> 0 -> 0 < vlen v.
Proof. intros H. pose proof (vlen_nonneg v). lra. Qed.
Lemma vlen_sq v : vlen v * vlen v = vdot v v.
Proof. unfold vlen. apply sqrt_sqrt. destruct v as [[x y] z]. cbn [vdot]. nra. Qed.
Lemma normalise_sq v : vlen v <> 0 -> vdot (vnormalise v) (vnormalise v) = 1.
Proof.
  intros H. pose proof (vlen_sq v) as E. unfold vnormalise. destruct v as [[x y] z]. cbn [vscale vdot] in *.
  set (l := vlen (x, y, z)) in *.
  replace (_ + _) with (/ l * / l * (x * x + y * y + z * z)) by ring. rewrite <- E. now field.
Qed.
Lemma vlen_0 v : vlen v = 0 -> v = (0, 0, 0).
Proof.
  intros H. pose proof (vlen_sq v) as E. rewrite H in E. destruct v as [[x y] z]. cbn [vdot] in E.
  assert (x = 0) by nra. assert (y = 0) by nra. assert (z = 0) by nra. now subst.
Qed.

Section I.
Variables a m : v3.
Hypothesis H : vcross a m <> (0, 0, 0).
Let w := vcross a m.
Let v := vcross w a.
Lemma w_len : vlen w <> 0.
Proof. intros E. apply H. now apply vlen_0. Qed.
Lemma a_len : vlen a <> 0.
Proof.
  intros E. apply H. rewrite (vlen_0 a E). destruct m as [[x y] z]. cbn [vcross]. f_equal; [f_equal|]; ring.
Qed.
Lemma v_sq : vdot v v = vdot w w * vdot a a.
Proof. unfold v, w. destruct a as [[x y] z], m as [[x' y'] z']. cbn [vcross vdot]. ring. Qed.
Lemma v_len_eq : vlen v = vlen w * vlen a.
Proof.
  unfold vlen at 1. rewrite v_sq. unfold vlen. apply sqrt_mult; (destruct w as [[? ?] ?]; destruct a as [[? ?] ?]; cbn [vdot]; nra).
Qed.
Lemma v_len : vlen v <> 0.
Proof. rewrite v_len_eq. apply Rmult_integral_contrapositive_currified; [apply w_len|apply a_len]. Qed.
Lemma vw_0 : vdot (vnormalise v) (vnormalise w) = 0.
Proof.
  unfold vnormalise. generalize (/ vlen v) (/ vlen w). intros s t. unfold v, w.
  destruct a as [[x y] z], m as [[x' y'] z']. cbn [vcross vdot vscale]. ring.
Qed.
Lemma u_cross : vnormalise a = vcross (vnormalise v) (vnormalise w).
Proof.
  pose proof w_len. pose proof a_len. unfold vnormalise. rewrite v_len_eq.
  assert (E : vcross v w = vscale (vdot w w) a).
  { unfold v, w. destruct a as [[x y] z], m as [[x' y'] z']. cbn [vcross vdot vscale]. f_equal; [f_equal|]; ring. }
  assert (S : forall s t p r, vcross (vscale s p) (vscale t r) = vscale (s * t) (vcross p r)).
  { intros s t [[? ?] ?] [[? ?] ?]. cbn [vcross vscale]. f_equal; [f_equal|]; ring. }
  rewrite S, E, <- vlen_sq. destruct a as [[x y] z] eqn:Ea. cbn [vscale].
  f_equal; [f_equal|]; field; auto.
Qed.

Lemma kalm_quat_init_ok bc ini ta tm q0 :
  exists q, unit_quat q /\ rotate q (1, 0, 0) = vnormalise v /\ rotate q (0, 1, 0) = vnormalise w /\
    rotate q (0, 0, 1) = vnormalise a /\
  kalm_quat_init bc ini (Some (hold a ta)) (Some (hold m tm)) q0
  = Ok (0%Z, unitised (Quat (Rabs (qr q)) (signed (Rabs (qi q)) (4 * (qr q * qi q)))
                        (signed (Rabs (qj q)) (4 * (qr q * qj q)))
                        (signed (Rabs (qk q)) (4 * (qr q * qk q)))), 1%Z).
Proof.
  destruct (rot_quat (vnormalise v) (vnormalise w) (vnormalise a)) as (q & U & R).
  - apply normalise_sq, v_len.
  - apply normalise_sq, w_len.
  - apply vw_0.
  - apply u_cross.
  - exists q. split; [exact U|].
    assert (C : forall j, (j < 3)%nat -> rotate q (basis j) = (rotm q 0 j, rotm q 1 j, rotm q 2 j)).
    { intros j _. unfold rotm. destruct (rotate q (basis j)) as [[? ?] ?]. reflexivity. }
    split; [|split; [|split]].
    1-3: match goal with |- rotate _ ?b = ?r =>
           first [change b with (basis 0)|change b with (basis 1)|change b with (basis 2)] end;
         rewrite C, !R by lia; cbn [cols]; apply coords.
    unfold kalm_quat_init. change (vsz (hold a ta)) with 3%nat. change (vsz (hold m tm)) with 3%nat.
    cbn [Nat.eqb negb orb]. rewrite andb_false_r. cbn [deref bind]. rewrite cross_hold. cbn [bind]. fold w.
    rewrite cross_hold. cbn [bind]. fold v. rewrite copy_hold. cbn [bind].
    rewrite (unit_hold bc v) by apply v_len. cbn [bind].
    rewrite (unit_hold bc w) by apply w_len. cbn [bind].
    rewrite (unit_hold bc a) by apply a_len. cbn [bind].
    assert (E : exists r, 
      (let! (_, mt) := mtx_set_col bc (mtx_def 3 3) 0 (vbuf (hold (vnormalise v) [])) in
       let! (_, mt) := mtx_set_col bc mt 1 (vbuf (hold (vnormalise w) [])) in
       mtx_set_col bc mt 2 (vbuf (hold (vnormalise a) []))) = Ok (r, mat_of 3 3 (rotm q) [])).
    { exists 0%Z. replace (mat_of 3 3 (rotm q) []) with (mat_of 3 3 (cols (vnormalise v) (vnormalise w) (vnormalise a)) []).
      - destruct (vnormalise v) as [[? ?] ?], (vnormalise w) as [[? ?] ?], (vnormalise a) as [[? ?] ?].
        destruct bc; reflexivity.
      - apply mat_ext. intros i j Hi Hj. now rewrite R. }
    destruct E as (rr & E). revert E.
    destruct (mtx_set_col bc (mtx_def 3 3) 0 _) as [(r1 & m1)|?| |]; cbn [bind]; try discriminate.
    destruct (mtx_set_col bc m1 1 _) as [(r2 & m2)|?| |]; cbn [bind]; try discriminate.
    intros ->. cbn [bind]. rewrite from_rot_mtx_ok by exact U. cbn [bind]. rewrite quat_to_unit_ok. reflexivity.
Qed.
End I.

(** ** What [signed] recovers *)
Lemma signed_sq x d : signed x d * signed x d = x * x.
Proof.
  unfold signed. destruct (Rlt_dec _ _) as [H|H]; [|reflexivity].
  assert (Rabs d <> 0) by lra. assert (d / Rabs d * (d / Rabs d) = 1).
  { destruct (Rle_dec 0 d); [rewrite Rabs_right in * by lra|rewrite Rabs_left in * by lra]; field; lra. }
  replace (x * (d / Rabs d) * (x * (d / Rabs d))) with (x * x * (d / Rabs d * (d / Rabs d))) by ring. rewrite H1. ring.
Qed.
Definition recovered (q : quat R) : quat R :=
  Quat (Rabs (qr q)) (signed (Rabs (qi q)) (4 * (qr q * qi q))) (signed (Rabs (qj q)) (4 * (qr q * qj q)))
       (signed (Rabs (qk q)) (4 * (qr q * qk q))).
Lemma abs_sq x : Rabs x * Rabs x = x * x.
Proof. rewrite <- Rabs_mult. apply Rabs_right. nra. Qed.
Lemma recovered_unit q : unit_quat q -> unit_quat (recovered q).
Proof.
  unfold unit_quat, qdot, recovered. cbn. rewrite !signed_sq, !abs_sq. auto.
Qed.
Definition clear_signs (q : quat R) : Prop :=
  forall c, c = qi q \/ c = qj q \/ c = qk q -> c = 0 \/ / 1000000 < Rabs (4 * (qr q * c)).
Lemma recovered_pm q : unit_quat q -> clear_signs q -> recovered q = q \/ recovered q = qscale (-1) q.
Proof.
  intros U H. unfold recovered.
  assert (Hi := H (qi q) (or_introl eq_refl)).
  assert (Hj := H (qj q) (or_intror (or_introl eq_refl))).
  assert (Hk := H (qk q) (or_intror (or_intror eq_refl))).
  destruct (Rtotal_order (qr q) 0) as [N|[Z|P]].
  - right. rewrite !signed_eq_neg by tauto. rewrite Rabs_left by exact N.
    destruct q. unfold qscale. cbn. f_equal; ring.
  - exfalso. rewrite Z in *. rewrite !Rmult_0_l, Rmult_0_r, Rabs_R0 in *.
    destruct q as [w x y z]. unfold unit_quat, qdot in U. cbn in *.
    destruct Hi as [Hi|Hi]; [|lra]. destruct Hj as [Hj|Hj]; [|lra]. destruct Hk as [Hk|Hk]; [|lra].
    subst. lra.
  - left. rewrite !signed_eq by tauto. rewrite Rabs_right by lra. now destruct q.
Qed.
Lemma rotate_opp q v : rotate (qscale (-1) q) v = rotate q v.
Proof.
  destruct q as [w x y z], v as [[a b] c]. unfold rotate, qscale, mkq, re, im, vadd, vscale, vcross. cbn.
  f_equal; [f_equal|]; ring.
Qed.
Lemma recovered_rotate q v : unit_quat q -> clear_signs q -> rotate (recovered q) v = rotate q v.
Proof. intros U C. destruct (recovered_pm q U C) as [->| ->]; [reflexivity|apply rotate_opp]. Qed.

(** ** Rotation matrices *)
Lemma rotation_quat f :
  (forall i j, (i < 3)%nat -> (j < 3)%nat ->
       f 0%nat i * f 0%nat j + f 1%nat i * f 1%nat j + f 2%nat i * f 2%nat j = if Nat.eqb i j then 1 else 0) ->
  mdet f = 1 ->
  exists q, unit_quat q /\ forall i j, (i < 3)%nat -> (j < 3)%nat -> rotm q i j = f i j.
Proof.
  intros O D.
  assert (O00 := O 0%nat 0%nat ltac:(lia) ltac:(lia)). assert (O11 := O 1%nat 1%nat ltac:(lia) ltac:(lia)).
  assert (O22 := O 2%nat 2%nat ltac:(lia) ltac:(lia)). assert (O01 := O 0%nat 1%nat ltac:(lia) ltac:(lia)).
  cbn [Nat.eqb] in *. unfold mdet in D. clear O.
  destruct (rot_quat (f 0%nat 0%nat, f 1%nat 0%nat, f 2%nat 0%nat) (f 0%nat 1%nat, f 1%nat 1%nat, f 2%nat 1%nat)
    (f 0%nat 2%nat, f 1%nat 2%nat, f 2%nat 2%nat)) as (q & U & H); auto.
  - revert O00 O11 O22 O01 D. generalize (f 0%nat 0%nat) (f 1%nat 0%nat) (f 2%nat 0%nat) (f 0%nat 1%nat) (f 1%nat 1%nat)
      (f 2%nat 1%nat) (f 0%nat 2%nat) (f 1%nat 2%nat) (f 2%nat 2%nat).
    intros a b c x y z u v w A X W AX D. cbn [vcross vdot] in *.
    set (p := b * z - c * y) in *. set (q := c * x - a * z) in *. set (r := a * y - b * x) in *.
    assert (P : p * p + q * q + r * r = 1).
    { unfold p, q, r. replace (_ + _) with ((a*a+b*b+c*c)*(x*x+y*y+z*z) - (a*x+b*y+c*z)*(a*x+b*y+c*z)) by ring.
      rewrite A, X, AX. ring. }
    assert (D' : p * u + q * v + r * w = 1) by (unfold p, q, r; rewrite <- D; ring).
    assert (S : (u - p) * (u - p) + (v - q) * (v - q) + (w - r) * (w - r) = 0)
      by (replace (_ + _) with ((u*u+v*v+w*w) + (p*p+q*q+r*r) - 2 * (p*u+q*v+r*w)) by ring; rewrite W, P, D'; ring).
    assert (Q : forall t, 0 <= t * t) by (intros; nra). pose proof (Q (u - p)). pose proof (Q (v - q)). pose proof (Q (w - r)).
    assert (u - p = 0) by (apply Rsqr_0_uniq; unfold Rsqr; lra). assert (v - q = 0) by (apply Rsqr_0_uniq; unfold Rsqr; lra).
    assert (w - r = 0) by (apply Rsqr_0_uniq; unfold Rsqr; lra).
    f_equal; [f_equal|]; lra.
  - exists q. split; [exact U|]. intros i j Hi Hj. rewrite H by assumption.
    destruct j as [|[|[|]]]; try lia; destruct i as [|[|[|]]]; try lia; reflexivity.
Qed.

(** ** Parallel readings *)
Lemma unit_hold0 bc : vec_to_unit bc (hold (0, 0, 0) []) = Ok (0%Z, hold (1, 0, 0) []).
Proof.
  unfold hold. cbn [coord]. rewrite vec_to_unit_R0; [reflexivity|]. repeat constructor.
Qed.
Lemma kalm_quat_init_parallel bc ini a m ta tm q0 : vcross a m = (0, 0, 0) -> coord 2 a <> 0 ->
  kalm_quat_init bc ini (Some (hold a ta)) (Some (hold m tm)) q0 = NotReal.
Proof.
  intros C Z. assert (L : vlen a <> 0) by (intros E; apply Z; now rewrite (vlen_0 a E)).
  unfold kalm_quat_init. change (vsz (hold a ta)) with 3%nat. change (vsz (hold m tm)) with 3%nat.
  cbn [Nat.eqb negb orb]. rewrite andb_false_r. cbn [deref bind]. rewrite cross_hold. cbn [bind]. rewrite C.
  rewrite cross_hold. cbn [bind]. rewrite copy_hold. cbn [bind].
  replace (vcross (0, 0, 0) a) with (0, 0, 0) by (destruct a as [[x y] z]; cbn [vcross]; f_equal; [f_equal|]; ring).
  rewrite unit_hold0. cbn [bind]. rewrite unit_hold by exact L. cbn [bind].
  assert (Zn : coord 2 (vnormalise a) <> 0).
  { unfold vnormalise. pose proof (vlen_pos a L). destruct a as [[x y] z]. cbn [vscale coord] in *.
    apply Rmult_integral_contrapositive_currified; [apply Rinv_neq_0_compat; lra|exact Z]. }
  pose proof (normalise_sq a L) as N. destruct (vnormalise a) as [[x y] z]. cbn [coord vdot] in *.
  assert (E : (let! (_, mt) := mtx_set_col bc (mtx_def 3 3) 0 (vbuf (hold (1, 0, 0) [])) in
       let! (_, mt) := mtx_set_col bc mt 1 (vbuf (hold (1, 0, 0) [])) in
       mtx_set_col bc mt 2 (vbuf (hold (x, y, z) []))) = Ok (0%Z, Mtx 3 3 (map Some [1; 1; x; 0; 0; y; 0; 0; z]))).
  { destruct bc; reflexivity. }
  revert E.
  destruct (mtx_set_col bc (mtx_def 3 3) 0 _) as [(r1 & m1)|?| |]; cbn [bind]; try discriminate.
  destruct (mtx_set_col bc m1 1 _) as [(r2 & m2)|?| |]; cbn [bind]; try discriminate.
  intros ->. cbn [bind]. unfold quat_from_rot_mtx. cbn [mrows mcols Nat.eqb negb orb]. rewrite andb_false_r.
  cbn [mbuf map rd nth_error bind]. rops. replace (10 / 10) with 1 by field.
  assert (- 1 <= z <= 1) by nra.
  rewrite (Rsqrto_ok (1 + 0 + z + 1)) by lra. cbn [bind]. rewrite (Rsqrto_ok (1 - 0 - z + 1)) by lra. cbn [bind].
  unfold Rsqrto at 1. destruct (Rle_dec 0 _) as [Hj|Hj]; [|reflexivity]. cbn [bind].
  unfold Rsqrto at 1. destruct (Rle_dec 0 _) as [Hk|Hk]; [|reflexivity]. lra.
Qed.
