(** Property C139: what Mahony's filter settles on when the sensor is at rest.
    [rotate q (0, 0, 1)] is the vertical the orientation q predicts for the
    accelerometer, [vdot] of two unit vectors the cosine of their angle. *)
From Coquelicot Require Import Coquelicot.
From Coq Require Import List Arith ZArith Bool Reals Lra Lia.
From Verif Require Import Base BaseFacts NumR Libm LibmR RTac SpecReal MVec SpecVec SpecMtx MQuat SpecQuat PQuat PQuatRot
  PQuatEul MFusion SpecFusion PFusion PFusion2 PropFusion PropFusion2 PSettle.
Import ListNotations.
Local Open Scope R_scope.
Implicit Types (q : quat R) (v w a m : v3).

(** a motionless sensor: the given acceleration and magnetic field (if any), no
    turning *)
Definition at_rest (a : v3) (m : option v3) : sample :=
  (Some [coord 0 a; coord 1 a; coord 2 a],
   match m with Some m => Some [coord 0 m; coord 1 m; coord 2 m] | None => None end, [0; 0; 0]).

Lemma at_rest_sized a (m : option v3) : well_sized (at_rest a m) (Some a, m, (0, 0, 0)).
Proof. unfold at_rest. cbn. destruct m; auto. Qed.
Lemma usable_long a : / 1000000 < vlen a -> usable (Some a) = Some a.
Proof. intros H. cbn [usable]. destruct (Rlt_dec _ _); [reflexivity|lra]. Qed.
Lemma present_long a : / 1000000 < vlen a -> present (Some a) = Some a.
Proof. intros H. cbn [present]. destruct (Rlt_dec _ _); [lra|reflexivity]. Qed.
Lemma vnormalise_1 a : vlen a <> 0 -> vdot (vnormalise a) (vnormalise a) = 1.
Proof.
  intros H. unfold vnormalise. replace (vdot _ _) with (/ vlen a * / vlen a * vdot a a)
    by (destruct a as [[x y] z]; unfold vdot, vscale; ring).
  replace (vdot a a) with (vlen a * vlen a) by (apply sqrt_sqrt, vdot_sqr). field. exact H.
Qed.

Lemma iter_in {A} (f : A -> A) n x : Nat.iter (S n) f x = Nat.iter n f (f x).
Proof. induction n as [|n IH]; [reflexivity|]. change (f (Nat.iter (S n) f x) = f (Nat.iter n f (f x))). now rewrite IH. Qed.

(** one feed at rest *)
Lemma rest_step freq incl kp_ ki_ lim a (m : option v3) q fb :
  (0 < freq)%Z -> 0 <= kp_ -> 0 <= ki_ -> unit_quat q -> / 1000000 < vlen a ->
  let e := mahn_error q incl a m in
  let fb' := next_fb lim (/ IZR freq) fb e in
  mahn_step freq incl kp_ ki_ lim (at_rest a m) (q, fb)
  = Ok (0%Z, (spin (/ IZR freq) (vadd (vscale ki_ fb') (vscale kp_ e)) q, fb')).
Proof.
  intros Hf Hp Hi U Ha e fb'. unfold mahn_step.
  rewrite (sens_of_sized _ _ _ _ q (at_rest_sized a m)). unfold mahn_feed. cbn [kp ki]. rops.
  rewrite !Rltb_false by lra. cbn [orb]. rewrite mahony_ok by (try assumption; now apply unit_norm).
  rewrite usable_long by exact Ha. cbv zeta. rewrite (qnormalise_of_unit q U). fold e. fold fb'.
  cbn [bind intfb]. rewrite rd3_hold. cbn [bind sq].
  assert (E : next_rate kp_ ki_ (0, 0, 0) fb' e = vadd (vscale ki_ fb') (vscale kp_ e)).
  { unfold next_rate. destruct (vadd (vscale ki_ fb') (vscale kp_ e)) as [[x y] z]. unfold vadd.
    f_equal; [f_equal|]; ring. }
  rewrite E. reflexivity.
Qed.

(** A user expects the predicted vertical to approach the measured one.  It
    leaves it: without integral gain and magnetometer the predicted vertical
    tends to the opposite of the measured one, from every orientation but the
    one that is already right. *)
Theorem C139_opposite_vertical_refuted freq incl kp_ lim a q fb :
  (0 < freq)%Z -> 0 < kp_ -> kp_ / IZR freq < 2 -> unit_quat q -> / 1000000 < vlen a ->
  rotate q (0, 0, 1) <> vnormalise a ->
  exists u : nat -> quat R,
    (forall n, unit_quat (u n)) /\
    (forall n, exists fb', history (mahn_step freq incl kp_ 0 lim) (repeat (at_rest a None) n) (q, fb)
                           = Ok (u n, fb')) /\
    (forall j, (j < 3)%nat ->
       is_lim_seq (fun n => coord j (rotate (u n) (0, 0, 1))) (- coord j (vnormalise a))).
Proof.
  intros Hf Hp Hs U Ha Hne. set (t := / IZR freq). set (b := vnormalise a).
  assert (P : 0 < IZR freq) by now apply IZR_lt.
  assert (Hb : vdot b b = 1) by (apply vnormalise_1; lra).
  set (next := fun x => spin t (vscale kp_ (vcross b (rotate x (0, 0, 1)))) x).
  set (u := fun n => Nat.iter n next q).
  assert (Uu : forall n, unit_quat (u n)).
  { intros n. unfold u. induction n as [|n IH]; [exact U|]. change (Nat.iter (S n) next q) with (next (Nat.iter n next q)). unfold next at 1.
    apply spin_unit. rewrite (qnorm_unit _ IH). lra. }
  assert (Uv : forall n, vdot (rotate (u n) (0, 0, 1)) (rotate (u n) (0, 0, 1)) = 1).
  { intros n. rewrite rotate_len by apply Uu. unfold vdot. ring. }
  exists u. split; [exact Uu|]. split.
  - intros n.
    assert (G : forall (m : nat) x fb0, unit_quat x -> exists fb',
      history (mahn_step freq incl kp_ 0 lim) (repeat (at_rest a None) m) (x, fb0) = Ok (Nat.iter m next x, fb')).
    { induction m as [|m IH]; intros x fb0 Ux; [now exists fb0|].
      cbn [repeat history]. rewrite rest_step by (assumption || lra). cbn [bind snd].
      replace (vadd _ _) with (vscale kp_ (vcross b (rotate x (0, 0, 1)))).
      2:{ unfold mahn_error. cbn [present]. fold b. destruct (next_fb _ _ _ _) as [[f1 f2] f3].
          destruct (vcross b (rotate x (0, 0, 1))) as [[e1 e2] e3]. unfold vadd, vscale. f_equal; [f_equal|]; ring. }
      fold t. change (spin t (vscale kp_ (vcross b (rotate x (0, 0, 1)))) x) with (next x).
      rewrite iter_in. apply IH. unfold next; apply spin_unit. rewrite (qnorm_unit _ Ux). lra. }
    destruct (G n q fb U) as [fb' E]. exists fb'. exact E.
  - intros j Hj. apply (opposite_limit b (fun n => rotate (u n) (0, 0, 1))); [exact Hb|exact Uv| |exact Hj].
    apply law_limit with (k := kp_ / IZR freq / 2).
    + split; [|lra]. apply Rdiv_lt_0_compat; [apply Rdiv_lt_0_compat; lra|lra].
    + intros n. apply cos_bounds; [exact Hb|apply Uv].
    + destruct (cos_bounds b (rotate (u 0%nat) (0, 0, 1)) Hb (Uv 0%nat)) as [_ [L|E]]; [exact L|].
      exfalso. apply Hne. specialize (Uv 0%nat). change (u 0%nat) with q in E, Uv.
      assert (Z : vsub (rotate q (0, 0, 1)) b = (0, 0, 0)).
      { apply vdot_zero. set (v := rotate q (0, 0, 1)) in *.
        replace (vdot (vsub v b) (vsub v b)) with (vdot v v + vdot b b - 2 * vdot b v)
          by (destruct v as [[x y] z], b as [[x' y'] z']; unfold vsub, vdot, vadd, vscale; ring).
        lra. }
      fold b. revert Z. destruct (rotate q (0, 0, 1)) as [[x y] z], b as [[x' y'] z'].
      unfold vsub, vadd, vscale. intros Z. injection Z as Z1 Z2 Z3. f_equal; [f_equal|]; lra.
    + intros n. change (u (S n)) with (next (u n)). unfold next. rewrite rotate_spin by apply Uu.
      replace (vscale (t / 2) (vscale kp_ (vcross b (rotate (u n) (0, 0, 1)))))
        with (vscale (kp_ / IZR freq / 2) (vcross b (rotate (u n) (0, 0, 1)))).
      2:{ unfold t. destruct (vcross b (rotate (u n) (0, 0, 1))) as [[x y] z]. unfold vscale.
          f_equal; [f_equal|]; field; lra. }
      apply cross_step; [exact Hb|apply Uv].
Qed.
Print Assumptions C139_opposite_vertical_refuted.
(** the default gains and frequency of the tests, an orientation a little off
    the right one: the filter ends upside down *)
Example C139_case :
  let q := Quat (4 / 5) (3 / 5) 0 0 in
  (0 < 100)%Z /\ 0 < 1 / 50 /\ 1 / 50 / IZR 100 < 2 /\ unit_quat q /\ / 1000000 < vlen (0, 0, 1) /\
  rotate q (0, 0, 1) <> vnormalise (0, 0, 1).
Proof.
  intros q. assert (L : vlen (0, 0, 1) = 1) by (unfold vlen, vdot; replace (_ + _) with 1 by ring; apply sqrt_1).
  split; [lia|]. split; [lra|]. split; [lra|]. split; [unfold unit_quat, qdot, re, im, vdot, q; cbn; lra|].
  split; [rewrite L; lra|]. unfold vnormalise. rewrite L.
  unfold rotate, q, vadd, vscale, vcross, re, im. cbn. intros E. injection E as E1 E2 E3. lra.
Qed.

(** With any integral gain the first feed already enlarges the angle between
    the predicted and the measured vertical, unless they are parallel. *)
Theorem C139_first_feed_refuted freq incl kp_ ki_ lim a q :
  (0 < freq)%Z -> 0 <= kp_ -> 0 <= ki_ -> 0 < kp_ + ki_ -> / IZR freq <= lim ->
  kp_ / IZR freq + ki_ / (IZR freq * IZR freq) < 2 -> unit_quat q -> / 1000000 < vlen a ->
  vcross (vnormalise a) (rotate q (0, 0, 1)) <> (0, 0, 0) ->
  exists q' fb', mahn_step freq incl kp_ ki_ lim (at_rest a None) (q, (0, 0, 0)) = Ok (0%Z, (q', fb')) /\
    unit_quat q' /\ vdot (vnormalise a) (rotate q' (0, 0, 1)) < vdot (vnormalise a) (rotate q (0, 0, 1)).
Proof.
  intros Hf Hp Hi Hpos Hl Hs U Ha Hne.
  assert (P : 0 < IZR freq) by now apply IZR_lt.
  set (b := vnormalise a). assert (Hb : vdot b b = 1) by (apply vnormalise_1; lra).
  set (v := rotate q (0, 0, 1)). assert (Hv : vdot v v = 1) by (unfold v; rewrite rotate_len by exact U; unfold vdot; ring).
  set (e := vcross b v).
  assert (E1 : vdot e e = 1 - vdot b v * vdot b v).
  { unfold e. replace (vdot (vcross b v) (vcross b v)) with (vdot b b * vdot v v - vdot b v * vdot b v)
      by (destruct b as [[x y] z], v as [[x' y'] z']; unfold vdot, vcross; ring). rewrite Hb, Hv. ring. }
  assert (E0 : 0 < vdot e e).
  { destruct (vdot_sqr e) as [|Z]; [assumption|]. exfalso. apply Hne. apply vdot_zero. symmetry. exact Z. }
  rewrite rest_step by assumption. unfold mahn_error. cbn [present]. fold b v e.
  assert (F : next_fb lim (/ IZR freq) (0, 0, 0) e = vscale (/ IZR freq) e).
  { assert (I : 0 < / IZR freq) by now apply Rinv_0_lt_compat.
    assert (L : forall j, (j < 3)%nat -> Rabs (coord j e) <= 1).
    { intros j Hj. assert (Q : 0 <= vdot b v * vdot b v) by apply Rle_0_sqr.
      assert (X : vdot e e <= 1) by lra. clear - X Hj. clearbody e. destruct e as [[x y] z]. unfold vdot in X.
      apply Rabs_le. destruct j as [|[|[|j]]]; [| | |lia]; cbn [coord]; nra. }
    assert (K : forall j, (j < 3)%nat -> clamp lim (0 + / IZR freq * coord j e) = / IZR freq * coord j e).
    { intros j Hj. rewrite Rplus_0_l. apply clamp_id. rewrite Rabs_mult, (Rabs_pos_eq (/ IZR freq)) by lra.
      specialize (L j Hj). nra. }
    pose proof (K 0%nat ltac:(lia)) as K0. pose proof (K 1%nat ltac:(lia)) as K1. pose proof (K 2%nat ltac:(lia)) as K2.
    unfold next_fb. destruct e as [[x y] z]. unfold vadd, vscale, vmap. cbn [coord] in K0, K1, K2.
    now rewrite K0, K1, K2. }
  rewrite F. set (g := kp_ + ki_ * / IZR freq).
  replace (vadd _ _) with (vscale g e).
  2:{ unfold g. destruct e as [[x y] z]. unfold vadd, vscale. f_equal; [f_equal|]; ring. }
  do 2 eexists. split; [reflexivity|]. split.
  { apply spin_unit. rewrite (qnorm_unit _ U). lra. }
  rewrite rotate_spin by exact U. fold v. set (k := g / IZR freq / 2).
  replace (vscale (/ IZR freq / 2) (vscale g e)) with (vscale k (vcross b v)).
  2:{ fold e. unfold k. destruct e as [[x y] z]. unfold vscale. f_equal; [f_equal|]; field; lra. }
  rewrite cross_step by assumption. cbv zeta.
  assert (Hk : 0 < k < 1).
  { assert (0 < / IZR freq) by now apply Rinv_0_lt_compat.
    assert (G : 0 < g) by (unfold g; destruct (Req_dec kp_ 0); nra).
    split; [unfold k; apply Rdiv_lt_0_compat; [apply Rdiv_lt_0_compat|]; lra|].
    replace k with ((kp_ / IZR freq + ki_ / (IZR freq * IZR freq)) / 2) by (unfold k, g; field; lra). lra. }
  rewrite <- E1. pose proof (cos_bounds b v Hb Hv) as B.
  assert (0 < 2 * k * vdot e e * (1 + k * vdot b v) / (1 + k * k * vdot e e)).
  { assert (0 < k * vdot e e) by nra. assert (0 < 1 + k * vdot b v) by nra.
    apply Rdiv_lt_0_compat; [|nra]. apply Rmult_lt_0_compat; [nra|lra]. }
  lra.
Qed.
Print Assumptions C139_first_feed_refuted.

(** With a magnetometer and the inclination too: the sum of the two cosines,
    of the vertical and of the field, falls at every feed that finds an error. *)
Theorem C139_full_feed_refuted freq (i : R) kp_ lim a m q fb :
  (0 < freq)%Z -> 0 < kp_ -> kp_ / IZR freq < 1 -> unit_quat q ->
  / 1000000 < vlen a -> / 1000000 < vlen m ->
  let dip := i * (314159265359 / 100000000000) / 180 in
  let agreement x := vdot (vnormalise a) (rotate x (0, 0, 1))
                     + vdot (vnormalise m) (rotate x (cos dip, 0, sin dip)) in
  exists q' fb', mahn_step freq (Some i) kp_ 0 lim (at_rest a (Some m)) (q, fb) = Ok (0%Z, (q', fb')) /\
    unit_quat q' /\ agreement q' <= agreement q /\
    (mahn_error q (Some i) a (Some m) <> (0, 0, 0) -> agreement q' < agreement q).
Proof.
  intros Hf Hp Hs U Ha Hm dip agreement.
  assert (P : 0 < IZR freq) by now apply IZR_lt.
  rewrite rest_step by (assumption || lra).
  set (e := mahn_error q (Some i) a (Some m)).
  replace (vadd _ _) with (vscale kp_ e).
  2:{ destruct (next_fb _ _ _ _) as [[x y] z], e as [[x' y'] z']. unfold vadd, vscale. f_equal; [f_equal|]; ring. }
  do 2 eexists. split; [reflexivity|]. split.
  { apply spin_unit. rewrite (qnorm_unit _ U). lra. }
  unfold agreement. rewrite !rotate_spin by exact U.
  set (k := kp_ / IZR freq / 2). assert (Hk : 0 < k < 1 / 2).
  { unfold k. assert (0 < kp_ / IZR freq) by (apply Rdiv_lt_0_compat; lra). lra. }
  replace (vscale (/ IZR freq / 2) (vscale kp_ e)) with (vscale k e).
  2:{ unfold k. destruct e as [[x y] z]. unfold vscale. f_equal; [f_equal|]; field; lra. }
  set (b := vnormalise a). set (c := vnormalise m). set (v := rotate q (0, 0, 1)). set (f := rotate q (cos dip, 0, sin dip)).
  assert (Hb : vdot b b = 1) by (apply vnormalise_1; lra).
  assert (Hc : vdot c c = 1) by (apply vnormalise_1; lra).
  assert (Hv : vdot v v = 1) by (unfold v; rewrite rotate_len by exact U; unfold vdot; ring).
  assert (Hw : vdot f f = 1).
  { unfold f. rewrite rotate_len by exact U. unfold vdot. pose proof (sin2_cos2 dip) as S. unfold Rsqr in S. lra. }
  assert (Ee : e = vadd (vcross b v) (vcross c f)).
  { unfold e, mahn_error. rewrite present_long by exact Hm. cbn [field]. reflexivity. }
  set (s := vscale k e).
  rewrite !dot_turn. fold s.
  pose proof (turn_bound s b v Hb Hv) as T1. pose proof (turn_bound s c f Hc Hw) as T2.
  assert (D : vdot s (vcross v b) + vdot s (vcross f c) = - k * vdot e e).
  { unfold s. rewrite Ee. destruct b as [[b1 b2] b3], v as [[v1 v2] v3], c as [[c1 c2] c3], f as [[f1 f2] f3].
    unfold vdot, vscale, vcross, vadd. ring. }
  assert (S : vdot s s = k * k * vdot e e) by (unfold s; destruct e as [[x y] z]; unfold vdot, vscale; ring).
  pose proof (vdot_sqr e) as E0.
  assert (Q : 0 < 2 / (1 + vdot s s)) by (apply Rdiv_lt_0_compat; [lra|]; pose proof (vdot_sqr s); lra).
  set (h := 2 / (1 + vdot s s)) in *.
  set (x1 := vdot b s * vdot s v - vdot s s * vdot b v) in *.
  set (x2 := vdot c s * vdot s f - vdot s s * vdot c f) in *.
  assert (Y : vdot s (vcross v b) + x1 + (vdot s (vcross f c) + x2) <= - (k * (1 - 2 * k)) * vdot e e) by nra.
  assert (K : 0 < k * (1 - 2 * k)) by nra.
  split.
  - assert (h * (vdot s (vcross v b) + x1 + (vdot s (vcross f c) + x2)) <= 0); [|lra].
    assert (vdot s (vcross v b) + x1 + (vdot s (vcross f c) + x2) <= 0) by nra. nra.
  - intros Ne. assert (E1 : 0 < vdot e e).
    { destruct E0 as [|Z]; [assumption|]. exfalso. apply Ne. apply vdot_zero. symmetry. exact Z. }
    assert (h * (vdot s (vcross v b) + x1 + (vdot s (vcross f c) + x2)) < 0); [|lra].
    assert (vdot s (vcross v b) + x1 + (vdot s (vcross f c) + x2) < 0) by nra. nra.
Qed.
Print Assumptions C139_full_feed_refuted.
Example C139_full_case : mahn_error (Quat (4 / 5) (3 / 5) 0 0) (Some 0) (0, 0, 1) (Some (1, 0, 0)) <> (0, 0, 0).
Proof.
  assert (L : vlen (0, 0, 1) = 1) by (unfold vlen, vdot; replace (_ + _) with 1 by ring; apply sqrt_1).
  assert (L' : vlen (1, 0, 0) = 1) by (unfold vlen, vdot; replace (_ + _) with 1 by ring; apply sqrt_1).
  unfold mahn_error. rewrite present_long by (rewrite L'; lra). unfold vnormalise. rewrite L, L'. cbn [field].
  replace (0 * (314159265359 / 100000000000) / 180) with 0 by field. rewrite cos_0, sin_0.
  unfold rotate, vadd, vscale, vcross, re, im. cbn. intros E. injection E as E1 E2 E3. lra.
Qed.
