(** Property C142: what Madgwick's filter settles on when the sensor is at
    rest. *)
From Coquelicot Require Import Coquelicot.
From Coq Require Import List Arith ZArith Bool Reals Lra Lia Nsatz.
From Verif Require Import Base BaseFacts NumR Libm LibmR RTac SpecReal MVec SpecVec SpecMtx MQuat SpecQuat PQuat PQuatRot
  PQuatEul MFusion SpecFusion PFusion PFusion2 PropFusion PropFusion2 PSettle PropSettle PropSettle2.
Import ListNotations.
Local Open Scope R_scope.
Implicit Types (q : quat R) (v w a : v3).

(** the gradient used for a misalignment along the vertical turned the other
    way is a multiple of the orientation itself *)
Lemma grad_radial q (s : R) : unit_quat q ->
  gravity_grad q (vscale s (rotate (qconj q) (0, 0, 1))) = qscale (4 * s * (qi q * qi q + qj q * qj q)) q.
Proof.
  intros U. destruct q as [r i j k]. unfold unit_quat, qdot, re, im, vdot in U. cbn in U.
  unfold gravity_grad, dot_rows, vscale, rotate, qconj, qplus, qscale, mkq, re, im, vadd, vcross, coord. cbn.
  f_equal; nsatz.
Qed.

Lemma madg_rest freq beta_ incl a q :
  (0 < freq)%Z -> 0 <= beta_ -> unit_quat q -> / 1000000 < vlen a ->
  madg_step freq beta_ incl (at_rest a None) q
  = Ok (0%Z, unitised (qplus q (qscale (- (beta_ / IZR freq))
        (qdir (gravity_grad q (vsub (rotate q (0, 0, 1)) (vnormalise a))))))).
Proof.
  intros Hf Hb U La. unfold madg_step. rewrite (sens_of_sized _ _ _ _ q (at_rest_sized a None)).
  unfold madg_feed. rops. rewrite Rltb_false by lra. rewrite madgwick_ok by (try assumption; now apply unit_norm).
  rewrite (qnormalise_of_unit q U), (spin_still _ _ U). cbn [bind sq]. unfold madg_dir.
  rewrite (usable_long a La). reflexivity.
Qed.

Lemma len_of_scale (c : R) v : 0 < c -> vdot v v = 1 -> vlen (vscale c v) = c.
Proof. intros Hc Hv. rewrite vlen_scale, (unit_len _ Hv), Rabs_pos_eq; lra. Qed.

(** A user expects the predicted vertical to approach the measured one.  For
    every tilted orientation there is a reading, different from the predicted
    one, that never moves it: the mirror image of the predicted vertical in the
    plane across the vertical turned the other way. *)
Theorem C142_stuck_refuted freq beta_ incl (c : R) q n :
  (0 < freq)%Z -> 0 <= beta_ -> beta_ / IZR freq <= 1 - / 1000000 -> / 1000000 < c -> unit_quat q ->
  let v := rotate q (0, 0, 1) in
  let w := rotate (qconj q) (0, 0, 1) in
  w <> (0, 0, 1) -> vdot v w <> 0 ->
  let a := vsub v (vscale (2 * vdot v w) w) in
  vdot a a = 1 /\ vdot a v = 1 - 2 * (vdot v w * vdot v w) /\ a <> v /\
  history (madg_step freq beta_ incl) (repeat (at_rest (vscale c a) None) n) q = Ok q.
Proof.
  intros Hf Hb Hs Hc U v w Hw Hd a. assert (P : 0 < IZR freq) by now apply IZR_lt.
  assert (Uv : vdot v v = 1) by (unfold v; rewrite rotate_len by exact U; unfold vdot; ring).
  assert (Uw : vdot w w = 1) by (unfold w; rewrite rotate_len by (apply qconj_unit; exact U); unfold vdot; ring).
  assert (Ea : vdot a a = vdot v v - 4 * (vdot v w * vdot v w) + 4 * (vdot v w * vdot v w) * vdot w w).
  { unfold a. destruct v as [[v0 v1] v2], w as [[w0 w1] w2]. unfold vsub, vadd, vscale, vdot. ring. }
  assert (Ua : vdot a a = 1) by (rewrite Ea, Uv, Uw; ring).
  assert (Av : vdot a v = 1 - 2 * (vdot v w * vdot v w)).
  { rewrite <- Uv at 1. unfold a. destruct v as [[v0 v1] v2], w as [[w0 w1] w2]. unfold vsub, vadd, vscale, vdot. ring. }
  split; [exact Ua|]. split; [exact Av|]. split.
  { intros E. rewrite E, Uv in Av. assert (vdot v w * vdot v w = 0) by lra. apply Hd. nra. }
  assert (La : / 1000000 < vlen (vscale c a)) by (rewrite len_of_scale by (lra || assumption); lra).
  set (s := qi q * qi q + qj q * qj q).
  assert (S0 : 0 < s).
  { assert (S1 : 0 <= s) by (unfold s; nra). destruct S1 as [S1|S1]; [exact S1|]. exfalso. apply Hw.
    assert (I0 : qi q = 0) by (unfold s in S1; nra). assert (J0 : qj q = 0) by (unfold s in S1; nra).
    unfold w. revert U. destruct q as [r i j k]. cbn [qi qj] in I0, J0. subst i j.
    unfold unit_quat, qdot, rotate, qconj, mkq, re, im, vdot, vadd, vscale, vcross. cbn. intros U.
    f_equal; [f_equal|]; ring. }
  assert (St : madg_step freq beta_ incl (at_rest (vscale c a) None) q = Ok (0%Z, q)).
  { rewrite madg_rest by assumption. rewrite vnormalise_scale by (lra || assumption). fold v.
    replace (vsub v a) with (vscale (2 * vdot v w) w).
    2:{ unfold a. destruct v as [[v0 v1] v2], w as [[w0 w1] w2]. unfold vsub, vadd, vscale. f_equal; [f_equal|]; ring. }
    unfold w at 2. rewrite grad_radial by exact U. fold s. set (l := 4 * (2 * vdot v w) * s).
    assert (L0 : l <> 0) by (unfold l; intros E; apply Rmult_integral in E; destruct E; [|lra]; apply Hd; lra).
    assert (N : qnorm (qscale l q) = Rabs l).
    { unfold qnorm. rewrite qdot_scale. unfold unit_quat in U. rewrite U, Rmult_1_r. apply sqrt_Rsqr_abs. }
    assert (A0 : Rabs l <> 0) by now apply Rabs_no_R0.
    unfold qdir. rewrite N. destruct (Req_EM_T (Rabs l) 0) as [|_]; [contradiction|].
    unfold qnormalise. rewrite N, qscale_qscale. rewrite qscale_qscale.
    set (b := beta_ / IZR freq) in *. assert (B0 : 0 <= b) by (apply Rmult_le_pos; [lra|]; left; now apply Rinv_0_lt_compat).
    replace (- b * / Rabs l * l) with (- b * (/ Rabs l * l)) by ring. set (e := - b * (/ Rabs l * l)).
    replace (qplus q (qscale e q)) with (qscale (1 + e) q).
    2:{ destruct q. unfold qplus, qscale, mkq, re, im, vadd, vscale. cbn. f_equal; ring. }
    assert (E1 : / Rabs l * l = 1 \/ / Rabs l * l = -1).
    { unfold Rabs in *. destruct (Rcase_abs l); [right|left]; field; lra. }
    assert (E2 : / 1000000 <= 1 + e) by (unfold e; destruct E1 as [-> | ->]; lra).
    assert (N2 : qnorm (qscale (1 + e) q) = 1 + e).
    { unfold qnorm. rewrite qdot_scale. unfold unit_quat in U. rewrite U, Rmult_1_r. apply sqrt_square. lra. }
    rewrite unitised_normalise by (rewrite N2; exact E2). unfold qnormalise. rewrite N2, qscale_qscale.
    rewrite Rinv_l by lra. now rewrite qscale_1. }
  induction n as [|n IH]; [reflexivity|]. cbn [repeat history]. rewrite St. cbn [bind snd]. exact IH.
Qed.
Print Assumptions C142_stuck_refuted.
Example C142_case : let q := Quat (4 / 5) (3 / 5) 0 0 in
  let v := rotate q (0, 0, 1) in let w := rotate (qconj q) (0, 0, 1) in
  unit_quat q /\ w <> (0, 0, 1) /\ vdot v w = - (527 / 625).
Proof.
  cbv zeta. unfold unit_quat, qdot, rotate, qconj, mkq, re, im, vdot, vadd, vscale, vcross. cbn.
  split; [lra|]. split; [|lra]. intros E. injection E as E1 E2 E3. lra.
Qed.

(** Nor does it stay where it is right: with the reading the orientation
    predicts, of any length, the gradient vanishes, its direction is taken to
    be (1, 0, 0, 0), and the orientation moves. *)
Theorem C142_leaves_refuted freq beta_ incl (c : R) q :
  (0 < freq)%Z -> 0 < beta_ -> beta_ / IZR freq <= 1 - / 1000000 -> / 1000000 < c -> unit_quat q ->
  im q <> (0, 0, 0) ->
  exists q', madg_step freq beta_ incl (at_rest (vscale c (rotate q (0, 0, 1))) None) q = Ok (0%Z, q') /\
    unit_quat q' /\ q' <> q /\ q' <> qscale (-1) q.
Proof.
  intros Hf Hb Hs Hc U Hi. assert (P : 0 < IZR freq) by now apply IZR_lt.
  assert (Uv : vdot (rotate q (0, 0, 1)) (rotate q (0, 0, 1)) = 1) by (rewrite rotate_len by exact U; unfold vdot; ring).
  rewrite madg_rest by (try assumption; try lra; rewrite len_of_scale by (lra || assumption); lra).
  rewrite vnormalise_scale by (lra || assumption).
  assert (G : gravity_grad q (vsub (rotate q (0, 0, 1)) (rotate q (0, 0, 1))) = qzero).
  { destruct (rotate q (0, 0, 1)) as [[x y] z]. unfold vsub, vadd, vscale, gravity_grad, dot_rows, qplus, qscale, mkq, re, im.
    cbn. unfold qzero, mkq. f_equal; ring. }
  rewrite G. unfold qdir. rewrite qnorm_zero. destruct (Req_EM_T 0 0) as [_|]; [|congruence].
  set (b := beta_ / IZR freq) in *. assert (B0 : 0 < b) by (apply Rdiv_lt_0_compat; lra).
  set (z := qplus q (qscale (- b) qone)).
  assert (N : / 1000000 <= qnorm z).
  { pose proof (qdot_unit_bounds q qone U qone_unit) as B. unfold qnorm.
    assert (E : qdot z z = qdot q q + b * b - 2 * b * qdot q qone).
    { unfold z. destruct q. unfold qdot, qplus, qscale, qone, mkq, re, im, vdot, vadd, vscale. cbn. ring. }
    unfold unit_quat in U. rewrite E, U. rewrite <- (sqrt_Rsqr (/ 1000000)) by lra. apply sqrt_le_1_alt. unfold Rsqr.
    assert (/ 1000000 * / 1000000 <= (1 - b) * (1 - b)) by (apply Rmult_le_compat; lra).
    assert (0 <= b * (1 - qdot q qone)) by (apply Rmult_le_pos; lra). nra. }
  eexists. split; [reflexivity|]. split; [now apply unitised_unit|].
  rewrite unitised_normalise by exact N. unfold qnormalise. set (k := / qnorm z).
  assert (K : 0 < k) by (apply Rinv_0_lt_compat; lra).
  assert (X : forall e, (e = 1 \/ e = -1) -> qscale k z = qscale e q -> False).
  { intros e He. unfold z. destruct q as [r x y t]. unfold im in Hi. cbn [qi qj qk] in Hi.
    unfold qplus, qscale, qone, mkq, re, im, vadd, vscale. cbn. intros E. injection E as E0 E1 E2 E3.
    assert (M : (k - e) * x = 0 /\ (k - e) * y = 0 /\ (k - e) * t = 0) by (repeat split; lra).
    destruct M as (M1 & M2 & M3).
    assert (k = e).
    { destruct (Req_dec k e) as [|D]; [assumption|]. exfalso. apply Hi.
      apply Rmult_integral in M1. apply Rmult_integral in M2. apply Rmult_integral in M3.
      f_equal; [f_equal|]; [destruct M1|destruct M2|destruct M3]; lra. }
    subst e. assert (k * b = 0) by lra. nra. }
  split; intros E.
  - apply (X 1); [now left|]. now rewrite qscale_1.
  - apply (X (-1)); [now right|exact E].
Qed.
Print Assumptions C142_leaves_refuted.
