(** Property C143: a turn the gyroscope reports moves the directions the
    orientation predicts as a body that makes this turn sees them move. *)
From Coquelicot Require Import Coquelicot.
From Coq Require Import List Arith ZArith Bool Reals Lra Lia Nsatz.
From Verif Require Import Base BaseFacts NumR Libm LibmR RTac SpecReal MVec SpecVec SpecMtx MQuat SpecQuat PQuat PQuatRot
  PQuatEul MFusion SpecFusion PFusion PFusion2 PropFusion PropFusion2 PSettle PropSettle PropSettle2.
Import ListNotations.
Local Open Scope R_scope.
Implicit Types (q : quat R) (v w n : v3).

(** a sensor that turns at the rate r about the unit axis n and reports
    nothing else *)
Definition turning (r : R) (n : v3) : sample := (None, None, [r * coord 0 n; r * coord 1 n; r * coord 2 n]).
(** A body that has turned by the angle b about the axis n sees a direction of
    the surroundings turned by -b. *)
Definition seen_after (b : R) (n : v3) (x : v3) : v3 := rodrigues n (- b) x.
(** The angle a first order step makes for a turn by y: y up to the third
    order. *)
Definition step_angle (y : R) : R := 2 * atan (y / 2).

Lemma turn_rodrigues n (h : R) v : vdot n n = 1 -> turn (vscale h n) v = rodrigues n (2 * atan h) v.
Proof.
  intros Hn.
  pose proof (cos_atan h) as C. pose proof (sin_atan h) as S.
  assert (P : 0 < 1 + h * h) by nra.
  set (d := sqrt (1 + h * h)). assert (D : 0 < d) by (apply sqrt_lt_R0; exact P).
  assert (D2 : d * d = 1 + h * h) by (apply sqrt_sqrt; lra).
  unfold Rsqr in C, S. fold d in C, S.
  unfold rodrigues. rewrite sin_2a, cos_2a, C, S. unfold turn.
  assert (E : vdot (vscale h n) (vscale h n) = h * h).
  { replace (vdot (vscale h n) (vscale h n)) with (h * h * vdot n n)
      by (destruct n as [[x y] z]; unfold vdot, vscale; ring). rewrite Hn. ring. }
  rewrite E, <- D2.
  assert (C2 : 1 / d * (1 / d) - h / d * (h / d) = (1 - h * h) / (d * d)) by (field; lra).
  assert (S2 : 2 * (h / d) * (1 / d) = 2 * h / (d * d)) by (field; lra).
  rewrite C2, S2, D2. assert (I : / (1 + h * h) * (1 + h * h) = 1) by (apply Rinv_l; lra).
  unfold Rdiv. set (k := / (1 + h * h)) in *.
  clear - I Hn. clearbody k. destruct n as [[a b] c], v as [[x y] z].
  unfold vdot, vscale, vcross, vadd in *. f_equal; [f_equal|]; nsatz.
Qed.

Lemma spin_turn (t r : R) n q x : vdot n n = 1 -> unit_quat q ->
  rotate (spin t (vscale r n) q) x = rodrigues n (2 * atan (r * t / 2)) (rotate q x).
Proof.
  intros Hn U. rewrite rotate_spin by exact U.
  replace (vscale (t / 2) (vscale r n)) with (vscale (r * t / 2) n)
    by (destruct n as [[a b] c]; unfold vscale; f_equal; [f_equal|]; field).
  now apply turn_rodrigues.
Qed.

Lemma step_angle_close y : 0 <= y -> y - y * y * y / 12 <= step_angle y <= y.
Proof.
  intros Hy. unfold step_angle.
  assert (D : forall x, is_derive atan x (/ (1 + x * x))).
  { intros x. auto_derive; [exact I|]. unfold Rsqr. field. nra. }
  assert (U : forall h, 0 <= h -> atan h <= h).
  { intros h Hh. destruct (Req_dec h 0) as [->|]; [rewrite atan_0; lra|].
    destruct (MVT_gen atan 0 h (fun x => / (1 + x * x))) as (c & C & E).
    { intros; apply D. } { intros. apply continuity_pt_filterlim. apply (ex_derive_continuous atan). eexists; apply D. }
    rewrite atan_0, Rminus_0_r, Rminus_0_r in E. rewrite E.
    assert (/ (1 + c * c) <= 1) by (rewrite <- Rinv_1; apply Rinv_le_contravar; nra). nra. }
  assert (L : forall h, 0 <= h -> h - h * h * h / 3 <= atan h).
  { intros h Hh. destruct (Req_dec h 0) as [->|]; [rewrite atan_0; lra|].
    set (f := fun x => atan x - x + x * x * x / 3).
    destruct (MVT_gen f 0 h (fun x => / (1 + x * x) - 1 + x * x)) as (c & C & E).
    { intros. unfold f. auto_derive; [exact I|]. unfold Rsqr. field. nra. }
    { intros. apply continuity_pt_filterlim. apply (ex_derive_continuous f). unfold f. auto_derive. exact I. }
    assert (F0 : f 0 = 0) by (unfold f; rewrite atan_0; field).
    rewrite F0, !Rminus_0_r in E.
    assert (0 <= / (1 + c * c) - 1 + c * c).
    { replace (/ (1 + c * c) - 1 + c * c) with (c * c * (c * c) / (1 + c * c)) by (field; nra).
      apply Rmult_le_pos; [nra|]. left. apply Rinv_0_lt_compat. nra. }
    assert (0 <= f h) by (rewrite E; nra). unfold f in *. lra. }
  specialize (U (y / 2) ltac:(lra)). specialize (L (y / 2) ltac:(lra)). split; nra.
Qed.

Lemma turning_sized r n : well_sized (turning r n) (None, None, vscale r n).
Proof. unfold turning. destruct n as [[x y] z]. cbn. auto. Qed.

(** AQUA turns the predicted directions the right way: by the opposite of the
    reported turn, up to the third order of its angle. *)
Theorem C143_aqua freq c ini (r : R) n q x :
  (0 < freq)%Z -> (0 < ini)%Z -> 0 <= alpha c <= 1 -> 0 <= MFusion.beta c <= 1 -> unit_quat q -> vdot n n = 1 -> 0 <= r ->
  exists q', aqua_step freq (turning r n) (q, c, ini) = Ok (0%Z, (q', c, ini)) /\
    let y := r / IZR freq in
    rotate q' x = seen_after (step_angle y) n (rotate q x) /\ y - y * y * y / 12 <= step_angle y <= y.
Proof.
  intros Hf Hi Ha Hb U Hn Hr. assert (P : 0 < IZR freq) by now apply IZR_lt. unfold aqua_step.
  rewrite (sens_of_sized _ _ _ _ q (turning_sized r n)). unfold aqua_feed. rops. replace (10 / 10) with 1 by field.
  rewrite !Rltb_false by lra. cbn [orb].
  replace (ini =? 0)%Z with false by (symmetry; apply Z.eqb_neq; lia). cbn [bind].
  pose proof (fus_aqua_ok true freq c None None (vscale r n) q [] [] [] Hf (unit_norm _ U) Ha Hb) as F.
  cbv zeta in F. cbn [usable] in F. rewrite F. cbn [bind sq]. eexists. split; [reflexivity|]. split.
  - replace (vscale (-1) (vscale r n)) with (vscale (- r) n)
      by (destruct n as [[a b] d]; unfold vscale; f_equal; [f_equal|]; ring).
    rewrite spin_turn by assumption. unfold seen_after, step_angle. f_equal.
    replace (- r * / IZR freq / 2) with (- (r / IZR freq / 2)) by (field; lra). rewrite atan_opp. ring.
  - apply step_angle_close. apply Rmult_le_pos; [exact Hr|]. left. now apply Rinv_0_lt_compat.
Qed.
Print Assumptions C143_aqua.

(** Mahony's and Madgwick's filters, whose predictions are the same
    [rotate q x], turn them the other way. *)
Theorem C143_mahony_madgwick_refuted freq incl kp_ ki_ lim beta_ (r : R) n q fb x :
  (0 < freq)%Z -> 0 <= kp_ -> 0 <= ki_ -> 0 <= beta_ -> unit_quat q -> vdot n n = 1 ->
  exists q', mahn_step freq incl kp_ ki_ lim (turning r n) (q, fb) = Ok (0%Z, (q', fb)) /\
    madg_step freq beta_ incl (turning r n) q = Ok (0%Z, q') /\
    rotate q' x = seen_after (- step_angle (r / IZR freq)) n (rotate q x).
Proof.
  intros Hf Hp Hi Hb U Hn. assert (P : 0 < IZR freq) by now apply IZR_lt.
  exists (spin (/ IZR freq) (vscale r n) q). split; [|split].
  - unfold mahn_step. rewrite (sens_of_sized _ _ _ _ q (turning_sized r n)). unfold mahn_feed. cbn [kp ki]. rops.
    rewrite !Rltb_false by lra. cbn [orb]. rewrite mahony_ok by (try assumption; now apply unit_norm).
    cbn [usable bind intfb sq]. rewrite rd3_hold. reflexivity.
  - unfold madg_step. rewrite (sens_of_sized _ _ _ _ q (turning_sized r n)). unfold madg_feed. rops.
    rewrite Rltb_false by lra. rewrite madgwick_ok by (try assumption; now apply unit_norm).
    cbn [usable bind sq]. unfold madg_dir. cbn [usable].
    assert (Us : unit_quat (spin (/ IZR freq) (vscale r n) q)) by (apply spin_unit; rewrite (qnorm_unit _ U); lra).
    replace (qplus _ (qscale _ qzero)) with (spin (/ IZR freq) (vscale r n) q).
    + now rewrite (unitised_of_unit _ Us).
    + destruct (spin (/ IZR freq) (vscale r n) q). unfold qplus, qscale, qzero, mkq, re, im, vadd, vscale. cbn. f_equal; ring.
  - rewrite spin_turn by assumption. unfold seen_after, step_angle. f_equal. rewrite Ropp_involutive.
    reflexivity.
Qed.
Print Assumptions C143_mahony_madgwick_refuted.
Example C143_case : vdot (0, 3 / 5, 4 / 5) (0, 3 / 5, 4 / 5) = 1 /\ unit_quat (Quat (4 / 5) (3 / 5) 0 0).
Proof. split; [unfold vdot; lra|]. unfold unit_quat, qdot, re, im, vdot; cbn; lra. Qed.
