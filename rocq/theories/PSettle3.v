(** The accelerometer correction of AQUA takes away at least the share alpha^2
    of what is missing to the vertical. *)
From Coquelicot Require Import Coquelicot.
From Coq Require Import List Arith ZArith Bool Reals Lra Lia Nsatz.
From Verif Require Import Base BaseFacts NumR Libm LibmR SpecReal RTac SpecMtx MQuat SpecQuat PQuat PQuatRot PQuatTrig PQuatEul MFusion
  SpecFusion PFusion PFusion2.
Import ListNotations.
Local Open Scope R_scope.

(** sin (t x) >= t sin x on [0, pi/2] *)
Lemma sin_share t x : 0 <= t <= 1 -> 0 <= x <= PI -> t * sin x <= sin (x * t).
Proof.
  intros Ht Hx. destruct (Req_dec x 0) as [->|X0]; [rewrite Rmult_0_l, sin_0; lra|].
  set (f := fun y => sin (x * y) - y * sin x).
  (* f vanishes at 0 and 1 and is concave between *)
  destruct (Rle_dec 0 (f t)) as [|N]; [unfold f in *; lra|exfalso].
  assert (F0 : f 0 = 0) by (unfold f; rewrite Rmult_0_r, sin_0; ring).
  assert (F1 : f 1 = 0) by (unfold f; rewrite Rmult_1_r; ring).
  assert (t <> 0) by (intros ->; lra). assert (t <> 1) by (intros ->; lra).
  assert (D : forall y, is_derive f y (x * cos (x * y) - sin x)).
  { intros y. unfold f. auto_derive; [exact I|ring]. }
  destruct (MVT_gen f 0 t (fun y => x * cos (x * y) - sin x)) as (c1 & C1 & E1).
  { intros; apply D. }
  { intros. apply continuity_pt_filterlim. apply (ex_derive_continuous f). eexists; apply D. }
  destruct (MVT_gen f t 1 (fun y => x * cos (x * y) - sin x)) as (c2 & C2 & E2).
  { intros; apply D. }
  { intros. apply continuity_pt_filterlim. apply (ex_derive_continuous f). eexists; apply D. }
  rewrite Rmin_left, Rmax_right in C1 by lra. rewrite Rmin_left, Rmax_right in C2 by lra.
  rewrite F0 in E1. rewrite F1 in E2.
  assert (N1 : x * cos (x * c1) - sin x < 0) by nra.
  assert (N2 : 0 < x * cos (x * c2) - sin x) by nra.
  assert (L : cos (x * c2) <= cos (x * c1)).
  { destruct (Req_dec c1 c2) as [->|]; [lra|]. left. apply cos_decreasing_1; nra. }
  nra.
Qed.

Lemma scale_down_gain bc (D d : quat R) (e t : R) :
  unit_quat D -> 0 <= qr D -> 0 <= t <= 1 -> e <= 1 - / 1000000 ->
  scale_down bc D e t = Ok d ->
  exists x y, 0 <= x /\ t <= y /\ d = qplus (qscale x qone) (qscale y D).
Proof.
  intros U P Ht He. unfold scale_down. rewrite identity_one. rops.
  assert (B : qr D <= 1) by (pose proof (qdot_unit_bounds qone D qone_unit U) as B; rewrite qdot_one in B; lra).
  destruct (Rltb_spec e (qr D)) as [L|L].
  - rewrite quat_lerp_ok by auto. cbn [bind local]. intros E; injection E as <-.
    rewrite (unitised_of_unit _ qone_unit), (unitised_of_unit _ U).
    set (z := qplus _ _).
    assert (E : qdot z z = (1 - t) * (1 - t) * qdot qone qone + t * t * qdot D D
                               + 2 * (t * (1 - t)) * qdot qone D).
    { unfold z. destruct D. unfold qdot, qplus, qscale, qone, mkq, re, im, vdot, vadd, vscale.
      cbn. ring. }
    rewrite (qdot_one D), U, qone_unit in E.
    assert (N : / 1000000 <= qnorm z).
    { apply Rle_trans with (sqrt (1 / 4)).
      - rewrite <- (sqrt_Rsqr (/ 1000000)) by lra. apply sqrt_le_1_alt. unfold Rsqr. lra.
      - apply sqrt_le_1_alt. rewrite E.
        assert (0 <= t * (1 - t) * qr D) by (apply Rmult_le_pos; nra). nra. }
    assert (N1 : qnorm z <= 1).
    { rewrite <- sqrt_1. apply sqrt_le_1_alt. rewrite E.
      assert (0 <= t * (1 - t) * (1 - qr D)) by (apply Rmult_le_pos; nra). nra. }
    rewrite unitised_big by exact N. exists (/ qnorm z * (1 - t)), (/ qnorm z * t).
    assert (1 <= / qnorm z) by (rewrite <- Rinv_1; apply Rinv_le_contravar; lra).
    split; [nra|]. split; [nra|]. unfold z. now rewrite qscale_qplus, !qscale_qscale.
  - destruct (Req_EM_T t 0) as [->|T0].
    { unfold quat_slerp. rewrite !quat_to_unit_ok. cbn [bind]. rops.
      replace (10 / 10) with 1 by field. rewrite (Rltb_false 0 0), (Rltb_false 1 0) by lra.
      cbn [orb]. rewrite andb_false_r. rewrite (Reqb_true 0 0) by reflexivity. cbn [bind local].
      intros E; injection E as <-. rewrite (unitised_of_unit _ qone_unit).
      exists 1, 0. rewrite qplus_1_0. repeat split; lra. }
    destruct (Req_EM_T t 1) as [->|T1].
    { unfold quat_slerp. rewrite !quat_to_unit_ok. cbn [bind]. rops.
      replace (10 / 10) with 1 by field. rewrite (Rltb_false 1 0), (Rltb_false 1 1) by lra.
      cbn [orb]. rewrite andb_false_r. rewrite (Reqb_false 1 0) by lra.
      rewrite (Reqb_true 1 1) by reflexivity. cbn [bind local].
      intros E; injection E as <-. rewrite (unitised_of_unit _ U).
      exists 0, 1. rewrite qplus_0_1. repeat split; lra. }
    assert (S : ~ Rabs (qr D - 1) < / 1000000) by (rewrite Rabs_left1 by lra; lra).
    rewrite quat_slerp_ok; rewrite ?(unitised_of_unit _ qone_unit), ?(unitised_of_unit _ U), ?qdot_one;
      try lra; [|rewrite Rabs_pos_eq by lra; lra].
    cbn [bind local]. intros E; injection E as <-.
    set (phi := acos (qr D)).
    assert (Hphi : 0 <= phi <= PI) by apply acos_bound.
    assert (Hs : 0 < sin phi).
    { unfold phi. rewrite sin_acos by lra. apply sqrt_lt_R0. unfold Rsqr. nra. }
    exists (sin (phi * (1 - t)) / sin phi), (sin (phi * t) / sin phi).
    split; [|split; [|reflexivity]].
    + apply Rmult_le_pos; [apply sin_ge_0; nra|left; now apply Rinv_0_lt_compat].
    + apply (Rle_div_r _ _ (sin phi)); [lra|]. now apply sin_share.
Qed.

Lemma acc_gain t e bc s va q1 :
  unit_quat s -> vlen va <> 0 -> coord 2 (rotate (qconj s) (vnormalise va)) <> -1 ->
  0 <= t <= 1 -> e <= 1 - / 1000000 -> aqua_acc t e bc s va q1 ->
  1 - coord 2 (rotate (qconj q1) (vnormalise va))
  <= (1 - t * t) * (1 - coord 2 (rotate (qconj s) (vnormalise va))).
Proof.
  intros Us Hv Hg Ht He (d & Ed & T & ->).
  pose proof (rotate_unit_len (qconj s) va (qconj_unit _ Us) Hv) as G.
  rewrite rotate_conj_hprod by (try exact Us; apply T).
  set (g := rotate (qconj s) (vnormalise va)) in *.
  destruct (tilt_facts g G Hg) as (UD & PD & RD).
  destruct (scale_down_gain bc _ d e t UD ltac:(lra) Ht He Ed) as (x & y & X & Y & E).
  destruct T as (Ud & _).
  assert (Q3 : qk (tilt g) = 0) by (destruct g as [[? ?] ?]; reflexivity).
  set (D := tilt g) in *.
  rewrite <- RD. rewrite <- rotate_hprod by (try apply qconj_unit; assumption).
  rewrite E in Ud |- *. destruct D as [r p o k]. cbn [qr qk] in PD, Q3. subst k.
  unfold unit_quat, qdot, qplus, qscale, qone, mkq, re, im, vdot, vadd, vscale in UD, Ud. cbn in UD, Ud.
  unfold rotate, hprod, qconj, qplus, qscale, qone, mkq, re, im, vdot, vadd, vscale, vcross. cbn.
  assert (Q : x * x + 2 * (x * y * r) + y * y = 1) by nra.
  assert (K : t * t <= 1 - x * x).
  { assert (0 <= x * y * r) by (repeat apply Rmult_le_pos; lra). nra. }
  assert (S : 0 <= p * p + o * o) by nra.
  match goal with |- 1 - ?l <= _ => replace (1 - l) with (2 * (x * x * (p * p + o * o))) end.
  2:{ clear - UD Ud. nsatz. }
  match goal with |- _ <= _ * (1 - ?l) => replace (1 - l) with (2 * (p * p + o * o)) by (clear - UD; nsatz) end.
  nra.
Qed.
