(** Properties C140 and C141: what the complementary filter and AQUA settle on
    when the sensor is at rest. *)
From Coquelicot Require Import Coquelicot.
From Coq Require Import List Arith ZArith Bool Reals Lra Lia.
From Verif Require Import Base BaseFacts NumR Libm LibmR RTac SpecReal MVec SpecVec SpecMtx MQuat SpecQuat PQuat PQuatRot
  PQuatEul MAhrs MFusion SpecFusion PFusion PFusion2 PropFusion PropFusion2 PSettle PSettle2 PSettle3 PropSettle.
Import ListNotations.
Local Open Scope R_scope.
Implicit Types (q : quat R) (v w a m : v3).

Lemma spin_still t q : unit_quat q -> spin t (0, 0, 0) q = q.
Proof.
  intros U. pose proof (spin_rest t q U) as E. unfold vscale in E.
  replace (-1 * 0) with 0 in E by ring. exact E.
Qed.

(** ** C140: the complementary filter
    Fed for ever with the same acceleration and magnetic field and no turning,
    the orientation tends to the one those two readings alone give (the
    attitude of zsl_att_from_accelmag, in degrees, as a quaternion), from every
    unit orientation but its exact opposite. *)
Theorem C140_complementary_settles freq al a m q :
  (0 < freq)%Z -> 0 < al <= 1 -> / 1000000 <= Rabs (1 - 2 * al) -> unit_quat q ->
  / 1000000 < vlen a -> / 1000000 < vlen m ->
  exists att (u : nat -> quat R),
    att_from_accelmag true (hold a []) (hold m []) (Att 0 0 0 0%Z) = Ok (0%Z, att) /\
    let target := eul (roll att * d2r) (pitch att * d2r) (yaw att * d2r) in
    (forall n, history (comp_step freq al) (repeat (at_rest a (Some m)) n) q = Ok (u n)) /\
    (forall n, unit_quat (u n)) /\
    (q <> qscale (-1) target -> forall j, is_lim_seq (fun n => qcomp j (u n)) (qcomp j target)).
Proof.
  intros Hf Ha Hs U La Lm.
  assert (St : forall x, unit_quat x -> exists att,
    att_from_accelmag true (hold a []) (hold m []) (Att 0 0 0 0%Z) = Ok (0%Z, att) /\
    comp_step freq al (at_rest a (Some m)) x
    = Ok (0%Z, unitised (mix al x (eul (roll att * d2r) (pitch att * d2r) (yaw att * d2r))))).
  { intros x Ux. destruct (fus_comp_ok true freq al (Some a) (Some m) (0, 0, 0) x [] [] [] Hf (unit_norm _ Ux) ltac:(lra))
      as (q' & E & H). rewrite (usable_long a La), (usable_long m Lm) in H. destruct H as (att & Ea & ->).
    exists att. split; [exact Ea|]. unfold comp_step.
    rewrite (sens_of_sized _ _ _ _ x (at_rest_sized a (Some m))). unfold comp_feed. rops.
    replace (10 / 10) with 1 by field. rewrite !Rltb_false by lra. cbn [orb]. rewrite E. cbn [bind sq].
    now rewrite (spin_still _ _ Ux). }
  destruct (St q U) as (att & Ea & _). exists att.
  set (target := eul (roll att * d2r) (pitch att * d2r) (yaw att * d2r)).
  assert (Ut : unit_quat target) by apply eul_unit.
  set (next := fun x => unitised (mix al x target)).
  assert (Hn : forall x, unit_quat x -> / 1000000 <= qnorm (mix al x target)).
  { intros x Ux. eapply Rle_trans; [exact Hs|]. apply mix_norm; [lra|exact Ux|exact Ut]. }
  assert (Un : forall x, unit_quat x -> unit_quat (next x)) by (intros x Ux; apply unitised_unit, Hn, Ux).
  set (u := fun n => Nat.iter n next q).
  assert (Uu : forall n, unit_quat (u n)) by (induction n as [|n IH]; [exact U|exact (Un _ IH)]).
  exists u. split; [exact Ea|]. cbv zeta. fold target. split; [|split; [exact Uu|]].
  - assert (G : forall (k : nat) x, unit_quat x ->
      history (comp_step freq al) (repeat (at_rest a (Some m)) k) x = Ok (Nat.iter k next x)).
    { induction k as [|k IH]; intros x Ux; [reflexivity|]. cbn [repeat history].
      destruct (St x Ux) as (att' & Ea' & ->). rewrite Ea in Ea'. injection Ea' as <-.
      cbn [bind snd]. fold target. change (unitised (mix al x target)) with (next x).
      rewrite iter_in. now apply IH, Un. }
    intros n. apply G, U.
  - intros Ne. apply same_limit; [exact Ut|exact Uu|].
    assert (Pn : forall n, 0 < sqrt (nsq al (qdot (u n) target))).
    { intros n. apply sqrt_lt_R0. pose proof (qdot_unit_bounds _ _ (Uu n) Ut) as B.
      pose proof (nsq_low al (qdot (u n) target) ltac:(lra) ltac:(lra)).
      assert (0 < Rabs (1 - 2 * al) * Rabs (1 - 2 * al)) by nra.
      rewrite <- Rabs_mult, Rabs_pos_eq in H0 by apply Rle_0_sqr. lra. }
    apply (lerp_limit al); [exact Ha| | |exact Pn|].
    + intros n. apply qdot_unit_bounds; [apply Uu|exact Ut].
    + destruct (qdot_unit_bounds _ _ U Ut) as [[L|E] _]; [exact L|]. exfalso. apply Ne.
      assert (Z : qdot (qplus q target) (qplus q target) = 0).
      { replace (qdot (qplus q target) (qplus q target)) with (qdot q q + qdot target target + 2 * qdot q target).
        - unfold unit_quat in *. rewrite U, Ut. lra.
        - destruct q as [q0 q1 q2 q3], target as [t0 t1 t2 t3]. unfold qdot, qplus, mkq, re, im, vdot, vadd. cbn. ring. }
      revert Z. clearbody target. destruct q as [q0 q1 q2 q3], target as [t0 t1 t2 t3].
      unfold qdot, qplus, qscale, mkq, re, im, vdot, vadd, vscale. cbn. intros Z.
      pose proof (Rle_0_sqr (q0 + t0)); pose proof (Rle_0_sqr (q1 + t1)); pose proof (Rle_0_sqr (q2 + t2));
        pose proof (Rle_0_sqr (q3 + t3)).
      assert (X : forall x, 0 <= Rsqr x -> Rsqr x <= 0 -> x = 0) by (intros x X1 X2; apply Rsqr_0_uniq; lra).
      assert (q0 + t0 = 0) by (apply X; [assumption|unfold Rsqr in *; lra]).
      assert (q1 + t1 = 0) by (apply X; [assumption|unfold Rsqr in *; lra]).
      assert (q2 + t2 = 0) by (apply X; [assumption|unfold Rsqr in *; lra]).
      assert (q3 + t3 = 0) by (apply X; [assumption|unfold Rsqr in *; lra]).
      f_equal; lra.
    + intros n. change (u (S n)) with (unitised (mix al (u n) target)).
      apply lerp_law; [apply Uu|exact Ut|apply Hn, Uu].
Qed.
Print Assumptions C140_complementary_settles.
Example C140_case :
  (0 < 100)%Z /\ 0 < 1 / 50 <= 1 /\ / 1000000 <= Rabs (1 - 2 * (1 / 50)) /\ unit_quat (Quat (4 / 5) (3 / 5) 0 0).
Proof.
  split; [lia|]. split; [lra|]. split; [rewrite Rabs_pos_eq by lra; lra|].
  unfold unit_quat, qdot, re, im, vdot; cbn; lra.
Qed.

(** ** C141: AQUA
    [rotate (qconj q) a] is the measured acceleration in the earth's frame,
    according to q; its third coordinate is the cosine of the angle to the
    vertical. *)
Definition upright q a : R := coord 2 (rotate (qconj q) (vnormalise a)).

Definition aqua_step freq (i : sample) (s : quat R * aqua_cfg * Z) : outcome (Z * (quat R * aqua_cfg * Z)) :=
  let '(q, c, ini) := s in
  let! (((rc, s), c), ini) := aqua_feed true freq ini c (sens_of i q) in
  Ok (rc, (sq s, c, ini)).

(** one feed at rest, whatever the magnetometer says *)
Lemma aqua_rest freq c ini a (m : option v3) q rc q' c' ini' :
  (0 < freq)%Z -> (0 < ini)%Z -> unit_quat q -> 0 <= alpha c <= 1 -> 0 <= MFusion.beta c <= 1 ->
  e_a c <= 1 - / 1000000 -> / 1000000 < vlen a ->
  aqua_step freq (at_rest a m) (q, c, ini) = Ok (rc, (q', c', ini')) ->
  rc = 0%Z /\ c' = c /\ ini' = ini /\ unit_quat q' /\ upright q a <> -1 /\
  1 - upright q' a <= (1 - alpha c * alpha c) * (1 - upright q a).
Proof.
  intros Hf Hi U Ha Hb He La. unfold aqua_step.
  rewrite (sens_of_sized _ _ _ _ q (at_rest_sized a m)). unfold aqua_feed. rops. replace (10 / 10) with 1 by field.
  rewrite !Rltb_false by lra. cbn [orb].
  replace (ini =? 0)%Z with false by (symmetry; apply Z.eqb_neq; lia). cbn [bind].
  pose proof (fus_aqua_ok true freq c (Some a) m (0, 0, 0) q [] [] [] Hf (unit_norm _ U) Ha Hb) as F. cbv zeta in F.
  rewrite (usable_long a La) in F. replace (vscale (-1) (0, 0, 0)) with (0, 0, 0) in F
    by (unfold vscale; f_equal; [f_equal|]; ring).
  rewrite (spin_still _ _ U) in F. destruct F as [F1 F2].
  intros E. unfold upright.
  destruct (Req_EM_T (coord 2 (rotate (qconj q) (vnormalise a))) (-1)) as [D|D].
  { rewrite (F1 D) in E. discriminate. }
  destruct (F2 D) as (q1 & A & U1 & F3).
  pose proof (acc_gain _ _ _ _ a q1 U ltac:(lra) D Ha He A) as G.
  destruct (usable m) as [vm|] eqn:Um.
  2:{ rewrite F3 in E. cbn [bind sq] in E. injection E as <- <- <- <-. auto 9. }
  destruct (usable_len _ _ Um) as [_ Lm]. destruct F3 as [F3 F4].
  assert (S : steerable (rotate (qconj q1) (vnormalise vm)) \/ ~ steerable (rotate (qconj q1) (vnormalise vm))).
  { destruct (rotate (qconj q1) (vnormalise vm)) as [[lx ly] lz]. unfold steerable.
    destruct (Req_EM_T ly 0), (Rlt_dec 0 lx); auto; right; intros [|]; contradiction. }
  destruct S as [S|S]; [|rewrite (F3 S) in E; discriminate].
  destruct (F4 S) as (q2 & B & U2 & F5). rewrite F5 in E. cbn [bind sq] in E. injection E as <- <- <- <-.
  destruct (aqua_mag_effect _ _ _ _ vm q2 U1 ltac:(lra) S B) as (_ & _ & N3 & _).
  rewrite N3. auto 9.
Qed.

(** Each feed removes at least the share alpha^2 of what the measured vertical
    misses, with or without a magnetometer, as long as the feeds have an
    outcome. *)
Theorem C141_aqua_settles freq c ini a (m : option v3) n q s :
  (0 < freq)%Z -> (0 < ini)%Z -> unit_quat q -> 0 <= alpha c <= 1 -> 0 <= MFusion.beta c <= 1 ->
  e_a c <= 1 - / 1000000 -> / 1000000 < vlen a ->
  history (aqua_step freq) (repeat (at_rest a m) n) (q, c, ini) = Ok s ->
  exists q', s = (q', c, ini) /\ unit_quat q' /\
    0 <= 1 - upright q' a <= (1 - alpha c * alpha c) ^ n * (1 - upright q a).
Proof.
  intros Hf Hi U Ha Hb He La. revert q U. induction n as [|n IH]; intros q U.
  - cbn [repeat history]. intros E. injection E as <-. exists q. split; [reflexivity|]. split; [exact U|].
    cbn [pow]. split; [|lra]. unfold upright.
    pose proof (rotate_unit_len (qconj q) a (qconj_unit _ U) ltac:(lra)) as G.
    destruct (rotate (qconj q) (vnormalise a)) as [[x y] z]. unfold vdot in G. cbn [coord]. nra.
  - cbn [repeat history]. intros E. apply bind_inv in E. destruct E as ((rc & ((q1 & c1) & i1)) & E1 & E2).
    destruct (aqua_rest freq c ini a m q rc q1 c1 i1 Hf Hi U Ha Hb He La E1) as (_ & -> & -> & U1 & _ & G).
    cbn [snd] in E2. destruct (IH q1 U1 E2) as (q' & -> & U' & B0 & B). exists q'. split; [reflexivity|]. split; [exact U'|].
    split; [exact B0|]. eapply Rle_trans; [exact B|]. cbn [pow].
    assert (P : 0 <= (1 - alpha c * alpha c) ^ n) by (apply pow_le; nra).
    replace ((1 - alpha c * alpha c) * (1 - alpha c * alpha c) ^ n * (1 - upright q a))
      with ((1 - alpha c * alpha c) ^ n * ((1 - alpha c * alpha c) * (1 - upright q a))) by ring.
    apply Rmult_le_compat_l; [exact P|exact G].
Qed.
Print Assumptions C141_aqua_settles.

(** Without a magnetometer the feeds always have an outcome, unless the first
    one finds the sensor exactly upside down; so the angle tends to zero. *)
Theorem C141_aqua_vertical freq c ini a q :
  (0 < freq)%Z -> (0 < ini)%Z -> unit_quat q -> 0 < alpha c <= 1 -> 0 <= MFusion.beta c <= 1 ->
  e_a c <= 1 - / 1000000 -> / 1000000 < vlen a -> upright q a <> -1 ->
  exists u : nat -> quat R,
    (forall n, unit_quat (u n)) /\
    (forall n, history (aqua_step freq) (repeat (at_rest a None) n) (q, c, ini) = Ok (u n, c, ini)) /\
    is_lim_seq (fun n => upright (u n) a) 1.
Proof.
  intros Hf Hi U Ha Hb He La Hu.
  assert (Z : forall n x, unit_quat x -> upright x a <> -1 -> exists x',
     history (aqua_step freq) (repeat (at_rest a None) n) (x, c, ini) = Ok (x', c, ini) /\ unit_quat x').
  { induction n as [|n IH]; intros x Ux Hx; [now exists x|]. cbn [repeat history].
    destruct (C102_aqua_defined true freq ini c (Some a) None (0, 0, 0) x [] [] [] Hf Hi (unit_norm _ Ux) ltac:(lra) Hb)
      as (s' & E).
    { intros va. rewrite (usable_long a La). intros V. injection V as <-.
      replace (vscale (-1) (0, 0, 0)) with (0, 0, 0) by (unfold vscale; f_equal; [f_equal|]; ring).
      rewrite (spin_still _ _ Ux). intros V. apply Hx. unfold upright. now rewrite V. }
    { now right. }
    assert (E1 : aqua_step freq (at_rest a None) (x, c, ini) = Ok (0%Z, (sq s', c, ini))).
    { unfold aqua_step. rewrite (sens_of_sized _ _ _ _ x (at_rest_sized a None)). rewrite E. reflexivity. }
    rewrite E1. cbn [bind snd].
    destruct (aqua_rest freq c ini a None x _ _ _ _ Hf Hi Ux ltac:(lra) Hb He La E1) as (_ & _ & _ & U1 & _ & G).
    apply IH; [exact U1|]. intros V. rewrite V in G.
    assert (B : -1 <= upright x a <= 1).
    { unfold upright. pose proof (rotate_unit_len (qconj x) a (qconj_unit _ Ux) ltac:(lra)) as G1.
      destruct (rotate (qconj x) (vnormalise a)) as [[p o] z]. unfold vdot in G1. cbn [coord]. nra. }
    assert (0 <= (alpha c * alpha c) * (1 - upright x a)) by (apply Rmult_le_pos; nra). apply Hx. lra. }
  set (u := fun n => match history (aqua_step freq) (repeat (at_rest a None) n) (q, c, ini) with
                     | Ok (x, _, _) => x | _ => q end).
  assert (Eu : forall n, history (aqua_step freq) (repeat (at_rest a None) n) (q, c, ini) = Ok (u n, c, ini)
                         /\ unit_quat (u n)).
  { intros n. unfold u. destruct (Z n q U Hu) as (x' & -> & Ux'). auto. }
  clearbody u.
  exists u. split; [intros n; apply Eu|]. split; [intros n; apply Eu|].
  assert (K : 0 <= 1 - alpha c * alpha c < 1) by nra.
  assert (L : is_lim_seq (fun n => (1 - alpha c * alpha c) ^ n * (1 - upright q a)) 0).
  { replace 0 with (0 * (1 - upright q a)) by ring. apply is_lim_seq_mult'; [|apply is_lim_seq_const].
    apply is_lim_seq_geom. rewrite Rabs_pos_eq; lra. }
  assert (L1 : is_lim_seq (fun n => 1 - upright (u n) a) 0).
  { apply (is_lim_seq_le_le (fun _ => 0) _ (fun n => (1 - alpha c * alpha c) ^ n * (1 - upright q a)));
      [|apply is_lim_seq_const|exact L].
    intros n. destruct (Eu n) as [E _].
    destruct (C141_aqua_settles freq c ini a None n q _ Hf Hi U ltac:(lra) Hb He La E) as (q' & V & _ & B).
    injection V as <-. exact B. }
  replace 1 with (1 - 0) by ring. apply (is_lim_seq_ext (fun n => 1 - (1 - upright (u n) a))); [intros; ring|].
  apply is_lim_seq_minus'; [apply is_lim_seq_const|exact L1].
Qed.
Print Assumptions C141_aqua_vertical.
Example C141_case : let c := Aqua (1 / 2) (1 / 2) (9 / 10) (9 / 10) in
  unit_quat (Quat (4 / 5) (3 / 5) 0 0) /\ 0 < alpha c <= 1 /\ 0 <= MFusion.beta c <= 1 /\ e_a c <= 1 - / 1000000 /\
  upright (Quat (4 / 5) (3 / 5) 0 0) (0, 0, 1) <> -1.
Proof.
  intros c. unfold c. cbn [alpha MFusion.beta e_a].
  split; [unfold unit_quat, qdot, re, im, vdot; cbn; lra|]. split; [lra|]. split; [lra|]. split; [lra|].
  unfold upright. assert (L : vlen (0, 0, 1) = 1) by (unfold vlen, vdot; replace (_ + _) with 1 by ring; apply sqrt_1).
  unfold vnormalise. rewrite L. unfold rotate, qconj, mkq, vadd, vscale, vcross, re, im. cbn. lra.
Qed.

(** With a threshold of 1 the corrections go through the spherical
    interpolation, which does nothing for small angles: a remaining tilt of up
    to 0.08 degrees stays for ever. *)
Theorem C141_stall_refuted freq c ini a n q :
  (0 < freq)%Z -> (0 < ini)%Z -> unit_quat q -> 0 < alpha c < 1 -> 0 <= MFusion.beta c <= 1 ->
  1 <= e_a c -> / 1000000 < vlen a -> 1 - / 1000000 < upright q a ->
  history (aqua_step freq) (repeat (at_rest a None) n) (q, c, ini) = Ok (q, c, ini).
Proof.
  intros Hf Hi U Ha Hb He La Hu. induction n as [|n IH]; [reflexivity|]. cbn [repeat history].
  assert (E1 : aqua_step freq (at_rest a None) (q, c, ini) = Ok (0%Z, (q, c, ini))).
  { unfold aqua_step. rewrite (sens_of_sized _ _ _ _ q (at_rest_sized a None)). unfold aqua_feed. rops.
    replace (10 / 10) with 1 by field. rewrite !Rltb_false by lra. cbn [orb].
    replace (ini =? 0)%Z with false by (symmetry; apply Z.eqb_neq; lia). cbn [bind].
    pose proof (fus_aqua_ok true freq c (Some a) None (0, 0, 0) q [] [] [] Hf (unit_norm _ U) ltac:(lra) Hb) as F.
    cbv zeta in F. rewrite (usable_long a La) in F. replace (vscale (-1) (0, 0, 0)) with (0, 0, 0) in F
      by (unfold vscale; f_equal; [f_equal|]; ring).
    rewrite (spin_still _ _ U) in F. destruct F as [_ F]. unfold upright in Hu.
    destruct F as (q1 & (d & Ed & _ & ->) & _ & F); [lra|]. cbn [usable] in F. rewrite F. cbn [bind sq].
    assert (d = qone) as ->; [|now rewrite hprod_1_r].
    pose proof (rotate_unit_len (qconj q) a (qconj_unit _ U) ltac:(lra)) as G.
    set (g := rotate (qconj q) (vnormalise a)) in *.
    destruct (tilt_facts g G ltac:(lra)) as (UD & PD & _).
    assert (B : qr (tilt g) <= 1) by (pose proof (qdot_unit_bounds qone _ qone_unit UD) as B; rewrite qdot_one in B; lra).
    assert (S : Rabs (qr (tilt g) - 1) < / 1000000).
    { rewrite Rabs_left1 by lra. assert (1 - / 1000000 < qr (tilt g)); [|lra].
      destruct g as [[x y] z]. cbn [tilt qr]. cbn [coord] in Hu. unfold vdot in G.
      rewrite <- (sqrt_Rsqr (1 - / 1000000)) by lra. apply sqrt_lt_1_alt. unfold Rsqr. split; [lra|].
      assert ((1 - / 1000000) * (1 - / 1000000) < 1 - / 1000000) by lra. lra. }
    revert Ed. unfold scale_down. rewrite identity_one. rops. rewrite Rltb_false by lra.
    unfold quat_slerp. rewrite !quat_to_unit_ok. cbn [bind]. rops.
    rewrite (unitised_of_unit _ qone_unit), (unitised_of_unit _ UD).
    replace (10 / 10) with 1 by field. replace (1 / 1000000) with (/ 1000000) by field.
    rewrite (Rltb_false (alpha c) 0), (Rltb_false 1 (alpha c)) by lra.
    cbn [orb andb]. rewrite (Reqb_false (alpha c) 0), (Reqb_false (alpha c) 1) by lra.
    match goal with |- context [Rltb (Rabs (?x - 1)) _] => replace x with (qr (tilt g)) by (cbn; ring) end.
    rewrite Rltb_true by exact S. cbn [bind local]. intros Ed. now injection Ed as <-. }
  rewrite E1. cbn [bind snd]. exact IH.
Qed.
Print Assumptions C141_stall_refuted.
