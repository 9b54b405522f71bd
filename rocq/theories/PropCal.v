(** Properties C78 (initialisation and missing readings) and C80 (the search
    for a filter gain). *)
From Coquelicot Require Import Coquelicot.
From Coq Require Import List Arith ZArith Bool Reals Lra Lia.
From Verif Require Import Base BaseFacts NumR Libm LibmR RTac RAtan2 RPi Out MVec SpecVec SpecReal PVec PVecR
  MMtx SpecMtx PMtx PMtxOps PMtxR MDecomp MStat MQuat SpecQuat PQuat PQuatRot PQuatTrig PQuatEul MAhrs MFusion
  SpecFusion PFusion PFusion2 PFusion3 PropQuat PropFusion PropFusion2.
Import ListNotations.
Local Open Scope R_scope.
Implicit Types (p q u d : quat R) (v w : v3).

Lemma ok_pair A B (z z' : A) (x y : B) : Ok (z, x) = Ok (z', y) -> y = x.
Proof. now intros [= _ ->]. Qed.

(** ** C78: initialisation *)
Theorem C78_init bc old freq :
  ((0 < freq)%Z -> fus_init bc old freq = (0%Z, freq)) /\
  ((freq <= 0)%Z -> fus_init true old freq = ((- EINVAL)%Z, old)).
Proof.
  split; intros H; unfold fus_init.
  - replace (freq <=? 0)%Z with false by (symmetry; apply Z.leb_gt; lia). now rewrite andb_false_r.
  - replace (freq <=? 0)%Z with true by (symmetry; apply Z.leb_le; lia). reflexivity.
Qed.
Print Assumptions C78_init.

(** A NULL gyroscope is dereferenced by every filter that takes one, except the
    Kalman filter with bounds checks on. *)
Theorem C78_null_gyroscope_refuted bc freq beta incl c al cc kc (a m : option (vec R)) q :
  0 <= beta -> 0 <= kp c -> 0 <= ki c -> 0 <= al <= 1 -> 0 <= alpha cc <= 1 -> 0 <= MFusion.beta cc <= 1 ->
  let s := Sens a m None q in
  madg_feed bc freq beta incl s = UB NullDeref /\ mahn_feed bc freq incl c s = UB NullDeref /\
  comp_feed bc freq al s = UB NullDeref /\ fus_aqua bc freq cc s = UB NullDeref /\
  fus_kalman true freq incl kc s = Ok ((- EINVAL)%Z, s, kc).
Proof.
  intros Hb Hp Hi Ha Haa Hbb s. unfold s, madg_feed, mahn_feed, comp_feed. rops.
  replace (10 / 10) with 1 by field. rewrite !Rltb_false by lra. cbn [orb].
  repeat split; try reflexivity.
  unfold fus_kalman. cbn [sa sm sg]. rewrite !orb_true_r. reflexivity.
Qed.
Print Assumptions C78_null_gyroscope_refuted.
Example C78_null_gyroscope_case : 0 <= alpha (Aqua (1 / 2) (1 / 2) 1 1) <= 1.
Proof. cbn. lra. Qed.

(** The complementary filter with alpha = 1/2: the integrated orientation and
    the one from the readings can cancel. *)
Theorem C78_complementary_refuted bc :
  exists s, comp_feed bc 1 (1 / 2)
    (Sens (Some (hold (0, 0, 1) [])) (Some (hold (1, 0, 0) [])) (Some (hold (0, 0, 0) [])) (qscale (-1) qone))
  = Ok (0%Z, s) /\ sq s = qzero.
Proof.
  set (q := qscale (-1) qone).
  assert (U : unit_quat q) by (unfold unit_quat, q, qone, qscale, mkq, qdot, re, im, vdot, vscale; cbn [qr qi qj qk]; lra).
  unfold comp_feed. rops. replace (10 / 10) with 1 by field. rewrite !Rltb_false by lra. cbn [orb].
  destruct (fus_comp_ok bc 1 (1 / 2) (Some (0, 0, 1)) (Some (1, 0, 0)) (0, 0, 0) q [] [] [] ltac:(lia)
    (unit_norm _ U) ltac:(lra)) as (q' & E & H).
  cbn [hold_opt] in E. rewrite E. eexists. split; [reflexivity|]. cbn [sq].
  assert (Uz : vdot (0, 0, 1) (0, 0, 1) = 1) by (cbn; ring).
  assert (Ux : vdot (1, 0, 0) (1, 0, 0) = 1) by (cbn; ring).
  assert (Pz : usable (Some (0, 0, 1)) = Some (0, 0, 1)).
  { cbn [usable]. rewrite (unit_len _ Uz). destruct (Rlt_dec _ _); [reflexivity|lra]. }
  assert (Px : usable (Some (1, 0, 0)) = Some (1, 0, 0)).
  { cbn [usable]. rewrite (unit_len _ Ux). destruct (Rlt_dec _ _); [reflexivity|lra]. }
  rewrite Pz, Px in H. destruct H as (t & Et & ->).
  assert (A0 : Ratan2 0 1 = 0).
  { pose proof (atan2_polar 1 0 ltac:(lra)) as A. rewrite sin_0, cos_0, !Rmult_1_l in A.
    pose proof PI_RGT_0. apply A; lra. }
  assert (T : roll t = 0 /\ pitch t = 0 /\ yaw t = 0).
  { revert Et. unfold att_from_accelmag, att_from_accel. change (vsz (hold (0, 0, 1) [])) with 3%nat.
    change (vsz (hold (1, 0, 0) [])) with 3%nat. cbn [Nat.eqb negb orb]. rewrite andb_false_r.
    rewrite !copy_hold. cbn [bind]. rewrite !unit_hold by (rewrite ?(unit_len _ Ux), ?(unit_len _ Uz); lra).
    cbn [bind]. rewrite (normalise_unit_id _ Ux), (normalise_unit_id _ Uz).
    change (vbuf (hold (0, 0, 1) [])) with (cells [0; 0; 1]).
    change (vbuf (hold (1, 0, 0) [])) with (cells [1; 0; 0]).
    cbn [rd nth_error cells map bind roll pitch yaw status]. rops. unfold fsqrt; cbn [NumR].
    rewrite Rsqrto_ok by lra. cbn [bind roll pitch yaw].
    replace (0 * 0 + 1 * 1) with (1 * 1) by ring. rewrite sqrt_square by lra.
    cbn [fatan2 NumMR]. rewrite Ropp_0, !A0.
    intros Et. apply ok_pair in Et. subst t. cbn [roll pitch yaw]. rewrite !Rmult_0_l, sin_0, cos_0.
    replace (0 - 0) with 0 by ring. replace (1 * 1 + 0 * (0 + 0)) with 1 by ring.
    rewrite ?A0, ?Rmult_0_l. auto. }
  destruct T as (-> & -> & ->). rewrite !Rmult_0_l.
  replace (spin (/ 1) (0, 0, 0) q) with q.
  2: { pose proof (spin_rest (/ 1) q U) as S. replace (vscale (-1) (0, 0, 0)) with ((0, 0, 0) : v3) in S; [auto|].
       unfold vscale. f_equal; [f_equal|]; ring. }
  assert (X : mix (1 / 2) q (eul 0 0 0) = qzero).
  { unfold mix, eul, rot_x, rot_y, rot_z, q, qone, qzero, qplus, qscale, hprod, mkq, re, im, vdot, vadd, vscale, vcross.
    replace (0 / 2) with 0 by field. rewrite sin_0, cos_0. cbn. f_equal; field. }
  rewrite X. unfold unitised. rewrite qnorm_zero. destruct (Rlt_dec _ _); [reflexivity|lra].
Qed.
Print Assumptions C78_complementary_refuted.

(** ** C80 *)
(** row j of a recording *)
Definition row3 (f : nat -> nat -> R) (j : nat) : v3 := (f j 0%nat, f j 1%nat, f j 2%nat).

Lemma cal_rows_ok bc n G A Mg tg ta tm j q :
  (j < n)%nat ->
  cal_rows bc (mat_of n 3 G tg) (mat_of n 3 A ta) (mat_of n 3 Mg tm) j q
  = Ok (Sens (Some (hold (row3 A j) [])) (Some (hold (row3 Mg j) [])) (Some (hold (row3 G j) [])) q).
Proof.
  intros Hj. unfold cal_rows. unfold fresh. rewrite !mtx_get_row_ok by (cbn; lia). reflexivity.
Qed.

Lemma att_total bc v tl (a0 : att R) : exists t, att_from_accel bc (hold v tl) a0 = Ok (0%Z, t).
Proof.
  destruct (Req_dec (vlen v) 0) as [Z|Z]; [|now apply att_from_accel_total].
  unfold att_from_accel. change (vsz (hold v tl)) with 3%nat. cbn [Nat.eqb negb].
  rewrite andb_false_r, copy_hold. cbn [bind]. unfold hold.
  rewrite vec_to_unit_R0.
  - cbn [bind vec_of vbuf cells map app repeat length rd nth_error]. rops. rewrite Rsqrto_ok by lra. cbn [bind]. eauto.
  - destruct v as [[x y] z]. unfold vlen in Z. apply sqrt_eq_0 in Z; [|unfold vdot; nra]. unfold vdot in Z. cbn [coord].
    assert (X0 : x * x = 0) by nra. assert (Y0 : y * y = 0) by nra. assert (Z0 : z * z = 0) by nra.
    apply Rmult_integral in X0, Y0, Z0. repeat constructor; tauto.
Qed.

Lemma cal_sample_ok bc q v tl Sx Sy :
  unit_quat q -> 0 <= Sx -> 0 <= Sy ->
  exists Sx' Sy', cal_sample bc q (Some (hold v tl)) Sx Sy = Ok (Sx', Sy') /\ 0 <= Sx' /\ 0 <= Sy'.
Proof.
  intros U Hx Hy. unfold cal_sample. rewrite to_euler_run by exact U. cbn [bind].
  unfold ZSL_PI. rops. rewrite Rdivo_ok by lra. cbn [bind deref].
  destruct (att_total bc v tl (Att 0 0 0 0%Z)) as [t ->]. cbn [bind].
  eexists. eexists. split; [reflexivity|]. split; (apply Rplus_le_le_0_compat; [assumption|apply Rle_0_sqr]).
Qed.

Lemma cal_total_ok n Sx Sy :
  (0 < n)%nat -> 0 <= Sx -> 0 <= Sy -> exists St, cal_total n Sx Sy = Ok St /\ 0 <= St.
Proof.
  intros Hn Hx Hy. unfold cal_total. rops.
  assert (P : 0 < IZR (Z.of_nat n)) by (apply IZR_lt; lia).
  rewrite Rdivo_ok by lra. cbn [bind].
  rewrite Rsqrto_ok by (apply Rmult_le_pos; [lra|left; now apply Rinv_0_lt_compat]). cbn [bind].
  rewrite Rdivo_ok by lra. cbn [bind].
  rewrite Rsqrto_ok by (apply Rmult_le_pos; [lra|left; now apply Rinv_0_lt_compat]). cbn [bind].
  rewrite Rdivo_ok by lra. eexists. split; [reflexivity|].
  pose proof (sqrt_pos (Sx / IZR (Z.of_nat n))). pose proof (sqrt_pos (Sy / IZR (Z.of_nat n))). lra.
Qed.

Lemma one_unit : unit_quat (@quat_identity R _).
Proof. rewrite identity_one. apply qone_unit. Qed.

Lemma madg_row bc freq beta incl v m w q :
  (0 < freq)%Z -> unit_quat q -> 0 <= beta -> beta / IZR freq <= 1 - / 1000000 ->
  exists v' s, madg_feed bc freq beta incl (Sens (Some (hold v [])) (Some (hold m [])) (Some (hold w [])) q)
  = Ok (0%Z, s) /\ sa s = Some (hold v' []) /\ unit_quat (sq s).
Proof.
  intros Hf U Hb Hl.
  destruct (C78_madgwick_feed bc freq beta incl (Some v) (Some m) w q [] [] [] Hf (unit_norm _ U) Hb)
    as (a' & m' & q' & E & _ & Uq).
  destruct (C105_readings bc freq beta incl 0 0 0 (0, 0, 0) [] 0 (Some v) (Some m) w q [] [] []
     Hf (unit_norm _ U) Hb ltac:(lra) ltac:(lra) ltac:(lra)) as ((s' & E' & S & _) & _).
  cbn [hold_opt sa] in E, E', S. rewrite E in E'. injection E' as <-.
  cbn [sa] in S. destruct S as [S|(v0 & tl & H & _ & S)].
  - exists v. eexists. split; [exact E|]. cbn [sa sq]. auto.
  - apply (f_equal (fun o : option (vec R) => match o with Some x => skipn 3 (vbuf x) | None => [] end)) in H.
    cbn in H. subst tl.
    exists (vnormalise v0). eexists. split; [exact E|]. cbn [sa sq]. auto.
Qed.

Lemma cal_madg_error_ok bc n G A Mg tg ta tm freq incl b :
  (0 < n)%nat -> (0 < freq)%Z -> 0 <= b -> b / IZR freq <= 1 - / 1000000 ->
  exists St, cal_madg_error bc (mat_of n 3 G tg) (mat_of n 3 A ta) (mat_of n 3 Mg tm) freq incl b = Ok St /\ 0 <= St.
Proof.
  intros Hn Hf Hb Hl. unfold cal_madg_error. change (mrows (mat_of n 3 A ta)) with n.
  match goal with |- context [for_ n 0%nat ?body ?s0] =>
    destruct (@for_inv _ (fun _ (s : quat R * R * R) => let '(q, Sx, Sy) := s in unit_quat q /\ 0 <= Sx /\ 0 <= Sy)
      n 0%nat body s0) as (s' & E & I) end.
  - cbn. rops. split; [apply one_unit|lra].
  - intros i [[q Sx] Sy] Hi (U & Hx & Hy). rewrite cal_rows_ok by lia. cbn [bind].
    destruct (madg_row bc freq b incl (row3 A i) (row3 Mg i) (row3 G i) q Hf U Hb Hl) as (v' & s & E & Ea & Us).
    rewrite E. cbn [bind]. rewrite Ea.
    destruct (cal_sample_ok bc (sq s) v' [] Sx Sy Us Hx Hy) as (Sx' & Sy' & Es & Hx' & Hy').
    rewrite Es. cbn [bind]. eexists. split; [reflexivity|]. cbv beta iota. auto.
  - rewrite E. cbn [bind]. destruct s' as [[q Sx] Sy]. destruct I as (_ & Hx & Hy). now apply cal_total_ok.
Qed.

Lemma gain_ok i : (i < 1000)%nat ->
  @fdiv R _ (fofZ (Z.of_nat i)) (flit 10000 1) = Ok (INR i / 1000) /\ 0 <= INR i / 1000 <= 999 / 1000.
Proof.
  intros Hi. rops. rewrite <- INR_IZR_INZ. replace (10000 / 10) with 1000 by field.
  rewrite Rdivo_ok by lra. split; [reflexivity|].
  pose proof (pos_INR i). assert (INR i <= 999).
  { replace 999 with (INR (Z.to_nat 999)) by (rewrite INR_IZR_INZ; now rewrite Z2Nat.id by lia). apply le_INR. lia. }
  lra.
Qed.

Lemma keep_zero i St b : 0 <= St -> (i = 0%nat -> b = 0) ->
  cal_keep i St b (if (i =? 0)%nat then None else Some 0) = Some 0.
Proof.
  intros H0 Hb. unfold cal_keep. destruct (Nat.eqb_spec i 0) as [->|Hi]; [now rewrite Hb|].
  rops. now rewrite Rltb_false by lra.
Qed.

Lemma trunc_pos x : 1 <= x -> (0 < RtruncZ x)%Z.
Proof.
  intros H. unfold RtruncZ. destruct (Rle_dec 0 x) as [_|N]; [|lra].
  pose proof (base_Int_part x) as [_ B]. apply lt_IZR. lra.
Qed.

(** Whatever was recorded, zsl_fus_cal_madg reports the gain 0: the smallest
    error seen so far is reset to 0 in every iteration. *)
Theorem C80_madg_always_zero bc old n G A Mg tg ta tm sf incl :
  (0 < n)%nat -> 1 <= sf ->
  cal_madg bc old (mat_of n 3 G tg) (mat_of n 3 A ta) (mat_of n 3 Mg tm) sf incl = Ok (0%Z, Some 0).
Proof.
  intros Hn Hs. unfold cal_madg. cbn [mat_of mcols mrows Nat.eqb negb orb]. rewrite Nat.eqb_refl. cbn [negb orb].
  assert (L : @flt R _ sf f0 = false) by (rops; rewrite Rltb_false by lra; reflexivity). rewrite L. cbn [orb]. rewrite andb_false_r.
  fold (mat_of n 3 G tg). fold (mat_of n 3 A ta). fold (mat_of n 3 Mg tm).
  cbn [ftrunc NumMR]. pose proof (trunc_pos sf Hs) as Hf.
  destruct (C78_init bc old (RtruncZ sf)) as [I _]. rewrite (I Hf).
  match goal with |- context [for_ 1000%nat 0%nat ?body ?s0] =>
    destruct (@for_inv _ (fun i (s : option R) => s = if (i =? 0)%nat then None else Some 0)
      1000%nat 0%nat body s0) as (s' & E & J) end.
  - reflexivity.
  - intros i s Hi ->. destruct (gain_ok i ltac:(lia)) as [Eg Bg]. rewrite Eg. cbn [bind].
    destruct (cal_madg_error_ok bc n G A Mg tg ta tm (RtruncZ sf) incl (INR i / 1000) Hn Hf) as (St & Es & Ps).
    + lra.
    + apply IZR_lt in Hf. assert (1 <= IZR (RtruncZ sf)) by (apply IZR_le; apply lt_IZR in Hf; lia).
      apply Rmult_le_reg_r with (IZR (RtruncZ sf)); [lra|].
      unfold Rdiv. rewrite Rmult_assoc, Rinv_l by lra. nra.
    + rewrite Es. cbn [bind]. rewrite keep_zero; [|exact Ps|intros ->; cbn; lra].
      eexists. split; [reflexivity|]. reflexivity.
  - rewrite E. cbn [bind]. rewrite J. reflexivity.
Qed.
Print Assumptions C80_madg_always_zero.

Lemma mahn_row bc freq incl kp_ ki_ lim fb v m w q :
  (0 < freq)%Z -> unit_quat q -> 0 <= kp_ -> 0 <= ki_ ->
  exists v' fb' s, mahn_feed bc freq incl (Mahn kp_ ki_ lim (hold fb []))
    (Sens (Some (hold v [])) (Some (hold m [])) (Some (hold w [])) q)
  = Ok (0%Z, s, Mahn kp_ ki_ lim (hold fb' [])) /\ sa s = Some (hold v' []) /\ unit_quat (sq s).
Proof.
  intros Hf U Hp Hi. unfold mahn_feed. cbn [kp ki]. rops. rewrite !Rltb_false by lra. cbn [orb].
  pose proof (mahony_ok bc freq incl kp_ ki_ lim fb [] (Some v) (Some m) w q [] [] [] Hf (unit_norm _ U)) as E.
  cbn [hold_opt] in E. rewrite E. pose proof (unit_norm _ U) as N.
  destruct (usable (Some v)) as [va|]; cbv zeta.
  - exists (vnormalise va). eexists. eexists. split; [reflexivity|]. cbn [sa sq]. split; [reflexivity|].
    apply spin_unit. lra.
  - exists v, fb. eexists. split; [reflexivity|]. cbn [sa sq]. split; [reflexivity|]. apply spin_unit. lra.
Qed.

Lemma cal_mahn_error_ok bc n G A Mg tg ta tm freq incl k fb :
  (0 < n)%nat -> (0 < freq)%Z -> 0 <= k ->
  exists St fb', cal_mahn_error bc (mat_of n 3 G tg) (mat_of n 3 A ta) (mat_of n 3 Mg tm) freq incl k (hold fb [])
    = Ok (St, hold fb' []) /\ 0 <= St.
Proof.
  intros Hn Hf Hk. unfold cal_mahn_error. change (mrows (mat_of n 3 A ta)) with n.
  match goal with |- context [for_ n 0%nat ?body ?s0] =>
    destruct (@for_inv _ (fun _ (s : quat R * R * R * vec R) => let '(q, Sx, Sy, f) := s in
        unit_quat q /\ 0 <= Sx /\ 0 <= Sy /\ exists fb', f = hold fb' [])
      n 0%nat body s0) as (s' & E & I) end.
  - cbn. rops. split; [apply one_unit|]. split; [lra|]. split; [lra|eauto].
  - intros i [[[q Sx] Sy] f] Hi (U & Hx & Hy & fb1 & ->). rewrite cal_rows_ok by lia. cbn [bind].
    destruct (mahn_row bc freq incl k (2 / 100) 0 fb1 (row3 A i) (row3 Mg i) (row3 G i) q Hf U Hk ltac:(lra))
      as (v' & fb' & s & E & Ea & Us).
    replace (@flit R _ 2 2) with (2 / 100) by (rops; reflexivity).
    change (@f0 R _) with 0. rewrite E. cbn [bind]. rewrite Ea.
    destruct (cal_sample_ok bc (sq s) v' [] Sx Sy Us Hx Hy) as (Sx' & Sy' & Es & Hx' & Hy').
    rewrite Es. cbn [bind intfb]. eexists. split; [reflexivity|]. cbv beta iota. eauto.
  - rewrite E. cbn [bind]. destruct s' as [[[q Sx] Sy] f]. destruct I as (_ & Hx & Hy & fb' & ->).
    destruct (cal_total_ok n Sx Sy Hn Hx Hy) as (St & -> & P). cbn [bind]. eauto.
Qed.

Theorem C80_mahn_always_zero bc old n G A Mg tg ta tm sf incl :
  (0 < n)%nat -> 1 <= sf ->
  cal_mahn bc old (mat_of n 3 G tg) (mat_of n 3 A ta) (mat_of n 3 Mg tm) sf incl = Ok (0%Z, Some 0).
Proof.
  intros Hn Hs. unfold cal_mahn. cbn [mat_of mcols mrows Nat.eqb negb orb]. rewrite Nat.eqb_refl. cbn [negb orb].
  assert (L : @flt R _ sf f0 = false) by (rops; rewrite Rltb_false by lra; reflexivity). rewrite L. cbn [orb].
  rewrite andb_false_r.
  fold (mat_of n 3 G tg). fold (mat_of n 3 A ta). fold (mat_of n 3 Mg tm).
  cbn [ftrunc NumMR]. pose proof (trunc_pos sf Hs) as Hf.
  destruct (C78_init bc old (RtruncZ sf)) as [I _]. rewrite (I Hf).
  match goal with |- context [for_ 1000%nat 0%nat ?body ?s0] =>
    destruct (@for_inv _ (fun i (s : option R * vec R) => fst s = (if (i =? 0)%nat then None else Some 0) /\
        exists fb, snd s = hold fb [])
      1000%nat 0%nat body s0) as (s' & E & J) end.
  - split; [reflexivity|]. exists (0, 0, 0). reflexivity.
  - intros i [s f] Hi (Es0 & fb & Ef). cbn [fst snd] in Es0, Ef. subst s f.
    destruct (gain_ok i ltac:(lia)) as [Eg Bg]. rewrite Eg. cbn [bind].
    destruct (cal_mahn_error_ok bc n G A Mg tg ta tm (RtruncZ sf) incl (INR i / 1000) fb Hn Hf) as (St & fb' & Es & Ps).
    + lra.
    + rewrite Es. cbn [bind]. rewrite keep_zero; [|exact Ps|intros ->; cbn; lra].
      eexists. split; [reflexivity|]. cbn [fst snd]. split; [reflexivity|eauto].
  - rewrite E. cbn [bind]. destruct s' as [s f]. destruct J as [J _]. cbn [fst] in J. rewrite J. reflexivity.
Qed.
Print Assumptions C80_mahn_always_zero.

Theorem C80_rejects old (g a m : mtx R) sf incl :
  mcols g <> 3%nat \/ mcols a <> 3%nat \/ mcols m <> 3%nat \/ sf < 0 \/ mrows g <> mrows a \/ mrows g <> mrows m ->
  cal_madg true old g a m sf incl = Ok ((- EINVAL)%Z, None) /\
  cal_mahn true old g a m sf incl = Ok ((- EINVAL)%Z, None).
Proof.
  intros H. unfold cal_madg, cal_mahn.
  set (b := true && _). assert (B : b = true).
  { unfold b. cbn [andb]. destruct H as [H|[H|[H|[H|[H|H]]]]].
    4: { replace (@flt R _ sf f0) with true by (rops; now rewrite Rltb_true by lra). now rewrite !orb_true_r. }
    all: apply Nat.eqb_neq in H; rewrite H; cbn [negb orb]; now rewrite ?orb_true_r. }
  rewrite B. auto.
Qed.
Print Assumptions C80_rejects.

(** The reported gain does not minimise the recorded error: for one sample of a
    sensor lying on its side, the error for the gain 1/2 (one of the values
    tried) is smaller than that for the reported gain 0. *)
Lemma side_roll bc : exists t, att_from_accel bc (hold (0, 1, 0) []) (Att 0 0 0 0%Z) = Ok (0%Z, t) /\
  roll t = PI / 2 * (57295779513 / 1000000000) /\ pitch t = 0.
Proof.
  assert (Uy : vdot (0, 1, 0) (0, 1, 0) = 1) by (cbn; ring).
  unfold att_from_accel. change (vsz (hold (0, 1, 0) [])) with 3%nat. cbn [Nat.eqb negb].
  rewrite andb_false_r, copy_hold. cbn [bind]. rewrite unit_hold by (rewrite (unit_len _ Uy); lra). cbn [bind].
  rewrite (normalise_unit_id _ Uy). change (vbuf (hold (0, 1, 0) [])) with (cells [0; 1; 0]).
  cbn [rd nth_error cells map bind]. unfold RAD_TO_DEG. rops. rewrite Rsqrto_ok by lra. cbn [bind].
  replace (1 * 1 + 0 * 0) with (1 * 1) by ring. rewrite sqrt_square by lra.
  cbn [fatan2 NumMR]. pose proof PI_RGT_0 as P.
  eexists. split; [reflexivity|]. cbn [roll pitch]. rewrite Ropp_0. split.
  - f_equal. pose proof (atan2_polar 1 (PI / 2) ltac:(lra) ltac:(lra)) as A.
    now rewrite sin_PI2, cos_PI2, Rmult_1_l, Rmult_0_r in A.
  - pose proof (atan2_polar 1 0 ltac:(lra) ltac:(lra)) as A. rewrite sin_0, cos_0, Rmult_0_r, Rmult_1_l in A.
    rewrite A. ring.
Qed.

Lemma rot_x_eul a : rot_x a = eul a 0 0.
Proof.
  unfold eul, rot_x, rot_y, rot_z, hprod, mkq, re, im, vdot, vadd, vscale, vcross.
  replace (0 / 2) with 0 by field. rewrite sin_0, cos_0. cbn. f_equal; ring.
Qed.

Lemma side_error bc (b th : R) (incl : option R) :
  0 <= b -> - PI < th <= PI ->
  unitised (qplus qone (qscale (- (b / 1)) (Quat 0 (-1) 0 0))) = rot_x th ->
  cal_madg_error bc (mat_of 1 3 (fun _ _ => 0) []) (mat_of 1 3 (fun _ j => if (j =? 1)%nat then 1 else 0) [])
    (mat_of 1 3 (fun _ _ => 0) []) 1 incl b
  = Ok (Rabs (th * (180 / (314159265359 / 100000000000)) - PI / 2 * (57295779513 / 1000000000)) / 2).
Proof.
  intros Hb Ht Hq. unfold cal_madg_error.
  change (mrows (mat_of 1 3 _ _)) with 1%nat. cbn [for_]. rewrite cal_rows_ok by lia. cbn [bind].
  change (row3 (fun _ j => if (j =? 1)%nat then 1 else 0) 0) with (0, 1, 0).
  change (row3 (fun _ _ => 0) 0) with (0, 0, 0). rewrite identity_one.
  assert (Uy : vdot (0, 1, 0) (0, 1, 0) = 1) by (cbn; ring).
  assert (Py : usable (Some (0, 1, 0)) = Some (0, 1, 0)).
  { cbn [usable]. rewrite (unit_len _ Uy). destruct (Rlt_dec _ _); [reflexivity|lra]. }
  assert (Pz : present (Some (0, 0, 0)) = None).
  { cbn [present]. unfold vlen, vdot. replace (0 * 0 + 0 * 0 + 0 * 0) with 0 by ring. rewrite sqrt_0.
    destruct (Rlt_dec _ _); [reflexivity|lra]. }
  assert (E : madg_feed bc 1 b incl (Sens (Some (hold (0, 1, 0) [])) (Some (hold (0, 0, 0) []))
                (Some (hold (0, 0, 0) [])) qone)
      = Ok (0%Z, Sens (Some (hold (0, 1, 0) [])) (Some (hold (0, 0, 0) [])) (Some (hold (0, 0, 0) [])) (rot_x th))).
  { unfold madg_feed. rops. rewrite Rltb_false by lra.
    pose proof (madgwick_ok bc 1 b incl (Some (0, 1, 0)) (Some (0, 0, 0)) (0, 0, 0) qone [] [] [] ltac:(lia)
      (unit_norm _ qone_unit)) as E. cbn [hold_opt] in E. rewrite E, Py, Pz.
    rewrite (normalise_unit_id _ Uy). do 3 f_equal. rewrite <- Hq. f_equal. f_equal.
    - pose proof (spin_rest (/ 1) qone qone_unit) as S.
      replace (vscale (-1) (0, 0, 0)) with ((0, 0, 0) : v3) in S; [auto|].
      unfold vscale. f_equal; [f_equal|]; ring.
    - f_equal. unfold madg_dir. rewrite Py, Pz, (qnormalise_of_unit _ qone_unit), (normalise_unit_id _ Uy).
      set (gg := gravity_grad _ _). assert (EG : gg = Quat 0 (-2) 0 0).
      { unfold gg, gravity_grad, dot_rows, vsub, qone, rotate, qplus, qscale, mkq, re, im, vadd, vscale, vcross. cbn.
        f_equal; ring. }
      rewrite EG. assert (N : qnorm (Quat 0 (-2) 0 0) = 2).
      { unfold qnorm, qdot, re, im, vdot. cbn [qr qi qj qk].
        replace (0 * 0 + (-2 * -2 + 0 * 0 + 0 * 0)) with (2 * 2) by ring. apply sqrt_square. lra. }
      unfold qdir. rewrite N. destruct (Req_EM_T 2 0) as [Z|_]; [lra|].
      unfold qnormalise. rewrite N. unfold qscale, mkq, re, im, vscale. cbn. f_equal; field. }
  rewrite E. cbn [bind sq sa]. unfold cal_sample. rewrite rot_x_eul.
  pose proof PI_RGT_0 as P.
  rewrite euler_recovered; try lra.
  2: { rewrite sin_0, Rabs_R0. lra. }
  cbn [bind deref]. destruct (side_roll bc) as (t & Et & Hr & Hp).
  unfold ZSL_PI. rops. rewrite Rdivo_ok by lra. cbn [bind]. rewrite Et. cbn [bind ex ey]. rewrite Hr, Hp.
  unfold cal_total. rops. change (IZR (Z.of_nat 1)) with 1. rewrite Rdivo_ok by lra. cbn [bind].
  set (x := th * _ - _). replace ((0 + x * x) / 1) with (Rsqr x) by (unfold Rsqr; field).
  rewrite Rsqrto_ok by apply Rle_0_sqr. cbn [bind]. rewrite Rdivo_ok by lra. cbn [bind].
  set (y := 0 * _ - 0). replace ((0 + y * y) / 1) with 0 by (unfold y; field).
  rewrite Rsqrto_ok by lra. cbn [bind]. replace (20 / 10) with 2 by field. rewrite Rdivo_ok by lra.
  rewrite sqrt_Rsqr_abs, sqrt_0, Rplus_0_r. unfold x. do 3 f_equal. f_equal. f_equal. field.
Qed.

Theorem C80_optimal_refuted bc old incl :
  let g := mat_of 1 3 (fun _ _ => 0) [] in
  let a := mat_of 1 3 (fun _ j => if (j =? 1)%nat then 1 else 0) [] in
  cal_madg bc old g a g 1 incl = Ok (0%Z, Some 0) /\
  exists e0 e1, cal_madg_error bc g a g 1 incl 0 = Ok e0 /\
                cal_madg_error bc g a g 1 incl (INR 500 / 1000) = Ok e1 /\ e1 < e0.
Proof.
  intros g a. split; [apply C80_madg_always_zero; [lia|lra]|].
  pose proof PI_RGT_0 as P.
  set (h := atan (1 / 2)).
  assert (Hh : 0 < h < PI / 4).
  { split; [rewrite <- atan_0; apply atan_increasing; lra|rewrite <- atan_1; apply atan_increasing; lra]. }
  assert (Hc : 0 < cos h) by (apply cos_gt_0; lra).
  assert (Hs : sin h = 1 / 2 * cos h).
  { pose proof (tan_atan (1 / 2)) as T. fold h in T. unfold tan in T.
    apply (f_equal (fun z => z * cos h)) in T. unfold Rdiv in T at 1. rewrite Rmult_assoc, Rinv_l in T by lra. lra. }
  assert (B : INR 500 = 500).
  { rewrite INR_IZR_INZ. reflexivity. }
  eexists. eexists. split; [|split].
  - apply (side_error bc 0 0 incl); try lra. rewrite rot_x_eul.
    replace (qplus _ _) with qone.
    + rewrite unitised_of_unit by apply qone_unit.
      unfold eul, rot_x, rot_y, rot_z, hprod, qone, mkq, re, im, vdot, vadd, vscale, vcross.
      replace (0 / 2) with 0 by field. rewrite sin_0, cos_0. cbn. f_equal; ring.
    + unfold qplus, qscale, qone, mkq, re, im, vadd, vscale. cbn. f_equal; field.
  - apply (side_error bc (INR 500 / 1000) (2 * h) incl); try (rewrite ?B; lra). rewrite B.
    set (Q := qplus _ _). assert (EQ : Q = qscale (/ cos h) (rot_x (2 * h))).
    { unfold Q, rot_x, qone, qplus, qscale, mkq, re, im, vadd, vscale. replace (2 * h / 2) with h by field.
      rewrite Hs. cbn. f_equal; field; lra. }
    assert (U : unit_quat (rot_x (2 * h))).
    { unfold unit_quat, rot_x, qdot, re, im, vdot. cbn [qr qi qj qk]. pose proof (sin2_cos2 (2 * h / 2)) as S.
      unfold Rsqr in S. lra. }
    assert (N : qnorm Q = / cos h).
    { rewrite EQ. unfold qnorm. replace (qdot _ _) with (/ cos h * / cos h).
      - apply sqrt_square. left. now apply Rinv_0_lt_compat.
      - unfold unit_quat in U. transitivity (/ cos h * / cos h * qdot (rot_x (2 * h)) (rot_x (2 * h))); [rewrite U; ring|].
        unfold qdot, qscale, rot_x, mkq, re, im, vdot, vscale. cbn [qr qi qj qk]. ring. }
    assert (1 <= / cos h).
    { rewrite <- Rinv_1. apply Rinv_le_contravar; [exact Hc|apply COS_bound]. }
    rewrite unitised_normalise by lra. unfold qnormalise. rewrite N, EQ. rewrite Rinv_inv.
    unfold qscale, rot_x, mkq, re, im, vscale. cbn. f_equal; field; lra.
  - rewrite Rmult_0_l.
    assert (A : Rabs (0 - PI / 2 * (57295779513 / 1000000000)) = PI / 2 * (57295779513 / 1000000000)).
    { rewrite Rabs_left by lra. lra. }
    rewrite A. apply Rmult_lt_compat_r; [lra|]. apply Rabs_def1; lra.
Qed.
Print Assumptions C80_optimal_refuted.
