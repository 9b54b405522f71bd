(** Rounding of binary64 operations (bridge to Flocq) and of sums *)
From Coq Require Import Floats.PrimFloat.
From Flocq Require Import Core BinarySingleNaN PrimFloat Relative Plus_error.
From Coq Require Import ZArith Reals Lra Lia List Bool.
From Coq Require Uint63 FloatOps FloatAxioms SpecFloat.
From Verif Require Import Base NumF SpecFlt.
Import ListNotations.
Open Scope R_scope.

Notation fexp64 := (SpecFloat.fexp FloatOps.prec FloatOps.emax).
Notation rnd64 := (round radix2 fexp64 ZnearestE).

Lemma FR_B2R x : FR x = B2R (Prim2B x).
Proof.
  unfold FR. rewrite <- (B2SF_Prim2B x). destruct (Prim2B x) as [s|s| |s m e Hb]; try reflexivity.
  unfold B2SF, B2R, F2R. cbn [Fnum Fexp]. rewrite bpow_powerRZ. change (IZR radix2) with 2.
  destruct s; unfold cond_Zopp; [change (- Z.pos m)%Z with (Z.opp (Z.pos m)); rewrite opp_IZR|]; ring.
Qed.

Lemma finite_B x : finite x <-> is_finite (Prim2B x) = true.
Proof. unfold finite. now rewrite is_finite_equiv. Qed.

Lemma FR_format x : generic_format radix2 fexp64 (FR x).
Proof. rewrite FR_B2R. apply generic_format_B2R. Qed.

Lemma uu_bpow : / 2 * bpow radix2 (- FloatOps.prec + 1) = uu.
Proof.
  change (- FloatOps.prec + 1)%Z with (-52)%Z. unfold uu. simpl bpow.
  change (Z.pow_pos 2 52) with (2 ^ 52)%Z. rewrite pow_IZR.
  change (2 ^ Z.of_nat 53)%Z with (2 * 2 ^ 52)%Z. rewrite mult_IZR. field.
  apply IZR_neq. discriminate.
Qed.

Lemma eta_bpow : / 2 * bpow radix2 (-1074) = eta.
Proof.
  unfold eta. simpl bpow. rewrite pow_IZR.
  change (Z.of_nat 1075) with 1075%Z.
  replace (2 ^ 1075)%Z with (2 * Z.pow_pos 2 1074)%Z by (vm_compute; reflexivity).
  rewrite mult_IZR. field. apply IZR_neq. vm_compute. discriminate.
Qed.

Lemma uu_pos : 0 < uu.
Proof. unfold uu. apply Rinv_0_lt_compat, pow_lt. lra. Qed.
Lemma eta_pos : 0 < eta.
Proof. unfold eta. apply Rinv_0_lt_compat, pow_lt. lra. Qed.

Lemma rnd_err r : exists d e, Rabs d <= uu /\ Rabs e <= eta /\ rnd64 r = r * (1 + d) + e.
Proof.
  destruct (error_N_FLT radix2 (-1074) 53 eq_refl (fun x => negb (Z.even x)) r)
    as (d & e & H1 & H2 & _ & H3).
  exists d, e. rewrite <- uu_bpow, <- eta_bpow. auto.
Qed.

Lemma uro_le : u_ro radix2 53 / (1 + u_ro radix2 53) <= uu.
Proof.
  rewrite <- uu_bpow. unfold u_ro. change (- FloatOps.prec + 1)%Z with (- (53) + 1)%Z.
  set (a := / 2 * bpow radix2 (- (53) + 1)).
  assert (0 < a) by (unfold a; pose proof (bpow_gt_0 radix2 (- (53) + 1)); lra).
  apply Rmult_le_reg_r with (1 + a); [lra|]. unfold Rdiv. rewrite Rmult_assoc, Rinv_l by lra.
  nra.
Qed.

Lemma rnd_plus x y :
  generic_format radix2 fexp64 x -> generic_format radix2 fexp64 y ->
  exists d, Rabs d <= uu /\ rnd64 (x + y) = (x + y) * (1 + d).
Proof.
  intros Hx Hy.
  destruct (@FLT_plus_error_N_ex radix2 (-1074) 53 eq_refl (fun x => negb (Z.even x)) x y Hx Hy)
    as (d & H1 & H2).
  exists d. split; auto. eapply Rle_trans; [exact H1|exact uro_le].
Qed.

Lemma overflow_not_finite (z : binary_float FloatOps.prec FloatOps.emax) s :
  B2SF z = binary_overflow FloatOps.prec FloatOps.emax mode_NE s -> is_finite z = false.
Proof. destruct z; cbn; try discriminate; auto. Qed.

(** A finite sum is the rounding of the exact sum of finite numbers *)
Lemma add_rnd x y :
  finite (x + y)%float -> finite x /\ finite y /\ FR (x + y)%float = rnd64 (FR x + FR y).
Proof.
  rewrite !finite_B, !FR_B2R, add_equiv. intros H.
  assert (Fx : is_finite (Prim2B x) = true)
    by (destruct (Prim2B x), (Prim2B y); cbn in *; try discriminate; auto;
        destruct s, s0; discriminate).
  assert (Fy : is_finite (Prim2B y) = true)
    by (destruct (Prim2B x), (Prim2B y); cbn in *; try discriminate; auto).
  repeat split; auto.
  pose proof (Bplus_correct _ _ Hprec Hmax mode_NE _ _ Fx Fy) as C.
  destruct Rlt_bool in C; [tauto|].
  destruct C as [C _]. apply overflow_not_finite in C. congruence.
Qed.

Lemma sub_rnd x y :
  finite (x - y)%float -> finite x /\ finite y /\ FR (x - y)%float = rnd64 (FR x - FR y).
Proof.
  rewrite !finite_B, !FR_B2R, sub_equiv. intros H.
  assert (Fx : is_finite (Prim2B x) = true)
    by (destruct (Prim2B x), (Prim2B y); cbn in *; try discriminate; auto;
        destruct s, s0; discriminate).
  assert (Fy : is_finite (Prim2B y) = true)
    by (destruct (Prim2B x), (Prim2B y); cbn in *; try discriminate; auto).
  repeat split; auto.
  pose proof (Bminus_correct _ _ Hprec Hmax mode_NE _ _ Fx Fy) as C.
  destruct Rlt_bool in C; [tauto|].
  destruct C as [C _]. apply overflow_not_finite in C. congruence.
Qed.

Lemma mul_rnd x y :
  finite (x * y)%float -> finite x /\ finite y /\ FR (x * y)%float = rnd64 (FR x * FR y).
Proof.
  rewrite !finite_B, !FR_B2R, mul_equiv. intros H.
  pose proof (Bmult_correct _ _ Hprec Hmax mode_NE (Prim2B x) (Prim2B y)) as C.
  destruct Rlt_bool in C.
  - destruct C as (C1 & C2 & _). rewrite H in C2. symmetry in C2. apply andb_prop in C2. tauto.
  - apply overflow_not_finite in C. congruence.
Qed.

Lemma div_rnd x y :
  FR y <> 0 -> finite (x / y)%float -> finite x /\ FR (x / y)%float = rnd64 (FR x / FR y).
Proof.
  rewrite !finite_B, !FR_B2R, div_equiv. intros Hy H.
  pose proof (Bdiv_correct _ _ Hprec Hmax mode_NE (Prim2B x) (Prim2B y) Hy) as C.
  destruct Rlt_bool in C.
  - destruct C as (C1 & C2 & _). rewrite H in C2. auto.
  - apply overflow_not_finite in C. congruence.
Qed.

Lemma sqrt_rnd x :
  finite (PrimFloat.sqrt x) ->
  finite x /\ 0 <= FR x /\ FR (PrimFloat.sqrt x) = rnd64 (sqrt (FR x)).
Proof.
  rewrite !finite_B, !FR_B2R, sqrt_equiv. intros H.
  destruct (Bsqrt_correct _ _ Hprec Hmax mode_NE (Prim2B x)) as (C1 & C2 & _).
  rewrite H in C2.
  destruct (Prim2B x) as [s|s| |[|] m e Hb]; try discriminate; repeat split; auto.
  - cbn. lra.
  - cbn [B2R cond_Zopp]. now apply F2R_ge_0.
Qed.

(** ** The standard model of rounding errors *)
Lemma add_err x y : finite (x + y)%float ->
  finite x /\ finite y /\
  exists d, Rabs d <= uu /\ FR (x + y)%float = (FR x + FR y) * (1 + d).
Proof.
  intros H. apply add_rnd in H as (Hx & Hy & ->). repeat split; auto.
  apply rnd_plus; apply FR_format.
Qed.

Lemma format_opp r : generic_format radix2 fexp64 r -> generic_format radix2 fexp64 (- r).
Proof. apply generic_format_opp. Qed.

Lemma sub_err x y : finite (x - y)%float ->
  finite x /\ finite y /\
  exists d, Rabs d <= uu /\ FR (x - y)%float = (FR x - FR y) * (1 + d).
Proof.
  intros H. apply sub_rnd in H as (Hx & Hy & ->). repeat split; auto.
  apply rnd_plus; [|apply format_opp]; apply FR_format.
Qed.

Lemma mul_err x y : finite (x * y)%float ->
  finite x /\ finite y /\
  exists d e, Rabs d <= uu /\ Rabs e <= eta /\ FR (x * y)%float = FR x * FR y * (1 + d) + e.
Proof.
  intros H. apply mul_rnd in H as (Hx & Hy & ->). repeat split; auto. apply rnd_err.
Qed.

Lemma div_err x y : FR y <> 0 -> finite (x / y)%float ->
  finite x /\
  exists d e, Rabs d <= uu /\ Rabs e <= eta /\ FR (x / y)%float = FR x / FR y * (1 + d) + e.
Proof.
  intros Z H. apply div_rnd in H as (Hx & ->); auto. split; auto. apply rnd_err.
Qed.

Lemma FR_zero : FR PrimFloat.zero = 0.
Proof. reflexivity. Qed.
Lemma finite_zero : finite PrimFloat.zero.
Proof. reflexivity. Qed.

(** Integers below 2^53 are represented exactly *)
Lemma FR_of_nat n : (Z.of_nat n < 2 ^ 53)%Z ->
  finite (F_of_Z (Z.of_nat n)) /\ FR (F_of_Z (Z.of_nat n)) = INR n.
Proof.
  intros H. destruct n as [|n]; [now split|]. set (z := Z.of_nat (S n)) in *.
  rewrite INR_IZR_INZ. fold z. assert (Hp : (0 < z)%Z) by (unfold z; lia).
  assert (E : F_of_Z z = PrimFloat.of_uint63 (Uint63.of_Z z)) by (destruct z; try lia; reflexivity).
  rewrite E, finite_B, FR_B2R, of_int63_equiv, Uint63.of_Z_spec.
  rewrite Z.mod_small by (change Uint63.wB with (2 ^ 63)%Z; lia).
  pose proof (binary_normalize_correct _ _ Hprec Hmax mode_NE z 0 false) as C.
  cbv zeta in C.
  assert (Ef : F2R (Float radix2 z 0) = IZR z) by (unfold F2R; cbn; ring).
  rewrite Ef in C.
  assert (G : generic_format radix2 fexp64 (IZR z)).
  { rewrite <- Ef. apply generic_format_F2R. cbn [Fnum Fexp]. intros _.
    unfold cexp. rewrite Ef. unfold SpecFloat.fexp, SpecFloat.emin.
    change (3 - FloatOps.emax - FloatOps.prec)%Z with (-1074)%Z. change FloatOps.prec with 53%Z.
    assert (mag radix2 (IZR z) <= 53)%Z.
    { apply mag_le_bpow; [apply IZR_neq; lia|]. rewrite <- abs_IZR, Z.abs_eq by lia.
      rewrite <- (IZR_Zpower radix2) by lia. apply IZR_lt. change (Z.pow radix2 53) with (2 ^ 53)%Z. lia. }
    lia. }
  rewrite round_generic in C by (auto; apply valid_rnd_round_mode).
  rewrite Rlt_bool_true in C; [tauto|].
  rewrite <- abs_IZR, Z.abs_eq by lia. eapply Rlt_trans with (bpow radix2 53).
  - rewrite <- (IZR_Zpower radix2) by lia. apply IZR_lt. change (Z.pow radix2 53) with (2 ^ 53)%Z. lia.
  - apply bpow_lt. reflexivity.
Qed.

(** A square root is never subnormal *)
Lemma sqrt_err x :
  finite (PrimFloat.sqrt x) ->
  finite x /\ 0 <= FR x /\
  exists d, Rabs d <= uu /\ FR (PrimFloat.sqrt x) = sqrt (FR x) * (1 + d).
Proof.
  intros H. apply sqrt_rnd in H as (Fx & P & E). repeat split; auto.
  destruct (Req_dec (FR x) 0) as [Z|Z].
  - exists 0. rewrite E, Z, sqrt_0, round_0 by apply valid_rnd_N. rewrite Rabs_R0.
    pose proof uu_pos. split; lra.
  - assert (L : bpow radix2 (-1074) <= FR x).
    { apply (generic_format_ge_bpow radix2 fexp64 (-1074)); [|lra|apply FR_format].
      intros e. unfold SpecFloat.fexp, SpecFloat.emin.
      change (3 - FloatOps.emax - FloatOps.prec)%Z with (-1074)%Z. lia. }
    destruct (relative_error_N_FLT_ex radix2 (-1074) 53 eq_refl (fun x => negb (Z.even x)) (sqrt (FR x)))
      as (d & Hd & Ed).
    + rewrite Rabs_pos_eq by apply sqrt_pos.
      apply Rle_trans with (sqrt (bpow radix2 (-1074))); [|apply sqrt_le_1_alt; auto].
      replace (bpow radix2 (-1074)) with (bpow radix2 (-537) * bpow radix2 (-537))
        by (rewrite <- bpow_plus; reflexivity).
      rewrite sqrt_square by apply bpow_ge_0. apply bpow_le. lia.
    + exists d. rewrite <- uu_bpow. split; [exact Hd|]. rewrite E. exact Ed.
Qed.
