(** Rounding of binary32 operations (bridge to Flocq) *)
From Flocq Require Import Core BinarySingleNaN Relative Plus_error.
From Coq Require Import ZArith Reals Lra Lia List Bool.
From Coq Require SpecFloat.
From Verif Require Import Base NumS SpecSgl.
Import ListNotations.
Open Scope R_scope.

Notation fexp32 := (SpecFloat.fexp 24 128).
Notation rnd32 := (round radix2 fexp32 ZnearestE).

Lemma SR_B2R (x : single) : SR x = B2R x.
Proof.
  unfold SR. destruct x as [s|s| |s m e Hb]; try reflexivity.
  unfold B2R, F2R. cbn [Fnum Fexp]. rewrite bpow_powerRZ. change (IZR radix2) with 2.
  destruct s; unfold cond_Zopp; [change (- Z.pos m)%Z with (Z.opp (Z.pos m)); rewrite opp_IZR|]; ring.
Qed.

Lemma finites_B (x : single) : finites x <-> is_finite x = true.
Proof. reflexivity. Qed.

Lemma SR_format (x : single) : generic_format radix2 fexp32 (SR x).
Proof. rewrite SR_B2R. apply generic_format_B2R. Qed.

Lemma us_bpow : / 2 * bpow radix2 (- 24 + 1) = us.
Proof.
  change (- 24 + 1)%Z with (-23)%Z. unfold us. simpl bpow.
  change (Z.pow_pos 2 23) with (2 ^ 23)%Z. rewrite pow_IZR.
  change (2 ^ Z.of_nat 24)%Z with (2 * 2 ^ 23)%Z. rewrite mult_IZR. field.
  apply IZR_neq. discriminate.
Qed.

Lemma etas_bpow : / 2 * bpow radix2 (-149) = etas.
Proof.
  unfold etas. simpl bpow. rewrite pow_IZR.
  change (Z.of_nat 150) with 150%Z.
  replace (2 ^ 150)%Z with (2 * Z.pow_pos 2 149)%Z by (vm_compute; reflexivity).
  rewrite mult_IZR. field. apply IZR_neq. vm_compute. discriminate.
Qed.

Lemma us_pos : 0 < us.
Proof. unfold us. apply Rinv_0_lt_compat, pow_lt. lra. Qed.
Lemma etas_pos : 0 < etas.
Proof. unfold etas. apply Rinv_0_lt_compat, pow_lt. lra. Qed.

Lemma rnd_err_s r : exists d e, Rabs d <= us /\ Rabs e <= etas /\ rnd32 r = r * (1 + d) + e.
Proof.
  destruct (error_N_FLT radix2 (-149) 24 eq_refl (fun x => negb (Z.even x)) r)
    as (d & e & H1 & H2 & _ & H3).
  exists d, e. rewrite <- us_bpow, <- etas_bpow. auto.
Qed.

Lemma uro_le_s : u_ro radix2 24 / (1 + u_ro radix2 24) <= us.
Proof.
  rewrite <- us_bpow. unfold u_ro. change (- 24 + 1)%Z with (- (24) + 1)%Z.
  set (a := / 2 * bpow radix2 (- (24) + 1)).
  assert (0 < a) by (unfold a; pose proof (bpow_gt_0 radix2 (- (24) + 1)); lra).
  apply Rmult_le_reg_r with (1 + a); [lra|]. unfold Rdiv. rewrite Rmult_assoc, Rinv_l by lra.
  nra.
Qed.

Lemma rnd_plus_s x y :
  generic_format radix2 fexp32 x -> generic_format radix2 fexp32 y ->
  exists d, Rabs d <= us /\ rnd32 (x + y) = (x + y) * (1 + d).
Proof.
  intros Hx Hy.
  destruct (@FLT_plus_error_N_ex radix2 (-149) 24 eq_refl (fun x => negb (Z.even x)) x y Hx Hy)
    as (d & H1 & H2).
  exists d. split; auto. eapply Rle_trans; [exact H1|exact uro_le_s].
Qed.

Lemma overflow_not_finite_s (z : binary_float 24 128) s :
  B2SF z = binary_overflow 24 128 mode_NE s -> is_finite z = false.
Proof. destruct z; cbn; try discriminate; auto. Qed.

(** A finite sum is the rounding of the exact sum of finite numbers *)
Lemma add_rnd_s x y :
  finites (S_add x y) -> finites x /\ finites y /\ SR (S_add x y) = rnd32 (SR x + SR y).
Proof.
  rewrite !finites_B, !SR_B2R; unfold S_add, S_sub, S_mul, S_div, S_sqrt. intros H.
  assert (Fx : is_finite x = true)
    by (destruct x, y; cbn in *; try discriminate; auto;
        destruct s, s0; discriminate).
  assert (Fy : is_finite y = true)
    by (destruct x, y; cbn in *; try discriminate; auto).
  repeat split; auto.
  pose proof (Bplus_correct _ _ prec24 max128 mode_NE _ _ Fx Fy) as C.
  destruct Rlt_bool in C; [tauto|].
  destruct C as [C _]. apply overflow_not_finite_s in C. congruence.
Qed.

Lemma sub_rnd_s x y :
  finites (S_sub x y) -> finites x /\ finites y /\ SR (S_sub x y) = rnd32 (SR x - SR y).
Proof.
  rewrite !finites_B, !SR_B2R; unfold S_add, S_sub, S_mul, S_div, S_sqrt. intros H.
  assert (Fx : is_finite x = true)
    by (destruct x, y; cbn in *; try discriminate; auto;
        destruct s, s0; discriminate).
  assert (Fy : is_finite y = true)
    by (destruct x, y; cbn in *; try discriminate; auto).
  repeat split; auto.
  pose proof (Bminus_correct _ _ prec24 max128 mode_NE _ _ Fx Fy) as C.
  destruct Rlt_bool in C; [tauto|].
  destruct C as [C _]. apply overflow_not_finite_s in C. congruence.
Qed.

Lemma mul_rnd_s x y :
  finites (S_mul x y) -> finites x /\ finites y /\ SR (S_mul x y) = rnd32 (SR x * SR y).
Proof.
  rewrite !finites_B, !SR_B2R; unfold S_add, S_sub, S_mul, S_div, S_sqrt. intros H.
  pose proof (Bmult_correct _ _ prec24 max128 mode_NE x y) as C.
  destruct Rlt_bool in C.
  - destruct C as (C1 & C2 & _). rewrite H in C2. symmetry in C2. apply andb_prop in C2. tauto.
  - apply overflow_not_finite_s in C. congruence.
Qed.

Lemma div_rnd_s x y :
  SR y <> 0 -> finites (S_div x y) -> finites x /\ SR (S_div x y) = rnd32 (SR x / SR y).
Proof.
  rewrite !finites_B, !SR_B2R; unfold S_add, S_sub, S_mul, S_div, S_sqrt. intros Hy H.
  pose proof (Bdiv_correct _ _ prec24 max128 mode_NE x y Hy) as C.
  destruct Rlt_bool in C.
  - destruct C as (C1 & C2 & _). rewrite H in C2. auto.
  - apply overflow_not_finite_s in C. congruence.
Qed.

Lemma sqrt_rnd_s x :
  finites (S_sqrt x) ->
  finites x /\ 0 <= SR x /\ SR (S_sqrt x) = rnd32 (sqrt (SR x)).
Proof.
  rewrite !finites_B, !SR_B2R; unfold S_add, S_sub, S_mul, S_div, S_sqrt. intros H.
  destruct (Bsqrt_correct _ _ prec24 max128 mode_NE x) as (C1 & C2 & _).
  rewrite H in C2.
  destruct x as [s|s| |[|] m e Hb]; try discriminate; repeat split; auto.
  - cbn. lra.
  - cbn [B2R cond_Zopp]. now apply F2R_ge_0.
Qed.

(** ** The standard model of rounding errors *)
Lemma add_err_s x y : finites (S_add x y) ->
  finites x /\ finites y /\
  exists d, Rabs d <= us /\ SR (S_add x y) = (SR x + SR y) * (1 + d).
Proof.
  intros H. apply add_rnd_s in H as (Hx & Hy & ->). repeat split; auto.
  apply rnd_plus_s; apply SR_format.
Qed.

Lemma format_opp_s r : generic_format radix2 fexp32 r -> generic_format radix2 fexp32 (- r).
Proof. apply generic_format_opp. Qed.

Lemma sub_err_s x y : finites (S_sub x y) ->
  finites x /\ finites y /\
  exists d, Rabs d <= us /\ SR (S_sub x y) = (SR x - SR y) * (1 + d).
Proof.
  intros H. apply sub_rnd_s in H as (Hx & Hy & ->). repeat split; auto.
  apply rnd_plus_s; [|apply format_opp_s]; apply SR_format.
Qed.

Lemma mul_err_s x y : finites (S_mul x y) ->
  finites x /\ finites y /\
  exists d e, Rabs d <= us /\ Rabs e <= etas /\ SR (S_mul x y) = SR x * SR y * (1 + d) + e.
Proof.
  intros H. apply mul_rnd_s in H as (Hx & Hy & ->). repeat split; auto. apply rnd_err_s.
Qed.

Lemma div_err_s x y : SR y <> 0 -> finites (S_div x y) ->
  finites x /\
  exists d e, Rabs d <= us /\ Rabs e <= etas /\ SR (S_div x y) = SR x / SR y * (1 + d) + e.
Proof.
  intros Z H. apply div_rnd_s in H as (Hx & ->); auto. split; auto. apply rnd_err_s.
Qed.

Lemma SR_zero : SR (B754_zero false) = 0.
Proof. reflexivity. Qed.
Lemma finites_zero : finites (B754_zero false).
Proof. reflexivity. Qed.

(** Integers below 2^24 are represented exactly *)
Lemma SR_of_nat n : (Z.of_nat n < 2 ^ 24)%Z ->
  finites (S_of_Z (Z.of_nat n)) /\ SR (S_of_Z (Z.of_nat n)) = INR n.
Proof.
  intros H. destruct n as [|n]; [now split|]. set (z := Z.of_nat (S n)) in *.
  rewrite INR_IZR_INZ. fold z. assert (Hp : (0 < z)%Z) by (unfold z; lia).
  rewrite finites_B, SR_B2R. unfold S_of_Z.
  pose proof (binary_normalize_correct _ _ prec24 max128 mode_NE z 0 false) as C.
  cbv zeta in C.
  assert (Ef : F2R (Float radix2 z 0) = IZR z) by (unfold F2R; cbn; ring).
  rewrite Ef in C.
  assert (G : generic_format radix2 fexp32 (IZR z)).
  { rewrite <- Ef. apply generic_format_F2R. cbn [Fnum Fexp]. intros _.
    unfold cexp. rewrite Ef. unfold SpecFloat.fexp, SpecFloat.emin.
    change (3 - 128 - 24)%Z with (-149)%Z.
    assert (mag radix2 (IZR z) <= 24)%Z.
    { apply mag_le_bpow; [apply IZR_neq; lia|]. rewrite <- abs_IZR, Z.abs_eq by lia.
      rewrite <- (IZR_Zpower radix2) by lia. apply IZR_lt. change (Z.pow radix2 24) with (2 ^ 24)%Z. lia. }
    lia. }
  rewrite round_generic in C by (auto; apply valid_rnd_round_mode).
  rewrite Rlt_bool_true in C; [tauto|].
  rewrite <- abs_IZR, Z.abs_eq by lia. eapply Rlt_trans with (bpow radix2 24).
  - rewrite <- (IZR_Zpower radix2) by lia. apply IZR_lt. change (Z.pow radix2 24) with (2 ^ 24)%Z. lia.
  - apply bpow_lt. reflexivity.
Qed.

(** A square root is never subnormal *)
Lemma sqrt_err_s x :
  finites (S_sqrt x) ->
  finites x /\ 0 <= SR x /\
  exists d, Rabs d <= us /\ SR (S_sqrt x) = sqrt (SR x) * (1 + d).
Proof.
  intros H. apply sqrt_rnd_s in H as (Fx & P & E). repeat split; auto.
  destruct (Req_dec (SR x) 0) as [Z|Z].
  - exists 0. rewrite E, Z, sqrt_0, round_0 by apply valid_rnd_N. rewrite Rabs_R0.
    pose proof us_pos. split; lra.
  - assert (L : bpow radix2 (-149) <= SR x).
    { apply (generic_format_ge_bpow radix2 fexp32 (-149)); [|lra|apply SR_format].
      intros e. unfold SpecFloat.fexp, SpecFloat.emin.
      change (3 - 128 - 24)%Z with (-149)%Z. lia. }
    destruct (relative_error_N_FLT_ex radix2 (-149) 24 eq_refl (fun x => negb (Z.even x)) (sqrt (SR x)))
      as (d & Hd & Ed).
    + rewrite Rabs_pos_eq by apply sqrt_pos.
      apply Rle_trans with (sqrt (bpow radix2 (-150))); [|apply sqrt_le_1_alt; eapply Rle_trans; [|exact L]; apply bpow_le; lia].
      replace (bpow radix2 (-150)) with (bpow radix2 (-75) * bpow radix2 (-75))
        by (rewrite <- bpow_plus; reflexivity).
      rewrite sqrt_square by apply bpow_ge_0. apply bpow_le. lia.
    + exists d. rewrite <- us_bpow. split; [exact Hd|]. rewrite E. exact Ed.
Qed.
