(** Facts about binary64 comparisons the fusion filters rely on *)
From Coq Require Import Floats.PrimFloat.
From Flocq Require Import Core BinarySingleNaN PrimFloat.
From Coq Require Import ZArith Reals Lra Lia List Bool.
From Coq Require Uint63 FloatOps FloatAxioms SpecFloat.
From Verif Require Import Base NumF SpecFlt PFlt PFltUnit PFltVar Libm MVec MQuat.
Import ListNotations.
Open Scope R_scope.

Lemma not_ltb_nan x y : is_nan (Prim2B x) = true -> (x <? y)%float = false.
Proof. rewrite ltb_equiv. destruct (Prim2B x); try discriminate. reflexivity. Qed.

Lemma Fz : (F_lit 1 6 <? abs zero)%float = false.
Proof. vm_compute. reflexivity. Qed.

Lemma Fzd m : (F_lit 1 6 <? abs (zero / m))%float = false.
Proof.
  rewrite ltb_equiv, abs_equiv, div_equiv.
  replace (Prim2B zero) with (B754_zero false : binary_float FloatOps.prec FloatOps.emax) by reflexivity.
  replace (Prim2B (F_lit 1 6)) with (Prim2B 0x1.0c6f7a0b5ed8dp-20) by (f_equal; vm_compute; reflexivity).
  destruct (Prim2B m) as [s|s| |s n e H]; cbn; try reflexivity; destruct s; reflexivity.
Qed.

Lemma FR_lit1 : FR (F_lit 10 1) = 1.
Proof. replace (F_lit 10 1) with one by (vm_compute; reflexivity). apply FR_one. Qed.

Lemma rnd_le1 r : r <= 1 -> rnd64 r <= 1.
Proof.
  intros H. apply Generic_fmt.round_le_generic; auto.
  - apply (BinarySingleNaN.fexp_correct FloatOps.prec FloatOps.emax PrimFloat.Hprec).
  - apply Generic_fmt.valid_rnd_N.
  - rewrite <- FR_one. apply FR_format.
Qed.
Lemma rnd_ge1 r : 1 <= r -> 1 <= rnd64 r.
Proof.
  intros H. apply Generic_fmt.round_ge_generic; auto.
  - apply (BinarySingleNaN.fexp_correct FloatOps.prec FloatOps.emax PrimFloat.Hprec).
  - apply Generic_fmt.valid_rnd_N.
  - rewrite <- FR_one. apply FR_format.
Qed.
Lemma rnd_leF r x : r <= FR x -> rnd64 r <= FR x.
Proof.
  intros H. apply Generic_fmt.round_le_generic; auto.
  - apply (BinarySingleNaN.fexp_correct FloatOps.prec FloatOps.emax PrimFloat.Hprec).
  - apply Generic_fmt.valid_rnd_N.
  - apply FR_format.
Qed.

Lemma big1 : 1 <= big.
Proof. unfold big. apply pow_R1_Rle. lra. Qed.

Lemma sub_finite x y : finite x -> finite y -> Rabs (FR x - FR y) <= big -> finite (x - y)%float.
Proof.
  rewrite !finite_B, !FR_B2R, sub_equiv. intros Hx Hy H.
  pose proof (Bminus_correct _ _ Hprec Hmax mode_NE (Prim2B x) (Prim2B y) Hx Hy) as C.
  change (round_mode mode_NE) with ZnearestE in C. rewrite (big_lt_max _ H) in C. apply C.
Qed.

Lemma ltb_FR' x y : finite x -> finite y -> FR y <= FR x -> (x <? y)%float = false.
Proof.
  intros Hx Hy H. destruct (x <? y)%float eqn:E; [|reflexivity]. apply ltb_FR in E; auto. lra.
Qed.

(** a number that compares as between 0 and 1 is a NaN or lies there *)
Lemma in01_cases x : ((x <? zero) || (F_lit 10 1 <? x))%float = false ->
  is_nan (Prim2B x) = true \/ (finite x /\ 0 <= FR x <= 1).
Proof.
  intros H. apply orb_false_iff in H as (H1 & H2). destruct (is_nan (Prim2B x)) eqn:En; [now left|right].
  assert (Fx : finite x).
  { rewrite finite_B. rewrite ltb_equiv in H1, H2.
    replace (Prim2B zero) with (B754_zero false : binary_float FloatOps.prec FloatOps.emax) in H1 by reflexivity.
    assert (E1 : is_finite (Prim2B (F_lit 10 1)) = true) by (vm_compute; reflexivity).
    destruct (Prim2B x) as [s|s| |s n e Hb]; try discriminate; auto.
    destruct s; [discriminate H1|]. destruct (Prim2B (F_lit 10 1)) as [s|s| |s n e Hb]; try discriminate E1; try destruct s; discriminate H2. }
  split; [exact Fx|].
  assert (F1 : finite (F_lit 10 1)) by (vm_compute; reflexivity).
  split; apply Rnot_lt_le; intros C.
  - assert (x <? zero = true)%float by (apply ltb_FR; [exact Fx|exact finite_zero|rewrite FR_zero; lra]). congruence.
  - assert (F_lit 10 1 <? x = true)%float by (apply ltb_FR; [exact F1|exact Fx|rewrite FR_lit1; lra]). congruence.
Qed.
Lemma in01_intro x : finite x -> 0 <= FR x <= 1 -> ((x <? zero) || (F_lit 10 1 <? x))%float = false.
Proof.
  intros Fx H. assert (F1 : finite (F_lit 10 1)) by (vm_compute; reflexivity).
  apply orb_false_iff. split; apply ltb_FR'; auto using finite_zero; rewrite ?FR_zero, ?FR_lit1; lra.
Qed.

Lemma ltb_finite x y z : finite x -> finite z -> (x <? y)%float = true -> (y <? z)%float = true -> finite y.
Proof.
  rewrite !finite_B, !ltb_equiv. intros Hx Hz.
  destruct (Prim2B x) as [s|s| |s n e Hb]; try discriminate Hx;
  destruct (Prim2B z) as [t|t| |t n' e' Hb']; try discriminate Hz;
  destruct (Prim2B y) as [u|u| |u n2 e2 Hb2]; auto; destruct u; try destruct s; try destruct t; cbn; try discriminate.
Qed.

Lemma mul_nan_l x y : is_nan (Prim2B x) = true -> is_nan (Prim2B (x * y)%float) = true.
Proof. rewrite mul_equiv. destruct (Prim2B x); try discriminate. destruct (Prim2B y); reflexivity. Qed.

Lemma Fk me al :
  ((al <? zero) || (F_lit 10 1 <? al))%float = false -> (F_lit 1 1 <? me)%float = true -> (me <? F_lit 2 1)%float = true ->
  let x := (al * ((F_lit 2 1 - me) / F_lit 1 1))%float in ((x <? zero) || (F_lit 10 1 <? x))%float = false.
Proof.
  intros Ha H1 H2 x.
  assert (Fa : finite (F_lit 1 1)) by (vm_compute; reflexivity).
  assert (Fb : finite (F_lit 2 1)) by (vm_compute; reflexivity).
  assert (Fm : finite me) by (apply (ltb_finite (F_lit 1 1) me (F_lit 2 1)); assumption).
  apply ltb_FR in H1; auto. apply ltb_FR in H2; auto.
  assert (Ea : FR (F_lit 1 1) = 3602879701896397 * / 36028797018963968).
  { unfold FR. replace (FloatOps.Prim2SF (F_lit 1 1)) with (SpecFloat.S754_finite false 7205759403792794 (-56)) by (vm_compute; reflexivity).
    change (powerRZ 2 (-56)) with (/ (2 ^ Pos.to_nat 56)). rewrite pow_IZR. rewrite positive_nat_Z. change (2 ^ 56)%Z with 72057594037927936%Z. lra. }
  assert (Eb : FR (F_lit 2 1) = 2 * FR (F_lit 1 1)).
  { rewrite Ea. unfold FR. replace (FloatOps.Prim2SF (F_lit 2 1)) with (SpecFloat.S754_finite false 7205759403792794 (-55)) by (vm_compute; reflexivity).
    change (powerRZ 2 (-55)) with (/ (2 ^ Pos.to_nat 55)). rewrite pow_IZR. rewrite positive_nat_Z. change (2 ^ 55)%Z with 36028797018963968%Z. lra. }
  pose proof big1 as B1.
  assert (Fd : finite (F_lit 2 1 - me)%float) by (apply sub_finite; auto; rewrite Rabs_pos_eq; lra).
  destruct (sub_rnd _ _ Fd) as (_ & _ & Ed).
  assert (D : 0 <= FR (F_lit 2 1 - me)%float <= FR (F_lit 1 1)).
  { rewrite Ed. split; [apply rnd_nonneg; lra|apply rnd_leF; lra]. }
  assert (Na : FR (F_lit 1 1) <> 0) by lra.
  assert (Q : 0 <= FR (F_lit 2 1 - me)%float / FR (F_lit 1 1) <= 1).
  { assert (0 < FR (F_lit 1 1)) by lra. split; [apply Rmult_le_pos; [lra|left; now apply Rinv_0_lt_compat]|].
    apply Rmult_le_reg_r with (FR (F_lit 1 1)); [lra|]. unfold Rdiv. rewrite Rmult_assoc, Rinv_l by lra. lra. }
  assert (Fk : finite ((F_lit 2 1 - me) / F_lit 1 1)%float) by (apply div_finite; auto; rewrite Rabs_pos_eq; lra).
  destruct (div_rnd _ _ Na Fk) as (_ & Ek).
  assert (K : 0 <= FR ((F_lit 2 1 - me) / F_lit 1 1)%float <= 1).
  { rewrite Ek. split; [apply rnd_nonneg; lra|apply rnd_le1; lra]. }
  destruct (in01_cases _ Ha) as [Na'|(Fal & Ral)].
  - pose proof (mul_nan_l al ((F_lit 2 1 - me) / F_lit 1 1)%float Na') as Nx. fold x in Nx.
    rewrite not_ltb_nan by exact Nx. cbn [orb]. rewrite ltb_equiv. destruct (Prim2B x); try discriminate Nx.
    destruct (Prim2B (F_lit 10 1)) as [s|s| |s n e Hb]; try reflexivity; destruct s; reflexivity.
  - set (k := ((F_lit 2 1 - me) / F_lit 1 1)%float) in *.
    assert (P : 0 <= FR al * FR k <= 1) by nra.
    assert (Fx : finite x) by (apply mul_finite; auto; rewrite Rabs_pos_eq; lra).
    destruct (mul_rnd _ _ Fx) as (_ & _ & Ex). apply in01_intro; [exact Fx|]. fold x in Ex. rewrite Ex.
    split; [apply rnd_nonneg; lra|apply rnd_le1; lra].
Qed.

(** the sampling period is not negative *)
Lemma Fperiod freq : (0 <= freq < 2 ^ 32)%Z -> (F_lit 10 1 / F_of_Z freq <? zero)%float = false.
Proof.
  intros H. destruct (Z.eq_dec freq 0) as [->|N]; [vm_compute; reflexivity|].
  replace freq with (Z.of_nat (Z.to_nat freq)) by lia. set (n := Z.to_nat freq).
  destruct (FR_of_nat n) as (Fn & En); [change (2 ^ 53)%Z with (2 ^ 32 * 2 ^ 21)%Z; lia|].
  assert (Hn : 1 <= INR n) by (change 1 with (INR 1); apply le_INR; lia).
  assert (F1 : finite (F_lit 10 1)) by (vm_compute; reflexivity).
  assert (Q : 0 <= FR (F_lit 10 1) / FR (F_of_Z (Z.of_nat n)) <= 1).
  { rewrite FR_lit1, En. unfold Rdiv. rewrite Rmult_1_l. split; [left; apply Rinv_0_lt_compat; lra|].
    rewrite <- Rinv_1. apply Rinv_le_contravar; lra. }
  pose proof big1 as B1. assert (Nz : FR (F_of_Z (Z.of_nat n)) <> 0) by (rewrite En; lra).
  assert (Fq : finite (F_lit 10 1 / F_of_Z (Z.of_nat n))%float) by (apply div_finite; auto; rewrite Rabs_pos_eq; lra).
  apply ltb_FR'; auto using finite_zero. rewrite FR_zero. destruct (div_rnd _ _ Nz Fq) as (_ & ->). apply rnd_nonneg. lra.
Qed.

(** the quaternion a unit is computed from *)
Lemma F_to_unit (q : quat PrimFloat.float) :
  let m := PrimFloat.sqrt (qr q * qr q + qi q * qi q + qj q * qj q + qk q * qk q)%float in
  quat_to_unit (N := NumF) q = Ok (if (abs m <? F_lit 1 6)%float then Quat zero zero zero zero
     else Quat (qr q / m)%float (qi q / m)%float (qj q / m)%float (qk q / m)%float).
Proof.
  intros m. unfold quat_to_unit, quat_to_unit_st. cbn [bind qget nth_error]. unfold quat_magn.
  change (fsqrt (qr q * qr q + qi q * qi q + qj q * qj q + qk q * qk q)%num) with (Ok m). cbn [bind].
  change (flt (fabs m) (flit 1 6)) with (abs m <? F_lit 1 6)%float. destruct (abs m <? F_lit 1 6)%float; reflexivity.
Qed.

Lemma Fslerp h (i j k : PrimFloat.float) e u : quat_to_unit (N := NumF) quat_identity = Ok e ->
  quat_to_unit (N := NumF) (Quat (PrimFloat.sqrt h) i j k) = Ok u ->
  (abs (qr e * qr u + qi e * qi u + qj e * qj u + qk e * qk u + F_lit 10 1) <? F_lit 1 6)%float = false.
Proof.
  intros He Hu. rewrite F_to_unit in He.
  replace e with (Quat one zero zero zero) by (injection He as <-; vm_compute; reflexivity). clear He e.
  cbn [qr qi qj qk].
  set (dot := (one * qr u + zero * qi u + zero * qj u + zero * qk u)%float).
  destruct (abs (dot + F_lit 10 1) <? F_lit 1 6)%float eqn:E; [exfalso|reflexivity].
  assert (Fs : finite (dot + F_lit 10 1)%float).
  { rewrite finite_B. rewrite ltb_equiv, abs_equiv in E.
    assert (F6 : is_finite (Prim2B (F_lit 1 6)) = true) by (vm_compute; reflexivity).
    destruct (Prim2B (F_lit 1 6)) as [t|t| |t ? ? ?]; try discriminate F6;
    destruct (Prim2B (dot + F_lit 10 1)) as [s|s| |s n9 e9 Hb9]; auto; cbn in E; try discriminate E. }
  assert (Fl : finite (F_lit 1 6)) by (vm_compute; reflexivity).
  destruct (add_rnd _ _ Fs) as (Fd & _ & Es).
  unfold dot in Fd. destruct (add_rnd _ _ Fd) as (F3 & Fz3 & E3). destruct (add_rnd _ _ F3) as (F2 & Fz2 & E2).
  destruct (add_rnd _ _ F2) as (F1 & Fz1 & E1). destruct (mul_rnd _ _ F1) as (_ & Fr & _).
  destruct (mul_rnd _ _ Fz1) as (_ & Fi & _). destruct (mul_rnd _ _ Fz2) as (_ & Fj & _). destruct (mul_rnd _ _ Fz3) as (_ & Fk & _).
  destruct (mul_exact_one _ Fr) as (_ & Er). destruct (mul_exact_zero _ Fi) as (_ & Ei).
  destruct (mul_exact_zero _ Fj) as (_ & Ej). destruct (mul_exact_zero _ Fk) as (_ & Ekk).
  assert (Ed : FR dot = FR (qr u)).
  { unfold dot. rewrite E3, E2, E1, Er, Ei, Ej, Ekk, !Rplus_0_r. now rewrite !round_FR. }
  assert (Pos : 0 <= FR (qr u)).
  { rewrite F_to_unit in Hu. cbn [qr qi qj qk] in Hu. set (r := PrimFloat.sqrt h) in *.
    set (m := PrimFloat.sqrt (r * r + i * i + j * j + k * k)%float) in *.
    destruct (abs m <? F_lit 1 6)%float eqn:Em; injection Hu as <-; cbn [qr]; [rewrite FR_zero; lra|].
    destruct (PrimFloat.is_finite m) eqn:Fm.
    - fold (finite m) in Fm. destruct (sqrt_rnd _ Fm) as (_ & _ & Hm). fold m in Hm.
      assert (P0 : 0 <= FR m) by (rewrite Hm; apply rnd_nonneg, sqrt_pos).
      assert (Nm : FR m <> 0).
      { intros C. cut ((abs m <? F_lit 1 6)%float = true); [intros C'; rewrite C' in Em; discriminate Em|].
        apply ltb_FR; [|exact Fl|].
        - rewrite finite_B, abs_equiv, is_finite_Babs, <- finite_B. exact Fm.
        - rewrite FR_B2R, abs_equiv, B2R_Babs, <- FR_B2R, C, Rabs_R0.
          unfold FR. replace (FloatOps.Prim2SF (F_lit 1 6)) with (SpecFloat.S754_finite false 4722366482869645 (-72)) by (vm_compute; reflexivity).
          rewrite Rmult_1_l. apply Rmult_lt_0_compat; [lra|]. apply powerRZ_lt. lra. }
      cbn [qr] in Fr. destruct (div_rnd _ _ Nm Fr) as (Fr0 & ->).
      destruct (sqrt_rnd _ Fr0) as (_ & _ & Hr). fold r in Hr. apply rnd_nonneg. unfold Rdiv.
      apply Rmult_le_pos; [rewrite Hr; apply rnd_nonneg, sqrt_pos|left; apply Rinv_0_lt_compat; lra].
    - cbn [qr] in Fr. rewrite FR_B2R. rewrite finite_B in Fr. rewrite div_equiv in *.
      assert (Fm' : is_finite (Prim2B m) = false) by (rewrite <- is_finite_equiv; exact Fm).
      destruct (Prim2B m) as [s|s| |s n0 e0 Hb]; try discriminate Fm';
        destruct (Prim2B r) as [s1|s1| |s1 n1 e1 Hb1]; cbn in *; try discriminate Fr; lra. }
  apply ltb_FR in E; auto.
  2: { rewrite finite_B, abs_equiv, is_finite_Babs, <- finite_B. exact Fs. }
  rewrite FR_B2R, abs_equiv, B2R_Babs, <- FR_B2R, Es, Ed, FR_lit1 in E.
  pose proof (rnd_ge1 (FR (qr u) + 1) ltac:(lra)) as G. rewrite Rabs_pos_eq in E by lra.
  assert (FR (F_lit 1 6) <= FR one).
  { apply Rnot_lt_le. intros C. 
    assert (Fo : finite one) by (vm_compute; reflexivity).
    pose proof (proj2 (ltb_FR one (F_lit 1 6) Fo Fl) C) as C1.
    assert (C2 : (one <? F_lit 1 6)%float = false) by (vm_compute; reflexivity). rewrite C2 in C1. discriminate C1. }
  rewrite FR_one in H. lra.
Qed.
