(** Normalising a quaternion in single precision: the argument of PFltQuat.v
    with the constants of binary32 *)
From Flocq Require Import Core BinarySingleNaN.
From Coq Require Import ZArith Reals Lra Lia List Bool.
From Verif Require Import Base NumS SpecVec SpecReal SpecSgl SpecSglQuat PSgl PSglSum MQuat.
Import ListNotations.
Open Scope R_scope.

Declare Scope single_scope.
Delimit Scope single_scope with single.
Infix "+" := S_add : single_scope.
Infix "-" := S_sub : single_scope.
Infix "*" := S_mul : single_scope.
Infix "/" := S_div : single_scope.

Definition sq4 (a b c d : R) : R := a * a + b * b + c * c + d * d.

(** Below 2^100 nothing overflows *)
Definition bigs : R := 2 ^ 100.

Lemma big_lt_max_s r : Rabs r <= bigs -> Rlt_bool (Rabs (rnd32 r)) (bpow radix2 128) = true.
Proof.
  intros H. apply Rlt_bool_true.
  assert (E : bigs = bpow radix2 100).
  { unfold bigs. rewrite <- (IZR_Zpower radix2) by lia. now rewrite pow_IZR. }
  apply Rle_lt_trans with (bpow radix2 100); [|apply bpow_lt; reflexivity].
  rewrite E in H. apply abs_round_le_generic; auto.
  - apply (fexp_correct 24 128 prec24).
  - apply valid_rnd_N.
  - apply generic_format_bpow. vm_compute. discriminate.
Qed.

Lemma mul_finite_s x y :
  finites x -> finites y -> Rabs (SR x * SR y) <= bigs -> finites (x * y)%single.
Proof.
  unfold finites. rewrite !SR_B2R. unfold S_mul. intros Hx Hy H.
  pose proof (Bmult_correct _ _ prec24 max128 mode_NE x y) as C.
  change (round_mode mode_NE) with ZnearestE in C. rewrite big_lt_max_s in C by auto.
  destruct C as (_ & C & _). rewrite C. now rewrite Hx, Hy.
Qed.

Lemma div_finite_s x y :
  finites x -> SR y <> 0 -> Rabs (SR x / SR y) <= bigs -> finites (x / y)%single.
Proof.
  unfold finites. rewrite !SR_B2R. unfold S_div. intros Hx Hy H.
  pose proof (Bdiv_correct _ _ prec24 max128 mode_NE x y Hy) as C.
  change (round_mode mode_NE) with ZnearestE in C. rewrite big_lt_max_s in C by auto.
  destruct C as (_ & C & _). now rewrite C.
Qed.

Lemma ltb_SR_s x y : finites x -> finites y -> (Bltb x y = true <-> SR x < SR y).
Proof.
  unfold finites. rewrite !SR_B2R. intros Hx Hy.
  rewrite Bltb_correct by auto. split; [intros H|apply Rlt_bool_true].
  destruct (Rlt_bool_spec (B2R x) (B2R y)); [auto|discriminate].
Qed.

Lemma sqrt_finite_s x : finites x -> 0 <= SR x -> finites (S_sqrt x).
Proof.
  unfold finites. rewrite SR_B2R. intros Hx H. unfold S_sqrt.
  destruct (Bsqrt_correct _ _ prec24 max128 mode_NE x) as (_ & C & _). rewrite C.
  destruct x as [s|s| |[|] m e Hb]; try discriminate; auto.
  exfalso. cbn [B2R cond_Zopp] in H. assert (F2R (Float radix2 (Z.neg m) e) < 0) by now apply F2R_lt_0.
  cbn [Z.opp] in H. lra.
Qed.

Lemma rnd_nonneg_s r : 0 <= r -> 0 <= rnd32 r.
Proof.
  intros H. apply round_ge_generic; auto.
  - apply (fexp_correct 24 128 prec24).
  - apply valid_rnd_N.
  - apply generic_format_0.
Qed.

Definition fsq4_s (a b c d : single) : single := (a * a + b * b + c * c + d * d)%single.
Definition fmagn_s (q : quat single) : single := S_sqrt (fsq4_s (qr q) (qi q) (qj q) (qk q)).
Definition funit_s (q : quat single) : quat single :=
  if Bltb (Babs (fmagn_s q)) (S_lit 1 6) then Quat (B754_zero false) (B754_zero false) (B754_zero false) (B754_zero false)
  else Quat (qr q / fmagn_s q)%single (qi q / fmagn_s q)%single (qj q / fmagn_s q)%single (qk q / fmagn_s q)%single.

Lemma to_unit_s q : quat_to_unit q = Ok (funit_s q).
Proof.
  destruct q as [a b c d]. unfold funit_s, fmagn_s. cbn [qr qi qj qk].
  unfold quat_to_unit, quat_to_unit_st, qget, set_r, set_i, set_j, set_k, quat_magn.
  cbn [nth_error bind qr qi qj qk fsqrt fmul fadd fdiv fabs flt flit f0 NumS upd]. fold (fsq4_s a b c d).
  destruct (Bltb (Babs (S_sqrt (fsq4_s a b c d))) (S_lit 1 6));
    cbn [nth_error bind qr qi qj qk fsqrt fmul fadd fdiv fabs flt flit f0 NumS upd]; reflexivity.
Qed.

(** ** The threshold *)
Lemma lit_tiny_s : finites (S_lit 1 6) /\ 999999 / 1000000000000 <= SR (S_lit 1 6) <= 1000001 / 1000000000000.
Proof.
  split; [now vm_compute|].
  rewrite SR_B2R. replace (B2R (S_lit 1 6)) with (IZR 8796093 * / IZR (2 ^ 43)).
  - change (2 ^ 43)%Z with 8796093022208%Z. lra.
  - rewrite <- SF2R_B2SF. replace (B2SF (S_lit 1 6)) with (SpecFloat.S754_finite false 8796093 (-43)) by (vm_compute; reflexivity).
    unfold SF2R, F2R. cbn [Fnum Fexp cond_Zopp]. reflexivity.
Qed.

Lemma abs_SR x : SR (Babs x) = Rabs (SR x).
Proof.
  rewrite !SR_B2R. apply B2R_Babs.
Qed.
Lemma abs_finites x : finites (Babs x) <-> finites x.
Proof. unfold finites. now rewrite is_finite_Babs. Qed.

(** a number divided by an infinity or NaN: zero or no number *)
Lemma div_by_none_s x y : ~ finites y -> finites (x / y)%single -> SR (x / y)%single = 0.
Proof.
  unfold finites. rewrite SR_B2R. unfold S_div. intros Hy H.
  destruct y as [s|s| |s m e Hb]; cbn in Hy; try (exfalso; apply Hy; reflexivity);
    destruct x as [s'|s'| |s' m' e' Hb']; cbn in *; try discriminate; reflexivity.
Qed.

Lemma ltb_not_finite_s x y : finites y -> (0 <= SR y) -> ~ finites x -> Bltb (Babs x) y = false.
Proof.
  unfold finites. intros Hy _ Hx.
  destruct x as [s|s| |s m e Hb]; cbn in Hx; try (exfalso; apply Hx; reflexivity);
    destruct y as [s'|s'| |s' m' e' Hb']; cbn in *; try discriminate; reflexivity.
Qed.

(** ** The sum of squares *)
Lemma us_small : 0 < us <= / 10000000.
Proof. split; [apply us_pos|]. unfold us. apply Rinv_le_contravar; lra. Qed.

Lemma etas_small : 0 < etas <= us * / 10 ^ 30.
Proof.
  split; [apply etas_pos|]. unfold etas, us. rewrite <- Rinv_mult. apply Rinv_le_contravar.
  - apply Rmult_lt_0_compat; apply pow_lt; lra.
  - replace 150%nat with (24 + (100 + 26))%nat by reflexivity. rewrite !pow_add.
    apply Rmult_le_compat_l; [apply pow_le; lra|].
    assert (1 <= 2 ^ 26) by (apply pow_R1_Rle; lra).
    assert (10 ^ 30 <= 2 ^ 100) by (rewrite !pow_IZR; apply IZR_le; vm_compute; discriminate).
    assert (0 < 10 ^ 30) by (apply pow_lt; lra). nra.
Qed.

Lemma sq_round_s x : finites (x * x)%single ->
  finites x /\ 0 <= SR (x * x)%single /\
  SR x * SR x * (1 - us) - etas <= SR (x * x)%single <= SR x * SR x * (1 + us) + etas.
Proof.
  intros H. destruct (mul_err_s _ _ H) as (Hx & _ & d & e & Hd & He & E). split; auto.
  destruct (mul_rnd_s _ _ H) as (_ & _ & R). split.
  - rewrite R. apply rnd_nonneg_s. apply Rle_0_sqr.
  - rewrite E. apply Rabs_le_inv in Hd, He. pose proof (Rle_0_sqr (SR x)) as P. unfold Rsqr in P. nra.
Qed.

Lemma sum_round_s x y : finites (x + y)%single -> 0 <= SR x -> 0 <= SR y ->
  0 <= SR (x + y)%single /\ (SR x + SR y) * (1 - us) <= SR (x + y)%single <= (SR x + SR y) * (1 + us).
Proof.
  intros H Px Py. destruct (add_err_s _ _ H) as (_ & _ & d & Hd & E). rewrite E. apply Rabs_le_inv in Hd.
  pose proof us_small. split; [apply Rmult_le_pos; lra|]. nra.
Qed.

(** one more addition widens an interval by one rounding *)
Lemma sum_step_s P x r x3 lo hi lo' hi' : 0 <= P -> 0 <= r -> 0 <= lo <= 1 -> 1 <= hi ->
  P * lo <= x <= P * hi -> (x + r) * (1 - us) <= x3 <= (x + r) * (1 + us) ->
  lo' <= lo * (1 - us) -> hi * (1 + us) <= hi' -> (P + r) * lo' <= x3 <= (P + r) * hi'.
Proof.
  intros HP Hr Hlo Hhi Hx H3 Hl Hh. pose proof us_small as U.
  assert (A1 : (P + r) * lo <= x + r). { assert (r * lo <= r * 1) by (apply Rmult_le_compat_l; lra). lra. }
  assert (A2 : x + r <= (P + r) * hi). { assert (r * 1 <= r * hi) by (apply Rmult_le_compat_l; lra). lra. }
  split.
  - apply Rle_trans with ((P + r) * (lo * (1 - us))); [apply Rmult_le_compat_l; lra|].
    rewrite <- Rmult_assoc. eapply Rle_trans; [apply Rmult_le_compat_r; [lra|exact A1]|]. lra.
  - apply Rle_trans with ((P + r) * (hi * (1 + us))); [|apply Rmult_le_compat_l; lra].
    rewrite <- Rmult_assoc. eapply Rle_trans; [|apply Rmult_le_compat_r; [lra|exact A2]]. lra.
Qed.


Lemma fsq4_err_s a b c d : finites (fsq4_s a b c d) ->
  finites a /\ finites b /\ finites c /\ finites d /\
  let S := sq4 (SR a) (SR b) (SR c) (SR d) in
  S * (1 - 401 / 100 * us) - 5 * etas <= SR (fsq4_s a b c d) <= S * (1 + 401 / 100 * us) + 5 * etas.
Proof.
  unfold fsq4_s. intros H. pose proof us_small as U. pose proof etas_small as Et.
  assert (Uq : 0 <= us * us <= us * / 1000000) by (split; [apply Rmult_le_pos|apply Rmult_le_compat_l]; lra).
  destruct (add_err_s _ _ H) as (H3 & Hd & _). destruct (add_err_s _ _ H3) as (H2 & Hc & _).
  destruct (add_err_s _ _ H2) as (Ha & Hb & _).
  destruct (sq_round_s _ Ha) as (Fa & Pa & Ba). destruct (sq_round_s _ Hb) as (Fb & Pb & Bb).
  destruct (sq_round_s _ Hc) as (Fc & Pc & Bc). destruct (sq_round_s _ Hd) as (Fd & Pd & Bd).
  destruct (sum_round_s _ _ H2 Pa Pb) as (P2 & B2). destruct (sum_round_s _ _ H3 P2 Pc) as (P3 & B3).
  destruct (sum_round_s _ _ H P3 Pd) as (P4 & B4).
  do 4 (split; [auto|]). cbv zeta.
  set (p := SR (a * a)%single) in *. set (q := SR (b * b)%single) in *.
  set (r := SR (c * c)%single) in *. set (s := SR (d * d)%single) in *.
  set (x2 := SR (a * a + b * b)%single) in *. set (x3 := SR (a * a + b * b + c * c)%single) in *.
  set (x4 := SR (a * a + b * b + c * c + d * d)%single) in *.
  set (S := sq4 (SR a) (SR b) (SR c) (SR d)).
  assert (PS : 0 <= S).
  { unfold S, sq4. pose proof (Rle_0_sqr (SR a)). pose proof (Rle_0_sqr (SR b)).
    pose proof (Rle_0_sqr (SR c)). pose proof (Rle_0_sqr (SR d)). unfold Rsqr in *. lra. }
  set (t := p + q + r + s). assert (Pt : 0 <= t) by (unfold t; lra).
  assert (Bt : S * (1 - us) - 4 * etas <= t <= S * (1 + us) + 4 * etas) by (unfold t, S, sq4; lra).
  assert (C3 : (p + q + r) * (1 - 2 * us) <= x3 <= (p + q + r) * (1 + 2001 / 1000 * us)).
  { apply (sum_step_s (p + q) x2 r x3 (1 - us) (1 + us)); auto; lra. }
  assert (C4 : t * (1 - 3 * us) <= x4 <= t * (1 + 3003 / 1000 * us)).
  { apply (sum_step_s (p + q + r) x3 s x4 (1 - 2 * us) (1 + 2001 / 1000 * us)); auto; lra. }
  assert (Su : 0 <= S * us) by (apply Rmult_le_pos; lra).
  assert (Su2 : 0 <= S * us * us <= S * us * / 1000000) by (split; [apply Rmult_le_pos|apply Rmult_le_compat_l]; lra).
  assert (Eu : 0 <= etas * us <= etas * / 1000000) by (split; [apply Rmult_le_pos|apply Rmult_le_compat_l]; lra).
  split.
  - apply Rle_trans with (t * (1 - 3 * us)); [|lra].
    apply Rle_trans with ((S * (1 - us) - 4 * etas) * (1 - 3 * us)); [lra|]. apply Rmult_le_compat_r; lra.
  - apply Rle_trans with (t * (1 + 3003 / 1000 * us)); [lra|].
    apply Rle_trans with ((S * (1 + us) + 4 * etas) * (1 + 3003 / 1000 * us)); [apply Rmult_le_compat_r; lra|]. lra.
Qed.

Lemma sq4_nonneg_s a b c d : 0 <= sq4 a b c d.
Proof.
  unfold sq4. pose proof (Rle_0_sqr a). pose proof (Rle_0_sqr b). pose proof (Rle_0_sqr c). pose proof (Rle_0_sqr d).
  unfold Rsqr in *. lra.
Qed.

Lemma norm2_s_sq4 q : norm2_s q = sq4 (SR (qr q)) (SR (qi q)) (SR (qj q)) (SR (qk q)).
Proof. reflexivity. Qed.

(** the computed magnitude *)
Lemma fmagn_err_s q : finites (fmagn_s q) ->
  finite_quat_s q /\ 0 <= SR (fmagn_s q) /\
  norm2_s q * (1 - 603 / 100 * us) - 6 * etas <= SR (fmagn_s q) * SR (fmagn_s q) <= norm2_s q * (1 + 603 / 100 * us) + 6 * etas.
Proof.
  unfold fmagn_s. intros H. destruct (sqrt_err_s _ H) as (Hs & Ps & d & Hd & E).
  destruct (fsq4_err_s _ _ _ _ Hs) as (Fa & Fb & Fc & Fd & B). cbv zeta in B.
  split; [repeat split; auto|]. pose proof us_small as U. pose proof etas_small as Et. apply Rabs_le_inv in Hd.
  split; [rewrite E; apply Rmult_le_pos; [apply sqrt_pos|lra]|].
  rewrite norm2_s_sq4. set (S := sq4 _ _ _ _) in *. assert (PS : 0 <= S) by apply sq4_nonneg_s.
  set (s := SR (fsq4_s _ _ _ _)) in *. rewrite E.
  replace (sqrt s * (1 + d) * (sqrt s * (1 + d))) with (s * ((1 + d) * (1 + d))).
  2:{ rewrite <- (sqrt_sqrt s) at 1 by auto. ring. }
  assert (D : 1 - 2 * us <= (1 + d) * (1 + d) <= 1 + 201 / 100 * us) by (split; nra).
  assert (Su : 0 <= S * us) by (apply Rmult_le_pos; lra).
  assert (Su2 : 0 <= S * us * us <= S * us * / 1000000) by (split; [apply Rmult_le_pos|apply Rmult_le_compat_l]; lra).
  assert (Eu : 0 <= etas * us <= etas * / 1000000) by (split; [apply Rmult_le_pos|apply Rmult_le_compat_l]; lra).
  split.
  - apply Rle_trans with (s * (1 - 2 * us)); [|apply Rmult_le_compat_l; lra].
    apply Rle_trans with ((S * (1 - 401 / 100 * us) - 5 * etas) * (1 - 2 * us)); [lra|apply Rmult_le_compat_r; lra].
  - apply Rle_trans with (s * (1 + 201 / 100 * us)); [apply Rmult_le_compat_l; lra|].
    apply Rle_trans with ((S * (1 + 401 / 100 * us) + 5 * etas) * (1 + 201 / 100 * us)); [apply Rmult_le_compat_r; lra|lra].
Qed.

(** one component *)
Lemma comp_sq_s y d e : Rabs d <= us -> Rabs e <= etas -> y * y <= 4 ->
  Rabs ((y * (1 + d) + e) * (y * (1 + d) + e) - y * y) <= 201 / 100 * us * (y * y) + 6 * etas.
Proof.
  intros Hd He Hy. pose proof us_small as U. pose proof etas_small as Et.
  assert (Ay : Rabs y <= 2).
  { apply Rsqr_incr_0_var; [|lra]. rewrite <- Rsqr_abs. unfold Rsqr. lra. }
  replace ((y * (1 + d) + e) * (y * (1 + d) + e) - y * y)
    with (y * y * (2 * d + d * d) + (2 * (y * (1 + d)) * e + e * e)) by ring.
  assert (Eu : etas <= / 1000).
  { assert (us * / 10 ^ 30 <= / 1000 * / 10 ^ 30).
    { apply Rmult_le_compat_r; [left; apply Rinv_0_lt_compat, pow_lt; lra|lra]. }
    assert (/ 10 ^ 30 <= 1) by (rewrite <- Rinv_1; apply Rinv_le_contravar; [lra|apply pow_R1_Rle; lra]). lra. }
  eapply Rle_trans; [apply Rabs_triang|]. apply Rplus_le_compat.
  - rewrite Rabs_mult, (Rabs_pos_eq (y * y)) by apply Rle_0_sqr. rewrite Rmult_comm.
    apply Rmult_le_compat_r; [apply Rle_0_sqr|].
    eapply Rle_trans; [apply Rabs_triang|]. rewrite !Rabs_mult, (Rabs_pos_eq 2) by lra.
    pose proof (Rabs_pos d). nra.
  - eapply Rle_trans; [apply Rabs_triang|]. rewrite !Rabs_mult, (Rabs_pos_eq 2) by lra.
    assert (A1 : Rabs (1 + d) <= 101 / 100).
    { eapply Rle_trans; [apply Rabs_triang|]. rewrite Rabs_R1. lra. }
    pose proof (Rabs_pos y). pose proof (Rabs_pos (1 + d)). pose proof (Rabs_pos e).
    assert (Rabs y * Rabs (1 + d) <= 2 * (101 / 100)) by (apply Rmult_le_compat; auto).
    assert (2 * (Rabs y * Rabs (1 + d)) * Rabs e <= 2 * (2 * (101 / 100)) * etas).
    { apply Rmult_le_compat; auto; [|lra]. apply Rmult_le_pos; [lra|]. apply Rmult_le_pos; auto. }
    assert (Rabs e * Rabs e <= / 1000 * etas) by (apply Rmult_le_compat; lra). lra.
Qed.

Section U.
Variables (S M : R).
Hypothesis HM : 999999 / 1000000000000 <= M.
Hypothesis HS : S * (1 - 603 / 100 * us) - 6 * etas <= M * M <= S * (1 + 603 / 100 * us) + 6 * etas.

Lemma M2_big_s : 99 / 100000000000000 <= M * M.
Proof. nra. Qed.

Lemma etas_M2_s : etas <= us * / 1000000000000000 * (M * M).
Proof.
  pose proof etas_small as E. pose proof M2_big_s as B. pose proof us_small.
  eapply Rle_trans; [apply E|]. rewrite Rmult_assoc. apply Rmult_le_compat_l; [lra|].
  replace (10 ^ 30) with (10 ^ 15 * 10 ^ 15) by ring. replace (10 ^ 15) with 1000000000000000 by ring.
  rewrite Rinv_mult. apply Rmult_le_compat_l; lra.
Qed.

Lemma ratio_s : Rabs (S / (M * M) - 1) <= 604 / 100 * us.
Proof.
  pose proof us_small as U. pose proof etas_M2_s as E. pose proof M2_big_s as B.
  assert (PM : 0 < M * M) by lra.
  replace (S / (M * M) - 1) with ((S - M * M) / (M * M)) by (field; lra).
  unfold Rdiv. rewrite Rabs_mult, (Rabs_pos_eq (/ (M * M))) by (left; now apply Rinv_0_lt_compat).
  apply Rmult_le_reg_r with (M * M); auto. rewrite Rmult_assoc, Rinv_l by lra. rewrite Rmult_1_r.
  set (m2 := M * M) in *.
  assert (Um : 0 <= us * m2) by (apply Rmult_le_pos; lra).
  assert (E' : 6 * etas <= / 1000 * (us * m2)) by lra.
  assert (S0 : 0 <= S).
  { assert (0 <= S * (1 + 603 / 100 * us)); [|nra]. assert (us * m2 <= / 1000 * m2) by (apply Rmult_le_compat_r; lra). lra. }
  assert (S2 : S <= 1001 / 1000 * m2).
  { assert (S * us <= S * / 1000000) by (apply Rmult_le_compat_l; lra).
    assert (us * m2 <= / 1000000 * m2) by (apply Rmult_le_compat_r; lra). lra. }
  assert (S * us <= 1001 / 1000 * m2 * us) by (apply Rmult_le_compat_r; lra).
  assert (0 <= us * m2) by (apply Rmult_le_pos; lra).
  apply Rabs_le. split; lra.
Qed.

Lemma unit_real_s x1 x2 x3 x4 d1 d2 d3 d4 e1 e2 e3 e4 :
  S = sq4 x1 x2 x3 x4 ->
  Rabs d1 <= us -> Rabs d2 <= us -> Rabs d3 <= us -> Rabs d4 <= us ->
  Rabs e1 <= etas -> Rabs e2 <= etas -> Rabs e3 <= etas -> Rabs e4 <= etas ->
  Rabs (sq4 (x1 / M * (1 + d1) + e1) (x2 / M * (1 + d2) + e2) (x3 / M * (1 + d3) + e3) (x4 / M * (1 + d4) + e4) - 1)
    <= 9 * us.
Proof.
  intros ES D1 D2 D3 D4 E1 E2 E3 E4.
  pose proof us_small as U. pose proof etas_M2_s as E. pose proof M2_big_s as B. pose proof ratio_s as R.
  assert (PM : 0 < M) by lra.
  set (y1 := x1 / M). set (y2 := x2 / M). set (y3 := x3 / M). set (y4 := x4 / M).
  assert (Q : S / (M * M) = sq4 y1 y2 y3 y4) by (rewrite ES; unfold sq4, y1, y2, y3, y4; field; lra).
  rewrite Q in R. apply Rabs_le_inv in R.
  pose proof (Rle_0_sqr y1) as P1. pose proof (Rle_0_sqr y2) as P2. pose proof (Rle_0_sqr y3) as P3. pose proof (Rle_0_sqr y4) as P4.
  unfold Rsqr in *.
  assert (Q2 : sq4 y1 y2 y3 y4 <= 2) by lra. unfold sq4 in Q2.
  assert (C1 := comp_sq_s y1 d1 e1 D1 E1 ltac:(lra)). assert (C2 := comp_sq_s y2 d2 e2 D2 E2 ltac:(lra)).
  assert (C3 := comp_sq_s y3 d3 e3 D3 E3 ltac:(lra)). assert (C4 := comp_sq_s y4 d4 e4 D4 E4 ltac:(lra)).
  apply Rabs_le_inv in C1, C2, C3, C4. unfold sq4 in R |- *.
  assert (Ee : 24 * etas <= / 1000 * us).
  { pose proof etas_small as (_ & Es). assert (/ 10 ^ 30 <= / 100000) by (apply Rinv_le_contravar; lra).
    assert (us * / 10 ^ 30 <= us * / 100000) by (apply Rmult_le_compat_l; lra). lra. }
  set (w := y1 * y1 + y2 * y2 + y3 * y3 + y4 * y4) in *.
  assert (W : us * w <= us * (1 + / 1000)).
  { apply Rmult_le_compat_l; [lra|]. lra. }
  apply Rabs_le. unfold w in *. split; lra.
Qed.
End U.

Lemma unit_of_magn_s q : finites (fmagn_s q) -> 999999 / 1000000000000 <= SR (fmagn_s q) ->
  near_unit_s (Quat (qr q / fmagn_s q)%single (qi q / fmagn_s q)%single (qj q / fmagn_s q)%single (qk q / fmagn_s q)%single).
Proof.
  intros Hm HM. destruct (fmagn_err_s q Hm) as (Fq & _ & B). set (m := fmagn_s q) in *. set (M := SR m) in *.
  pose proof us_small as U. pose proof (M2_big_s M HM) as MB. pose proof (ratio_s (norm2_s q) M HM B) as R.
  assert (PM : 0 < M) by lra. assert (PM2 : 0 < M * M) by lra.
  destruct q as [a b c d]. cbn [qr qi qj qk] in *. destruct Fq as (Fa & Fb & Fc & Fd). cbn [qr qi qj qk] in *.
  assert (Q : norm2_s (Quat a b c d) / (M * M)
      = sq4 (SR a / M) (SR b / M) (SR c / M) (SR d / M)).
  { unfold norm2_s, sq4. cbn [qr qi qj qk]. field. lra. }
  rewrite Q in R. apply Rabs_le_inv in R. unfold sq4 in R.
  pose proof (Rle_0_sqr (SR a / M)) as P1. pose proof (Rle_0_sqr (SR b / M)) as P2.
  pose proof (Rle_0_sqr (SR c / M)) as P3. pose proof (Rle_0_sqr (SR d / M)) as P4. unfold Rsqr in *.
  assert (G : forall x, SR x / M * (SR x / M) <= 2 -> finites x -> finites (x / m)%single).
  { intros x Hx Fx. apply div_finite_s; auto; [fold M; lra|]. fold M.
    assert (Rabs (SR x / M) <= 2).
    { apply Rsqr_incr_0_var; [|lra]. rewrite <- Rsqr_abs. unfold Rsqr. lra. }
    unfold bigs. assert (2 ^ 1 <= 2 ^ 100) by (apply Rle_pow; [lra|lia]). lra. }
  assert (Ga := G a ltac:(lra) Fa). assert (Gb := G b ltac:(lra) Fb).
  assert (Gc := G c ltac:(lra) Fc). assert (Gd := G d ltac:(lra) Fd).
  assert (NM : SR m <> 0) by (fold M; lra).
  destruct (div_err_s a m NM Ga) as (_ & d1 & e1 & D1 & E1 & X1). destruct (div_err_s b m NM Gb) as (_ & d2 & e2 & D2 & E2 & X2).
  destruct (div_err_s c m NM Gc) as (_ & d3 & e3 & D3 & E3 & X3). destruct (div_err_s d m NM Gd) as (_ & d4 & e4 & D4 & E4 & X4).
  split; [repeat split; cbn [qr qi qj qk]; auto|]. rewrite norm2_s_sq4. cbn [qr qi qj qk].
  rewrite X1, X2, X3, X4. apply (unit_real_s (norm2_s (Quat a b c d)) M HM B); auto.
Qed.

(** ** Whatever the quaternion *)
Theorem funit_cases_s q : finite_quat_s (funit_s q) -> zero_quat_s (funit_s q) \/ near_unit_s (funit_s q).
Proof.
  unfold funit_s. destruct lit_tiny_s as (FL & BL).
  destruct (is_finite (fmagn_s q)) eqn:Em.
  - destruct (fmagn_err_s q Em) as (_ & PM & _).
    destruct (Bltb (Babs (fmagn_s q)) (S_lit 1 6)) eqn:Et.
    + intros H. left. split; [exact H|]. cbn [qr qi qj qk]. rewrite SR_zero. auto.
    + intros _. right. apply unit_of_magn_s; auto.
      assert (~ SR (Babs (fmagn_s q)) < SR (S_lit 1 6)).
      { intros L. apply ltb_SR_s in L; auto; [congruence|]. now apply abs_finites. }
      rewrite abs_SR, Rabs_pos_eq in H by auto. lra.
  - assert (Nm : ~ finites (fmagn_s q)) by (unfold finites; congruence).
    rewrite ltb_not_finite_s by (auto; lra). intros H. left. split; auto.
    destruct H as (H1 & H2 & H3 & H4). cbn [qr qi qj qk] in *. repeat split; now apply div_by_none_s.
Qed.

(** ** Where it is certain *)
Lemma add_finite_s x y : finites x -> finites y -> Rabs (SR x + SR y) <= bigs -> finites (x + y)%single.
Proof.
  unfold finites. rewrite !SR_B2R. unfold S_add. intros Hx Hy H.
  pose proof (Bplus_correct _ _ prec24 max128 mode_NE x y Hx Hy) as C.
  change (round_mode mode_NE) with ZnearestE in C. rewrite big_lt_max_s in C by auto. tauto.
Qed.

Lemma sub_finite_s x y : finites x -> finites y -> Rabs (SR x - SR y) <= bigs -> finites (x - y)%single.
Proof.
  unfold finites. rewrite !SR_B2R. unfold S_sub. intros Hx Hy H.
  pose proof (Bminus_correct _ _ prec24 max128 mode_NE x y Hx Hy) as C.
  change (round_mode mode_NE) with ZnearestE in C. rewrite big_lt_max_s in C by auto. tauto.
Qed.

Lemma pow2_4_s : 64 * (2 ^ 40 * 2 ^ 40) <= bigs.
Proof.
  unfold bigs. replace 64 with (2 ^ 6) by ring. rewrite <- !pow_add. apply Rle_pow; [lra|lia].
Qed.

Theorem funit_regular_s q : finite_quat_s q ->
  (forall x, In x [qr q; qi q; qj q; qk q] -> Rabs (SR x) <= 2 ^ 40) ->
  2 / 1000000000000 <= norm2_s q ->
  finites (fmagn_s q) /\ near_unit_s (funit_s q).
Proof.
  intros (F1 & F2 & F3 & F4) HB HN.
  pose proof us_small as U. pose proof etas_small as Et. pose proof pow2_4_s as P4.
  set (h := 2 ^ 40 * 2 ^ 40) in *.
  assert (Ph : 1 <= h).
  { unfold h. assert (1 <= 2 ^ 40) by (apply pow_R1_Rle; lra). nra. }
  assert (Sq : forall x, In x [qr q; qi q; qj q; qk q] -> Rabs (SR x * SR x) <= h).
  { intros x Hx. rewrite Rabs_mult. unfold h. apply Rmult_le_compat; auto using Rabs_pos. }
  destruct q as [a b c d]. cbn [qr qi qj qk In] in *.
  assert (S1 := Sq a ltac:(auto)). assert (S2 := Sq b ltac:(auto)). assert (S3 := Sq c ltac:(auto)). assert (S4 := Sq d ltac:(auto 6)).
  assert (G1 : finites (a * a)%single) by (apply mul_finite_s; auto; lra).
  assert (G2 : finites (b * b)%single) by (apply mul_finite_s; auto; lra).
  assert (G3 : finites (c * c)%single) by (apply mul_finite_s; auto; lra).
  assert (G4 : finites (d * d)%single) by (apply mul_finite_s; auto; lra).
  assert (Te : etas <= 1).
  { assert (/ 10 ^ 30 <= 1) by (rewrite <- Rinv_1; apply Rinv_le_contravar; [lra|apply pow_R1_Rle; lra]).
    assert (0 < / 10 ^ 30) by (apply Rinv_0_lt_compat, pow_lt; lra). nra. }
  assert (Q : forall x, Rabs (SR x * SR x) <= h -> finites (x * x)%single -> 0 <= SR (x * x)%single <= 3 * h).
  { intros x Hx Fx. destruct (sq_round_s x Fx) as (_ & P & B). split; auto.
    rewrite Rabs_pos_eq in Hx by apply Rle_0_sqr.
    assert (SR x * SR x * (1 + us) <= h * (1 + us)) by (apply Rmult_le_compat_r; lra). nra. }
  destruct (Q a S1 G1) as (A1 & B1). destruct (Q b S2 G2) as (A2 & B2).
  destruct (Q c S3 G3) as (A3 & B3). destruct (Q d S4 G4) as (A4 & B4).
  assert (G5 : finites (a * a + b * b)%single) by (apply add_finite_s; auto; rewrite Rabs_pos_eq; lra).
  destruct (sum_round_s _ _ G5 A1 A2) as (A5 & B5).
  assert (B5' : SR (a * a + b * b)%single <= 7 * h).
  { eapply Rle_trans; [apply B5|]. eapply Rle_trans; [apply Rmult_le_compat; [lra|lra| |]; [|apply (Rplus_le_compat_l 1), (proj2 U)]|]; [apply Rplus_le_compat; [apply B1|apply B2]|]. lra. }
  assert (G6 : finites (a * a + b * b + c * c)%single) by (apply add_finite_s; auto; rewrite Rabs_pos_eq; lra).
  destruct (sum_round_s _ _ G6 A5 A3) as (A6 & B6).
  assert (B6' : SR (a * a + b * b + c * c)%single <= 11 * h).
  { eapply Rle_trans; [apply B6|]. eapply Rle_trans; [apply Rmult_le_compat; [lra|lra| |]; [|apply (Rplus_le_compat_l 1), (proj2 U)]|]; [apply Rplus_le_compat; [apply B5'|apply B3]|]. lra. }
  assert (G7 : finites (fsq4_s a b c d)) by (unfold fsq4_s; apply add_finite_s; auto; rewrite Rabs_pos_eq; lra).
  destruct (sum_round_s _ _ G7 A6 A4) as (A7 & B7).
  assert (G : finites (fmagn_s (Quat a b c d))).
  { unfold fmagn_s. cbn [qr qi qj qk]. apply sqrt_finite_s; auto. }
  split; auto. unfold funit_s. destruct lit_tiny_s as (FL & BL).
  destruct (fmagn_err_s _ G) as (_ & PM & BM). set (M := SR (fmagn_s (Quat a b c d))) in *.
  assert (HM : 1000002 / 1000000000000 <= M).
  { apply Rsqr_incr_0_var; auto. unfold Rsqr. eapply Rle_trans; [|apply BM].
    assert (E6 : 6 * etas <= / 10000000000000000).
    { assert (/ 10 ^ 30 <= / 10000000000) by (apply Rinv_le_contravar; lra).
      assert (0 < / 10 ^ 30) by (apply Rinv_0_lt_compat, pow_lt; lra).
      assert (us * / 10 ^ 30 <= / 10000000 * / 10000000000) by (apply Rmult_le_compat; lra). lra. }
    nra. }
  replace (Bltb (Babs (fmagn_s (Quat a b c d))) (S_lit 1 6)) with false.
  - apply unit_of_magn_s; auto. fold M. lra.
  - symmetry. apply Bool.not_true_is_false. intros L. apply ltb_SR_s in L; auto; [|now apply abs_finites].
    rewrite abs_SR, Rabs_pos_eq in L by auto. fold M in L. lra.
Qed.
