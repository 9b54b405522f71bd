(** C172: the normal density against the Gaussian density. *)
From Coq Require Import List Arith ZArith Bool Lia Reals Lra.
From Coquelicot Require Import Coquelicot.
From Verif Require Import Base BaseFacts NumR Libm LibmR RTac RE RPi MProb PVecR PProb ErfR PropNormal.
Local Open Scope R_scope.

(** The density of the normal distribution *)
Definition gaussian (m s x : R) : R := / (s * sqrt (2 * PI)) * exp (- (((x - m) / s) ^ 2 / 2)).

Lemma ln_e' : 1 - 4 / 1000000000000 <= ln (271828182845 / 100000000000) < 1.
Proof.
  pose proof e_bounds as (E1 & E2). set (e := 271828182845 / 100000000000).
  split.
  - rewrite <- (ln_exp (1 - 4 / 1000000000000)). 
    assert (L : exp (1 - 4 / 1000000000000) < e); [|left; apply ln_increasing; [apply exp_pos|exact L]].
    unfold Rminus. rewrite exp_plus.
    assert (X : exp (- (4 / 1000000000000)) <= 1 - 4 / 1000000000000 + 1 / 100000000000000).
    { rewrite exp_Ropp. pose proof (exp_ineq1_le (4 / 1000000000000)).
      assert (/ exp (4 / 1000000000000) <= / (1 + 4 / 1000000000000)) by (apply Rinv_le_contravar; lra).
      assert (/ (1 + 4 / 1000000000000) <= 1 - 4 / 1000000000000 + 1 / 100000000000000); [|lra].
      apply Rmult_le_reg_l with (1 + 4 / 1000000000000); [lra|]. rewrite Rinv_r by lra. lra. }
    pose proof (exp_pos (- (4 / 1000000000000))). pose proof (exp_pos 1).
    apply Rle_lt_trans with (27182818284592 / 10000000000000 * (1 - 4 / 1000000000000 + 1 / 100000000000000)); [|unfold e; lra].
    apply Rmult_le_compat; lra.
  - apply Rlt_le_trans with (ln (exp 1)); [apply ln_increasing; unfold e; lra|rewrite ln_exp; lra].
Qed.

(** zsl_prob_normal_pdf is the Gaussian density up to a factor between 1 - 1e-13
    and exp (2e-12 z^2) at z deviations from the mean *)
Theorem C172_density m s x : 0 < s ->
  exists v, prob_normal_pdf m s x = Ok v
  /\ (1 - 1 / 10000000000000) * gaussian m s x <= v
  /\ v <= exp (2 / 1000000000000 * ((x - m) / s) ^ 2) * gaussian m s x.
Proof.
  intros Hs. set (k := / (s * sqrt (2 * (314159265359 / 100000000000)))). set (e := 271828182845 / 100000000000).
  set (z := (x - m) / s).
  pose proof PI_bounds as (P1 & P2). pose proof ln_e' as (L1 & L2). fold e in L1, L2.
  assert (S2 : 0 < sqrt (2 * (314159265359 / 100000000000))) by (apply sqrt_lt_R0; lra).
  assert (SP : 0 < sqrt (2 * PI)) by (apply sqrt_lt_R0; lra).
  exists (k * Rpower e (- (1 / 2) * z * z)). split.
  { unfold prob_normal_pdf, zsl_pi, zsl_e. rops. replace (2 / 1) with 2 by lra.
    rewrite Rsqrto_ok by lra. cbn [bind].
    rewrite Rdivo_ok by (apply Rgt_not_eq, Rmult_lt_0_compat; assumption). cbn [bind].
    rewrite Rdivo_ok by lra. cbn [bind]. rewrite Rpow_pos by lra. cbn [bind]. f_equal. fold e. unfold k, z.
    replace (5 / 10) with (1 / 2) by lra. unfold Rdiv at 1. rewrite Rmult_1_l. reflexivity. }
  assert (K : (1 - 1 / 10000000000000) * / (s * sqrt (2 * PI)) <= k <= / (s * sqrt (2 * PI))).
  { assert (Q1 : sqrt (2 * PI) * sqrt (2 * PI) = 2 * PI) by (apply sqrt_sqrt; lra).
    assert (Q2 : sqrt (2 * (314159265359 / 100000000000)) * sqrt (2 * (314159265359 / 100000000000)) = 2 * (314159265359 / 100000000000)) by (apply sqrt_sqrt; lra).
    set (a := sqrt (2 * PI)) in *. set (b := sqrt (2 * (314159265359 / 100000000000))) in *.
    assert (AB : a <= b) by nra.
    assert (BA : (1 - 1 / 10000000000000) * b <= a).
    { destruct (Rle_dec ((1 - 1 / 10000000000000) * b) a) as [L|L]; [exact L|]. exfalso.
      assert (a * a < (1 - 1 / 10000000000000) * b * ((1 - 1 / 10000000000000) * b)) by (apply Rmult_le_0_lt_compat; lra).
      replace ((1 - 1 / 10000000000000) * b * ((1 - 1 / 10000000000000) * b)) with ((1 - 1 / 10000000000000) * (1 - 1 / 10000000000000) * (b * b)) in H by ring.
      rewrite Q1, Q2 in H. lra. }
    assert (SA : 0 < s * a) by (apply Rmult_lt_0_compat; lra). assert (SB : 0 < s * b) by (apply Rmult_lt_0_compat; lra).
    unfold k. split.
    - apply Rmult_le_reg_r with (s * b); [exact SB|]. rewrite Rinv_l by lra.
      apply Rmult_le_reg_r with (s * a); [exact SA|].
      replace ((1 - 1 / 10000000000000) * / (s * a) * (s * b) * (s * a)) with (s * ((1 - 1 / 10000000000000) * b)) by (field; lra).
      rewrite Rmult_1_l. apply Rmult_le_compat_l; lra.
    - apply Rinv_le_contravar; [exact SA|]. apply Rmult_le_compat_l; lra. }
  assert (Kp : 0 < / (s * sqrt (2 * PI))) by (apply Rinv_0_lt_compat, Rmult_lt_0_compat; assumption).
  assert (Z : 0 <= z * z) by nra.
  assert (M : forall a b, a <= b -> exp a <= exp b).
  { intros a b [L|E]; [left; now apply exp_increasing|right; now f_equal]. }
  unfold gaussian. fold z. unfold Rpower. split.
  - rewrite <- Rmult_assoc. apply Rmult_le_compat; [|left; apply exp_pos|lra|].
    + apply Rmult_le_pos; [lra|left; exact Kp].
    + apply M. nra.
  - replace (exp (2 / 1000000000000 * z ^ 2) * (/ (s * sqrt (2 * PI)) * exp (- (z ^ 2 / 2))))
      with (/ (s * sqrt (2 * PI)) * exp (2 / 1000000000000 * z ^ 2 + - (z ^ 2 / 2))) by (rewrite exp_plus; ring).
    apply Rmult_le_compat; [|left; apply exp_pos|lra|].
    + left. apply Rinv_0_lt_compat, Rmult_lt_0_compat; assumption.
    + apply M. nra.
Qed.

(** Within 1000 deviations the factor is below 1 + 3e-6 *)
Theorem C172_density_near m s x : 0 < s -> Rabs (x - m) <= 1000 * s ->
  exists v, prob_normal_pdf m s x = Ok v /\ Rabs (v - gaussian m s x) <= 3 / 1000000 * gaussian m s x.
Proof.
  intros Hs Hx. destruct (C172_density m s x Hs) as (v & E & L & U). exists v. split; [exact E|].
  assert (G : 0 < gaussian m s x).
  { unfold gaussian. apply Rmult_lt_0_compat; [|apply exp_pos]. apply Rinv_0_lt_compat, Rmult_lt_0_compat; [exact Hs|].
    apply sqrt_lt_R0. pose proof PI_RGT_0. lra. }
  assert (Z : ((x - m) / s) ^ 2 <= 1000000).
  { assert (A : Rabs ((x - m) / s) <= 1000).
    { unfold Rdiv. rewrite Rabs_mult, (Rabs_pos_eq (/ s)) by (left; now apply Rinv_0_lt_compat). now apply Rle_div_l. }
    rewrite <- pow2_abs. cbn [pow]. pose proof (Rabs_pos ((x - m) / s)). nra. }
  assert (X : exp (2 / 1000000000000 * ((x - m) / s) ^ 2) <= 1 + 3 / 1000000).
  { apply Rle_trans with (exp (2 / 1000000)).
    - destruct (Req_dec (2 / 1000000000000 * ((x - m) / s) ^ 2) (2 / 1000000)) as [->|N]; [lra|]. left. apply exp_increasing. lra.
    - pose proof (exp_ineq1_le (- (2 / 1000000))) as Y. rewrite exp_Ropp in Y. pose proof (exp_pos (2 / 1000000)).
      apply Rmult_le_reg_l with (/ exp (2 / 1000000)); [now apply Rinv_0_lt_compat|]. rewrite Rinv_l by lra. nra. }
  apply Rabs_le. split; [lra|]. assert (v <= (1 + 3 / 1000000) * gaussian m s x); [|lra].
  eapply Rle_trans; [exact U|]. apply Rmult_le_compat_r; lra.
Qed.

(** *** Non-vacuity *)
Example C172_ex : exists v, prob_normal_pdf 5 2 9 = Ok v /\ Rabs (v - gaussian 5 2 9) <= 3 / 1000000 * gaussian 5 2 9.
Proof. apply C172_density_near; [lra|]. rewrite Rabs_pos_eq; lra. Qed.

Print Assumptions C172_density.
Print Assumptions C172_density_near.
