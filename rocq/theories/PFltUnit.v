(** Normalisation in machine arithmetic *)
From Coq Require Import Floats.PrimFloat.
From Flocq Require Import Core BinarySingleNaN PrimFloat.
From Coq Require Import ZArith Reals Lra Lia List Bool.
From Verif Require Import Base NumF SpecVec SpecReal SpecFlt PFlt PFltSum.
Import ListNotations.
Open Scope R_scope.

(** Below 2^1000 nothing overflows *)
Definition big : R := 2 ^ 1000.

Lemma big_lt_max r : Rabs r <= big -> Rlt_bool (Rabs (rnd64 r)) (bpow radix2 FloatOps.emax) = true.
Proof.
  intros H. apply Rlt_bool_true.
  assert (E : big = bpow radix2 1000).
  { unfold big. rewrite <- (IZR_Zpower radix2) by lia. now rewrite pow_IZR. }
  apply Rle_lt_trans with (bpow radix2 1000); [|apply bpow_lt; reflexivity].
  rewrite E in H. apply abs_round_le_generic; auto.
  - apply (fexp_correct FloatOps.prec FloatOps.emax Hprec).
  - apply valid_rnd_N.
  - apply generic_format_bpow. vm_compute. discriminate.
Qed.

Lemma mul_finite x y :
  finite x -> finite y -> Rabs (FR x * FR y) <= big -> finite (x * y)%float.
Proof.
  rewrite !finite_B, !FR_B2R, mul_equiv. intros Hx Hy H.
  pose proof (Bmult_correct _ _ Hprec Hmax mode_NE (Prim2B x) (Prim2B y)) as C.
  change (round_mode mode_NE) with ZnearestE in C. rewrite big_lt_max in C by auto.
  destruct C as (_ & C & _). rewrite C. now rewrite Hx, Hy.
Qed.

Lemma div_finite x y :
  finite x -> FR y <> 0 -> Rabs (FR x / FR y) <= big -> finite (x / y)%float.
Proof.
  rewrite !finite_B, !FR_B2R, div_equiv. intros Hx Hy H.
  pose proof (Bdiv_correct _ _ Hprec Hmax mode_NE (Prim2B x) (Prim2B y) Hy) as C.
  change (round_mode mode_NE) with ZnearestE in C. rewrite big_lt_max in C by auto.
  destruct C as (_ & C & _). now rewrite C.
Qed.

Lemma feq_zero x : finite x -> FR x <> 0 -> (x =? zero)%float = false.
Proof.
  rewrite finite_B, FR_B2R, eqb_equiv. intros H N.
  rewrite Beqb_correct; auto. apply Req_bool_false. exact N.
Qed.

Lemma FR_max x : finite x -> Rabs (FR x) < 2 ^ 1024.
Proof.
  rewrite FR_B2R. intros _. replace (2 ^ 1024) with (bpow radix2 FloatOps.emax).
  - apply abs_B2R_lt_emax.
  - change FloatOps.emax with 1024%Z. rewrite <- (IZR_Zpower radix2) by lia.
    now rewrite pow_IZR.
Qed.

Lemma FR_one : FR one = 1.
Proof.
  unfold FR. replace (FloatOps.Prim2SF one) with (SpecFloat.S754_finite false 4503599627370496 (-52))
    by (vm_compute; reflexivity).
  change (powerRZ 2 (-52)) with (/ (2 ^ Pos.to_nat 52)). rewrite pow_IZR.
  replace (Z.of_nat (Pos.to_nat 52)) with 52%Z by reflexivity.
  change (2 ^ 52)%Z with 4503599627370496%Z. field.
Qed.

(** ** The real-number part *)
Lemma unit_component (n : nat) u x N t d sg di ei eps :
  1 <= INR n <= 1048576 -> u = / 9007199254740992 ->
  0 < N -> Rabs (t - N) <= (INR n + 5 / 2) * u * N ->
  Rabs d <= u -> 0 <= eps -> eps <= u * / 1024 -> Rabs (sg - / t * (1 + d)) * N <= eps ->
  Rabs di <= u ->
  Rabs (x * sg * (1 + di) + ei - x / N) <= (INR n + 6) * u * (Rabs x / N) + Rabs ei.
Proof.
  intros Hn Eu PN Ht Hd Pe He Hs Hdi.
  set (m := INR n + 5 / 2) in *.
  assert (Hu : 0 < u) by (rewrite Eu; lra).
  assert (Hmu : m * u <= / 4294967296) by (rewrite Eu; unfold m; lra).
  assert (Hmu0 : 0 <= m * u) by (apply Rmult_le_pos; unfold m; lra).
  assert (Hmm : m * (m + 7 / 2) * u <= / 1024).
  { assert (m * (m + 7 / 2) <= 1048600 * 1048600) by (apply Rmult_le_compat; unfold m; lra).
    rewrite Eu. lra. }
  assert (Pt : 0 < t) by (revert Ht; unfold Rabs; destruct Rcase_abs; nra).
  (* sg = (1 + s) / N with |1 + s - 1| small *)
  set (s := sg * N - 1).
  assert (Es : sg = (1 + s) / N) by (unfold s; field; lra).
  set (q := N / t).
  assert (Eq : q * t = N) by (unfold q; field; lra).
  assert (Pq : 0 < q) by (unfold q; apply Rdiv_lt_0_compat; auto).
  assert (Hq1 : q * (1 - m * u) <= 1).
  { apply Rmult_le_reg_r with t; auto. rewrite Rmult_1_l.
    replace (q * (1 - m * u) * t) with (q * t * (1 - m * u)) by ring. rewrite Eq.
    revert Ht; unfold Rabs; destruct Rcase_abs; lra. }
  assert (Hq2 : 1 <= q * (1 + m * u)).
  { apply Rmult_le_reg_r with t; auto. rewrite Rmult_1_l.
    replace (q * (1 + m * u) * t) with (q * t * (1 + m * u)) by ring. rewrite Eq.
    revert Ht; unfold Rabs; destruct Rcase_abs; lra. }
  assert (Hs' : Rabs (1 + s - q * (1 + d)) <= eps).
  { replace (1 + s - q * (1 + d)) with ((sg - / t * (1 + d)) * N)
      by (unfold s, q, Rdiv; ring).
    rewrite Rabs_mult, (Rabs_pos_eq N) by lra. auto. }
  assert (D : - u <= d <= u) by (revert Hd; unfold Rabs; destruct Rcase_abs; lra).
  assert (DI : - u <= di <= u) by (revert Hdi; unfold Rabs; destruct Rcase_abs; lra).
  assert (S1 : 1 + s <= q * (1 + u) + eps)
    by (revert Hs'; unfold Rabs; destruct Rcase_abs; nra).
  assert (S2 : q * (1 - u) - eps <= 1 + s)
    by (revert Hs'; unfold Rabs; destruct Rcase_abs; nra).
  assert (Hq : q <= 2) by nra.
  assert (Hql : / 2 <= q) by nra.
  assert (Up : (1 + s) * (1 + di) <= 1 + (m + 7 / 2) * u).
  { assert (0 <= 1 + s) by nra.
    assert ((1 + s) * (1 + di) <= (q * (1 + u) + eps) * (1 + u)) by (apply Rmult_le_compat; nra).
    assert (Q : (q * (1 + u) + eps) * (1 + u) <= 1 + (m + 7 / 2) * u).
    { apply Rmult_le_reg_r with (1 - m * u); [lra|].
      replace ((q * (1 + u) + eps) * (1 + u) * (1 - m * u))
        with (q * (1 - m * u) * ((1 + u) * (1 + u)) + eps * ((1 + u) * (1 - m * u))) by ring.
      assert (A1 : q * (1 - m * u) * ((1 + u) * (1 + u)) <= 1 * ((1 + u) * (1 + u)))
        by (apply Rmult_le_compat_r; nra).
      assert (A2 : eps * ((1 + u) * (1 - m * u)) <= eps * 2) by (apply Rmult_le_compat_l; nra).
      replace ((1 + (m + 7 / 2) * u) * (1 - m * u))
        with (1 + 7 / 2 * u - m * (m + 7 / 2) * u * u) by field.
      assert (A3 : m * (m + 7 / 2) * u * u <= / 1024 * u) by (apply Rmult_le_compat_r; lra).
      assert (A4 : u * u <= / 1024 * u) by (apply Rmult_le_compat_r; [lra|rewrite Eu; lra]).
      lra. }
    lra. }
  assert (Lo : 1 - (m + 7 / 2) * u <= (1 + s) * (1 + di)).
  { assert ((q * (1 - u) - eps) * (1 - u) <= (1 + s) * (1 + di)) by (apply Rmult_le_compat; nra).
    assert (Q : 1 - (m + 7 / 2) * u <= (q * (1 - u) - eps) * (1 - u)).
    { apply Rmult_le_reg_r with (1 + m * u); [lra|].
      replace ((q * (1 - u) - eps) * (1 - u) * (1 + m * u))
        with (q * (1 + m * u) * ((1 - u) * (1 - u)) - eps * ((1 - u) * (1 + m * u))) by ring.
      assert (A1 : 1 * ((1 - u) * (1 - u)) <= q * (1 + m * u) * ((1 - u) * (1 - u)))
        by (apply Rmult_le_compat_r; nra).
      assert (A2 : eps * ((1 - u) * (1 + m * u)) <= eps * 2) by (apply Rmult_le_compat_l; nra).
      replace ((1 - (m + 7 / 2) * u) * (1 + m * u))
        with (1 - 7 / 2 * u - m * (m + 7 / 2) * u * u) by field.
      assert (A3 : 0 <= m * (m + 7 / 2) * u * u).
      { apply Rmult_le_pos; [|lra]. apply Rmult_le_pos; [|lra]. apply Rmult_le_pos; unfold m; lra. }
      assert (A4 : 0 <= u * u) by (apply Rmult_le_pos; lra).
      lra. }
    lra. }
  replace (x * sg * (1 + di) + ei - x / N)
    with (x / N * ((1 + s) * (1 + di) - 1) + ei) by (rewrite Es; unfold Rdiv; ring).
  eapply Rle_trans; [apply Rabs_triang|]. apply Rplus_le_compat_r.
  rewrite Rabs_mult. unfold Rdiv at 1. rewrite Rabs_mult, (Rabs_pos_eq (/ N))
    by (apply Rlt_le, Rinv_0_lt_compat; auto).
  fold (Rabs x / N). rewrite (Rmult_comm ((INR n + 6) * u)).
  apply Rmult_le_compat_l.
  - unfold Rdiv. apply Rmult_le_pos; [apply Rabs_pos|apply Rlt_le, Rinv_0_lt_compat; auto].
  - replace (INR n + 6) with (m + 7 / 2) by (unfold m; lra).
    unfold Rabs; destruct Rcase_abs; lra.
Qed.

(** ** Assembly *)
Lemma uu_val : uu = / 9007199254740992.
Proof. unfold uu. rewrite pow_IZR. reflexivity. Qed.

Lemma inv_pow_mul a b c : (a + b = c)%nat -> / 2 ^ a * / 2 ^ b = / 2 ^ c.
Proof.
  intros <-. rewrite pow_add, Rinv_mult_distr; auto; apply pow_nonzero; lra.
Qed.

Lemma inv_pow_le a b : (a <= b)%nat -> / 2 ^ b <= / 2 ^ a.
Proof. intros. apply Rinv_le_contravar; [apply pow_lt; lra|apply Rle_pow; [lra|auto]]. Qed.

Lemma pow_cancel a b c : (a + b = c)%nat -> 2 ^ a * / 2 ^ c = / 2 ^ b.
Proof.
  intros <-. rewrite pow_add. field. split; apply pow_nonzero; lra.
Qed.

Lemma gam_small n : INR n <= 1048576 -> gam (S (S n)) <= (INR n + 9 / 4) * uu.
Proof.
  intros Hn. assert (K : INR (S (S n)) = INR n + 2) by (rewrite !S_INR; ring).
  pose proof (pos_INR n). pose proof uu_pos as U. pose proof uu_val as Ev.
  assert (H1 : INR (S (S n)) * uu <= / 4294967296) by (rewrite K, Ev; lra).
  destruct (gam_bounds (S (S n))) as [_ G]; [lra|].
  eapply Rle_trans; [exact G|]. rewrite K in *.
  apply Rmult_le_reg_r with (1 - (INR n + 2) * uu); [lra|].
  unfold Rdiv. rewrite Rmult_assoc, Rinv_l by lra. rewrite Rmult_1_r.
  replace ((INR n + 9 * / 4) * uu * (1 - (INR n + 2) * uu))
    with ((INR n + 2) * uu + uu * (1 / 4 - (INR n + 9 / 4) * ((INR n + 2) * uu))) by field.
  assert ((INR n + 9 / 4) * ((INR n + 2) * uu) <= 1048579 * / 4294967296)
    by (apply Rmult_le_compat; try lra; apply Rmult_le_pos; lra).
  assert (0 <= uu * (1 / 4 - (INR n + 9 / 4) * ((INR n + 2) * uu))) by (apply Rmult_le_pos; lra).
  lra.
Qed.

Lemma tiny_small n : INR n <= 1048576 -> tiny n <= / 2 ^ 526.
Proof.
  intros Hn. pose proof (pos_INR n). pose proof uu_pos as U. pose proof uu_val as Ev.
  pose proof (gam_small n Hn) as G. pose proof (gam_le (j := n) (k := S (S n)) ltac:(lia)) as G'.
  pose proof (gam_nonneg n) as G0. pose proof eta_pos as Pe.
  assert (G1 : 1 + gam n <= 2) by (rewrite Ev in G; lra).
  assert (E : (1 + gam n) * INR n * eta <= / 2 ^ 527 * / 2 ^ 527).
  { rewrite (inv_pow_mul 527 527 1054) by reflexivity.
    rewrite <- (pow_cancel 21 1054 1075) by reflexivity. fold eta.
    apply Rmult_le_compat_r; [lra|].
    replace (2 ^ 21) with (2 * 1048576) by (rewrite pow_IZR; cbn; lra).
    apply Rmult_le_compat; lra. }
  unfold tiny. apply Rle_trans with (2 * / 2 ^ 527).
  - apply Rmult_le_compat; [lra|apply sqrt_pos|rewrite Ev; lra|].
    eapply Rle_trans; [apply sqrt_le_1_alt; exact E|]. rewrite sqrt_square; [lra|].
    apply Rlt_le, Rinv_0_lt_compat, pow_lt. lra.
  - rewrite <- (pow_cancel 1 526 527) by reflexivity. rewrite pow_1. lra.
Qed.

Lemma unit_err (xs : list PrimFloat.float) :
  let n := length xs in
  let t := PrimFloat.sqrt (dot xs xs) in
  let N := rnorm (map FR xs) in
  (1 <= n)%nat -> INR n <= 1048576 -> finite t -> / 2 ^ 400 <= N ->
  (t =? zero)%float = false /\
  forall x, In x xs ->
    finite (x * (one / t))%float /\
    Rabs (FR (x * (one / t))%float - FR x / N) <= (INR n + 6) * uu * (Rabs (FR x) / N) + eta.
Proof.
  intros n t N Hn Hn' Ht HN.
  pose proof uu_pos as U. pose proof uu_val as Ev. pose proof eta_pos as Pe.
  assert (P400 : 0 < / 2 ^ 400) by (apply Rinv_0_lt_compat, pow_lt; lra).
  assert (PN : 0 < N) by lra.
  assert (Hn1 : 1 <= INR n) by (apply (le_INR 1); auto).
  destruct (norm_err xs Ht) as (Fxs & B). fold n t N in B.
  assert (B' : Rabs (FR t - N) <= (INR n + 5 / 2) * uu * N).
  { eapply Rle_trans; [exact B|].
    assert (T : tiny n <= 1 / 4 * uu * N).
    { eapply Rle_trans; [apply tiny_small; auto|].
      apply Rle_trans with (1 / 4 * uu * / 2 ^ 400); [|apply Rmult_le_compat_l; lra].
      unfold uu. replace (1 / 4) with (/ 2 ^ 2) by (cbn; field).
      rewrite (inv_pow_mul 2 53 55), (inv_pow_mul 55 400 455) by reflexivity.
      apply inv_pow_le. lia. }
    pose proof (gam_small n Hn') as G.
    assert (gam (S (S n)) * N <= (INR n + 9 / 4) * uu * N) by (apply Rmult_le_compat_r; lra).
    lra. }
  assert (M : (INR n + 5 / 2) * uu <= / 4294967296) by (rewrite Ev; lra).
  assert (Tl : N / 2 <= FR t).
  { assert ((INR n + 5 / 2) * uu * N <= / 4294967296 * N) by (apply Rmult_le_compat_r; lra).
    revert B'; unfold Rabs; destruct Rcase_abs; lra. }
  assert (Tu : N <= 2 * FR t) by lra.
  assert (Pt : 0 < FR t) by lra.
  (* an upper bound on the norm *)
  assert (Nmax : N <= 2 ^ 514).
  { destruct (sqrt_err _ Ht) as (Fd & P0 & d & Hd & Ed). fold t in Ed.
    assert (S : sqrt (FR (dot xs xs)) <= 2 ^ 512).
    { rewrite <- (sqrt_square (2 ^ 512)) by (apply pow_le; lra). apply sqrt_le_1_alt.
      rewrite <- pow_add. change (512 + 512)%nat with 1024%nat.
      pose proof (FR_max _ Fd) as X. revert X. unfold Rabs; destruct Rcase_abs; lra. }
    assert (FR t <= 2 ^ 512 * 2).
    { rewrite Ed. apply Rmult_le_compat; auto; [apply sqrt_pos| |];
        revert Hd; rewrite Ev; unfold Rabs; destruct Rcase_abs; lra. }
    replace (2 ^ 514) with (2 * (2 ^ 512 * 2)); [lra|].
    change 514%nat with (2 + 512)%nat. rewrite pow_add. cbn [pow]. ring. }
  assert (Neta : eta * N <= uu * / 1024).
  { apply Rle_trans with (eta * 2 ^ 514); [apply Rmult_le_compat_l; lra|].
    unfold eta. rewrite Rmult_comm, (pow_cancel 514 561 1075) by reflexivity.
    unfold uu. replace (/ 1024) with (/ 2 ^ 10) by (rewrite pow_IZR; reflexivity).
    rewrite (inv_pow_mul 53 10 63) by reflexivity. apply inv_pow_le. lia. }
  split; [apply feq_zero; auto; lra|].
  (* the reciprocal *)
  assert (Hinv : / FR t <= 2 / N).
  { apply Rmult_le_reg_r with (FR t * N); [apply Rmult_lt_0_compat; auto|].
    replace (/ FR t * (FR t * N)) with N by (field; lra).
    replace (2 / N * (FR t * N)) with (2 * FR t) by (field; lra). auto. }
  assert (Pinv : 0 < / FR t) by (apply Rinv_0_lt_compat; auto).
  assert (Fs : finite (one / t)%float).
  { apply div_finite; [reflexivity|lra|]. rewrite FR_one. unfold Rdiv. rewrite Rmult_1_l.
    rewrite Rabs_pos_eq by lra. eapply Rle_trans; [exact Hinv|].
    apply Rle_trans with (2 * 2 ^ 400).
    - unfold Rdiv. apply Rmult_le_compat_l; [lra|].
      rewrite <- (Rinv_involutive (2 ^ 400)) by (apply pow_nonzero; lra).
      apply Rinv_le_contravar; auto.
    - unfold big. change (2 * 2 ^ 400) with (2 ^ 401). apply Rle_pow; [lra|lia]. }
  destruct (div_err one t) as (_ & d & e & Hd & He & Es); [lra|auto|].
  rewrite FR_one in Es. unfold Rdiv in Es. rewrite Rmult_1_l in Es.
  set (sg := FR (one / t)%float) in *.
  assert (Hsg : Rabs (sg - / FR t * (1 + d)) * N <= eta * N).
  { rewrite Es. replace (/ FR t * (1 + d) + e - / FR t * (1 + d)) with e by ring.
    apply Rmult_le_compat_r; lra. }
  intros x Hx.
  assert (Fx : finite x) by (rewrite Forall_forall in Fxs; auto).
  assert (Cx : Rabs (FR x) <= N) by (apply component_le, in_map; auto).
  assert (Fw : finite (x * (one / t))%float).
  { apply mul_finite; auto. fold sg. rewrite Rabs_mult.
    assert (Asg : Rabs sg <= 4 / N + eta).
    { rewrite Es. eapply Rle_trans; [apply Rabs_triang|]. apply Rplus_le_compat; auto.
      rewrite Rabs_mult, (Rabs_pos_eq (/ FR t)) by lra.
      replace (4 / N) with (2 / N * 2) by (unfold Rdiv; ring).
      apply Rmult_le_compat; try lra; try apply Rabs_pos.
      revert Hd; rewrite Ev; unfold Rabs; repeat destruct Rcase_abs; lra. }
    apply Rle_trans with (N * (4 / N + eta)).
    - apply Rmult_le_compat; auto; apply Rabs_pos.
    - replace (N * (4 / N + eta)) with (4 + eta * N) by (field; lra).
      assert (8 <= big) by (unfold big; replace 8 with (2 ^ 3) by (cbn; ring);
                            apply Rle_pow; [lra|lia]).
      rewrite Ev in Neta. lra. }
  split; auto.
  destruct (mul_err _ _ Fw) as (_ & _ & di & ei & Hdi & Hei & Ew).
  rewrite Ew. fold sg.
  eapply Rle_trans; [|apply Rplus_le_compat_l; exact Hei].
  eapply (unit_component n uu (FR x) N (FR t) d sg di ei (eta * N)); auto.
  apply Rmult_le_pos; lra.
Qed.

(** ** Operations that are exact *)
Lemma round_FR x : rnd64 (FR x) = FR x.
Proof. apply round_generic; [apply valid_rnd_N|apply FR_format]. Qed.

Lemma FR_below x : Rabs (FR x) < bpow radix2 FloatOps.emax.
Proof. rewrite FR_B2R. apply abs_B2R_lt_emax. Qed.

Lemma mul_exact_one x : finite x -> finite (one * x)%float /\ FR (one * x)%float = FR x.
Proof.
  intros Fx. assert (F : finite (one * x)%float).
  { rewrite finite_B, mul_equiv. 
    pose proof (Bmult_correct _ _ Hprec Hmax mode_NE (Prim2B one) (Prim2B x)) as C.
    rewrite <- !FR_B2R, FR_one, Rmult_1_l in C.
    change (round_mode mode_NE) with ZnearestE in C. rewrite round_FR, Rlt_bool_true in C by apply FR_below.
    destruct C as (_ & C & _). apply finite_B in Fx. now rewrite C, Fx. }
  split; auto. destruct (mul_rnd _ _ F) as (_ & _ & E).
  now rewrite E, FR_one, Rmult_1_l, round_FR.
Qed.

Lemma mul_exact_zero x : finite x -> finite (zero * x)%float /\ FR (zero * x)%float = 0.
Proof.
  intros Fx. assert (F : finite (zero * x)%float).
  { apply mul_finite; auto; [reflexivity|]. rewrite FR_zero, Rmult_0_l, Rabs_R0.
    unfold big. apply pow_le. lra. }
  split; auto. destruct (mul_rnd _ _ F) as (_ & _ & E).
  rewrite E, FR_zero, Rmult_0_l. apply round_0, valid_rnd_N.
Qed.

Lemma add_exact x y :
  finite x -> finite y -> FR x = 0 \/ FR y = 0 ->
  finite (x + y)%float /\ FR (x + y)%float = FR x + FR y.
Proof.
  intros Fx Fy Hz.
  assert (Hr : rnd64 (FR x + FR y) = FR x + FR y).
  { destruct Hz as [-> | ->]; rewrite ?Rplus_0_l, ?Rplus_0_r; apply round_FR. }
  assert (F : finite (x + y)%float).
  { rewrite finite_B, add_equiv. apply finite_B in Fx, Fy.
    pose proof (Bplus_correct _ _ Hprec Hmax mode_NE _ _ Fx Fy) as C.
    rewrite <- !FR_B2R in C. change (round_mode mode_NE) with ZnearestE in C.
    rewrite Hr, Rlt_bool_true in C; [tauto|].
    destruct Hz as [-> | ->]; rewrite ?Rplus_0_l, ?Rplus_0_r; apply FR_below. }
  split; auto. destruct (add_rnd _ _ F) as (_ & _ & E). now rewrite E.
Qed.

(** ** Linear interpolation *)
Lemma lerp_err v0 v1 t :
  finite ((one - t) * v0 + t * v1)%float -> 0 <= FR t <= 1 ->
  finite v0 /\ finite v1 /\
  Rabs (FR ((one - t) * v0 + t * v1)%float - ((1 - FR t) * FR v0 + FR t * FR v1))
    <= gam 3 * ((1 - FR t) * Rabs (FR v0) + FR t * Rabs (FR v1)) + 3 * eta.
Proof.
  intros H Ht. destruct (add_err _ _ H) as (H1 & H2 & d & Hd & E).
  destruct (mul_err _ _ H1) as (H3 & F0 & d0 & e0 & Hd0 & He0 & E0).
  destruct (mul_err _ _ H2) as (_ & F1 & d1 & e1 & Hd1 & He1 & E1).
  destruct (sub_err _ _ H3) as (_ & _ & ds & Hds & Es).
  split; [|split]; auto. rewrite E, E0, E1, Es, FR_one.
  set (a := FR v0). set (b := FR v1). set (s := FR t) in *.
  pose proof uu_pos as U. pose proof eta_pos as Pe. pose proof uu_val as Ev.
  assert (G2 : gam 2 = 2 * uu + uu * uu) by (unfold gam; ring).
  assert (G3 : gam 3 = 3 * uu + 3 * (uu * uu) + uu * uu * uu) by (unfold gam; ring).
  assert (W : forall x y, Rabs x <= uu -> Rabs y <= uu -> Rabs ((1 + x) * (1 + y) - 1) <= gam 2).
  { intros x y Hx Hy. replace ((1 + x) * (1 + y) - 1) with (x + y + x * y) by ring. rewrite G2.
    eapply Rle_trans; [apply Rabs_triang|]. rewrite Rabs_mult.
    assert (Rabs (x + y) <= 2 * uu) by (eapply Rle_trans; [apply Rabs_triang|]; lra).
    assert (Rabs x * Rabs y <= uu * uu) by (apply Rmult_le_compat; auto; apply Rabs_pos). lra. }
  assert (W3 : forall x y z, Rabs x <= uu -> Rabs y <= uu -> Rabs z <= uu ->
    Rabs ((1 + x) * (1 + y) * (1 + z) - 1) <= gam 3).
  { intros x y z Hx Hy Hz.
    replace ((1 + x) * (1 + y) * (1 + z) - 1) with (((1 + x) * (1 + y) - 1) * (1 + z) + z) by ring.
    eapply Rle_trans; [apply Rabs_triang|]. rewrite Rabs_mult.
    assert (Rabs (1 + z) <= 1 + uu).
    { eapply Rle_trans; [apply Rabs_triang|]. rewrite Rabs_R1. lra. }
    assert (Rabs ((1 + x) * (1 + y) - 1) * Rabs (1 + z) <= gam 2 * (1 + uu))
      by (apply Rmult_le_compat; auto; apply Rabs_pos).
    replace (gam 3) with (gam 2 * (1 + uu) + uu) by (unfold gam; ring). lra. }
  match goal with |- Rabs ?x <= _ => replace x with
    ((1 - s) * a * ((1 + ds) * (1 + d0) * (1 + d) - 1)
     + (s * b * ((1 + d1) * (1 + d) - 1) + (e0 + e1) * (1 + d))) by ring end.
  eapply Rle_trans; [apply Rabs_triang|]. eapply Rle_trans; [apply Rplus_le_compat_l, Rabs_triang|].
  rewrite !(Rabs_mult _ (_ - 1)), (Rabs_mult (1 - s)), (Rabs_mult s), (Rabs_pos_eq (1 - s)),
    (Rabs_pos_eq s), (Rabs_mult (e0 + e1)) by lra.
  pose proof (Rabs_pos a). pose proof (Rabs_pos b).
  assert ((1 - s) * Rabs a * Rabs ((1 + ds) * (1 + d0) * (1 + d) - 1) <= (1 - s) * Rabs a * gam 3).
  { apply Rmult_le_compat_l; [apply Rmult_le_pos; lra|]. auto. }
  assert (s * Rabs b * Rabs ((1 + d1) * (1 + d) - 1) <= s * Rabs b * gam 3).
  { apply Rmult_le_compat_l; [apply Rmult_le_pos; lra|].
    eapply Rle_trans; [apply W; auto|]. apply gam_le. lia. }
  assert (Rabs (e0 + e1) * Rabs (1 + d) <= 2 * eta * (3 / 2)).
  { apply Rmult_le_compat; try apply Rabs_pos.
    - eapply Rle_trans; [apply Rabs_triang|]. lra.
    - eapply Rle_trans; [apply Rabs_triang|]. rewrite Rabs_R1. rewrite Ev in Hd. lra. }
  lra.
Qed.

(** Comparisons of finite numbers are those of the reals *)
Lemma ltb_FR x y : finite x -> finite y -> ((x <? y)%float = true <-> FR x < FR y).
Proof.
  rewrite !finite_B, !FR_B2R, ltb_equiv. intros Hx Hy.
  rewrite Bltb_correct by auto. split; [intros H|apply Rlt_bool_true].
  destruct (Rlt_bool_spec (B2R (Prim2B x)) (B2R (Prim2B y))); [auto|discriminate].
Qed.

Lemma sqrt_finite x : finite x -> 0 <= FR x -> finite (PrimFloat.sqrt x).
Proof.
  rewrite !finite_B, FR_B2R, sqrt_equiv. intros Hx H.
  destruct (Bsqrt_correct _ _ Hprec Hmax mode_NE (Prim2B x)) as (_ & C & _). rewrite C.
  destruct (Prim2B x) as [s|s| |[|] m e Hb]; try discriminate; auto.
  exfalso. revert H. cbn [B2R cond_Zopp]. apply Rlt_not_le. now apply F2R_lt_0.
Qed.
