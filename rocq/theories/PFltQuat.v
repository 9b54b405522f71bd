(** Normalising a quaternion in machine arithmetic *)
From Coq Require Import Floats.PrimFloat.
From Flocq Require Import Core BinarySingleNaN PrimFloat.
From Coq Require Import ZArith Reals Lra Lia List Bool.
From Verif Require Import Base NumF SpecVec SpecReal SpecFlt SpecFltQuat PFlt PFltSum PFltUnit PFltVar MQuat.
Import ListNotations.
Open Scope R_scope.

Notation double := PrimFloat.float.

Definition fsq4 (a b c d : double) : double := (a * a + b * b + c * c + d * d)%float.
Definition fmagn (q : quat double) : double := PrimFloat.sqrt (fsq4 (qr q) (qi q) (qj q) (qk q)).
Definition funit (q : quat double) : quat double :=
  if (abs (fmagn q) <? F_lit 1 6)%float then Quat zero zero zero zero
  else Quat (qr q / fmagn q)%float (qi q / fmagn q)%float (qj q / fmagn q)%float (qk q / fmagn q)%float.

Lemma to_unit_F q : quat_to_unit q = Ok (funit q).
Proof.
  destruct q as [a b c d]. unfold funit, fmagn. cbn [qr qi qj qk].
  unfold quat_to_unit, quat_to_unit_st, qget, set_r, set_i, set_j, set_k, quat_magn.
  cbn [nth_error bind qr qi qj qk fsqrt fmul fadd fdiv fabs flt flit f0 NumF upd]. fold (fsq4 a b c d).
  destruct (abs (PrimFloat.sqrt (fsq4 a b c d)) <? F_lit 1 6)%float;
    cbn [nth_error bind qr qi qj qk fsqrt fmul fadd fdiv fabs flt flit f0 NumF upd]; reflexivity.
Qed.

(** ** The threshold *)
Lemma lit_tiny : finite (F_lit 1 6) /\ 999999 / 1000000000000 <= FR (F_lit 1 6) <= 1000001 / 1000000000000.
Proof.
  split; [now vm_compute|].
  unfold FR. replace (FloatOps.Prim2SF (F_lit 1 6)) with (SpecFloat.S754_finite false 4722366482869645 (-72))
    by (vm_compute; reflexivity).
  change (powerRZ 2 (-72)) with (/ (2 ^ Pos.to_nat 72)). rewrite pow_IZR.
  change (2 ^ Z.of_nat (Pos.to_nat 72))%Z with 4722366482869645213696%Z. lra.
Qed.

Lemma abs_FR x : FR (abs x) = Rabs (FR x).
Proof.
  rewrite !FR_B2R, abs_equiv. apply B2R_Babs.
Qed.
Lemma abs_finite x : finite (abs x) <-> finite x.
Proof. rewrite !finite_B, abs_equiv. now rewrite is_finite_Babs. Qed.

(** a number divided by an infinity or NaN: zero or no number *)
Lemma div_by_none x y : ~ finite y -> finite (x / y)%float -> FR (x / y)%float = 0.
Proof.
  rewrite !finite_B, FR_B2R, div_equiv. intros Hy H.
  destruct (Prim2B y) as [s|s| |s m e Hb]; cbn in Hy; try (exfalso; apply Hy; reflexivity);
    destruct (Prim2B x) as [s'|s'| |s' m' e' Hb']; cbn in *; try discriminate; reflexivity.
Qed.

Lemma ltb_not_finite x y : finite y -> (0 <= FR y) -> ~ finite x -> (abs x <? y)%float = false.
Proof.
  rewrite !finite_B, ltb_equiv, abs_equiv. intros Hy _ Hx.
  destruct (Prim2B x) as [s|s| |s m e Hb]; cbn in Hx; try (exfalso; apply Hx; reflexivity);
    destruct (Prim2B y) as [s'|s'| |s' m' e' Hb']; cbn in *; try discriminate; reflexivity.
Qed.

(** ** The sum of squares *)
Lemma uu_small : 0 < uu <= / 1000000000000000.
Proof. split; [apply uu_pos|]. rewrite uu_val. lra. Qed.

Lemma eta_small : 0 < eta <= uu * / 10 ^ 30.
Proof.
  split; [apply eta_pos|]. unfold eta, uu. rewrite <- Rinv_mult. apply Rinv_le_contravar.
  - apply Rmult_lt_0_compat; apply pow_lt; lra.
  - replace 1075%nat with (53 + (100 + 922))%nat by reflexivity. rewrite !pow_add.
    apply Rmult_le_compat_l; [apply pow_le; lra|].
    assert (1 <= 2 ^ 922) by (apply pow_R1_Rle; lra).
    assert (10 ^ 30 <= 2 ^ 100) by (rewrite !pow_IZR; apply IZR_le; vm_compute; discriminate).
    assert (0 < 10 ^ 30) by (apply pow_lt; lra). nra.
Qed.

Lemma sq_round x : finite (x * x)%float ->
  finite x /\ 0 <= FR (x * x)%float /\
  FR x * FR x * (1 - uu) - eta <= FR (x * x)%float <= FR x * FR x * (1 + uu) + eta.
Proof.
  intros H. destruct (mul_err _ _ H) as (Hx & _ & d & e & Hd & He & E). split; auto.
  destruct (mul_rnd _ _ H) as (_ & _ & R). split.
  - rewrite R. apply rnd_nonneg. apply Rle_0_sqr.
  - rewrite E. apply Rabs_le_inv in Hd, He. pose proof (Rle_0_sqr (FR x)) as P. unfold Rsqr in P. nra.
Qed.

Lemma sum_round x y : finite (x + y)%float -> 0 <= FR x -> 0 <= FR y ->
  0 <= FR (x + y)%float /\ (FR x + FR y) * (1 - uu) <= FR (x + y)%float <= (FR x + FR y) * (1 + uu).
Proof.
  intros H Px Py. destruct (add_err _ _ H) as (_ & _ & d & Hd & E). rewrite E. apply Rabs_le_inv in Hd.
  pose proof uu_small. split; [apply Rmult_le_pos; lra|]. nra.
Qed.

(** one more addition widens an interval by one rounding *)
Lemma sum_step P x r x3 lo hi lo' hi' : 0 <= P -> 0 <= r -> 0 <= lo <= 1 -> 1 <= hi ->
  P * lo <= x <= P * hi -> (x + r) * (1 - uu) <= x3 <= (x + r) * (1 + uu) ->
  lo' <= lo * (1 - uu) -> hi * (1 + uu) <= hi' -> (P + r) * lo' <= x3 <= (P + r) * hi'.
Proof.
  intros HP Hr Hlo Hhi Hx H3 Hl Hh. pose proof uu_small as U.
  assert (A1 : (P + r) * lo <= x + r). { assert (r * lo <= r * 1) by (apply Rmult_le_compat_l; lra). lra. }
  assert (A2 : x + r <= (P + r) * hi). { assert (r * 1 <= r * hi) by (apply Rmult_le_compat_l; lra). lra. }
  split.
  - apply Rle_trans with ((P + r) * (lo * (1 - uu))); [apply Rmult_le_compat_l; lra|].
    rewrite <- Rmult_assoc. eapply Rle_trans; [apply Rmult_le_compat_r; [lra|exact A1]|]. lra.
  - apply Rle_trans with ((P + r) * (hi * (1 + uu))); [|apply Rmult_le_compat_l; lra].
    rewrite <- Rmult_assoc. eapply Rle_trans; [|apply Rmult_le_compat_r; [lra|exact A2]]. lra.
Qed.

Definition sq4 (a b c d : R) : R := a * a + b * b + c * c + d * d.

Lemma fsq4_err a b c d : finite (fsq4 a b c d) ->
  finite a /\ finite b /\ finite c /\ finite d /\
  let S := sq4 (FR a) (FR b) (FR c) (FR d) in
  S * (1 - 401 / 100 * uu) - 5 * eta <= FR (fsq4 a b c d) <= S * (1 + 401 / 100 * uu) + 5 * eta.
Proof.
  unfold fsq4. intros H. pose proof uu_small as U. pose proof eta_small as Et.
  assert (Uq : 0 <= uu * uu <= uu * / 1000000) by (split; [apply Rmult_le_pos|apply Rmult_le_compat_l]; lra).
  destruct (add_err _ _ H) as (H3 & Hd & _). destruct (add_err _ _ H3) as (H2 & Hc & _).
  destruct (add_err _ _ H2) as (Ha & Hb & _).
  destruct (sq_round _ Ha) as (Fa & Pa & Ba). destruct (sq_round _ Hb) as (Fb & Pb & Bb).
  destruct (sq_round _ Hc) as (Fc & Pc & Bc). destruct (sq_round _ Hd) as (Fd & Pd & Bd).
  destruct (sum_round _ _ H2 Pa Pb) as (P2 & B2). destruct (sum_round _ _ H3 P2 Pc) as (P3 & B3).
  destruct (sum_round _ _ H P3 Pd) as (P4 & B4).
  do 4 (split; [auto|]). cbv zeta.
  set (p := FR (a * a)%float) in *. set (q := FR (b * b)%float) in *.
  set (r := FR (c * c)%float) in *. set (s := FR (d * d)%float) in *.
  set (x2 := FR (a * a + b * b)%float) in *. set (x3 := FR (a * a + b * b + c * c)%float) in *.
  set (x4 := FR (a * a + b * b + c * c + d * d)%float) in *.
  set (S := sq4 (FR a) (FR b) (FR c) (FR d)).
  assert (PS : 0 <= S).
  { unfold S, sq4. pose proof (Rle_0_sqr (FR a)). pose proof (Rle_0_sqr (FR b)).
    pose proof (Rle_0_sqr (FR c)). pose proof (Rle_0_sqr (FR d)). unfold Rsqr in *. lra. }
  set (t := p + q + r + s). assert (Pt : 0 <= t) by (unfold t; lra).
  assert (Bt : S * (1 - uu) - 4 * eta <= t <= S * (1 + uu) + 4 * eta) by (unfold t, S, sq4; lra).
  assert (C3 : (p + q + r) * (1 - 2 * uu) <= x3 <= (p + q + r) * (1 + 2001 / 1000 * uu)).
  { apply (sum_step (p + q) x2 r x3 (1 - uu) (1 + uu)); auto; lra. }
  assert (C4 : t * (1 - 3 * uu) <= x4 <= t * (1 + 3003 / 1000 * uu)).
  { apply (sum_step (p + q + r) x3 s x4 (1 - 2 * uu) (1 + 2001 / 1000 * uu)); auto; lra. }
  assert (Su : 0 <= S * uu) by (apply Rmult_le_pos; lra).
  assert (Su2 : 0 <= S * uu * uu <= S * uu * / 1000000) by (split; [apply Rmult_le_pos|apply Rmult_le_compat_l]; lra).
  assert (Eu : 0 <= eta * uu <= eta * / 1000000) by (split; [apply Rmult_le_pos|apply Rmult_le_compat_l]; lra).
  split.
  - apply Rle_trans with (t * (1 - 3 * uu)); [|lra].
    apply Rle_trans with ((S * (1 - uu) - 4 * eta) * (1 - 3 * uu)); [lra|]. apply Rmult_le_compat_r; lra.
  - apply Rle_trans with (t * (1 + 3003 / 1000 * uu)); [lra|].
    apply Rle_trans with ((S * (1 + uu) + 4 * eta) * (1 + 3003 / 1000 * uu)); [apply Rmult_le_compat_r; lra|]. lra.
Qed.

Lemma sq4_nonneg a b c d : 0 <= sq4 a b c d.
Proof.
  unfold sq4. pose proof (Rle_0_sqr a). pose proof (Rle_0_sqr b). pose proof (Rle_0_sqr c). pose proof (Rle_0_sqr d).
  unfold Rsqr in *. lra.
Qed.

Lemma norm2_sq4 q : norm2 q = sq4 (FR (qr q)) (FR (qi q)) (FR (qj q)) (FR (qk q)).
Proof. reflexivity. Qed.

(** the computed magnitude *)
Lemma fmagn_err q : finite (fmagn q) ->
  finite_quat q /\ 0 <= FR (fmagn q) /\
  norm2 q * (1 - 603 / 100 * uu) - 6 * eta <= FR (fmagn q) * FR (fmagn q) <= norm2 q * (1 + 603 / 100 * uu) + 6 * eta.
Proof.
  unfold fmagn. intros H. destruct (sqrt_err _ H) as (Hs & Ps & d & Hd & E).
  destruct (fsq4_err _ _ _ _ Hs) as (Fa & Fb & Fc & Fd & B). cbv zeta in B.
  split; [repeat split; auto|]. pose proof uu_small as U. pose proof eta_small as Et. apply Rabs_le_inv in Hd.
  split; [rewrite E; apply Rmult_le_pos; [apply sqrt_pos|lra]|].
  rewrite norm2_sq4. set (S := sq4 _ _ _ _) in *. assert (PS : 0 <= S) by apply sq4_nonneg.
  set (s := FR (fsq4 _ _ _ _)) in *. rewrite E.
  replace (sqrt s * (1 + d) * (sqrt s * (1 + d))) with (s * ((1 + d) * (1 + d))).
  2:{ rewrite <- (sqrt_sqrt s) at 1 by auto. ring. }
  assert (D : 1 - 2 * uu <= (1 + d) * (1 + d) <= 1 + 201 / 100 * uu) by (split; nra).
  assert (Su : 0 <= S * uu) by (apply Rmult_le_pos; lra).
  assert (Su2 : 0 <= S * uu * uu <= S * uu * / 1000000) by (split; [apply Rmult_le_pos|apply Rmult_le_compat_l]; lra).
  assert (Eu : 0 <= eta * uu <= eta * / 1000000) by (split; [apply Rmult_le_pos|apply Rmult_le_compat_l]; lra).
  split.
  - apply Rle_trans with (s * (1 - 2 * uu)); [|apply Rmult_le_compat_l; lra].
    apply Rle_trans with ((S * (1 - 401 / 100 * uu) - 5 * eta) * (1 - 2 * uu)); [lra|apply Rmult_le_compat_r; lra].
  - apply Rle_trans with (s * (1 + 201 / 100 * uu)); [apply Rmult_le_compat_l; lra|].
    apply Rle_trans with ((S * (1 + 401 / 100 * uu) + 5 * eta) * (1 + 201 / 100 * uu)); [apply Rmult_le_compat_r; lra|lra].
Qed.

(** one component *)
Lemma comp_sq y d e : Rabs d <= uu -> Rabs e <= eta -> y * y <= 4 ->
  Rabs ((y * (1 + d) + e) * (y * (1 + d) + e) - y * y) <= 201 / 100 * uu * (y * y) + 6 * eta.
Proof.
  intros Hd He Hy. pose proof uu_small as U. pose proof eta_small as Et.
  assert (Ay : Rabs y <= 2).
  { apply Rsqr_incr_0_var; [|lra]. rewrite <- Rsqr_abs. unfold Rsqr. lra. }
  replace ((y * (1 + d) + e) * (y * (1 + d) + e) - y * y)
    with (y * y * (2 * d + d * d) + (2 * (y * (1 + d)) * e + e * e)) by ring.
  assert (Eu : eta <= / 1000).
  { assert (uu * / 10 ^ 30 <= / 1000 * / 10 ^ 30).
    { apply Rmult_le_compat_r; [left; apply Rinv_0_lt_compat, pow_lt; lra|lra]. }
    assert (/ 10 ^ 30 <= 1) by (rewrite <- Rinv_1; apply Rinv_le_contravar; [lra|apply pow_R1_Rle; lra]). lra. }
  eapply Rle_trans; [apply Rabs_triang|]. apply Rplus_le_compat.
  - rewrite Rabs_mult, (Rabs_pos_eq (y * y)) by apply Rle_0_sqr. rewrite Rmult_comm.
    apply Rmult_le_compat_r; [apply Rle_0_sqr|].
    eapply Rle_trans; [apply Rabs_triang|]. rewrite !Rabs_mult, (Rabs_pos_eq 2) by lra.
    pose proof (Rabs_pos d). nra.
  - eapply Rle_trans; [apply Rabs_triang|]. rewrite !Rabs_mult, (Rabs_pos_eq 2) by lra.
    assert (A1 : Rabs (1 + d) <= 101 / 100).
    { eapply Rle_trans; [apply Rabs_triang|]. rewrite Rabs_R1. lra. }
    pose proof (Rabs_pos y). pose proof (Rabs_pos (1 + d)). pose proof (Rabs_pos e).
    assert (Rabs y * Rabs (1 + d) <= 2 * (101 / 100)) by (apply Rmult_le_compat; auto).
    assert (2 * (Rabs y * Rabs (1 + d)) * Rabs e <= 2 * (2 * (101 / 100)) * eta).
    { apply Rmult_le_compat; auto; [|lra]. apply Rmult_le_pos; [lra|]. apply Rmult_le_pos; auto. }
    assert (Rabs e * Rabs e <= / 1000 * eta) by (apply Rmult_le_compat; lra). lra.
Qed.

Section U.
Variables (S M : R).
Hypothesis HM : 999999 / 1000000000000 <= M.
Hypothesis HS : S * (1 - 603 / 100 * uu) - 6 * eta <= M * M <= S * (1 + 603 / 100 * uu) + 6 * eta.

Lemma M2_big : 99 / 100000000000000 <= M * M.
Proof. nra. Qed.

Lemma eta_M2 : eta <= uu * / 1000000000000000 * (M * M).
Proof.
  pose proof eta_small as E. pose proof M2_big as B. pose proof uu_small.
  eapply Rle_trans; [apply E|]. rewrite Rmult_assoc. apply Rmult_le_compat_l; [lra|].
  replace (10 ^ 30) with (10 ^ 15 * 10 ^ 15) by ring. replace (10 ^ 15) with 1000000000000000 by ring.
  rewrite Rinv_mult. apply Rmult_le_compat_l; lra.
Qed.

Lemma ratio : Rabs (S / (M * M) - 1) <= 604 / 100 * uu.
Proof.
  pose proof uu_small as U. pose proof eta_M2 as E. pose proof M2_big as B.
  assert (PM : 0 < M * M) by lra.
  replace (S / (M * M) - 1) with ((S - M * M) / (M * M)) by (field; lra).
  unfold Rdiv. rewrite Rabs_mult, (Rabs_pos_eq (/ (M * M))) by (left; now apply Rinv_0_lt_compat).
  apply Rmult_le_reg_r with (M * M); auto. rewrite Rmult_assoc, Rinv_l by lra. rewrite Rmult_1_r.
  set (m2 := M * M) in *.
  assert (Um : 0 <= uu * m2) by (apply Rmult_le_pos; lra).
  assert (E' : 6 * eta <= / 1000 * (uu * m2)) by lra.
  assert (S0 : 0 <= S).
  { assert (0 <= S * (1 + 603 / 100 * uu)); [|nra]. assert (uu * m2 <= / 1000 * m2) by (apply Rmult_le_compat_r; lra). lra. }
  assert (S2 : S <= 1001 / 1000 * m2).
  { assert (S * uu <= S * / 1000000) by (apply Rmult_le_compat_l; lra).
    assert (uu * m2 <= / 1000000 * m2) by (apply Rmult_le_compat_r; lra). lra. }
  assert (S * uu <= 1001 / 1000 * m2 * uu) by (apply Rmult_le_compat_r; lra).
  assert (0 <= uu * m2) by (apply Rmult_le_pos; lra).
  apply Rabs_le. split; lra.
Qed.

Lemma unit_real x1 x2 x3 x4 d1 d2 d3 d4 e1 e2 e3 e4 :
  S = sq4 x1 x2 x3 x4 ->
  Rabs d1 <= uu -> Rabs d2 <= uu -> Rabs d3 <= uu -> Rabs d4 <= uu ->
  Rabs e1 <= eta -> Rabs e2 <= eta -> Rabs e3 <= eta -> Rabs e4 <= eta ->
  Rabs (sq4 (x1 / M * (1 + d1) + e1) (x2 / M * (1 + d2) + e2) (x3 / M * (1 + d3) + e3) (x4 / M * (1 + d4) + e4) - 1)
    <= 9 * uu.
Proof.
  intros ES D1 D2 D3 D4 E1 E2 E3 E4.
  pose proof uu_small as U. pose proof eta_M2 as E. pose proof M2_big as B. pose proof ratio as R.
  assert (PM : 0 < M) by lra.
  set (y1 := x1 / M). set (y2 := x2 / M). set (y3 := x3 / M). set (y4 := x4 / M).
  assert (Q : S / (M * M) = sq4 y1 y2 y3 y4) by (rewrite ES; unfold sq4, y1, y2, y3, y4; field; lra).
  rewrite Q in R. apply Rabs_le_inv in R.
  pose proof (Rle_0_sqr y1) as P1. pose proof (Rle_0_sqr y2) as P2. pose proof (Rle_0_sqr y3) as P3. pose proof (Rle_0_sqr y4) as P4.
  unfold Rsqr in *.
  assert (Q2 : sq4 y1 y2 y3 y4 <= 2) by lra. unfold sq4 in Q2.
  assert (C1 := comp_sq y1 d1 e1 D1 E1 ltac:(lra)). assert (C2 := comp_sq y2 d2 e2 D2 E2 ltac:(lra)).
  assert (C3 := comp_sq y3 d3 e3 D3 E3 ltac:(lra)). assert (C4 := comp_sq y4 d4 e4 D4 E4 ltac:(lra)).
  apply Rabs_le_inv in C1, C2, C3, C4. unfold sq4 in R |- *.
  assert (Ee : 24 * eta <= / 1000 * uu).
  { pose proof eta_small as (_ & Es). assert (/ 10 ^ 30 <= / 100000) by (apply Rinv_le_contravar; lra).
    assert (uu * / 10 ^ 30 <= uu * / 100000) by (apply Rmult_le_compat_l; lra). lra. }
  set (w := y1 * y1 + y2 * y2 + y3 * y3 + y4 * y4) in *.
  assert (W : uu * w <= uu * (1 + / 1000)).
  { apply Rmult_le_compat_l; [lra|]. lra. }
  apply Rabs_le. unfold w in *. split; lra.
Qed.
End U.

Lemma unit_of_magn q : finite (fmagn q) -> 999999 / 1000000000000 <= FR (fmagn q) ->
  near_unit (Quat (qr q / fmagn q)%float (qi q / fmagn q)%float (qj q / fmagn q)%float (qk q / fmagn q)%float).
Proof.
  intros Hm HM. destruct (fmagn_err q Hm) as (Fq & _ & B). set (m := fmagn q) in *. set (M := FR m) in *.
  pose proof uu_small as U. pose proof (M2_big M HM) as MB. pose proof (ratio (norm2 q) M HM B) as R.
  assert (PM : 0 < M) by lra. assert (PM2 : 0 < M * M) by lra.
  destruct q as [a b c d]. cbn [qr qi qj qk] in *. destruct Fq as (Fa & Fb & Fc & Fd). cbn [qr qi qj qk] in *.
  assert (Q : norm2 (Quat a b c d) / (M * M)
      = sq4 (FR a / M) (FR b / M) (FR c / M) (FR d / M)).
  { unfold norm2, sq4. cbn [qr qi qj qk]. field. lra. }
  rewrite Q in R. apply Rabs_le_inv in R. unfold sq4 in R.
  pose proof (Rle_0_sqr (FR a / M)) as P1. pose proof (Rle_0_sqr (FR b / M)) as P2.
  pose proof (Rle_0_sqr (FR c / M)) as P3. pose proof (Rle_0_sqr (FR d / M)) as P4. unfold Rsqr in *.
  assert (G : forall x, FR x / M * (FR x / M) <= 2 -> finite x -> finite (x / m)%float).
  { intros x Hx Fx. apply div_finite; auto; [fold M; lra|]. fold M.
    assert (Rabs (FR x / M) <= 2).
    { apply Rsqr_incr_0_var; [|lra]. rewrite <- Rsqr_abs. unfold Rsqr. lra. }
    unfold big. assert (2 ^ 1 <= 2 ^ 1000) by (apply Rle_pow; [lra|lia]). lra. }
  assert (Ga := G a ltac:(lra) Fa). assert (Gb := G b ltac:(lra) Fb).
  assert (Gc := G c ltac:(lra) Fc). assert (Gd := G d ltac:(lra) Fd).
  assert (NM : FR m <> 0) by (fold M; lra).
  destruct (div_err a m NM Ga) as (_ & d1 & e1 & D1 & E1 & X1). destruct (div_err b m NM Gb) as (_ & d2 & e2 & D2 & E2 & X2).
  destruct (div_err c m NM Gc) as (_ & d3 & e3 & D3 & E3 & X3). destruct (div_err d m NM Gd) as (_ & d4 & e4 & D4 & E4 & X4).
  split; [repeat split; cbn [qr qi qj qk]; auto|]. rewrite norm2_sq4. cbn [qr qi qj qk].
  rewrite X1, X2, X3, X4. apply (unit_real (norm2 (Quat a b c d)) M HM B); auto.
Qed.

(** ** Whatever the quaternion *)
Theorem funit_cases q : finite_quat (funit q) -> zero_quat (funit q) \/ near_unit (funit q).
Proof.
  unfold funit. destruct lit_tiny as (FL & BL).
  destruct (PrimFloat.is_finite (fmagn q)) eqn:Em.
  - destruct (fmagn_err q Em) as (_ & PM & _).
    destruct (abs (fmagn q) <? F_lit 1 6)%float eqn:Et.
    + intros H. left. split; [exact H|]. cbn [qr qi qj qk]. rewrite FR_zero. auto.
    + intros _. right. apply unit_of_magn; auto.
      assert (~ FR (abs (fmagn q)) < FR (F_lit 1 6)).
      { intros L. apply ltb_FR in L; auto; [congruence|]. now apply abs_finite. }
      rewrite abs_FR, Rabs_pos_eq in H by auto. lra.
  - assert (Nm : ~ finite (fmagn q)) by (unfold finite; congruence).
    rewrite ltb_not_finite by (auto; lra). intros H. left. split; auto.
    destruct H as (H1 & H2 & H3 & H4). cbn [qr qi qj qk] in *. repeat split; now apply div_by_none.
Qed.

(** ** Where it is certain *)
Lemma add_finite x y : finite x -> finite y -> Rabs (FR x + FR y) <= big -> finite (x + y)%float.
Proof.
  rewrite !finite_B, !FR_B2R, add_equiv. intros Hx Hy H.
  pose proof (Bplus_correct _ _ Hprec Hmax mode_NE (Prim2B x) (Prim2B y) Hx Hy) as C.
  change (round_mode mode_NE) with ZnearestE in C. rewrite big_lt_max in C by auto. tauto.
Qed.

Lemma sub_finite x y : finite x -> finite y -> Rabs (FR x - FR y) <= big -> finite (x - y)%float.
Proof.
  rewrite !finite_B, !FR_B2R, sub_equiv. intros Hx Hy H.
  pose proof (Bminus_correct _ _ Hprec Hmax mode_NE (Prim2B x) (Prim2B y) Hx Hy) as C.
  change (round_mode mode_NE) with ZnearestE in C. rewrite big_lt_max in C by auto. tauto.
Qed.

Lemma pow2_4 : 64 * (2 ^ 480 * 2 ^ 480) <= big.
Proof.
  unfold big. replace 64 with (2 ^ 6) by ring. rewrite <- !pow_add. apply Rle_pow; [lra|lia].
Qed.

Theorem funit_regular q : finite_quat q ->
  (forall x, In x [qr q; qi q; qj q; qk q] -> Rabs (FR x) <= 2 ^ 480) ->
  2 / 1000000000000 <= norm2 q ->
  finite (fmagn q) /\ near_unit (funit q).
Proof.
  intros (F1 & F2 & F3 & F4) HB HN.
  pose proof uu_small as U. pose proof eta_small as Et. pose proof pow2_4 as P4.
  set (h := 2 ^ 480 * 2 ^ 480) in *.
  assert (Ph : 1 <= h).
  { unfold h. assert (1 <= 2 ^ 480) by (apply pow_R1_Rle; lra). nra. }
  assert (Sq : forall x, In x [qr q; qi q; qj q; qk q] -> Rabs (FR x * FR x) <= h).
  { intros x Hx. rewrite Rabs_mult. unfold h. apply Rmult_le_compat; auto using Rabs_pos. }
  destruct q as [a b c d]. cbn [qr qi qj qk In] in *.
  assert (S1 := Sq a ltac:(auto)). assert (S2 := Sq b ltac:(auto)). assert (S3 := Sq c ltac:(auto)). assert (S4 := Sq d ltac:(auto 6)).
  assert (G1 : finite (a * a)%float) by (apply mul_finite; auto; lra).
  assert (G2 : finite (b * b)%float) by (apply mul_finite; auto; lra).
  assert (G3 : finite (c * c)%float) by (apply mul_finite; auto; lra).
  assert (G4 : finite (d * d)%float) by (apply mul_finite; auto; lra).
  assert (Te : eta <= 1).
  { assert (/ 10 ^ 30 <= 1) by (rewrite <- Rinv_1; apply Rinv_le_contravar; [lra|apply pow_R1_Rle; lra]).
    assert (0 < / 10 ^ 30) by (apply Rinv_0_lt_compat, pow_lt; lra). nra. }
  assert (Q : forall x, Rabs (FR x * FR x) <= h -> finite (x * x)%float -> 0 <= FR (x * x)%float <= 3 * h).
  { intros x Hx Fx. destruct (sq_round x Fx) as (_ & P & B). split; auto.
    rewrite Rabs_pos_eq in Hx by apply Rle_0_sqr.
    assert (FR x * FR x * (1 + uu) <= h * (1 + uu)) by (apply Rmult_le_compat_r; lra). nra. }
  destruct (Q a S1 G1) as (A1 & B1). destruct (Q b S2 G2) as (A2 & B2).
  destruct (Q c S3 G3) as (A3 & B3). destruct (Q d S4 G4) as (A4 & B4).
  assert (G5 : finite (a * a + b * b)%float) by (apply add_finite; auto; rewrite Rabs_pos_eq; lra).
  destruct (sum_round _ _ G5 A1 A2) as (A5 & B5).
  assert (B5' : FR (a * a + b * b)%float <= 7 * h).
  { eapply Rle_trans; [apply B5|]. eapply Rle_trans; [apply Rmult_le_compat; [lra|lra| |]; [|apply (Rplus_le_compat_l 1), (proj2 U)]|]; [apply Rplus_le_compat; [apply B1|apply B2]|]. lra. }
  assert (G6 : finite (a * a + b * b + c * c)%float) by (apply add_finite; auto; rewrite Rabs_pos_eq; lra).
  destruct (sum_round _ _ G6 A5 A3) as (A6 & B6).
  assert (B6' : FR (a * a + b * b + c * c)%float <= 11 * h).
  { eapply Rle_trans; [apply B6|]. eapply Rle_trans; [apply Rmult_le_compat; [lra|lra| |]; [|apply (Rplus_le_compat_l 1), (proj2 U)]|]; [apply Rplus_le_compat; [apply B5'|apply B3]|]. lra. }
  assert (G7 : finite (fsq4 a b c d)) by (unfold fsq4; apply add_finite; auto; rewrite Rabs_pos_eq; lra).
  destruct (sum_round _ _ G7 A6 A4) as (A7 & B7).
  assert (G : finite (fmagn (Quat a b c d))).
  { unfold fmagn. cbn [qr qi qj qk]. apply sqrt_finite; auto. }
  split; auto. unfold funit. destruct lit_tiny as (FL & BL).
  destruct (fmagn_err _ G) as (_ & PM & BM). set (M := FR (fmagn (Quat a b c d))) in *.
  assert (HM : 1000002 / 1000000000000 <= M).
  { apply Rsqr_incr_0_var; auto. unfold Rsqr. eapply Rle_trans; [|apply BM].
    assert (E6 : 6 * eta <= / 10000000000000000).
    { assert (/ 10 ^ 30 <= / 100) by (apply Rinv_le_contravar; lra).
      assert (0 < / 10 ^ 30) by (apply Rinv_0_lt_compat, pow_lt; lra).
      assert (uu * / 10 ^ 30 <= / 1000000000000000 * / 100) by (apply Rmult_le_compat; lra). lra. }
    nra. }
  replace (abs (fmagn (Quat a b c d)) <? F_lit 1 6)%float with false.
  - apply unit_of_magn; auto. fold M. lra.
  - symmetry. apply Bool.not_true_is_false. intros L. apply ltb_FR in L; auto; [|now apply abs_finite].
    rewrite abs_FR, Rabs_pos_eq in L by auto. fold M in L. lra.
Qed.
