(** C171: the quantiles of the normal distribution. *)
From Coq Require Import List Arith ZArith Bool Lia Reals Lra.
From Coquelicot Require Import Coquelicot.
From Verif Require Import Base BaseFacts NumR Libm LibmR RTac MProb ErfR PErf PErfInv PErfInv2 PropNormal.
Local Open Scope R_scope.

(** The arguments of the first polynomial: 4 p (1-p) is at least exp (-6.125) *)
Definition central (p : R) : Prop := exp (- (49 / 8)) <= 4 * p * (1 - p).

Definition logit2 (x : R) : R := - ln (1 - x * x).
Definition qq (s : R) : R := if Rlt_dec (49 / 8) s then qt s else qm s.

Lemma logit2_nonneg x : -1 < x < 1 -> 0 <= logit2 x.
Proof.
  intros H. unfold logit2. assert (ln (1 - x * x) <= ln 1); [|rewrite ln_1 in *; lra].
  destruct (Req_dec (1 - x * x) 1) as [->|N]; [lra|]. left. apply ln_increasing; nra.
Qed.
Lemma logit2_incr x y : 0 <= x -> x < y -> y < 1 -> logit2 x < logit2 y.
Proof. intros. unfold logit2. apply Ropp_lt_contravar, ln_increasing; nra. Qed.
Lemma logit2_opp x : logit2 (- x) = logit2 x.
Proof. unfold logit2. do 2 f_equal. ring. Qed.

Lemma erf_inv_val bc x : -1 < x < 1 -> prob_erf_inv bc x = Ok (x * qq (logit2 x)).
Proof.
  intros H. pose proof (logit2_nonneg x H) as L. unfold prob_erf_inv. rops. rewrite !Rleb_false by lra. cbn [orb]. rewrite andb_false_r.
  rewrite Rlog_ok by nra. cbn [bind].
  replace (ln (x * (0 - x) + 1)) with (- logit2 x) by (unfold logit2; rewrite Ropp_involutive; f_equal; ring).
  rewrite Rabs_Ropp, Rabs_pos_eq by exact L. do 2 f_equal. unfold qq.
  destruct (Rlt_dec (49 / 8) (logit2 x)) as [B|B].
  - replace (Rltb (6125 / 1000) (logit2 x)) with true by (symmetry; destruct (Rltb_spec (6125 / 1000) (logit2 x)); auto; lra).
    apply qt_horner'.
  - replace (Rltb (6125 / 1000) (logit2 x)) with false by (symmetry; destruct (Rltb_spec (6125 / 1000) (logit2 x)); auto; lra).
    apply qm_horner'.
Qed.

Lemma cdf_inv_val bc m s p : 0 < p < 1 ->
  prob_normal_cdf_inv bc m s p = Ok (m + s * sqrt 2 * ((2 * p - 1) * qq (logit2 (2 * p - 1)))).
Proof.
  intros Hp. unfold prob_normal_cdf_inv. rops. rewrite !Rleb_false by lra. cbn [orb]. rewrite !andb_false_r.
  replace (20 / 10) with 2 by lra. replace (10 / 10) with 1 by lra. rewrite Rsqrto_ok by lra. cbn [bind].
  rewrite erf_inv_val by lra. reflexivity.
Qed.

Lemma central_logit p : 0 < p < 1 -> central p <-> logit2 (2 * p - 1) <= 49 / 8.
Proof.
  intros Hp. unfold central, logit2. replace (1 - (2 * p - 1) * (2 * p - 1)) with (4 * p * (1 - p)) by ring.
  assert (P : 0 < 4 * p * (1 - p)) by nra. split; intros H.
  - assert (- (49 / 8) <= ln (4 * p * (1 - p))); [|lra]. rewrite <- (ln_exp (- (49 / 8))).
    destruct H as [H|<-]; [|lra]. left. apply ln_increasing; [apply exp_pos|exact H].
  - rewrite <- (exp_ln (4 * p * (1 - p))) by exact P.
    destruct (Req_dec (- (49 / 8)) (ln (4 * p * (1 - p)))) as [->|N]; [lra|]. left. apply exp_increasing. lra.
Qed.

(** One branch, upper half *)
Lemma upper_incr x y : 0 <= x -> x < y -> y < 1 -> (logit2 x <= 49 / 8 <-> logit2 y <= 49 / 8) -> x * qq (logit2 x) < y * qq (logit2 y).
Proof.
  intros Hx Hxy Hy B. pose proof (logit2_nonneg x ltac:(lra)) as L. pose proof (logit2_incr x y Hx Hxy Hy) as M. unfold qq.
  destruct (Rlt_dec (49 / 8) (logit2 x)), (Rlt_dec (49 / 8) (logit2 y)); try (exfalso; lra).
  - pose proof (qt_incr (logit2 x) (logit2 y) ltac:(lra) M). pose proof (qt_pos (logit2 x) ltac:(lra)). nra.
  - pose proof (qm_incr (logit2 x) (logit2 y) L M ltac:(lra)). pose proof (qm_pos (logit2 x) ltac:(lra)). nra.
Qed.

(** zsl_prob_normal_cdf_inv increases strictly with p among the central
    arguments and among the outer ones on either side *)
Theorem C171_increasing_partial bc m s p p' : 0 < s -> 0 < p -> p < p' -> p' < 1 ->
  (central p /\ central p') \/ (~ central p /\ ~ central p' /\ (p' <= 1 / 2 \/ 1 / 2 <= p)) ->
  exists a b, prob_normal_cdf_inv bc m s p = Ok a /\ prob_normal_cdf_inv bc m s p' = Ok b /\ a < b.
Proof.
  intros Hs H0 H1 H2 B. do 2 eexists. split; [apply cdf_inv_val; lra|]. split; [apply cdf_inv_val; lra|].
  rewrite !central_logit in B by lra.
  assert (S2 : 0 < s * sqrt 2) by (apply Rmult_lt_0_compat; [lra|apply sqrt_lt_R0; lra]).
  apply Rplus_lt_compat_l, Rmult_lt_compat_l; [exact S2|].
  set (x := 2 * p - 1) in *. set (y := 2 * p' - 1) in *.
  assert (Hxy : x < y) by (unfold x, y; lra). assert (-1 < x) by (unfold x; lra). assert (y < 1) by (unfold y; lra).
  assert (B' : logit2 x <= 49 / 8 /\ logit2 y <= 49 / 8 \/ ~ logit2 x <= 49 / 8 /\ ~ logit2 y <= 49 / 8 /\ (y <= 0 \/ 0 <= x)).
  { destruct B as [B|(B1 & B2 & [B3|B3])]; [left; exact B|right; repeat split; auto; left; unfold y; lra|right; repeat split; auto; right; unfold x; lra]. }
  clearbody x y. clear B.
  assert (Low : y <= 0 -> (logit2 x <= 49 / 8 <-> logit2 y <= 49 / 8) -> x * qq (logit2 x) < y * qq (logit2 y)).
  { intros Hy I. pose proof (upper_incr (- y) (- x) ltac:(lra) ltac:(lra) ltac:(lra)) as U. rewrite !logit2_opp in U.
    specialize (U ltac:(tauto)). lra. }
  destruct B' as [(B1 & B2)|(B1 & B2 & [B3|B3])].
  - destruct (Rle_dec y 0) as [Y|Y]; [apply Low; tauto|]. destruct (Rle_dec 0 x) as [X|X]; [apply upper_incr; tauto|].
    pose proof (logit2_nonneg x ltac:(lra)). pose proof (logit2_nonneg y ltac:(lra)). unfold qq.
    destruct (Rlt_dec (49 / 8) (logit2 x)); [lra|]. destruct (Rlt_dec (49 / 8) (logit2 y)); [lra|].
    pose proof (qm_pos (logit2 x) ltac:(lra)). pose proof (qm_pos (logit2 y) ltac:(lra)). nra.
  - apply Low; tauto.
  - apply upper_incr; try tauto; lra.
Qed.

Lemma from_logit s : 0 < s -> exists x, 0 < x < 1 /\ x * x = 1 - exp (- s) /\ logit2 x = s.
Proof.
  intros Hs. assert (E : exp (- s) < 1) by (rewrite <- exp_0; apply exp_increasing; lra). pose proof (exp_pos (- s)).
  exists (sqrt (1 - exp (- s))). assert (Q : sqrt (1 - exp (- s)) * sqrt (1 - exp (- s)) = 1 - exp (- s)) by (apply sqrt_sqrt; lra).
  pose proof (sqrt_lt_R0 (1 - exp (- s)) ltac:(lra)) as P. split; [split; [exact P|nra]|]. split; [exact Q|].
  unfold logit2. rewrite Q. replace (1 - (1 - exp (- s))) with (exp (- s)) by ring. rewrite ln_exp. ring.
Qed.

Lemma exp_half : exp (- (49 / 8)) <= 1 / 2.
Proof.
  pose proof (exp_ineq1 (49 / 8) ltac:(lra)) as E. rewrite exp_Ropp. 
  assert (Q : / exp (49 / 8) <= / 2) by (apply Rinv_le_contravar; lra). lra.
Qed.

(** Where the polynomials meet the answer jumps downwards: a larger
    probability can have a smaller quantile *)
Theorem C171_increasing_refuted bc : ~ (forall p p', 0 < p -> p < p' -> p' < 1 ->
  forall a b, prob_normal_cdf_inv bc 0 1 p = Ok a -> prob_normal_cdf_inv bc 0 1 p' = Ok b -> a <= b).
Proof.
  intros H. destruct (from_logit (49 / 8) ltac:(lra)) as (x & Hx & Ex & Lx).
  destruct (from_logit (49 / 8 + 1 / 100000000) ltac:(lra)) as (y & Hy & Ey & Ly).
  pose proof exp_half as Hh.
  assert (D : exp (- (49 / 8)) * (1 - 1 / 100000000) <= exp (- (49 / 8 + 1 / 100000000))).
  { replace (- (49 / 8 + 1 / 100000000)) with (- (49 / 8) + - (1 / 100000000)) by ring. rewrite exp_plus.
    apply Rmult_le_compat_l; [left; apply exp_pos|]. pose proof (exp_ineq1_le (- (1 / 100000000))). lra. }
  assert (D' : exp (- (49 / 8 + 1 / 100000000)) < exp (- (49 / 8))) by (apply exp_increasing; lra).
  assert (X : 1 / 2 <= x) by nra.
  assert (XY : x < y) by nra.
  assert (Y : y <= x + 1 / 100000000) by nra.
  specialize (H ((1 + x) / 2) ((1 + y) / 2) ltac:(lra) ltac:(lra) ltac:(lra) _ _
    (cdf_inv_val bc 0 1 ((1 + x) / 2) ltac:(lra)) (cdf_inv_val bc 0 1 ((1 + y) / 2) ltac:(lra))).
  replace (2 * ((1 + x) / 2) - 1) with x in H by field. replace (2 * ((1 + y) / 2) - 1) with y in H by field.
  rewrite Lx, Ly in H. unfold qq in H. destruct (Rlt_dec (49 / 8) (49 / 8)); [lra|].
  destruct (Rlt_dec (49 / 8) (49 / 8 + 1 / 100000000)); [|lra].
  assert (S2 : 0 < sqrt 2) by (apply sqrt_lt_R0; lra).
  assert (A : 23112873 / 10000000 < qm (49 / 8)) by (unfold qm; lra).
  assert (B : qt (49 / 8 + 1 / 100000000) < 231128722 / 100000000) by (unfold qt; lra).
  assert (H' : x * qm (49 / 8) <= y * qt (49 / 8 + 1 / 100000000)) by nra. clear H.
  assert (y * qt (49 / 8 + 1 / 100000000) <= (x + 1 / 100000000) * (231128722 / 100000000)).
  { apply Rmult_le_compat; try lra. pose proof (qt_pos (49 / 8 + 1 / 100000000) ltac:(lra)). lra. }
  nra.
Qed.

(** Far out the answer is not near the quantile: there is a probability that
    7.8 deviations suffice for, answered with more than 11 *)
Theorem C171_tail_refuted bc : exists p v a, 1 / 2 < p < 1
  /\ prob_normal_cdf 0 1 (78 / 10) = Ok v /\ p <= v
  /\ prob_normal_cdf_inv bc 0 1 p = Ok a /\ 11 < a.
Proof.
  destruct (from_logit 30 ltac:(lra)) as (x & Hx & Ex & Lx).
  assert (S2 : 0 < sqrt 2) by (apply sqrt_lt_R0; lra).
  assert (SS : sqrt 2 * sqrt 2 = 2) by (apply sqrt_sqrt; lra).
  exists ((1 + x) / 2). do 2 eexists. split; [lra|]. split; [apply normal_cdf_erf; lra|].
  split; [|split; [apply cdf_inv_val; lra|]].
  - set (z := (78 / 10 - 0) / (1 * sqrt 2)).
    assert (Z : 30 <= z * z).
    { unfold z. replace ((78 / 10 - 0) / (1 * sqrt 2) * ((78 / 10 - 0) / (1 * sqrt 2))) with (78 / 10 * (78 / 10) / (sqrt 2 * sqrt 2)) by (field; lra).
      rewrite SS. lra. }
    assert (P : 0 <= z) by (unfold z; apply Rmult_le_pos; [lra|]; left; apply Rinv_0_lt_compat; lra).
    pose proof (erf_square z) as E. pose proof (erf_pos P) as EP.
    assert (M : exp (- (z * z)) <= exp (-30)).
    { destruct (Req_dec (- (z * z)) (-30)) as [->|N]; [lra|]. left. apply exp_increasing. lra. }
    assert (x <= Rerf z) by (replace (- (30)) with (-30) in Ex by lra; nra). lra.
  - replace (2 * ((1 + x) / 2) - 1) with x by field. rewrite Lx. unfold qq. destruct (Rlt_dec (49 / 8) 30); [|lra].
    assert (Q : 82 / 10 < qt 30) by (unfold qt; lra).
    assert (X : 97 / 100 < x).
    { assert (E : exp (- (30)) <= 1 / 31); [|nra]. rewrite exp_Ropp. pose proof (exp_ineq1 30 ltac:(lra)).
      assert (/ exp 30 <= / 31) by (apply Rinv_le_contravar; lra). lra. }
    assert (T : 1414 / 1000 < sqrt 2) by nra.
    assert (W : 795 / 100 < x * qt 30) by nra. nra.
Qed.

(** ** How far off the answers are *)

Lemma nonneg_by_derive (f df : R -> R) s : f 0 = 0 -> (forall x, is_derive f x (df x)) -> (forall x, 0 <= x -> 0 <= df x) -> 0 <= s -> 0 <= f s.
Proof.
  intros E D P Hs. destruct (MVT_gen f 0 s df) as (c & Hc & M).
  - intros x _. apply D.
  - intros x _. apply derivable_continuous_pt. exists (df x). apply is_derive_Reals, D.
  - rewrite Rmin_left in Hc by lra. specialize (P c ltac:(lra)). nra.
Qed.

Lemma exp_minus_4 s : 0 <= s -> exp (- s) <= 1 - s + s * s / 2 - s * s * s / 6 + s * s * s * s / 24.
Proof.
  assert (F2 : forall x, 0 <= x -> 0 <= 1 - x + x * x / 2 - exp (- x)).
  { intros x Hx. apply (nonneg_by_derive (fun x => 1 - x + x * x / 2 - exp (- x)) (fun x => exp (- x) - (1 - x))); auto.
    - rewrite Ropp_0, exp_0. lra.
    - intros y. auto_derive; [exact I|]. lra.
    - intros y _. pose proof (exp_ineq1_le (- y)). lra. }
  assert (F3 : forall x, 0 <= x -> 0 <= exp (- x) - 1 + x - x * x / 2 + x * x * x / 6).
  { intros x Hx. apply (nonneg_by_derive (fun x => exp (- x) - 1 + x - x * x / 2 + x * x * x / 6) (fun x => 1 - x + x * x / 2 - exp (- x))); auto.
    - rewrite Ropp_0, exp_0. lra.
    - intros y. auto_derive; [exact I|]. field. }
  intros Hs. assert (0 <= 1 - s + s * s / 2 - s * s * s / 6 + s * s * s * s / 24 - exp (- s)); [|lra].
  apply (nonneg_by_derive (fun s => 1 - s + s * s / 2 - s * s * s / 6 + s * s * s * s / 24 - exp (- s))
    (fun x => exp (- x) - 1 + x - x * x / 2 + x * x * x / 6)); auto.
  - rewrite Ropp_0, exp_0. lra.
  - intros y. auto_derive; [exact I|]. field.
Qed.

Lemma exp_minus_pade s : 0 <= s -> (1 - exp (- s)) * (2 + s) <= 2 * s.
Proof.
  intros Hs. assert (0 <= (2 + s) * exp (- s) - 2 + s); [|nra].
  apply (nonneg_by_derive (fun s => (2 + s) * exp (- s) - 2 + s) (fun x => 1 - (1 + x) * exp (- x))); auto.
  - rewrite Ropp_0, exp_0. lra.
  - intros y. auto_derive; [exact I|]. field.
  - intros y Hy. pose proof (exp_ineq1_le y). rewrite exp_Ropp. pose proof (exp_pos y).
    assert ((1 + y) * / exp y <= exp y * / exp y) by (apply Rmult_le_compat_r; [left; now apply Rinv_0_lt_compat|lra]).
    rewrite Rinv_r in H1 by lra. lra.
Qed.

Lemma exp_minus_mono a b : a <= b -> exp (- b) <= exp (- a).
Proof. intros [L|E]; [left; apply exp_increasing; lra|subst; lra]. Qed.

Lemma exp_minus_1 : exp (-1) <= 375 / 1000.
Proof. pose proof (exp_minus_4 1 ltac:(lra)). replace (- (1)) with (-1) in H by lra. lra. Qed.
Lemma exp_minus_15 : exp (- (3 / 2)) <= 225 / 1000.
Proof.
  pose proof (exp_minus_4 (3 / 4) ltac:(lra)). pose proof (exp_pos (- (3 / 4))).
  replace (- (3 / 2)) with (- (3 / 4) + - (3 / 4)) by lra. rewrite exp_plus. nra.
Qed.
Lemma exp_minus_2 : exp (-2) <= 141 / 1000.
Proof. pose proof exp_minus_1. pose proof (exp_pos (-1)). replace (-2) with (-1 + -1) by lra. rewrite exp_plus. nra. Qed.
Lemma exp_minus_3 : exp (-3) <= 53 / 1000.
Proof. pose proof exp_minus_1. pose proof exp_minus_2. pose proof (exp_pos (-1)). pose proof (exp_pos (-2)). replace (-3) with (-2 + -1) by lra. rewrite exp_plus. nra. Qed.

Lemma square_le a b : 0 <= a -> a <= b -> a * a <= b * b.
Proof. intros. nra. Qed.

(** The square of the answer is between 0.7 s and s, where s = - ln (1 - x^2) *)
Lemma answer_bracket s : 0 < s <= 23 -> 7 / 10 * s <= (1 - exp (- s)) * (qq s * qq s) <= s.
Proof.
  intros Hs. pose proof (exp_pos (- s)) as E0.
  assert (E1 : exp (- s) < 1) by (rewrite <- exp_0; apply exp_increasing; lra).
  split.
  - assert (G : forall k l, 0 <= k -> k <= 1 - exp (- s) -> 0 <= l -> l <= qq s -> k * (l * l) <= (1 - exp (- s)) * (qq s * qq s)).
    { intros k l Hk H1 Hl H2. apply Rmult_le_compat; [exact Hk|nra|exact H1|now apply square_le]. }
    destruct (Rle_dec s (3 / 2)) as [A|A].
    + pose proof (qm_lo0 s ltac:(lra)) as Q. pose proof (low_start s ltac:(lra)) as P. pose proof (exp_minus_4 s ltac:(lra)) as X.
      eapply Rle_trans; [|apply (G (s * (1 - s / 2 + s * s / 6 - s * s * s / 24)) (443 / 500 + 23 / 100 * s))].
      * apply Rle_trans with (s * ((1 - s / 2 + s * s / 6 - s * s * s / 24) * ((443 / 500 + 23 / 100 * s) * (443 / 500 + 23 / 100 * s)))); [|right; ring].
        rewrite (Rmult_comm (7 / 10)). apply Rmult_le_compat_l; lra.
      * apply Rmult_le_pos; [lra|]. assert (s * s <= 9 / 4) by nra. assert (s * s * s <= 27 / 8) by nra. nra.
      * lra.
      * lra.
      * unfold qq. destruct (Rlt_dec (49 / 8) s); lra.
    + destruct (Rle_dec s 3) as [B|B].
      * pose proof (qm_lo1 s ltac:(lra)) as Q.
        assert (W : qq s = qm s) by (unfold qq; destruct (Rlt_dec (49 / 8) s); lra).
        destruct (Rle_dec s 2) as [C|C].
        -- pose proof (exp_minus_mono (3 / 2) s ltac:(lra)) as X. pose proof exp_minus_15.
           eapply Rle_trans; [|apply (G (775 / 1000) (22 / 25 + 247 / 1000 * s)); lra]. nra.
        -- pose proof (exp_minus_mono 2 s ltac:(lra)) as X. replace (- (2)) with (-2) in X by lra. pose proof exp_minus_2.
           eapply Rle_trans; [|apply (G (859 / 1000) (22 / 25 + 247 / 1000 * s)); lra]. nra.
      * pose proof (exp_minus_mono 3 s ltac:(lra)) as X. replace (- (3)) with (-3) in X by lra. pose proof exp_minus_3.
        destruct (Rle_dec s (49 / 8)) as [C|C].
        -- pose proof (qm_lo2 s ltac:(lra)) as Q. assert (W : qq s = qm s) by (unfold qq; destruct (Rlt_dec (49 / 8) s); lra).
           eapply Rle_trans; [|apply (G (947 / 1000) (1 + 1 / 5 * s)); lra]. nra.
        -- pose proof (qt_lo s ltac:(lra)) as Q. assert (W : qq s = qt s) by (unfold qq; destruct (Rlt_dec (49 / 8) s); lra).
           eapply Rle_trans; [|apply (G (947 / 1000) (13 / 10 + 29 / 200 * s)); lra].
           pose proof (Rle_0_sqr (13 / 10 - 29 / 200 * s)) as SQ. unfold Rsqr in SQ. lra.
  - assert (P : 0 < qq s).
    { unfold qq. destruct (Rlt_dec (49 / 8) s); [pose proof (qt_pos s ltac:(lra)); lra|pose proof (qm_pos s ltac:(lra)); lra]. }
    assert (G : forall l, qq s <= l -> l * l <= s -> (1 - exp (- s)) * (qq s * qq s) <= s).
    { intros l H1 H2. assert (qq s * qq s <= l * l) by (apply square_le; lra).
      apply Rle_trans with (1 * (qq s * qq s)); [apply Rmult_le_compat_r; nra|lra]. }
    destruct (Rle_dec s (49 / 8)) as [C|C].
    + pose proof (qm_up s ltac:(lra)) as Q. assert (W : qq s = qm s) by (unfold qq; destruct (Rlt_dec (49 / 8) s); lra).
      destruct (Rle_dec s 2) as [D|D].
      * pose proof (exp_minus_pade s ltac:(lra)) as X.
        assert (Y : qq s * qq s <= (8863 / 10000 + 1 / 4 * s) * (8863 / 10000 + 1 / 4 * s)) by (apply square_le; lra).
        assert (Z : qq s * qq s <= (2 + s) / 2) by nra.
        apply Rle_trans with ((1 - exp (- s)) * ((2 + s) / 2)); [apply Rmult_le_compat_l; lra|lra].
      * apply (G (8863 / 10000 + 1 / 4 * s)); [lra|nra].
    + assert (W : qq s = qt s) by (unfold qq; destruct (Rlt_dec (49 / 8) s); lra).
      destruct (Rle_dec s 9); [pose proof (qt_up0 s ltac:(lra)); apply (G (11 / 10 + 99 / 500 * s)); [lra|nra]|].
      destruct (Rle_dec s 12); [pose proof (qt_up1 s ltac:(lra)); apply (G (7 / 5 + 4 / 25 * s)); [lra|nra]|].
      destruct (Rle_dec s 20); [pose proof (qt_up2 s ltac:(lra)); apply (G (39 / 25 + 29 / 200 * s)); [lra|nra]|].
      pose proof (qt_up3 s ltac:(lra)). apply (G (19 / 10 + 243 / 2000 * s)); [lra|nra].
Qed.

(** If z is the exact quantile of p and 4 p (1-p) is at least exp (-23), about
    1e-10, the answer is on the same side of the mean, at a distance between
    0.83 and 1.13 times the exact one *)
Theorem C171_near_partial bc m s z p : 0 < s -> prob_normal_cdf m s z = Ok p -> exp (-23) <= 4 * p * (1 - p) ->
  exists a, prob_normal_cdf_inv bc m s p = Ok a
  /\ 0 <= (a - m) * (z - m) /\ 7 / 10 * ((z - m) * (z - m)) <= (a - m) * (a - m) <= 4 / PI * ((z - m) * (z - m)).
Proof.
  intros Hs E Hp. rewrite normal_cdf_erf in E by exact Hs.
  assert (S2 : 0 < sqrt 2) by (apply sqrt_lt_R0; lra). assert (SS : sqrt 2 * sqrt 2 = 2) by (apply sqrt_sqrt; lra).
  assert (ST : 0 < s * sqrt 2) by (apply Rmult_lt_0_compat; lra).
  set (y := (z - m) / (s * sqrt 2)) in *. assert (Ep : p = 1 / 2 * (1 + Rerf y)) by congruence. clear E.
  pose proof (erf_bounds y) as B. set (x := Rerf y) in *. assert (Ex : 2 * p - 1 = x) by lra.
  eexists. split; [apply cdf_inv_val; lra|]. rewrite Ex.
  assert (Ez : z - m = s * sqrt 2 * y) by (unfold y; field; lra). rewrite Ez.
  set (t := logit2 x). set (w := x * qq t).
  replace (m + s * sqrt 2 * w - m) with (s * sqrt 2 * w) by ring.
  assert (Et : exp (- t) = 1 - x * x) by (unfold t, logit2; rewrite Ropp_involutive; apply exp_ln; nra).
  assert (T0 : 0 <= t) by (unfold t; apply logit2_nonneg; lra).
  assert (T1 : t <= 23).
  { assert (X : 4 * p * (1 - p) = 1 - x * x) by (rewrite <- Ex; ring). rewrite X, <- Et in Hp.
    destruct (Rle_dec t 23) as [L|L]; [exact L|]. exfalso. assert (exp (- t) < exp (-23)) by (apply exp_increasing; lra). lra. }
  assert (Ylow : y * y <= t).
  { pose proof (erf_square y) as Q. fold x in Q. destruct (Rle_dec (y * y) t) as [L|L]; [exact L|]. exfalso.
    assert (exp (- (y * y)) < exp (- t)) by (apply exp_increasing; lra). lra. }
  assert (Yup : t <= 4 / PI * (y * y)).
  { pose proof (erf_polya y) as Q. fold x in Q. destruct (Rle_dec t (4 / PI * (y * y))) as [L|L]; [exact L|]. exfalso.
    assert (exp (- t) < exp (- (4 / PI) * (y * y))) by (apply exp_increasing; lra). lra. }
  assert (K : 7 / 10 * t <= w * w <= t).
  { unfold w. replace (x * qq t * (x * qq t)) with ((x * x) * (qq t * qq t)) by ring. replace (x * x) with (1 - exp (- t)) by lra.
    destruct (Req_dec t 0) as [Z|N]; [|apply answer_bracket; lra]. rewrite Z, Ropp_0, exp_0. lra. }
  assert (Q : 0 < qq t).
  { unfold qq. destruct (Rlt_dec (49 / 8) t); [pose proof (qt_pos t ltac:(lra)); lra|pose proof (qm_pos t ltac:(lra)); lra]. }
  split; [|split].
  - replace (s * sqrt 2 * w * (s * sqrt 2 * y)) with ((s * sqrt 2) * (s * sqrt 2) * (qq t * (x * y))) by (unfold w; ring).
    apply Rmult_le_pos; [nra|]. apply Rmult_le_pos; [lra|].
    destruct (Rle_dec 0 y) as [Y|Y].
    + apply Rmult_le_pos; [now apply erf_pos|exact Y].
    + assert (x < 0) by (unfold x; rewrite <- Rerf_0; apply Rerf_incr; lra). nra.
  - replace (7 / 10 * (s * sqrt 2 * y * (s * sqrt 2 * y))) with ((s * sqrt 2 * (s * sqrt 2)) * (7 / 10 * (y * y))) by ring.
    replace (s * sqrt 2 * w * (s * sqrt 2 * w)) with ((s * sqrt 2 * (s * sqrt 2)) * (w * w)) by ring.
    apply Rmult_le_compat_l; [nra|lra].
  - replace (4 / PI * (s * sqrt 2 * y * (s * sqrt 2 * y))) with ((s * sqrt 2 * (s * sqrt 2)) * (4 / PI * (y * y))) by (field; pose proof PI_RGT_0; lra).
    replace (s * sqrt 2 * w * (s * sqrt 2 * w)) with ((s * sqrt 2 * (s * sqrt 2)) * (w * w)) by ring.
    apply Rmult_le_compat_l; [nra|lra].
Qed.

(** *** Non-vacuity *)
Example C171_near_ex : exists p, prob_normal_cdf 0 1 1 = Ok p /\ exp (-23) <= 4 * p * (1 - p).
Proof.
  eexists. split; [apply normal_cdf_erf; lra|]. set (y := (1 - 0) / (1 * sqrt 2)).
  assert (Y : y * y = 1 / 2).
  { assert (S2 : 0 < sqrt 2) by (apply sqrt_lt_R0; lra). unfold y.
    replace ((1 - 0) / (1 * sqrt 2) * ((1 - 0) / (1 * sqrt 2))) with (1 / (sqrt 2 * sqrt 2)) by (field; lra). now rewrite sqrt_sqrt by lra. }
  pose proof (erf_square y) as [_ B]. rewrite Y in B. replace (-2 * (1 / 2)) with (-1) in B by lra.
  assert (exp (-23) < exp (-1)) by (apply exp_increasing; lra). lra.
Qed.
Example C171_central_ex : central (1 / 4) /\ central (3 / 4).
Proof. unfold central. pose proof exp_half. split; lra. Qed.
Example C171_outer_ex : exists p p', 1 / 2 <= p /\ p < p' /\ p' < 1 /\ ~ central p /\ ~ central p'.
Proof.
  destruct (from_logit 7 ltac:(lra)) as (x & Hx & _ & Lx). destruct (from_logit 8 ltac:(lra)) as (y & Hy & _ & Ly).
  assert (XY : x < y). { destruct (Rlt_dec x y) as [L|L]; [exact L|]. exfalso.
    destruct (Req_dec x y) as [->|N]; [lra|]. pose proof (logit2_incr y x ltac:(lra) ltac:(lra) ltac:(lra)). lra. }
  exists ((1 + x) / 2), ((1 + y) / 2). repeat split; try lra; rewrite central_logit by lra.
  - replace (2 * ((1 + x) / 2) - 1) with x by field. lra.
  - replace (2 * ((1 + y) / 2) - 1) with y by field. lra.
Qed.

Print Assumptions C171_increasing_partial.
Print Assumptions C171_increasing_refuted.
Print Assumptions C171_tail_refuted.
Print Assumptions C171_near_partial.
