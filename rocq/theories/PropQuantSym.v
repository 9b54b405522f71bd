(** C174: symmetry and units of the normal quantiles. *)
From Coq Require Import ZArith Bool Reals Lra.
From Verif Require Import Base BaseFacts NumR Libm LibmR RTac MProb ErfR PErf PErfInv PErfInv2 PropNormal PropQuantile.
Local Open Scope R_scope.

Lemma qq_pos x : -1 < x < 1 -> 0 < qq (logit2 x).
Proof.
  intros H. pose proof (logit2_nonneg x H). unfold qq.
  destruct (Rlt_dec (49 / 8) (logit2 x)) as [B|B].
  - pose proof (qt_pos (logit2 x)). lra.
  - pose proof (qm_pos (logit2 x)). lra.
Qed.

(** zsl_prob_erf_inv is odd, and has the sign of its argument *)
Theorem C174_erf_inv bc x : -1 < x < 1 ->
  exists y, prob_erf_inv bc x = Ok y /\ prob_erf_inv bc (- x) = Ok (- y) /\
    (0 < x -> 0 < y) /\ (x < 0 -> y < 0) /\ (x = 0 -> y = 0).
Proof.
  intros H. exists (x * qq (logit2 x)). pose proof (qq_pos x H).
  rewrite !erf_inv_val, logit2_opp by lra.
  repeat split; [f_equal; ring|intros; nra..].
Qed.

(** The quantiles of p and 1 - p lie at the same distance on either side of the
    mean; the median is the mean exactly *)
Theorem C174_symmetric bc m s p : 0 < p < 1 ->
  exists d, prob_normal_cdf_inv bc m s p = Ok (m + d) /\
    prob_normal_cdf_inv bc m s (1 - p) = Ok (m - d) /\
    (0 < s -> (1 / 2 < p -> 0 < d) /\ (p < 1 / 2 -> d < 0) /\ (p = 1 / 2 -> d = 0)).
Proof.
  intros H. exists (s * sqrt 2 * ((2 * p - 1) * qq (logit2 (2 * p - 1)))).
  rewrite !cdf_inv_val by lra. replace (2 * (1 - p) - 1) with (- (2 * p - 1)) by ring.
  rewrite logit2_opp. split; [reflexivity|]. split; [f_equal; ring|]. intros Hs.
  pose proof (qq_pos (2 * p - 1) ltac:(lra)) as Q. pose proof (Rlt_sqrt2_0) as S2.
  set (q := qq _) in *. assert (P : 0 < s * sqrt 2) by nra.
  repeat split; intros E.
  - apply Rmult_lt_0_compat; [exact P|]. nra.
  - assert (0 < s * sqrt 2 * ((1 - 2 * p) * q)); [|lra]. apply Rmult_lt_0_compat; [exact P|nra].
  - subst p. lra.
Qed.

(** Any normal distribution from the standard one *)
Theorem C174_units bc m s a k p : 0 < p < 1 ->
  exists x z, prob_normal_cdf_inv bc m s p = Ok x /\ prob_normal_cdf_inv bc 0 1 p = Ok z /\
    x = m + s * z /\ prob_normal_cdf_inv bc (a + k * m) (k * s) p = Ok (a + k * x).
Proof.
  intros H. do 2 eexists. rewrite !cdf_inv_val by exact H.
  split; [reflexivity|]. split; [reflexivity|]. split; [ring|]. f_equal. ring.
Qed.

(** The error answer for a p that is no probability is a number which is also
    an ordinary quantile: the caller cannot tell them apart *)
Theorem C174_error : 
  (forall m s p, p <= 0 \/ 1 <= p -> prob_normal_cdf_inv true m s p = Ok (-22)) /\
  prob_normal_cdf_inv true (-22) 1 (1 / 2) = Ok (-22).
Proof.
  split.
  - intros m s p [H|H]; unfold prob_normal_cdf_inv; rops.
    + rewrite (Rleb_true p 0) by exact H. reflexivity.
    + rewrite (Rleb_true 1 p) by exact H. rewrite orb_true_r. reflexivity.
  - rewrite cdf_inv_val by lra. f_equal. lra.
Qed.

Example C174_ex : exists d, prob_normal_cdf_inv true 10 2 (3 / 4) = Ok (10 + d) /\
  prob_normal_cdf_inv true 10 2 (1 / 4) = Ok (10 - d) /\ 0 < d.
Proof.
  destruct (C174_symmetric true 10 2 (3 / 4)) as (d & A & B & C); [lra|]. exists d.
  split; [exact A|]. split; [|apply C; lra]. replace (1 / 4) with (1 - 3 / 4) by lra. exact B.
Qed.
Print Assumptions C174_erf_inv.
Print Assumptions C174_symmetric.
Print Assumptions C174_units.
Print Assumptions C174_error.
