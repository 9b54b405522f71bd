(** C170: the normal distribution has total probability 1. *)
From Coq Require Import Reals Lra Lia.
From Coquelicot Require Import Coquelicot.
From Verif Require Import Base BaseFacts NumR Libm LibmR RTac MProb ErfR PErf.
Local Open Scope R_scope.

Lemma normal_cdf_erf m s x : 0 < s ->
  prob_normal_cdf m s x = Ok (1 / 2 * (1 + Rerf ((x - m) / (s * sqrt 2)))).
Proof.
  intros Hs. assert (S2 : 0 < sqrt 2) by (apply sqrt_lt_R0; lra).
  assert (SS : 0 < s * sqrt 2) by (apply Rmult_lt_0_compat; lra).
  unfold prob_normal_cdf. rops. replace (2 / 1) with 2 by lra. rewrite Rsqrto_ok by lra. cbn [bind].
  rewrite Rdivo_ok by lra. cbn [bind ferf NumErfR]. f_equal. lra.
Qed.

(** zsl_prob_normal_cdf lies strictly between 0 and 1, tends to 0 on the left and
    to 1 on the right *)
Theorem C170_distribution m s : 0 < s ->
  exists F : R -> R,
  (forall x, prob_normal_cdf m s x = Ok (F x))
  /\ (forall x, 0 < F x < 1)
  /\ is_lim F m_infty 0 /\ is_lim F p_infty 1.
Proof.
  intros Hs. exists (fun x => 1 / 2 * (1 + Rerf ((x - m) / (s * sqrt 2)))).
  assert (S2 : 0 < sqrt 2) by (apply sqrt_lt_R0; lra).
  assert (SS : 0 < s * sqrt 2) by (apply Rmult_lt_0_compat; lra).
  assert (LZ : is_lim (fun x => (x - m) / (s * sqrt 2)) p_infty p_infty).
  { intros Q (M & HM). exists (m + M * (s * sqrt 2)). intros x Hx. apply HM. apply Rlt_div_r; lra. }
  assert (P : is_lim (fun x => 1 / 2 * (1 + Rerf ((x - m) / (s * sqrt 2)))) p_infty 1).
  { evar_last.
    - apply is_lim_scal_l, is_lim_plus'; [apply is_lim_const|].
      apply is_lim_comp with (l := p_infty); [exact erf_limit|exact LZ|]. exists 0. intros y _. discriminate.
    - cbn. f_equal. lra. }
  split; [|split; [|split]].
  - intros x. now apply normal_cdf_erf.
  - intros x. pose proof (erf_bounds ((x - m) / (s * sqrt 2))). lra.
  - apply is_lim_ext with (fun x => 1 - 1 / 2 * (1 + Rerf ((2 * m - x - m) / (s * sqrt 2)))).
    + intros x. replace ((2 * m - x - m) / (s * sqrt 2)) with (- ((x - m) / (s * sqrt 2))) by (field; lra).
      rewrite Rerf_odd. lra.
    + evar_last.
      * apply is_lim_minus'; [apply is_lim_const|].
        apply is_lim_comp with (f := fun x => 1 / 2 * (1 + Rerf ((x - m) / (s * sqrt 2)))) (g := fun x => 2 * m - x) (l := p_infty);
          [exact P| |exists 0; intros y _; discriminate].
        intros Q (M & HM). exists (2 * m - M). intros x Hx. apply HM. lra.
      * cbn. f_equal. lra.
  - exact P.
Qed.

(** The probability of lying more than k deviations above the mean is at most
    exp (-k^2/2) / 2 *)
Theorem C170_tail m s k : 0 < s -> 0 <= k ->
  exists v, prob_normal_cdf m s (m + k * s) = Ok v /\ 1 - exp (- (k * k / 2)) / 2 <= v < 1.
Proof.
  intros Hs Hk. eexists. split; [now apply normal_cdf_erf|].
  assert (S2 : 0 < sqrt 2) by (apply sqrt_lt_R0; lra).
  replace ((m + k * s - m) / (s * sqrt 2)) with (k / sqrt 2) by (field; lra).
  assert (K : 0 <= k / sqrt 2) by (apply Rmult_le_pos; [lra|]; left; now apply Rinv_0_lt_compat).
  pose proof (@erf_tail (k / sqrt 2) K) as E. pose proof (erf_bounds (k / sqrt 2)) as B.
  replace (k / sqrt 2 * (k / sqrt 2)) with (k * k / (sqrt 2 * sqrt 2)) in E by (field; lra).
  rewrite sqrt_sqrt in E by lra. lra.
Qed.

(** The probability of any interval is the integral of the Gaussian density; with
    C170_distribution the density's integral over the line is 1 *)
Theorem C170_interval m s a b : 0 < s ->
  exists u v, prob_normal_cdf m s a = Ok u /\ prob_normal_cdf m s b = Ok v
  /\ v - u = RInt (fun x => / (s * sqrt (2 * PI)) * exp (- (((x - m) / s) ^ 2 / 2))) a b.
Proof.
  intros Hs. do 2 eexists. split; [now apply normal_cdf_erf|]. split; [now apply normal_cdf_erf|].
  symmetry. apply is_RInt_unique.
  assert (S2 : 0 < sqrt 2) by (apply sqrt_lt_R0; lra).
  assert (SS : 0 < s * sqrt 2) by (apply Rmult_lt_0_compat; lra).
  pose proof PI_RGT_0 as HP. assert (SP : 0 < sqrt PI) by now apply sqrt_lt_R0.
  apply (@is_RInt_derive R_CompleteNormedModule (fun x => 1 / 2 * (1 + Rerf ((x - m) / (s * sqrt 2))))).
  - intros x _. evar_last.
    + apply is_derive_scal. apply (is_derive_plus (fun _ => 1)); [apply @is_derive_const|].
      apply (is_derive_comp Rerf (fun x => (x - m) / (s * sqrt 2))); [apply Rerf_derive|].
      auto_derive; [lra|reflexivity].
    + unfold plus, zero, scal; cbn; unfold mult; cbn. rewrite sqrt_mult by lra.
      replace ((x - m) / (s * sqrt 2) * ((x - m) / (s * sqrt 2))) with ((x - m) / s * ((x - m) / s * 1) / 2).
      * field. lra.
      * replace ((x - m) / (s * sqrt 2) * ((x - m) / (s * sqrt 2))) with ((x - m) / s * ((x - m) / s * 1) / (sqrt 2 * sqrt 2)) by (field; lra).
        now rewrite sqrt_sqrt by lra.
  - intros x _. apply (@ex_derive_continuous R_AbsRing R_NormedModule). auto_derive. lra.
Qed.

(** *** Non-vacuity: the library's documented use, a standard normal variable *)
Example C170_ex : exists v, prob_normal_cdf 0 1 (0 + 2 * 1) = Ok v /\ 1 - exp (-2) / 2 <= v < 1.
Proof.
  destruct (@C170_tail 0 1 2 ltac:(lra) ltac:(lra)) as (v & E & B). exists v. split; [exact E|].
  now replace (- (2 * 2 / 2)) with (-2) in B by lra.
Qed.

Print Assumptions C170_distribution.
Print Assumptions C170_tail.
Print Assumptions C170_interval.
