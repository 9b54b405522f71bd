(** Properties C57-C62 and C95: probability (src/probability.c), in real
    arithmetic; bc is CONFIG_ZSL_BOUNDS_CHECKS.

    Vocabulary: [choose n k], the number of k-element subsets of n elements,
    [successes p n k], the probability of k successes in n trials, and
    [shannon ps], the entropy in bits, are in SpecProb; [RInt] is the Riemann
    integral and [is_derive] the derivative of Coquelicot; [Set_ y] is an
    output parameter set to y, [Kept] one that is not written; NotReal is a
    result that is not a real number. *)
From Coquelicot Require Import Coquelicot.
From Coq Require Import List Arith ZArith Bool Lia Reals Lra Psatz Factorial.
From Verif Require Import Base BaseFacts SpecVec SpecReal MVec PVecR NumR Libm LibmR RTac Out
  SpecProb MProb PProb ErfR.
Import List ListNotations.
Local Open Scope R_scope.

(** * C57: the uniform distribution *)
Theorem C57_pdf :
  forall bc a b x, a < b ->
  prob_uni_pdf bc a b x = Ok (if Rle_dec a x then if Rle_dec x b then / (b - a) else 0 else 0).
Proof.
  intros bc a b x H. unfold prob_uni_pdf. rops. rewrite Rleb_false by lra. rewrite andb_false_r.
  destruct (Rle_dec a x) as [L|L]; [rewrite (Rleb_true a x) by lra | now rewrite (Rleb_false a x) by lra].
  destruct (Rle_dec x b) as [L'|L']; [rewrite Rleb_true by lra | now rewrite Rleb_false by lra].
  cbn [andb]. rewrite Rdivo_ok by lra. f_equal. unfold Rdiv. ring.
Qed.
Print Assumptions C57_pdf.

(** 0 up to a, 1 from b on, and between them the integral of the density
    from a to x. *)
Theorem C57_cdf :
  forall bc a b x, a < b ->
  exists y, prob_uni_cdf bc a b x = Ok y /\ 0 <= y <= 1
  /\ (x <= a -> y = 0) /\ (b <= x -> y = 1)
  /\ (a <= x <= b -> is_RInt (fun _ => / (b - a)) a x y)
  /\ (forall x' y', prob_uni_cdf bc a b x' = Ok y' -> x <= x' -> y <= y').
Proof.
  intros bc a b x H.
  assert (F : forall x, exists y, prob_uni_cdf bc a b x = Ok y /\
     ((x < a /\ y = 0) \/ (b < x /\ y = 1) \/ (a <= x <= b /\ y * (b - a) = x - a))).
  { intros z. unfold prob_uni_cdf. rops. rewrite (Rleb_false b a) by lra. rewrite andb_false_r.
    destruct (Rleb_spec a z); [destruct (Rleb_spec z b)|]; cbn [andb].
    - rewrite Rdivo_ok by lra. eexists; split; [reflexivity|]. right; right. split; [lra|]. field. lra.
    - rewrite Rltb_false by lra. eexists; split; [reflexivity|]. right; left. lra.
    - rewrite Rltb_true by lra. eexists; split; [reflexivity|]. left. lra. }
  destruct (F x) as (y & E & D). exists y. split; [exact E|]. split; [|split; [|split; [|split]]].
  - destruct D as [D|[D|D]]; try lra. nra.
  - intros L. destruct D as [D|[D|D]]; try lra. nra.
  - intros L. destruct D as [D|[D|D]]; try lra. nra.
  - intros L. replace y with (scal (x - a) (/ (b - a))).
    + apply (@is_RInt_const R_NormedModule).
    + unfold scal; cbn; unfold mult; cbn. destruct D as [D|[D|D]]; try lra.
      destruct D as [_ <-]. field. lra.
  - intros x' y' E' L. destruct (F x') as (z & E2 & D2). rewrite E2 in E'. injection E' as <-.
    destruct D as [D|[D|D]], D2 as [D2|[D2|D2]]; try lra; nra.
Qed.
Print Assumptions C57_cdf.

(** The mean and variance are those of the density. *)
Theorem C57_mean_variance :
  forall bc a b, a < b ->
  exists m v, prob_uni_mean bc a b = Ok (0%Z, Set_ m) /\ prob_uni_var bc a b = Ok (0%Z, Set_ v)
  /\ is_RInt (fun x => x * / (b - a)) a b m
  /\ is_RInt (fun x => (x - m) * (x - m) * / (b - a)) a b v.
Proof.
  intros bc a b H. exists ((a + b) / 2), ((b - a) * (b - a) / 12).
  unfold prob_uni_mean, prob_uni_var. rops. rewrite !(Rleb_false b a) by lra. rewrite !andb_false_r.
  rewrite Rdivo_ok by lra. cbn [bind]. split; [do 3 f_equal; lra|]. split; [do 3 f_equal; lra|]. split.
  - replace ((a + b) / 2) with (minus ((fun x => x * x / 2 * / (b - a)) b) ((fun x => x * x / 2 * / (b - a)) a)).
    + apply (@is_RInt_derive R_CompleteNormedModule (fun x => x * x / 2 * / (b - a))).
      * intros x _. auto_derive; [exact I|]. field. lra.
      * intros x _. apply (@ex_derive_continuous R_AbsRing R_NormedModule). auto_derive. exact I.
    + unfold minus, plus, opp; cbn. field. lra.
  - set (m := (a + b) / 2).
    replace ((b - a) * (b - a) / 12) with
      (minus ((fun x => (x - m) * (x - m) * (x - m) / 3 * / (b - a)) b)
             ((fun x => (x - m) * (x - m) * (x - m) / 3 * / (b - a)) a)).
    + apply (@is_RInt_derive R_CompleteNormedModule (fun x => (x - m) * (x - m) * (x - m) / 3 * / (b - a))).
      * intros x _. auto_derive; [exact I|]. field. lra.
      * intros x _. apply (@ex_derive_continuous R_AbsRing R_NormedModule). auto_derive. exact I.
    + unfold minus, plus, opp; cbn. unfold m. field. lra.
Qed.
Print Assumptions C57_mean_variance.

(** An empty interval: the two functions that return a real return the number
    -EINVAL. *)
Theorem C57_rejects :
  forall a b x, b <= a ->
  prob_uni_pdf true a b x = Ok (IZR (- EINVAL)) /\ prob_uni_cdf true a b x = Ok (IZR (- EINVAL))
  /\ prob_uni_mean true a b = Ok ((- EINVAL)%Z, Kept) /\ prob_uni_var true a b = Ok ((- EINVAL)%Z, Kept).
Proof.
  intros a b x H. unfold prob_uni_pdf, prob_uni_cdf, prob_uni_mean, prob_uni_var. rops.
  rewrite !(Rleb_true b a) by lra. repeat split; reflexivity.
Qed.
Print Assumptions C57_rejects.

Example C57_case : prob_uni_cdf true 1 5 2 = Ok (1 / 4) /\ prob_uni_pdf true 1 5 2 = Ok (/ 4).
Proof.
  split.
  - unfold prob_uni_cdf. rops. rewrite (Rleb_false 5 1), (Rleb_true 1 2), (Rleb_true 2 5) by lra. cbn [andb].
    rewrite Rdivo_ok by lra. f_equal. lra.
  - rewrite C57_pdf by lra. destruct (Rle_dec 1 2); [|lra]. destruct (Rle_dec 2 5); [|lra]. f_equal. lra.
Qed.

(** * C58, C59: factorials and binomial coefficients *)
Theorem C58_factorial :
  (forall n, (n <= 12)%nat -> prob_factorial (Z.of_nat n) = Ok (Z.of_nat (fact n)))
  /\ (forall n, (n < 0)%Z -> prob_factorial n = Ok (- EINVAL)%Z).
Proof.
  split; [intros n H; apply factorial_ok, zfact12, H|].
  intros n H. unfold prob_factorial. destruct (Z.eqb_spec n 0); [lia|]. destruct (Z.eqb_spec n 1); [lia|].
  destruct (Z.ltb_spec n 0); [reflexivity|lia].
Qed.
Print Assumptions C58_factorial.

Theorem C58_binomial_coefficient :
  forall bc n, (n <= 12)%nat ->
  (forall k, prob_binomial_coef bc (Z.of_nat n) (Z.of_nat k) = Ok (0%Z, Some (Z.of_nat (choose n k))))
  /\ (forall k, (k < 0 \/ Z.of_nat n < k)%Z -> prob_binomial_coef bc (Z.of_nat n) k = Ok (0%Z, Some 0%Z)).
Proof.
  intros bc n H. split.
  - intros k. rewrite binomial_coef_ok by exact H. destruct (Z.ltb_spec (Z.of_nat k) 0); [lia|]. now rewrite Nat2Z.id.
  - intros k Hk. rewrite binomial_coef_ok by exact H. destruct (Z.ltb_spec k 0); [reflexivity|].
    rewrite choose_big by lia. reflexivity.
Qed.
Print Assumptions C58_binomial_coefficient.

Theorem C58_negative :
  forall n k, (n < 0)%Z -> prob_binomial_coef true n k = Ok ((- EINVAL)%Z, None).
Proof. exact binomial_coef_neg. Qed.
Print Assumptions C58_negative.

Example C58_case :
  prob_factorial 12 = Ok 479001600%Z /\ prob_binomial_coef true 12 6 = Ok (0%Z, Some 924%Z)
  /\ prob_binomial_coef true 5 7 = Ok (0%Z, Some 0%Z).
Proof. repeat split; vm_compute; reflexivity. Qed.

(** From 13 on the product does not fit an int. *)
Theorem C59_factorial_overflow_refuted :
  forall n, (13 <= n)%Z -> prob_factorial n = UB IntOverflow.
Proof. intros n H. rewrite <- (Z2Nat.id n) by lia. apply factorial_overflow. lia. Qed.
Print Assumptions C59_factorial_overflow_refuted.

Theorem C59_no_overflow_partial :
  forall n, (n <= 12)%Z -> exists v, prob_factorial n = Ok v.
Proof.
  intros n H. destruct (Z.ltb_spec n 0).
  - eexists. now apply C58_factorial.
  - rewrite <- (Z2Nat.id n) by lia. eexists. apply (proj1 C58_factorial). lia.
Qed.
Print Assumptions C59_no_overflow_partial.

Theorem C59_coefficient_overflow_refuted :
  forall bc n k, (13 <= n)%Z -> (0 <= k <= n)%Z -> prob_binomial_coef bc n k = UB IntOverflow.
Proof.
  intros bc n k Hn Hk. unfold prob_binomial_coef.
  destruct (Z.ltb_spec n 0); [lia|]. rewrite andb_false_r. rewrite Z.gtb_ltb.
  destruct (Z.ltb_spec n k); [lia|]. destruct (Z.ltb_spec k 0); [lia|]. cbn [orb].
  rewrite C59_factorial_overflow_refuted by lia. reflexivity.
Qed.
Print Assumptions C59_coefficient_overflow_refuted.

(** * C60: the binomial distribution *)
Theorem C60_pdf :
  forall bc n p, (n <= 12)%nat -> 0 <= p <= 1 ->
  (forall k, (k <= n)%nat ->
     prob_binomial_pdf bc (Z.of_nat n) p (Z.of_nat k) = Ok (successes p n k) /\ 0 <= successes p n k)
  /\ bigsum (S n) (successes p n) = 1.
Proof.
  intros bc n p Hn Hp. split; [|apply successes_sum]. intros k Hk. split; [|now apply successes_nonneg].
  unfold prob_binomial_pdf. rewrite good_binomial by exact Hp.
  rewrite binomial_term_ok; [now rewrite Nat2Z.id|exact Hn|exact Hp|lia].
Qed.
Print Assumptions C60_pdf.

(** Outside 0..n the probability is 0; but the factor 0^negative makes the
    result not a number for p = 0 below the range and p = 1 above it. *)
Theorem C60_pdf_outside_partial :
  forall bc n p x, (n <= 12)%nat ->
  ((- INT_MAX + 12 <= x < 0)%Z /\ 0 < p <= 1) \/ ((Z.of_nat n < x <= INT_MAX)%Z /\ 0 <= p < 1) ->
  prob_binomial_pdf bc (Z.of_nat n) p x = Ok 0.
Proof.
  intros bc n p x Hn H. unfold prob_binomial_pdf. rewrite good_binomial by (destruct H; lra).
  destruct H as [[Hx Hp]|[Hx Hp]].
  - unfold binomial_term. rewrite binomial_coef_ok by exact Hn. cbn [bind].
    destruct (Z.ltb_spec x 0); [|lia]. rewrite int_ok_int by (unfold int_ok, INT_MIN, INT_MAX in *; lia). cbn [bind].
    rops. rewrite Rpow_pos by lra. cbn [bind].
    replace (Z.of_nat n - x)%Z with (Z.of_nat (Z.to_nat (Z.of_nat n - x))) by lia. rewrite Rpow_nat by lra.
    cbn [bind]. f_equal. ring.
  - rewrite binomial_term_above by (try exact Hn; lra || lia). f_equal. apply successes_big. lia.
Qed.
Print Assumptions C60_pdf_outside_partial.
Theorem C60_pdf_outside_refuted :
  prob_binomial_pdf true 5 0 (-1) = NotReal /\ prob_binomial_pdf true 5 1 6 = NotReal.
Proof.
  split.
  - unfold prob_binomial_pdf. change 5%Z with (Z.of_nat 5). rewrite good_binomial by lra.
    unfold binomial_term. rewrite binomial_coef_ok by lia. cbn -[Rpow].
    unfold Rpow at 1. destruct (Rlt_dec 0 0); [lra|]. destruct (Req_EM_T 0 0); [|lra].
    destruct (Req_EM_T (-1) 0); [lra|]. destruct (Rlt_dec 0 (-1)); [lra|]. reflexivity.
  - unfold prob_binomial_pdf. change 5%Z with (Z.of_nat 5). rewrite good_binomial by lra.
    apply binomial_term_above_1; unfold INT_MAX; lia.
Qed.
Print Assumptions C60_pdf_outside_refuted.

(** The mean and variance functions agree with the probabilities. *)
Theorem C60_mean_variance :
  forall bc n p, (n <= 12)%nat -> 0 <= p <= 1 ->
  exists m v, prob_binomial_mean bc (Z.of_nat n) p = Ok (0%Z, Set_ m)
  /\ prob_binomial_var bc (Z.of_nat n) p = Ok (0%Z, Set_ v)
  /\ m = bigsum (S n) (fun k => INR k * successes p n k)
  /\ v = bigsum (S n) (fun k => (INR k - m) * (INR k - m) * successes p n k).
Proof.
  intros bc n p Hn Hp. exists (INR n * p), (INR n * p * (1 - p)).
  unfold prob_binomial_mean, prob_binomial_var. rewrite good_binomial by exact Hp. rops.
  rewrite <- INR_IZR_INZ. split; [reflexivity|]. split; [reflexivity|]. split; symmetry.
  - apply expect_id.
  - apply expect_var.
Qed.
Print Assumptions C60_mean_variance.

Theorem C60_cdf :
  forall bc n p, (n <= 12)%nat -> 0 <= p <= 1 ->
  (forall x, (x < 0)%Z -> prob_binomial_cdf bc (Z.of_nat n) p x = Ok 0)
  /\ (forall k, (k <= n)%nat ->
        prob_binomial_cdf bc (Z.of_nat n) p (Z.of_nat k) = Ok (bigsum (S k) (successes p n)))
  /\ prob_binomial_cdf bc (Z.of_nat n) p (Z.of_nat n) = Ok 1
  /\ (forall j k, (j <= k)%nat -> bigsum (S j) (successes p n) <= bigsum (S k) (successes p n)).
Proof.
  intros bc n p Hn Hp.
  assert (G : forall k, (k <= n)%nat ->
        prob_binomial_cdf bc (Z.of_nat n) p (Z.of_nat k) = Ok (bigsum (S k) (successes p n))).
  { intros k Hk. rewrite binomial_cdf_ok; [now rewrite Nat2Z.id|exact Hn|exact Hp|unfold INT_MAX; lia|lia]. }
  split; [|split; [exact G|split]].
  - intros x Hx. unfold prob_binomial_cdf. rewrite good_binomial by exact Hp.
    destruct (Z.ltb_spec x 0); [reflexivity|lia].
  - rewrite G by lia. f_equal. apply successes_sum.
  - intros j k H. apply bigsum_mono; [lia|]. now apply successes_nonneg.
Qed.
Print Assumptions C60_cdf.

(** Above n it stays 1 as long as p < 1 (the argument INT_MAX overflows the
    loop counter). *)
Theorem C60_cdf_above_partial :
  forall bc n p x, (n <= 12)%nat -> 0 <= p < 1 -> (Z.of_nat n <= x < INT_MAX)%Z ->
  prob_binomial_cdf bc (Z.of_nat n) p x = Ok 1.
Proof.
  intros bc n p x Hn Hp Hx. rewrite binomial_cdf_ok; [|exact Hn|lra|lia|right; lra]. f_equal.
  rewrite (@bigsum_tail0 (successes p n) (S n)); [apply successes_sum|lia|].
  intros k Hk. apply successes_big. lia.
Qed.
Print Assumptions C60_cdf_above_partial.

(** With p = 1 the terms above n are 0 times infinity. *)
Theorem C60_cdf_above_refuted :
  forall bc n x, (n <= 12)%nat -> (Z.of_nat n < x <= INT_MAX)%Z ->
  prob_binomial_cdf bc (Z.of_nat n) 1 x = NotReal.
Proof.
  intros bc n x Hn Hx. unfold prob_binomial_cdf. rewrite good_binomial by lra.
  destruct (Z.ltb_spec x 0); [lia|].
  replace (S (Z.to_nat x)) with (S n + (Z.to_nat x - n))%nat by lia.
  rewrite for_split. rewrite binomial_sum.
  - cbn [bind]. destruct (Z.to_nat x - n)%nat as [|m] eqn:E; [lia|]. cbn [for_].
    replace (Z.of_nat (0 + S n)) with (Z.of_nat n + 1)%Z by lia. rewrite binomial_term_above_1; [reflexivity|exact Hn|lia].
  - intros k Hk. rewrite binomial_term_ok; [now rewrite Nat2Z.id|exact Hn|lra|lia].
Qed.
Print Assumptions C60_cdf_above_refuted.

Theorem C60_rejects :
  forall n p x, p < 0 \/ 1 < p \/ (n < 0)%Z ->
  prob_binomial_pdf true n p x = Ok (IZR (- EINVAL)) /\ prob_binomial_cdf true n p x = Ok (IZR (- EINVAL))
  /\ prob_binomial_mean true n p = Ok ((- EINVAL)%Z, Kept)
  /\ prob_binomial_var true n p = Ok ((- EINVAL)%Z, Kept).
Proof.
  intros n p x H. assert (B : bad_binomial true n p = true).
  { unfold bad_binomial. rops. cbn [andb]. destruct H as [H|[H|H]].
    - rewrite (Rltb_true p 0) by lra. now rewrite orb_true_r.
    - rewrite Rltb_true by lra. reflexivity.
    - rewrite (proj2 (Z.ltb_lt _ _) H). now rewrite orb_true_r. }
  unfold prob_binomial_pdf, prob_binomial_cdf, prob_binomial_mean, prob_binomial_var. rewrite B.
  repeat split; reflexivity.
Qed.
Print Assumptions C60_rejects.

Example C60_case : successes (1 / 2) 3 1 = 3 / 8 /\ prob_binomial_cdf true 3 (1 / 2) 1 = Ok (1 / 2).
Proof.
  split; [cbn; lra|]. change 3%Z with (Z.of_nat 3). change 1%Z with (Z.of_nat 1).
  destruct (C60_cdf true 3 (1 / 2)) as (_ & H & _); [lia|lra|]. rewrite H by lia. f_equal. cbn. lra.
Qed.

(** * C61: Bayes' rule *)
Theorem C61_bayes :
  forall pa pb pba,
  0 <= pa <= 1 -> 0 < pb <= 1 -> 0 <= pba <= 1 -> pa * pba <= pb ->
  forall bc, exists q, prob_bayes bc pa pb pba = Ok (0%Z, Set_ q) /\ q * pb = pba * pa /\ 0 <= q <= 1.
Proof.
  intros pa pb pba Ha Hb Hc H bc. exists (pba * pa / pb). unfold prob_bayes. rops.
  rewrite !Rltb_false by lra. rewrite Rleb_false by lra. cbn [orb]. rewrite !andb_false_r.
  rewrite Rdivo_ok by lra. cbn [bind]. split; [reflexivity|]. split; [field; lra|].
  assert (0 <= pba * pa) by nra. split.
  - apply Rmult_le_pos; [exact H0|]. left. apply Rinv_0_lt_compat. lra.
  - apply Rmult_le_reg_r with pb; [lra|]. replace (pba * pa / pb * pb) with (pba * pa) by (field; lra). lra.
Qed.
Print Assumptions C61_bayes.

Theorem C61_rejects :
  forall pa pb pba,
  ~ (0 <= pa <= 1 /\ 0 < pb <= 1 /\ 0 <= pba <= 1 /\ pa * pba <= pb) ->
  prob_bayes true pa pb pba = Ok ((- EINVAL)%Z, Kept).
Proof.
  intros pa pb pba H. unfold prob_bayes. rops. rcases; try reflexivity; exfalso; apply H; lra.
Qed.
Print Assumptions C61_rejects.

Example C61_case : prob_bayes true (1 / 100) (1 / 10) (9 / 10) = Ok (0%Z, Set_ (9 / 100)).
Proof.
  destruct (C61_bayes (1 / 100) (1 / 10) (9 / 10) ltac:(lra) ltac:(lra) ltac:(lra) ltac:(lra) true)
    as (q & E & Q & _). rewrite E. do 3 f_equal. lra.
Qed.

(** * C62: entropy *)
Theorem C62_entropy_partial :
  forall bc ps tl, Forall (fun p => 0 < p) ps -> rsum ps = 1 ->
  exists h, prob_entropy bc (vec_of ps tl) = Ok (0%Z, Set_ h)
  /\ h = shannon ps /\ 0 <= h <= log2 (INR (length ps)).
Proof.
  intros bc ps tl H HS. exists (shannon ps). split; [|split; [reflexivity|]].
  - apply entropy_ok; [exact H|]. rewrite HS. replace (1 - 1) with 0 by ring. rewrite Rabs_R0. lra.
  - split; [now apply shannon_nonneg|now apply shannon_max].
Qed.
Print Assumptions C62_entropy_partial.

(** The sum is only required to be 1 up to 1e-6; the value is still the sum
    of p log2 (1/p). *)
Theorem C62_entropy_value :
  forall bc ps tl, Forall (fun p => 0 < p) ps -> Rabs (rsum ps - 1) <= / 1000000 ->
  prob_entropy bc (vec_of ps tl) = Ok (0%Z, Set_ (shannon ps)).
Proof. exact entropy_ok. Qed.
Print Assumptions C62_entropy_value.

Theorem C62_rejects :
  forall ps tl,
  ~ (Forall (fun p => 0 <= p) ps /\ Rabs (rsum ps - 1) <= / 1000000) ->
  prob_entropy true (vec_of ps tl) = Ok ((- EINVAL)%Z, Kept).
Proof. exact entropy_reject. Qed.
Print Assumptions C62_rejects.

(** A probability vector with a zero in it passes the checks, but its entropy
    is computed as 0 * log 0: not a number. *)
Theorem C62_zero_probability_refuted :
  forall bc ps tl, Forall (fun p => 0 <= p) ps -> rsum ps = 1 -> In 0 ps ->
  prob_entropy bc (vec_of ps tl) = NotReal.
Proof.
  intros bc ps tl H HS HI. apply entropy_zero; auto. rewrite HS. replace (1 - 1) with 0 by ring. rewrite Rabs_R0. lra.
Qed.
Print Assumptions C62_zero_probability_refuted.

Example C62_case : prob_entropy true (vec_of [1 / 2; 1 / 4; 1 / 4] []) = Ok (0%Z, Set_ (3 / 2)).
Proof.
  rewrite entropy_ok.
  - do 3 f_equal. unfold shannon, log2. cbn [map rsum]. replace (/ (1 / 4)) with (2 * 2) by lra.
    replace (/ (1 / 2)) with 2 by lra. rewrite ln_mult by lra. pose proof ln2_pos. field. lra.
  - repeat constructor; lra.
  - cbn [rsum]. rewrite Rabs_pos_eq; lra.
Qed.

(** * C95: the normal distribution *)
(** The cumulative distribution is 1/2 at the mean, point symmetric about it,
    strictly increasing, and its derivative is the Gaussian density. *)
Theorem C95_cdf :
  forall m s, 0 < s ->
  exists F : R -> R,
  (forall x, prob_normal_cdf m s x = Ok (F x))
  /\ F m = 1 / 2
  /\ (forall d, F (m - d) + F (m + d) = 1)
  /\ (forall x y, x < y -> F x < F y)
  /\ (forall x, is_derive F x (/ (s * sqrt (2 * PI)) * exp (- (((x - m) / s) ^ 2 / 2)))).
Proof.
  intros m s Hs. exists (fun x => 1 / 2 * (1 + Rerf ((x - m) / (s * sqrt 2)))).
  assert (S2 : 0 < sqrt 2) by (apply sqrt_lt_R0; lra).
  assert (SS : 0 < s * sqrt 2) by (apply Rmult_lt_0_compat; lra).
  split; [|split; [|split; [|split]]].
  - intros x. unfold prob_normal_cdf. rops. replace (2 / 1) with 2 by lra. rewrite Rsqrto_ok by lra. cbn [bind].
    rewrite Rdivo_ok by lra. cbn [bind ferf NumErfR]. f_equal. lra.
  - replace ((m - m) / (s * sqrt 2)) with 0 by (field; lra). rewrite Rerf_0. lra.
  - intros d. replace ((m - d - m) / (s * sqrt 2)) with (- ((m + d - m) / (s * sqrt 2))) by (field; lra).
    rewrite Rerf_odd. lra.
  - intros x y H. apply Rmult_lt_compat_l; [lra|]. apply Rplus_lt_compat_l. apply Rerf_incr.
    apply Rmult_lt_compat_r; [now apply Rinv_0_lt_compat|lra].
  - intros x. pose proof PI_RGT_0 as HP. assert (SP : 0 < sqrt PI) by now apply sqrt_lt_R0.
    set (z := fun x0 : R => (x0 - m) / (s * sqrt 2)).
    assert (D : is_derive z x (/ (s * sqrt 2))) by (unfold z; auto_derive; [lra|field; lra]).
    pose proof (is_derive_comp Rerf z x _ _ (Rerf_derive (z x)) D) as DD.
    pose proof (is_derive_plus (fun _ => 1) _ x _ _ (is_derive_const 1 x) DD) as D1.
    pose proof (is_derive_scal _ x (1 / 2) _ D1) as D2.
    unfold plus, zero, scal in D2; cbn in D2; unfold mult in D2; cbn in D2.
    replace (/ (s * sqrt (2 * PI)) * exp (- (((x - m) / s) ^ 2 / 2)))
      with (1 / 2 * (0 + / (s * sqrt 2) * (2 / sqrt PI * exp (- (z x * z x))))); [exact D2|].
    rewrite sqrt_mult by lra.
    replace (z x * z x) with (((x - m) / s) ^ 2 / 2).
    + field. lra.
    + unfold z. pose proof (sqrt_sqrt 2 ltac:(lra)) as Q.
      replace ((x - m) / (s * sqrt 2) * ((x - m) / (s * sqrt 2)))
        with (((x - m) / s) ^ 2 / (sqrt 2 * sqrt 2)) by (field; lra). rewrite Q. reflexivity.
Qed.
Print Assumptions C95_cdf.

(** The density is positive, symmetric about the mean and decreases away from
    it; the library computes it with 11 decimals of pi and e. *)
Theorem C95_pdf :
  forall m s, 0 < s ->
  exists f : R -> R,
  (forall x, prob_normal_pdf m s x = Ok (f x))
  /\ (forall x, 0 < f x) /\ (forall d, f (m - d) = f (m + d))
  /\ (forall x y, m <= x < y -> f y < f x)
  /\ f m = / (s * sqrt (2 * (314159265359 / 100000000000))).
Proof.
  intros m s Hs.
  set (k := / (s * sqrt (2 * (314159265359 / 100000000000)))). set (e := 271828182845 / 100000000000).
  assert (S2 : 0 < sqrt (2 * (314159265359 / 100000000000))) by (apply sqrt_lt_R0; lra).
  assert (K : 0 < k) by (apply Rinv_0_lt_compat, Rmult_lt_0_compat; assumption).
  assert (L : 0 < ln e) by (rewrite <- ln_1; apply ln_increasing; unfold e; lra).
  exists (fun x => k * Rpower e (- (1 / 2) * ((x - m) / s) * ((x - m) / s))).
  split; [|split; [|split; [|split]]].
  - intros x. unfold prob_normal_pdf, zsl_pi, zsl_e. rops. replace (2 / 1) with 2 by lra.
    rewrite Rsqrto_ok by lra. cbn [bind].
    rewrite Rdivo_ok by (apply Rgt_not_eq, Rmult_lt_0_compat; assumption). cbn [bind].
    rewrite Rdivo_ok by lra. cbn [bind]. rewrite Rpow_pos by lra. cbn [bind]. f_equal. fold e. unfold k.
    replace (5 / 10) with (1 / 2) by lra. unfold Rdiv at 1. rewrite Rmult_1_l. reflexivity.
  - intros x. apply Rmult_lt_0_compat; [exact K|apply exp_pos].
  - intros d. do 2 f_equal. field. lra.
  - intros x y H. apply Rmult_lt_compat_l; [exact K|]. unfold Rpower. apply exp_increasing.
    apply Rmult_lt_compat_r; [exact L|].
    assert (A : 0 <= (x - m) / s) by (apply Rmult_le_pos; [lra|left; now apply Rinv_0_lt_compat]).
    assert (B : (x - m) / s < (y - m) / s) by (apply Rmult_lt_compat_r; [now apply Rinv_0_lt_compat|lra]).
    nra.
  - replace ((m - m) / s) with 0 by (field; lra). replace (- (1 / 2) * 0 * 0) with 0 by ring.
    unfold Rpower. rewrite Rmult_0_l, exp_0. ring.
Qed.
Print Assumptions C95_pdf.

(** The approximate quantile function is the mean at 1/2, point symmetric, and
    rejects arguments outside (0,1) by returning the number -EINVAL. *)
Theorem C95_quantile :
  forall bc m s,
  prob_normal_cdf_inv bc m s (1 / 2) = Ok m
  /\ (forall p, 0 < p < 1 -> exists a b,
        prob_normal_cdf_inv bc m s p = Ok a /\ prob_normal_cdf_inv bc m s (1 - p) = Ok b /\ a + b = 2 * m)
  /\ (forall p, p <= 0 \/ 1 <= p -> prob_normal_cdf_inv true m s p = Ok (IZR (- EINVAL))).
Proof.
  intros bc m s.
  assert (G : forall p, 0 < p < 1 -> exists q,
     prob_erf_inv bc (2 * p - 1) = Ok q /\ prob_erf_inv bc (2 * (1 - p) - 1) = Ok (- q)
     /\ (p = 1 / 2 -> q = 0)).
  { intros p Hp. unfold prob_erf_inv. rops. rewrite !Rleb_false by lra. cbn [orb]. rewrite !andb_false_r.
    rewrite !Rlog_ok by nra. cbn [bind].
    replace ((2 * (1 - p) - 1) * (0 - (2 * (1 - p) - 1)) + 1) with ((2 * p - 1) * (0 - (2 * p - 1)) + 1) by ring.
    destruct (Rltb _ _); (eexists; split; [reflexivity|]; split; [f_equal; ring|]); intros ->; field. }
  assert (N : forall p, 0 < p < 1 -> forall q, prob_erf_inv bc (2 * p - 1) = Ok q ->
     prob_normal_cdf_inv bc m s p = Ok (m + s * sqrt 2 * q)).
  { intros p Hp q E. unfold prob_normal_cdf_inv. rops. rewrite !Rleb_false by lra. cbn [orb]. rewrite !andb_false_r.
    replace (20 / 10) with 2 by lra. replace (10 / 10) with 1 by lra. rewrite Rsqrto_ok by lra. cbn [bind].
    rewrite E. reflexivity. }
  split; [|split].
  - destruct (G (1 / 2) ltac:(lra)) as (q & E & _ & Q). rewrite (N (1 / 2) ltac:(lra) q E), Q by reflexivity. f_equal. ring.
  - intros p Hp. destruct (G p Hp) as (q & E & E' & _). exists (m + s * sqrt 2 * q), (m + s * sqrt 2 * - q).
    split; [now apply N|]. split; [apply N; [lra|exact E']|]. ring.
  - intros p Hp. unfold prob_normal_cdf_inv. rops. destruct Hp as [Hp|Hp].
    + rewrite (Rleb_true p 0) by lra. reflexivity.
    + rewrite (Rleb_true 1 p) by lra. rewrite orb_true_r. reflexivity.
Qed.
Print Assumptions C95_quantile.
