(** C176: statistics of combined data. *)
From Coq Require Import List Arith ZArith Bool Lia Reals Lra Psatz.
From Verif Require Import Base BaseFacts SpecVec SpecReal SpecMtx SpecStat MVec PVec PVecR PSort NumR
  RTac Out MStat PStat PStatReg PropVec PropStat.
Import ListNotations.
Local Open Scope R_scope.

Lemma rdot_devs xs ys : xs <> [] -> length xs = length ys ->
  rdot (dev xs) (dev ys) = rdot xs ys - rsum xs * rsum ys / INR (length xs).
Proof.
  intros H L. unfold dev. pose proof (INR_length_pos xs H) as P.
  assert (G : forall c d (us vs : list R), length us = length vs ->
    rdot (map (fun x => x - c) us) (map (fun y => y - d) vs)
    = rdot us vs - d * rsum us - c * rsum vs + INR (length us) * c * d).
  { intros c d. induction us as [|u us IH]; intros [|v vs] E; try discriminate E; [cbn; ring|].
    injection E as E. cbn [map rdot rsum length]. rewrite (IH vs E), S_INR. ring. }
  rewrite G by exact L. unfold rmean. rewrite <- L. field. lra.
Qed.

Lemma rdot_app a b c d : length a = length c -> rdot (a ++ b) (c ++ d) = rdot a c + rdot b d.
Proof.
  revert c. induction a as [|x a IH]; intros [|y c] E; try discriminate E; cbn [app rdot]; [ring|].
  injection E as E. rewrite IH by exact E. ring.
Qed.

Lemma big (xs : list R) : (2 <= length xs)%nat -> xs <> [] /\ 2 <= INR (length xs).
Proof.
  intros H. split; [intros ->; cbn in H; lia|]. change 2 with (INR 2). now apply le_INR.
Qed.

(** Mean and variance of two sets of data together, from the means, the
    variances and the numbers of data of the two sets *)
Theorem C176_pooled bc W xs ys t :
  (2 <= length xs)%nat -> (2 <= length ys)%nat -> (Z.of_nat (length (xs ++ ys)) <= W)%Z ->
  exists mx my vx vy,
    sta_mean (vec_of xs t) = Ok (0%Z, Some mx) /\ sta_mean (vec_of ys t) = Ok (0%Z, Some my) /\
    sta_var bc W (vec_of xs t) = Ok (0%Z, Some vx) /\ sta_var bc W (vec_of ys t) = Ok (0%Z, Some vy) /\
    let n := INR (length xs) in let m := INR (length ys) in
    sta_mean (vec_of (xs ++ ys) t) = Ok (0%Z, Some ((n * mx + m * my) / (n + m))) /\
    sta_var bc W (vec_of (xs ++ ys) t) = Ok (0%Z, Some
      (((n - 1) * vx + (m - 1) * vy + n * m / (n + m) * ((mx - my) * (mx - my))) / (n + m - 1))).
Proof.
  intros Hx Hy HW. rewrite app_length in HW.
  destruct (big xs Hx) as [Nx Px]. destruct (big ys Hy) as [Ny Py].
  assert (Nz : xs ++ ys <> []) by (destruct xs; [contradiction|discriminate]).
  exists (rmean xs), (rmean ys), (variance xs), (variance ys).
  rewrite (proj1 (C51_mean xs t Nx)), (proj1 (C51_mean ys t Ny)), (proj1 (C51_mean _ t Nz)).
  rewrite !var_ok by (try rewrite app_length; lia).
  do 4 (split; [reflexivity|]). cbn zeta. split.
  - do 3 f_equal. unfold rmean. rewrite rsum_app, app_length, plus_INR. field. lra.
  - do 3 f_equal. unfold variance, covariance. rewrite !rdot_devs by auto.
    rewrite rdot_app, rsum_app, app_length, plus_INR by reflexivity. unfold rmean. field. lra.
Qed.

(** Sums of data: covariance is additive, and the variance of a sum of two
    quantities is the sum of the variances plus twice the covariance.  The sums
    are those of zsl_vec_add. *)
Theorem C176_sum bc W xs ys zs t :
  length xs = length ys -> length xs = length zs -> (2 <= length xs)%nat -> (Z.of_nat (length xs) <= W)%Z ->
  exists s vx vy cxy cxz cyz,
    vec_add bc (vec_of xs t) (vec_of ys t) (Vec (length xs) (fresh (length xs))) = Ok (0%Z, s) /\
    sta_var bc W (vec_of xs t) = Ok (0%Z, Some vx) /\ sta_var bc W (vec_of ys t) = Ok (0%Z, Some vy) /\
    sta_covar bc W (vec_of xs t) (vec_of ys t) = Ok (0%Z, Some cxy) /\
    sta_covar bc W (vec_of xs t) (vec_of zs t) = Ok (0%Z, Some cxz) /\
    sta_covar bc W (vec_of ys t) (vec_of zs t) = Ok (0%Z, Some cyz) /\
    sta_var bc W s = Ok (0%Z, Some (vx + vy + 2 * cxy)) /\
    sta_covar bc W s (vec_of zs t) = Ok (0%Z, Some (cxz + cyz)).
Proof.
  intros Ly Lz H HW. destruct (big xs H) as [Nx Px].
  assert (Ny : ys <> []) by (intros ->; cbn in Ly; lia).
  set (ss := map2 Rplus xs ys). assert (Ls : length ss = length xs) by (apply map2_length, Ly).
  assert (Ns : ss <> []) by (intros E; rewrite E in Ls; cbn in Ls; lia).
  exists (vec_of ss []), (variance xs), (variance ys), (covariance xs ys), (covariance xs zs), (covariance ys zs).
  split.
  { rewrite (C02_add _ NumR bc xs ys t t) by (try rewrite fresh_length; auto).
    rewrite (skipn_all2 (fresh (length xs))) by (rewrite fresh_length; auto). reflexivity. }
  rewrite !var_ok by lia. rewrite !covar_ok by lia. do 5 (split; [reflexivity|]).
  assert (SS : rsum ss = rsum xs + rsum ys).
  { unfold ss. clear - Ly. revert ys Ly. induction xs as [|x xs IH]; intros [|y ys] E; try discriminate E; cbn; [ring|].
    injection E as E. rewrite (IH ys E). ring. }
  assert (DD : forall us, length us = length xs -> rdot ss us = rdot xs us + rdot ys us).
  { unfold ss. clear - Ly. revert ys Ly. induction xs as [|x xs IH]; intros [|y ys] E [|u us] F; try discriminate E; try discriminate F; cbn; [ring|].
    injection E as E. injection F as F. rewrite (IH ys E us F). ring. }
  split; do 3 f_equal; unfold variance, covariance; rewrite !rdot_devs by (auto; congruence); rewrite SS, Ls, <- ?Ly.
  - rewrite (DD ss Ls), (rdot_comm xs ss), (rdot_comm ys ss), (DD xs), (DD ys), (rdot_comm ys xs) by auto. field. lra.
  - rewrite (DD zs) by auto. field. lra.
Qed.

(** Chebyshev: few data lie far from the mean, measured in standard deviations *)
Theorem C176_chebyshev bc W xs t k :
  (2 <= length xs)%nat -> (Z.of_nat (length xs) <= W)%Z ->
  exists m s, sta_mean (vec_of xs t) = Ok (0%Z, Some m) /\ sta_std_dev bc W (vec_of xs t) = Ok (0%Z, Some s) /\
    (0 < s -> 0 <= k ->
     INR (length (filter (fun x => Rleb (k * s) (Rabs (x - m))) xs)) * (k * k) <= INR (length xs) - 1).
Proof.
  intros H HW. destruct (big xs H) as [Nx Px].
  destruct (C55_variance bc W xs t H HW) as (v & _ & E & V0 & _ & S & _ & _).
  exists (rmean xs), (sqrt v). rewrite (proj1 (C51_mean xs t Nx)). split; [reflexivity|]. split; [exact S|].
  intros Hs Hk. set (s := sqrt v) in *. assert (SS : s * s = v) by (now apply sqrt_sqrt).
  assert (G : forall l, INR (length (filter (fun x => Rleb (k * s) (Rabs (x - rmean xs))) l)) * (k * k) * (s * s)
    <= rsum (map (fun x => (x - rmean xs) * (x - rmean xs)) l)).
  { induction l as [|x l IH]; [cbn; lra|]. cbn [filter map rsum].
    pose proof (Rle_0_sqr (x - rmean xs)) as Q. unfold Rsqr in Q.
    destruct (Rleb_spec (k * s) (Rabs (x - rmean xs))) as [A|A]; [|lra]. cbn [length]. rewrite S_INR.
    assert (k * s * (k * s) <= (x - rmean xs) * (x - rmean xs)); [|nra].
    replace ((x - rmean xs) * (x - rmean xs)) with (Rabs (x - rmean xs) * Rabs (x - rmean xs))
      by (rewrite <- Rabs_mult; apply Rabs_pos_eq; exact Q).
    assert (0 <= k * s) by nra. apply Rmult_le_compat; assumption. }
  specialize (G xs). rewrite <- E, SS in G. assert (0 < v) by nra. nra.
Qed.

Example C176_ex : (2 <= length [1; 2; 4])%nat /\ (Z.of_nat (length ([1; 2; 4] ++ [3; 9])) <= 4294967296)%Z /\
  variance [1; 3] = 2.
Proof. split; [cbn; lia|]. split; [cbn; lia|]. unfold variance, covariance, dev, rmean. cbn. lra. Qed.
Print Assumptions C176_pooled.
Print Assumptions C176_sum.
Print Assumptions C176_chebyshev.
