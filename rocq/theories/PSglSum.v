(** Accumulated rounding errors of the library's summation loops in single
    precision *)
From Coq Require Import ZArith Reals Lra Lia List Bool.
From Verif Require Import Base SpecVec SpecReal PFltSum NumS SpecSgl PSgl.
Import ListNotations.
Open Scope R_scope.
Set Implicit Arguments.

Lemma gams_S k : gams (S k) = (1 + us) * gams k + us.
Proof. unfold gams. cbn [pow]. ring. Qed.
Lemma gams_0 : gams 0 = 0.
Proof. unfold gams. cbn. ring. Qed.
Lemma gams_nonneg k : 0 <= gams k.
Proof. induction k; [rewrite gams_0; lra|]. rewrite gams_S. pose proof us_pos. nra. Qed.
Lemma gams_pow k : (1 + us) ^ k = 1 + gams k.
Proof. unfold gams. ring. Qed.
Lemma gams_le j k : (j <= k)%nat -> gams j <= gams k.
Proof.
  induction 1; [lra|]. eapply Rle_trans; [exact IHle|]. rewrite gams_S.
  pose proof (gams_nonneg m). pose proof us_pos. nra.
Qed.

Lemma step_err_s e s S d g A x :
  Rabs (s - S) <= e -> e <= g * A -> Rabs d <= us -> 0 <= g -> 0 <= A ->
  Rabs S <= A ->
  Rabs ((s + x) * (1 + d) - (S + x)) <= ((1 + us) * g + us) * (A + Rabs x).
Proof.
  intros H1 H2 H3 Hg HA HS.
  replace ((s + x) * (1 + d) - (S + x)) with ((s - S) * (1 + d) + d * (S + x)) by ring.
  eapply Rle_trans; [apply Rabs_triang|]. rewrite !Rabs_mult.
  assert (Rabs (1 + d) <= 1 + us).
  { eapply Rle_trans; [apply Rabs_triang|]. rewrite Rabs_R1. lra. }
  assert (Rabs (s - S) * Rabs (1 + d) <= g * A * (1 + us)).
  { apply Rmult_le_compat; try apply Rabs_pos; lra. }
  assert (Rabs d * Rabs (S + x) <= us * (A + Rabs x)).
  { apply Rmult_le_compat; try apply Rabs_pos; auto.
    eapply Rle_trans; [apply Rabs_triang|]. lra. }
  pose proof us_pos. pose proof (Rabs_pos x).
  assert (0 <= (1 + us) * g * Rabs x) by (apply Rmult_le_pos; [apply Rmult_le_pos|]; lra).
  lra.
Qed.

Lemma total_err_s (xs : list single) :
  finites (total xs) ->
  Forall finites xs /\
  Rabs (SR (total xs) - rsum (map SR xs)) <= gams (length xs) * rabs_sum (map SR xs).
Proof.
  induction xs as [|x xs IH] using rev_ind; intros H.
  - split; [constructor|]. unfold rabs_sum. cbn [total fold_left length map rsum].
    cbn [f0 NumS]. rewrite SR_zero, gams_0, Rminus_0_r, Rabs_R0. lra.
  - unfold total in *. rewrite fold_left_app in *. cbn [fold_left] in *.
    change (@fadd single NumS) with S_add in H at 1.
    change (finites (S_add (fold_left fadd xs f0) x)) in H.
    apply add_err_s in H as (H1 & H2 & d & Hd & E).
    apply IH in H1 as (F & B). split.
    + apply Forall_app. auto.
    + change (SR (fadd (fold_left fadd xs f0) x)) with (SR (S_add (fold_left fadd xs f0) x)).
      rewrite E, map_app, app_length, Nat.add_1_r. cbn [map].
      unfold rabs_sum. rewrite map_app. cbn [map]. rewrite !rsum_snoc, gams_S.
      eapply step_err_s; eauto.
      * apply Rle_refl.
      * apply gams_nonneg.
      * apply rabs_sum_nonneg.
      * apply rabs_sum_ge.
Qed.

(** Products rounded one by one *)
Lemma products_err_s (xs ys : list single) :
  length xs = length ys ->
  Forall finites (map2 fmul xs ys) ->
  Forall finites xs /\ Forall finites ys /\
  Rabs (rsum (map SR (map2 fmul xs ys)) - rdot (map SR xs) (map SR ys))
    <= us * rabs_sum (map2 Rmult (map SR xs) (map SR ys)) + INR (length xs) * etas /\
  rabs_sum (map SR (map2 fmul xs ys))
    <= (1 + us) * rabs_sum (map2 Rmult (map SR xs) (map SR ys)) + INR (length xs) * etas.
Proof.
  revert ys; induction xs as [|x xs IH]; intros [|y ys] L; try discriminate.
  - intros _. unfold rabs_sum. cbn.
    refine (conj (Forall_nil _) (conj (Forall_nil _) (conj _ _)));
      rewrite ?Rminus_0_r, ?Rabs_R0; lra.
  - cbn [map2]. intros F. inversion F as [|z zs Fz Fzs]; subst.
    change (finites (S_mul x y)) in Fz.
    apply mul_err_s in Fz as (Fx & Fy & d & e & Hd & He & E).
    destruct (IH ys) as (F1 & F2 & B1 & B2); auto.
    change (fmul x y) with (S_mul x y).
    unfold rabs_sum in *. cbn [map map2 rsum rdot length]. rewrite E, S_INR.
    refine (conj (Forall_cons _ Fx F1) (conj (Forall_cons _ Fy F2) (conj _ _))).
    + match goal with |- Rabs ?t <= _ => match type of B1 with Rabs ?b <= _ =>
        replace t with (b + (SR x * SR y * d + e)) by ring end end.
      eapply Rle_trans; [apply Rabs_triang|].
      assert (Rabs (SR x * SR y * d + e) <= us * Rabs (SR x * SR y) + etas).
      { eapply Rle_trans; [apply Rabs_triang|]. rewrite (Rabs_mult (SR x * SR y)).
        pose proof (Rabs_pos (SR x * SR y)). nra. }
      lra.
    + assert (Rabs (SR x * SR y * (1 + d) + e) <= (1 + us) * Rabs (SR x * SR y) + etas).
      { eapply Rle_trans; [apply Rabs_triang|]. rewrite (Rabs_mult (SR x * SR y)).
        assert (Rabs (1 + d) <= 1 + us).
        { eapply Rle_trans; [apply Rabs_triang|]. rewrite Rabs_R1. lra. }
        pose proof (Rabs_pos (SR x * SR y)). nra. }
      lra.
Qed.

Lemma dot_err_s (xs ys : list single) :
  length xs = length ys ->
  finites (dot xs ys) ->
  Forall finites xs /\ Forall finites ys /\
  Rabs (SR (dot xs ys) - rdot (map SR xs) (map SR ys))
    <= dot_bounds (length xs) (rabs_sum (map2 Rmult (map SR xs) (map SR ys))).
Proof.
  intros L H. unfold dot in *. fold (total (map2 fmul xs ys)) in *.
  apply total_err_s in H as (F & B).
  apply products_err_s in F as (F1 & F2 & B1 & B2); auto. repeat split; auto.
  rewrite map2_length in B by auto.
  match type of B with Rabs (?a - ?b) <= _ => match type of B1 with Rabs (_ - ?c) <= _ =>
    replace (a - c) with ((a - b) + (b - c)) by ring end end.
  eapply Rle_trans; [apply Rabs_triang|]. unfold dot_bounds. rewrite gams_S.
  set (A := rabs_sum (map2 Rmult (map SR xs) (map SR ys))) in *.
  set (n := length xs) in *.
  set (P := rabs_sum (map SR (map2 fmul xs ys))) in *.
  assert (gams n * P <= gams n * ((1 + us) * A + INR n * etas))
    by (apply Rmult_le_compat_l; [apply gams_nonneg|auto]).
  lra.
Qed.

(** ** Arithmetic mean *)
Lemma mean_err_s (xs : list single) :
  xs <> [] -> (Z.of_nat (length xs) < 2 ^ 24)%Z ->
  let m := S_div (total xs) (S_of_Z (Z.of_nat (length xs))) in
  finites m ->
  Forall finites xs /\
  Rabs (SR m - rmean (map SR xs))
    <= gams (S (length xs)) * rmean (map Rabs (map SR xs)) + etas.
Proof.
  intros Hne Hn m Hm. destruct (SR_of_nat _ Hn) as (_ & En).
  set (n := length xs) in *.
  assert (Pn : 0 < INR n) by (apply lt_0_INR; unfold n; destruct xs; [contradiction|cbn; lia]).
  apply div_err_s in Hm; [|rewrite En; lra].
  destruct Hm as (Ft & d & e & Hd & He & E). apply total_err_s in Ft as (F & B).
  split; auto. fold m in E. rewrite E, En. unfold rmean. rewrite !map_length. fold n.
  fold (rabs_sum (map SR xs)). fold n in B.
  set (T := SR (total xs)) in *. set (S := rsum (map SR xs)) in *.
  set (A := rabs_sum (map SR xs)) in *.
  assert (HS : Rabs S <= A) by apply rabs_sum_ge.
  rewrite gams_S. set (g := gams n) in *. pose proof (gams_nonneg n : 0 <= g) as Hg. clearbody g.
  pose proof us_pos.
  replace (T / INR n * (1 + d) + e - S / INR n)
    with (((T - S) * (1 + d) + d * S) / INR n + e) by (unfold Rdiv; ring).
  eapply Rle_trans; [apply Rabs_triang|]. apply Rplus_le_compat; auto.
  unfold Rdiv. rewrite Rabs_mult, (Rabs_pos_eq (/ INR n)) by (apply Rlt_le, Rinv_0_lt_compat; auto).
  rewrite <- Rmult_assoc.
  apply Rmult_le_compat_r; [apply Rlt_le, Rinv_0_lt_compat; auto|].
  eapply Rle_trans; [apply Rabs_triang|]. rewrite !Rabs_mult.
  assert (Rabs (1 + d) <= 1 + us).
  { eapply Rle_trans; [apply Rabs_triang|]. rewrite Rabs_R1. lra. }
  assert (Rabs (T - S) * Rabs (1 + d) <= g * A * (1 + us)).
  { apply Rmult_le_compat; try apply Rabs_pos; lra. }
  assert (Rabs d * Rabs S <= us * A) by (apply Rmult_le_compat; try apply Rabs_pos; lra).
  lra.
Qed.

(** ** Norm *)
Lemma norm_step_s N t d g a :
  Rabs (t - N) <= g * N + a -> Rabs d <= us -> 0 <= N ->
  Rabs (t * (1 + d) - N) <= ((1 + us) * g + us) * N + (1 + us) * a.
Proof.
  intros B Hd HN. replace (t * (1 + d) - N) with ((t - N) * (1 + d) + d * N) by ring.
  eapply Rle_trans; [apply Rabs_triang|]. rewrite !Rabs_mult, (Rabs_pos_eq N) by auto.
  assert (Rabs (1 + d) <= 1 + us).
  { eapply Rle_trans; [apply Rabs_triang|]. rewrite Rabs_R1. lra. }
  pose proof us_pos. pose proof (Rabs_pos (t - N)).
  assert (Rabs (t - N) * Rabs (1 + d) <= (g * N + a) * (1 + us)).
  { apply Rmult_le_compat; try apply Rabs_pos; lra. }
  assert (Rabs d * N <= us * N) by (apply Rmult_le_compat_r; auto).
  lra.
Qed.

Lemma norm_err_s (xs : list single) :
  finites (S_sqrt (dot xs xs)) ->
  Forall finites xs /\
  Rabs (SR (S_sqrt (dot xs xs)) - rnorm (map SR xs))
    <= gams (S (S (length xs))) * rnorm (map SR xs) + tinys (length xs).
Proof.
  intros H. apply sqrt_err_s in H as (Fd & Pd & d & Hd & E).
  apply dot_err_s in Fd as (F & _ & B); auto. split; auto.
  rewrite abs_products, abs_squares in B. unfold dot_bounds in B.
  rewrite E, gams_S. unfold rnorm, tinys. apply norm_step_s; auto; [|apply sqrt_pos].
  apply sqrt_near; auto.
  - apply rdot_sq_nonneg.
  - apply gams_nonneg.
  - pose proof (gams_nonneg (length xs)). pose proof etas_pos. pose proof (pos_INR (length xs)).
    apply Rmult_le_pos; [apply Rmult_le_pos|]; lra.
Qed.

(** Differences rounded one by one *)
Lemma diff_err_s (xs ys : list single) :
  length xs = length ys ->
  Forall finites (map2 fsub xs ys) ->
  Forall finites xs /\ Forall finites ys /\
  rdot (map SR (map2 fsub xs ys)) (map SR (map2 fsub xs ys))
    <= (1 + us) * (1 + us)
       * rdot (map2 Rminus (map SR xs) (map SR ys)) (map2 Rminus (map SR xs) (map SR ys)) /\
  (1 - us) * (1 - us)
    * rdot (map2 Rminus (map SR xs) (map SR ys)) (map2 Rminus (map SR xs) (map SR ys))
    <= rdot (map SR (map2 fsub xs ys)) (map SR (map2 fsub xs ys)).
Proof.
  assert (U : us < 1).
  { unfold us. rewrite <- Rinv_1. apply Rinv_lt_contravar; [|apply Rlt_pow_R1; [lra|lia]].
    rewrite Rmult_1_l. apply pow_lt. lra. }
  pose proof us_pos as U0.
  revert ys; induction xs as [|x xs IH]; intros [|y ys] L; try discriminate.
  - intros _. cbn. refine (conj (Forall_nil _) (conj (Forall_nil _) (conj _ _))); lra.
  - cbn [map2]. intros F. inversion F as [|z zs Fz Fzs]; subst.
    change (finites (S_sub x y)) in Fz.
    apply sub_err_s in Fz as (Fx & Fy & d & Hd & E).
    destruct (IH ys) as (F1 & F2 & B1 & B2); auto.
    change (fsub x y) with (S_sub x y).
    cbn [map map2 rdot]. rewrite E.
    refine (conj (Forall_cons _ Fx F1) (conj (Forall_cons _ Fy F2) _)).
    set (t := SR x - SR y) in *.
    assert (T : 0 <= t * t) by apply Rle_0_sqr.
    assert (D : - us <= d <= us) by (revert Hd; unfold Rabs; destruct Rcase_abs; lra).
    replace (t * (1 + d) * (t * (1 + d))) with ((1 + d) * (1 + d) * (t * t)) by ring.
    assert ((1 + d) * (1 + d) <= (1 + us) * (1 + us)) by nra.
    assert ((1 - us) * (1 - us) <= (1 + d) * (1 + d)) by nra.
    split; nra.
Qed.

Lemma dist_err_s (xs ys : list single) :
  length xs = length ys ->
  let ds := map2 fsub xs ys in
  let D := rnorm (map2 Rminus (map SR xs) (map SR ys)) in
  finites (S_sqrt (dot ds ds)) ->
  Forall finites xs /\ Forall finites ys /\
  Rabs (SR (S_sqrt (dot ds ds)) - D)
    <= gams (S (S (S (length xs)))) * D + tinys (length xs).
Proof.
  intros L ds D H. apply norm_err_s in H as (F & B).
  apply diff_err_s in F as (F1 & F2 & B1 & B2); auto. split; [|split]; auto.
  fold ds in B1, B2. assert (Ln : length ds = length xs) by (apply map2_length; auto).
  rewrite Ln in B. set (N := rnorm (map SR ds)) in *.
  assert (U : us < 1).
  { unfold us. rewrite <- Rinv_1. apply Rinv_lt_contravar; [|apply Rlt_pow_R1; [lra|lia]].
    rewrite Rmult_1_l. apply pow_lt. lra. }
  pose proof us_pos as U0. pose proof (rdot_sq_nonneg (map2 Rminus (map SR xs) (map SR ys))) as P.
  assert (HN : N <= (1 + us) * D).
  { unfold N, D, rnorm. rewrite <- (sqrt_square (1 + us)) by lra.
    rewrite <- sqrt_mult by nra. apply sqrt_le_1_alt. exact B1. }
  assert (HN' : (1 - us) * D <= N).
  { unfold N, D, rnorm. rewrite <- (sqrt_square (1 - us)) by lra.
    rewrite <- sqrt_mult by nra. apply sqrt_le_1_alt. exact B2. }
  assert (HD : 0 <= D) by apply sqrt_pos.
  set (g := gams (S (S (length xs)))) in *.
  assert (G : 0 <= g) by apply gams_nonneg. rewrite gams_S. fold g.
  set (v := SR (S_sqrt (dot ds ds))) in *. set (t := tinys (length xs)) in *.
  replace (v - D) with ((v - N) + (N - D)) by ring.
  eapply Rle_trans; [apply Rabs_triang|].
  assert (Rabs (N - D) <= us * D) by (unfold Rabs; destruct Rcase_abs; lra).
  assert (g * N <= g * ((1 + us) * D)) by (apply Rmult_le_compat_l; auto).
  lra.
Qed.

Lemma gams_bounds (k : nat) :
  INR k * us < 1 -> INR k * us <= gams k <= INR k * us / (1 - INR k * us).
Proof.
  intros Hk. pose proof us_pos as U. split.
  - clear Hk. induction k; [rewrite gams_0; cbn; lra|]. rewrite gams_S, S_INR.
    pose proof (gams_nonneg k). nra.
  - assert (P : (1 + us) ^ k * (1 - INR k * us) <= 1).
    { assert (forall j, (j <= k)%nat -> (1 + us) ^ j * (1 - INR j * us) <= 1) as Q.
      { induction j; intros Hj; [cbn; lra|]. specialize (IHj ltac:(lia)).
        cbn [pow]. rewrite S_INR.
        assert (0 <= (1 + us) ^ j) by (apply pow_le; lra).
        assert ((1 + us) * (1 - (INR j + 1) * us) <= 1 - INR j * us).
        { pose proof (pos_INR j). nra. }
        replace ((1 + us) * (1 + us) ^ j * (1 - (INR j + 1) * us))
          with ((1 + us) ^ j * ((1 + us) * (1 - (INR j + 1) * us))) by ring.
        eapply Rle_trans; [apply Rmult_le_compat_l; eauto|]. auto. }
      now apply Q. }
    unfold gams. apply Rmult_le_reg_r with (1 - INR k * us); [lra|].
    unfold Rdiv. rewrite Rmult_assoc, Rinv_l by lra. lra.
Qed.

