(** Accumulated rounding errors of the library's summation loops *)
From Coq Require Import Floats.PrimFloat.
From Coq Require Import ZArith Reals Lra Lia List Bool.
From Verif Require Import Base NumF SpecVec SpecReal SpecFlt PFlt.
Import ListNotations.
Open Scope R_scope.
Set Implicit Arguments.

Lemma gam_S k : gam (S k) = (1 + uu) * gam k + uu.
Proof. unfold gam. cbn [pow]. ring. Qed.
Lemma gam_0 : gam 0 = 0.
Proof. unfold gam. cbn. ring. Qed.
Lemma gam_nonneg k : 0 <= gam k.
Proof. induction k; [rewrite gam_0; lra|]. rewrite gam_S. pose proof uu_pos. nra. Qed.
Lemma gam_pow k : (1 + uu) ^ k = 1 + gam k.
Proof. unfold gam. ring. Qed.
Lemma gam_le j k : (j <= k)%nat -> gam j <= gam k.
Proof.
  induction 1; [lra|]. eapply Rle_trans; [exact IHle|]. rewrite gam_S.
  pose proof (gam_nonneg m). pose proof uu_pos. nra.
Qed.

Definition rabs_sum (xs : list R) : R := rsum (map Rabs xs).

Lemma rsum_snoc xs x : rsum (xs ++ [x]) = rsum xs + x.
Proof. induction xs; cbn; [ring|]. rewrite IHxs. ring. Qed.

Lemma rabs_sum_ge xs : Rabs (rsum xs) <= rabs_sum xs.
Proof.
  unfold rabs_sum. induction xs; cbn; [rewrite Rabs_R0; lra|].
  eapply Rle_trans; [apply Rabs_triang|]. lra.
Qed.
Lemma rabs_sum_nonneg xs : 0 <= rabs_sum xs.
Proof. eapply Rle_trans; [apply Rabs_pos|apply rabs_sum_ge]. Qed.

Lemma step_err e s S d g A x :
  Rabs (s - S) <= e -> e <= g * A -> Rabs d <= uu -> 0 <= g -> 0 <= A ->
  Rabs S <= A ->
  Rabs ((s + x) * (1 + d) - (S + x)) <= ((1 + uu) * g + uu) * (A + Rabs x).
Proof.
  intros H1 H2 H3 Hg HA HS.
  replace ((s + x) * (1 + d) - (S + x)) with ((s - S) * (1 + d) + d * (S + x)) by ring.
  eapply Rle_trans; [apply Rabs_triang|]. rewrite !Rabs_mult.
  assert (Rabs (1 + d) <= 1 + uu).
  { eapply Rle_trans; [apply Rabs_triang|]. rewrite Rabs_R1. lra. }
  assert (Rabs (s - S) * Rabs (1 + d) <= g * A * (1 + uu)).
  { apply Rmult_le_compat; try apply Rabs_pos; lra. }
  assert (Rabs d * Rabs (S + x) <= uu * (A + Rabs x)).
  { apply Rmult_le_compat; try apply Rabs_pos; auto.
    eapply Rle_trans; [apply Rabs_triang|]. lra. }
  pose proof uu_pos. pose proof (Rabs_pos x).
  assert (0 <= (1 + uu) * g * Rabs x) by (apply Rmult_le_pos; [apply Rmult_le_pos|]; lra).
  lra.
Qed.

Lemma total_err (xs : list float) :
  finite (total xs) ->
  Forall finite xs /\
  Rabs (FR (total xs) - rsum (map FR xs)) <= gam (length xs) * rabs_sum (map FR xs).
Proof.
  induction xs as [|x xs IH] using rev_ind; intros H.
  - split; [constructor|]. unfold rabs_sum. cbn [total fold_left length map rsum].
    cbn [f0 NumF]. rewrite FR_zero, gam_0, Rminus_0_r, Rabs_R0. lra.
  - unfold total in *. rewrite fold_left_app in *. cbn [fold_left] in *.
    change (@fadd float NumF) with PrimFloat.add in H at 1.
    change (finite (fold_left fadd xs f0 + x)%float) in H.
    apply add_err in H as (H1 & H2 & d & Hd & E).
    apply IH in H1 as (F & B). split.
    + apply Forall_app. auto.
    + change (FR (fadd (fold_left fadd xs f0) x)) with (FR (fold_left fadd xs f0 + x)%float).
      rewrite E, map_app, app_length, Nat.add_1_r. cbn [map].
      unfold rabs_sum. rewrite map_app. cbn [map]. rewrite !rsum_snoc, gam_S.
      eapply step_err; eauto.
      * apply Rle_refl.
      * apply gam_nonneg.
      * apply rabs_sum_nonneg.
      * apply rabs_sum_ge.
Qed.

(** Products rounded one by one *)
Lemma products_err (xs ys : list float) :
  length xs = length ys ->
  Forall finite (map2 fmul xs ys) ->
  Forall finite xs /\ Forall finite ys /\
  Rabs (rsum (map FR (map2 fmul xs ys)) - rdot (map FR xs) (map FR ys))
    <= uu * rabs_sum (map2 Rmult (map FR xs) (map FR ys)) + INR (length xs) * eta /\
  rabs_sum (map FR (map2 fmul xs ys))
    <= (1 + uu) * rabs_sum (map2 Rmult (map FR xs) (map FR ys)) + INR (length xs) * eta.
Proof.
  revert ys; induction xs as [|x xs IH]; intros [|y ys] L; try discriminate.
  - intros _. unfold rabs_sum. cbn.
    refine (conj (Forall_nil _) (conj (Forall_nil _) (conj _ _)));
      rewrite ?Rminus_0_r, ?Rabs_R0; lra.
  - cbn [map2]. intros F. inversion F as [|z zs Fz Fzs]; subst.
    change (finite (x * y)%float) in Fz.
    apply mul_err in Fz as (Fx & Fy & d & e & Hd & He & E).
    destruct (IH ys) as (F1 & F2 & B1 & B2); auto.
    change (fmul x y) with (x * y)%float.
    unfold rabs_sum in *. cbn [map map2 rsum rdot length]. rewrite E, S_INR.
    refine (conj (Forall_cons _ Fx F1) (conj (Forall_cons _ Fy F2) (conj _ _))).
    + match goal with |- Rabs ?t <= _ => match type of B1 with Rabs ?b <= _ =>
        replace t with (b + (FR x * FR y * d + e)) by ring end end.
      eapply Rle_trans; [apply Rabs_triang|].
      assert (Rabs (FR x * FR y * d + e) <= uu * Rabs (FR x * FR y) + eta).
      { eapply Rle_trans; [apply Rabs_triang|]. rewrite (Rabs_mult (FR x * FR y)).
        pose proof (Rabs_pos (FR x * FR y)). nra. }
      lra.
    + assert (Rabs (FR x * FR y * (1 + d) + e) <= (1 + uu) * Rabs (FR x * FR y) + eta).
      { eapply Rle_trans; [apply Rabs_triang|]. rewrite (Rabs_mult (FR x * FR y)).
        assert (Rabs (1 + d) <= 1 + uu).
        { eapply Rle_trans; [apply Rabs_triang|]. rewrite Rabs_R1. lra. }
        pose proof (Rabs_pos (FR x * FR y)). nra. }
      lra.
Qed.

Lemma map2_length {A B C} (f : A -> B -> C) xs ys :
  length xs = length ys -> length (map2 f xs ys) = length xs.
Proof. revert ys; induction xs; intros [|y ys]; cbn; intros; try discriminate; auto. Qed.

Lemma dot_err (xs ys : list float) :
  length xs = length ys ->
  finite (dot xs ys) ->
  Forall finite xs /\ Forall finite ys /\
  Rabs (FR (dot xs ys) - rdot (map FR xs) (map FR ys))
    <= dot_bound (length xs) (rabs_sum (map2 Rmult (map FR xs) (map FR ys))).
Proof.
  intros L H. unfold dot in *. fold (total (map2 fmul xs ys)) in *.
  apply total_err in H as (F & B).
  apply products_err in F as (F1 & F2 & B1 & B2); auto. repeat split; auto.
  rewrite map2_length in B by auto.
  match type of B with Rabs (?a - ?b) <= _ => match type of B1 with Rabs (_ - ?c) <= _ =>
    replace (a - c) with ((a - b) + (b - c)) by ring end end.
  eapply Rle_trans; [apply Rabs_triang|]. unfold dot_bound. rewrite gam_S.
  set (A := rabs_sum (map2 Rmult (map FR xs) (map FR ys))) in *.
  set (n := length xs) in *.
  set (P := rabs_sum (map FR (map2 fmul xs ys))) in *.
  assert (gam n * P <= gam n * ((1 + uu) * A + INR n * eta))
    by (apply Rmult_le_compat_l; [apply gam_nonneg|auto]).
  lra.
Qed.

Lemma abs_products (xs ys : list R) :
  rabs_sum (map2 Rmult xs ys) = rdot (map Rabs xs) (map Rabs ys).
Proof.
  unfold rabs_sum. revert ys; induction xs as [|x xs IH]; intros [|y ys]; cbn; auto.
  now rewrite Rabs_mult, IH.
Qed.

Lemma abs_squares (xs : list R) : rdot (map Rabs xs) (map Rabs xs) = rdot xs xs.
Proof.
  induction xs as [|x xs IH]; cbn; auto. rewrite IH, <- Rabs_mult, Rabs_pos_eq; auto.
  apply Rle_0_sqr.
Qed.

Lemma rdot_sq_nonneg (xs : list R) : 0 <= rdot xs xs.
Proof. induction xs; cbn; [lra|]. pose proof (Rle_0_sqr a). unfold Rsqr in *. lra. Qed.

(** ** Arithmetic mean *)
Lemma mean_err (xs : list float) :
  xs <> [] -> (Z.of_nat (length xs) < 2 ^ 53)%Z ->
  let m := (total xs / F_of_Z (Z.of_nat (length xs)))%float in
  finite m ->
  Forall finite xs /\
  Rabs (FR m - rmean (map FR xs))
    <= gam (S (length xs)) * rmean (map Rabs (map FR xs)) + eta.
Proof.
  intros Hne Hn m Hm. destruct (FR_of_nat _ Hn) as (_ & En).
  set (n := length xs) in *.
  assert (Pn : 0 < INR n) by (apply lt_0_INR; unfold n; destruct xs; [contradiction|cbn; lia]).
  apply div_err in Hm; [|rewrite En; lra].
  destruct Hm as (Ft & d & e & Hd & He & E). apply total_err in Ft as (F & B).
  split; auto. fold m in E. rewrite E, En. unfold rmean. rewrite !map_length. fold n.
  fold (rabs_sum (map FR xs)). fold n in B.
  set (T := FR (total xs)) in *. set (S := rsum (map FR xs)) in *.
  set (A := rabs_sum (map FR xs)) in *.
  assert (HS : Rabs S <= A) by apply rabs_sum_ge.
  rewrite gam_S. set (g := gam n) in *. pose proof (gam_nonneg n : 0 <= g) as Hg. clearbody g.
  pose proof uu_pos.
  replace (T / INR n * (1 + d) + e - S / INR n)
    with (((T - S) * (1 + d) + d * S) / INR n + e) by (unfold Rdiv; ring).
  eapply Rle_trans; [apply Rabs_triang|]. apply Rplus_le_compat; auto.
  unfold Rdiv. rewrite Rabs_mult, (Rabs_pos_eq (/ INR n)) by (apply Rlt_le, Rinv_0_lt_compat; auto).
  rewrite <- Rmult_assoc.
  apply Rmult_le_compat_r; [apply Rlt_le, Rinv_0_lt_compat; auto|].
  eapply Rle_trans; [apply Rabs_triang|]. rewrite !Rabs_mult.
  assert (Rabs (1 + d) <= 1 + uu).
  { eapply Rle_trans; [apply Rabs_triang|]. rewrite Rabs_R1. lra. }
  assert (Rabs (T - S) * Rabs (1 + d) <= g * A * (1 + uu)).
  { apply Rmult_le_compat; try apply Rabs_pos; lra. }
  assert (Rabs d * Rabs S <= uu * A) by (apply Rmult_le_compat; try apply Rabs_pos; lra).
  lra.
Qed.

(** ** Norm *)
Lemma sqrt_add_le a b : 0 <= a -> 0 <= b -> sqrt (a + b) <= sqrt a + sqrt b.
Proof.
  intros Ha Hb. pose proof (sqrt_pos a). pose proof (sqrt_pos b).
  rewrite <- (sqrt_square (sqrt a + sqrt b)) by lra. apply sqrt_le_1_alt.
  replace ((sqrt a + sqrt b) * (sqrt a + sqrt b))
    with (sqrt a * sqrt a + sqrt b * sqrt b + 2 * (sqrt a * sqrt b)) by ring.
  rewrite !sqrt_sqrt by auto. assert (0 <= sqrt a * sqrt b) by (apply Rmult_le_pos; auto). lra.
Qed.

Lemma sqrt_near s S g h :
  0 <= s -> 0 <= S -> 0 <= g -> 0 <= h -> Rabs (s - S) <= g * S + h ->
  Rabs (sqrt s - sqrt S) <= g * sqrt S + sqrt h.
Proof.
  intros Hs HS Hg Hh B.
  assert (B1 : s <= (1 + g) * S + h) by (revert B; unfold Rabs; destruct Rcase_abs; lra).
  assert (B2 : S <= s + (g * S + h)) by (revert B; unfold Rabs; destruct Rcase_abs; lra).
  pose proof (sqrt_pos s). pose proof (sqrt_pos S). pose proof (sqrt_pos h).
  assert (U : sqrt s <= (1 + g) * sqrt S + sqrt h).
  { eapply Rle_trans; [apply sqrt_le_1_alt; exact B1|].
    eapply Rle_trans; [apply sqrt_add_le; auto; apply Rmult_le_pos; lra|].
    apply Rplus_le_compat_r. rewrite sqrt_mult by lra. apply Rmult_le_compat_r; auto.
    rewrite <- (sqrt_square (1 + g)) at 2 by lra. apply sqrt_le_1_alt. nra. }
  assert (V : sqrt S <= sqrt s + g * sqrt S + sqrt h).
  { destruct (Rle_lt_dec 1 g) as [G|G]; [nra|].
    assert (C : (1 - g) * S <= s + h) by lra.
    assert (sqrt ((1 - g) * S) <= sqrt s + sqrt h).
    { eapply Rle_trans; [apply sqrt_le_1_alt; exact C|]. apply sqrt_add_le; auto. }
    assert ((1 - g) * sqrt S <= sqrt ((1 - g) * S)).
    { rewrite sqrt_mult by lra. apply Rmult_le_compat_r; auto.
      rewrite <- (sqrt_square (1 - g)) at 1 by lra. apply sqrt_le_1_alt. nra. }
    lra. }
  unfold Rabs; destruct Rcase_abs; lra.
Qed.

Lemma norm_step N t d g a :
  Rabs (t - N) <= g * N + a -> Rabs d <= uu -> 0 <= N ->
  Rabs (t * (1 + d) - N) <= ((1 + uu) * g + uu) * N + (1 + uu) * a.
Proof.
  intros B Hd HN. replace (t * (1 + d) - N) with ((t - N) * (1 + d) + d * N) by ring.
  eapply Rle_trans; [apply Rabs_triang|]. rewrite !Rabs_mult, (Rabs_pos_eq N) by auto.
  assert (Rabs (1 + d) <= 1 + uu).
  { eapply Rle_trans; [apply Rabs_triang|]. rewrite Rabs_R1. lra. }
  pose proof uu_pos. pose proof (Rabs_pos (t - N)).
  assert (Rabs (t - N) * Rabs (1 + d) <= (g * N + a) * (1 + uu)).
  { apply Rmult_le_compat; try apply Rabs_pos; lra. }
  assert (Rabs d * N <= uu * N) by (apply Rmult_le_compat_r; auto).
  lra.
Qed.

Lemma norm_err (xs : list float) :
  finite (PrimFloat.sqrt (dot xs xs)) ->
  Forall finite xs /\
  Rabs (FR (PrimFloat.sqrt (dot xs xs)) - rnorm (map FR xs))
    <= gam (S (S (length xs))) * rnorm (map FR xs) + tiny (length xs).
Proof.
  intros H. apply sqrt_err in H as (Fd & Pd & d & Hd & E).
  apply dot_err in Fd as (F & _ & B); auto. split; auto.
  rewrite abs_products, abs_squares in B. unfold dot_bound in B.
  rewrite E, gam_S. unfold rnorm, tiny. apply norm_step; auto; [|apply sqrt_pos].
  apply sqrt_near; auto.
  - apply rdot_sq_nonneg.
  - apply gam_nonneg.
  - pose proof (gam_nonneg (length xs)). pose proof eta_pos. pose proof (pos_INR (length xs)).
    apply Rmult_le_pos; [apply Rmult_le_pos|]; lra.
Qed.

(** Differences rounded one by one *)
Lemma diff_err (xs ys : list float) :
  length xs = length ys ->
  Forall finite (map2 fsub xs ys) ->
  Forall finite xs /\ Forall finite ys /\
  rdot (map FR (map2 fsub xs ys)) (map FR (map2 fsub xs ys))
    <= (1 + uu) * (1 + uu)
       * rdot (map2 Rminus (map FR xs) (map FR ys)) (map2 Rminus (map FR xs) (map FR ys)) /\
  (1 - uu) * (1 - uu)
    * rdot (map2 Rminus (map FR xs) (map FR ys)) (map2 Rminus (map FR xs) (map FR ys))
    <= rdot (map FR (map2 fsub xs ys)) (map FR (map2 fsub xs ys)).
Proof.
  assert (U : uu < 1).
  { unfold uu. rewrite <- Rinv_1. apply Rinv_lt_contravar; [|apply Rlt_pow_R1; [lra|lia]].
    rewrite Rmult_1_l. apply pow_lt. lra. }
  pose proof uu_pos as U0.
  revert ys; induction xs as [|x xs IH]; intros [|y ys] L; try discriminate.
  - intros _. cbn. refine (conj (Forall_nil _) (conj (Forall_nil _) (conj _ _))); lra.
  - cbn [map2]. intros F. inversion F as [|z zs Fz Fzs]; subst.
    change (finite (x - y)%float) in Fz.
    apply sub_err in Fz as (Fx & Fy & d & Hd & E).
    destruct (IH ys) as (F1 & F2 & B1 & B2); auto.
    change (fsub x y) with (x - y)%float.
    cbn [map map2 rdot]. rewrite E.
    refine (conj (Forall_cons _ Fx F1) (conj (Forall_cons _ Fy F2) _)).
    set (t := FR x - FR y) in *.
    assert (T : 0 <= t * t) by apply Rle_0_sqr.
    assert (D : - uu <= d <= uu) by (revert Hd; unfold Rabs; destruct Rcase_abs; lra).
    replace (t * (1 + d) * (t * (1 + d))) with ((1 + d) * (1 + d) * (t * t)) by ring.
    assert ((1 + d) * (1 + d) <= (1 + uu) * (1 + uu)) by nra.
    assert ((1 - uu) * (1 - uu) <= (1 + d) * (1 + d)) by nra.
    split; nra.
Qed.

Lemma dist_err (xs ys : list float) :
  length xs = length ys ->
  let ds := map2 fsub xs ys in
  let D := rnorm (map2 Rminus (map FR xs) (map FR ys)) in
  finite (PrimFloat.sqrt (dot ds ds)) ->
  Forall finite xs /\ Forall finite ys /\
  Rabs (FR (PrimFloat.sqrt (dot ds ds)) - D)
    <= gam (S (S (S (length xs)))) * D + tiny (length xs).
Proof.
  intros L ds D H. apply norm_err in H as (F & B).
  apply diff_err in F as (F1 & F2 & B1 & B2); auto. split; [|split]; auto.
  fold ds in B1, B2. assert (Ln : length ds = length xs) by (apply map2_length; auto).
  rewrite Ln in B. set (N := rnorm (map FR ds)) in *.
  assert (U : uu < 1).
  { unfold uu. rewrite <- Rinv_1. apply Rinv_lt_contravar; [|apply Rlt_pow_R1; [lra|lia]].
    rewrite Rmult_1_l. apply pow_lt. lra. }
  pose proof uu_pos as U0. pose proof (rdot_sq_nonneg (map2 Rminus (map FR xs) (map FR ys))) as P.
  assert (HN : N <= (1 + uu) * D).
  { unfold N, D, rnorm. rewrite <- (sqrt_square (1 + uu)) by lra.
    rewrite <- sqrt_mult by nra. apply sqrt_le_1_alt. exact B1. }
  assert (HN' : (1 - uu) * D <= N).
  { unfold N, D, rnorm. rewrite <- (sqrt_square (1 - uu)) by lra.
    rewrite <- sqrt_mult by nra. apply sqrt_le_1_alt. exact B2. }
  assert (HD : 0 <= D) by apply sqrt_pos.
  set (g := gam (S (S (length xs)))) in *.
  assert (G : 0 <= g) by apply gam_nonneg. rewrite gam_S. fold g.
  set (v := FR (PrimFloat.sqrt (dot ds ds))) in *. set (t := tiny (length xs)) in *.
  replace (v - D) with ((v - N) + (N - D)) by ring.
  eapply Rle_trans; [apply Rabs_triang|].
  assert (Rabs (N - D) <= uu * D) by (unfold Rabs; destruct Rcase_abs; lra).
  assert (g * N <= g * ((1 + uu) * D)) by (apply Rmult_le_compat_l; auto).
  lra.
Qed.

Lemma gam_bounds (k : nat) :
  INR k * uu < 1 -> INR k * uu <= gam k <= INR k * uu / (1 - INR k * uu).
Proof.
  intros Hk. pose proof uu_pos as U. split.
  - clear Hk. induction k; [rewrite gam_0; cbn; lra|]. rewrite gam_S, S_INR.
    pose proof (gam_nonneg k). nra.
  - assert (P : (1 + uu) ^ k * (1 - INR k * uu) <= 1).
    { assert (forall j, (j <= k)%nat -> (1 + uu) ^ j * (1 - INR j * uu) <= 1) as Q.
      { induction j; intros Hj; [cbn; lra|]. specialize (IHj ltac:(lia)).
        cbn [pow]. rewrite S_INR.
        assert (0 <= (1 + uu) ^ j) by (apply pow_le; lra).
        assert ((1 + uu) * (1 - (INR j + 1) * uu) <= 1 - INR j * uu).
        { pose proof (pos_INR j). nra. }
        replace ((1 + uu) * (1 + uu) ^ j * (1 - (INR j + 1) * uu))
          with ((1 + uu) ^ j * ((1 + uu) * (1 - (INR j + 1) * uu))) by ring.
        eapply Rle_trans; [apply Rmult_le_compat_l; eauto|]. auto. }
      now apply Q. }
    unfold gam. apply Rmult_le_reg_r with (1 - INR k * uu); [lra|].
    unfold Rdiv. rewrite Rmult_assoc, Rinv_l by lra. lra.
Qed.

Lemma component_le (xs : list R) x : In x xs -> Rabs x <= rnorm xs.
Proof.
  intros H. unfold rnorm. rewrite <- sqrt_Rsqr_abs. apply sqrt_le_1_alt. unfold Rsqr.
  induction xs as [|a xs IH]; [contradiction|]. cbn [rdot].
  destruct H as [->|H].
  - pose proof (rdot_sq_nonneg xs). lra.
  - apply IH in H. pose proof (Rle_0_sqr a). unfold Rsqr in *. lra.
Qed.
