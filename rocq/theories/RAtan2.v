(** atan2 is the angle of a point. *)
From Coq Require Import Reals Lra.
From Verif Require Import LibmR.
Local Open Scope R_scope.

Definition hyp (x y : R) : R := sqrt (x * x + y * y).
Lemma hyp_nonneg x y : 0 <= hyp x y.
Proof. apply sqrt_pos. Qed.
Lemma hyp_sqr x y : hyp x y * hyp x y = x * x + y * y.
Proof. apply sqrt_sqrt. nra. Qed.
Lemma hyp_pos x y : x <> 0 \/ y <> 0 -> 0 < hyp x y.
Proof. intros H. apply sqrt_lt_R0. destruct H as [H|H]; nra. Qed.

Lemma hyp_atan x y : x <> 0 -> hyp x y = Rabs x * sqrt (1 + (y / x)²).
Proof.
  intros H. unfold hyp.
  replace (x * x + y * y) with ((x)² * (1 + (y / x)²)) by (unfold Rsqr; field; exact H).
  rewrite sqrt_mult; [|apply Rle_0_sqr|pose proof (Rle_0_sqr (y / x)); lra].
  now rewrite sqrt_Rsqr_abs.
Qed.

Lemma atan2_cos_sin x y : hyp x y * cos (Ratan2 y x) = x /\ hyp x y * sin (Ratan2 y x) = y.
Proof.
  unfold Ratan2.
  assert (S : 0 < sqrt (1 + (y / x)²)).
  { apply sqrt_lt_R0. pose proof (Rle_0_sqr (y / x)). lra. }
  destruct (Rlt_dec 0 x) as [P|P].
  { rewrite hyp_atan, Rabs_right by lra. rewrite cos_atan, sin_atan. split; field; lra. }
  destruct (Rlt_dec x 0) as [Q|Q].
  { rewrite hyp_atan, Rabs_left by lra.
    destruct (Rle_dec 0 y).
    - rewrite neg_cos, neg_sin, cos_atan, sin_atan. split; field; lra.
    - unfold Rminus. rewrite cos_plus, sin_plus, cos_neg, sin_neg, cos_PI, sin_PI.
      rewrite cos_atan, sin_atan. split; field; lra. }
  assert (x = 0) as -> by lra. unfold hyp. rewrite Rmult_0_l, Rplus_0_l.
  destruct (Rlt_dec 0 y).
  { rewrite sqrt_square, cos_PI2, sin_PI2 by lra. lra. }
  destruct (Rlt_dec y 0).
  { rewrite cos_neg, sin_neg, cos_PI2, sin_PI2. replace (y * y) with (- y * - y) by ring.
    rewrite sqrt_square by lra. lra. }
  assert (y = 0) as -> by lra. rewrite Rmult_0_l, sqrt_0. lra.
Qed.

Lemma atan2_bound y x : - PI < Ratan2 y x <= PI.
Proof.
  unfold Ratan2. pose proof PI_RGT_0. pose proof (atan_bound (y / x)) as B.
  destruct (Rlt_dec 0 x); [lra|].
  destruct (Rlt_dec x 0) as [L|L].
  - destruct (Rle_dec 0 y) as [Y|Y].
    + assert (y / x <= 0).
      { unfold Rdiv. assert (/ x < 0) by (now apply Rinv_lt_0_compat). nra. }
      assert (atan (y / x) <= 0).
      { rewrite <- atan_0. destruct (Rle_lt_or_eq_dec _ _ H0) as [h|h].
        - left. now apply atan_increasing.
        - right. now rewrite h. }
      lra.
    + assert (0 < y / x).
      { unfold Rdiv. assert (/ x < 0) by (now apply Rinv_lt_0_compat). nra. }
      assert (0 < atan (y / x)) by (rewrite <- atan_0; now apply atan_increasing). lra.
  - destruct (Rlt_dec 0 y); [lra|]. destruct (Rlt_dec y 0); lra.
Qed.

(** an angle in (-pi, pi] is determined by its cosine and sine *)
Lemma cos_sin_eq s t : - PI < s <= PI -> - PI < t <= PI -> cos s = cos t -> sin s = sin t -> s = t.
Proof.
  intros Hs Ht C S.
  assert (H : forall u v, - PI < u <= PI -> - PI < v <= PI -> cos u = cos v -> sin u = sin v ->
              u <= v -> u = v).
  { clear. intros u v Hu Hv C S L.
    destruct (Rle_lt_dec 0 u) as [U|U].
    - apply cos_inj; try lra.
    - destruct (Rle_lt_dec v 0) as [V|V].
      + assert (E : - u = - v) by (apply cos_inj; try lra; now rewrite !cos_neg). lra.
      + exfalso. assert (sin u < 0) by (apply sin_lt_0_var; lra).
        assert (0 <= sin v) by (apply sin_ge_0; lra). lra. }
  destruct (Rle_lt_dec s t); [apply H; auto|symmetry; apply H; auto; lra].
Qed.

Lemma atan2_polar c t : 0 < c -> - PI < t <= PI -> Ratan2 (c * sin t) (c * cos t) = t.
Proof.
  intros Hc Ht. destruct (atan2_cos_sin (c * cos t) (c * sin t)) as [C S].
  assert (E : hyp (c * cos t) (c * sin t) = c).
  { unfold hyp. replace (_ + _) with (Rsqr c * (Rsqr (sin t) + Rsqr (cos t))) by (unfold Rsqr; ring).
    rewrite sin2_cos2, Rmult_1_r. apply sqrt_Rsqr. lra. }
  rewrite E in *. apply cos_sin_eq; [apply atan2_bound|exact Ht| |]; apply (Rmult_eq_reg_l c); lra.
Qed.
