(** The quaternion product and the rotation of a vector in machine arithmetic *)
From Coq Require Import Floats.PrimFloat.
From Flocq Require Import Core.Raux.
From Coq Require Import ZArith Reals Lra Lia List Bool.
From Verif Require Import Base BaseFacts NumF SpecVec SpecReal SpecFlt SpecFltQuat SpecQuat SpecFltRot PVecR PFlt PFltSum PFltUnit PFltVar PFltQuat PPoly MQuat PQuat PQuatRot.
Import ListNotations.
Open Scope R_scope.

(** ** Lengths of quaternions *)
Lemma qnorm_rnorm q : qnorm q = rnorm [qr q; qi q; qj q; qk q].
Proof. unfold qnorm, rnorm. f_equal. destruct q. unfold qdot, vdot, re, im. cbn. ring. Qed.
Lemma qnorm_nonneg q : 0 <= qnorm q.
Proof. apply sqrt_pos. Qed.
Lemma qnorm_sq q : qnorm q * qnorm q = qdot q q.
Proof. rewrite qnorm_rnorm, rnorm_sqr. destruct q. unfold qdot, vdot, re, im. cbn. ring. Qed.
Lemma qnorm_tri p q : qnorm (qplus p q) <= qnorm p + qnorm q.
Proof. rewrite !qnorm_rnorm. destruct p as [a b c d], q as [w x y z].
  exact (rnorm_triangle [a; b; c; d] [w; x; y; z] eq_refl). Qed.
Lemma qnorm_scale k q : qnorm (qscale k q) = Rabs k * qnorm q.
Proof. rewrite !qnorm_rnorm. destruct q as [a b c d]. exact (rnorm_scale k [a; b; c; d]). Qed.
Lemma qnorm_conj q : qnorm (qconj q) = qnorm q.
Proof. unfold qnorm. f_equal. destruct q. unfold qdot, qconj, mkq, vdot, vscale, re, im. cbn. ring. Qed.

Lemma qnorm_sup a b c d B : Rabs a <= B -> Rabs b <= B -> Rabs c <= B -> Rabs d <= B -> qnorm (Quat a b c d) <= 2 * B.
Proof.
  intros Ha Hb Hc Hd. assert (PB : 0 <= B) by (pose proof (Rabs_pos a); lra).
  apply sqr_le_le; [lra|]. rewrite qnorm_sq. unfold qdot, vdot, re, im. cbn.
  assert (G : forall x, Rabs x <= B -> x * x <= B * B).
  { intros x Hx. replace (x * x) with (Rabs x * Rabs x).
    - apply Rmult_le_compat; auto using Rabs_pos.
    - rewrite <- Rabs_mult. apply Rabs_pos_eq, Rle_0_sqr. }
  pose proof (G a Ha). pose proof (G b Hb). pose proof (G c Hc). pose proof (G d Hd). nra.
Qed.

Lemma qcomp_le q : Rabs (qr q) <= qnorm q /\ Rabs (qi q) <= qnorm q /\ Rabs (qj q) <= qnorm q /\ Rabs (qk q) <= qnorm q.
Proof.
  assert (G : forall x, x * x <= qdot q q -> Rabs x <= qnorm q).
  { intros x Hx. apply sqr_le_le; [apply qnorm_nonneg|]. rewrite qnorm_sq. rewrite <- Rabs_mult, Rabs_pos_eq by apply Rle_0_sqr. exact Hx. }
  destruct q as [a b c d]. unfold qdot, vdot, re, im in G. cbn in *.
  pose proof (Rle_0_sqr a). pose proof (Rle_0_sqr b). pose proof (Rle_0_sqr c). pose proof (Rle_0_sqr d). unfold Rsqr in *.
  repeat split; apply G; lra.
Qed.

Lemma qdist_tri p q r : qdist p r <= qdist p q + qdist q r.
Proof.
  unfold qdist. eapply Rle_trans; [|apply qnorm_tri]. apply Req_le. f_equal. destruct p, q, r.
  unfold qplus, qscale, mkq, vadd, vscale, re, im. cbn. f_equal; ring.
Qed.
Lemma qdist_prod p q p' q' : qdist (hprod p q) (hprod p' q') <= qdist p p' * qnorm q + qnorm p' * qdist q q'.
Proof.
  unfold qdist. rewrite <- !qnorm_hprod. eapply Rle_trans; [|apply qnorm_tri]. apply Req_le. f_equal.
  destruct p, q, p', q'. unfold hprod, qplus, qscale, mkq, vadd, vscale, vcross, vdot, re, im. cbn. f_equal; ring.
Qed.
Lemma qdist_conj p q : qdist (qconj p) (qconj q) = qdist p q.
Proof.
  unfold qdist. rewrite <- (qnorm_conj (qplus p _)). f_equal. destruct p, q.
  unfold qconj, qplus, qscale, mkq, vadd, vscale, re, im. cbn. f_equal; ring.
Qed.
Lemma qnorm_dist p q : qnorm p <= qnorm q + qdist p q.
Proof.
  unfold qdist. eapply Rle_trans; [|apply qnorm_tri]. apply Req_le. f_equal. destruct p, q.
  unfold qplus, qscale, mkq, vadd, vscale, re, im. cbn. f_equal; ring.
Qed.

(** four products, all terms positive *)
Lemma abs_dot4 a b c d w x y z :
  Rabs a * Rabs w + Rabs b * Rabs x + Rabs c * Rabs y + Rabs d * Rabs z <= qnorm (Quat a b c d) * qnorm (Quat w x y z).
Proof.
  rewrite !qnorm_rnorm. cbn [qr qi qj qk].
  pose proof (rdot_le_norms [Rabs a; Rabs b; Rabs c; Rabs d] [Rabs w; Rabs x; Rabs y; Rabs z]) as H.
  assert (E : forall a b c d, rnorm [Rabs a; Rabs b; Rabs c; Rabs d] = rnorm [a; b; c; d]).
  { intros. unfold rnorm. f_equal. cbn. rewrite <- !Rabs_mult, !Rabs_pos_eq by apply Rle_0_sqr. reflexivity. }
  rewrite !E in H. eapply Rle_trans; [|exact H]. eapply Rle_trans; [|apply Rle_abs]. cbn. lra.
Qed.

(** ** The product *)
Definition fprod (c d : quat double) : quat double :=
  Quat (qr c * qr d - qi c * qi d - qj c * qj d - qk c * qk d)%float
       (qr c * qi d + qi c * qr d + qj c * qk d - qk c * qj d)%float
       (qr c * qj d - qi c * qk d + qj c * qr d + qk c * qi d)%float
       (qr c * qk d + qi c * qj d - qj c * qi d + qk c * qr d)%float.

Lemma mult_st_F (st : list (quat double)) ia ib im_ a b :
  nth_error st ia = Some a -> nth_error st ib = Some b -> (im_ < length st)%nat ->
  quat_mult_st st ia ib im_ = Ok (0%Z, upd st im_ (fprod a b)).
Proof.
  intros Ha Hb Hm. unfold quat_mult_st, qget at 1 2. rewrite Ha, Hb. cbn [bind].
  destruct (nth_error st im_) as [[w x y z]|] eqn:E; [|apply nth_error_None in E; lia].
  unfold set_i, set_j, set_k, set_r, qget. rewrite E. cbn [bind].
  repeat (rewrite nth_error_upd_eq by (rewrite ?upd_length; exact Hm); cbn [bind qr qi qj qk]; rewrite ?upd_twice).
  reflexivity.
Qed.

Lemma under_mul x y : under (PM (PV x) (PV y)) = eta.
Proof. cbn [under ops mag]. ring. Qed.

(** (x1 + x2) + x3 + x4 for four products, whatever the signs *)
Lemma sop4 e a b c d w x y z : finite (machine e) ->
  ops e = 4%nat -> mag e = Rabs (FR a) * Rabs (FR w) + Rabs (FR b) * Rabs (FR x) + Rabs (FR c) * Rabs (FR y) + Rabs (FR d) * Rabs (FR z) ->
  under e = (1 + uu) * ((1 + uu) * ((1 + uu) * (eta + eta) + eta) + eta) ->
  Rabs (FR (machine e) - exactv e)
    <= gam 4 * (qnorm (Quat (FR a) (FR b) (FR c) (FR d)) * qnorm (Quat (FR w) (FR x) (FR y) (FR z))) + 5 * eta.
Proof.
  intros F Eo Em Eu. eapply Rle_trans; [now apply poly_err|]. rewrite Eo, Em, Eu.
  apply Rplus_le_compat.
  - apply Rmult_le_compat_l; [apply gam_nonneg|]. apply abs_dot4.
  - pose proof uu_small as U. pose proof eta_pos as P.
    replace ((1 + uu) * ((1 + uu) * ((1 + uu) * (eta + eta) + eta) + eta))
      with (((1 + uu) * ((1 + uu) * ((1 + uu) * 2 + 1) + 1)) * eta) by ring.
    apply Rmult_le_compat_r; [lra|].
    assert (A : (1 + uu) * ((1 + uu) * 2 + 1) <= 3 + / 10) by nra. nra.
Qed.

Lemma qnorm_perm a b c d w x y z :
  (a * a + b * b + c * c + d * d = w * w + x * x + y * y + z * z)%R -> qnorm (Quat a b c d) = qnorm (Quat w x y z).
Proof. intros H. unfold qnorm. f_equal. unfold qdot, vdot, re, im. cbn. lra. Qed.

Lemma prod_err p q : finite_quat (fprod p q) ->
  finite_quat p /\ finite_quat q /\
  qdist (FQ (fprod p q)) (hprod (FQ p) (FQ q)) <= 2 * (gam 4 * (qnorm (FQ p) * qnorm (FQ q)) + 5 * eta).
Proof.
  destruct p as [a b c d], q as [w x y z]. unfold fprod, finite_quat. cbn [qr qi qj qk]. intros (F1 & F2 & F3 & F4).
  pose (T u v := PM (PV u) (PV v)).
  pose (e1 := PS (PS (PS (T a w) (T b x)) (T c y)) (T d z)).
  pose (e2 := PS (PA (PA (T a x) (T b w)) (T c z)) (T d y)).
  pose (e3 := PA (PA (PS (T a y) (T b z)) (T c w)) (T d x)).
  pose (e4 := PA (PS (PA (T a z) (T b y)) (T c x)) (T d w)).
  assert (L := poly_finite e1 F1). cbn in L. destruct L as (((L1 & L2) & L3) & L4).
  split; [tauto|]. split; [tauto|].
  assert (B1 : Rabs (FR (machine e1) - exactv e1) <= gam 4 * (qnorm (FQ (Quat a b c d)) * qnorm (FQ (Quat w x y z))) + 5 * eta).
  { apply (sop4 e1 a b c d w x y z F1 eq_refl); [reflexivity|]. unfold e1. cbn [under]. unfold T. rewrite !under_mul. reflexivity. }
  assert (B2 : Rabs (FR (machine e2) - exactv e2) <= gam 4 * (qnorm (FQ (Quat a b c d)) * qnorm (FQ (Quat w x y z))) + 5 * eta).
  { assert (E : qnorm (FQ (Quat w x y z)) = qnorm (Quat (FR x) (FR w) (FR z) (FR y))) by (apply qnorm_perm; cbn; ring). rewrite E.
    apply (sop4 e2 a b c d x w z y F2 eq_refl); [reflexivity|]. unfold e2. cbn [under]. unfold T. rewrite !under_mul. reflexivity. }
  assert (B3 : Rabs (FR (machine e3) - exactv e3) <= gam 4 * (qnorm (FQ (Quat a b c d)) * qnorm (FQ (Quat w x y z))) + 5 * eta).
  { assert (E : qnorm (FQ (Quat w x y z)) = qnorm (Quat (FR y) (FR z) (FR w) (FR x))) by (apply qnorm_perm; cbn; ring). rewrite E.
    apply (sop4 e3 a b c d y z w x F3 eq_refl); [reflexivity|]. unfold e3. cbn [under]. unfold T. rewrite !under_mul. reflexivity. }
  assert (B4 : Rabs (FR (machine e4) - exactv e4) <= gam 4 * (qnorm (FQ (Quat a b c d)) * qnorm (FQ (Quat w x y z))) + 5 * eta).
  { assert (E : qnorm (FQ (Quat w x y z)) = qnorm (Quat (FR z) (FR y) (FR x) (FR w))) by (apply qnorm_perm; cbn; ring). rewrite E.
    apply (sop4 e4 a b c d z y x w F4 eq_refl); [reflexivity|]. unfold e4. cbn [under]. unfold T. rewrite !under_mul. reflexivity. }
  pose proof (qnorm_sup _ _ _ _ _ B1 B2 B3 B4) as H. eapply Rle_trans; [|exact H]. apply Req_le. unfold qdist. f_equal.
  unfold e1, e2, e3, e4, FQ, T, hprod, qplus, qscale, mkq, vadd, vscale, vcross, vdot, re, im. cbn. f_equal; ring.
Qed.

(** no overflow *)
Lemma sop_finite (s1 s2 s3 : bool) a b c d w x y z K :
  finite a -> finite b -> finite c -> finite d -> finite w -> finite x -> finite y -> finite z ->
  Rabs (FR a * FR w) <= K -> Rabs (FR b * FR x) <= K -> Rabs (FR c * FR y) <= K -> Rabs (FR d * FR z) <= K ->
  1 <= K -> 20 * K <= big ->
  let op (s : bool) (u v : double) := if s then (u + v)%float else (u - v)%float in
  finite (op s3 (op s2 (op s1 (a * w) (b * x)) (c * y)) (d * z))%float.
Proof.
  intros Fa Fb Fc Fd Fw Fx Fy Fz H1 H2 H3 H4 K1 KB op. pose proof uu_small as U. pose proof eta_small as Et.
  assert (Te : eta <= / 10).
  { assert (/ 10 ^ 30 <= 1) by (rewrite <- Rinv_1; apply Rinv_le_contravar; [lra|apply pow_R1_Rle; lra]).
    assert (0 < / 10 ^ 30) by (apply Rinv_0_lt_compat, pow_lt; lra). nra. }
  assert (G : forall u v, finite u -> finite v -> Rabs (FR u * FR v) <= K -> finite (u * v)%float /\ Rabs (FR (u * v)%float) <= 12 / 10 * K).
  { intros u v Fu Fv H. assert (F : finite (u * v)%float) by (apply mul_finite; auto; lra). split; auto.
    destruct (mul_err _ _ F) as (_ & _ & dd & e & Hd & He & E). rewrite E.
    eapply Rle_trans; [apply Rabs_triang|]. rewrite Rabs_mult.
    assert (Rabs (1 + dd) <= 11 / 10) by (eapply Rle_trans; [apply Rabs_triang|]; rewrite Rabs_R1; lra).
    assert (Rabs (FR u * FR v) * Rabs (1 + dd) <= K * (11 / 10)) by (apply Rmult_le_compat; auto using Rabs_pos). lra. }
  assert (A : forall s u v A B, finite u -> finite v -> Rabs (FR u) <= A -> Rabs (FR v) <= B -> A + B <= big ->
              finite (op s u v) /\ Rabs (FR (op s u v)) <= 101 / 100 * (A + B)).
  { intros s u v A0 B0 Fu Fv Hu Hv HB.
    assert (J : Rabs (FR u + FR v) <= A0 + B0) by (eapply Rle_trans; [apply Rabs_triang|]; lra).
    assert (J' : Rabs (FR u - FR v) <= A0 + B0).
    { unfold Rminus. eapply Rle_trans; [apply Rabs_triang|]. rewrite Rabs_Ropp. lra. }
    destruct s; cbn [op].
    - assert (F : finite (u + v)%float) by (apply add_finite; auto; lra). split; auto.
      destruct (add_err _ _ F) as (_ & _ & dd & Hd & E). rewrite E, Rabs_mult.
      assert (Rabs (1 + dd) <= 101 / 100) by (eapply Rle_trans; [apply Rabs_triang|]; rewrite Rabs_R1; lra).
      pose proof (Rmult_le_compat _ _ _ _ (Rabs_pos _) (Rabs_pos _) J H). lra.
    - assert (F : finite (u - v)%float) by (apply sub_finite; auto; lra). split; auto.
      destruct (sub_err _ _ F) as (_ & _ & dd & Hd & E). rewrite E, Rabs_mult.
      assert (Rabs (1 + dd) <= 101 / 100) by (eapply Rle_trans; [apply Rabs_triang|]; rewrite Rabs_R1; lra).
      pose proof (Rmult_le_compat _ _ _ _ (Rabs_pos _) (Rabs_pos _) J' H). lra. }
  destruct (G a w Fa Fw H1) as (P1 & Q1). destruct (G b x Fb Fx H2) as (P2 & Q2).
  destruct (G c y Fc Fy H3) as (P3 & Q3). destruct (G d z Fd Fz H4) as (P4 & Q4).
  destruct (A s1 _ _ _ _ P1 P2 Q1 Q2 ltac:(lra)) as (P5 & Q5).
  destruct (A s2 _ _ _ _ P5 P3 Q5 Q3 ltac:(lra)) as (P6 & Q6).
  exact (proj1 (A s3 _ _ _ _ P6 P4 Q6 Q4 ltac:(lra))).
Qed.

Lemma prod_finite p q K : finite_quat p -> finite_quat q -> qnorm (FQ p) * qnorm (FQ q) <= K -> 1 <= K -> 20 * K <= big ->
  finite_quat (fprod p q).
Proof.
  intros (F1 & F2 & F3 & F4) (G1 & G2 & G3 & G4) HK K1 KB.
  destruct (qcomp_le (FQ p)) as (A1 & A2 & A3 & A4). destruct (qcomp_le (FQ q)) as (B1 & B2 & B3 & B4).
  assert (M : forall x y, Rabs x <= qnorm (FQ p) -> Rabs y <= qnorm (FQ q) -> Rabs (x * y) <= K).
  { intros x y Hx Hy. rewrite Rabs_mult. eapply Rle_trans; [|exact HK]. apply Rmult_le_compat; auto using Rabs_pos. }
  destruct p as [a b c d], q as [w x y z]. unfold fprod, finite_quat. cbn [qr qi qj qk FQ] in *.
  repeat split.
  - apply (sop_finite false false false a b c d w x y z K); auto.
  - apply (sop_finite true true false a b c d x w z y K); auto.
  - apply (sop_finite false true true a b c d y z w x K); auto.
  - apply (sop_finite true false true a b c d z y x w K); auto.
Qed.

(** ** Normalising *)
Lemma qnorm_dom k a b c d w x y z : 0 <= k ->
  Rabs w <= k * Rabs a -> Rabs x <= k * Rabs b -> Rabs y <= k * Rabs c -> Rabs z <= k * Rabs d ->
  qnorm (Quat w x y z) <= k * qnorm (Quat a b c d).
Proof.
  intros Hk H1 H2 H3 H4. apply sqr_le_le; [apply Rmult_le_pos; auto using qnorm_nonneg|].
  replace (k * qnorm (Quat a b c d) * (k * qnorm (Quat a b c d))) with (k * k * (qnorm (Quat a b c d) * qnorm (Quat a b c d))) by ring.
  rewrite !qnorm_sq. unfold qdot, vdot, re, im. cbn.
  assert (G : forall u v, Rabs u <= k * Rabs v -> u * u <= k * k * (v * v)).
  { intros u v H. replace (u * u) with (Rabs u * Rabs u) by (rewrite <- Rabs_mult; apply Rabs_pos_eq, Rle_0_sqr).
    replace (k * k * (v * v)) with (k * Rabs v * (k * Rabs v)).
    - apply Rmult_le_compat; auto using Rabs_pos.
    - replace (v * v) with (Rabs v * Rabs v) by (rewrite <- Rabs_mult; apply Rabs_pos_eq, Rle_0_sqr). ring. }
  pose proof (G _ _ H1). pose proof (G _ _ H2). pose proof (G _ _ H3). pose proof (G _ _ H4). lra.
Qed.

(** components x_c + r_c + s_c against x_c *)
Lemma qdist_dom k t a b c d r1 r2 r3 r4 s1 s2 s3 s4 : 0 <= k ->
  Rabs r1 <= k * Rabs a -> Rabs r2 <= k * Rabs b -> Rabs r3 <= k * Rabs c -> Rabs r4 <= k * Rabs d ->
  Rabs s1 <= t -> Rabs s2 <= t -> Rabs s3 <= t -> Rabs s4 <= t ->
  qdist (Quat (a + r1 + s1) (b + r2 + s2) (c + r3 + s3) (d + r4 + s4)) (Quat a b c d) <= k * qnorm (Quat a b c d) + 2 * t.
Proof.
  intros Hk H1 H2 H3 H4 G1 G2 G3 G4.
  pose proof (qnorm_dom k _ _ _ _ _ _ _ _ Hk H1 H2 H3 H4) as A. pose proof (qnorm_sup _ _ _ _ _ G1 G2 G3 G4) as B.
  pose proof (qnorm_tri (Quat r1 r2 r3 r4) (Quat s1 s2 s3 s4)) as C.
  unfold qdist. replace (qplus _ _) with (qplus (Quat r1 r2 r3 r4) (Quat s1 s2 s3 s4)); [lra|].
  unfold qplus, qscale, mkq, vadd, vscale, re, im. cbn. f_equal; ring.
Qed.

Lemma norm2_qdot q : norm2 q = qdot (FQ q) (FQ q).
Proof. destruct q. unfold norm2, qdot, vdot, re, im, FQ. cbn. ring. Qed.

Lemma near_one r k : 0 <= r -> 0 <= k <= / 1000 -> Rabs (r * r - 1) <= k -> Rabs (r - 1) <= k * (501 / 1000).
Proof.
  intros Hr Hk H. apply Rabs_le_inv in H. apply Rabs_le. split; nra.
Qed.

Lemma unit_dir q : finite (fmagn q) -> 999999 / 1000000000000 <= FR (fmagn q) -> 0 < qnorm (FQ q) ->
  qdist (FQ (Quat (qr q / fmagn q)%float (qi q / fmagn q)%float (qj q / fmagn q)%float (qk q / fmagn q)%float))
        (qscale (/ qnorm (FQ q)) (FQ q)) <= 41 / 10 * uu.
Proof.
  intros Hm HM PN. destruct (unit_of_magn q Hm HM) as ((Ga & Gb & Gc & Gd) & _).
  destruct (fmagn_err q Hm) as (Fq & _ & B). set (m := fmagn q) in *. set (M := FR m) in *.
  pose proof uu_small as U. pose proof (ratio (norm2 q) M HM B) as R.
  rewrite norm2_qdot, <- qnorm_sq in R. set (N := qnorm (FQ q)) in *. assert (PM : 0 < M) by lra.
  assert (Hr : Rabs (N / M - 1) <= 303 / 100 * uu).
  { eapply Rle_trans; [apply (near_one _ (604 / 100 * uu))|]; [| |replace (N / M * (N / M)) with (N * N / (M * M)) by (field; lra); exact R|].
    - apply Rmult_le_pos; [lra|left; now apply Rinv_0_lt_compat].
    - split; [|]; lra.
    - lra. }
  assert (NM : FR m <> 0) by (fold M; lra). destruct q as [a b c d]. cbn [qr qi qj qk FQ qscale] in *.
  destruct (div_err a m NM Ga) as (_ & d1 & e1 & D1 & E1 & X1). destruct (div_err b m NM Gb) as (_ & d2 & e2 & D2 & E2 & X2).
  destruct (div_err c m NM Gc) as (_ & d3 & e3 & D3 & E3 & X3). destruct (div_err d m NM Gd) as (_ & d4 & e4 & D4 & E4 & X4).
  unfold FQ, qscale, mkq, vscale, re, im. cbn [qr qi qj qk]. rewrite X1, X2, X3, X4. fold M.
  assert (S : forall x dd e, x / M * (1 + dd) + e = / N * x + (/ N * x) * (N / M * (1 + dd) - 1) + e) by (intros; field; lra).
  rewrite (S (FR a) d1 e1), (S (FR b) d2 e2), (S (FR c) d3 e3), (S (FR d) d4 e4).
  assert (K : forall x dd, Rabs dd <= uu -> Rabs (/ N * x * (N / M * (1 + dd) - 1)) <= 405 / 100 * uu * Rabs (/ N * x)).
  { intros x dd Hd. rewrite (Rabs_mult (/ N * x)), Rmult_comm. apply Rmult_le_compat_r; [apply Rabs_pos|].
    replace (N / M * (1 + dd) - 1) with ((N / M - 1) * (1 + dd) + dd) by ring.
    eapply Rle_trans; [apply Rabs_triang|]. rewrite Rabs_mult.
    assert (Rabs (1 + dd) <= 1001 / 1000) by (eapply Rle_trans; [apply Rabs_triang|]; rewrite Rabs_R1; lra).
    pose proof (Rmult_le_compat _ _ _ _ (Rabs_pos _) (Rabs_pos _) Hr H). lra. }
  eapply Rle_trans; [apply (qdist_dom (405 / 100 * uu) eta); auto; lra|].
  assert (E : qnorm (Quat (/ N * FR a) (/ N * FR b) (/ N * FR c) (/ N * FR d)) = 1).
  { change (Quat (/ N * FR a) (/ N * FR b) (/ N * FR c) (/ N * FR d)) with (qscale (/ N) (FQ (Quat a b c d))).
    rewrite qnorm_scale. fold N. rewrite Rabs_pos_eq by (left; now apply Rinv_0_lt_compat). field. lra. }
  rewrite E. pose proof eta_small as (_ & Es). assert (/ 10 ^ 30 <= / 100000) by (apply Rinv_le_contravar; lra).
  assert (uu * / 10 ^ 30 <= uu * / 100000) by (apply Rmult_le_compat_l; lra). lra.
Qed.

(** ** Inverting a unit quaternion *)
Definition finv (q : quat double) : quat double :=
  if (abs (fmagn q) <? F_lit 1 6)%float then Quat zero zero zero zero
  else let m := (fmagn q * fmagn q)%float in Quat (qr q / m)%float (qi q / - m)%float (qj q / - m)%float (qk q / - m)%float.

Lemma inv_F q : quat_inv q = Ok (finv q).
Proof.
  destruct q as [a b c d]. unfold finv, fmagn. cbn [qr qi qj qk].
  unfold quat_inv, quat_inv_st, qget, set_r, set_i, set_j, set_k, quat_magn.
  cbn [nth_error bind qr qi qj qk fsqrt fmul fadd fdiv fabs fneg flt flit f0 NumF upd]. fold (fsq4 a b c d).
  destruct (abs (PrimFloat.sqrt (fsq4 a b c d)) <? F_lit 1 6)%float;
    cbn [nth_error bind qr qi qj qk fsqrt fmul fadd fdiv fabs fneg flt flit f0 NumF upd]; reflexivity.
Qed.

Lemma eta_uu : eta <= / 100000 * uu.
Proof.
  pose proof uu_small. pose proof eta_small as (_ & Es). assert (/ 10 ^ 30 <= / 100000) by (apply Rinv_le_contravar; lra).
  assert (uu * / 10 ^ 30 <= uu * / 100000) by (apply Rmult_le_compat_l; lra). lra.
Qed.

(** the computed magnitude of a unit quaternion *)
Lemma near_magn q : near_unit q -> finite (fmagn q) /\ Rabs (FR (fmagn q) * FR (fmagn q) - 1) <= 1506 / 100 * uu /\ 99 / 100 <= FR (fmagn q).
Proof.
  intros (Fq & Hn). pose proof uu_small as U. pose proof eta_uu as Et. apply Rabs_le_inv in Hn.
  assert (C : forall x, In x [qr q; qi q; qj q; qk q] -> Rabs (FR x) <= 2 ^ 480).
  { destruct (qcomp_le (FQ q)) as (A1 & A2 & A3 & A4).
    assert (B : qnorm (FQ q) <= 2 ^ 480).
    { assert (2 ^ 1 <= 2 ^ 480) by (apply Rle_pow; [lra|lia]).
      assert (qnorm (FQ q) <= 2); [|lra]. apply sqr_le_le; [lra|]. rewrite qnorm_sq, <- norm2_qdot. lra. }
    destruct q. cbn in *. intros x [<-|[<-|[<-|[<-|[]]]]]; lra. }
  destruct (funit_regular q Fq C ltac:(lra)) as (Fm & _). split; auto.
  destruct (fmagn_err q Fm) as (_ & P & B).
  assert (W : uu * norm2 q <= uu * (1001 / 1000)) by (apply Rmult_le_compat_l; lra).
  assert (W' : 0 <= uu * norm2 q) by (apply Rmult_le_pos; lra).
  assert (K : Rabs (FR (fmagn q) * FR (fmagn q) - 1) <= 1506 / 100 * uu) by (apply Rabs_le; split; lra).
  split; [exact K|]. apply Rabs_le_inv in K.
  destruct (Rle_dec (99 / 100) (FR (fmagn q))) as [|L]; auto. exfalso. assert (FR (fmagn q) < 99 / 100) by lra. nra.
Qed.

Lemma inv_dir q : near_unit q -> finite_quat (finv q) /\ qdist (FQ (finv q)) (qconj (FQ q)) <= 173 / 10 * uu.
Proof.
  intros Hq. destruct (near_magn q Hq) as (Fm & HM & PM). destruct Hq as (Fq & Hn). pose proof uu_small as U. pose proof eta_uu as Et.
  unfold finv. destruct lit_tiny as (FL & BL).
  destruct (abs (fmagn q) <? F_lit 1 6)%float eqn:Et'.
  { exfalso. apply ltb_FR in Et'; auto; [|now apply abs_finite]. rewrite abs_FR, Rabs_pos_eq in Et' by lra. lra. }
  set (m := fmagn q) in *. apply Rabs_le_inv in HM.
  assert (Fmm : finite (m * m)%float).
  { apply mul_finite; auto. rewrite Rabs_pos_eq by nra. unfold big. assert (2 ^ 1 <= 2 ^ 1000) by (apply Rle_pow; [lra|lia]). lra. }
  destruct (mul_err _ _ Fmm) as (_ & _ & d0 & e0 & D0 & E0 & X0). set (g := (m * m)%float) in *.
  apply Rabs_le_inv in D0, E0.
  assert (Hg : Rabs (FR g - 1) <= 1608 / 100 * uu).
  { rewrite X0. set (M2 := FR m * FR m) in *.
    assert (- (1001 / 1000 * uu) <= M2 * d0 <= 1001 / 1000 * uu) by nra. apply Rabs_le. split; lra. }
  assert (Pg : / 2 <= FR g <= 2) by (apply Rabs_le_inv in Hg; split; lra).
  assert (NG : FR g <> 0) by lra. assert (NG' : FR (- g)%float <> 0) by (rewrite opp_FR; lra).
  pose proof (qcomp_le (FQ q)) as Cq.
  assert (B2 : qnorm (FQ q) <= 101 / 100).
  { apply sqr_le_le; [lra|]. rewrite qnorm_sq, <- norm2_qdot. apply Rabs_le_inv in Hn. lra. }
  destruct q as [a b c d]. destruct Fq as (Fa & Fb & Fc & Fd). cbn [qr qi qj qk FQ] in *. destruct Cq as (Ca & Cb & Cc & Cd).
  assert (G : forall x h, FR h = FR g \/ FR h = - FR g -> finite x -> Rabs (FR x) <= qnorm (FQ (Quat a b c d)) -> finite (x / h)%float).
  { intros x h Eh Fx Hx. apply div_finite; auto; [lra|].
    unfold Rdiv. rewrite Rabs_mult. assert (Rabs (/ FR h) <= 2).
    { rewrite Rabs_inv. assert (/ 2 <= Rabs (FR h)) by (destruct Eh as [->| ->]; rewrite ?Rabs_Ropp, Rabs_pos_eq; lra).
      rewrite <- (Rinv_inv 2). apply Rinv_le_contravar; lra. }
    pose proof (Rmult_le_compat _ _ _ _ (Rabs_pos _) (Rabs_pos _) Hx H).
    unfold big. assert (2 ^ 2 <= 2 ^ 1000) by (apply Rle_pow; [lra|lia]). lra. }
  assert (Ga := G a g ltac:(auto) Fa Ca). assert (Gb := G b (- g)%float ltac:(right; apply opp_FR) Fb Cb).
  assert (Gc := G c (- g)%float ltac:(right; apply opp_FR) Fc Cc). assert (Gd := G d (- g)%float ltac:(right; apply opp_FR) Fd Cd).
  split; [repeat split; auto|].
  destruct (div_err a g NG Ga) as (_ & d1 & e1 & D1 & E1 & X1). destruct (div_err b _ NG' Gb) as (_ & d2 & e2 & D2 & E2 & X2).
  destruct (div_err c _ NG' Gc) as (_ & d3 & e3 & D3 & E3 & X3). destruct (div_err d _ NG' Gd) as (_ & d4 & e4 & D4 & E4 & X4).
  unfold FQ, qconj, mkq, vscale, re, im. cbn [qr qi qj qk]. rewrite X1, X2, X3, X4, opp_FR.
  assert (S1 : forall x dd e, x / FR g * (1 + dd) + e = x + x * (/ FR g * (1 + dd) - 1) + e) by (intros; field; lra).
  assert (S2 : forall x dd e, x / - FR g * (1 + dd) + e = -1 * x + (-1 * x) * (/ FR g * (1 + dd) - 1) + e) by (intros; field; lra).
  rewrite (S1 (FR a) d1 e1), (S2 (FR b) d2 e2), (S2 (FR c) d3 e3), (S2 (FR d) d4 e4).
  assert (I : Rabs (/ FR g - 1) <= 161 / 10 * uu).
  { replace (/ FR g - 1) with ((1 - FR g) * / FR g) by (field; lra). rewrite Rabs_mult, (Rabs_minus_sym 1).
    assert (Rabs (/ FR g) <= 1001 / 1000).
    { apply Rabs_le_inv in Hg. rewrite Rabs_pos_eq by (left; apply Rinv_0_lt_compat; lra).
      apply Rmult_le_reg_r with (FR g); [lra|]. rewrite Rinv_l by lra. lra. }
    pose proof (Rmult_le_compat _ _ _ _ (Rabs_pos _) (Rabs_pos _) Hg H). lra. }
  assert (K : forall x dd, Rabs dd <= uu -> Rabs (x * (/ FR g * (1 + dd) - 1)) <= 1712 / 100 * uu * Rabs x).
  { intros x dd Hd. rewrite Rabs_mult, Rmult_comm. apply Rmult_le_compat_r; [apply Rabs_pos|].
    replace (/ FR g * (1 + dd) - 1) with ((/ FR g - 1) * (1 + dd) + dd) by ring.
    eapply Rle_trans; [apply Rabs_triang|]. rewrite Rabs_mult.
    assert (Rabs (1 + dd) <= 1001 / 1000) by (eapply Rle_trans; [apply Rabs_triang|]; rewrite Rabs_R1; lra).
    pose proof (Rmult_le_compat _ _ _ _ (Rabs_pos _) (Rabs_pos _) I H). lra. }
  eapply Rle_trans; [apply (qdist_dom (1712 / 100 * uu) eta); auto; lra|].
  change (Quat (FR a) (-1 * FR b) (-1 * FR c) (-1 * FR d)) with (qconj (FQ (Quat a b c d))). rewrite qnorm_conj.
  assert (1712 / 100 * uu * qnorm (FQ (Quat a b c d)) <= 1712 / 100 * uu * (101 / 100)) by (apply Rmult_le_compat_l; lra). lra.
Qed.

(** ** Rotating *)
Definition frot (q v : quat double) : quat double := fprod (fprod (funit q) v) (finv (funit q)).

Lemma rot_F bc q x y z : quat_rot bc q (Quat zero x y z) = Ok (0%Z, Some (frot q (Quat zero x y z))).
Proof.
  unfold quat_rot. cbn [qr]. assert (G : bc && fgt (fabs zero) (flit 1 6) = false) by (destruct bc; vm_compute; reflexivity).
  rewrite G, to_unit_F. cbn [bind]. unfold quat_mult. erewrite mult_st_F by (cbn; first [reflexivity | lia]).
  cbn [bind upd qget nth_error]. rewrite inv_F. cbn [bind]. erewrite mult_st_F by (cbn; first [reflexivity | lia]).
  reflexivity.
Qed.

Lemma gam4 : gam 4 <= 401 / 100 * uu.
Proof.
  pose proof uu_small as U. destruct (gam_bounds 4) as (_ & G); [cbn; lra|].
  eapply Rle_trans; [exact G|]. cbn [INR]. apply Rmult_le_reg_r with (1 - (1 + 1 + 1 + 1) * uu); [lra|].
  unfold Rdiv. rewrite Rmult_assoc, Rinv_l by lra. nra.
Qed.

Lemma eta_v V : / 2 ^ 400 <= V -> eta <= / 100000 * (uu * V).
Proof.
  intros H. pose proof uu_pos as U.
  assert (E : eta = uu * (/ 2 ^ 400 * / 2 ^ 622)).
  { unfold eta, uu. rewrite <- !Rinv_mult, <- !pow_add. reflexivity. }
  rewrite E. replace (/ 100000 * (uu * V)) with (uu * (V * / 100000)) by ring. apply Rmult_le_compat_l; [lra|].
  apply Rmult_le_compat; auto; [left; apply Rinv_0_lt_compat, pow_lt; lra|left; apply Rinv_0_lt_compat, pow_lt; lra|].
  apply Rinv_le_contravar; [lra|]. assert (2 ^ 17 <= 2 ^ 622) by (apply Rle_pow; [lra|lia]). lra.
Qed.

Theorem rot_err q v : finite_quat q ->
  (forall x, In x [qr q; qi q; qj q; qk q] -> Rabs (FR x) <= 2 ^ 480) -> 2 / 1000000000000 <= norm2 q ->
  finite_quat v -> / 2 ^ 400 <= qnorm (FQ v) <= 2 ^ 400 ->
  let u := qscale (/ qnorm (FQ q)) (FQ q) in
  finite_quat (frot q v) /\
  qdist (FQ (frot q v)) (hprod (hprod u (FQ v)) (qconj u)) <= 43 * uu * qnorm (FQ v).
Proof.
  intros Fq Cq Nq Fv (V0 & V1) u. pose proof uu_small as U. pose proof gam4 as G4. pose proof (gam_nonneg 4) as G0.
  destruct (funit_regular q Fq Cq Nq) as (Fm & Un).
  assert (PN : 0 < qnorm (FQ q)).
  { rewrite norm2_qdot, <- qnorm_sq in Nq. pose proof (qnorm_nonneg (FQ q)). nra. }
  assert (U1 : qnorm u = 1).
  { unfold u. rewrite qnorm_scale, Rabs_pos_eq by (left; now apply Rinv_0_lt_compat). field. lra. }
  assert (Du : qdist (FQ (funit q)) u <= 41 / 10 * uu).
  { unfold u. unfold funit. unfold funit in Un. destruct (abs (fmagn q) <? F_lit 1 6)%float eqn:Et.
    - exfalso. destruct Un as (_ & Un). unfold norm2 in Un. cbn [qr qi qj qk] in Un. rewrite FR_zero in Un. apply Rabs_le_inv in Un. lra.
    - apply unit_dir; auto. destruct lit_tiny as (FL & BL). destruct (fmagn_err q Fm) as (_ & P & _).
      assert (~ FR (abs (fmagn q)) < FR (F_lit 1 6)).
      { intros L. apply ltb_FR in L; auto; [congruence|]. now apply abs_finite. }
      rewrite abs_FR, Rabs_pos_eq in H by auto. lra. }
  set (n := funit q) in *. destruct (inv_dir n Un) as (Fi & Di). destruct Un as (Fn & _).
  assert (N1 : qnorm (FQ n) <= 1 + 41 / 10 * uu) by (pose proof (qnorm_dist (FQ n) u); lra).
  set (V := qnorm (FQ v)) in *. pose proof (eta_v V V0) as Ev.
  assert (PV : 0 < V) by (assert (0 < / 2 ^ 400) by (apply Rinv_0_lt_compat, pow_lt; lra); lra).
  assert (UV : 0 < uu * V) by (apply Rmult_lt_0_compat; lra).
  assert (UUV : uu * (uu * V) <= / 1000000 * (uu * V)) by (apply Rmult_le_compat_r; lra).
  pose proof (qnorm_nonneg (FQ n)) as Nn.
  assert (Big : 20 * (2 * 2 ^ 400 + 1) <= big).
  { unfold big. replace (2 ^ 1000) with (2 ^ 400 * 2 ^ 600) by (rewrite <- pow_add; reflexivity).
    assert (1 <= 2 ^ 400) by (apply pow_R1_Rle; lra). assert (2 ^ 6 <= 2 ^ 600) by (apply Rle_pow; [lra|lia]).
    assert (2 ^ 400 * 2 ^ 6 <= 2 ^ 400 * 2 ^ 600) by (apply Rmult_le_compat_l; lra). lra. }
  assert (P400 : 1 <= 2 ^ 400) by (apply pow_R1_Rle; lra).
  (* first product *)
  assert (F1 : finite_quat (fprod n v)).
  { apply (prod_finite n v (2 * 2 ^ 400 + 1)); auto; [|lra]. fold V. pose proof (Rmult_le_compat _ _ _ _ Nn (Rlt_le _ _ PV) N1 V1).
    assert (uu * 2 ^ 400 <= / 1000 * 2 ^ 400) by (apply Rmult_le_compat_r; lra). lra. }
  destruct (prod_err n v F1) as (_ & _ & E1). fold V in E1. set (p := fprod n v) in *.
  assert (E1' : qdist (FQ p) (hprod (FQ n) (FQ v)) <= 803 / 100 * (uu * V)).
  { assert (qnorm (FQ n) * V <= (1 + 41 / 10 * uu) * V) by (apply Rmult_le_compat_r; lra).
    assert (gam 4 * (qnorm (FQ n) * V) <= 401 / 100 * uu * ((1 + 41 / 10 * uu) * V)).
    { apply Rmult_le_compat; auto. apply Rmult_le_pos; lra. }
    lra. }
  assert (E2 : qdist (FQ p) (hprod u (FQ v)) <= 1213 / 100 * (uu * V)).
  { pose proof (qdist_tri (FQ p) (hprod (FQ n) (FQ v)) (hprod u (FQ v))) as T.
    pose proof (qdist_prod (FQ n) (FQ v) u (FQ v)) as T2. fold V in T2.
    assert (Z : qdist (FQ v) (FQ v) = 0).
    { unfold qdist, qnorm. rewrite <- sqrt_0. f_equal. destruct (FQ v). unfold qdot, qplus, qscale, mkq, vdot, vadd, vscale, re, im. cbn. ring. }
    rewrite Z, Rmult_0_r in T2. assert (qdist (FQ n) u * V <= 41 / 10 * uu * V) by (apply Rmult_le_compat_r; lra). lra. }
  assert (P1 : qnorm (FQ p) <= 1001 / 1000 * V).
  { pose proof (qnorm_dist (FQ p) (hprod u (FQ v))) as T. rewrite qnorm_hprod, U1 in T. fold V in T.
    assert (uu * V <= / 1000000 * V) by (apply Rmult_le_compat_r; lra). lra. }
  (* the inverse *)
  assert (E3 : qdist (FQ (finv n)) (qconj u) <= 214 / 10 * uu).
  { pose proof (qdist_tri (FQ (finv n)) (qconj (FQ n)) (qconj u)) as T. rewrite qdist_conj in T. lra. }
  assert (I1 : qnorm (FQ (finv n)) <= 1001 / 1000).
  { pose proof (qnorm_dist (FQ (finv n)) (qconj u)) as T. rewrite qnorm_conj, U1 in T. lra. }
  pose proof (qnorm_nonneg (FQ (finv n))) as In0. pose proof (qnorm_nonneg (FQ p)) as Pn0.
  (* second product *)
  assert (F2 : finite_quat (fprod p (finv n))).
  { apply (prod_finite p (finv n) (2 * 2 ^ 400 + 1)); auto; [|lra]. pose proof (Rmult_le_compat _ _ _ _ Pn0 In0 P1 I1). lra. }
  unfold frot. fold n. fold p. split; [exact F2|]. destruct (prod_err p (finv n) F2) as (_ & _ & E4).
  assert (E4' : qdist (FQ (fprod p (finv n))) (hprod (FQ p) (FQ (finv n))) <= 81 / 10 * (uu * V)).
  { assert (gam 4 * (qnorm (FQ p) * qnorm (FQ (finv n))) <= 401 / 100 * uu * (1001 / 1000 * V * (1001 / 1000))).
    { apply Rmult_le_compat; auto; [apply Rmult_le_pos; auto|]. apply Rmult_le_compat; auto. }
    lra. }
  pose proof (qdist_tri (FQ (fprod p (finv n))) (hprod (FQ p) (FQ (finv n))) (hprod (hprod u (FQ v)) (qconj u))) as T.
  pose proof (qdist_prod (FQ p) (FQ (finv n)) (hprod u (FQ v)) (qconj u)) as T2. rewrite qnorm_hprod, U1, Rmult_1_l in T2. fold V in T2.
  assert (A1 : qdist (FQ p) (hprod u (FQ v)) * qnorm (FQ (finv n)) <= 1213 / 100 * (uu * V) * (1001 / 1000)).
  { apply Rmult_le_compat; auto. apply qnorm_nonneg. }
  assert (A2 : V * qdist (FQ (finv n)) (qconj u) <= V * (214 / 10 * uu)) by (apply Rmult_le_compat_l; lra).
  lra.
Qed.
