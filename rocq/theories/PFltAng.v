(** Integrating angular velocities in machine arithmetic *)
From Coq Require Import Floats.PrimFloat.
From Flocq Require Import Core BinarySingleNaN PrimFloat.
From Coq Require Import ZArith Reals Lra Lia List Bool.
From Verif Require Import Base NumF SpecVec SpecReal SpecFlt SpecFltQuat PFlt PFltSum PFltUnit PFltVar PFltQuat MVec MQuat.
Import ListNotations.
Open Scope R_scope.

(** x stands for X, which is at most B, up to E *)
Definition apx (x : double) (X B E : R) : Prop := finite x /\ Rabs X <= B /\ Rabs (FR x - X) <= E.

Lemma apx_abs x X B E : apx x X B E -> Rabs (FR x) <= B + E.
Proof.
  intros (_ & H1 & H2). replace (FR x) with (X + (FR x - X)) by ring.
  eapply Rle_trans; [apply Rabs_triang|]. lra.
Qed.

Lemma apx_le x X B E B' E' : apx x X B E -> B <= B' -> E <= E' -> apx x X B' E'.
Proof. intros (H & H1 & H2) HB HE. repeat split; auto; lra. Qed.

Lemma apx_add x y X Y B1 B2 E1 E2 : apx x X B1 E1 -> apx y Y B2 E2 -> B1 + B2 + E1 + E2 <= big ->
  apx (x + y)%float (X + Y) (B1 + B2) (E1 + E2 + uu * (B1 + B2 + E1 + E2)).
Proof.
  intros Hx Hy HB. pose proof (apx_abs _ _ _ _ Hx) as Ax. pose proof (apx_abs _ _ _ _ Hy) as Ay.
  destruct Hx as (Fx & Bx & Ex). destruct Hy as (Fy & By & Ey).
  assert (F : finite (x + y)%float).
  { apply add_finite; auto. eapply Rle_trans; [apply Rabs_triang|]. lra. }
  split; auto. split; [eapply Rle_trans; [apply Rabs_triang|]; lra|].
  destruct (add_err _ _ F) as (_ & _ & d & Hd & E). rewrite E.
  replace ((FR x + FR y) * (1 + d) - (X + Y)) with ((FR x - X) + (FR y - Y) + d * (FR x + FR y)) by ring.
  eapply Rle_trans; [apply Rabs_triang|]. apply Rplus_le_compat; [eapply Rle_trans; [apply Rabs_triang|]; lra|].
  rewrite Rabs_mult. apply Rmult_le_compat; auto using Rabs_pos. eapply Rle_trans; [apply Rabs_triang|]. lra.
Qed.

Lemma apx_sub x y X Y B1 B2 E1 E2 : apx x X B1 E1 -> apx y Y B2 E2 -> B1 + B2 + E1 + E2 <= big ->
  apx (x - y)%float (X - Y) (B1 + B2) (E1 + E2 + uu * (B1 + B2 + E1 + E2)).
Proof.
  intros Hx Hy HB. pose proof (apx_abs _ _ _ _ Hx) as Ax. pose proof (apx_abs _ _ _ _ Hy) as Ay.
  destruct Hx as (Fx & Bx & Ex). destruct Hy as (Fy & By & Ey).
  assert (T : forall a b, Rabs (a - b) <= Rabs a + Rabs b).
  { intros a b. unfold Rminus. eapply Rle_trans; [apply Rabs_triang|]. rewrite Rabs_Ropp. lra. }
  assert (F : finite (x - y)%float).
  { apply sub_finite; auto. eapply Rle_trans; [apply T|]. lra. }
  split; auto. split; [eapply Rle_trans; [apply T|]; lra|].
  destruct (sub_err _ _ F) as (_ & _ & d & Hd & E). rewrite E.
  replace ((FR x - FR y) * (1 + d) - (X - Y)) with ((FR x - X) - (FR y - Y) + d * (FR x - FR y)) by ring.
  eapply Rle_trans; [apply Rabs_triang|]. apply Rplus_le_compat; [eapply Rle_trans; [apply T|]; lra|].
  rewrite Rabs_mult. apply Rmult_le_compat; auto using Rabs_pos. eapply Rle_trans; [apply T|]. lra.
Qed.

Lemma apx_mul x h X B E H : apx x X B E -> finite h -> Rabs (FR h) <= H -> (B + E) * H <= big ->
  apx (x * h)%float (X * FR h) (B * H) (E * H + uu * ((B + E) * H) + eta).
Proof.
  intros Hx Fh Hh HB. pose proof (apx_abs _ _ _ _ Hx) as Ax. destruct Hx as (Fx & Bx & Ex).
  pose proof (Rabs_pos (FR h)). pose proof (Rabs_pos X). pose proof (Rabs_pos (FR x)). pose proof (Rabs_pos (FR x - X)).
  assert (M : Rabs (FR x * FR h) <= (B + E) * H) by (rewrite Rabs_mult; apply Rmult_le_compat; auto).
  assert (F : finite (x * h)%float) by (apply mul_finite; auto; lra).
  split; auto. split; [rewrite Rabs_mult; apply Rmult_le_compat; auto|].
  destruct (mul_err _ _ F) as (_ & _ & d & e & Hd & He & Em). rewrite Em.
  replace (FR x * FR h * (1 + d) + e - X * FR h) with ((FR x - X) * FR h + d * (FR x * FR h) + e) by ring.
  eapply Rle_trans; [apply Rabs_triang|]. apply Rplus_le_compat; auto.
  eapply Rle_trans; [apply Rabs_triang|]. apply Rplus_le_compat.
  - rewrite Rabs_mult. apply Rmult_le_compat; auto.
  - rewrite Rabs_mult. apply Rmult_le_compat; auto using Rabs_pos.
Qed.

Section Sum.
Variables (A ep : R).
Hypothesis HA : 0 <= A.
Hypothesis Hep : ep = uu * A + eta.
Hypothesis Hbig : 1000 * A + 1000 <= big.

Lemma ep_nonneg : 0 < ep.
Proof. pose proof uu_small. pose proof eta_pos. assert (0 <= uu * A) by (apply Rmult_le_pos; lra). lra. Qed.
Lemma ep_le : ep <= A + 1.
Proof.
  pose proof uu_small. pose proof eta_small. assert (uu * A <= / 1000 * A) by (apply Rmult_le_compat_r; lra).
  assert (/ 10 ^ 30 <= 1) by (rewrite <- Rinv_1; apply Rinv_le_contravar; [lra|apply pow_R1_Rle; lra]).
  assert (0 < / 10 ^ 30) by (apply Rinv_0_lt_compat, pow_lt; lra).
  assert (uu * / 10 ^ 30 <= 1 * 1) by (apply Rmult_le_compat; lra). lra.
Qed.

Lemma sums_err i j k l : 0 <= i <= 100 -> 0 <= j <= 100 -> 0 <= k <= 100 -> 0 <= l <= 100 ->
  j * ep + l * ep + uu * (i * A + k * A + j * ep + l * ep) <= (j + l + i + k + 1) * ep
  /\ i * A + k * A + j * ep + l * ep <= big.
Proof.
  intros Hi Hj Hk Hl. pose proof uu_small. pose proof ep_nonneg. pose proof ep_le. pose proof eta_pos.
  assert (uu * A <= ep) by lra. assert (0 <= uu * A) by (apply Rmult_le_pos; lra).
  assert (uu * ep <= / 1000 * ep) by (apply Rmult_le_compat_r; lra). assert (0 <= uu * ep) by (apply Rmult_le_pos; lra).
  split.
  - assert (i * (uu * A) <= i * ep) by (apply Rmult_le_compat_l; lra).
    assert (k * (uu * A) <= k * ep) by (apply Rmult_le_compat_l; lra).
    assert (j * (uu * ep) <= 100 * (uu * ep)) by (apply Rmult_le_compat_r; lra).
    assert (l * (uu * ep) <= 100 * (uu * ep)) by (apply Rmult_le_compat_r; lra). lra.
  - assert (i * A <= 100 * A) by (apply Rmult_le_compat_r; lra). assert (k * A <= 100 * A) by (apply Rmult_le_compat_r; lra).
    assert (j * ep <= 100 * ep) by (apply Rmult_le_compat_r; lra). assert (l * ep <= 100 * ep) by (apply Rmult_le_compat_r; lra). lra.
Qed.

Lemma apx_plus x y X Y i j k l : 0 <= i <= 100 -> 0 <= j <= 100 -> 0 <= k <= 100 -> 0 <= l <= 100 ->
  apx x X (i * A) (j * ep) -> apx y Y (k * A) (l * ep) ->
  apx (x + y)%float (X + Y) ((i + k) * A) ((j + l + i + k + 1) * ep).
Proof.
  intros Hi Hj Hk Hl Hx Hy. destruct (sums_err i j k l) as (P & Q); auto.
  eapply apx_le; [apply apx_add; eauto|lra|lra].
Qed.

Lemma apx_minus x y X Y i j k l : 0 <= i <= 100 -> 0 <= j <= 100 -> 0 <= k <= 100 -> 0 <= l <= 100 ->
  apx x X (i * A) (j * ep) -> apx y Y (k * A) (l * ep) ->
  apx (x - y)%float (X - Y) ((i + k) * A) ((j + l + i + k + 1) * ep).
Proof.
  intros Hi Hj Hk Hl Hx Hy. destruct (sums_err i j k l) as (P & Q); auto.
  eapply apx_le; [apply apx_sub; eauto|lra|lra].
Qed.

Lemma apx_prod a u : finite a -> finite u -> Rabs (FR a) <= A -> Rabs (FR u) <= 2 ->
  apx (a * u)%float (FR a * FR u) (2 * A) (2 * ep).
Proof.
  intros Fa Fu Ba Bu. pose proof (Rabs_pos (FR a)). pose proof (Rabs_pos (FR u)). pose proof ep_le. pose proof eta_pos.
  assert (M : Rabs (FR a * FR u) <= 2 * A) by (rewrite Rabs_mult, Rmult_comm; apply Rmult_le_compat; auto).
  assert (F : finite (a * u)%float) by (apply mul_finite; auto; lra).
  split; auto. split; auto. destruct (mul_err _ _ F) as (_ & _ & d & e & Hd & He & E). rewrite E.
  replace (FR a * FR u * (1 + d) + e - FR a * FR u) with (d * (FR a * FR u) + e) by ring.
  eapply Rle_trans; [apply Rabs_triang|]. rewrite Rabs_mult.
  assert (Rabs d * Rabs (FR a * FR u) <= uu * (2 * A)) by (apply Rmult_le_compat; auto using Rabs_pos). lra.
Qed.

Lemma apx_zero u : finite u -> apx (zero * u)%float 0 (0 * A) (0 * ep).
Proof.
  intros Fu. destruct (mul_exact_zero u Fu) as (F & E). split; auto.
  rewrite E, Rminus_diag_eq by reflexivity. rewrite Rabs_R0. lra.
Qed.
End Sum.

(** the increment: (0, a, b, c) times u *)
Definition fmul4 (c d : quat double) : quat double :=
  Quat (qr c * qr d - qi c * qi d - qj c * qj d - qk c * qk d)%float
       (qr c * qi d + qi c * qr d + qj c * qk d - qk c * qj d)%float
       (qr c * qj d - qi c * qk d + qj c * qr d + qk c * qi d)%float
       (qr c * qk d + qi c * qj d - qj c * qi d + qk c * qr d)%float.

Lemma mult_F c d : quat_mult c d = Ok (fmul4 c d).
Proof. destruct c, d. reflexivity. Qed.

Definition fstep (a b c t : double) (u : quat double) : quat double :=
  let w := fmul4 (Quat zero a b c) u in
  let h := (F_lit 5 1 * t)%float in
  Quat (qr u + qr w * h)%float (qi u + qi w * h)%float (qj u + qj w * h)%float (qk u + qk w * h)%float.

Lemma ang_vel_F bc a b c q t tl : (bc && (t <? zero)%float)%bool = false ->
  quat_from_ang_vel bc (vec_of [a; b; c] tl) q t = Ok (0%Z, Some (funit (fstep a b c t (funit q)))).
Proof.
  intros H. unfold quat_from_ang_vel.
  change (vsz (vec_of [a; b; c] tl)) with 3%nat. cbn [Nat.eqb negb orb]. cbn [flt f0 NumF]. rewrite H.
  cbn [rd vbuf vec_of cells map app nth_error bind f0 NumF]. rewrite to_unit_F. cbn [bind].
  rewrite mult_F. cbn [bind]. unfold quat_scale_d_st, quat_scale_st, set_r, set_i, set_j, set_k, qget.
  cbn [nth_error bind upd qr qi qj qk]. rewrite to_unit_F. reflexivity.
Qed.

Lemma near_bound u : near_unit u -> forall x, In x [qr u; qi u; qj u; qk u] -> finite x /\ Rabs (FR x) <= 2.
Proof.
  intros ((F1 & F2 & F3 & F4) & H) x Hx. pose proof uu_small. apply Rabs_le_inv in H. unfold norm2 in H.
  pose proof (Rle_0_sqr (FR (qr u))) as P1. pose proof (Rle_0_sqr (FR (qi u))) as P2.
  pose proof (Rle_0_sqr (FR (qj u))) as P3. pose proof (Rle_0_sqr (FR (qk u))) as P4. unfold Rsqr in *.
  assert (G : forall y, FR y * FR y <= 4 -> Rabs (FR y) <= 2).
  { intros y Hy. apply Rsqr_incr_0_var; [|lra]. rewrite <- Rsqr_abs. unfold Rsqr. lra. }
  cbn [In] in Hx. destruct Hx as [<-|[<-|[<-|[<-|[]]]]]; split; auto; apply G; lra.
Qed.

Lemma fmul4_err a b c u A : near_unit u -> finite a -> finite b -> finite c ->
  Rabs (FR a) <= A -> Rabs (FR b) <= A -> Rabs (FR c) <= A -> 1000 * A + 1000 <= big ->
  let w := fmul4 (Quat zero a b c) u in let ep := uu * A + eta in
  apx (qr w) (- FR a * FR (qi u) - FR b * FR (qj u) - FR c * FR (qk u)) (6 * A) (21 * ep)
  /\ apx (qi w) (FR a * FR (qr u) + FR b * FR (qk u) - FR c * FR (qj u)) (6 * A) (21 * ep)
  /\ apx (qj w) (- FR a * FR (qk u) + FR b * FR (qr u) + FR c * FR (qi u)) (6 * A) (21 * ep)
  /\ apx (qk w) (FR a * FR (qj u) - FR b * FR (qi u) + FR c * FR (qr u)) (6 * A) (21 * ep).
Proof.
  intros Hu Fa Fb Fc Ba Bb Bc HB w ep. pose proof (Rabs_pos (FR a)) as PA.
  assert (HA : 0 <= A) by lra.
  pose proof (near_bound u Hu) as Nu. cbn [In] in Nu.
  destruct (Nu (qr u) ltac:(auto)) as (Fr & Br). destruct (Nu (qi u) ltac:(auto)) as (Fi & Bi).
  destruct (Nu (qj u) ltac:(auto)) as (Fj & Bj). destruct (Nu (qk u) ltac:(auto 6)) as (Fk & Bk).
  assert (P := apx_prod A ep HA eq_refl HB). assert (Z := apx_zero A ep).
  unfold w, fmul4. cbn [qr qi qj qk].
  assert (L : forall x X X' i j, apx x X (i * A) (j * ep) -> X = X' -> i = 6 -> j = 21 -> apx x X' (6 * A) (21 * ep)).
  { intros x X X' i j H -> -> ->. exact H. }
  repeat match goal with |- _ /\ _ => split end.
  - eapply L.
    + eapply (apx_minus A ep HA eq_refl HB); [| | | |eapply (apx_minus A ep HA eq_refl HB); [| | | |eapply (apx_minus A ep HA eq_refl HB); [| | | |apply Z; exact Fr|apply P; [exact Fa|exact Fi|exact Ba|exact Bi]]|apply P; [exact Fb|exact Fj|exact Bb|exact Bj]]|apply P; [exact Fc|exact Fk|exact Bc|exact Bk]]; lra.
    + ring.
    + ring.
    + ring.
  - eapply L.
    + eapply (apx_minus A ep HA eq_refl HB); [| | | |eapply (apx_plus A ep HA eq_refl HB); [| | | |eapply (apx_plus A ep HA eq_refl HB); [| | | |apply Z; exact Fi|apply P; [exact Fa|exact Fr|exact Ba|exact Br]]|apply P; [exact Fb|exact Fk|exact Bb|exact Bk]]|apply P; [exact Fc|exact Fj|exact Bc|exact Bj]]; lra.
    + ring.
    + ring.
    + ring.
  - eapply L.
    + eapply (apx_plus A ep HA eq_refl HB); [| | | |eapply (apx_plus A ep HA eq_refl HB); [| | | |eapply (apx_minus A ep HA eq_refl HB); [| | | |apply Z; exact Fj|apply P; [exact Fa|exact Fk|exact Ba|exact Bk]]|apply P; [exact Fb|exact Fr|exact Bb|exact Br]]|apply P; [exact Fc|exact Fi|exact Bc|exact Bi]]; lra.
    + ring.
    + ring.
    + ring.
  - eapply L.
    + eapply (apx_plus A ep HA eq_refl HB); [| | | |eapply (apx_minus A ep HA eq_refl HB); [| | | |eapply (apx_plus A ep HA eq_refl HB); [| | | |apply Z; exact Fk|apply P; [exact Fa|exact Fj|exact Ba|exact Bj]]|apply P; [exact Fb|exact Fi|exact Bb|exact Bi]]|apply P; [exact Fc|exact Fr|exact Bc|exact Br]]; lra.
    + ring.
    + ring.
    + ring.
Qed.

(** 0.5 is exact; half the sampling time *)
Lemma lit_half : finite (F_lit 5 1) /\ FR (F_lit 5 1) = / 2.
Proof.
  split; [now vm_compute|].
  unfold FR. replace (FloatOps.Prim2SF (F_lit 5 1)) with (SpecFloat.S754_finite false 4503599627370496 (-53))
    by (vm_compute; reflexivity).
  change (powerRZ 2 (-53)) with (/ (2 ^ Pos.to_nat 53)). rewrite pow_IZR.
  change (2 ^ Z.of_nat (Pos.to_nat 53))%Z with 9007199254740992%Z. lra.
Qed.

Definition lim : R := 2 ^ 200.
Lemma lim_facts : 1000 <= lim /\ lim * lim * 1000 <= big /\ lim * lim * 1000 <= 2 ^ 480 /\ lim * eta <= uu * / 1000.
Proof.
  assert (1000 <= 2 ^ 10) by lra.
  assert (P : forall n, 1 <= 2 ^ n) by (intros; apply pow_R1_Rle; lra).
  unfold lim, big. repeat split.
  - replace 200%nat with (10 + 190)%nat by reflexivity. rewrite pow_add. pose proof (P 190%nat). nra.
  - replace 1000%nat with (200 + 200 + 10 + 590)%nat by reflexivity. rewrite !pow_add.
    pose proof (P 200%nat). pose proof (P 590%nat).
    assert (0 <= 2 ^ 200 * 2 ^ 200) by nra. rewrite !Rmult_assoc. rewrite <- !(Rmult_assoc (2 ^ 200) (2 ^ 200)).
    apply Rmult_le_compat_l; auto. nra.
  - replace 480%nat with (200 + 200 + 10 + 70)%nat by reflexivity. rewrite !pow_add.
    pose proof (P 200%nat). pose proof (P 70%nat).
    assert (0 <= 2 ^ 200 * 2 ^ 200) by nra. rewrite !Rmult_assoc. rewrite <- !(Rmult_assoc (2 ^ 200) (2 ^ 200)).
    apply Rmult_le_compat_l; auto. nra.
  - unfold eta, uu. replace 1075%nat with (200 + 53 + 10 + 812)%nat by reflexivity. rewrite !pow_add.
    pose proof (P 200%nat). pose proof (P 53%nat). pose proof (P 812%nat). pose proof (P 10%nat).
    rewrite !Rinv_mult. rewrite <- !Rmult_assoc. rewrite Rinv_r by lra. rewrite Rmult_1_l.
    assert (0 < / 2 ^ 53) by (apply Rinv_0_lt_compat; lra). rewrite Rmult_assoc. apply Rmult_le_compat_l; [lra|].
    rewrite <- Rinv_mult. apply Rinv_le_contravar; [lra|]. nra.
Qed.

Lemma half_time t : finite t -> Rabs (FR t) <= lim -> finite (F_lit 5 1 * t)%float /\ Rabs (FR (F_lit 5 1 * t)%float) <= lim.
Proof.
  intros Ft Bt. destruct lit_half as (Fl & El). destruct lim_facts as (L1 & L2 & L3 & L4).
  pose proof uu_small. pose proof eta_pos. pose proof (Rabs_pos (FR t)).
  assert (M : Rabs (FR (F_lit 5 1) * FR t) <= / 2 * lim).
  { rewrite El, Rabs_mult, (Rabs_right (/ 2)) by lra. lra. }
  assert (F : finite (F_lit 5 1 * t)%float). { apply mul_finite; auto. nra. }
  split; auto. destruct (mul_err _ _ F) as (_ & _ & d & e & Hd & He & E). rewrite E.
  eapply Rle_trans; [apply Rabs_triang|]. rewrite Rabs_mult.
  assert (Rabs (1 + d) <= 1 + uu) by (eapply Rle_trans; [apply Rabs_triang|]; rewrite Rabs_R1; lra).
  assert (Rabs (FR (F_lit 5 1) * FR t) * Rabs (1 + d) <= (/ 2 * lim) * (1 + uu)) by (apply Rmult_le_compat; auto using Rabs_pos).
  assert (lim * uu <= lim * / 1000) by (apply Rmult_le_compat_l; lra).
  assert (eta <= 1). { assert (1 * eta <= lim * eta) by (apply Rmult_le_compat_r; lra). lra. }
  nra.
Qed.

Lemma sq_apart X d S : d * d <= (/ 100 * (1 + S)) * (/ 100 * (1 + S)) ->
  / 2 * (X * X) - / 1000 * (1 + S * S) <= (X + d) * (X + d).
Proof.
  intros D. assert (Q1 : 0 <= (X + 2 * d) * (X + 2 * d)) by apply Rle_0_sqr.
  assert (Q2 : 0 <= (1 - S) * (1 - S)) by apply Rle_0_sqr.
  replace ((X + 2 * d) * (X + 2 * d)) with (X * X + 4 * (X * d) + 4 * (d * d)) in Q1 by ring.
  replace ((1 - S) * (1 - S)) with (1 - 2 * S + S * S) in Q2 by ring.
  replace ((/ 100 * (1 + S)) * (/ 100 * (1 + S))) with (/ 10000 * (1 + 2 * S + S * S)) in D by field.
  replace ((X + d) * (X + d)) with (X * X + 2 * (X * d) + d * d) by ring.
  assert (Q3 : 0 <= S * S) by apply Rle_0_sqr. lra.
Qed.

(** one step never comes near the zero quaternion *)
Lemma fstep_big a b c t u : near_unit u -> finite a -> finite b -> finite c -> finite t ->
  Rabs (FR a) <= lim -> Rabs (FR b) <= lim -> Rabs (FR c) <= lim -> Rabs (FR t) <= lim ->
  finite_quat (fstep a b c t u)
  /\ (forall x, In x [qr (fstep a b c t u); qi (fstep a b c t u); qj (fstep a b c t u); qk (fstep a b c t u)] -> Rabs (FR x) <= 2 ^ 480)
  /\ / 4 <= norm2 (fstep a b c t u).
Proof.
  intros Hu Fa Fb Fc Ft Ba Bb Bc Bt. destruct lim_facts as (L1 & L2 & L3 & L4).
  pose proof uu_small as U. pose proof eta_pos as Ep.
  destruct (half_time t Ft Bt) as (Fh & Bh). set (h := (F_lit 5 1 * t)%float) in *.
  set (A := Rmax (Rabs (FR a)) (Rmax (Rabs (FR b)) (Rabs (FR c)))).
  assert (HA1 : Rabs (FR a) <= A) by apply Rmax_l.
  assert (HA2 : Rabs (FR b) <= A) by (eapply Rle_trans; [apply Rmax_l|apply Rmax_r]).
  assert (HA3 : Rabs (FR c) <= A) by (eapply Rle_trans; [apply Rmax_r|apply Rmax_r]).
  assert (HAl : A <= lim) by (repeat apply Rmax_lub; auto).
  assert (HA0 : 0 <= A) by (pose proof (Rabs_pos (FR a)); lra).
  assert (HAq : A * A <= FR a * FR a + FR b * FR b + FR c * FR c).
  { assert (S : forall x, Rabs x * Rabs x = x * x) by (intros; rewrite <- Rabs_mult; apply Rabs_right; nra).
    pose proof (S (FR a)). pose proof (S (FR b)). pose proof (S (FR c)).
    unfold A, Rmax. repeat destruct Rle_dec; nra. }
  assert (Hb : 1000 * A + 1000 <= big).
  { assert (1000 * lim <= lim * lim) by (apply Rmult_le_compat_r; lra). lra. }
  set (H := Rabs (FR h)) in *. assert (H0 : 0 <= H) by apply Rabs_pos.
  assert (HH : H * H = FR h * FR h) by (unfold H; rewrite <- Rabs_mult; apply Rabs_right; nra).
  pose proof (fmul4_err a b c u A Hu Fa Fb Fc HA1 HA2 HA3 Hb) as W. cbv zeta in W.
  set (w := fmul4 (Quat zero a b c) u) in *. set (ep := uu * A + eta) in *.
  pose proof (near_bound u Hu) as Nu. cbn [In] in Nu.
  destruct (Nu (qr u) ltac:(auto)) as (Fr & Br). destruct (Nu (qi u) ltac:(auto)) as (Fi & Bi).
  destruct (Nu (qj u) ltac:(auto)) as (Fj & Bj). destruct (Nu (qk u) ltac:(auto 6)) as (Fk & Bk).
  destruct Hu as (_ & Hn).
  assert (G0 : 0 <= A * H) by (apply Rmult_le_pos; auto).
  assert (G1 : A * H <= lim * lim) by (apply Rmult_le_compat; auto).
  assert (G1' : 1 * 1 <= lim * lim) by (apply Rmult_le_compat; lra).
  assert (G2 : 0 < uu * (A * H) + uu) by nra.
  assert (G3 : ep * H <= uu * (A * H) + uu * / 1000).
  { unfold ep. assert (eta * H <= eta * lim) by (apply Rmult_le_compat_l; lra). nra. }
  assert (G3' : 0 <= ep * H) by (apply Rmult_le_pos; auto; unfold ep; nra).
  assert (G4 : eta <= uu * / 1000). { assert (1 * eta <= lim * eta) by (apply Rmult_le_compat_r; lra). lra. }
  assert (G5 : uu * (A * H) <= / 1000000 * (A * H)) by (apply Rmult_le_compat_r; lra).
  assert (Key : forall v z Z, finite v -> Rabs (FR v) <= 2 -> apx z Z (6 * A) (21 * ep) ->
    apx (v + z * h)%float (FR v + Z * FR h) (2 + 6 * (A * H)) (40 * (uu * (A * H) + uu))).
  { intros v z Z Fv Bv Hz.
    assert (Hm := apx_mul z h Z (6 * A) (21 * ep) H Hz Fh (Rle_refl _)).
    assert (Hm2 : apx (z * h)%float (Z * FR h) (6 * (A * H)) (28 * (uu * (A * H) + uu))).
    { eapply apx_le; [apply Hm|lra|].
      - replace ((6 * A + 21 * ep) * H) with (6 * (A * H) + 21 * (ep * H)) by ring. lra.
      - replace (21 * ep * H + uu * ((6 * A + 21 * ep) * H) + eta)
          with (21 * (ep * H) + 6 * (uu * (A * H)) + 21 * (uu * (ep * H)) + eta) by ring.
        assert (uu * (ep * H) <= / 1000000 * (ep * H)) by (apply Rmult_le_compat_r; lra). lra. }
    assert (Hv : apx v (FR v) 2 0).
    { repeat split; auto. rewrite Rminus_diag_eq by reflexivity. rewrite Rabs_R0. lra. }
    eapply apx_le; [apply (apx_add _ _ _ _ _ _ _ _ Hv Hm2); lra|lra|].
    replace (0 + 28 * (uu * (A * H) + uu) + uu * (2 + 6 * (A * H) + 0 + 28 * (uu * (A * H) + uu)))
      with (34 * (uu * (A * H)) + 30 * uu + 28 * (uu * (uu * (A * H) + uu))) by ring.
    assert (uu * (uu * (A * H) + uu) <= / 1000000 * (uu * (A * H) + uu)) by (apply Rmult_le_compat_r; lra). lra. }
  destruct W as (W1 & W2 & W3 & W4).
  apply (Key _ _ _ Fr Br) in W1. apply (Key _ _ _ Fi Bi) in W2. apply (Key _ _ _ Fj Bj) in W3. apply (Key _ _ _ Fk Bk) in W4.
  assert (Eq : fstep a b c t u = Quat (qr u + qr w * h)%float (qi u + qi w * h)%float (qj u + qj w * h)%float (qk u + qk w * h)%float) by reflexivity.
  rewrite Eq. unfold finite_quat, norm2. cbn [qr qi qj qk]. clear Eq Key.
  assert (Bd : forall x X, apx x X (2 + 6 * (A * H)) (40 * (uu * (A * H) + uu)) -> Rabs (FR x) <= 2 ^ 480).
  { intros x X Hx. apply apx_abs in Hx. eapply Rle_trans; [exact Hx|]. clear - L3 G0 G1 G1' G5 U. lra. }
  split; [repeat split; [apply W1|apply W2|apply W3|apply W4]|]. split.
  { intros x Hx. cbn [In] in Hx. destruct Hx as [<-|[<-|[<-|[<-|[]]]]]; eapply Bd; eassumption. }
  assert (Sq : forall x X, apx x X (2 + 6 * (A * H)) (40 * (uu * (A * H) + uu)) ->
    / 2 * (X * X) - / 1000 * (1 + (A * H) * (A * H)) <= FR x * FR x).
  { intros x X (_ & _ & E). set (d := FR x - X) in *. replace (FR x) with (X + d) by (unfold d; ring).
    assert (Rabs d <= / 100 * (1 + A * H)) by lra.
    assert (D2 : d * d <= (/ 100 * (1 + A * H)) * (/ 100 * (1 + A * H))).
    { replace (d * d) with (Rabs d * Rabs d) by (rewrite <- Rabs_mult; apply Rabs_right; nra).
      apply Rmult_le_compat; auto using Rabs_pos. }
    apply sq_apart; auto. }
  apply Sq in W1. apply Sq in W2. apply Sq in W3. apply Sq in W4.
  set (r := FR (qr u)) in *. set (i := FR (qi u)) in *. set (j := FR (qj u)) in *. set (k := FR (qk u)) in *.
  set (x := FR a) in *. set (y := FR b) in *. set (z := FR c) in *. set (g := FR h) in *.
  assert (Id : (r + (- x * i - y * j - z * k) * g) * (r + (- x * i - y * j - z * k) * g)
    + (i + (x * r + y * k - z * j) * g) * (i + (x * r + y * k - z * j) * g)
    + (j + (- x * k + y * r + z * i) * g) * (j + (- x * k + y * r + z * i) * g)
    + (k + (x * j - y * i + z * r) * g) * (k + (x * j - y * i + z * r) * g)
    = (r * r + i * i + j * j + k * k) * (1 + (g * g) * (x * x + y * y + z * z))) by ring.
  assert (N1 : 999 / 1000 <= r * r + i * i + j * j + k * k).
  { apply Rabs_le_inv in Hn. unfold norm2 in Hn. fold r i j k in Hn. lra. }
  assert (N2 : (A * H) * (A * H) <= (g * g) * (x * x + y * y + z * z)).
  { replace ((A * H) * (A * H)) with ((H * H) * (A * A)) by ring. rewrite HH. apply Rmult_le_compat_l; [apply Rle_0_sqr|exact HAq]. }
  assert (N3 : 0 <= (A * H) * (A * H)) by apply Rle_0_sqr.
  assert (N4 : 999 / 1000 * (1 + (A * H) * (A * H)) <= (r * r + i * i + j * j + k * k) * (1 + (g * g) * (x * x + y * y + z * z))).
  { apply Rmult_le_compat; lra. }
  lra.
Qed.

Theorem ang_step_unit a b c t q : finite_quat q ->
  (forall x, In x [qr q; qi q; qj q; qk q] -> Rabs (FR x) <= 2 ^ 480) -> 2 / 1000000000000 <= norm2 q ->
  finite a -> finite b -> finite c -> finite t ->
  Rabs (FR a) <= lim -> Rabs (FR b) <= lim -> Rabs (FR c) <= lim -> Rabs (FR t) <= lim ->
  near_unit (funit (fstep a b c t (funit q))).
Proof.
  intros Hq Hb Hn Fa Fb Fc Ft Ba Bb Bc Bt. destruct (funit_regular q Hq Hb Hn) as (_ & Hu).
  destruct (fstep_big a b c t (funit q)) as (F & B & S); auto.
  apply funit_regular; auto. lra.
Qed.

Lemma near_regular q : near_unit q -> finite_quat q /\
  (forall x, In x [qr q; qi q; qj q; qk q] -> Rabs (FR x) <= 2 ^ 480) /\ 2 / 1000000000000 <= norm2 q.
Proof.
  intros H. split; [apply H|]. split.
  - intros x Hx. apply (near_bound q H) in Hx. eapply Rle_trans; [apply Hx|].
    replace 480%nat with (1 + 479)%nat by reflexivity. rewrite pow_add.
    assert (1 <= 2 ^ 479) by (apply pow_R1_Rle; lra). lra.
  - destruct H as (_ & H). apply Rabs_le_inv in H. pose proof uu_small. lra.
Qed.
