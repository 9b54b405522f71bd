(** Sample variance in machine arithmetic *)
From Coq Require Import Floats.PrimFloat.
From Coq Require Import ZArith Reals Lra Lia List Bool.
From Verif Require Import Base BaseFacts NumF SpecVec SpecReal SpecStat SpecFlt PFlt PFltSum PFltUnit.
From Verif Require Import MVec MMtx MStat PVec.
Import ListNotations.
Open Scope R_scope.

Definition fmean (xs : list float) : float := (total xs / F_of_Z (Z.of_nat (length xs)))%float.
Definition fdev (xs : list float) : list float := map (fun x => x + - fmean xs)%float xs.

Lemma var_F bc W (xs : list float) tx :
  (2 <= length xs)%nat -> (Z.of_nat (length xs) <= W)%Z ->
  sta_var bc W (vec_of xs tx)
  = Ok (0%Z, Some (dot (fdev xs) (fdev xs) / F_of_Z (Z.of_nat (length xs - 1)))%float).
Proof.
  intros H HW. unfold sta_var. change (vsz (vec_of xs tx)) with (length xs).
  assert (E : sta_demean bc (vec_of xs tx) (vdef (length xs)) = Ok (0%Z, vec_of (fdev xs) [])).
  { unfold sta_demean, vdef. change (vsz (vec_of xs tx)) with (length xs). cbn [vsz].
    rewrite Nat.eqb_refl. cbn [negb]. rewrite andb_false_r.
    rewrite vec_copy_ok by (unfold fresh; rewrite repeat_length; lia). cbn [bind].
    unfold sta_mean. rewrite vec_ar_mean_ok by (destruct xs; [cbn in H; lia|discriminate]).
    cbn [fdiv NumF bind lval]. rewrite vec_scalar_add_ok. cbn [bind].
    unfold fresh. rewrite skipn_all2 by (rewrite repeat_length; lia). reflexivity. }
  rewrite E. cbn [bind]. unfold vec_of; cbn [vbuf].
  assert (L : length (fdev xs) = length xs) by (unfold fdev; apply map_length).
  assert (D : for_ (length xs) 0 (fun i s => let! a := rd (cells (fdev xs) ++ []) i in
                Ok (fadd s (fmul a a))) f0 = Ok (dot (fdev xs) (fdev xs))).
  { rewrite <- (dot_loop (fdev xs) (fdev xs) [] [] L L).
    apply for_ext. intros i s Hi. rewrite rd_cells_app with (d := f0) by lia. reflexivity. }
  rewrite D. cbn [bind fdiv NumF fofZ].
  replace ((Z.of_nat (length xs) - 1) mod W)%Z with (Z.of_nat (length xs - 1))
    by (rewrite Z.mod_small; lia).
  reflexivity.
Qed.

Lemma opp_FR x : FR (- x)%float = - FR x.
Proof.
  rewrite !FR_B2R, Flocq.IEEE754.PrimFloat.opp_equiv. apply BinarySingleNaN.B2R_Bopp.
Qed.

Lemma opp_finite x : finite (- x)%float <-> finite x.
Proof.
  rewrite !finite_B, Flocq.IEEE754.PrimFloat.opp_equiv, BinarySingleNaN.is_finite_Bopp. tauto.
Qed.

Lemma rnd_nonneg r : 0 <= r -> 0 <= rnd64 r.
Proof.
  intros H. apply Generic_fmt.round_ge_generic; auto.
  - apply (BinarySingleNaN.fexp_correct FloatOps.prec FloatOps.emax PrimFloat.Hprec).
  - apply Generic_fmt.valid_rnd_N.
  - apply Generic_fmt.generic_format_0.
Qed.

Lemma map2_snoc {A B} (f : A -> A -> B) xs x :
  map2 f (xs ++ [x]) (xs ++ [x]) = map2 f xs xs ++ [f x x].
Proof. induction xs; cbn; auto. now rewrite IHxs. Qed.

(** Sums of squares are never negative *)
Lemma dot_sq_nonneg (xs : list float) : finite (dot xs xs) -> 0 <= FR (dot xs xs).
Proof.
  unfold dot. induction xs as [|x xs IH] using rev_ind; [intros _; change (0 <= FR zero); rewrite FR_zero; lra|].
  replace (map2 fmul (xs ++ [x]) (xs ++ [x])) with (map2 fmul xs xs ++ [fmul x x])
    by (symmetry; apply (map2_snoc fmul)).
  rewrite fold_left_app. cbn [fold_left].
  intros H. change (finite (fold_left fadd (map2 fmul xs xs) f0 + x * x)%float) in H.
  change (0 <= FR (fold_left fadd (map2 fmul xs xs) f0 + x * x)%float).
  apply add_rnd in H as (H1 & H2 & ->). apply mul_rnd in H2 as (_ & _ & ->).
  apply IH in H1. apply rnd_nonneg.
  pose proof (rnd_nonneg (FR x * FR x) (Rle_0_sqr _)). lra.
Qed.

(** squared deviations from any centre *)
Definition sqdev (m : R) (xs : list R) : R := rsum (map (fun x => (x - m) * (x - m)) xs).

Lemma sqdev_dev m (xs : list R) : rdot (map (fun x => x - m) xs) (map (fun x => x - m) xs) = sqdev m xs.
Proof. unfold sqdev. induction xs; cbn; auto. now rewrite IHxs. Qed.

Lemma sqdev_shift (xs : list R) d : xs <> [] ->
  sqdev (rmean xs + d) xs = sqdev (rmean xs) xs + INR (length xs) * (d * d).
Proof.
  intros H.
  assert (E : forall m, sqdev m xs = rsum (map (fun x => x * x) xs) - 2 * m * rsum xs
                                   + INR (length xs) * (m * m)).
  { intros m. unfold sqdev. clear H. induction xs as [|x xs IH]; [cbn; ring|].
    cbn [map rsum length]. rewrite IH, S_INR. ring. }
  rewrite !E. assert (P : INR (length xs) <> 0) by (apply not_0_INR; destruct xs; [contradiction|discriminate]).
  replace (rsum xs) with (INR (length xs) * rmean xs) by (unfold rmean; field; auto). ring.
Qed.

Lemma sqdev_nonneg m xs : 0 <= sqdev m xs.
Proof. rewrite <- sqdev_dev. apply rdot_sq_nonneg. Qed.

(** The deviations, each rounded once *)
Lemma fdev_err c (xs : list float) :
  Forall finite (map (fun x => x + - c)%float xs) ->
  let ds := map FR (map (fun x => x + - c)%float xs) in
  rdot ds ds <= (1 + uu) * (1 + uu) * sqdev (FR c) (map FR xs) /\
  (1 - uu) * (1 - uu) * sqdev (FR c) (map FR xs) <= rdot ds ds.
Proof.
  pose proof uu_pos as U0. assert (U : uu < 1) by (rewrite uu_val; lra).
  unfold sqdev. induction xs as [|x xs IH]; intros F; [cbn; lra|].
  cbn [map] in F. inversion F as [|z zs Fz Fzs]; subst. apply IH in Fzs as (B1 & B2).
  apply add_err in Fz as (_ & _ & d & Hd & E). rewrite opp_FR in E.
  cbv zeta. cbn [map rdot rsum]. rewrite E.
  set (t := FR x + - FR c) in *.
  replace (FR x - FR c) with t by (unfold t; ring).
  assert (T : 0 <= t * t) by apply Rle_0_sqr.
  assert (D : - uu <= d <= uu) by (revert Hd; unfold Rabs; destruct Rcase_abs; lra).
  replace (t * (1 + d) * (t * (1 + d))) with ((1 + d) * (1 + d) * (t * t)) by ring.
  assert ((1 + d) * (1 + d) <= (1 + uu) * (1 + uu)) by nra.
  assert ((1 - uu) * (1 - uu) <= (1 + d) * (1 + d)) by nra.
  split; nra.
Qed.

Lemma var_err (xs : list float) :
  let n := length xs in
  let v := (dot (fdev xs) (fdev xs) / F_of_Z (Z.of_nat (n - 1)))%float in
  let m := rmean (map FR xs) in
  let b := gam (S n) * rmean (map Rabs (map FR xs)) + eta in
  let c := INR n / (INR n - 1) * (b * b) in
  (2 <= n)%nat -> (Z.of_nat n < 2 ^ 53)%Z -> finite v ->
  Forall finite xs /\ 0 <= FR v /\
  Rabs (FR v - sqdev m (map FR xs) / (INR n - 1))
    <= gam (n + 4) * (sqdev m (map FR xs) / (INR n - 1) + c) + c
       + ((1 + gam n) * INR n + 1) * 2 * eta.
Proof.
  intros n v m b c Hn Hn' Hv.
  pose proof uu_pos as U. pose proof uu_val as Ev. pose proof eta_pos as Pe.
  assert (Hn1 : (Z.of_nat (n - 1) < 2 ^ 53)%Z) by lia.
  destruct (FR_of_nat _ Hn1) as (_ & En). rewrite minus_INR in En by lia. change (INR 1) with 1 in En.
  assert (P1 : 1 <= INR n - 1) by (pose proof (le_INR 2 n Hn) as X; cbn in X; lra).
  assert (Lf : length (fdev xs) = n) by (unfold fdev; now rewrite map_length).
  unfold v in *. set (p := dot (fdev xs) (fdev xs)) in *.
  destruct (div_rnd p _ ltac:(rewrite En; lra) Hv) as (_ & Ernd).
  apply div_err in Hv; [|rewrite En; lra].
  destruct Hv as (Fp & d & e & Hd & He & E).
  destruct (dot_err (fdev xs) (fdev xs) eq_refl Fp) as (Fd & _ & B).
  rewrite abs_products, abs_squares, Lf in B. fold p in B.
  (* the inputs and the mean are finite *)
  assert (Hne : xs <> []) by (destruct xs; [cbn in *; lia|discriminate]).
  assert (Ffm : Forall finite xs /\ finite (fmean xs)).
  { unfold fdev in Fd. revert Fd. generalize (fmean xs) as q. intros q Fd.
    split.
    - clear - Fd. rewrite Forall_map in Fd. eapply Forall_impl; [|exact Fd].
      cbv beta. intros a Ha. now apply add_rnd in Ha.
    - destruct xs as [|x xs']; [contradiction|]. cbn [map] in Fd.
      inversion Fd as [|z zs Fz _]; subst. apply add_rnd in Fz as (_ & Fz & _).
      exact (proj1 (opp_finite _) Fz). }
  destruct Ffm as (Fx & Fm).
  destruct (mean_err (xs := xs)) as (_ & Bm); auto. fold (fmean xs) n m b in Bm.
  destruct (fdev_err _ _ Fd) as (D1 & D2). fold (fdev xs) in D1, D2.
  set (D := rdot (map FR (fdev xs)) (map FR (fdev xs))) in *.
  set (dl := FR (fmean xs) - m) in *.
  assert (Q : sqdev (FR (fmean xs)) (map FR xs) = sqdev m (map FR xs) + INR n * (dl * dl)).
  { replace (FR (fmean xs)) with (m + dl) by (unfold dl; ring). unfold m.
    rewrite sqdev_shift by (destruct xs; [contradiction|discriminate]). now rewrite map_length. }
  rewrite Q in D1, D2. set (S0 := sqdev m (map FR xs)) in *.
  assert (PS : 0 <= S0) by apply sqdev_nonneg.
  assert (Hdl : dl * dl <= b * b).
  { rewrite <- (Rabs_pos_eq (dl * dl)) by apply Rle_0_sqr. rewrite Rabs_mult.
    apply Rmult_le_compat; auto; apply Rabs_pos. }
  assert (Pdl : 0 <= dl * dl) by apply Rle_0_sqr.
  set (q := S0 + INR n * (dl * dl)) in *.
  assert (Pq : 0 <= q) by (unfold q; assert (0 <= INR n * (dl * dl)) by (apply Rmult_le_pos; lra); lra).
  set (h := (1 + gam n) * INR n * eta).
  pose proof (gam_nonneg n) as Gn.
  assert (Ph : 0 <= h) by (unfold h; apply Rmult_le_pos; [apply Rmult_le_pos|]; lra).
  assert (Bp : Rabs (FR p - q) <= gam (n + 3) * q + h).
  { unfold dot_bound in B. fold h in B.
    assert (G3 : gam (n + 3) = (1 + uu) * (1 + uu) * gam (S n) + (2 * uu + uu * uu)).
    { replace (n + 3)%nat with (S (S (S n))) by lia. rewrite !gam_S. ring. }
    assert (DQ : Rabs (D - q) <= (2 * uu + uu * uu) * q).
    { assert (0 <= uu * uu * q) by (apply Rmult_le_pos; [apply Rmult_le_pos; lra|auto]).
      unfold Rabs; destruct Rcase_abs; lra. }
    pose proof (gam_nonneg (S n)) as Gs.
    assert (gam (S n) * D <= gam (S n) * ((1 + uu) * (1 + uu) * q)) by (apply Rmult_le_compat_l; auto).
    replace (FR p - q) with ((FR p - D) + (D - q)) by ring.
    eapply Rle_trans; [apply Rabs_triang|]. rewrite G3. lra. }
  split; [auto|split].
  - (* the variance is not negative *)
    rewrite Ernd, En.
    apply rnd_nonneg. apply Rmult_le_pos; [now apply dot_sq_nonneg|].
    apply Rlt_le, Rinv_0_lt_compat. lra.
  - rewrite E, En.
    assert (Bp2 : Rabs (FR p * (1 + d) - q) <= gam (n + 4) * q + (1 + uu) * h).
    { replace (n + 4)%nat with (S (n + 3)) by lia. rewrite gam_S. apply norm_step; auto. }
    set (w := INR n - 1) in *.
    assert (Pw : 0 < / w) by (apply Rinv_0_lt_compat; lra).
    assert (Pw1 : / w <= 1) by (rewrite <- Rinv_1; apply Rinv_le_contravar; lra).
    replace (FR p / w * (1 + d) + e - S0 / w)
      with ((FR p * (1 + d) - q) * / w + INR n / w * (dl * dl) + e) by (unfold q, Rdiv; ring).
    eapply Rle_trans; [apply Rabs_triang|].
    eapply Rle_trans; [apply Rplus_le_compat_r, Rabs_triang|].
    rewrite Rabs_mult, (Rabs_pos_eq (/ w)) by lra.
    assert (Pnw : 0 <= INR n / w) by (apply Rmult_le_pos; [apply pos_INR|lra]).
    rewrite (Rabs_pos_eq (INR n / w * (dl * dl))) by (apply Rmult_le_pos; auto).
    assert (C1 : INR n / w * (dl * dl) <= c) by (unfold c; apply Rmult_le_compat_l; auto).
    assert (C2 : Rabs (FR p * (1 + d) - q) * / w <= (gam (n + 4) * q + (1 + uu) * h) * / w)
      by (apply Rmult_le_compat_r; [lra|auto]).
    assert (C3 : (gam (n + 4) * q + (1 + uu) * h) * / w
                 = gam (n + 4) * (S0 / w + INR n / w * (dl * dl)) + (1 + uu) * h * / w)
      by (unfold q, Rdiv; ring).
    pose proof (gam_nonneg (n + 4)) as G4.
    assert (C4 : gam (n + 4) * (S0 / w + INR n / w * (dl * dl)) <= gam (n + 4) * (S0 / w + c))
      by (apply Rmult_le_compat_l; [auto|lra]).
    assert (C5 : (1 + uu) * h * / w <= 2 * h * 1).
    { apply Rmult_le_compat; try lra; [apply Rmult_le_pos; lra|].
      apply Rmult_le_compat_r; auto. rewrite Ev. lra. }
    replace (((1 + gam n) * INR n + 1) * 2 * eta) with (2 * h + 2 * eta) by (unfold h; ring).
    lra.
Qed.
