(** Property C163: statistics do not depend on the order of the data, and
    follow a change of units x -> a x + b as the quantities they measure do. *)
From Coq Require Import List Arith ZArith Bool Lia Reals Lra Psatz Permutation Sorted.
From Verif Require Import Base BaseFacts SpecVec SpecReal SpecStat MVec PVec PVecR NumR
  Libm LibmR MMtx MStat PSort PStat PStatOrd PStatReg PropStat.
Import ListNotations.
Local Open Scope R_scope.

(** the data in other units *)
Definition units (a b : R) (xs : list R) : list R := map (fun x => a * x + b) xs.

Lemma units_length a b xs : length (units a b xs) = length xs.
Proof. apply map_length. Qed.

Lemma units_nonempty a b xs : xs <> [] -> units a b xs <> [].
Proof. destruct xs; [contradiction|discriminate]. Qed.

Lemma units_sum a b xs : rsum (units a b xs) = a * rsum xs + INR (length xs) * b.
Proof. induction xs as [|x xs IH]; [cbn; ring|]. cbn [units map rsum length]. fold (units a b xs). rewrite IH, S_INR. ring. Qed.

Lemma units_mean a b xs : xs <> [] -> rmean (units a b xs) = a * rmean xs + b.
Proof.
  intros H. unfold rmean. rewrite units_length, units_sum. pose proof (INR_length_pos xs H). field. lra.
Qed.

Lemma units_dev a b xs : xs <> [] -> dev (units a b xs) = rscale a (dev xs).
Proof.
  intros H. unfold dev, rscale. rewrite units_mean by exact H. unfold units. rewrite !map_map.
  apply map_ext. intros x. ring.
Qed.

Lemma units_dot a b c d xs ys : xs <> [] -> ys <> [] ->
  rdot (dev (units a b xs)) (dev (units c d ys)) = a * c * rdot (dev xs) (dev ys).
Proof.
  intros Hx Hy. rewrite !units_dev by assumption. rewrite rdot_scale_l, rdot_comm, rdot_scale_l, rdot_comm. ring.
Qed.

(** * One series in other units *)
Theorem C163_units :
  forall bc W a b xs tx, (2 <= length xs)%nat -> (Z.of_nat (length xs) <= W)%Z ->
  exists m s2 d,
    sta_mean (vec_of xs tx) = Ok (0%Z, Some m)
    /\ sta_mean (vec_of (units a b xs) tx) = Ok (0%Z, Some (a * m + b))
    /\ sta_var bc W (vec_of xs tx) = Ok (0%Z, Some s2)
    /\ sta_var bc W (vec_of (units a b xs) tx) = Ok (0%Z, Some (a * a * s2))
    /\ sta_std_dev bc W (vec_of xs tx) = Ok (0%Z, Some (sqrt s2))
    /\ sta_std_dev bc W (vec_of (units a b xs) tx) = Ok (0%Z, Some (Rabs a * sqrt s2))
    /\ sta_mean_abs_dev bc (vec_of xs tx) = Ok (0%Z, Some d)
    /\ sta_mean_abs_dev bc (vec_of (units a b xs) tx) = Ok (0%Z, Some (Rabs a * d)).
Proof.
  intros bc W a b xs tx H2 HW. assert (Hx : xs <> []) by (intros ->; cbn in H2; lia).
  pose proof (units_nonempty a b xs Hx) as Hu.
  assert (V : variance (units a b xs) = a * a * variance xs).
  { unfold variance, covariance. rewrite units_length, units_dot by exact Hx. unfold Rdiv. ring. }
  exists (rmean xs), (variance xs), (rmean (map Rabs (dev xs))).
  refine (conj _ (conj _ (conj _ (conj _ (conj _ (conj _ (conj _ _))))))).
  - apply (C51_mean xs tx Hx).
  - rewrite (proj1 (C51_mean _ tx Hu)). do 2 f_equal. rewrite <- units_mean by exact Hx. reflexivity.
  - now apply var_ok.
  - rewrite var_ok by (rewrite units_length; assumption). now rewrite V.
  - now apply std_dev_ok.
  - rewrite std_dev_ok by (rewrite units_length; assumption). rewrite V.
    rewrite sqrt_mult_alt by apply Rle_0_sqr. fold (Rsqr a). now rewrite sqrt_Rsqr_abs.
  - now rewrite mean_abs_dev_ok.
  - rewrite mean_abs_dev_ok by exact Hu.
    assert (E : rmean (map Rabs (dev (units a b xs))) = Rabs a * rmean (map Rabs (dev xs))); [|now rewrite E].
    rewrite units_dev by exact Hx.
    replace (map Rabs (rscale a (dev xs))) with (rscale (Rabs a) (map Rabs (dev xs)))
      by (unfold rscale; rewrite !map_map; apply map_ext; intros; now rewrite Rabs_mult).
    assert (S : forall k l, rsum (rscale k l) = k * rsum l) by (induction l as [|x l IH]; cbn [rscale map rsum] in *; [ring | unfold rscale in IH; rewrite IH; ring]).
    unfold rmean. rewrite S. unfold rscale. rewrite !map_length. unfold Rdiv. ring.
Qed.
Print Assumptions C163_units.

(** * Two series in other units *)
Theorem C163_units_pairs :
  forall bc W a b c d xs ys tx ty, length xs = length ys -> spread xs -> spread ys -> a <> 0 -> c <> 0 ->
  (Z.of_nat (length xs) <= W)%Z ->
  exists k s t r,
    sta_covar bc W (vec_of xs tx) (vec_of ys ty) = Ok (0%Z, Some k)
    /\ sta_covar bc W (vec_of (units a b xs) tx) (vec_of (units c d ys) ty) = Ok (0%Z, Some (a * c * k))
    /\ sta_linear_reg bc (vec_of xs tx) (vec_of ys ty) = Ok (0%Z, Some (s, t, Ok r))
    /\ sta_linear_reg bc (vec_of (units a b xs) tx) (vec_of (units c d ys) ty)
       = Ok (0%Z, Some (c / a * s, c * t + d - c / a * s * b, Ok (if Rlt_dec 0 (a * c) then r else - r))).
Proof.
  intros bc W a b c d xs ys tx ty HL Sx Sy Ha Hc HW.
  assert (SU : forall k e l, k <> 0 -> spread l -> spread (units k e l)).
  { intros k e l Hk S (v & F). apply S. exists ((v - e) / k). unfold units in F. rewrite Forall_map in F.
    eapply Forall_impl; [|exact F]. cbv beta. intros x <-. field. exact Hk. }
  destruct (spread_pos xs Sx) as [Hx Dx]. destruct (spread_pos ys Sy) as [Hy Dy].
  assert (H2 : (2 <= length xs)%nat).
  { destruct xs as [|x [|x' l]]; [contradiction| |cbn; lia]. exfalso. apply Sx. exists x. repeat constructor. }
  exists (covariance xs ys), (reg_slope xs ys), (reg_icpt xs ys), (reg_corr xs ys).
  assert (SL : reg_slope (units a b xs) (units c d ys) = c / a * reg_slope xs ys).
  { unfold reg_slope. rewrite !units_dot by assumption. field. split; [lra|exact Ha]. }
  refine (conj _ (conj _ (conj _ _))).
  - now apply covar_ok.
  - rewrite covar_ok by (rewrite ?units_length; assumption). do 2 f_equal.
    unfold covariance. rewrite units_length, units_dot by assumption. f_equal. unfold Rdiv. ring.
  - rewrite linear_reg_ok by assumption. destruct (C56_linear_reg bc xs ys tx ty HL Sx) as (s & t & r & E & _ & _ & C).
    rewrite linear_reg_ok in E by assumption. destruct (C Sy) as (-> & _). congruence.
  - rewrite linear_reg_ok by (rewrite ?units_length; auto).
    destruct (C56_linear_reg bc (units a b xs) (units c d ys) tx ty) as (s & t & r & E & _ & _ & C); [rewrite !units_length; exact HL | auto |].
    rewrite linear_reg_ok in E by (rewrite ?units_length; auto). destruct (C (SU _ _ _ Hc Sy)) as (-> & _).
    assert (O : opt_corr (units a b xs) (units c d ys) = Ok (reg_corr (units a b xs) (units c d ys))) by congruence.
    rewrite O. assert (RC : reg_corr (units a b xs) (units c d ys) = if Rlt_dec 0 (a * c) then reg_corr xs ys else - reg_corr xs ys).
    { unfold reg_corr. rewrite !units_dot by assumption.
      replace (a * a * rdot (dev xs) (dev xs) * (c * c * rdot (dev ys) (dev ys)))
        with ((a * c) * (a * c) * (rdot (dev xs) (dev xs) * rdot (dev ys) (dev ys))) by ring.
      rewrite sqrt_mult_alt by apply Rle_0_sqr. fold (Rsqr (a * c)). rewrite sqrt_Rsqr_abs.
      assert (P : 0 < sqrt (rdot (dev xs) (dev xs) * rdot (dev ys) (dev ys))) by (apply sqrt_lt_R0; nra).
      assert (AC : a * c <> 0) by (apply Rmult_integral_contrapositive; auto).
      destruct Rlt_dec as [L|L].
      - rewrite Rabs_right by lra. field. split; [lra | split; assumption].
      - rewrite Rabs_left by lra. field. split; [lra | split; assumption]. }
    rewrite RC, SL. unfold reg_icpt. rewrite SL, !units_mean by assumption.
    assert (I : c * rmean ys + d - c / a * reg_slope xs ys * (a * rmean xs + b)
      = c * (rmean ys - reg_slope xs ys * rmean xs) + d - c / a * reg_slope xs ys * b) by (field; exact Ha).
    now rewrite I.
Qed.
Print Assumptions C163_units_pairs.

(** * The median, for a positive factor and as long as the sort keeps the data
    apart in both units *)
Theorem C163_units_median :
  forall bc fuel g a b xs tx, 0 < a -> xs <> [] ->
  separated xs -> separated (units a b xs) -> (2 * length xs <= fuel)%nat -> (Z.of_nat (length xs) <= 2147483647)%Z ->
  exists m, sta_median bc fuel (Some g) (vec_of xs tx) = Ok (0%Z, Some m)
    /\ sta_median bc fuel (Some g) (vec_of (units a b xs) tx) = Ok (0%Z, Some (a * m + b)).
Proof.
  intros bc fuel g a b xs tx Ha Hx S S' HF HZ. destruct (sort_exists xs) as (ys & P & So).
  assert (L : (1 <= length xs)%nat) by (destruct xs; [contradiction | cbn; lia]).
  pose proof (Permutation_length P) as PL.
  assert (P' : Permutation (units a b xs) (units a b ys)) by now apply Permutation_map.
  assert (So' : StronglySorted Rle (units a b ys)).
  { clear -So Ha. induction So as [|y ys So IH F]; [constructor|]. cbn [units map]. constructor; [exact IH|].
    apply Forall_map. eapply Forall_impl; [|exact F]. cbv beta. intros z Hz. nra. }
  assert (N : forall k, (k < length ys)%nat -> nth k (units a b ys) 0 = a * nth k ys 0 + b).
  { intros k Hk. unfold units. rewrite (nth_indep _ 0 (a * 0 + b)) by (rewrite map_length; exact Hk).
    apply (map_nth (fun x => a * x + b)). }
  destruct (Nat.Even_or_Odd (length xs)) as [(m & E)|(m & E)].
  - exists ((nth (m - 1) ys 0 + nth m ys 0) / 2). split.
    + now apply (C53_median bc fuel g xs ys tx m).
    + rewrite (proj2 (C53_median bc fuel g (units a b xs) (units a b ys) tx m S' ltac:(rewrite units_length; lia)
        ltac:(rewrite units_length; lia) ltac:(rewrite units_length; lia) P' So')) by (rewrite units_length; exact E).
      rewrite !N by lia. do 2 f_equal. f_equal. field.
  - exists (nth m ys 0). split.
    + apply (C53_median bc fuel g xs ys tx m); auto; lia.
    + rewrite (proj1 (C53_median bc fuel g (units a b xs) (units a b ys) tx m S' ltac:(rewrite units_length; lia)
        ltac:(rewrite units_length; lia) ltac:(rewrite units_length; lia) P' So')) by (rewrite units_length; lia).
      rewrite !N by lia. reflexivity.
Qed.
Print Assumptions C163_units_median.

(** In units in which the data are small the median is lost: 1 kilometre is 1,
    1 millimetre in the same units is 0 *)
Theorem C163_median_refuted :
  forall bc g tx,
  sta_median bc 2 (Some g) (vec_of [1] tx) = Ok (0%Z, Some 1)
  /\ sta_median bc 2 (Some g) (vec_of (units (/ 1000000) 0 [1]) tx) = Ok (0%Z, Some 0).
Proof.
  intros bc g tx. split.
  - refine (proj1 (C53_median bc 2 g [1] [1] tx 0 _ _ _ _ (Permutation_refl _) _) _); try (cbn; lia); [|repeat constructor].
    intros x y [<-|[<-|[]]] [<-|[<-|[]]]; unfold apart; try (now left); right; unfold Rabs; destruct Rcase_abs; lra.
  - replace (units (/ 1000000) 0 [1]) with [/ 1000000] by (cbn; f_equal; lra). apply C53_close_values_refuted.
Qed.
Print Assumptions C163_median_refuted.

(** * The order of the data *)
Lemma dev_perm xs ys : Permutation xs ys -> Permutation (dev xs) (dev ys).
Proof.
  intros P. unfold dev. assert (E : rmean xs = rmean ys) by (unfold rmean; now rewrite (rsum_perm _ _ P), (Permutation_length P)).
  rewrite E. now apply Permutation_map.
Qed.

Theorem C163_order :
  forall bc W xs ys tx ty, Permutation xs ys -> (2 <= length xs)%nat -> (Z.of_nat (length xs) <= W)%Z ->
  sta_mean (vec_of xs tx) = sta_mean (vec_of ys ty)
  /\ sta_var bc W (vec_of xs tx) = sta_var bc W (vec_of ys ty)
  /\ sta_std_dev bc W (vec_of xs tx) = sta_std_dev bc W (vec_of ys ty)
  /\ sta_mean_abs_dev bc (vec_of xs tx) = sta_mean_abs_dev bc (vec_of ys ty).
Proof.
  intros bc W xs ys tx ty P H2 HW. pose proof (Permutation_length P) as PL.
  assert (Hx : xs <> []) by (intros ->; cbn in H2; lia).
  assert (Hy : ys <> []) by (intros ->; cbn in PL; lia).
  assert (V : variance xs = variance ys).
  { unfold variance, covariance. rewrite PL. f_equal. rewrite <- !rsum_map2. apply rsum_perm.
    assert (Q : forall l : list R, map2 Rmult l l = map (fun x => x * x) l) by (induction l as [|x l IH]; cbn; [auto | now rewrite IH]).
    rewrite !Q. now apply Permutation_map, dev_perm. }
  refine (conj _ (conj _ (conj _ _))).
  - rewrite (proj1 (C51_mean xs tx Hx)), (proj1 (C51_mean ys ty Hy)). now rewrite (rsum_perm _ _ P), PL.
  - rewrite !var_ok by (rewrite <- ?PL; assumption). now rewrite V.
  - rewrite !std_dev_ok by (rewrite <- ?PL; assumption). now rewrite V.
  - rewrite !mean_abs_dev_ok by assumption. unfold rmean.
    rewrite !map_length, (rsum_perm _ _ (Permutation_map Rabs (dev_perm _ _ P))). unfold dev. now rewrite !map_length, PL.
Qed.
Print Assumptions C163_order.

(** pairs of data in another order *)
Lemma dot_pairs xs ys us vs : length xs = length ys -> length us = length vs ->
  Permutation (combine xs ys) (combine us vs) -> rdot xs ys = rdot us vs /\ Permutation xs us /\ Permutation ys vs.
Proof.
  intros L L' P.
  assert (Q : forall a b : list R, length a = length b ->
    rdot a b = rsum (map (fun p => fst p * snd p) (combine a b)) /\ map fst (combine a b) = a /\ map snd (combine a b) = b).
  { induction a as [|x a IH]; intros [|y b] E; try discriminate E; [now repeat split|]. injection E as E.
    destruct (IH b E) as (A & B & C). unfold rdot in *. cbn. rewrite B, C. repeat split. f_equal. exact A. }
  destruct (Q xs ys L) as (-> & X1 & X2). destruct (Q us vs L') as (-> & U1 & U2).
  split; [now apply rsum_perm, Permutation_map|].
  split; [rewrite <- X1, <- U1 | rewrite <- X2, <- U2]; now apply Permutation_map.
Qed.

Theorem C163_order_pairs :
  forall bc W xs ys us vs tx ty tu tv, length xs = length ys -> length us = length vs ->
  Permutation (combine xs ys) (combine us vs) -> spread xs -> (Z.of_nat (length xs) <= W)%Z ->
  sta_covar bc W (vec_of xs tx) (vec_of ys ty) = sta_covar bc W (vec_of us tu) (vec_of vs tv)
  /\ sta_linear_reg bc (vec_of xs tx) (vec_of ys ty) = sta_linear_reg bc (vec_of us tu) (vec_of vs tv).
Proof.
  intros bc W xs ys us vs tx ty tu tv L L' P Sx HW. destruct (dot_pairs _ _ _ _ L L' P) as (_ & Px & Py).
  pose proof (Permutation_length Px) as Lx. pose proof (Permutation_length Py) as Ly.
  assert (Su : spread us).
  { intros (c & F). apply Sx. exists c. rewrite Forall_forall in *. intros x Hx. apply F. now apply (Permutation_in _ Px). }
  assert (H2 : (2 <= length xs)%nat).
  { destruct xs as [|x [|x' l]]; [exfalso; apply Sx; exists 0; constructor| |cbn; lia]. exfalso. apply Sx. exists x. repeat constructor. }
  assert (M : rmean xs = rmean us /\ rmean ys = rmean vs).
  { unfold rmean. rewrite (rsum_perm _ _ Px), (rsum_perm _ _ Py), Lx, Ly. auto. }
  destruct M as (Mx & My).
  assert (PD : Permutation (combine (dev xs) (dev ys)) (combine (dev us) (dev vs))).
  { assert (Q : forall (a b : list R) m n, combine (map (fun x => x - m) a) (map (fun y => y - n) b)
      = map (fun p => (fst p - m, snd p - n)) (combine a b)).
    { induction a as [|x a IH]; intros [|y b] m n; cbn; auto. now rewrite IH. }
    unfold dev. rewrite !Q, Mx, My. now apply Permutation_map. }
  destruct (dot_pairs (dev xs) (dev ys) (dev us) (dev vs)) as (D & _); [unfold dev; rewrite !map_length; assumption..|exact PD|].
  assert (DX : rdot (dev xs) (dev xs) = rdot (dev us) (dev us) /\ rdot (dev ys) (dev ys) = rdot (dev vs) (dev vs)).
  { assert (Q : forall l : list R, rdot l l = rsum (map (fun x => x * x) l)).
    { intros l. rewrite <- rsum_map2. f_equal. induction l as [|x l IH]; cbn; [auto | now rewrite IH]. }
    rewrite !Q. split; apply rsum_perm, Permutation_map, dev_perm; assumption. }
  destruct DX as (DX & DY). split.
  - rewrite (covar_ok bc W xs ys), (covar_ok bc W us vs) by (assumption || lia). unfold covariance. now rewrite D, Lx.
  - rewrite !linear_reg_ok by assumption. unfold reg_icpt, opt_corr, reg_slope. rewrite D, DX, DY, Mx, My, ?Lx. reflexivity.
Qed.
Print Assumptions C163_order_pairs.

Example C163_example :
  spread [1; 2] /\ spread [5; 3] /\ separated [1; 2] /\ separated (units 2 1 [1; 2])
  /\ Permutation (combine [1; 2] [5; 3]) (combine [2; 1] [3; 5]).
Proof.
  refine (conj _ (conj _ (conj _ (conj _ _)))).
  - intros (c & F). inversion F as [|? ? A F']; subst. inversion F'; subst. lra.
  - intros (c & F). inversion F as [|? ? A F']; subst. inversion F'; subst. lra.
  - intros x y [<-|[<-|[<-|[]]]] [<-|[<-|[<-|[]]]]; unfold apart; try (now left); right; unfold Rabs; destruct Rcase_abs; lra.
  - intros x y [<-|[<-|[<-|[]]]] [<-|[<-|[<-|[]]]]; unfold apart; try (now left); right; unfold Rabs; destruct Rcase_abs; lra.
  - apply perm_swap.
Qed.
