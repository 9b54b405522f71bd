(** Properties C51-C56: statistics (src/statistics.c), in real arithmetic.

    Vocabulary (SpecReal, SpecStat): [rmean xs] is the sum divided by the
    number of data; [dev xs] the deviations from it; [covariance], [variance]
    the sample covariance and variance; [pct p ys] the p-th percentile of the
    sorted data ys; [is_percentile]; [line_error a b xs ys] the sum of squared
    residuals of the line y = a x + b; [fit_error] that of a linear model.
    [separated xs]: any two data (and 0) are equal or at least 1e-5 apart,
    which is the library's sorting tolerance.  NotReal is a result that is
    not a real number (division by zero). *)
From Coq Require Import List Arith ZArith Bool Lia Reals Lra Psatz Permutation Sorted.
From Verif Require Import Base BaseFacts SpecVec SpecReal SpecMtx SpecStat MVec PVec PVecR PSort NumR
  PMtx PMtxOps PMtxR Libm LibmR MMtx MStat PStat PStatOrd PStatReg.
Import ListNotations.
Local Open Scope R_scope.

(** * C51: means *)
Theorem C51_mean :
  forall xs tx, xs <> [] ->
  sta_mean (vec_of xs tx) = Ok (0%Z, Some (rsum xs / INR (length xs)))
  /\ forall lo hi, Forall (fun x => lo <= x <= hi) xs -> lo <= rsum xs / INR (length xs) <= hi.
Proof.
  intros xs tx H. split; [exact (sta_mean_R xs tx H)|]. intros lo hi. now apply rmean_bounds.
Qed.
Print Assumptions C51_mean.

(** An empty vector: code 0, but the result is never written. *)
Theorem C51_mean_empty :
  forall (b : buf R), sta_mean (Vec 0 b) = Ok (0%Z, None).
Proof. exact sta_mean_empty. Qed.
Print Assumptions C51_mean_empty.

Theorem C51_weighted_mean :
  forall bc xs ws tx tw,
  length xs = length ws -> Forall (fun a => 0 <= a) ws -> / 1000000 <= rsum ws ->
  exists m, sta_weighted_mean bc (vec_of xs tx) (vec_of ws tw) = Ok (0%Z, Some m)
  /\ m * rsum ws = rsum (map2 Rmult ws xs)
  /\ forall lo hi, Forall (fun x => lo <= x <= hi) xs -> lo <= m <= hi.
Proof.
  intros bc xs ws tx tw HL HF HS. eexists. split; [now apply weighted_mean_ok|]. split.
  - rewrite rsum_map2. field. lra.
  - intros lo hi. apply wmean_bounds; auto. lra.
Qed.
Print Assumptions C51_weighted_mean.

Theorem C51_equal_weights :
  forall bc xs c tx tw, xs <> [] -> 0 < c -> / 1000000 <= c * INR (length xs) ->
  sta_weighted_mean bc (vec_of xs tx) (vec_of (repeat c (length xs)) tw)
  = Ok (0%Z, Some (rsum xs / INR (length xs))).
Proof.
  intros bc xs c tx tw H Hc HS.
  assert (E : rsum (repeat c (length xs)) = c * INR (length xs)).
  { generalize (length xs). intros n. induction n; [cbn; lra|]. cbn [repeat rsum]. rewrite IHn, S_INR. lra. }
  rewrite weighted_mean_ok.
  - do 3 f_equal. apply wmean_equal; auto. lra.
  - now rewrite repeat_length.
  - apply Forall_forall. intros x Hx. apply repeat_spec in Hx. lra.
  - now rewrite E.
Qed.
Print Assumptions C51_equal_weights.

Theorem C51_weighted_mean_rejects :
  forall (xs ws : list R) tx tw, (length xs <= length ws)%nat ->
  length xs <> length ws
  \/ Exists (fun a => a < 0) ws
  \/ (length xs = length ws /\ Rabs (rsum ws) < / 1000000) ->
  sta_weighted_mean true (vec_of xs tx) (vec_of ws tw) = Ok ((- EINVAL)%Z, None).
Proof. exact weighted_mean_einval. Qed.
Print Assumptions C51_weighted_mean_rejects.

(** The weights are added up before the sizes are compared: with fewer weights
    than data the error is not reported, the weights are read past their end. *)
Theorem C51_weighted_mean_sizes_refuted :
  forall bc (xs ws : list R) tx, (length ws < length xs)%nat ->
  sta_weighted_mean bc (vec_of xs tx) (vec_of ws []) = UB OOBRead.
Proof. exact weighted_mean_oob. Qed.
Print Assumptions C51_weighted_mean_sizes_refuted.

Example C51_example :
  length [1; 2; 4] = length [3; 0; 1] /\ Forall (fun a => 0 <= a) [3; 0; 1]
  /\ / 1000000 <= rsum [3; 0; 1]
  /\ Exists (fun a => a < 0) [1; -1; 1].
Proof.
  repeat split; [repeat constructor; lra|cbn; lra|]. apply Exists_cons_tl, Exists_cons_hd. lra.
Qed.

Lemma filter_perm {A} (f : A -> bool) l l' : Permutation l l' -> Permutation (filter f l) (filter f l').
Proof.
  induction 1; cbn.
  - constructor.
  - destruct (f x); auto.
  - destruct (f x), (f y); auto; constructor.
  - eapply perm_trans; eauto.
Qed.

(** The trimmed mean is the mean of the data between the percentiles p and
    100 - p, when at least two data lie there. *)
Theorem C51_trim_mean_partial :
  forall bc W fuel g xs ys tx p,
  separated xs -> xs <> [] -> (2 * length xs <= fuel)%nat ->
  (Z.of_nat (length xs) <= 2147483647)%Z -> (Z.of_nat (length xs) < W)%Z ->
  Permutation xs ys -> StronglySorted Rle ys -> 0 < p <= 50 ->
  let kept := filter (within (pct p ys) (pct (100 - p) ys)) xs in
  (2 <= length kept)%nat ->
  sta_trim_mean bc W fuel (Some g) (vec_of xs tx) p
  = Ok (0%Z, Some (rsum kept / INR (length kept))).
Proof.
  intros bc W fuel g xs ys tx p H1 H2 H3 H4 H5 HP HS Hp kept Hk.
  rewrite trim_mean_ok with (ys := ys) by auto. cbv zeta.
  fold kept. destruct (Nat.eqb_spec (length kept) 0); [lia|].
  destruct (Nat.eqb_spec (length kept) 1); [lia|]. do 3 f_equal. unfold rmean.
  assert (E : Permutation (filter (within (pct p ys) (pct (100 - p) ys)) ys) kept).
  { unfold kept. symmetry. now apply filter_perm. }
  now rewrite (rsum_perm _ _ E), (Permutation_length E).
Qed.
Print Assumptions C51_trim_mean_partial.

Lemma Int_part_eq z x : IZR z <= x < IZR z + 1 -> Int_part x = z.
Proof.
  intros H. pose proof (Int_part_bounds x) as B.
  assert (IZR (Int_part x) < IZR (z + 1)) by (rewrite plus_IZR; lra).
  assert (IZR z < IZR (Int_part x + 1)) by (rewrite plus_IZR; lra).
  apply lt_IZR in H0, H1. lia.
Qed.

Lemma pct_at p ys k : (0 <= k)%Z -> IZR k < p * INR (length ys) / 100 < IZR k + 1 ->
  pct p ys = nth (Z.to_nat k) ys 0.
Proof.
  intros Hk H. unfold pct. rewrite (@Int_part_eq k) by lra.
  destruct (Reqb_spec (p * INR (length ys) / 100) (IZR k)); [lra|reflexivity].
Qed.

Lemma sep_123 : separated [1; 2; 3].
Proof.
  intros x y Hx Hy. unfold apart. cbn in Hx, Hy.
  destruct Hx as [<-|[<-|[<-|[<-|[]]]]]; destruct Hy as [<-|[<-|[<-|[<-|[]]]]];
    first [left; reflexivity
          | right; rewrite Rabs_right by lra; lra
          | right; rewrite Rabs_left by lra; lra].
Qed.

Lemma sorted_123 : StronglySorted Rle [1; 2; 3].
Proof. repeat constructor; lra. Qed.

(** With one datum left the maximum of all the data is returned instead: the
    40 % trimmed mean of 1, 2, 3 is 3. *)
Theorem C51_trim_mean_refuted :
  forall bc W fuel g tx, (4 <= W)%Z -> (6 <= fuel)%nat ->
  filter (within (pct 40 [1; 2; 3]) (pct 60 [1; 2; 3])) [1; 2; 3] = [2]
  /\ sta_trim_mean bc W fuel (Some g) (vec_of [1; 2; 3] tx) 40 = Ok (0%Z, Some 3).
Proof.
  intros bc W fuel g tx HW Hf.
  assert (E1 : pct 40 [1; 2; 3] = 2) by (rewrite (@pct_at 40 [1;2;3] 1); [reflexivity|lia|cbn; lra]).
  assert (E2 : pct 60 [1; 2; 3] = 2) by (rewrite (@pct_at 60 [1;2;3] 1); [reflexivity|lia|cbn; lra]).
  assert (E3 : filter (within 2 2) [1; 2; 3] = [2]).
  { unfold within. cbn. rewrite (Rleb_false 2 1), (Rleb_true 2 2), (Rleb_false 3 2), (Rleb_true 2 3) by lra.
    reflexivity. }
  split; [now rewrite E1, E2|].
  rewrite trim_mean_ok with (ys := [1; 2; 3]); try (cbn; lia); try discriminate;
    auto using sep_123, sorted_123; try lra.
  cbv zeta. replace (100 - 40) with 60 by lra. rewrite E1, E2, E3. reflexivity.
Qed.
Print Assumptions C51_trim_mean_refuted.

(** * C52: demeaning *)
Theorem C52_demean :
  forall bc xs tx (bw : buf R) n,
  xs <> [] -> (length xs <= length bw)%nat -> (bc = true -> n = length xs) ->
  exists ds, sta_demean bc (vec_of xs tx) (Vec n bw) = Ok (0%Z, vec_of ds (skipn (length xs) bw))
  /\ length ds = length xs
  /\ (forall i, (i < length xs)%nat -> nth i ds 0 = nth i xs 0 - rsum xs / INR (length xs))
  /\ rsum ds = 0.
Proof.
  intros bc xs tx bw n H1 H2 H3. exists (dev xs). repeat split.
  - now apply demean_ok.
  - apply dev_length.
  - intros i Hi. unfold dev.
    rewrite (nth_indep _ 0 ((fun x => x - rmean xs) 0)) by (rewrite map_length; lia).
    now rewrite (map_nth (fun x => x - rmean xs)).
  - now apply rsum_dev.
Qed.
Print Assumptions C52_demean.

Theorem C52_demean_rejects :
  forall (v w : vec R), vsz v <> vsz w -> sta_demean true v w = Ok ((- EINVAL)%Z, w).
Proof. exact demean_einval. Qed.
Print Assumptions C52_demean_rejects.

Example C52_example : (length [1; 2; 6] <= length (fresh (T := R) 3))%nat.
Proof. cbn. lia. Qed.

(** * C53: percentiles, median, quartiles *)
Theorem C53_percentile :
  forall bc fuel g xs tx p,
  separated xs -> xs <> [] -> (2 * length xs <= fuel)%nat ->
  (Z.of_nat (length xs) <= 2147483647)%Z -> 0 < p < 100 ->
  exists q, sta_percentile bc fuel (Some g) (vec_of xs tx) p = Ok (0%Z, Some q)
  /\ (forall ys, Permutation xs ys -> StronglySorted Rle ys -> q = pct p ys)
  /\ is_percentile p xs q
  /\ forall lo hi, Forall (fun x => lo <= x <= hi) xs -> lo <= q <= hi.
Proof.
  intros bc fuel g xs tx p H1 H2 H3 H4 Hp. destruct (sort_exists xs) as (ys & HP & HS).
  exists (pct p ys). repeat split.
  - now apply percentile_ok.
  - intros zs HP' HS'. f_equal. apply sort_unique; auto.
    eapply perm_trans; [symmetry; eassumption|auto].
  - now apply (pct_order p xs ys).
  - now apply (pct_order p xs ys).
  - eapply pct_bounds; eauto.
  - eapply pct_bounds; eauto.
Qed.
Print Assumptions C53_percentile.

Theorem C53_percentile_rejects :
  forall fuel g (v : vec R) p, p < 0 \/ 100 < p ->
  sta_percentile true fuel (Some g) v p = Ok ((- EINVAL)%Z, None).
Proof. exact percentile_einval. Qed.
Print Assumptions C53_percentile_rejects.

Theorem C53_median :
  forall bc fuel g xs ys tx m,
  separated xs -> (1 <= length xs)%nat -> (2 * length xs <= fuel)%nat ->
  (Z.of_nat (length xs) <= 2147483647)%Z ->
  Permutation xs ys -> StronglySorted Rle ys ->
  (length xs = (2 * m + 1)%nat ->
   sta_median bc fuel (Some g) (vec_of xs tx) = Ok (0%Z, Some (nth m ys 0)))
  /\ (length xs = (2 * m)%nat ->
   sta_median bc fuel (Some g) (vec_of xs tx) = Ok (0%Z, Some ((nth (m - 1) ys 0 + nth m ys 0) / 2))).
Proof.
  intros bc fuel g xs ys tx m H1 H2 H3 H4 HP HS.
  assert (HL := Permutation_length HP).
  assert (xs <> []) by (intros ->; cbn in H2; lia).
  split; intros E; rewrite median_ok with (ys := ys) by auto; do 3 f_equal.
  - apply pct_50_odd. lia.
  - rewrite (@pct_50_even ys m) by lia. lra.
Qed.
Print Assumptions C53_median.

Theorem C53_quartiles :
  forall bc fuel g xs tx,
  separated xs -> xs <> [] -> (2 * length xs <= fuel)%nat ->
  (Z.of_nat (length xs) <= 2147483647)%Z ->
  exists q1 q2 q3,
  sta_quart bc fuel (Some g) (vec_of xs tx) = Ok (0%Z, (Some q1, Some q2, Some q3))
  /\ sta_quart_range bc fuel (Some g) (vec_of xs tx) = Ok (0%Z, Some (q3 - q1))
  /\ is_percentile 25 xs q1 /\ is_percentile 50 xs q2 /\ is_percentile 75 xs q3
  /\ q1 <= q2 <= q3.
Proof.
  intros bc fuel g xs tx H1 H2 H3 H4. destruct (sort_exists xs) as (ys & HP & HS).
  assert (ys <> []) by (intros ->; apply Permutation_length in HP; destruct xs; auto; discriminate).
  exists (pct 25 ys), (pct 50 ys), (pct 75 ys).
  split; [now apply quart_ok|]. split; [now apply quart_range_ok|].
  repeat split; try (apply (pct_order _ xs ys); auto; lra); apply pct_mono; auto; lra.
Qed.
Print Assumptions C53_quartiles.

(** The data range is the greatest minus the least value. *)
Theorem C53_data_range :
  forall W fuel g xs tx,
  separated xs -> xs <> [] -> (2 * length xs <= fuel)%nat -> (Z.of_nat (length xs) <= W)%Z ->
  exists lo hi, sta_data_range W fuel (Some g) (vec_of xs tx) = Ok (0%Z, Some (hi - lo))
  /\ In lo xs /\ In hi xs /\ Forall (fun x => lo <= x <= hi) xs.
Proof.
  intros W fuel g xs tx H1 H2 H3 H4. destruct (sort_exists xs) as (ys & HP & HS).
  assert (HL := Permutation_length HP).
  assert (0 < length xs)%nat by (destruct xs; cbn; [congruence|lia]).
  exists (nth 0 ys 0), (nth (length xs - 1) ys 0). split; [now apply data_range_ok|].
  repeat split.
  - eapply Permutation_in; [symmetry; eassumption|]. apply nth_In. lia.
  - eapply Permutation_in; [symmetry; eassumption|]. apply nth_In. lia.
  - apply Forall_forall. intros x Hx. apply (Permutation_in _ HP) in Hx.
    destruct (In_nth _ _ 0 Hx) as (i & Hi & <-). split; apply sorted_nth; auto; lia.
Qed.
Print Assumptions C53_data_range.

Example C53_example : separated [1; 2; 3] /\ Permutation [2; 1; 3] [1; 2; 3] /\ StronglySorted Rle [1; 2; 3].
Proof. repeat split; [apply sep_123|constructor|apply sorted_123]. Qed.

(** Values closer together than 1e-5 (or closer to 0) are merged: the median of
    the single value 1e-6 is 0. *)
Theorem C53_close_values_refuted :
  forall bc g tx,
  sta_median bc 2 (Some g) (vec_of [/ 1000000] tx) = Ok (0%Z, Some 0).
Proof.
  intros bc g tx.
  assert (HN : near (/ 1000000) (1 / 100000) 0 = true) by (apply near_R; rewrite Rabs_left by lra; lra).
  assert (HN' : near 0 (1 / 100000) (/ 1000000) = true) by (apply near_R; rewrite Rabs_right by lra; lra).
  unfold sta_median, sta_percentile.
  change (fofZ 50) with (50 : R). rewrite lit_1000.
  replace (fgt (50 : R) 100) with false by (cbn; symmetry; apply Rltb_false; lra).
  replace (flt (50 : R) f0) with false by (cbn; symmetry; apply Rltb_false; lra).
  cbn [orb]. rewrite andb_false_r.
  assert (ES : vec_sort 2 (Some g) (vec_of [/ 1000000] tx) (vec_of [0] [])
               = Ok (0%Z, vec_of [0] [])).
  { unfold vec_sort. cbn [vsz vec_of length fresh repeat].
    change (Vec 1 [None]) with (Vec 1 (fresh (T := R) 1)).
    change (vec_init (Vec 1 (fresh 1))) with (Ok (0%Z, vec_of [0] [])). cbn [bind for_].
    change (rd (vbuf (vec_of [/ 1000000] tx)) 0) with (Ok (/ 1000000)). cbn [bind].
    rewrite eps_val. rewrite !vec_contains_ok. cbn [filter]. rewrite HN. cbn [length Nat.eqb bind].
    change (f0 : R) with 0. rewrite HN'.
    destruct (_ || _)%bool; cbn [bind length Nat.ltb Nat.leb];
      change (vec_quicksort 2 (Some g) (vbuf (vec_of [0] [])) 0 0) with (Ok (cells [0]));
      cbn [bind for_]; change (rd (cells [0]) 0) with (Ok 0); cbn [bind];
      rewrite vec_contains_ok; cbn [filter]; rewrite HN'; reflexivity. }
  cbn [vsz vec_of length].
  change (vec_init (vdef 1)) with (Ok (0%Z, vec_of [0] [])). cbn [bind].
  change (Vec 1 (cells [/ 1000000] ++ tx)) with (vec_of [/ 1000000] tx).
  rewrite ES. cbn [bind]. rewrite lit_100. cbn [fdiv fmul fofZ NumR].
  rewrite Rdivo_ok by lra. cbn [bind].
  cbn [ffloor NumMR]. unfold Rfloor.
  change (IZR (Z.of_nat 1)) with 1. rewrite (@Int_part_eq 0 (50 * 1 / 100)) by lra.
  pose proof (@f2int_floor (1 / 2) 1 ltac:(lra) ltac:(cbn; lra) ltac:(lia)) as EF.
  unfold Rfloor in EF. rewrite (@Int_part_eq 0 (1 / 2)) in EF by lra. rewrite EF. cbn [bind feq NumR].
  rewrite Reqb_false by lra. reflexivity.
Qed.
Print Assumptions C53_close_values_refuted.

(** * C54: the ends *)
Theorem C54_percentile_ends_refuted :
  forall bc fuel g xs tx p,
  separated xs -> xs <> [] -> (2 * length xs <= fuel)%nat ->
  (Z.of_nat (length xs) <= 2147483647)%Z -> p = 0 \/ p = 100 ->
  sta_percentile bc fuel (Some g) (vec_of xs tx) p = UB OOBRead.
Proof. exact percentile_ends. Qed.
Print Assumptions C54_percentile_ends_refuted.

(** What the ends should be, and are close to the ends: for p n < 100 the least
    value, for (100 - p) n < 100 the greatest. *)
Theorem C54_percentile_near_ends_partial :
  forall bc fuel g xs tx p,
  separated xs -> xs <> [] -> (2 * length xs <= fuel)%nat ->
  (Z.of_nat (length xs) <= 2147483647)%Z -> 0 < p < 100 ->
  (p * INR (length xs) < 100 ->
   exists q, sta_percentile bc fuel (Some g) (vec_of xs tx) p = Ok (0%Z, Some q)
     /\ In q xs /\ Forall (fun x => q <= x) xs)
  /\ ((100 - p) * INR (length xs) < 100 ->
   exists q, sta_percentile bc fuel (Some g) (vec_of xs tx) p = Ok (0%Z, Some q)
     /\ In q xs /\ Forall (fun x => x <= q) xs).
Proof.
  intros bc fuel g xs tx p H1 H2 H3 H4 Hp. destruct (sort_exists xs) as (ys & HP & HS).
  assert (HL := Permutation_length HP).
  assert (Hn : (1 <= length xs)%nat) by (destruct xs; cbn; [congruence|lia]).
  assert (Hn' : 1 <= INR (length xs)) by (apply (le_INR 1); lia).
  split; intros Hq; exists (pct p ys); (split; [now apply percentile_ok|]).
  - assert (E : pct p ys = nth 0 ys 0).
    { rewrite (@pct_at p ys 0); [reflexivity|lia|]. rewrite <- HL. cbn. nra. }
    rewrite E. split.
    + eapply Permutation_in; [symmetry; eassumption|]. apply nth_In. lia.
    + apply Forall_forall. intros x Hx. apply (Permutation_in _ HP) in Hx.
      destruct (In_nth _ _ 0 Hx) as (i & Hi & <-). apply sorted_nth; auto; lia.
  - assert (E : pct p ys = nth (length ys - 1) ys 0).
    { rewrite (@pct_at p ys (Z.of_nat (length ys - 1))); [f_equal; lia|lia|].
      rewrite <- HL. rewrite <- INR_IZR_INZ, minus_INR by lia. cbn. nra. }
    rewrite E. split.
    + eapply Permutation_in; [symmetry; eassumption|]. apply nth_In. lia.
    + apply Forall_forall. intros x Hx. apply (Permutation_in _ HP) in Hx.
      destruct (In_nth _ _ 0 Hx) as (i & Hi & <-). apply sorted_nth; auto; lia.
Qed.
Print Assumptions C54_percentile_near_ends_partial.

Example C54_example : separated [1; 2; 3] /\ 10 * INR (length [1; 2; 3]) < 100.
Proof. split; [exact sep_123|cbn; lra]. Qed.

(** * C55: variance and covariance *)
Theorem C55_variance :
  forall bc W xs tx, (2 <= length xs)%nat -> (Z.of_nat (length xs) <= W)%Z ->
  exists s2, sta_var bc W (vec_of xs tx) = Ok (0%Z, Some s2)
  /\ s2 * (INR (length xs) - 1)
     = rsum (map (fun x => (x - rmean xs) * (x - rmean xs)) xs)
  /\ 0 <= s2
  /\ (s2 = 0 <-> exists c, Forall (fun x => x = c) xs)
  /\ sta_std_dev bc W (vec_of xs tx) = Ok (0%Z, Some (sqrt s2))
  /\ sta_covar bc W (vec_of xs tx) (vec_of xs tx) = Ok (0%Z, Some s2)
  /\ sta_sta_err bc W (vec_of xs tx) = Ok (0%Z, Some (sqrt (s2 / INR (length xs)))).
Proof.
  intros bc W xs tx H2 HW. exists (variance xs).
  assert (INR (length xs) - 1 <> 0).
  { assert (2 <= INR (length xs)) by (apply (le_INR 2); lia). lra. }
  split; [now apply var_ok|]. split.
  { unfold variance, covariance. rewrite <- rsum_map2. unfold dev.
    transitivity (rsum (map2 Rmult (map (fun x => x - rmean xs) xs) (map (fun x => x - rmean xs) xs)));
      [field; auto|]. f_equal. generalize (rmean xs). intros m. clear.
    induction xs as [|x xs IH]; cbn; [auto|]. now rewrite IH. }
  split; [now apply variance_nonneg|]. split; [now apply variance_zero|].
  split; [now apply std_dev_ok|]. split; [now apply covar_ok|]. now apply sta_err_ok.
Qed.
Print Assumptions C55_variance.

Theorem C55_covariance :
  forall bc W xs ys tx ty,
  length xs = length ys -> (2 <= length xs)%nat -> (Z.of_nat (length xs) <= W)%Z ->
  exists c vx vy,
  sta_covar bc W (vec_of xs tx) (vec_of ys ty) = Ok (0%Z, Some c)
  /\ c * (INR (length xs) - 1)
     = rsum (map2 (fun x y => (x - rmean xs) * (y - rmean ys)) xs ys)
  /\ sta_covar bc W (vec_of ys ty) (vec_of xs tx) = Ok (0%Z, Some c)
  /\ sta_var bc W (vec_of xs tx) = Ok (0%Z, Some vx)
  /\ sta_var bc W (vec_of ys ty) = Ok (0%Z, Some vy)
  /\ c * c <= vx * vy.
Proof.
  intros bc W xs ys tx ty HL H2 HW. exists (covariance xs ys), (variance xs), (variance ys).
  assert (INR (length xs) - 1 <> 0).
  { assert (2 <= INR (length xs)) by (apply (le_INR 2); lia). lra. }
  split; [now apply covar_ok|]. split.
  { unfold covariance. rewrite <- rsum_map2. unfold dev.
    transitivity (rsum (map2 Rmult (map (fun x => x - rmean xs) xs) (map (fun x => x - rmean ys) ys)));
      [field; auto|]. f_equal. generalize (rmean xs) (rmean ys). intros m m'. clear -HL. revert ys HL.
    induction xs as [|x xs IH]; intros [|y ys] HL; cbn in *; auto. now rewrite IH by lia. }
  split; [rewrite covariance_sym by auto; apply covar_ok; lia|].
  split; [now apply var_ok|]. split; [apply var_ok; lia|]. now apply covariance_cs.
Qed.
Print Assumptions C55_covariance.

Theorem C55_covar_rejects :
  forall W (v w : vec R), vsz v <> vsz w -> sta_covar true W v w = Ok ((- EINVAL)%Z, None).
Proof. exact covar_einval. Qed.
Print Assumptions C55_covar_rejects.

Theorem C55_covar_mtx :
  forall bc W r c (f : nat -> nat -> R) tl mc,
  (2 <= r)%nat -> (Z.of_nat r <= W)%Z -> room c c mc ->
  exists g, sta_covar_mtx bc W (mat_of r c f tl) mc = Ok (0%Z, mat_of c c g (rest mc))
  /\ (forall i j, g i j = covariance (col_of r f i) (col_of r f j))
  /\ (forall i j, g i j = g j i)
  /\ (forall i, 0 <= g i i).
Proof.
  intros bc W r c f tl mc Hr HW HM. eexists. split; [now apply covar_mtx_ok|]. repeat split.
  - intros i j. apply covariance_sym. now rewrite !col_of_length.
  - intros i. apply variance_nonneg. now rewrite col_of_length.
Qed.
Print Assumptions C55_covar_mtx.

Theorem C55_covar_mtx_rejects :
  forall W (m mc : mtx R), mrows mc <> mcols mc \/ mcols mc <> mcols m ->
  sta_covar_mtx true W m mc = Ok ((- EINVAL)%Z, mc).
Proof. exact covar_mtx_einval. Qed.
Print Assumptions C55_covar_mtx_rejects.

(** One datum is not rejected: 0/0. *)
Theorem C55_single_value :
  forall bc W x tx, (1 <= W)%Z -> sta_var bc W (vec_of [x] tx) = NotReal.
Proof. exact var_one. Qed.
Print Assumptions C55_single_value.

Theorem C55_mean_abs_dev :
  forall bc xs tx, xs <> [] ->
  sta_mean_abs_dev bc (vec_of xs tx)
  = Ok (0%Z, Some (rmean (map (fun x => Rabs (x - rmean xs)) xs))).
Proof.
  intros bc xs tx H. rewrite mean_abs_dev_ok by auto. unfold dev. now rewrite map_map.
Qed.
Print Assumptions C55_mean_abs_dev.

Example C55_example : (2 <= length [1; 5; 6])%nat /\ (Z.of_nat (length [1; 5; 6]) <= 4294967296)%Z
  /\ room 2 2 (mtx_def (T := R) 2 2).
Proof. repeat split; cbn; lia. Qed.

(** * C56: linear regression *)
Theorem C56_linear_reg :
  forall bc xs ys tx ty, length xs = length ys -> spread xs ->
  exists s t r, sta_linear_reg bc (vec_of xs tx) (vec_of ys ty) = Ok (0%Z, Some (s, t, r))
  /\ (forall a b, line_error s t xs ys <= line_error a b xs ys)
  /\ (forall a b, line_error a b xs ys = line_error s t xs ys -> a = s /\ b = t)
  /\ (spread ys -> r = Ok (reg_corr xs ys) /\ -1 <= reg_corr xs ys <= 1).
Proof.
  intros bc xs ys tx ty HL HS.
  destruct (reg_normal xs ys HL HS) as (N1 & N2).
  exists (reg_slope xs ys), (reg_icpt xs ys), (opt_corr xs ys).
  split; [now apply linear_reg_ok|].
  split; [intros a b; now apply least_squares|].
  split; [intros a b; now apply least_squares|].
  intros HY. split; [now apply opt_corr_ok|]. now apply reg_corr_bounds.
Qed.
Print Assumptions C56_linear_reg.

Theorem C56_linear_reg_rejects :
  forall (v w : vec R), vsz v <> vsz w -> sta_linear_reg true v w = Ok ((- EINVAL)%Z, None).
Proof. exact linear_reg_einval. Qed.
Print Assumptions C56_linear_reg_rejects.

(** All x equal is not rejected: the slope is 0/0 or worse. *)
Theorem C56_equal_abscissae :
  forall bc xs ys tx ty c, length xs = length ys -> Forall (fun x => x = c) xs ->
  sta_linear_reg bc (vec_of xs tx) (vec_of ys ty) = NotReal.
Proof. exact linear_reg_flat. Qed.
Print Assumptions C56_equal_abscissae.

Example C56_example : spread [1; 2; 4].
Proof.
  intros (c & H). inversion H as [|? ? H1 H2]; subst. inversion H2 as [|? ? H3 _]; lra.
Qed.
