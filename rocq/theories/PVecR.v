(** Vector proofs over the real numbers. *)
From Coq Require Import List Arith ZArith Bool Lia Reals Lra Psatz.
From Verif Require Import Base BaseFacts SpecVec MVec PVec NumR SpecReal.
Import ListNotations.
Local Open Scope R_scope.

Lemma fold_left_Rplus xs a : fold_left Rplus xs a = a + rsum xs.
Proof. revert a; induction xs as [|x xs IH]; intros a; cbn; [lra|]. rewrite IH. lra. Qed.

Lemma rsum_map2 xs ys : rsum (map2 Rmult xs ys) = rdot xs ys.
Proof. revert ys; induction xs; intros [|y ys]; cbn; auto. now rewrite IHxs. Qed.

Lemma dot_rdot xs ys : dot xs ys = rdot xs ys.
Proof. unfold dot. cbn. rewrite fold_left_Rplus, rsum_map2. lra. Qed.

Lemma total_rsum xs : total xs = rsum xs.
Proof. unfold total. cbn. rewrite fold_left_Rplus. lra. Qed.

Lemma rdot_comm xs ys : rdot xs ys = rdot ys xs.
Proof. revert ys; induction xs; intros [|y ys]; cbn; auto. rewrite IHxs. lra. Qed.

Lemma rdot_add_l xs ys zs :
  length xs = length ys -> rdot (map2 Rplus xs ys) zs = rdot xs zs + rdot ys zs.
Proof.
  revert ys zs; induction xs as [|x xs IH]; intros [|y ys] [|z zs]; cbn; intros H; try lra; try discriminate.
  rewrite IH by lia. lra.
Qed.

Lemma rdot_sub_l xs ys zs :
  length xs = length ys -> rdot (map2 Rminus xs ys) zs = rdot xs zs - rdot ys zs.
Proof.
  revert ys zs; induction xs as [|x xs IH]; intros [|y ys] [|z zs]; cbn; intros H; try lra; try discriminate.
  rewrite IH by lia. lra.
Qed.

Lemma rdot_scale_l k xs ys : rdot (rscale k xs) ys = k * rdot xs ys.
Proof.
  revert ys; induction xs as [|x xs IH]; intros [|y ys]; cbn; try lra.
  fold (rscale k xs). rewrite IH. lra.
Qed.

Lemma rdot_self_nonneg xs : 0 <= rdot xs xs.
Proof. induction xs as [|x xs IH]; cbn; [lra|]. pose proof (Rle_0_sqr x). unfold Rsqr in *. lra. Qed.

Lemma rdot_self_zero xs : rdot xs xs = 0 -> Forall (fun x => x = 0) xs.
Proof.
  induction xs as [|x xs IH]; cbn; intros H; constructor.
  - pose proof (rdot_self_nonneg xs). nra.
  - apply IH. pose proof (rdot_self_nonneg xs). nra.
Qed.

Lemma rdot_zero_l xs ys : Forall (fun x => x = 0) xs -> rdot xs ys = 0.
Proof.
  revert ys; induction xs as [|x xs IH]; intros [|y ys] H; cbn; auto.
  inversion H; subst. rewrite IH by auto. lra.
Qed.

Lemma sqr_le_le p q : 0 <= p -> q * q <= p * p -> q <= p.
Proof. intros. nra. Qed.

Lemma cauchy_schwarz xs ys : rdot xs ys * rdot xs ys <= rdot xs xs * rdot ys ys.
Proof.
  revert ys; induction xs as [|x xs IH]; intros [|y ys]; cbn [rdot].
  - lra.
  - rewrite !Rmult_0_l. lra.
  - rewrite !Rmult_0_r. lra.
  - specialize (IH ys).
    pose proof (rdot_self_nonneg xs) as HA. pose proof (rdot_self_nonneg ys) as HB.
    set (A := rdot xs xs) in *. set (B := rdot ys ys) in *. set (D := rdot xs ys) in *.
    assert (K : 2 * (x * y * D) <= x * x * B + y * y * A).
    { apply sqr_le_le.
      - pose proof (Rle_0_sqr x). pose proof (Rle_0_sqr y). unfold Rsqr in *. nra.
      - assert (0 <= (x*y)*(x*y)) by (apply Rle_0_sqr).
        assert ((x * y) * (x * y) * (D * D) <= (x * y) * (x * y) * (A * B))
          by (apply Rmult_le_compat_l; auto).
        pose proof (Rle_0_sqr (x * x * B - y * y * A)). unfold Rsqr in *. nra. }
    nra.
Qed.

Lemma rnorm_nonneg xs : 0 <= rnorm xs.
Proof. apply sqrt_pos. Qed.

Lemma rnorm_sqr xs : rnorm xs * rnorm xs = rdot xs xs.
Proof. apply sqrt_sqrt, rdot_self_nonneg. Qed.

Lemma rnorm_zero xs : rnorm xs = 0 <-> Forall (fun x => x = 0) xs.
Proof.
  split; intros H.
  - apply rdot_self_zero. rewrite <- rnorm_sqr, H. lra.
  - unfold rnorm. rewrite rdot_zero_l by auto. apply sqrt_0.
Qed.

Lemma rdot_le_norms xs ys : Rabs (rdot xs ys) <= rnorm xs * rnorm ys.
Proof.
  assert (G : forall d, d * d <= rdot xs xs * rdot ys ys -> d <= rnorm xs * rnorm ys).
  { intros d H. apply sqr_le_le.
    - apply Rmult_le_pos; apply rnorm_nonneg.
    - replace (rnorm xs * rnorm ys * (rnorm xs * rnorm ys))
        with ((rnorm xs * rnorm xs) * (rnorm ys * rnorm ys)) by ring.
      now rewrite !rnorm_sqr. }
  apply Rabs_le. pose proof (cauchy_schwarz xs ys) as C. split.
  - assert (- rdot xs ys <= rnorm xs * rnorm ys) by (apply G; nra). lra.
  - apply G. exact C.
Qed.

Lemma rnorm_triangle xs ys :
  length xs = length ys -> rnorm (map2 Rplus xs ys) <= rnorm xs + rnorm ys.
Proof.
  intros L. apply sqr_le_le.
  - pose proof (rnorm_nonneg xs); pose proof (rnorm_nonneg ys); lra.
  - rewrite rnorm_sqr. rewrite rdot_add_l by auto.
    rewrite (rdot_comm xs), (rdot_comm ys). rewrite !rdot_add_l by auto.
    rewrite (rdot_comm ys xs).
    pose proof (rdot_le_norms xs ys) as C. pose proof (Rle_abs (rdot xs ys)).
    rewrite <- !rnorm_sqr. nra.
Qed.

Lemma rnorm_scale k xs : rnorm (rscale k xs) = Rabs k * rnorm xs.
Proof.
  unfold rnorm. rewrite rdot_scale_l, rdot_comm, rdot_scale_l.
  replace (k * (k * rdot xs xs)) with ((k * k) * rdot xs xs) by ring.
  rewrite sqrt_mult_alt by (apply Rle_0_sqr). f_equal. apply sqrt_Rsqr_abs.
Qed.

Lemma map_mult_r_scale s xs : map (fun x => x * s) xs = rscale s xs.
Proof. apply map_ext. intros; ring. Qed.

Lemma fsqrt_rdot xs : fsqrt (rdot xs xs) = Ok (rnorm xs).
Proof. cbn. apply Rsqrto_ok, rdot_self_nonneg. Qed.

Lemma vec_norm_R bc xs tx : vec_norm bc (vec_of xs tx) = Ok (rnorm xs).
Proof. rewrite vec_norm_ok, dot_rdot. apply fsqrt_rdot. Qed.

Lemma vec_dot_R bc xs ys tx ty :
  length xs = length ys ->
  vec_dot bc (vec_of xs tx) (vec_of ys ty) = Ok (0%Z, Some (rdot xs ys)).
Proof. intros; now rewrite vec_dot_ok, dot_rdot. Qed.

Lemma vec_dist_R bc xs ys tx ty :
  length xs = length ys ->
  vec_dist bc (vec_of xs tx) (vec_of ys ty) = Ok (rnorm (map2 Rminus xs ys)).
Proof. intros. rewrite vec_dist_ok, dot_rdot by auto. apply fsqrt_rdot. Qed.

Lemma map2_sub_neg xs ys : map2 Rminus xs ys = rscale (-1) (map2 Rminus ys xs).
Proof.
  revert ys; induction xs as [|x xs IH]; intros [|y ys]; cbn; auto.
  f_equal; [ring|]. apply IH.
Qed.

Lemma map2_sub_split xs ys zs :
  length xs = length ys -> length ys = length zs ->
  map2 Rminus xs zs = map2 Rplus (map2 Rminus xs ys) (map2 Rminus ys zs).
Proof.
  revert ys zs; induction xs as [|x xs IH]; intros [|y ys] [|z zs]; cbn; intros; auto; try discriminate.
  f_equal; [ring|]. apply IH; lia.
Qed.

Lemma Forall_sub_zero xs ys :
  length xs = length ys -> (Forall (fun x => x = 0) (map2 Rminus xs ys) <-> xs = ys).
Proof.
  revert ys; induction xs as [|x xs IH]; intros [|y ys]; cbn; intros L; try discriminate.
  - split; auto.
  - split; intros H.
    + inversion H; subst. f_equal; [lra|]. apply IH; auto.
    + injection H as -> ->. constructor; [lra|]. now apply IH.
Qed.

Lemma vec_to_unit_R bc xs tx :
  rnorm xs <> 0 ->
  vec_to_unit bc (vec_of xs tx) = Ok (0%Z, vec_of (rscale (/ rnorm xs) xs) tx).
Proof.
  intros H. rewrite vec_to_unit_eq, dot_rdot, fsqrt_rdot. cbn [bind].
  unfold fne. cbn [feq f0 f1 fdiv fmul NumR]. rewrite Reqb_false by auto. cbn [negb].
  rewrite Rdivo_ok by auto. cbn [bind].
  rewrite map_mult_r_scale. now replace (1 / rnorm xs) with (/ rnorm xs) by (field; auto).
Qed.

Lemma vec_to_unit_R0 bc x xs tx :
  Forall (fun a => a = 0) (x :: xs) ->
  vec_to_unit bc (vec_of (x :: xs) tx) = Ok (0%Z, vec_of (1 :: repeat 0 (length xs)) tx).
Proof.
  intros H. rewrite vec_to_unit_eq, dot_rdot, fsqrt_rdot. cbn [bind].
  apply rnorm_zero in H. rewrite H. unfold fne. cbn [feq f0 f1 fdiv fmul NumR]. now rewrite Reqb_true.
Qed.

Lemma vec_project_R bc us vs tu tv (bw : buf R) :
  length us = length vs -> (length us <= length bw)%nat -> rdot us us <> 0 ->
  vec_project bc (vec_of us tu) (vec_of vs tv) (Vec (length us) bw)
  = Ok (0%Z, vec_of (rscale (rdot vs us / rdot us us) us) (skipn (length us) bw)).
Proof.
  intros L Lb H. rewrite vec_project_ok, !dot_rdot by auto. cbn.
  rewrite Rdivo_ok by auto. cbn. now rewrite map_mult_r_scale.
Qed.

Lemma rsum_le xs a : Forall (fun x => x <= a) xs -> rsum xs <= INR (length xs) * a.
Proof.
  induction 1 as [|x xs H _ IH]; cbn [rsum length]; [cbn; lra|].
  rewrite S_INR. lra.
Qed.
Lemma rsum_ge xs a : Forall (fun x => a <= x) xs -> INR (length xs) * a <= rsum xs.
Proof.
  induction 1 as [|x xs H _ IH]; cbn [rsum length]; [cbn; lra|].
  rewrite S_INR. lra.
Qed.

Lemma vec_ar_mean_R xs tx :
  xs <> [] -> vec_ar_mean (vec_of xs tx) = Ok (0%Z, Some (rmean xs)).
Proof.
  intros H. rewrite vec_ar_mean_ok, total_rsum by auto. cbn.
  rewrite <- INR_IZR_INZ. rewrite Rdivo_ok; auto.
  apply not_0_INR. destruct xs; [contradiction|discriminate].
Qed.

Lemma INR_length_pos {A} (xs : list A) : xs <> [] -> 0 < INR (length xs).
Proof. intros H. apply lt_0_INR. destruct xs; [contradiction|cbn; lia]. Qed.

Lemma rmean_bounds xs lo hi :
  xs <> [] -> Forall (fun x => lo <= x <= hi) xs -> lo <= rmean xs <= hi.
Proof.
  intros H HF. pose proof (INR_length_pos xs H) as P. unfold rmean.
  assert (A : rsum xs <= INR (length xs) * hi) by (apply rsum_le; eapply Forall_impl; [|exact HF]; cbn; intros; lra).
  assert (B : INR (length xs) * lo <= rsum xs) by (apply rsum_ge; eapply Forall_impl; [|exact HF]; cbn; intros; lra).
  split.
  - apply Rmult_le_reg_r with (INR (length xs)); auto. field_simplify; lra.
  - apply Rmult_le_reg_r with (INR (length xs)); auto. field_simplify; lra.
Qed.

(** zte over the reals: the test is 0 <= a < 1e-6 *)
Lemma zte_test_R a : zte_test a = true <-> 0 <= a < / 1000000.
Proof.
  unfold zte_test, fge, fgt. cbn [fle flt flit f0 NumR].
  assert (E : Rlit 1 6 = / 1000000) by (change 6%Z with (Z.of_nat 6); rewrite Rlit_frac; cbn; lra).
  rewrite E. rewrite orb_true_iff, !andb_true_iff.
  destruct (Rleb_spec 0 a), (Rltb_spec a (/1000000)), (Rleb_spec a 0), (Rltb_spec (/ 1000000) a);
    intuition (try discriminate; lra).
Qed.

Lemma near_R val eps a : near val eps a = true <-> Rabs (a - val) < eps.
Proof.
  unfold near. cbn. rewrite andb_true_iff.
  destruct (Rltb_spec (a - val) eps), (Rltb_spec (- (a - val)) eps).
  - split; auto. intros _. apply Rabs_def1; lra.
  - split; [intuition discriminate|]. intros H. apply Rabs_def2 in H. lra.
  - split; [intuition discriminate|]. intros H. apply Rabs_def2 in H. lra.
  - split; [intuition discriminate|]. intros H. apply Rabs_def2 in H. lra.
Qed.
