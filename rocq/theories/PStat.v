(** Statistics: proofs over the real numbers. *)
From Coq Require Import List Arith ZArith Bool Lia Reals Lra Psatz Permutation Sorted.
From Verif Require Import Base BaseFacts SpecVec SpecReal SpecStat MVec PVec PVecR PSort NumR
  Libm LibmR MMtx MStat.
Import ListNotations.
Local Open Scope R_scope.

(** ** Sums *)

Lemma IZR_nat n : IZR (Z.of_nat n) = INR n.
Proof. symmetry. apply INR_IZR_INZ. Qed.

Lemma sum_buf_R (xs : list R) tx : sum_buf (length xs) (cells xs ++ tx) = Ok (rsum xs).
Proof.
  unfold sum_buf. rewrite (total_loop xs tx). now rewrite total_rsum.
Qed.

Lemma fold_rsum {A} (f : A -> R) xs a :
  fold_left (fun s x => s + f x) xs a = a + rsum (map f xs).
Proof. revert a; induction xs as [|x xs IH]; intros a; cbn; [lra|]. rewrite IH. lra. Qed.

Lemma rsum_loop (f : R -> R) xs tx n :
  length xs = n ->
  for_ n 0 (fun i s => let! a := rd (cells xs ++ tx) i in Ok (fadd s (f a))) f0
  = Ok (rsum (map f xs)).
Proof.
  intros <-.
  rewrite for_fold with (l := xs) (d := 0) (step := fun s x => s + f x).
  - rewrite fold_rsum. f_equal. cbn. lra.
  - intros i s Hi. rewrite rd_cells_app with (d := 0) by lia. reflexivity.
Qed.

Lemma rdot_loop xs ys tx ty n :
  length xs = n -> length ys = n ->
  for_ n 0 (fun i s => let! a := rd (cells xs ++ tx) i in
                       let! b := rd (cells ys ++ ty) i in Ok (s + a * b)) 0
  = Ok (rdot xs ys).
Proof.
  intros H1 H2. pose proof (@dot_loop R NumR xs ys tx ty n H1 H2) as E.
  cbn in E. rewrite dot_rdot in E. exact E.
Qed.

Lemma rsum_app xs ys : rsum (xs ++ ys) = rsum xs + rsum ys.
Proof. induction xs as [|x xs IH]; cbn; [lra|]. rewrite IH. lra. Qed.

Lemma rsum_perm xs ys : Permutation xs ys -> rsum xs = rsum ys.
Proof. induction 1; cbn; lra. Qed.

Lemma rsum_map_sub_const xs c : rsum (map (fun x => x - c) xs) = rsum xs - INR (length xs) * c.
Proof.
  induction xs as [|x xs IH]; [cbn; lra|].
  cbn [map rsum length]. rewrite IH, S_INR. lra.
Qed.

Lemma rsum_dev xs : xs <> [] -> rsum (dev xs) = 0.
Proof.
  intros H. unfold dev. rewrite rsum_map_sub_const. unfold rmean.
  pose proof (INR_length_pos xs H). field. lra.
Qed.

Lemma dev_length xs : length (dev xs) = length xs.
Proof. apply map_length. Qed.

(** ** Means *)

Lemma sta_mean_R xs tx : xs <> [] -> sta_mean (vec_of xs tx) = Ok (0%Z, Some (rmean xs)).
Proof. intros H. unfold sta_mean. rewrite vec_ar_mean_R by auto. reflexivity. Qed.

Lemma sta_mean_empty (b : buf R) : sta_mean (Vec 0 b) = Ok (0%Z, None).
Proof. unfold sta_mean. rewrite vec_ar_mean_empty. reflexivity. Qed.

Lemma any_neg_R (ws : list R) tw :
  any_neg (length ws) (cells ws ++ tw) = Ok (negb (forallb (fun a => Rleb 0 a) ws)).
Proof.
  unfold any_neg.
  erewrite for_exit_forall with (test := fun a => Rleb 0 a) (r := fun _ => tt) (d := 0).
  - cbn [bind]. rewrite <- find_none_forallb. destruct (find _ _); reflexivity.
  - intros i Hi. rewrite rd_cells_app with (d := 0) by lia. cbn [bind].
    cbn. destruct (Rltb_spec (nth i ws 0) 0), (Rleb_spec 0 (nth i ws 0)); try lra; reflexivity.
Qed.

Lemma forallb_nonneg ws : forallb (fun a => Rleb 0 a) ws = true <-> Forall (fun a => 0 <= a) ws.
Proof.
  rewrite forallb_forall, Forall_forall. split; intros H x Hx.
  - specialize (H x Hx). destruct (Rleb_spec 0 x); [lra|discriminate].
  - apply Rleb_true; auto.
Qed.

Lemma rsum_nonneg ws : Forall (fun a => 0 <= a) ws -> 0 <= rsum ws.
Proof. induction 1; cbn; lra. Qed.

Lemma lit_1e6 : flit 1 6 = / 1000000 :> R.
Proof. change (flit 1 6) with (Rlit 1 (Z.of_nat 6)). rewrite Rlit_frac. cbn. lra. Qed.
Lemma lit_2 : flit 2 0 = 2 :> R.
Proof. change (flit 2 0) with (Rlit 2 (Z.of_nat 0)). rewrite Rlit_frac. cbn. lra. Qed.
Lemma lit_20 : flit 20 1 = 2 :> R.
Proof. change (flit 20 1) with (Rlit 20 (Z.of_nat 1)). rewrite Rlit_frac. cbn. lra. Qed.
Lemma lit_100 : flit 100 0 = 100 :> R.
Proof. change (flit 100 0) with (Rlit 100 (Z.of_nat 0)). rewrite Rlit_frac. cbn. lra. Qed.
Lemma lit_1000 : flit 1000 1 = 100 :> R.
Proof. change (flit 1000 1) with (Rlit 1000 (Z.of_nat 1)). rewrite Rlit_frac. cbn. lra. Qed.
Lemma lit_500 : flit 500 1 = 50 :> R.
Proof. change (flit 500 1) with (Rlit 500 (Z.of_nat 1)). rewrite Rlit_frac. cbn. lra. Qed.
Lemma lit_05 : flit 5 1 = 1 / 2 :> R.
Proof. change (flit 5 1) with (Rlit 5 (Z.of_nat 1)). rewrite Rlit_frac. cbn. lra. Qed.
Lemma lit_10 : flit 10 1 = 1 :> R.
Proof. change (flit 10 1) with (Rlit 10 (Z.of_nat 1)). rewrite Rlit_frac. cbn. lra. Qed.

Lemma weighted_mean_ok bc xs ws tx tw :
  length xs = length ws -> Forall (fun a => 0 <= a) ws -> / 1000000 <= rsum ws ->
  sta_weighted_mean bc (vec_of xs tx) (vec_of ws tw)
  = Ok (0%Z, Some (rdot ws xs / rsum ws)).
Proof.
  intros HL HF HS. unfold sta_weighted_mean, vec_of; cbn [vsz vbuf].
  rewrite HL, sum_buf_R. cbn [bind].
  assert (E : (if bc
     then
      if negb (length ws =? length ws)%nat
      then Ok true
      else
       let! neg := any_neg (length ws) (cells ws ++ tw) in
       (if neg then Ok true else Ok (fabs (rsum ws) <? flit 1 6)%num)
     else Ok false) = Ok false).
  { destruct bc; auto. rewrite Nat.eqb_refl; cbn [negb]. rewrite any_neg_R.
    rewrite (proj2 (forallb_nonneg ws) HF). cbn [negb bind]. rewrite lit_1e6.
    cbn. rewrite Rltb_false; auto. rewrite Rabs_right; [lra|].
    pose proof (rsum_nonneg ws HF). lra. }
  rewrite E. cbn [bind]. rewrite (rdot_loop ws xs tw tx) by auto. cbn [bind].
  change (fdiv (rdot ws xs) (rsum ws)) with (Rdivo (rdot ws xs) (rsum ws)).
  rewrite Rdivo_ok by lra. reflexivity.
Qed.

Lemma weighted_mean_einval (xs ws : list R) tx tw :
  (length xs <= length ws)%nat ->
  length xs <> length ws
  \/ Exists (fun a => a < 0) ws
  \/ (length xs = length ws /\ Rabs (rsum ws) < / 1000000) ->
  sta_weighted_mean true (vec_of xs tx) (vec_of ws tw) = Ok ((- EINVAL)%Z, None).
Proof.
  intros HL H. unfold sta_weighted_mean, vec_of; cbn [vsz vbuf].
  destruct (Nat.eq_dec (length xs) (length ws)) as [E|E].
  - rewrite E, sum_buf_R, Nat.eqb_refl. cbn [bind negb]. rewrite any_neg_R.
    destruct (forallb (fun a => Rleb 0 a) ws) eqn:F; cbn [negb bind]; [|reflexivity].
    rewrite forallb_nonneg in F. rewrite lit_1e6. cbn. rewrite Rltb_true; auto.
    destruct H as [H|[H|[_ H]]]; [lia| |auto].
    apply Exists_exists in H as (x & Hx & Hn). rewrite Forall_forall in F.
    specialize (F x Hx). lra.
  - assert (Es : sum_buf (length xs) (cells ws ++ tw) = Ok (rsum (firstn (length xs) ws))).
    { replace (cells ws ++ tw) with
        (cells (firstn (length xs) ws) ++ (cells (skipn (length xs) ws) ++ tw))
        by (rewrite app_assoc, <- cells_app, firstn_skipn; reflexivity).
      replace (length xs) with (length (firstn (length xs) ws)) at 1
        by (rewrite firstn_length; lia).
      apply sum_buf_R. }
    rewrite Es. cbn [bind]. destruct (Nat.eqb_spec (length xs) (length ws)); [lia|].
    reflexivity.
Qed.

(** zsl_sta_weighted_mean adds up v->sz weights before it compares the sizes. *)
Lemma weighted_mean_oob bc (xs ws : list R) tx :
  (length ws < length xs)%nat ->
  sta_weighted_mean bc (vec_of xs tx) (vec_of ws []) = UB OOBRead.
Proof.
  intros H. unfold sta_weighted_mean, vec_of; cbn [vsz vbuf]. unfold sum_buf.
  replace (length xs) with (length ws + S (length xs - length ws - 1))%nat at 1 by lia.
  rewrite for_split. pose proof (sum_buf_R ws []) as E. unfold sum_buf in E. rewrite E.
  cbn [bind]. rewrite for_S. rewrite rd_oob by (rewrite app_length, cells_length; cbn; lia).
  reflexivity.
Qed.

Lemma wmean_bounds xs ws lo hi :
  length xs = length ws -> Forall (fun a => 0 <= a) ws -> 0 < rsum ws ->
  Forall (fun x => lo <= x <= hi) xs -> lo <= rdot ws xs / rsum ws <= hi.
Proof.
  intros HL HF HS HX.
  assert (G : lo * rsum ws <= rdot ws xs <= hi * rsum ws).
  { clear HS. revert xs HL HX; induction HF as [|w ws Hw HF IH]; intros [|x xs] HL HX;
      try discriminate; cbn [rsum rdot]; [lra|].
    inversion HX; subst. specialize (IH xs (Nat.succ_inj _ _ HL) ltac:(assumption)). nra. }
  split.
  - apply Rmult_le_reg_r with (rsum ws); auto. unfold Rdiv. rewrite Rmult_assoc, Rinv_l; lra.
  - apply Rmult_le_reg_r with (rsum ws); auto. unfold Rdiv. rewrite Rmult_assoc, Rinv_l; lra.
Qed.

Lemma wmean_equal xs c : xs <> [] -> c <> 0 ->
  rdot (repeat c (length xs)) xs / rsum (repeat c (length xs)) = rmean xs.
Proof.
  intros H Hc. unfold rmean.
  assert (E1 : forall xs : list R, rdot (repeat c (length xs)) xs = c * rsum xs).
  { induction xs0 as [|x l IH]; cbn; [lra|]. rewrite IH. lra. }
  assert (E2 : forall n, rsum (repeat c n) = INR n * c).
  { induction n as [|n IH]; [cbn; lra|]. cbn [repeat rsum]. rewrite IH, S_INR. lra. }
  rewrite E1, E2. pose proof (INR_length_pos xs H). field. lra.
Qed.

(** ** Demeaning, variance, covariance *)

Lemma demean_ok bc xs tx (bw : buf R) n :
  xs <> [] -> (length xs <= length bw)%nat -> (bc = true -> n = length xs) ->
  sta_demean bc (vec_of xs tx) (Vec n bw) = Ok (0%Z, vec_of (dev xs) (skipn (length xs) bw)).
Proof.
  intros H HL Hn. unfold sta_demean. cbn [vsz vec_of].
  assert (E : bc && negb (length xs =? n)%nat = false).
  { destruct bc; auto. rewrite Hn by auto. now rewrite Nat.eqb_refl. }
  rewrite E. fold (vec_of xs tx). rewrite vec_copy_ok by auto. cbn [bind].
  rewrite sta_mean_R by auto. cbn [bind lval]. rewrite vec_scalar_add_ok. cbn [bind].
  f_equal.
Qed.

Lemma demean_einval (v w : vec R) :
  vsz v <> vsz w -> sta_demean true v w = Ok ((- EINVAL)%Z, w).
Proof.
  intros H. unfold sta_demean. destruct (Nat.eqb_spec (vsz v) (vsz w)); [lia|]. reflexivity.
Qed.

Lemma demean_vdef bc xs tx : xs <> [] ->
  sta_demean bc (vec_of xs tx) (vdef (length xs)) = Ok (0%Z, vec_of (dev xs) []).
Proof.
  intros H. unfold vdef. rewrite demean_ok; auto.
  - rewrite skipn_all2; auto. rewrite fresh_length. lia.
  - rewrite fresh_length. lia.
Qed.

Lemma size_minus_1 W n : (1 <= n)%nat -> (Z.of_nat n <= W)%Z ->
  IZR ((Z.of_nat n - 1) mod W) = INR n - 1.
Proof.
  intros H1 H2. rewrite Z.mod_small by lia. rewrite minus_IZR, IZR_nat. reflexivity.
Qed.

Lemma covar_ok bc W xs ys tx ty :
  length xs = length ys -> (2 <= length xs)%nat -> (Z.of_nat (length xs) <= W)%Z ->
  sta_covar bc W (vec_of xs tx) (vec_of ys ty) = Ok (0%Z, Some (covariance xs ys)).
Proof.
  intros HL H2 HW. unfold sta_covar.
  assert (Hx : xs <> []) by (intros ->; cbn in H2; lia).
  assert (Hy : ys <> []) by (intros ->; cbn in HL; lia).
  change (vsz (vec_of xs tx)) with (length xs). change (vsz (vec_of ys ty)) with (length ys).
  rewrite HL, Nat.eqb_refl, andb_false_r.
  rewrite <- HL at 1. rewrite demean_vdef by auto. cbn [bind].
  rewrite demean_vdef by auto. cbn [bind].
  unfold vec_of; cbn [vbuf].
  rewrite (rdot_loop (dev xs) (dev ys)) by (rewrite dev_length; auto). cbn [bind].
  change (fofZ ((Z.of_nat (length ys) - 1) mod W))
    with (IZR ((Z.of_nat (length ys) - 1) mod W)).
  rewrite size_minus_1 by lia.
  change (fdiv ?a ?b) with (Rdivo a b).
  assert (2 <= INR (length ys)) by (change 2 with (INR 2); apply le_INR; lia).
  rewrite Rdivo_ok by lra. unfold covariance. now rewrite HL.
Qed.

Lemma covar_einval W (v w : vec R) :
  vsz v <> vsz w -> sta_covar true W v w = Ok ((- EINVAL)%Z, None).
Proof.
  intros H. unfold sta_covar. destruct (Nat.eqb_spec (vsz v) (vsz w)); [lia|]. reflexivity.
Qed.

Lemma var_ok bc W xs tx :
  (2 <= length xs)%nat -> (Z.of_nat (length xs) <= W)%Z ->
  sta_var bc W (vec_of xs tx) = Ok (0%Z, Some (variance xs)).
Proof.
  intros H2 HW. unfold sta_var.
  assert (Hx : xs <> []) by (intros ->; cbn in H2; lia).
  change (vsz (vec_of xs tx)) with (length xs).
  rewrite demean_vdef by auto. cbn [bind].
  unfold vec_of; cbn [vbuf].
  rewrite (rsum_loop (fun a => fmul a a) (dev xs) [] _ (dev_length xs)). cbn [bind].
  change (fofZ ((Z.of_nat (length xs) - 1) mod W))
    with (IZR ((Z.of_nat (length xs) - 1) mod W)).
  rewrite size_minus_1 by lia.
  change (fdiv ?a ?b) with (Rdivo a b).
  assert (2 <= INR (length xs)) by (change 2 with (INR 2); apply le_INR; lia).
  rewrite Rdivo_ok by lra. unfold variance, covariance.
  assert (E : forall l, rsum (map (fun a => fmul a a) l) = rdot l l)
    by (induction l as [|a l IH]; cbn in *; [reflexivity|]; rewrite IH; reflexivity).
  now rewrite E.
Qed.

Lemma variance_nonneg xs : (2 <= length xs)%nat -> 0 <= variance xs.
Proof.
  intros H. assert (2 <= INR (length xs)) by (change 2 with (INR 2); apply le_INR; lia).
  unfold variance, covariance. pose proof (rdot_self_nonneg (dev xs)).
  apply Rmult_le_pos; [lra|]. left. apply Rinv_0_lt_compat. lra.
Qed.

Lemma Rdiv_0_num a b : b <> 0 -> a / b = 0 -> a = 0.
Proof.
  intros Hb H. apply Rmult_integral in H as [H|H]; auto.
  exfalso. revert H. now apply Rinv_neq_0_compat.
Qed.

Lemma variance_zero xs : (2 <= length xs)%nat ->
  (variance xs = 0 <-> exists c, Forall (fun x => x = c) xs).
Proof.
  intros H. assert (2 <= INR (length xs)) by (change 2 with (INR 2); apply le_INR; lia).
  assert (Hx : xs <> []) by (intros ->; cbn in H; lia).
  unfold variance, covariance. split.
  - intros E. apply Rdiv_0_num in E; [|lra]. apply rdot_self_zero in E.
    exists (rmean xs). unfold dev in E. rewrite Forall_map in E.
    revert E. apply Forall_impl. intros a Ha. lra.
  - intros (c & Hc).
    assert (Hm : rmean xs = c).
    { assert (c <= rmean xs <= c); [|lra]. apply rmean_bounds; auto.
      revert Hc. apply Forall_impl. intros; lra. }
    rewrite rdot_zero_l; [lra|]. unfold dev. rewrite Forall_map.
    revert Hc. apply Forall_impl. intros a ->. lra.
Qed.

Lemma covariance_sym xs ys : length xs = length ys -> covariance xs ys = covariance ys xs.
Proof. intros H. unfold covariance. now rewrite rdot_comm, H. Qed.

Lemma covariance_cs xs ys : length xs = length ys -> (2 <= length xs)%nat ->
  covariance xs ys * covariance xs ys <= variance xs * variance ys.
Proof.
  intros HL H. assert (2 <= INR (length xs)) by (change 2 with (INR 2); apply le_INR; lia).
  unfold variance, covariance. rewrite <- HL.
  pose proof (cauchy_schwarz (dev xs) (dev ys)) as C.
  set (k := INR (length xs) - 1) in *. assert (0 < / k) by (apply Rinv_0_lt_compat; unfold k; lra).
  unfold Rdiv. set (i := / k) in *.
  replace (rdot (dev xs) (dev ys) * i * (rdot (dev xs) (dev ys) * i))
    with (rdot (dev xs) (dev ys) * rdot (dev xs) (dev ys) * (i * i)) by ring.
  replace (rdot (dev xs) (dev xs) * i * (rdot (dev ys) (dev ys) * i))
    with (rdot (dev xs) (dev xs) * rdot (dev ys) (dev ys) * (i * i)) by ring.
  apply Rmult_le_compat_r; nra.
Qed.

Lemma std_dev_ok bc W xs tx :
  (2 <= length xs)%nat -> (Z.of_nat (length xs) <= W)%Z ->
  sta_std_dev bc W (vec_of xs tx) = Ok (0%Z, Some (sqrt (variance xs))).
Proof.
  intros H2 HW. unfold sta_std_dev. rewrite var_ok by auto. cbn [bind lval].
  change (fsqrt (variance xs)) with (Rsqrto (variance xs)).
  rewrite Rsqrto_ok by (apply variance_nonneg; auto). reflexivity.
Qed.

Lemma sta_err_ok bc W xs tx :
  (2 <= length xs)%nat -> (Z.of_nat (length xs) <= W)%Z ->
  sta_sta_err bc W (vec_of xs tx) = Ok (0%Z, Some (sqrt (variance xs / INR (length xs)))).
Proof.
  intros H2 HW. unfold sta_sta_err. change (vsz (vec_of xs tx)) with (length xs).
  destruct (Nat.eqb_spec (length xs) 0); [lia|]. rewrite andb_false_r.
  rewrite var_ok by auto. cbn [bind lval].
  assert (2 <= INR (length xs)) by (change 2 with (INR 2); apply le_INR; lia).
  change (fofZ (Z.of_nat (length xs))) with (IZR (Z.of_nat (length xs))). rewrite IZR_nat.
  change (fdiv ?a ?b) with (Rdivo a b). rewrite Rdivo_ok by lra. cbn [bind].
  change (fsqrt ?a) with (Rsqrto a). rewrite Rsqrto_ok; [reflexivity|].
  pose proof (variance_nonneg xs H2). apply Rmult_le_pos; [lra|].
  left. apply Rinv_0_lt_compat. lra.
Qed.

(** one value has no sample variance: the code divides 0 by 0 *)
Lemma var_one bc W x tx : (1 <= W)%Z -> sta_var bc W (vec_of [x] tx) = NotReal.
Proof.
  intros HW. unfold sta_var. change (vsz (vec_of [x] tx)) with (length [x]).
  rewrite demean_vdef by discriminate. cbn [bind].
  unfold vec_of; cbn [vbuf].
  rewrite (rsum_loop (fun a => fmul a a) (dev [x]) [] _ (dev_length [x])). cbn [bind length].
  replace ((Z.of_nat 1 - 1) mod W)%Z with 0%Z by (rewrite Z.mod_small; lia).
  change (fdiv ?a ?b) with (Rdivo a b). cbn. rewrite Rdivo_0. reflexivity.
Qed.

Lemma mean_abs_dev_ok bc xs tx : xs <> [] ->
  sta_mean_abs_dev bc (vec_of xs tx) = Ok (0%Z, Some (rmean (map Rabs (dev xs)))).
Proof.
  intros H. unfold sta_mean_abs_dev. change (vsz (vec_of xs tx)) with (length xs).
  assert (length xs <> 0)%nat by (destruct xs; cbn; [contradiction|lia]).
  destruct (Nat.eqb_spec (length xs) 0); [lia|]. rewrite andb_false_r.
  rewrite demean_vdef by auto. cbn [bind]. unfold vec_of; cbn [vbuf].
  rewrite (rsum_loop fabs (dev xs) [] _ (dev_length xs)). cbn [bind].
  pose proof (INR_length_pos xs H).
  change (fofZ (Z.of_nat (length xs))) with (IZR (Z.of_nat (length xs))). rewrite IZR_nat.
  change (fdiv ?a ?b) with (Rdivo a b). rewrite Rdivo_ok by lra. cbn [bind].
  unfold rmean. now rewrite map_length, dev_length.
Qed.
