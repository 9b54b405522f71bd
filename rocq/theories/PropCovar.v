(** C181: covariance of combined measurements. *)
From Coq Require Import List Arith ZArith Bool Lia Reals Lra.
From Verif Require Import Base BaseFacts SpecVec SpecReal SpecMtx SpecStat MVec PVec PVecR PSort NumR
  RTac Out MMtx MStat PMtx PMtxOps PMtxR PStat PStatReg PropVec PropMtx PropStat PropPool.
Import ListNotations.
Local Open Scope R_scope.

Lemma sum_col r (f : nat -> nat -> R) i : rsum (col_of r f i) = bigsum r (fun k => f k i).
Proof.
  unfold col_of. induction r as [|r IH]; [reflexivity|].
  rewrite seq_S, map_app, rsum_app, IH. cbn. ring.
Qed.
Lemma dot_col r (f g : nat -> nat -> R) i j :
  rdot (col_of r f i) (col_of r g j) = bigsum r (fun k => f k i * g k j).
Proof.
  unfold col_of. induction r as [|r IH]; [reflexivity|].
  rewrite seq_S, !map_app, rdot_app, IH by now rewrite !map_length. cbn. ring.
Qed.
Lemma cov_cols r (f g : nat -> nat -> R) i j : (1 <= r)%nat ->
  covariance (col_of r f i) (col_of r g j)
  = (bigsum r (fun k => f k i * g k j)
     - bigsum r (fun k => f k i) * bigsum r (fun k => g k j) / INR r) / (INR r - 1).
Proof.
  intros H. unfold covariance. rewrite rdot_devs.
  - rewrite dot_col, !sum_col, col_of_length. reflexivity.
  - intros E. apply (f_equal (@length R)) in E. rewrite col_of_length in E. cbn in E. lia.
  - now rewrite !col_of_length.
Qed.
Lemma cov_lin r c (f g : nat -> nat -> R) (a : nat -> nat -> R) i j : (1 <= r)%nat ->
  covariance (col_of r f i) (col_of r (fun k j => bigsum c (fun q => g k q * a q j)) j)
  = bigsum c (fun q => covariance (col_of r f i) (col_of r g q) * a q j).
Proof.
  intros H. rewrite cov_cols by exact H.
  rewrite (bigsum_ext c _ (fun q => / (INR r - 1) *
    (bigsum r (fun k => f k i * (g k q * a q j))
     + (- / INR r * bigsum r (fun k => f k i)) * bigsum r (fun k => g k q * a q j)))).
  - rewrite <- bigsum_mult_l, bigsum_plus, <- bigsum_mult_l.
    rewrite (bigsum_swap c r (fun q k => f k i * (g k q * a q j))).
    rewrite (bigsum_swap c r (fun q k => g k q * a q j)).
    rewrite (bigsum_ext r (fun k => f k i * bigsum c (fun q => g k q * a q j))
      (fun k => bigsum c (fun q => f k i * (g k q * a q j)))).
    + unfold Rdiv. ring.
    + intros k _. apply bigsum_mult_l.
  - intros q _. rewrite cov_cols by exact H.
    rewrite (bigsum_ext r (fun k => f k i * (g k q * a q j)) (fun k => f k i * g k q * a q j)) by (intros; ring).
    rewrite <- !bigsum_mult_r. unfold Rdiv. ring.
Qed.
Lemma cov_quad r c (f a : nat -> nat -> R) i j : (1 <= r)%nat ->
  covariance (col_of r (fun k i => bigsum c (fun q => f k q * a q i)) i)
             (col_of r (fun k j => bigsum c (fun q => f k q * a q j)) j)
  = bigsum c (fun p => a p i * bigsum c (fun q => covariance (col_of r f p) (col_of r f q) * a q j)).
Proof.
  intros H. rewrite covariance_sym, cov_lin by (try exact H; now rewrite !col_of_length).
  apply bigsum_ext. intros p _. rewrite Rmult_comm. f_equal.
  rewrite covariance_sym, cov_lin by (try exact H; now rewrite !col_of_length). reflexivity.
Qed.

(** Law of propagation of covariance.  The rows of X are measurements of c
    quantities.  d new quantities are linear combinations of them, so that their
    measurements are the rows of X A.  Their covariance matrix is A^t G A, where
    G is the covariance matrix of the old ones: both ways of calculating it give
    the same table [g]. *)
Theorem C181_propagation bc W r c d (f a : nat -> nat -> R) tf ta y gx gy at_ p q :
  (2 <= r)%nat -> (Z.of_nat r <= W)%Z ->
  room r d y -> room c c gx -> room d d gy -> room d c at_ -> room c d p -> room d d q ->
  let X := mat_of r c f tf in let A := mat_of c d a ta in
  exists Y G At P g,
    mtx_mult bc X A y = Ok (0%Z, Y) /\ sta_covar_mtx bc W Y gy = Ok (0%Z, mat_of d d g (rest gy)) /\
    sta_covar_mtx bc W X gx = Ok (0%Z, G) /\ mtx_trans bc A at_ = Ok (0%Z, At) /\
    mtx_mult bc G A p = Ok (0%Z, P) /\ mtx_mult bc At P q = Ok (0%Z, mat_of d d g (rest q)).
Proof.
  intros Hr HW Ry Rgx Rgy Rat Rp Rq X A. unfold X, A.
  do 5 eexists. rewrite C24_mult_R by exact Ry. split; [reflexivity|].
  rewrite (covar_mtx_ok bc W r d) by assumption. split; [reflexivity|].
  rewrite (covar_mtx_ok bc W r c) by assumption. split; [reflexivity|].
  rewrite (C25_trans R NumR) by exact Rat. split; [reflexivity|].
  rewrite C24_mult_R by exact Rp. split; [reflexivity|]. rewrite C24_mult_R by exact Rq.
  do 2 f_equal. apply mat_ext. intros i j _ _. symmetry. apply cov_quad. lia.
Qed.
Print Assumptions C181_propagation.

(** In particular the covariance matrix is positive semidefinite: its quadratic
    form is the variance of the combination of the measurements with these
    weights, as zsl_sta_var gives it.  It is zero only for a combination which is
    the same in every measurement. *)
Theorem C181_semidefinite bc W r c (f : nat -> nat -> R) tf mc (a : nat -> R) t :
  (2 <= r)%nat -> (Z.of_nat r <= W)%Z -> room c c mc ->
  let comb := map (fun k => bigsum c (fun i => f k i * a i)) (seq 0 r) in
  exists g v, sta_covar_mtx bc W (mat_of r c f tf) mc = Ok (0%Z, mat_of c c g (rest mc)) /\
    sta_var bc W (vec_of comb t) = Ok (0%Z, Some v) /\
    bigsum c (fun i => a i * bigsum c (fun j => g i j * a j)) = v /\ 0 <= v /\
    (v = 0 <-> exists e, Forall (fun x => x = e) comb).
Proof.
  intros Hr HW R comb. exists (fun i j => covariance (col_of r f i) (col_of r f j)), (variance comb).
  assert (L : length comb = r) by (unfold comb; now rewrite map_length, seq_length).
  assert (Nc : comb <> []) by (intros E; rewrite E in L; cbn in L; lia).
  split; [now apply covar_mtx_ok|]. split; [apply var_ok; lia|].
  split; [exact (eq_sym (cov_quad r c f (fun i _ => a i) 0 0 ltac:(lia)))|].
  split; [apply variance_nonneg; lia|]. unfold variance, covariance. split.
  - intros E. exists (rmean comb).
    assert (Z : rdot (dev comb) (dev comb) = 0).
    { assert (2 <= INR r) by (change 2 with (INR 2); now apply le_INR).
      rewrite L in E. apply (Rmult_eq_reg_r (/ (INR r - 1))); [rewrite Rmult_0_l; exact E|].
      apply Rinv_neq_0_compat. lra. }
    apply rdot_self_zero in Z. unfold dev in Z. rewrite Forall_map in Z.
    eapply Forall_impl; [|exact Z]. cbn. intros x. lra.
  - intros (e & E). rewrite rdot_zero_l; [unfold Rdiv; ring|]. unfold dev. rewrite Forall_map.
    assert (M : rmean comb = e).
    { unfold rmean. assert (G : rsum comb = INR (length comb) * e).
      { clear - E. induction E as [|x l -> E IH]; [cbn; ring|]. cbn [rsum length]. rewrite IH, S_INR. ring. }
      rewrite G. pose proof (INR_length_pos comb Nc). field. lra. }
    eapply Forall_impl; [|exact E]. cbn. intros x ->. rewrite M. ring.
Qed.
Print Assumptions C181_semidefinite.

Example C181_ex : let f := fun i j => INR (i * (i + j)) in
  (2 <= 3)%nat /\ (Z.of_nat 3 <= 4294967296)%Z /\ room 2 2 (mtx_def (T := R) 2 2) /\
  covariance (col_of 3 f 0) (col_of 3 f 1) = 19 / 3.
Proof.
  cbn zeta. split; [lia|]. split; [cbn; lia|]. split; [apply room_def|].
  unfold covariance, dev, rmean, col_of. cbn. field.
Qed.
