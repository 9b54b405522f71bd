(** C151: rotation matrices in double precision. *)
From Coq Require Import Floats.PrimFloat.
From Coq Require Import ZArith Reals Lra Lia List Bool.
From Verif Require Import Base BaseFacts NumF NumR SpecVec SpecReal SpecMtx SpecQuat SpecFlt SpecFltQuat SpecFltRot PFlt PFltSum PFltUnit PFltQuat PPoly PFltRot PQuatRot PFltChol PFltMat PropFltQuat PropFltRot.
From Verif Require Import MVec MMtx MQuat PMtx PQuat.
Import ListNotations.
Open Scope R_scope.

(** [near_unit] is what normalising and the fusion filters leave (C136);
    [rotm u] is the matrix whose column j is the image of the j-th unit vector
    under the rotation by the unit quaternion u, and [direction q] is q divided
    by its exact length.  Every entry is finite and within 31 * 2^-53 of the
    exact rotation. *)
Theorem C151_matrix bc (q : quat double) (m : mtx double) : near_unit q -> room 3 3 m ->
  exists f, quat_to_rot_mtx bc q m = Ok (0%Z, mat_of 3 3 f (rest m)) /\
  forall i j, (i < 3)%nat -> (j < 3)%nat -> finite (f i j) /\ Rabs (FR (f i j) - rotm (direction q) i j) <= 31 * uu.
Proof. intros Hq Hm. exists (fm q). split; [now apply rot_mtx_F|]. intros i j Hi Hj. now apply mat_err. Qed.
Print Assumptions C151_matrix.

Lemma near_product f g a b e : Rabs (f - a) <= e -> Rabs (g - b) <= e -> Rabs a <= 1 -> Rabs b <= 1 ->
  Rabs (f * g - a * b) <= 2 * e + e * e.
Proof.
  intros Hf Hg Ha Hb. replace (f * g - a * b) with ((f - a) * (g - b) + (f - a) * b + a * (g - b)) by ring.
  pose proof (Rabs_pos (f - a)). pose proof (Rabs_pos (g - b)). pose proof (Rabs_pos a). pose proof (Rabs_pos b).
  eapply Rle_trans; [apply Rabs_triang|]. eapply Rle_trans; [apply Rplus_le_compat_r, Rabs_triang|]. rewrite !Rabs_mult.
  assert (Rabs (f - a) * Rabs (g - b) <= e * e) by (apply Rmult_le_compat; lra).
  assert (Rabs (f - a) * Rabs b <= e * 1) by (apply Rmult_le_compat; lra).
  assert (Rabs a * Rabs (g - b) <= 1 * e) by (apply Rmult_le_compat; lra). lra.
Qed.

Lemma near_unit_direction q : near_unit q -> unit_quat (direction q).
Proof.
  intros (_ & H). apply direction_unit. pose proof uu_tiny. pose proof uu_pos.
  unfold Rabs in H. destruct Rcase_abs in H; lra.
Qed.

Lemma rotm_le1 u i j : unit_quat u -> (i < 3)%nat -> (j < 3)%nat -> Rabs (rotm u i j) <= 1.
Proof.
  intros U Hi Hj. pose proof (@rotm_orthogonal u j j U Hj Hj) as E. rewrite Nat.eqb_refl in E.
  rewrite <- (Rabs_pos_eq 1) by lra. apply Rsqr_le_abs_0. unfold Rsqr.
  pose proof (Rle_0_sqr (rotm u 0 j)). pose proof (Rle_0_sqr (rotm u 1 j)). pose proof (Rle_0_sqr (rotm u 2 j)). unfold Rsqr in *.
  destruct i as [|[|[|i] ] ]; [lra|lra|lra|lia].
Qed.

(** So the columns are orthonormal up to 187 * 2^-53 *)
Theorem C151_orthogonal bc (q : quat double) (m : mtx double) : near_unit q -> room 3 3 m ->
  exists f, quat_to_rot_mtx bc q m = Ok (0%Z, mat_of 3 3 f (rest m)) /\
  forall i j, (i < 3)%nat -> (j < 3)%nat ->
    let c := fun a b => FR (f a b) in
    Rabs (c 0%nat i * c 0%nat j + c 1%nat i * c 1%nat j + c 2%nat i * c 2%nat j - (if Nat.eqb i j then 1 else 0)) <= 187 * uu.
Proof.
  intros Hq Hm. exists (fm q). split; [now apply rot_mtx_F|]. intros i j Hi Hj c.
  pose proof (near_unit_direction q Hq) as U. rewrite <- (@rotm_orthogonal _ i j U Hi Hj).
  assert (K : forall a, (a < 3)%nat -> Rabs (c a i * c a j - rotm (direction q) a i * rotm (direction q) a j) <= 2 * (31 * uu) + 31 * uu * (31 * uu)).
  { intros a Ha. apply near_product; try (apply rotm_le1; auto); apply mat_err; auto. }
  pose proof (K 0%nat ltac:(lia)) as K0. pose proof (K 1%nat ltac:(lia)) as K1. pose proof (K 2%nat ltac:(lia)) as K2.
  pose proof uu_pos. pose proof uu_tiny. assert (uu * uu <= / 100000 * uu) by (apply Rmult_le_compat_r; lra).
  apply Rabs_le. unfold Rabs in K0, K1, K2. destruct Rcase_abs in K0; destruct Rcase_abs in K1; destruct Rcase_abs in K2; lra.
Qed.
Print Assumptions C151_orthogonal.

(** The matrix of any quaternion that is neither tiny nor huge, normalised first *)
Theorem C151_normalised bc (q : quat double) (m : mtx double) : finite_quat q ->
  (forall x, In x [qr q; qi q; qj q; qk q] -> Rabs (FR x) <= 2 ^ 480) -> 2 / 1000000000000 <= norm2 q -> room 3 3 m ->
  exists u f, quat_to_unit q = Ok u /\ quat_to_rot_mtx bc u m = Ok (0%Z, mat_of 3 3 f (rest m)) /\
  forall i j, (i < 3)%nat -> (j < 3)%nat -> finite (f i j) /\ Rabs (FR (f i j) - rotm (direction u) i j) <= 31 * uu.
Proof.
  intros H1 H2 H3 Hm. destruct (C136_to_unit_regular H1 H2 H3) as (u & E & Hu).
  destruct (C151_matrix bc u m Hu Hm) as (f & Ef & Hf). exists u, f. auto.
Qed.
Print Assumptions C151_normalised.

(** The function itself does not normalise: the first column of the matrix of
    (1, 1, 0, 0) is (1, 0, 0), the second (0, -1, 2), of length sqrt 5 *)
Theorem C151_scale_refuted :
  exists f : nat -> nat -> double, quat_to_rot_mtx true (Quat 1 1 0 0)%float (mtx_def 3 3) = Ok (0%Z, mat_of 3 3 f []) /\
  f 0%nat 1%nat = 0%float /\ f 1%nat 1%nat = (-1)%float /\ f 2%nat 1%nat = 2%float.
Proof. exists (fm (Quat 1 1 0 0)%float). repeat split; reflexivity. Qed.
Print Assumptions C151_scale_refuted.

(** The hypotheses are met *)
Example C151_ex : near_unit (Quat 0.5 (-0.5) 0.5 0.5)%float /\ room 3 3 (mtx_def (T := double) 3 3).
Proof.
  split; [|repeat split; cbn; lia]. split; [repeat split|].
  assert (H : FR 0.5%float = / 2 /\ FR (-0.5)%float = - / 2).
  { assert (P : powerRZ 2 (-53) = / IZR 9007199254740992).
    { change (powerRZ 2 (-53)) with (/ 2 ^ Pos.to_nat 53). rewrite pow_IZR. reflexivity. }
    split; unfold FR.
    - replace (FloatOps.Prim2SF 0.5%float) with (SpecFloat.S754_finite false 4503599627370496 (-53)) by reflexivity. rewrite P. lra.
    - replace (FloatOps.Prim2SF (-0.5)%float) with (SpecFloat.S754_finite true 4503599627370496 (-53)) by reflexivity. rewrite P. lra. }
  unfold norm2. cbn [qr qi qj qk]. destruct H as (-> & ->).
  replace (_ - 1) with 0 by lra. rewrite Rabs_R0. pose proof uu_pos. lra.
Qed.
