(** Products and rotations in double precision (C145, C146).  [FR] is the real
    number a machine number stands for, [uu] = 2^-53 the unit roundoff, [gam k]
    = (1 + uu)^k - 1 the effect of k roundings, and [eta] the largest error of
    one operation whose result underflows. *)
From Coq Require Import Floats.PrimFloat.
From Coq Require Import ZArith Reals Lra Lia List Bool.
From Verif Require Import Base BaseFacts NumF NumR SpecVec SpecReal SpecQuat SpecFlt SpecFltQuat SpecFltRot PFlt PFltSum PFltUnit PFltVar PFltQuat PPoly PFltRot PQuatRot.
From Verif Require Import MVec MQuat PVec PVecR PQuat.
Import ListNotations.
Open Scope R_scope.

(** * C145: the quaternion product, any of whose arguments may be the result *)
Theorem C145_product :
  forall (st : list (quat double)) (a b m : nat) p q,
  nth_error st a = Some p -> nth_error st b = Some q -> (m < length st)%nat ->
  exists st' w, quat_mult_st st a b m = Ok (0%Z, st')
    /\ length st' = length st /\ nth_error st' m = Some w
    /\ (forall k, k <> m -> nth_error st' k = nth_error st k)
    /\ (finite_quat w ->
        finite_quat p /\ finite_quat q /\
        qdist (FQ w) (hprod (FQ p) (FQ q)) <= 2 * gam 4 * (qnorm (FQ p) * qnorm (FQ q)) + 10 * eta).
Proof.
  intros st a b m p q Hp Hq Hm. exists (upd st m (fprod p q)), (fprod p q).
  split; [now apply mult_st_F|]. split; [now rewrite upd_length|].
  split; [now apply nth_error_upd_eq|]. split; [intros k Hk; now apply nth_error_upd_ne; auto|].
  intros F. destruct (prod_err p q F) as (Fp & Fq & E). repeat split; try apply Fp; try apply Fq. lra.
Qed.
Print Assumptions C145_product.

(** The square of one quaternion in place: memory of one element *)
Example C145_product_example :
  exists w, quat_mult_st [Quat (0.1)%float (0.2)%float (0.3)%float (0.4)%float] 0 0 0 = Ok (0%Z, [w]) /\ finite_quat w /\ ~ FQ w = qzero.
Proof.
  eexists. split; [reflexivity|]. split; [repeat split; vm_compute; reflexivity|].
  intros H. assert (N : FR (0.1 * 0.1 - 0.2 * 0.2 - 0.3 * 0.3 - 0.4 * 0.4)%float = 0) by (apply (f_equal (@qr R)) in H; exact H).
  pose proof (ltb_FR (0.1 * 0.1 - 0.2 * 0.2 - 0.3 * 0.3 - 0.4 * 0.4)%float zero ltac:(vm_compute; reflexivity) ltac:(vm_compute; reflexivity)) as L.
  rewrite N, FR_zero in L. apply (Rlt_irrefl 0), L. vm_compute. reflexivity.
Qed.

(** * C145: the cross product *)
Definition cross_bound (a b c d : double) : R :=
  gam 2 * (Rabs (FR a * FR b) + Rabs (FR c * FR d)) + 2 * (1 + uu) * eta.

Lemma cross_err a b c d : finite (a * b - c * d)%float ->
  finite a /\ finite b /\ finite c /\ finite d /\ Rabs (FR (a * b - c * d)%float - (FR a * FR b - FR c * FR d)) <= cross_bound a b c d.
Proof.
  intros F. pose (e := PS (PM (PV a) (PV b)) (PM (PV c) (PV d))).
  pose proof (poly_finite e F) as ((Fa & Fb) & (Fc & Fd)). repeat split; auto.
  pose proof (poly_err e F) as E. cbn [machine exactv e] in E. eapply Rle_trans; [exact E|].
  unfold cross_bound. cbn [ops mag under e Nat.max Nat.add]. rewrite !Rabs_mult. apply Rplus_le_compat_l, Req_le. rewrite gam_0. ring.
Qed.

Theorem C145_cross :
  forall bc a1 a2 a3 b1 b2 b3 (ta tb tc : buf double) c1 c2 c3,
  exists x y z, vec_cross bc (vec_of [a1; a2; a3] ta) (vec_of [b1; b2; b3] tb) (Vec 3 (c1 :: c2 :: c3 :: tc))
    = Ok (0%Z, vec_of [x; y; z] tc)
    /\ (finite x -> Rabs (FR x - (FR a2 * FR b3 - FR a3 * FR b2)) <= cross_bound a2 b3 a3 b2)
    /\ (finite y -> Rabs (FR y - (FR a3 * FR b1 - FR a1 * FR b3)) <= cross_bound a3 b1 a1 b3)
    /\ (finite z -> Rabs (FR z - (FR a1 * FR b2 - FR a2 * FR b1)) <= cross_bound a1 b2 a2 b1).
Proof.
  intros. do 3 eexists. split; [apply vec_cross_ok|]. repeat split; intros F; apply cross_err; exact F.
Qed.
Print Assumptions C145_cross.

Example C145_cross_example :
  exists x y z, vec_cross true (vec_of [0.1; 0.2; 0.3]%float []) (vec_of [0.4; 0.7; 0.9]%float []) (Vec 3 [None; None; None])
    = Ok (0%Z, vec_of [x; y; z] []) /\ finite x /\ finite y /\ finite z /\ PrimFloat.ltb zero y = true.
Proof. do 3 eexists. split; [reflexivity|]. repeat split; vm_compute; reflexivity. Qed.

(** * C146: rotating a vector *)

(** The unit quaternion in the direction of q *)
Definition direction (q : quat double) : quat R := qscale (/ qnorm (FQ q)) (FQ q).
(** The length of a vector *)
Definition len3 (x y z : R) : R := sqrt (x * x + y * y + z * z).

Lemma direction_unit q : 2 / 1000000000000 <= norm2 q -> unit_quat (direction q).
Proof.
  intros H. unfold direction, unit_quat. set (n := qnorm (FQ q)).
  assert (D : qdot (FQ q) (FQ q) = norm2 q) by (destruct q as [a b c d]; unfold norm2, FQ, qdot, re, im, vdot; cbn [qr qi qj qk]; ring).
  assert (N : n * n = norm2 q) by (unfold n, qnorm; rewrite D; apply sqrt_sqrt; lra).
  assert (n <> 0) by (intros E; rewrite E in N; lra).
  destruct (FQ q) as [a b c d]. unfold qdot, qscale, re, im, mkq, vscale, vdot in *. cbn [qr qi qj qk] in *.
  replace (/ n * a * (/ n * a) + (/ n * b * (/ n * b) + / n * c * (/ n * c) + / n * d * (/ n * d)))
    with (/ n * / n * (a * a + (b * b + c * c + d * d))) by ring.
  rewrite D, <- N. field. auto.
Qed.

Theorem C146_rotation :
  forall bc (q : quat double) x y z,
  finite_quat q -> (forall e, In e [qr q; qi q; qj q; qk q] -> Rabs (FR e) <= 2 ^ 480) ->
  2 / 1000000000000 <= norm2 q ->
  finite x -> finite y -> finite z ->
  / 2 ^ 400 <= len3 (FR x) (FR y) (FR z) <= 2 ^ 400 ->
  exists w, quat_rot bc q (Quat zero x y z) = Ok (0%Z, Some w) /\ finite_quat w
    /\ qdist (FQ w) (mkq 0 (rotate (direction q) (FR x, FR y, FR z))) <= 43 * uu * len3 (FR x) (FR y) (FR z).
Proof.
  intros bc q x y z Fq Bq Nq Fx Fy Fz L. exists (frot q (Quat zero x y z)). split; [apply rot_F|].
  assert (V : FQ (Quat zero x y z) = mkq 0 (FR x, FR y, FR z)) by (unfold FQ, mkq; cbn [qr qi qj qk]; now rewrite FR_zero).
  assert (VN : qnorm (FQ (Quat zero x y z)) = len3 (FR x) (FR y) (FR z)).
  { rewrite V. unfold qnorm, len3, qdot, mkq, re, im, vdot. cbn [qr qi qj qk]. f_equal. ring. }
  rewrite <- VN in *. rewrite <- (rot_hprod (direction q) _ 0) by now apply direction_unit. rewrite <- V.
  apply rot_err; auto; try apply L. repeat split; auto.
Qed.
Print Assumptions C146_rotation.

Lemma qdist_sym p q : qdist p q = qdist q p.
Proof.
  destruct p as [a b c d], q as [w x y z]. unfold qdist, qplus, qscale, mkq, re, im, vscale, vadd, qnorm, qdot, vdot. cbn [qr qi qj qk].
  f_equal. unfold re, im. cbn [qr qi qj qk]. ring.
Qed.

(** Lengths are kept, and nothing but rounding appears in the scalar part *)
Theorem C146_length :
  forall bc (q : quat double) x y z,
  finite_quat q -> (forall e, In e [qr q; qi q; qj q; qk q] -> Rabs (FR e) <= 2 ^ 480) ->
  2 / 1000000000000 <= norm2 q ->
  finite x -> finite y -> finite z ->
  / 2 ^ 400 <= len3 (FR x) (FR y) (FR z) <= 2 ^ 400 ->
  exists r x' y' z', quat_rot bc q (Quat zero x y z) = Ok (0%Z, Some (Quat r x' y' z'))
    /\ Rabs (FR r) <= 43 * uu * len3 (FR x) (FR y) (FR z)
    /\ Rabs (len3 (FR x') (FR y') (FR z') - len3 (FR x) (FR y) (FR z)) <= 86 * uu * len3 (FR x) (FR y) (FR z).
Proof.
  intros bc q x y z Fq Bq Nq Fx Fy Fz L.
  destruct (C146_rotation bc q x y z Fq Bq Nq Fx Fy Fz L) as ([r x' y' z'] & E & _ & D).
  exists r, x', y', z'. split; [exact E|]. set (l := len3 (FR x) (FR y) (FR z)) in *.
  set (t := mkq 0 (rotate (direction q) (FR x, FR y, FR z))) in *.
  assert (LT : qnorm t = l).
  { pose proof (rotate_len (direction q) (FR x, FR y, FR z) (direction_unit q Nq)) as R.
    unfold qnorm, t, l, len3, qdot. destruct (rotate (direction q) (FR x, FR y, FR z)) as [[a b] c].
    unfold vdot in R. unfold mkq, re, im, vdot. cbn [qr qi qj qk]. f_equal. lra. }
  assert (C : Rabs (FR r) <= 43 * uu * l).
  { eapply Rle_trans; [|exact D]. unfold qdist. eapply Rle_trans; [|exact (proj1 (qcomp_le _))].
    unfold t, FQ. destruct (rotate (direction q) (FR x, FR y, FR z)) as [[a b] c].
    unfold qplus, qscale, mkq, re, im, vscale, vadd. cbn [qr qi qj qk]. replace (FR r + -1 * 0) with (FR r) by ring. lra. }
  split; [exact C|].
  pose (s := mkq 0 (FR x', FR y', FR z')).
  assert (LS : qnorm s = len3 (FR x') (FR y') (FR z')).
  { unfold s, qnorm, len3, qdot, mkq, re, im, vdot. cbn [qr qi qj qk]. f_equal. ring. }
  assert (DS : qdist s (FQ (Quat r x' y' z')) <= 43 * uu * l).
  { eapply Rle_trans; [|exact C]. apply Req_le. unfold qdist, s, FQ, qplus, qscale, mkq, re, im, vscale, vadd, qnorm, qdot, vdot. cbn [qr qi qj qk].
    rewrite <- sqrt_Rsqr_abs. f_equal. unfold Rsqr. unfold re, im. cbn [qr qi qj qk]. ring. }
  rewrite <- LS. pose proof (qnorm_dist s t) as Q1. pose proof (qnorm_dist t s) as Q2. rewrite qdist_sym in Q2.
  pose proof (qdist_tri s (FQ (Quat r x' y' z')) t) as Q3. rewrite LT in *. apply Rabs_le. lra.
Qed.
Print Assumptions C146_length.

(** A quarter turn about the third axis, by a quaternion of length sqrt 2 *)
Example C146_example :
  exists w, quat_rot true (Quat one zero zero one) (Quat zero one zero zero) = Ok (0%Z, Some w) /\ finite_quat w
    /\ qdist (FQ w) (Quat 0 0 1 0) <= 43 * uu.
Proof.
  destruct (C146_rotation true (Quat one zero zero one) one zero zero) as (w & E & F & D);
    try match goal with
        | |- finite_quat _ => refine (conj _ (conj _ (conj _ _))); vm_compute; reflexivity
        | |- finite _ => vm_compute; reflexivity
        end.
  - cbn [qr qi qj qk]. intros e [<-|[<-|[<-|[<-|[]]]]]; rewrite ?FR_one, ?FR_zero, ?Rabs_R1, ?Rabs_R0; try (apply pow_R1_Rle; lra); apply pow_le; lra.
  - unfold norm2. cbn [qr qi qj qk]. rewrite FR_one, FR_zero. lra.
  - assert (L : len3 (FR one) (FR zero) (FR zero) = 1).
    { unfold len3. rewrite FR_one, FR_zero. replace (1 * 1 + 0 * 0 + 0 * 0) with 1 by ring. apply sqrt_1. }
    rewrite L. assert (1 <= 2 ^ 400) by (apply pow_R1_Rle; lra). split; [|auto].
    rewrite <- Rinv_1. apply Rinv_le_contravar; lra.
  - exists w. split; [exact E|]. split; [exact F|].
    assert (L : len3 (FR one) (FR zero) (FR zero) = 1).
    { unfold len3. rewrite FR_one, FR_zero. replace (1 * 1 + 0 * 0 + 0 * 0) with 1 by ring. apply sqrt_1. }
    rewrite L in D. replace (Quat 0 0 1 0) with (mkq 0 (rotate (direction (Quat one zero zero one)) (FR one, FR zero, FR zero))); [lra|].
    pose proof (direction_unit (Quat one zero zero one)) as U.
    assert (S : unit_quat (direction (Quat one zero zero one))).
    { apply U. unfold norm2. cbn [qr qi qj qk]. rewrite FR_one, FR_zero. lra. }
    unfold direction in *. set (k := / qnorm _) in *. unfold FQ, qscale, rotate, unit_quat, qdot, mkq, re, im, vscale, vadd, vdot, vcross in *.
    cbn [qr qi qj qk] in *. rewrite FR_one, FR_zero in *. f_equal; lra.
Qed.
