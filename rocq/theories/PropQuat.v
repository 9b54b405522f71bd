(** Properties C67-C76, C96, C97: quaternions. *)
From Coq Require Import List Arith ZArith Bool Reals Lra Lia.
From Verif Require Import Base BaseFacts NumR Libm LibmR RTac RAtan2 Out MVec SpecVec SpecReal PVec
  PVecR MMtx SpecMtx PMtx MQuat SpecQuat PQuat PQuatRot PQuatTrig PQuatEul.
Import ListNotations.
Local Open Scope R_scope.
Implicit Types (p q qa qb : quat R).

(** memory [st'] is [st] with the object [o] holding [q] *)
Definition only_changed (st st' : list (quat R)) (o : nat) (q : quat R) : Prop :=
  nth_error st' o = Some q /\ forall i, i <> o -> nth_error st' i = nth_error st i.

Lemma upd_only st o q : (o < length st)%nat -> only_changed st (upd st o q) o q.
Proof.
  intros H. split.
  - rewrite nth_error_upd by exact H. now destruct (Nat.eq_dec o o).
  - intros i Hi. rewrite nth_error_upd by exact H. destruct (Nat.eq_dec o i); [congruence|reflexivity].
Qed.

(** ** C67 *)
(** The product of the objects a and b is written to m, which may be a or b. *)
Theorem C67_product st a b m qa qb :
  nth_error st a = Some qa -> nth_error st b = Some qb -> (m < length st)%nat ->
  exists st', quat_mult_st st a b m = Ok (0%Z, st') /\ only_changed st st' m (hprod qa qb).
Proof.
  intros Ha Hb Hm. exists (upd st m (hprod qa qb)).
  split; [now apply quat_mult_st_ok | now apply upd_only].
Qed.
Print Assumptions C67_product.

(** i j = k with the output aliasing the second input *)
Example C67_product_case :
  exists st', quat_mult_st [Quat 0 1 0 0; Quat 0 0 1 0] 0 1 1 = Ok (0%Z, st') /\
              nth_error st' 1 = Some (Quat 0 0 0 1).
Proof.
  destruct (C67_product [Quat 0 1 0 0; Quat 0 0 1 0] 0 1 1 _ _ eq_refl eq_refl) as (st' & E & O & _);
    [cbn; lia|].
  exists st'. split; [exact E|]. rewrite O. f_equal. unfold hprod. cbn. f_equal; ring.
Qed.

Theorem C67_associative qa qb qc :
  (let! ab := quat_mult qa qb in quat_mult ab qc) = (let! bc := quat_mult qb qc in quat_mult qa bc).
Proof. rewrite !quat_mult_ok. cbn [bind]. rewrite !quat_mult_ok. now rewrite hprod_assoc. Qed.
Print Assumptions C67_associative.

Theorem C67_identity q :
  quat_mult (quat_init 1) q = Ok q /\ quat_mult q (quat_init 1) = Ok q.
Proof.
  rewrite !quat_mult_ok. change (quat_init 1) with qone. now rewrite hprod_1_l, hprod_1_r.
Qed.
Print Assumptions C67_identity.

(** any other type initialises to the zero of the product, of magnitude zero *)
Theorem C67_empty q type : type <> 1%Z ->
  quat_mult (quat_init type) q = Ok (quat_init type) /\ quat_mult q (quat_init type) = Ok (quat_init type) /\
  quat_magn (quat_init type) = Ok (0 : R).
Proof.
  intros Ht. unfold quat_init. apply Z.eqb_neq in Ht. rewrite Ht. rewrite !quat_mult_ok, quat_magn_ok.
  change quat_empty with qzero. split; [|split].
  - f_equal. destruct q. unfold hprod, qzero, mkq; cbn; f_equal; lra.
  - f_equal. destruct q. unfold hprod, qzero, mkq; cbn; f_equal; lra.
  - f_equal. unfold qnorm. replace (qdot qzero qzero) with 0 by (unfold qdot, qzero, mkq; cbn; ring). apply sqrt_0.
Qed.
Print Assumptions C67_empty.
Example C67_empty_case : quat_mult (quat_init 0) (mkq 1 (2, 3, 4)) = Ok (quat_init 0).
Proof. destruct (@C67_empty (mkq 1 (2, 3, 4)) 0%Z) as (E & _); [lia|exact E]. Qed.

Theorem C67_magnitude qa qb q ma mb m :
  quat_mult qa qb = Ok q -> quat_magn qa = Ok ma -> quat_magn qb = Ok mb -> quat_magn q = Ok m ->
  m = ma * mb.
Proof.
  rewrite quat_mult_ok. intros E. injection E as <-. rewrite !quat_magn_ok.
  intros E1 E2 E3. injection E1 as <-. injection E2 as <-. injection E3 as <-. apply qnorm_hprod.
Qed.
Print Assumptions C67_magnitude.

(** not commutative: i j <> j i *)
Theorem C67_commutative_refuted :
  exists qa qb, quat_mult qa qb <> quat_mult qb qa.
Proof.
  exists (Quat 0 1 0 0), (Quat 0 0 1 0). rewrite !quat_mult_ok. unfold hprod. cbn.
  intros E. injection E as E. lra.
Qed.
Print Assumptions C67_commutative_refuted.

(** ** C68 *)
Theorem C68_inverse st a o q :
  nth_error st a = Some q -> (o < length st)%nat -> / 1000000 <= qnorm q ->
  exists st' qi, quat_inv_st st a o = Ok (0%Z, st') /\ only_changed st st' o qi /\
    quat_mult q qi = Ok qone /\ quat_mult qi q = Ok qone.
Proof.
  intros Ha Ho Hq. exists (upd st o (inverted q)), (inverted q).
  split; [now apply quat_inv_st_ok|]. split; [now apply upd_only|].
  rewrite !quat_mult_ok, inverted_big by exact Hq.
  assert (N : qdot q q <> 0) by (rewrite <- qnorm_sqr; nra).
  rewrite hprod_scale_r, hprod_scale_l, hprod_conj, conj_hprod, !qscale_qscale, Rinv_l, qscale_1
    by exact N. auto.
Qed.
Print Assumptions C68_inverse.
Example C68_inverse_case : / 1000000 <= qnorm (Quat 1 2 (-2) 4).
Proof.
  unfold qnorm, qdot. cbn. replace (1 * 1 + (2 * 2 + -2 * -2 + 4 * 4)) with (5 * 5) by ring.
  rewrite sqrt_square; lra.
Qed.

Theorem C68_inverse_small q : qnorm q < / 1000000 -> quat_inv q = Ok qzero.
Proof. intros H. rewrite quat_inv_ok. unfold inverted. now destruct (Rlt_dec _ _). Qed.
Print Assumptions C68_inverse_small.

Theorem C68_conjugate st a o q :
  nth_error st a = Some q -> (o < length st)%nat ->
  exists st', quat_conj_st st a o = Ok (0%Z, st') /\
    only_changed st st' o (Quat (qr q) (- qi q) (- qj q) (- qk q)).
Proof.
  intros Ha Ho. exists (upd st o (qconj q)). split; [now apply quat_conj_st_ok|].
  replace (Quat _ _ _ _) with (qconj q); [now apply upd_only|].
  destruct q. unfold qconj. cbn. f_equal; ring.
Qed.
Print Assumptions C68_conjugate.

Theorem C68_conjugate_involution q : (let! c := quat_conj q in quat_conj c) = Ok q.
Proof.
  rewrite quat_conj_ok. cbn [bind]. rewrite quat_conj_ok. f_equal. destruct q. unfold qconj. cbn.
  f_equal; ring.
Qed.
Print Assumptions C68_conjugate_involution.

Theorem C68_conjugate_product qa qb :
  (let! ab := quat_mult qa qb in quat_conj ab)
  = (let! a := quat_conj qa in let! b := quat_conj qb in quat_mult b a).
Proof.
  rewrite quat_mult_ok, !quat_conj_ok. cbn [bind]. rewrite quat_conj_ok, quat_mult_ok.
  now rewrite qconj_hprod.
Qed.
Print Assumptions C68_conjugate_product.

(** zsl_quat_diff: qb = qa * qd *)
Theorem C68_difference qa qb :
  / 1000000 <= qnorm qa -> exists qd, quat_diff qa qb = Ok qd /\ quat_mult qa qd = Ok qb.
Proof.
  intros H. unfold quat_diff. rewrite quat_inv_ok. cbn [bind]. rewrite quat_mult_ok.
  eexists. split; [reflexivity|]. rewrite quat_mult_ok, <- hprod_assoc, inverted_big by exact H.
  assert (N : qdot qa qa <> 0) by (rewrite <- qnorm_sqr; nra).
  rewrite hprod_scale_r, hprod_conj, qscale_qscale, Rinv_l, qscale_1, hprod_1_l by exact N. reflexivity.
Qed.
Print Assumptions C68_difference.

(** ** C69 *)
(** a positive multiple of q of magnitude 1; the output may be the input *)
Theorem C69_to_unit st a o q :
  nth_error st a = Some q -> (o < length st)%nat -> / 1000000 <= qnorm q ->
  exists st' qn s, quat_to_unit_st st a o = Ok (0%Z, st') /\ only_changed st st' o qn /\
    0 < s /\ qn = qscale s q /\ quat_magn qn = Ok 1.
Proof.
  intros Ha Ho Hq. exists (upd st o (unitised q)), (unitised q), (/ qnorm q).
  split; [now apply quat_to_unit_st_ok|]. split; [now apply upd_only|].
  split; [apply Rinv_0_lt_compat; lra|]. split; [now apply unitised_big|].
  rewrite quat_magn_ok. f_equal. apply qnorm_unit. now apply unitised_unit.
Qed.
Print Assumptions C69_to_unit.
Example C69_to_unit_case : quat_to_unit (Quat 1 2 (-2) 4) = Ok (Quat (1/5) (2/5) (-2/5) (4/5)).
Proof.
  rewrite quat_to_unit_ok, unitised_big by exact C68_inverse_case.
  assert (E : qnorm (Quat 1 2 (-2) 4) = 5).
  { unfold qnorm, qdot. cbn. replace (1 * 1 + (2 * 2 + -2 * -2 + 4 * 4)) with (5 * 5) by ring.
    rewrite sqrt_square; lra. }
  rewrite E. unfold qscale. cbn. do 2 f_equal; field.
Qed.

Theorem C69_to_unit_small st a o q :
  nth_error st a = Some q -> (o < length st)%nat -> qnorm q < / 1000000 ->
  exists st', quat_to_unit_st st a o = Ok (0%Z, st') /\ only_changed st st' o qzero.
Proof.
  intros Ha Ho Hq. exists (upd st o qzero). split; [|now apply upd_only].
  rewrite <- (unitised_small q Hq). now apply quat_to_unit_st_ok.
Qed.
Print Assumptions C69_to_unit_small.

Theorem C69_magnitude q : exists m, quat_magn q = Ok m /\ 0 <= m /\
  m * m = qr q * qr q + qi q * qi q + qj q * qj q + qk q * qk q.
Proof.
  exists (qnorm q). rewrite quat_magn_ok. split; [reflexivity|]. split; [apply qnorm_nonneg|].
  rewrite qnorm_sqr. destruct q. unfold qdot. cbn. ring.
Qed.
Print Assumptions C69_magnitude.

Theorem C69_is_unit q : exists b, quat_is_unit q = Ok b /\
  (b = true <-> Rabs (qnorm q - 1) < / 1000000).
Proof.
  unfold quat_is_unit. change (fsqrt _) with (quat_magn q). rewrite quat_magn_ok. cbn [bind].
  eexists. split; [reflexivity|]. unfold quat_val_is_equal. rops.
  destruct (Rltb_spec (Rabs (qnorm q - 1)) (1 / 1000000)); split; intros; try reflexivity; try lra; discriminate.
Qed.
Print Assumptions C69_is_unit.

(** every normalised quaternion of magnitude at least 1e-6 is recognised *)
Theorem C69_is_unit_to_unit q :
  / 1000000 <= qnorm q -> (let! u := quat_to_unit q in quat_is_unit u) = Ok true.
Proof.
  intros H. rewrite quat_to_unit_ok. cbn [bind].
  destruct (C69_is_unit (unitised q)) as (b & E & D). rewrite E. f_equal. apply D.
  rewrite qnorm_unit by now apply unitised_unit. rewrite Rminus_diag_eq, Rabs_R0 by reflexivity. lra.
Qed.
Print Assumptions C69_is_unit_to_unit.

(** scaling *)
Theorem C69_scale st a o q s :
  nth_error st a = Some q -> (o < length st)%nat ->
  exists st', quat_scale_st st a s o = Ok (0%Z, st') /\
    only_changed st st' o (Quat (qr q * s) (qi q * s) (qj q * s) (qk q * s)).
Proof.
  intros Ha Ho. exists (upd st o (qscale s q)). split; [now apply quat_scale_st_ok|].
  replace (Quat _ _ _ _) with (qscale s q); [now apply upd_only|].
  destruct q. unfold qscale. cbn. f_equal; ring.
Qed.
Print Assumptions C69_scale.

(** ** C70 *)
(** the rotated quaternion is pure, has the length of the input, and is the
    image of the input under the rotation matrix of the normalised qa *)
Theorem C70_rotation bc qa x y z m :
  / 1000000 <= qnorm qa -> room 3 3 m ->
  exists x' y' z' u f,
    quat_rot bc qa (Quat 0 x y z) = Ok (0%Z, Some (Quat 0 x' y' z')) /\
    x' * x' + y' * y' + z' * z' = x * x + y * y + z * z /\
    quat_to_unit qa = Ok u /\ quat_to_rot_mtx bc u m = Ok (0%Z, mat_of 3 3 f (rest m)) /\
    (x', y', z') = mapply f (x, y, z).
Proof.
  intros Ha Hm. pose proof (unitised_unit qa Ha) as U.
  rewrite quat_rot_ok; [|right; cbn; rewrite Rabs_R0; lra|exact Ha].
  pose proof (rotate_rotm (unitised qa) (x, y, z)) as M.
  pose proof (rotate_len (unitised qa) (x, y, z) U) as L.
  change (im (Quat 0 x y z)) with (x, y, z). change (re (Quat 0 x y z)) with 0.
  destruct (rotate (unitised qa) (x, y, z)) as [[x' y'] z'] eqn:E.
  exists x', y', z', (unitised qa), (rotm (unitised qa)).
  split; [reflexivity|]. split; [exact L|]. split; [apply quat_to_unit_ok|].
  split; [now apply quat_to_rot_mtx_ok|]. now rewrite M.
Qed.
Print Assumptions C70_rotation.
Example C70_rotation_case :   (* a quarter turn about z takes x to y *)
  quat_rot true (Quat 1 0 0 1) (Quat 0 1 0 0) = Ok (0%Z, Some (Quat 0 0 1 0)).
Proof.
  assert (D : qdot (Quat 1 0 0 1) (Quat 1 0 0 1) = 2) by (unfold qdot; cbn; ring).
  assert (N : qnorm (Quat 1 0 0 1) = sqrt 2) by (unfold qnorm; now rewrite D).
  assert (S : sqrt 2 * sqrt 2 = 2) by (apply sqrt_sqrt; lra).
  assert (P : 1 <= sqrt 2) by (rewrite <- sqrt_1; apply sqrt_le_1; lra).
  rewrite quat_rot_ok; [|right; cbn; rewrite Rabs_R0; lra|rewrite N; lra].
  do 3 f_equal. rewrite unitised_big by (rewrite N; lra). rewrite N.
  assert (I : / sqrt 2 * / sqrt 2 = / 2) by (rewrite <- Rinv_mult, S; reflexivity).
  unfold rotate, qscale. cbn. f_equal; ring_simplify; replace (_ ^ 2) with (/ 2) by (rewrite <- I; ring);
    field.
Qed.

(** a quaternion with a real part above 1e-6 is rejected, and nothing is written *)
Theorem C70_not_pure qa qb :
  / 1000000 < Rabs (qr qb) -> quat_rot true qa qb = Ok ((- EINVAL)%Z, None).
Proof.
  intros H. unfold quat_rot. rops. cbn [andb].
  destruct (Rltb_spec (1 / 1000000) (Rabs (qr qb))); [reflexivity|lra].
Qed.
Print Assumptions C70_not_pure.

(** rotating by a product is rotating twice *)
Theorem C70_composition bc qa qb q ab v w :
  unit_quat qa -> unit_quat qb -> qr q = 0 ->
  quat_mult qa qb = Ok ab ->
  quat_rot bc qb q = Ok (0%Z, Some v) -> quat_rot bc qa v = Ok (0%Z, Some w) ->
  quat_rot bc ab q = Ok (0%Z, Some w).
Proof.
  intros Ua Ub Hr Hm. rewrite quat_mult_ok in Hm. injection Hm as <-.
  assert (N : forall u, unit_quat u -> / 1000000 <= qnorm u)
    by (intros u Hu; rewrite (qnorm_unit u Hu); lra).
  assert (Z : forall u, qr u = 0 -> bc = false \/ Rabs (re u) <= / 1000000)
    by (intros u Hu; right; unfold re; rewrite Hu, Rabs_R0; lra).
  rewrite quat_rot_ok by auto. intros E. injection E as <-.
  assert (RZ : qr (mkq (re q) (rotate (unitised qb) (im q))) = 0).
  { destruct (rotate (unitised qb) (im q)) as [[x y] z]. exact Hr. }
  rewrite quat_rot_ok by auto. intros E. injection E as <-.
  rewrite quat_rot_ok by (auto using hprod_unit). rewrite !unitised_of_unit by auto using hprod_unit.
  do 3 f_equal. now rewrite rotate_hprod by assumption.
Qed.
Print Assumptions C70_composition.

(** magnitudes below 1e-6 do not rotate: the result is zero *)
Theorem C70_tiny_refuted :
  exists qa, qnorm qa <> 0 /\ quat_rot true qa (Quat 0 1 0 0) = Ok (0%Z, Some qzero).
Proof.
  exists (Quat (/ 10000000) 0 0 0).
  assert (N : qnorm (Quat (/ 10000000) 0 0 0) = / 10000000).
  { unfold qnorm, qdot. cbn. replace (_ + _) with (/ 10000000 * / 10000000) by ring.
    apply sqrt_square. lra. }
  split; [rewrite N; lra|]. unfold quat_rot. rops. cbn [andb].
  destruct (Rltb_spec (1 / 1000000) (Rabs (qr (Quat 0 1 0 0)))) as [L|L];
    [cbn in L; rewrite Rabs_R0 in L; lra|].
  rewrite quat_to_unit_ok. cbn [bind]. rewrite unitised_small by (rewrite N; lra).
  rewrite quat_mult_ok. cbn [bind]. rewrite quat_inv_ok. cbn [bind]. rewrite quat_mult_ok. cbn [bind].
  do 3 f_equal. assert (I : inverted qzero = qzero).
  { unfold inverted. destruct (Rlt_dec _ _) as [l|l]; [reflexivity|]. exfalso. apply l.
    unfold qnorm, qdot. cbn. replace (_ + _) with 0 by ring. rewrite sqrt_0. lra. }
  rewrite I. unfold hprod, qzero. cbn. f_equal; ring.
Qed.
Print Assumptions C70_tiny_refuted.

(** ** C71 *)
Theorem C71_rotation_matrix bc q m :
  unit_quat q -> room 3 3 m ->
  exists f, quat_to_rot_mtx bc q m = Ok (0%Z, mat_of 3 3 f (rest m)) /\
    (forall i j, (i < 3)%nat -> (j < 3)%nat ->
       f 0%nat i * f 0%nat j + f 1%nat i * f 1%nat j + f 2%nat i * f 2%nat j
       = if Nat.eqb i j then 1 else 0) /\
    mdet f = 1.
Proof.
  intros U Hm. exists (rotm q). split; [now apply quat_to_rot_mtx_ok|].
  split; [intros; now apply rotm_orthogonal | now apply rotm_det].
Qed.
Print Assumptions C71_rotation_matrix.
Example C71_rotation_matrix_case :
  unit_quat (Quat (1/5) (2/5) (-2/5) (4/5)) /\ room 3 3 (Mtx (T := R) 3 3 (fresh 9)).
Proof. split; [unfold unit_quat, qdot; cbn; field | repeat split; cbn; lia]. Qed.

Theorem C71_wrong_shape q (m : mtx R) :
  mrows m <> 3%nat \/ mcols m <> 3%nat -> quat_to_rot_mtx true q m = Ok ((- EINVAL)%Z, m).
Proof.
  intros H. unfold quat_to_rot_mtx. cbn [andb].
  destruct (Nat.eqb_spec (mcols m) 3), (Nat.eqb_spec (mrows m) 3); cbn [negb orb]; try reflexivity.
  tauto.
Qed.
Print Assumptions C71_wrong_shape.

(** ** C72 *)
(** full statement: for every unit q.  Missing: quaternions with a non-zero
    vector component c such that |4 r c| <= 1e-6 (see [C72_round_trip_refuted]) *)
Theorem C72_round_trip_partial bc q m m' rc :
  unit_quat q -> room 3 3 m -> quat_to_rot_mtx bc q m = Ok (rc, m') ->
  (forall c, c = qi q \/ c = qj q \/ c = qk q -> c = 0 \/ / 1000000 < Rabs (4 * (qr q * c))) ->
  exists p, quat_from_rot_mtx bc m' = Ok (0%Z, Some p) /\ (p = q \/ p = qscale (-1) q).
Proof.
  intros U Hm E H. rewrite quat_to_rot_mtx_ok in E by assumption. injection E as <- <-.
  change (Mtx _ _ _) with (mat_of 3 3 (rotm q) (rest m)). rewrite from_rot_mtx_ok by exact U. eexists. split; [reflexivity|].
  assert (Hi := H (qi q) (or_introl eq_refl)).
  assert (Hj := H (qj q) (or_intror (or_introl eq_refl))).
  assert (Hk := H (qk q) (or_intror (or_intror eq_refl))).
  destruct (Rtotal_order (qr q) 0) as [N|[Z|P]].
  - right. rewrite !signed_eq_neg by tauto. rewrite Rabs_left by exact N.
    destruct q. unfold qscale. cbn. f_equal; ring.
  - exfalso. rewrite Z in *. rewrite !Rmult_0_l, Rmult_0_r, Rabs_R0 in *.
    destruct q as [w x y z]. unfold unit_quat, qdot in U. cbn in *.
    destruct Hi as [Hi|Hi]; [|lra]. destruct Hj as [Hj|Hj]; [|lra]. destruct Hk as [Hk|Hk]; [|lra].
    subst. lra.
  - left. rewrite !signed_eq by tauto. rewrite Rabs_right by lra. now destruct q.
Qed.
Print Assumptions C72_round_trip_partial.
Example C72_round_trip_case :
  let q := Quat (1/5) (2/5) (-2/5) (4/5) in
  unit_quat q /\
  (forall c, c = qi q \/ c = qj q \/ c = qk q -> c = 0 \/ / 1000000 < Rabs (4 * (qr q * c))).
Proof.
  cbn. split; [unfold unit_quat, qdot; cbn; field|].
  intros c [->|[->| ->]]; right.
  - rewrite Rabs_right by lra. lra.
  - rewrite Rabs_left by lra. lra.
  - rewrite Rabs_right by lra. lra.
Qed.

(** the half turn about (3/5, -4/5, 0) comes back as the half turn about
    (3/5, 4/5, 0) *)
Theorem C72_round_trip_refuted :
  exists q p, unit_quat q /\
    (let! (_, m) := quat_to_rot_mtx true q (Mtx 3 3 (fresh 9)) in quat_from_rot_mtx true m)
    = Ok (0%Z, Some p) /\
    p <> q /\ p <> qscale (-1) q /\ rotate p (1, 0, 0) <> rotate q (1, 0, 0).
Proof.
  exists (Quat 0 (3/5) (-4/5) 0), (Quat 0 (3/5) (4/5) 0).
  assert (U : unit_quat (Quat 0 (3/5) (-4/5) 0)) by (unfold unit_quat, qdot; cbn; field).
  split; [exact U|]. split.
  - rewrite quat_to_rot_mtx_ok by (repeat split; cbn; lia). cbn [bind].
    rewrite from_rot_mtx_ok by exact U. cbn [qr qi qj qk]. do 3 f_equal.
    unfold signed. rewrite !Rmult_0_l, !Rmult_0_r, Rabs_R0.
    destruct (Rlt_dec _ _); [lra|].
    rewrite (Rabs_right (3/5)) by lra. rewrite (Rabs_left (-4/5)) by lra. f_equal; lra.
  - split; [intros E; injection E; lra|]. split; [intros E; injection E; lra|].
    unfold rotate. cbn. intros E. injection E. intros. lra.
Qed.
Print Assumptions C72_round_trip_refuted.

Theorem C72_wrong_shape (m : mtx R) :
  mrows m <> 3%nat \/ mcols m <> 3%nat -> quat_from_rot_mtx true m = Ok ((- EINVAL)%Z, None).
Proof.
  intros H. unfold quat_from_rot_mtx. cbn [andb].
  destruct (Nat.eqb_spec (mcols m) 3), (Nat.eqb_spec (mrows m) 3); cbn [negb orb]; try reflexivity.
  tauto.
Qed.
Print Assumptions C72_wrong_shape.

(** ** C73 *)
Theorem C73_from_euler e :
  exists q, quat_from_euler e = (0%Z, q) /\ unit_quat q /\
    q = hprod (hprod (rot_x (ex e)) (rot_y (ey e))) (rot_z (ez e)) /\
    forall v, rotate q v = rodrigues (1, 0, 0) (ex e)
                             (rodrigues (0, 1, 0) (ey e) (rodrigues (0, 0, 1) (ez e) v)).
Proof.
  exists (eul (ex e) (ey e) (ez e)). split; [apply from_euler_ok|]. split; [apply eul_unit|].
  split; [reflexivity|]. intros v. unfold eul.
  rewrite !rotate_hprod by auto using hprod_unit, rot_x_unit, rot_y_unit, rot_z_unit.
  rewrite rot_x_cis, rot_y_cis, rot_z_cis, !rotate_cis by (unfold vdot; ring). reflexivity.
Qed.
Print Assumptions C73_from_euler.
Example C73_from_euler_case : quat_from_euler (Euler 0 0 PI) = (0%Z, Quat 0 0 0 1).
Proof.
  rewrite from_euler_ok. unfold eul, rot_x, rot_y, rot_z, hprod. cbn.
  replace (0 / 2) with 0 by field. rewrite sin_0, cos_0, sin_PI2, cos_PI2. do 2 f_equal; ring.
Qed.

(** ** C74 *)
Theorem C74_from_axis_angle bc x y z tl (b : R) :
  / 1000000 <= vlen (x, y, z) ->
  exists q, quat_from_axis_angle bc (vec_of [x; y; z] tl) b = Ok (0%Z, Some q) /\ unit_quat q /\
    forall v, rotate q v = rodrigues (vscale (/ vlen (x, y, z)) (x, y, z)) b v.
Proof.
  intros H. eexists. split; [now apply from_axis_angle_ok|].
  assert (U : vdot (vscale (/ vlen (x, y, z)) (x, y, z)) (vscale (/ vlen (x, y, z)) (x, y, z)) = 1)
    by (apply vunit; lra).
  split; [now apply cis_unit|]. intros v. now apply rotate_cis.
Qed.
Print Assumptions C74_from_axis_angle.
Example C74_from_axis_angle_case : / 1000000 <= vlen (0, 3, 4).
Proof.
  unfold vlen, vdot. replace (_ + _) with (5 * 5) by ring. rewrite sqrt_square; lra.
Qed.

Theorem C74_zero_axis bc x y z tl (b : R) :
  vlen (x, y, z) < / 1000000 ->
  quat_from_axis_angle bc (vec_of [x; y; z] tl) b = Ok (0%Z, Some qzero).
Proof. apply from_axis_angle_zero. Qed.
Print Assumptions C74_zero_axis.

(** full statement: angles in (0, 2 pi).  Missing: angles with
    cos (b/2) > 1 - 1e-6, about 0.0028 rad (see [C74_small_angle_refuted]) *)
Theorem C74_round_trip_partial bc x y z tl (b : R) (bf : buf R) q :
  / 1000000 <= vlen (x, y, z) -> 0 < b < 2 * PI -> cos (b / 2) <= 1 - / 1000000 ->
  (3 <= length bf)%nat ->
  quat_from_axis_angle bc (vec_of [x; y; z] tl) b = Ok (0%Z, Some q) ->
  let s := / vlen (x, y, z) in
  quat_to_axis_angle bc q (Vec 3 bf)
  = Ok (0%Z, vec_of [s * x; s * y; s * z] (skipn 3 bf), Set_ b).
Proof.
  intros Ha Hb Hc Hl Hq s. rewrite from_axis_angle_ok in Hq by exact Ha. injection Hq as <-.
  assert (U : vdot (vscale s (x, y, z)) (vscale s (x, y, z)) = 1) by (apply vunit; lra).
  pose proof (cis_unit _ (b / 2) U) as Uq.
  rewrite to_axis_angle_ok with (h := b / 2) (n := vscale s (x, y, z)); try assumption; try lra.
  - cbn [coord vscale]. do 3 f_equal. field.
  - eapply Rle_trans; [|right; symmetry; exact (qnorm_unit _ Uq)]. lra.
  - exact (unitised_of_unit _ Uq).
Qed.
Print Assumptions C74_round_trip_partial.
Example C74_round_trip_case : 0 < PI < 2 * PI /\ cos (PI / 2) <= 1 - / 1000000.
Proof. pose proof PI_RGT_0. rewrite cos_PI2. lra. Qed.

(** the axis and angle of any other quaternion away from +-1 *)
Theorem C74_to_axis_angle_partial bc q (bf : buf R) :
  / 1000000 <= qnorm q -> (3 <= length bf)%nat ->
  - qnorm q < qr q <= (1 - / 1000000) * qnorm q ->
  exists x y z b,
    quat_to_axis_angle bc q (Vec 3 bf) = Ok (0%Z, vec_of [x; y; z] (skipn 3 bf), Set_ b) /\
    x * x + y * y + z * z = 1 /\ 0 < b < 2 * PI /\
    quat_to_unit q = Ok (Quat (cos (b / 2)) (x * sin (b / 2)) (y * sin (b / 2)) (z * sin (b / 2))).
Proof.
  intros Hq Hl Hr. pose proof (unitised_unit q Hq) as U.
  destruct (polar _ U) as (n & h & Hn & Hh & E & _ & _).
  assert (R1 : re (unitised q) = qr q / qnorm q).
  { rewrite unitised_big by exact Hq. destruct q. cbn. field. lra. }
  assert (C : cos h = qr q / qnorm q).
  { rewrite <- R1, E. destruct n as [[x y] z]. reflexivity. }
  assert (C1 : -1 < cos h <= 1 - / 1000000).
  { rewrite C. split.
    - apply (Rmult_lt_reg_r (qnorm q)); [lra|]. unfold Rdiv. rewrite Rmult_assoc, Rinv_l; lra.
    - apply (Rmult_le_reg_r (qnorm q)); [lra|]. unfold Rdiv. rewrite Rmult_assoc, Rinv_l; lra. }
  assert (H0 : 0 < h < PI).
  { split.
    - destruct (Rle_lt_or_eq_dec 0 h (proj1 Hh)) as [?|Z]; [assumption|]. rewrite <- Z, cos_0 in C1. lra.
    - destruct (Rle_lt_or_eq_dec h PI (proj2 Hh)) as [?|Z]; [assumption|]. rewrite Z, cos_PI in C1. lra. }
  destruct n as [[x y] z]. exists x, y, z, (2 * h).
  split.
  { rewrite to_axis_angle_ok with (h := h) (n := (x, y, z)); try assumption; try lra. reflexivity. }
  split; [exact Hn|]. split; [lra|].
  rewrite quat_to_unit_ok, E. f_equal. replace (2 * h / 2) with h by field.
  unfold cis, mkq, vscale. f_equal; ring.
Qed.
Print Assumptions C74_to_axis_angle_partial.

(** a rotation by 0.001 rad comes back as no rotation about the zero axis *)
Theorem C74_small_angle_refuted :
  exists q, quat_from_axis_angle true (vec_of [0; 0; 1] []) (1 / 1000) = Ok (0%Z, Some q) /\
    quat_to_axis_angle true q (Vec 3 (fresh 3)) = Ok (0%Z, vec_of [0; 0; 0] [], Set_ 0).
Proof.
  assert (L : vlen (0, 0, 1) = 1).
  { unfold vlen, vdot. replace (_ + _) with 1 by ring. apply sqrt_1. }
  eexists. split; [apply from_axis_angle_ok; rewrite L; lra|].
  assert (U : vdot (vscale (/ vlen (0, 0, 1)) (0, 0, 1)) (vscale (/ vlen (0, 0, 1)) (0, 0, 1)) = 1)
    by (apply vunit; lra).
  pose proof (cis_unit _ (1 / 1000 / 2) U) as Uq.
  unfold quat_to_axis_angle. cbn [vsz Nat.eqb negb andb].
  rewrite quat_to_unit_ok, unitised_of_unit by exact Uq. cbn [bind]. rops.
  assert (C : 1 - / 1000000 < cos (1 / 1000 / 2) <= 1).
  { split; [|apply COS_bound].
    replace (1 / 1000 / 2) with (2 * (1 / 4000)) by field. rewrite cos_2a_sin.
    assert (B : 0 <= sin (1 / 4000) <= 1 / 4000).
    { split; [apply sin_ge_0; pose proof PI2_1; lra|]. left. apply sin_lt_x. lra. }
    nra. }
  assert (Q : qr (cis (vscale (/ vlen (0, 0, 1)) (0, 0, 1)) (1 / 1000 / 2)) = cos (1 / 1000 / 2))
    by reflexivity.
  rewrite Q. destruct (Rltb_spec (Rabs (cos (1 / 1000 / 2) - 10 / 10)) (1 / 1000000)) as [K|K].
  - reflexivity.
  - exfalso. apply K. apply Rabs_def1; lra.
Qed.
Print Assumptions C74_small_angle_refuted.

(** -1, the full turn, has no axis: division by zero *)
Theorem C74_full_turn_refuted :
  exists q, unit_quat q /\ quat_to_axis_angle true q (Vec 3 (fresh 3)) = NotReal.
Proof.
  exists (Quat (-1) 0 0 0).
  assert (U : unit_quat (Quat (-1) 0 0 0)) by (unfold unit_quat, qdot; cbn; ring).
  split; [exact U|]. unfold quat_to_axis_angle. cbn [vsz Nat.eqb negb andb].
  rewrite quat_to_unit_ok, unitised_of_unit by exact U. cbn [bind]. rops. cbn [qr qi].
  destruct (Rltb_spec (Rabs (-1 - 10 / 10)) (1 / 1000000)) as [K|K].
  { rewrite Rabs_left in K by lra. lra. }
  replace (10 / 10 - -1 * -1) with 0 by field. rewrite Rsqrto_ok by lra. cbn [bind].
  unfold Racos. destruct (Rle_dec (-1) (-1)); [|lra]. destruct (Rle_dec (-1) 1); [|lra]. cbn [bind].
  rewrite sqrt_0, Rdivo_0. reflexivity.
Qed.
Print Assumptions C74_full_turn_refuted.

Theorem C74_wrong_size q (a : vec R) (b : R) :
  vsz a <> 3%nat ->
  quat_to_axis_angle true q a = Ok ((- EINVAL)%Z, a, Kept) /\
  quat_from_axis_angle true a b = Ok ((- EINVAL)%Z, None).
Proof.
  intros H. unfold quat_to_axis_angle, quat_from_axis_angle.
  destruct (Nat.eqb_spec (vsz a) 3); [contradiction|]. split; reflexivity.
Qed.
Print Assumptions C74_wrong_size.

(** ** C75 *)
Theorem C75_lerp bc qa qb t :
  bc = false \/ 0 <= t <= 1 -> / 1000000 <= qnorm qa -> / 1000000 <= qnorm qb ->
  exists a b q, quat_to_unit qa = Ok a /\ quat_to_unit qb = Ok b /\
    quat_lerp bc qa qb t = Ok (0%Z, Some q) /\
    let c := qplus (qscale (1 - t) a) (qscale t b) in
    (/ 1000000 <= qnorm c -> unit_quat q /\ exists s, 0 < s /\ q = qscale s c) /\
    (qnorm c < / 1000000 -> q = qzero) /\
    (t = 0 -> q = a) /\ (t = 1 -> q = b).
Proof.
  intros Ht Ha Hb. exists (unitised qa), (unitised qb).
  rewrite !quat_to_unit_ok, quat_lerp_ok by exact Ht. eexists.
  split; [reflexivity|]. split; [reflexivity|]. split; [reflexivity|]. cbn zeta. repeat split.
  - now apply unitised_unit.
  - exists (/ qnorm (qplus (qscale (1 - t) (unitised qa)) (qscale t (unitised qb)))).
    split; [apply Rinv_0_lt_compat; lra|]. now apply unitised_big.
  - apply unitised_small.
  - intros ->. replace (qplus _ _) with (unitised qa).
    + apply unitised_of_unit. now apply unitised_unit.
    + destruct (unitised qa), (unitised qb). unfold qplus, qscale. cbn. f_equal; ring.
  - intros ->. replace (qplus _ _) with (unitised qb).
    + apply unitised_of_unit. now apply unitised_unit.
    + destruct (unitised qa), (unitised qb). unfold qplus, qscale. cbn. f_equal; ring.
Qed.
Print Assumptions C75_lerp.

(** opposite quaternions half way: zero, not a unit quaternion *)
Theorem C75_lerp_opposite_refuted :
  exists q, unit_quat q /\ unit_quat (qscale (-1) q) /\
    quat_lerp true q (qscale (-1) q) (/ 2) = Ok (0%Z, Some qzero).
Proof.
  exists qone. assert (U : unit_quat qone) by (unfold unit_quat, qdot; cbn; ring).
  assert (U' : unit_quat (qscale (-1) qone)) by (unfold unit_quat, qdot; cbn; ring).
  split; [exact U|]. split; [exact U'|]. rewrite quat_lerp_ok by (right; lra).
  rewrite (unitised_of_unit _ U), (unitised_of_unit _ U'). do 3 f_equal. apply unitised_small.
  unfold qnorm, qdot. cbn. replace (_ + _) with 0 by field. rewrite sqrt_0. lra.
Qed.
Print Assumptions C75_lerp_opposite_refuted.

(** spherical: unit, on the arc at angle t * phi from qa *)
Theorem C75_slerp bc qa qb t a b :
  0 < t < 1 -> / 1000000 <= qnorm qa -> / 1000000 <= qnorm qb ->
  quat_to_unit qa = Ok a -> quat_to_unit qb = Ok b ->
  -1 + / 1000000 <= qdot a b <= 1 - / 1000000 ->
  exists q s u, quat_slerp bc qa qb t = Ok (0%Z, Some q) /\ unit_quat q /\
    q = qplus (qscale s a) (qscale u b) /\ 0 < s /\ 0 < u /\
    qdot a q = cos (t * acos (qdot a b)) /\ qdot q b = cos ((1 - t) * acos (qdot a b)).
Proof.
  intros Ht Ha Hb. rewrite !quat_to_unit_ok. intros E1 E2 Hd. injection E1 as <-. injection E2 as <-.
  pose proof (unitised_unit qa Ha) as Ua. pose proof (unitised_unit qb Hb) as Ub.
  set (d := qdot (unitised qa) (unitised qb)) in *.
  assert (P : 0 < acos d < PI).
  { pose proof (acos_bound d) as B. split.
    - destruct (Rle_lt_or_eq_dec _ _ (proj1 B)) as [?|Z]; [assumption|].
      assert (C : cos (acos d) = d) by (apply cos_acos; lra). rewrite <- Z, cos_0 in C. lra.
    - destruct (Rle_lt_or_eq_dec _ _ (proj2 B)) as [?|Z]; [assumption|].
      assert (C : cos (acos d) = d) by (apply cos_acos; lra). rewrite Z, cos_PI in C. lra. }
  destruct (slerp_value (unitised qa) (unitised qb) t Ua Ub ltac:(fold d; lra)) as (S1 & S2 & S3).
  eexists _, _, _. split.
  { apply quat_slerp_ok; fold d; try lra.
    - rewrite Rabs_left by lra. lra.
    - rewrite Rabs_right by lra. lra. }
  split; [exact S1|]. split; [reflexivity|]. fold d in S2, S3 |- *.
  assert (P0 : 0 < sin (acos d)) by (apply sin_gt_0; lra).
  split; [|split; [|split]].
  - apply Rdiv_lt_0_compat; [|exact P0]. apply sin_gt_0; nra.
  - apply Rdiv_lt_0_compat; [|exact P0]. apply sin_gt_0; nra.
  - rewrite (Rmult_comm t). exact S2.
  - rewrite (Rmult_comm (1 - t)). exact S3.
Qed.
Print Assumptions C75_slerp.
Example C75_slerp_case :
  -1 + / 1000000 <= qdot (Quat 1 0 0 0) (Quat 0 1 0 0) <= 1 - / 1000000.
Proof. unfold qdot. cbn. lra. Qed.

Theorem C75_slerp_ends bc qa qb :
  quat_slerp bc qa qb 0 = (let! a := quat_to_unit qa in Ok (0%Z, Some a)) /\
  quat_slerp bc qa qb 1 = (let! b := quat_to_unit qb in Ok (0%Z, Some b)).
Proof.
  unfold quat_slerp. rewrite !quat_to_unit_ok. cbn [bind]. rops.
  replace (10 / 10) with 1 by field. split.
  - destruct (Rltb_spec 0 0); [lra|]. destruct (Rltb_spec 1 0); [lra|]. cbn [orb].
    rewrite andb_false_r. destruct (Reqb_spec 0 0); [reflexivity|lra].
  - destruct (Rltb_spec 1 0); [lra|]. destruct (Rltb_spec 1 1); [lra|]. cbn [orb].
    rewrite andb_false_r. destruct (Reqb_spec 1 0); [lra|]. destruct (Reqb_spec 1 1); [reflexivity|lra].
Qed.
Print Assumptions C75_slerp_ends.

(** nearly opposite quaternions are rejected *)
Theorem C75_slerp_opposite bc qa qb t a b :
  0 < t < 1 -> quat_to_unit qa = Ok a -> quat_to_unit qb = Ok b ->
  Rabs (qdot a b + 1) < / 1000000 -> quat_slerp bc qa qb t = Ok ((- EINVAL)%Z, None).
Proof.
  intros Ht. rewrite !quat_to_unit_ok. intros E1 E2 Hd. injection E1 as <-. injection E2 as <-.
  unfold quat_slerp. rewrite !quat_to_unit_ok. cbn [bind]. rops. replace (10 / 10) with 1 by field.
  destruct (Rltb_spec t 0); [lra|]. destruct (Rltb_spec 1 t); [lra|]. cbn [orb]. rewrite andb_false_r.
  destruct (Reqb_spec t 0); [lra|]. destruct (Reqb_spec t 1); [lra|].
  set (u := unitised qa) in *. set (v := unitised qb) in *.
  assert (E : qr u * qr v + qi u * qi v + qj u * qj v + qk u * qk v = qdot u v)
    by (destruct u, v; unfold qdot; cbn; ring).
  rewrite E. apply Rabs_def2 in Hd.
  destruct (Rltb_spec (Rabs (qdot u v - 1)) (1 / 1000000)) as [K|K].
  { rewrite Rabs_left in K by lra. lra. }
  destruct (Rltb_spec (Rabs (qdot u v + 1)) (1 / 1000000)) as [L|L]; [reflexivity|].
  exfalso. apply L. apply Rabs_def1; lra.
Qed.
Print Assumptions C75_slerp_opposite.

(** whatever the inputs, the result of a success is a unit quaternion; only
    nearly opposite inputs and t outside [0, 1] fail *)
Theorem C75_slerp_unit bc qa qb t :
  0 <= t <= 1 -> / 1000000 <= qnorm qa -> / 1000000 <= qnorm qb ->
  (exists q, quat_slerp bc qa qb t = Ok (0%Z, Some q) /\ unit_quat q) \/
  (0 < t < 1 /\ quat_slerp bc qa qb t = Ok ((- EINVAL)%Z, None)).
Proof.
  intros Ht Ha Hb. pose proof (unitised_unit qa Ha) as Ua. pose proof (unitised_unit qb Hb) as Ub.
  destruct (C75_slerp_ends bc qa qb) as [E0 E1]. rewrite !quat_to_unit_ok in E0, E1. cbn [bind] in *.
  destruct (Req_dec t 0) as [T0|T0]; [subst t; left; eauto|].
  destruct (Req_dec t 1) as [T1|T1]; [subst t; left; eauto|].
  assert (Hi : 0 < t < 1) by lra.
  pose proof (qdot_unit_bounds _ _ Ua Ub) as B.
  set (d := qdot (unitised qa) (unitised qb)) in *.
  destruct (Rlt_dec (Rabs (d - 1)) (/ 1000000)) as [L|L].
  - left. exists (unitised qa). split; [|exact Ua].
    unfold quat_slerp. rewrite !quat_to_unit_ok. cbn [bind]. rops. replace (10 / 10) with 1 by field.
    destruct (Rltb_spec t 0); [lra|]. destruct (Rltb_spec 1 t); [lra|]. cbn [orb]. rewrite andb_false_r.
    destruct (Reqb_spec t 0); [lra|]. destruct (Reqb_spec t 1); [lra|].
    set (u := unitised qa) in *. set (v := unitised qb) in *.
    assert (E : qr u * qr v + qi u * qi v + qj u * qj v + qk u * qk v = d)
      by (subst d; destruct u, v; unfold qdot; cbn; ring).
    rewrite E. destruct (Rltb_spec (Rabs (d - 1)) (1 / 1000000)); [reflexivity|lra].
  - destruct (Rlt_dec (Rabs (d + 1)) (/ 1000000)) as [M|M].
    + right. split; [exact Hi|]. eapply C75_slerp_opposite; try apply quat_to_unit_ok; assumption.
    + left. rewrite Rabs_left1 in L by lra. rewrite Rabs_right in M by lra.
      destruct (C75_slerp bc qa qb t (unitised qa) (unitised qb)) as (q & s & u & E & U & _);
        try apply quat_to_unit_ok; try assumption; [fold d; lra|]. eauto.
Qed.
Print Assumptions C75_slerp_unit.

Theorem C75_rejects qa qb t :
  t < 0 \/ 1 < t ->
  quat_lerp true qa qb t = Ok ((- EINVAL)%Z, None) /\
  quat_slerp true qa qb t = Ok ((- EINVAL)%Z, None).
Proof.
  intros H. unfold quat_lerp, quat_slerp. rops. replace (10 / 10) with 1 by field.
  destruct (Rltb_spec t 0); [split; reflexivity|]. destruct (Rltb_spec 1 t); [split; reflexivity|lra].
Qed.
Print Assumptions C75_rejects.

(** ** C76 *)
Theorem C76_exp_log bc q l :
  qnorm q <> 0 -> quat_log bc q = Ok (0%Z, l) -> quat_exp bc l = Ok (0%Z, q).
Proof.
  intros Hq. rewrite quat_log_ok by exact Hq. intros E. injection E as <-.
  destruct (polar_any q Hq) as (n & h & Hn & Hh & Eq & -> & ->).
  rewrite quat_exp_ok by exact Hn. rewrite exp_ln by (pose proof (qnorm_nonneg q); lra).
  now rewrite <- Eq.
Qed.
Print Assumptions C76_exp_log.

(** the logarithm exists exactly for the non-zero quaternions *)
Theorem C76_log_defined bc q : qnorm q <> 0 -> exists l, quat_log bc q = Ok (0%Z, l).
Proof. intros H. rewrite quat_log_ok by exact H. eauto. Qed.
Print Assumptions C76_log_defined.

Theorem C76_log_zero_refuted : quat_log true qzero = NotReal.
Proof.
  unfold quat_log. rewrite vec3_unit. cbn [bind]. rewrite quat_magn_ok. cbn [bind].
  assert (N : qnorm qzero = 0).
  { unfold qnorm, qdot. cbn. replace (_ + _) with 0 by ring. apply sqrt_0. }
  rewrite N. cbn [fdiv NumR]. now rewrite Rdivo_0.
Qed.
Print Assumptions C76_log_zero_refuted.

(** log q is (ln |q|, angle * axis) with q = |q| (cos angle, axis * sin angle) *)
Theorem C76_log bc q :
  qnorm q <> 0 ->
  exists n h, vdot n n = 1 /\ 0 <= h <= PI /\
    quat_log bc q = Ok (0%Z, mkq (ln (qnorm q)) (vscale h n)) /\
    q = qscale (qnorm q) (mkq (cos h) (vscale (sin h) n)).
Proof.
  intros Hq. destruct (polar_any q Hq) as (n & h & Hn & Hh & Eq & En & Eh).
  exists n, h. split; [exact Hn|]. split; [exact Hh|]. split; [|exact Eq].
  rewrite quat_log_ok, <- En, <- Eh by exact Hq. reflexivity.
Qed.
Print Assumptions C76_log.

(** raising to a power multiplies the angle and raises the magnitude *)
Theorem C76_power bc q :
  qnorm q <> 0 ->
  exists n h, vdot n n = 1 /\ 0 <= h <= PI /\
    q = qscale (qnorm q) (mkq (cos h) (vscale (sin h) n)) /\
    forall e, quat_pow bc q e
      = Ok (0%Z, qscale (Rpower (qnorm q) e) (mkq (cos (e * h)) (vscale (sin (e * h)) n))).
Proof.
  intros Hq. destruct (polar_any q Hq) as (n & h & Hn & Hh & Eq & En & Eh).
  exists n, h. split; [exact Hn|]. split; [exact Hh|]. split; [exact Eq|].
  intros e. now apply quat_pow_ok.
Qed.
Print Assumptions C76_power.

(** exponents add *)
Theorem C76_power_sum bc q d e a b :
  qnorm q <> 0 -> quat_pow bc q d = Ok (0%Z, a) -> quat_pow bc q e = Ok (0%Z, b) ->
  quat_pow bc q (d + e) = Ok (0%Z, hprod a b).
Proof.
  intros Hq. destruct (polar_any q Hq) as (n & h & Hn & Hh & Eq & En & Eh).
  rewrite !(quat_pow_ok bc q _ n h) by assumption.
  intros E1 E2. injection E1 as <-. injection E2 as <-.
  rewrite hprod_scale_l, hprod_scale_r, cis_hprod, qscale_qscale by exact Hn.
  rewrite Rpower_plus. do 3 f_equal. f_equal. ring.
Qed.
Print Assumptions C76_power_sum.

(** natural powers are repeated products *)
Theorem C76_power_natural bc q k :
  qnorm q <> 0 -> quat_pow bc q (INR k) = Ok (0%Z, qpown q k).
Proof.
  intros Hq. destruct (polar_any q Hq) as (n & h & Hn & Hh & Eq & En & Eh).
  assert (P : 0 < qnorm q) by (pose proof (qnorm_nonneg q); lra).
  rewrite (quat_pow_ok bc q _ n h) by assumption. do 2 f_equal.
  induction k as [|k IH].
  - cbn [INR qpown]. rewrite Rpower_O by exact P. rewrite Rmult_0_l, cis_0, qscale_1. reflexivity.
  - cbn [qpown]. rewrite <- IH. rewrite Eq at 2. rewrite hprod_scale_l, hprod_scale_r.
    fold (cis n h). rewrite cis_hprod, qscale_qscale by exact Hn.
    rewrite S_INR. rewrite Rpower_plus, Rpower_1 by exact P.
    f_equal; [ring|]. f_equal. ring.
Qed.
Print Assumptions C76_power_natural.

(** power 1/2 is a square root *)
Theorem C76_square_root bc q r :
  qnorm q <> 0 -> quat_pow bc q (/ 2) = Ok (0%Z, r) -> quat_mult r r = Ok q.
Proof.
  intros Hq Hr. rewrite quat_mult_ok.
  pose proof (C76_power_sum bc q (/ 2) (/ 2) r r Hq Hr Hr) as S.
  replace (/ 2 + / 2) with (INR 1) in S by (cbn; field).
  rewrite C76_power_natural in S by exact Hq.
  assert (T : forall a b : quat R, Ok (0%Z, a) = Ok (0%Z, b) -> a = b) by (intros; congruence).
  rewrite <- (T _ _ S). cbn [qpown]. now rewrite hprod_1_r.
Qed.
Print Assumptions C76_square_root.
Example C76_case : qnorm (Quat 1 2 (-2) 4) <> 0.
Proof. pose proof C68_inverse_case. lra. Qed.

(** ** C96: Euler angles and back *)
(** full statement: every unit q.  Missing: pitch within 1e-6 (in half the
    sine) of a quarter turn but not exactly there, where yaw is dropped. *)
Theorem C96_euler_round_trip_partial q e :
  unit_quat q ->
  Rabs (2 * (qi q * qk q + qj q * qr q)) <= 1 - / 500000 \/
  Rabs (2 * (qi q * qk q + qj q * qr q)) = 1 ->
  quat_to_euler q = Ok (0%Z, e) ->
  snd (quat_from_euler e) = q \/ snd (quat_from_euler e) = qscale (-1) q.
Proof.
  intros U Hg He. rewrite from_euler_ok. cbn [snd]. apply euler_round_trip; try assumption.
  replace (rotm q 0 2) with (2 * (qi q * qk q + qj q * qr q)); [exact Hg|].
  destruct q; unfold rotm, coord, basis, rotate; cbn; ring.
Qed.
Print Assumptions C96_euler_round_trip_partial.
Example C96_euler_round_trip_case :
  let q := Quat (1/5) (2/5) (-2/5) (4/5) in
  unit_quat q /\ Rabs (2 * (qi q * qk q + qj q * qr q)) <= 1 - / 500000.
Proof.
  cbn. split; [unfold unit_quat, qdot; cbn; field|]. rewrite Rabs_right by lra. lra.
Qed.

Theorem C96_euler_total q :
  unit_quat q -> exists e, quat_to_euler q = Ok (0%Z, e) /\
    - PI < ex e <= PI /\ - (PI / 2) <= ey e <= PI / 2 /\ - PI < ez e <= PI.
Proof.
  intros U. rewrite to_euler_run by exact U. pose proof PI_RGT_0. destruct (Rlt_dec _ _).
  - eexists. split; [reflexivity|]. cbn [ex ey ez].
    split; [apply atan2_bound|]. split; [apply asin_bound|]. lra.
  - eexists. split; [reflexivity|]. cbn [ex ey ez].
    split; [apply atan2_bound|]. split; [apply asin_bound|]. apply atan2_bound.
Qed.
Print Assumptions C96_euler_total.

Theorem C96_euler_recovered x y z :
  - PI < x <= PI -> - PI < z <= PI -> - (PI / 2) <= y <= PI / 2 -> Rabs (sin y) <= 1 - / 500000 ->
  quat_to_euler (snd (quat_from_euler (Euler x y z))) = Ok (0%Z, Euler x y z).
Proof. intros. rewrite from_euler_ok. cbn [snd ex ey ez]. now apply euler_recovered. Qed.
Print Assumptions C96_euler_recovered.
Example C96_euler_recovered_case : Rabs (sin 0) <= 1 - / 500000.
Proof. rewrite sin_0, Rabs_R0. lra. Qed.

(** ** C97: integrating an angular velocity *)
Theorem C97_ang_vel bc x y z tl q t :
  bc = false \/ 0 <= t -> / 1000000 <= qnorm q ->
  exists p s u, quat_from_ang_vel bc (vec_of [x; y; z] tl) q t = Ok (0%Z, Some p) /\ unit_quat p /\
    quat_to_unit q = Ok u /\ 0 < s /\
    p = qscale s (qplus u (qscale (t / 2) (hprod (Quat 0 x y z) u))).
Proof.
  intros Ht Hq. pose proof (unitised_unit q Hq) as U.
  set (c := qplus (unitised q) (qscale (t / 2) (hprod (Quat 0 x y z) (unitised q)))).
  assert (N : 1 <= qnorm c).
  { unfold qnorm, c. rewrite ang_vel_norm by exact U. rewrite <- sqrt_1 at 1.
    assert (0 <= t / 2 * (t / 2) * (x * x + y * y + z * z))
      by (apply Rmult_le_pos; [apply Rle_0_sqr|]; pose proof (Rle_0_sqr x); pose proof (Rle_0_sqr y);
          pose proof (Rle_0_sqr z); unfold Rsqr in *; lra).
    apply sqrt_le_1; lra. }
  exists (unitised c), (/ qnorm c), (unitised q).
  split; [now apply from_ang_vel_ok|]. split; [apply unitised_unit; lra|].
  split; [apply quat_to_unit_ok|]. split; [apply Rinv_0_lt_compat; lra|].
  exact (unitised_big c ltac:(lra)).
Qed.
Print Assumptions C97_ang_vel.
Example C97_ang_vel_case : (false = false \/ 0 <= 1) /\ / 1000000 <= qnorm (Quat 1 2 (-2) 4).
Proof. split; [now left | exact C68_inverse_case]. Qed.

(** no rotation: the orientation only gets normalised *)
Theorem C97_ang_vel_rest bc tl q t u :
  bc = false \/ 0 <= t -> / 1000000 <= qnorm q -> quat_to_unit q = Ok u ->
  quat_from_ang_vel bc (vec_of [0; 0; 0] tl) q t = Ok (0%Z, Some u).
Proof.
  intros Ht Hq. rewrite quat_to_unit_ok. intros E. injection E as <-.
  rewrite from_ang_vel_ok by assumption. do 2 f_equal. f_equal.
  pose proof (unitised_unit q Hq) as U.
  replace (qplus _ _) with (unitised q); [now apply unitised_of_unit|].
  destruct (unitised q). unfold qplus, qscale, hprod. cbn. f_equal; ring.
Qed.
Print Assumptions C97_ang_vel_rest.

Theorem C97_ang_mom bc x y z tl q i t :
  bc = false \/ 0 <= t -> 0 < i ->
  quat_from_ang_mom bc (vec_of [x; y; z] tl) q i t
  = (let! (_, o) := quat_from_ang_vel bc (vec_of [x / i; y / i; z / i] []) q t in Ok (0%Z, o)).
Proof.
  intros Ht Hi. unfold quat_from_ang_mom. rops.
  change (vsz (vec_of [x; y; z] tl)) with 3%nat. cbn [Nat.eqb negb orb].
  assert (G : bc && (Rltb t 0 || Rleb i 0) = false).
  { destruct bc; [|reflexivity]. destruct Ht as [Ht|Ht]; [discriminate|]. cbn [andb].
    apply orb_false_iff. split; [now apply Rltb_false | apply Rleb_false; lra]. }
  rewrite G, vec_copy_ok by (cbn; lia). cbn [bind].
  rewrite vec_scalar_div_ok with (g := fun u => u / i);
    [|cbn; apply Reqb_false; lra|intros u _; cbn; apply Rdivo_ok; lra].
  cbn [bind]. reflexivity.
Qed.
Print Assumptions C97_ang_mom.

Theorem C97_rejects (w : vec R) q i t :
  (vsz w <> 3%nat \/ t < 0 -> quat_from_ang_vel true w q t = Ok ((- EINVAL)%Z, None)) /\
  (vsz w <> 3%nat \/ t < 0 \/ i <= 0 -> quat_from_ang_mom true w q i t = Ok ((- EINVAL)%Z, None)).
Proof.
  unfold quat_from_ang_vel, quat_from_ang_mom. rops. cbn [andb].
  destruct (Nat.eqb_spec (vsz w) 3); cbn [negb orb]; [|split; reflexivity].
  destruct (Rltb_spec t 0); cbn [orb]; [split; reflexivity|].
  destruct (Rleb_spec i 0); cbn [orb].
  - split; [intros [?|?]; [contradiction|lra]|reflexivity].
  - split; [intros [?|?]; [contradiction|lra]|intros [?|[?|?]]; [contradiction|lra|lra]].
Qed.
Print Assumptions C97_rejects.
