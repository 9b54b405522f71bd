(** C126, C127 in exact arithmetic: the elimination, the inversion and the
    filters divide only by numbers they have tested, so every call and every
    history of readings is answered.  C103: the first feed of the Kalman filter. *)
From Coq Require Import List Arith ZArith Bool Lia Reals Lra.
From Verif Require Import Base BaseFacts NumR Libm LibmR RTac Out SpecVec SpecMtx SpecReal SpecQuat SpecFusion SpecSafe SpecSafeFus
  MVec MMtx MQuat MFusion PVec PMtx PMtxOps PSafe PSafeMx PropSafe PSafeFus PSafeHist PQuat PQuatRot PFusion PRTotal PRTotal2 PRotMtx PKalInit.
Import ListNotations.
Set Implicit Arguments.
Local Open Scope R_scope.

(** ** C126 *)
Theorem C126_exact_inv bc n (m mi : mtx R) : mtx_filled n n m -> room n n mi ->
  exists r, mtx_inv bc m mi = Ok (0%Z, r) /\ mtx_filled n n r.
Proof. apply inv_answers. Qed.
Theorem C126_exact_gauss_reduc bc r c k (m mi mg : mtx R) : (r <= c)%nat -> mtx_filled r c m -> mtx_filled r k mi -> room r c mg ->
  exists mi' mg', mtx_gauss_reduc bc m mi mg = Ok (0%Z, (mi', mg')) /\ mtx_filled r k mi' /\ mtx_filled r c mg'.
Proof. apply gauss_reduc_answers. Qed.

(** ** C127 *)
Lemma history_ext I S (f g : I -> S -> outcome (Z * S)) l s : (forall i s, f i s = g i s) -> history f l s = history g l s.
Proof.
  intros H. revert s. induction l as [|i l IH]; intros s; [reflexivity|]. cbn [history]. rewrite H.
  apply bind_ext. intros. apply IH.
Qed.
Lemma Rt_z : (@fabs R NumRt f0 >? flit 1 6)%num = false.
Proof. exact R_z. Qed.
Lemma Rt_zd (m x : R) : @fdiv R NumRt f0 m = Ok x -> (@fabs R NumRt x >? flit 1 6)%num = false.
Proof.
  cbn [fdiv NumRt]. intros [= <-]. cbn [fabs flt flit NumRt f0]. unfold Rdiv. rewrite Rmult_0_l. exact R_z.
Qed.
Lemma Rt_answer A (m : outcome A) : wp (~ total NumRt) False (fun _ => True) m -> exists r, m = Ok r.
Proof. intros H. destruct (Rt_answers _ _ H) as (r & E & _). eauto. Qed.

Section Exact.
Variable bc : bool.
Variable freq : Z.
Hypothesis Hf : (0 < freq)%Z.
Implicit Types (l : list (reading R)) (q : quat R).

Theorem C127_exact_madgwick beta incl l q : Forall (@well_formed R) l ->
  exists q', history (madg_run bc freq beta incl) l q = Ok q'.
Proof.
  intros Hl. rewrite (history_ext _ (madg_run (N := NumRt) bc freq beta incl)).
  - apply Rt_answer, hist_madg; auto using lawful_Rt, Rt_z.
  - intros i s. unfold madg_run. now rewrite madg_Rt.
Qed.

Theorem C127_exact_mahony incl l c q : Forall (@well_formed R) l -> vec_filled 3 (intfb c) ->
  exists c' q', history (mahn_run bc freq incl) l (c, q) = Ok (c', q') /\ vec_filled 3 (intfb c').
Proof.
  intros Hl Hc. rewrite (history_ext _ (mahn_run (N := NumRt) bc freq incl)).
  - assert (W : wp (~ total NumRt) False (fun st => vec_filled 3 (intfb (fst st))) (history (mahn_run (N := NumRt) bc freq incl) l (c, q)))
      by (apply hist_mahn; auto using lawful_Rt, Rt_z).
    destruct (Rt_answers _ _ W) as ((c' & q') & E & H). eauto.
  - intros i s. unfold mahn_run. now rewrite mahn_Rt.
Qed.

Theorem C127_exact_complementary alpha l q : Forall (@well_formed R) l ->
  exists q', history (comp_run bc freq alpha) l q = Ok q'.
Proof.
  intros Hl. rewrite (history_ext _ (comp_run (N := NumRt) bc freq alpha)).
  - apply Rt_answer, hist_comp; auto using lawful_Rt, Rt_z. rewrite <- period_Rt by exact Hf. apply R_period. lia.
  - intros i s. unfold comp_run. now rewrite comp_Rt.
Qed.

(** once the Kalman filter is initialised *)
Lemma kalm_run_Rt incl i ini c q : ini <> 0%Z ->
  kalm_run (N := NumR) bc freq incl i (ini, c, q) = kalm_run (N := NumRt) bc freq incl i (ini, c, q).
Proof.
  intros Hi. unfold kalm_run, kalm_feed. cbn [fst snd].
  match goal with |- bind (if ?a then _ else _) _ = bind (if ?b then _ else _) _ => change b with a; destruct a; [reflexivity|] end.
  destruct (Z.eqb_spec ini 0) as [E|_]; [contradiction|]. cbn [bind]. now rewrite kalman_Rt.
Qed.
Definition kalm_ready (st : Z * kalm_cfg (T := R) * quat R) : Prop := fst (fst st) <> 0%Z /\ mtx_filled 4 4 (kP (snd (fst st))).
Lemma kalm_run_answers incl i st : all_optional i -> (bc = true \/ all_given i) -> kalm_ready st ->
  exists rc st', kalm_run (N := NumR) bc freq incl i st = Ok (rc, st') /\ kalm_ready st'.
Proof.
  destruct st as ((ini & c) & q). intros (G1 & G2 & G3) G4 (Hi & HP). cbn [fst snd] in *. rewrite kalm_run_Rt by exact Hi.
  assert (W : wp (~ total NumRt) False (fun x => kalm_ready (snd x)) (kalm_run (N := NumRt) bc freq incl i (ini, c, q))).
  { unfold kalm_run. cbn [fst snd]. eapply wp_bind.
    - apply wp_kalm_feed with (s := the_sens i q); [exact lawful_Rt|exact Rt_z|exact Rt_zd|now apply given_iso..| |].
      + destruct G4 as [|(K1 & K2 & K3)]; [now left|right]. repeat split; now apply given_some.
      + split; [|intros _; eexists; exact (filled_ism NumRt HP)].
        destruct (filled_ism NumRt HP) as (f & ->). apply mat_room.
    - intros (((rc & s') & c2) & ini2) (_ & _ & _ & (_ & H) & H2). specialize (H2 Hi). destruct (H H2) as (tl & H').
      split; [exact H2|]. cbn [fst snd]. eauto using ism_filled. }
  destruct (Rt_answers _ _ W) as ((rc & st') & E & H). eauto.
Qed.
Theorem C127_exact_kalman incl ini c l q : Forall (@all_optional R) l ->
  (bc = true \/ Forall (@all_given R) l) ->
  ini <> 0%Z -> mtx_filled 4 4 (kP c) ->
  exists st, history (kalm_run bc freq incl) l (ini, c, q) = Ok st.
Proof.
  intros Hl Hn Hi HP. assert (K : kalm_ready (ini, c, q)) by (split; assumption). revert K. clear Hi HP.
  generalize (ini, c, q). induction Hl as [|i l G1 Hl IH]; intros st K; [now exists st|]. cbn [history].
  destruct (@kalm_run_answers incl i st) as (rc & st' & -> & K'); auto.
  - destruct Hn as [|Hn]; [now left|right; now inversion Hn].
  - cbn [bind snd]. apply IH; [|exact K']. destruct Hn as [|Hn]; [now left|right; now inversion Hn].
Qed.

(** from the first feed on, if the two first readings are not parallel *)
Theorem C127_exact_kalman_from_start incl c a m (g : option (vec R)) ta tm l q :
  vcross a m <> (0, 0, 0) -> given_or_null g -> Forall (@all_optional R) l ->
  (bc = true \/ (given g /\ Forall (@all_given R) l)) -> room 4 4 (kP c) ->
  0 <= var_g c -> 0 <= var_a c -> 0 <= var_m c ->
  exists st, history (kalm_run bc freq incl) ((Some (hold a ta), Some (hold m tm), g) :: l) (0%Z, c, q) = Ok st.
Proof.
  intros Hx Hg Hl Hn HR V1 V2 V3.
  assert (Gh : forall v tl, given (Some (hold v tl))).
  { intros v tl. eexists. split; [reflexivity|]. split; [reflexivity|].
    intros i Hi. destruct i as [|[|[|]]]; [eexists; reflexivity..|lia]. }
  cbn [history]. set (i := (Some (hold a ta), Some (hold m tm), g)).
  destruct (kalm_quat_init_ok a m Hx bc 0 ta tm q) as (q1 & _ & _ & _ & _ & EQ).
  set (q2 := unitised _) in EQ.
  assert (EP : exists P, kalm_P_init bc 1 (kP c) = Ok (0%Z, P, 1%Z) /\ mtx_filled 4 4 P).
  { assert (W := @wp_kalm_P_init R NumRt bc False 1 (kP c) HR).
    destruct (Rt_answers _ _ W) as (((rc & P) & z) & E & H1 & H2). cbn [fst snd] in *. subst z.
    exists P. split; [|eauto using ism_filled].
    assert (rc = 0%Z) as ->; [|exact E].
    revert E. unfold kalm_P_init. destruct HR as (-> & -> & _). cbn [Nat.eqb negb orb]. rewrite andb_false_r.
    destruct (mtx_init _ _ _) as [(? & ?)|?| |]; cbn; congruence. }
  destruct EP as (P & EP & HP).
  assert (E : kalm_run (N := NumR) bc freq incl i (0%Z, c, q)
            = kalm_run (N := NumR) bc freq incl i (1%Z, Kalm (var_g c) (var_a c) (var_m c) P, q2)).
  { unfold kalm_run, kalm_feed. cbn [fst snd]. cbn [var_g var_a var_m].
    rops. rewrite !Rltb_false by lra. cbn [orb Z.eqb]. unfold the_sens at 1 2 3 4 5 6. cbn [sa sm sg sq]. unfold i at 1 2. cbn [accel magn fst snd].
    rewrite EQ. cbn [bind]. rewrite EP. reflexivity. }
  rewrite E.
  assert (Go : all_optional i) by (split; [right; apply Gh|split; [right; apply Gh|exact Hg]]).
  destruct (@kalm_run_answers incl i (1%Z, Kalm (var_g c) (var_a c) (var_m c) P, q2)) as (rc & st' & -> & K').
  - exact Go.
  - destruct Hn as [|(Hn & _)]; [now left|right]. split; [apply Gh|split; [apply Gh|exact Hn]].
  - split; [discriminate|exact HP].
  - cbn [bind snd]. destruct st' as ((ini' & c') & q'). destruct K' as (K1 & K2). apply C127_exact_kalman; auto.
    destruct Hn as [|(_ & Hn)]; auto.
Qed.
End Exact.

(** ** C72: every rotation matrix *)
(** For every matrix with orthonormal columns and determinant 1 the conversion
    answers a unit quaternion, and one that rotates as the matrix does if the
    products of the scalar part and the vector part of the quaternions of that
    rotation are 0 or not below the threshold. *)
Theorem C72_rotation_matrix_partial bc f tl :
  (forall i j, (i < 3)%nat -> (j < 3)%nat ->
       f 0%nat i * f 0%nat j + f 1%nat i * f 1%nat j + f 2%nat i * f 2%nat j = if Nat.eqb i j then 1 else 0) ->
  mdet f = 1 ->
  exists p, quat_from_rot_mtx bc (mat_of 3 3 f tl) = Ok (0%Z, Some p) /\ unit_quat p /\
    exists q, unit_quat q /\ (forall v, rotate q v = mapply f v) /\
      ((forall c, c = qi q \/ c = qj q \/ c = qk q -> c = 0 \/ / 1000000 < Rabs (4 * (qr q * c))) ->
       forall v, rotate p v = mapply f v).
Proof.
  intros O D. destruct (rotation_quat f O D) as (q & U & H). exists (recovered q).
  replace (mat_of 3 3 f tl) with (mat_of 3 3 (rotm q) tl) by (apply mat_ext; exact H).
  split; [apply from_rot_mtx_ok; exact U|]. split; [now apply recovered_unit|]. exists q. split; [exact U|].
  assert (E : forall v, rotate q v = mapply f v).
  { intros v. unfold mapply. rewrite <- !H by lia. destruct v as [[x y] z], q as [w i j k].
    unfold rotm, rotate, re, im, vadd, vscale, vcross. cbn -[Rplus Rmult Rminus IZR]. f_equal; [f_equal|]; ring. }
  split; [exact E|]. intros C v. rewrite <- E. now apply recovered_rotate.
Qed.
(** ** C103: the first feed *)
(** From an accelerometer reading a and a magnetometer reading m that are not
    parallel the filter starts with a unit orientation p.  Where no product of
    components is tiny, p takes the z axis to the direction of a, the y axis to
    that of a x m and the x axis to that of (a x m) x a. *)
Theorem C103_initial_orientation bc ini a m ta tm q0 : vcross a m <> (0, 0, 0) ->
  exists p, kalm_quat_init bc ini (Some (hold a ta)) (Some (hold m tm)) q0 = Ok (0%Z, p, 1%Z) /\ unit_quat p /\
    exists q, unit_quat q /\ rotate q (0, 0, 1) = vnormalise a /\ rotate q (0, 1, 0) = vnormalise (vcross a m) /\
      rotate q (1, 0, 0) = vnormalise (vcross (vcross a m) a) /\
      ((forall c, c = qi q \/ c = qj q \/ c = qk q -> c = 0 \/ / 1000000 < Rabs (4 * (qr q * c))) ->
       forall v, rotate p v = rotate q v).
Proof.
  intros H. destruct (kalm_quat_init_ok a m H bc ini ta tm q0) as (q & U & X & Y & Z & E).
  exists (recovered q). split.
  - rewrite E. fold (recovered q). rewrite unitised_of_unit; [reflexivity|now apply recovered_unit].
  - split; [now apply recovered_unit|]. exists q. repeat (split; [assumption|]). intros C v. now apply recovered_rotate.
Qed.

(** With bounds checks on, missing readings and readings of another length are
    refused, and neither the orientation nor the counter changes. *)
Theorem C103_initial_rejects T (N : Num T) ini (a m : option (vec T)) q0 :
  (forall v, a = Some v -> vsz v <> 3%nat) \/ (forall v, m = Some v -> vsz v <> 3%nat) ->
  kalm_quat_init true ini a m q0 = Ok ((- EINVAL)%Z, q0, ini).
Proof.
  intros H. unfold kalm_quat_init. cbn [andb]. destruct H as [H|H].
  - destruct a as [v|]; [|reflexivity]. specialize (H v eq_refl). apply Nat.eqb_neq in H. rewrite H. reflexivity.
  - destruct m as [v|]; [specialize (H v eq_refl); apply Nat.eqb_neq in H; rewrite H|]; cbn [negb]; now rewrite orb_true_r.
Qed.
Print Assumptions C103_initial_rejects.

(** With that orientation the reading that the filter predicts is the opposite
    of the one the orientation was taken from: the prediction is made from
    (0, 0, -1), and is twice too long. *)
Theorem C103_first_prediction_refuted q b a :
  rotate q (0, 0, 1) = vnormalise a ->
  forall i, (i < 3)%nat -> kh q b i 0 = - 2 * kz (vnormalise a) (im b) i 0.
Proof.
  intros H i Hi. unfold kh, kz. replace (i <? 3)%nat with true by (symmetry; now apply Nat.ltb_lt).
  assert (E : rotate q (0, 0, -1) = vscale (-1) (rotate q (0, 0, 1))).
  { destruct q as [w x y z]. unfold rotate, re, im, vadd, vscale, vcross. cbn -[Rplus Rmult Rminus IZR]. f_equal; [f_equal|]; ring. }
  rewrite E, H. destruct (vnormalise a) as [[x y] z]. cbn [vscale coord]. destruct i as [|[|]]; ring.
Qed.

(** Parallel first readings (or a magnetometer that reads zero) have no such
    orientation: unless the accelerometer lies in the x-y plane, the filter takes the square root of a negative number.  In C the orientation
    becomes a NaN and stays so. *)
Theorem C103_parallel_start_refuted bc freq incl c a m ta tm g q :
  vcross a m = (0, 0, 0) -> coord 2 a <> 0 -> 0 <= var_g c -> 0 <= var_a c -> 0 <= var_m c ->
  kalm_feed bc freq 0 incl c (Sens (Some (hold a ta)) (Some (hold m tm)) g q) = NotReal.
Proof.
  intros C Z V1 V2 V3. unfold kalm_feed. rops. rewrite !Rltb_false by lra. cbn [orb Z.eqb sa sm sg sq].
  rewrite kalm_quat_init_parallel by assumption. reflexivity.
Qed.

(** *** Non-vacuity *)
Example C126_exact_ex : exists r, mtx_inv (N := NumR) true (mat_of 4 4 (fun _ _ => 0) []) (mtx_def 4 4) = Ok (0%Z, r) /\ mtx_filled 4 4 r.
Proof. apply C126_exact_inv; [eapply ism_filled, ism_mat|apply room_def]. Qed.
Lemma given_hold v tl : given (Some (hold v tl)).
Proof.
  eexists. split; [reflexivity|]. split; [reflexivity|].
  intros i Hi. destruct i as [|[|[|]]]; [eexists; reflexivity..|lia].
Qed.
Definition dull_readings : list (reading R) :=
  [ (Some (hold (0, 0, 0) []), None, Some (hold (1, 2, 3) []));
    (None, Some (hold (0, 0, 0) []), Some (hold (0, 0, 0) []));
    (Some (hold (0, 0, 1) []), Some (hold (1, 0, 0) []), Some (hold (0, 0, 0) []))].
Lemma dull_wf : Forall (@well_formed R) dull_readings.
Proof.
  repeat apply Forall_cons; try apply Forall_nil; (split; [|split]);
    first [apply given_hold|right; apply given_hold|left; reflexivity].
Qed.
Example C127_exact_madgwick_ex : exists q', history (madg_run (N := NumR) true 100 (1 / 10) None) dull_readings (quat_identity) = Ok q'.
Proof. apply C127_exact_madgwick; [lia|apply dull_wf]. Qed.
Example C127_exact_kalman_ex : exists st, history (kalm_run (N := NumR) true 100 None)
  ((Some (hold (0, 0, 1) []), Some (hold (1, 0, 0) []), Some (hold (1, 2, 3) [])) :: dull_readings)
  (0%Z, Kalm 1 1 1 (mtx_def 4 4), quat_identity) = Ok st.
Proof.
  apply C127_exact_kalman_from_start; cbn [var_g var_a var_m kP]; try lra; try lia; auto using room_def.
  - cbn [vcross]. intros E; injection E; intros; lra.
  - right. apply given_hold.
  - generalize dull_wf. apply Forall_impl. intros i (H1 & H2 & H3). repeat split; auto. now right.
Qed.
Example C72_rotation_matrix_case : exists f,
  (forall i j, (i < 3)%nat -> (j < 3)%nat ->
       f 0%nat i * f 0%nat j + f 1%nat i * f 1%nat j + f 2%nat i * f 2%nat j = if Nat.eqb i j then 1 else 0) /\
  mdet f = 1 /\ f 0%nat 1%nat <> 0.
Proof.
  exists (rotm (Quat (1/5) (2/5) (-2/5) (4/5))).
  assert (U : unit_quat (Quat (1/5) (2/5) (-2/5) (4/5))) by (unfold unit_quat, qdot; cbn; field).
  split; [intros; now apply rotm_orthogonal|]. split; [now apply rotm_det|].
  unfold rotm, rotate, re, im, vadd, vscale, vcross. cbn -[Rplus Rmult Rminus IZR Rdiv]. lra.
Qed.
Example C103_initial_orientation_case : vcross (0, 3, 4) (1, 0, 0) <> (0, 0, 0) /\
  vcross (0, 3, 4) (0, 6, 8) = (0, 0, 0) /\ coord 2 (0, 3, 4) <> 0.
Proof.
  cbn [vcross coord]. split; [intros E; injection E; intros; lra|]. split; [f_equal; [f_equal|]; ring|lra].
Qed.
Example C103_first_prediction_case : rotate (Quat 1 0 0 0) (0, 0, 1) = vnormalise (0, 0, 1).
Proof.
  assert (L : vlen (0, 0, 1) = 1) by (unfold vlen, vdot; replace (_ + _) with 1 by ring; apply sqrt_1).
  unfold vnormalise. rewrite L. unfold rotate, re, im, vadd, vscale, vcross. cbn -[Rplus Rmult Rminus IZR Rinv].
  f_equal; [f_equal|]; field.
Qed.

Print Assumptions C126_exact_inv.
Print Assumptions C126_exact_gauss_reduc.
Print Assumptions C127_exact_madgwick.
Print Assumptions C127_exact_mahony.
Print Assumptions C127_exact_complementary.
Print Assumptions C127_exact_kalman.
Print Assumptions C127_exact_kalman_from_start.
Print Assumptions C72_rotation_matrix_partial.
Print Assumptions C103_initial_orientation.
Print Assumptions C103_first_prediction_refuted.
Print Assumptions C103_parallel_start_refuted.
