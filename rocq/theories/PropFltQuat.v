(** C136: the orientation the fusion filters keep, in machine arithmetic.
    C137: what a NaN among the readings does to it. *)
From Coq Require Import Floats.PrimFloat.
From Coq Require Import List Arith ZArith Bool Lia Reals Lra.
From Verif Require Import Base BaseFacts NumF Libm Out SpecVec SpecFlt SpecFltQuat SpecFusion SpecSafe SpecSafeFus
  MVec MMtx MQuat MFusion PFlt PFltUnit PFltQuat PFltAng PFltFus PUnitised PNanQuat PNanRead PropSafeFus.
Import ListNotations.
Set Implicit Arguments.

(** ** C136 *)

(** zsl_quat_to_unit always answers, and an answer made of numbers is zero or a
    unit quaternion up to 5e-16, however bad the input was *)
Theorem C136_to_unit (q : quat double) : exists u, quat_to_unit q = Ok u /\
  (broken u \/ zero_quat u \/ near_unit u).
Proof.
  exists (funit q). split; [apply to_unit_F|].
  destruct (is_finite (qr (funit q))) eqn:E1; [|left; intros (H & _); unfold finite in H; congruence].
  destruct (is_finite (qi (funit q))) eqn:E2; [|left; intros (_ & H & _); unfold finite in H; congruence].
  destruct (is_finite (qj (funit q))) eqn:E3; [|left; intros (_ & _ & H & _); unfold finite in H; congruence].
  destruct (is_finite (qk (funit q))) eqn:E4; [|left; intros (_ & _ & _ & H); unfold finite in H; congruence].
  right. apply funit_cases. repeat split; assumption.
Qed.

(** It is certainly a unit quaternion when the input is neither tiny nor huge *)
Theorem C136_to_unit_regular (q : quat double) : finite_quat q ->
  (forall x, In x [qr q; qi q; qj q; qk q] -> (Rabs (FR x) <= 2 ^ 480)%R) -> (2 / 1000000000000 <= norm2 q)%R ->
  exists u, quat_to_unit q = Ok u /\ near_unit u.
Proof. intros H1 H2 H3. exists (funit q). split; [apply to_unit_F|]. now apply funit_regular. Qed.

(** A quaternion too long for its square to be representable becomes zero *)
Theorem C136_overflow_refuted : ~ (forall q : quat double, finite_quat q -> (1 <= norm2 q)%R ->
  exists u, quat_to_unit q = Ok u /\ near_unit u).
Proof.
  intros H. assert (F1 : finite 0x1p600%float) by (vm_compute; reflexivity).
  assert (E1 : FR 0x1p600%float = (2 ^ 600)%R).
  { unfold FR. replace (FloatOps.Prim2SF 0x1p600%float) with (SpecFloat.S754_finite false 4503599627370496 548)
      by (vm_compute; reflexivity).
    change (powerRZ 2 548) with (2 ^ Pos.to_nat 548)%R. rewrite !pow_IZR, <- !mult_IZR. apply f_equal. vm_compute. reflexivity. }
  destruct (H (Quat 0x1p600 0 0 0)%float) as (u & E & (_ & N)).
  - repeat split; vm_compute; reflexivity.
  - unfold norm2. cbn [qr qi qj qk]. rewrite E1. change (FR 0%float) with (FR zero). rewrite FR_zero.
    assert (1 <= 2 ^ 600)%R by (apply pow_R1_Rle; lra). nra.
  - replace u with (Quat zero zero zero zero) in N.
    + unfold norm2 in N. cbn [qr qi qj qk] in N. rewrite FR_zero in N.
      pose proof uu_small. revert N. unfold Rabs. destruct Rcase_abs; lra.
    + injection E as <-. vm_compute. reflexivity.
Qed.

(** What every filter stores, after any history of readings (infinities and NaNs
    included), with any gains and any mathematical library: the orientation it
    was given, or a unit quaternion up to 5e-16, or zero, or one with a component
    that is not finite.  It never drifts. *)
Definition sound (q q' : quat double) : Prop := q' = q \/ near_unit q' \/ zero_quat q' \/ broken q'.

Section Histories.
Context {M : NumM double}.
Variable bc : bool.

Local Lemma unitised_sound q q' : unitised q q' -> sound q q'.
Proof.
  intros [->|(p & E)]; [now left|right]. destruct (C136_to_unit p) as (u & Eu & H).
  rewrite E in Eu. injection Eu as <-. tauto.
Qed.

Theorem C136_madgwick freq beta incl l q q' : history (madg_run bc freq beta incl) l q = Ok q' -> sound q q'.
Proof. intros H. eapply unitised_sound, madg_history_u; eauto. Qed.
Theorem C136_mahony freq incl l c q c' q' : history (mahn_run bc freq incl) l (c, q) = Ok (c', q') -> sound q q'.
Proof. intros H. eapply unitised_sound, mahn_history_u; eauto. Qed.
Theorem C136_complementary freq al l q q' : history (comp_run bc freq al) l q = Ok q' -> sound q q'.
Proof. intros H. eapply unitised_sound, comp_history_u; eauto. Qed.
Theorem C136_saam l q q' : history (saam_run bc) l q = Ok q' -> sound q q'.
Proof. intros H. eapply unitised_sound, saam_history_u; eauto. Qed.
Theorem C136_aqua freq l ini c q ini' c' q' : history (aqua_run bc freq) l (ini, c, q) = Ok (ini', c', q') -> sound q q'.
Proof. intros H. eapply unitised_sound, aqua_history_u; eauto. Qed.
Theorem C136_kalman freq incl l ini c q ini' c' q' :
  history (kalm_run bc freq incl) l (ini, c, q) = Ok (ini', c', q') -> sound q q'.
Proof. intros H. eapply unitised_sound, kalm_history_u; eauto. Qed.

(** With only the gyroscope, whose finite rates are at most 2^200, it stays a
    unit quaternion for ever: no loss of length accumulates *)
Variable freq : Z.
Hypothesis Hf : (0 < freq < 2 ^ 32)%Z.

Local Lemma gyro_wf l : Forall (gyro_only lim) l -> Forall (@well_formed double) l.
Proof.
  apply Forall_impl. intros i (Ea & Em & a & b & c & tl & Eg & _). rewrite <- (app_nil_r tl) in Eg.
  split; [now left|]. split; [now left|]. eexists. split; [exact Eg|]. split; [reflexivity|].
  intros j Hj. destruct j as [|[|[|]]]; [eexists; reflexivity..|lia].
Qed.

Theorem C136_gyroscope_madgwick beta incl l q : finite beta -> Forall (gyro_only (2 ^ 200)) l -> near_unit q ->
  exists q', history (madg_run bc freq beta incl) l q = Ok q' /\ near_unit q'.
Proof.
  intros Hb Hl Hq. destruct (C127_doubles_madgwick _ bc freq beta incl q (gyro_wf Hl)) as (q' & E).
  exists q'. split; [exact E|]. revert E. apply (@history_g _ (madg_run bc freq beta incl) (fun q => q)); auto.
  intros a b c tl s rc s' Hr Hs. now apply madg_g.
Qed.
Theorem C136_gyroscope_mahony incl l c q : vec_filled 3 (intfb c) -> Forall (gyro_only (2 ^ 200)) l -> near_unit q ->
  exists c' q', history (mahn_run bc freq incl) l (c, q) = Ok (c', q') /\ near_unit q'.
Proof.
  intros Hc Hl Hq. destruct (@C127_doubles_mahony M bc freq incl l c q (gyro_wf Hl) Hc) as (c' & q' & E & _).
  exists c', q'. split; [exact E|]. change (near_unit (snd (c', q'))). revert E.
  apply (@history_g _ (mahn_run bc freq incl) snd); auto.
  intros a b d tl (k & s) rc (k' & s') Hr Hs. now apply mahn_g.
Qed.
Theorem C136_gyroscope_complementary al l q : Forall (gyro_only (2 ^ 200)) l -> near_unit q ->
  exists q', history (comp_run bc freq al) l q = Ok q' /\ near_unit q'.
Proof.
  intros Hl Hq. destruct (@C127_doubles_complementary M bc freq al l q) as (q' & E); [lia|now apply gyro_wf|].
  exists q'. split; [exact E|]. revert E. apply (@history_g _ (comp_run bc freq al) (fun q => q)); auto.
  intros a b c tl s rc s' Hr Hs. now apply comp_g.
Qed.
End Histories.

(** *** Non-vacuity *)
Lemma near_identity : near_unit (quat_identity (N := NumF)).
Proof.
  split; [repeat split; vm_compute; reflexivity|]. unfold norm2, quat_identity. cbn [qr qi qj qk f0 f1 NumF].
  rewrite FR_zero, FR_one. pose proof uu_small. replace (1 * 1 + 0 * 0 + 0 * 0 + 0 * 0 - 1)%R with 0%R by ring.
  rewrite Rabs_R0. lra.
Qed.
Example C136_gyroscope_ex : exists q', history (madg_run (M := libm0) true 100 0.1%float None) [(None, None, vec3 1 1 0)%float] quat_identity = Ok q' /\ near_unit q'.
Proof.
  apply C136_gyroscope_madgwick; [lia|vm_compute; reflexivity| |apply near_identity].
  repeat constructor. exists one, one, zero, []. split; [reflexivity|].
  assert (1 <= 2 ^ 200)%R by (apply pow_R1_Rle; lra).
  repeat split; try (vm_compute; reflexivity); rewrite ?FR_one, ?FR_zero, ?Rabs_R1, ?Rabs_R0; lra.
Qed.
(** odd_readings holds infinities and NaNs: the filter ends up broken *)
Example C136_madgwick_ex : exists q', history (madg_run (M := libm0) true 100 0.1%float None) odd_readings quat_identity = Ok q'
  /\ sound quat_identity q' /\ broken q'.
Proof.
  destruct C127_madgwick_ex as (q' & E). exists q'. split; [exact E|]. split; [eapply C136_madgwick; eauto|].
  intros (H & _). revert H. vm_compute in E. injection E as <-. vm_compute. discriminate.
Qed.

(** ** C137 *)

(** Once a component of the orientation is NaN, no later reading repairs it:
    after any history either nothing was accepted or all four components are
    NaN, and every feed that accepts its reading still reports success. *)
Section Forever.
Context {M : NumM double}.
Variable bc : bool.

Local Lemma stuck_nan q q' : stuck q q' -> has_nan q -> q' = q \/ all_nan q'.
Proof. intros H Hq. apply has_some in Hq. destruct (H Hq) as [E|E]; [now left|right]. now apply all_each. Qed.

Theorem C137_recovery_madgwick_refuted freq beta incl l q q' : has_nan q ->
  history (madg_run bc freq beta incl) l q = Ok q' -> q' = q \/ all_nan q'.
Proof. intros Hq H. eapply stuck_nan; eauto. eapply madg_history_n; eauto. Qed.
Theorem C137_recovery_mahony_refuted freq incl l c q c' q' : has_nan q ->
  history (mahn_run bc freq incl) l (c, q) = Ok (c', q') -> q' = q \/ all_nan q'.
Proof. intros Hq H. eapply stuck_nan; eauto. eapply mahn_history_n; eauto. Qed.
Theorem C137_recovery_complementary_refuted freq al l q q' : has_nan q ->
  history (comp_run bc freq al) l q = Ok q' -> q' = q \/ all_nan q'.
Proof. intros Hq H. eapply stuck_nan; eauto. eapply comp_history_n; eauto. Qed.
Theorem C137_recovery_aqua_refuted freq l ini c q ini' c' q' : has_nan q ->
  history (aqua_run bc freq) l (ini, c, q) = Ok (ini', c', q') -> q' = q \/ all_nan q'.
Proof. intros Hq H. eapply stuck_nan; eauto. eapply aqua_history_n; eauto. Qed.
(** Kalman's filter starts again from the readings only when it is not
    initialised *)
Theorem C137_recovery_kalman_refuted freq incl l ini c q ini' c' q' : ini <> 0%Z -> has_nan q ->
  history (kalm_run bc freq incl) l (ini, c, q) = Ok (ini', c', q') -> q' = q \/ all_nan q'.
Proof. intros Hi Hq H. eapply stuck_nan; eauto. eapply kalm_history_n; eauto. Qed.

(** SAAM recovers with the next reading: the orientation it stores does not
    depend on the one it had *)
Theorem C137_recovery_saam (i : reading double) (q1 q2 q1' : quat double) :
  saam_run bc i q1 = Ok (0%Z, q1') -> saam_run bc i q2 = Ok (0%Z, q1').
Proof.
  unfold saam_run, saam_feed, fus_saam, the_sens. cbn [sa sm sg sq]. intros H.
  apply bindE in H. destruct H as ((rc & s) & H & E). injection E as -> <-.
  apply bindE in H. destruct H as (bad & Hb & H). rewrite Hb. unfold bind at 2.
  destruct bad; [discriminate|]. apply bindE in H. destruct H as (mm & Hm & H). rewrite Hm. unfold bind at 2.
  destruct mm; [discriminate|]. apply bindE in H. destruct H as (ma & Ha & H). rewrite Ha. unfold bind at 2.
  destruct ma; [discriminate|]. rewrite H. reflexivity.
Qed.

(** *** A gyroscope reading with a NaN is accepted and wipes the orientation out *)
Variable freq : Z.
Hypothesis Hf : (0 <= freq < 2 ^ 32)%Z.
Implicit Types (a m : option (vec double)) (g : vec double).

Local Ltac go Hg Hn := let E := fresh in destruct (filled3 Hg) as (?a & ?b & ?c & ?tl & E); rewrite E in *; apply nan_in3 in Hn.

Theorem C137_nan_gyroscope_madgwick_refuted beta incl a m g q q' : vec_filled 3 g -> nan_in g ->
  madg_run bc freq beta incl (a, m, Some g) q = Ok (0%Z, q') -> all_nan q'.
Proof.
  intros Hg Hn H. go Hg Hn. apply all_each. unfold madg_run, madg_feed, the_sens in H.
  apply bindE in H. destruct H as ((rc & s) & H & E). injection E as -> <-. destruct (_ <? _)%num; [discriminate|].
  eapply madgwick_r; eauto.
Qed.
Theorem C137_nan_gyroscope_mahony_refuted incl k a m g q k' q' : vec_filled 3 g -> nan_in g ->
  mahn_run bc freq incl (a, m, Some g) (k, q) = Ok (0%Z, (k', q')) -> all_nan q'.
Proof.
  intros Hg Hn H. go Hg Hn. apply all_each. unfold mahn_run, mahn_feed, the_sens in H. cbn [fst snd accel magn gyro] in H.
  apply bindE in H. destruct H as (((rc & s) & k1) & H & E). injection E as -> <- <-. destruct (_ || _)%num; [discriminate|].
  eapply mahony_r; eauto.
Qed.
Theorem C137_nan_gyroscope_complementary_refuted al a m g q q' : vec_filled 3 g -> nan_in g ->
  comp_run bc freq al (a, m, Some g) q = Ok (0%Z, q') -> all_nan q'.
Proof.
  intros Hg Hn H. go Hg Hn. apply all_each. unfold comp_run, comp_feed, the_sens in H.
  apply bindE in H. destruct H as ((rc & s) & H & E). injection E as -> <-. destruct (_ || _)%num; [discriminate|].
  eapply comp_r; eauto.
Qed.
Theorem C137_nan_gyroscope_aqua_refuted ini c a m g q ini' c' q' : vec_filled 3 g -> nan_in g ->
  aqua_run bc freq (a, m, Some g) (ini, c, q) = Ok (0%Z, (ini', c', q')) -> all_nan q'.
Proof.
  intros Hg Hn H. go Hg Hn. apply all_each. unfold aqua_run, aqua_feed, the_sens in H. cbn [fst snd accel magn gyro] in H.
  apply bindE in H. destruct H as ((((rc & s) & k1) & i1) & H & E). injection E as -> <- <- <-.
  destruct (_ || _)%num; [discriminate|]. apply bindE in H. destruct H as ((c2 & i2) & _ & H).
  apply bindE in H. destruct H as ((rc2 & s2) & H & E). injection E as -> <- <- <-. eapply aqua_r; eauto.
Qed.
Theorem C137_nan_gyroscope_kalman_refuted incl ini c a m g q ini' c' q' : vec_filled 3 g -> nan_in g ->
  kalm_run bc freq incl (a, m, Some g) (ini, c, q) = Ok (0%Z, (ini', c', q')) -> all_nan q'.
Proof.
  intros Hg Hn H. go Hg Hn. apply all_each. unfold kalm_run, kalm_feed, the_sens in H. cbn [fst snd accel magn gyro] in H.
  apply bindE in H. destruct H as ((((rc & s) & k1) & i1) & H & E). injection E as -> <- <- <-.
  destruct (_ || _)%num; [discriminate|]. apply bindE in H. destruct H as (((c2 & s2) & i2) & H1 & H).
  apply bindE in H. destruct H as (((rc3 & s3) & c3) & H & E). injection E as -> <- <- <-.
  assert (E : exists q2, s2 = Sens a m (Some (Vec 3 (Some a0 :: Some b :: Some c0 :: tl))) q2).
  { clear H. destruct (_ =? 0)%Z.
    - apply bindE in H1. destruct H1 as (((r1 & q1) & j1) & _ & H1). apply bindE in H1.
      destruct H1 as (((r2 & P2) & j2) & _ & H1). injection H1 as _ <- _. eexists. reflexivity.
    - injection H1 as _ <- _. eexists. reflexivity. }
  destruct E as (q2 & ->). eapply kalman_r; eauto.
Qed.

(** *** An accelerometer reading with a NaN is taken for no reading at all *)
Theorem C137_nan_accelerometer_madgwick beta incl (v : vec double) m og q : vec_filled 3 v -> nan_in v ->
  madg_run bc freq beta incl (Some v, m, og) q = madg_run bc freq beta incl (None, m, og) q.
Proof. intros Hg Hn. go Hg Hn. apply (madg_a bc _ Hn freq beta incl m og q). Qed.
Theorem C137_nan_accelerometer_mahony incl k (v : vec double) m og q : vec_filled 3 v -> nan_in v ->
  mahn_run bc freq incl (Some v, m, og) (k, q) = mahn_run bc freq incl (None, m, og) (k, q).
Proof. intros Hg Hn. go Hg Hn. apply (mahn_a bc _ Hn freq incl k m og q). Qed.
Theorem C137_nan_accelerometer_complementary al (v : vec double) m og q : vec_filled 3 v -> nan_in v ->
  comp_run bc freq al (Some v, m, og) q = comp_run bc freq al (None, m, og) q.
Proof. intros Hg Hn. go Hg Hn. apply (comp_a bc _ Hn freq al m og q). Qed.
End Forever.

(** A magnetometer reading with a NaN is not: Madgwick's and Mahony's filters
    compare its length with "less than 1e-6", which is false of a NaN, where for
    the accelerometer they compare with "greater than 1e-6" *)
Definition still : option (vec double) := vec3 0 0 0.
Definition upright : option (vec double) := vec3 0 0 1.
Definition lost : vec double := vec_of [nan; zero; zero] [].
Definition tilted : quat double := (Quat 0.96 0.28 0 0)%float.
Lemma lost_nan : vec_filled 3 lost /\ nan_in lost.
Proof.
  split; [split; [reflexivity|]|exists 0%nat, nan; repeat split; lia].
  intros i Hi. destruct i as [|[|[|]]]; [eexists; reflexivity..|lia].
Qed.

Definition feed_of {M : NumM double} (k : mahn_cfg) (mg : option (vec double)) : outcome (Z * quat double) * outcome (Z * quat double) :=
  (madg_run true 100 0.1%float None (upright, mg, still) tilted,
   let! r := mahn_run true 100 None (upright, mg, still) (k, tilted) in Ok (fst r, snd (snd r))).

Theorem C137_nan_magnetometer_refuted (M : NumM double) :
  let k := Mahn 0.5%float 0.1%float 1%float (vec_of [zero; zero; zero] []) in
  (exists q1 q2, feed_of k (Some lost) = (Ok (0%Z, q1), Ok (0%Z, q2)) /\ all_nan q1 /\ all_nan q2)
  /\ (exists q1 q2, feed_of k None = (Ok (0%Z, q1), Ok (0%Z, q2)) /\ finite_quat q1 /\ finite_quat q2).
Proof.
  intros k. split; do 2 eexists; (split; [vm_compute; reflexivity|]).
  all: split; repeat split; vm_compute; reflexivity.
Qed.

(** *** Non-vacuity *)
Example C137_recovery_ex : exists q' : quat double,
  history (madg_run (M := libm0) true 100 0.1%float None) [(upright, None, still); (upright, still, still)] (Quat nan zero zero zero) = Ok q'
  /\ has_nan (Quat nan zero zero zero) /\ all_nan q'.
Proof. eexists. split; [vm_compute; reflexivity|]. split; [left; reflexivity|repeat split; vm_compute; reflexivity]. Qed.
Example C137_saam_ex : exists q' : quat double,
  saam_run true (upright, (vec3 0.6 0 0.8)%float, None) (Quat nan nan nan nan) = Ok (0%Z, q') /\ finite_quat q'.
Proof. eexists. split; [vm_compute; reflexivity|repeat split; vm_compute; reflexivity]. Qed.
Example C137_nan_gyroscope_ex : exists q' : quat double,
  madg_run (M := libm0) true 100 0.1%float None (upright, None, Some lost) tilted = Ok (0%Z, q') /\ all_nan q'.
Proof.
  destruct (madg_run (M := libm0) true 100 0.1%float None (upright, None, Some lost) tilted) as [(rc & q')| | |] eqn:E;
    try (vm_compute in E; discriminate E).
  assert (rc = 0%Z) as -> by (vm_compute in E; injection E as <- _; reflexivity).
  exists q'. split; [reflexivity|]. destruct lost_nan as (F & N).
  refine (@C137_nan_gyroscope_madgwick_refuted libm0 true 100 _ _ _ _ _ _ _ _ F N E). lia.
Qed.
Example C137_nan_accelerometer_ex : exists q' : quat double,
  madg_run (M := libm0) true 100 0.1%float None (Some lost, None, still) tilted = Ok (0%Z, q') /\ finite_quat q'.
Proof. eexists. split; [vm_compute; reflexivity|repeat split; vm_compute; reflexivity]. Qed.

Print Assumptions C136_to_unit.
Print Assumptions C136_to_unit_regular.
Print Assumptions C136_overflow_refuted.
Print Assumptions C136_madgwick.
Print Assumptions C136_kalman.
Print Assumptions C136_gyroscope_madgwick.
Print Assumptions C136_gyroscope_mahony.
Print Assumptions C136_gyroscope_complementary.
Print Assumptions C137_recovery_madgwick_refuted.
Print Assumptions C137_recovery_kalman_refuted.
Print Assumptions C137_recovery_saam.
Print Assumptions C137_nan_gyroscope_madgwick_refuted.
Print Assumptions C137_nan_accelerometer_madgwick.
Print Assumptions C137_nan_magnetometer_refuted.
