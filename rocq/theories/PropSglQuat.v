(** C167: orientations keep unit length in single precision. *)
From Flocq Require Import Core BinarySingleNaN.
From Coq Require Import List Arith ZArith Bool Lia Reals Lra.
From Verif Require Import Base BaseFacts NumS Libm Out SpecVec SpecSgl SpecSglQuat SpecFusion SpecSafe SpecSafeFus
  MVec MMtx MQuat MFusion PSgl PSglSum PSglQuat PUnitised.
Import ListNotations.
Set Implicit Arguments.

(** With CONFIG_ZSL_SINGLE_PRECISION, zsl_quat_to_unit always answers, and an
    answer made of numbers is zero or a unit quaternion up to 6e-7, however bad
    the input was.

    The code compares the length with the double 1E-6; the model with the float
    nearest to it.  They differ for one length only, 1E-6f itself, for which
    the code answers zero and the model a unit quaternion. *)
Theorem C167_to_unit (q : quat single) : exists u, quat_to_unit q = Ok u /\
  (broken_s u \/ zero_quat_s u \/ near_unit_s u).
Proof.
  exists (funit_s q). split; [apply to_unit_s|].
  destruct (is_finite (qr (funit_s q))) eqn:E1; [|left; intros (H & _); unfold finites in H; congruence].
  destruct (is_finite (qi (funit_s q))) eqn:E2; [|left; intros (_ & H & _); unfold finites in H; congruence].
  destruct (is_finite (qj (funit_s q))) eqn:E3; [|left; intros (_ & _ & H & _); unfold finites in H; congruence].
  destruct (is_finite (qk (funit_s q))) eqn:E4; [|left; intros (_ & _ & _ & H); unfold finites in H; congruence].
  right. apply funit_cases_s. repeat split; assumption.
Qed.

(** It is certainly a unit quaternion when the input is neither tiny nor huge *)
Theorem C167_to_unit_regular (q : quat single) : finite_quat_s q ->
  (forall x, In x [qr q; qi q; qj q; qk q] -> (Rabs (SR x) <= 2 ^ 40)%R) -> (2 / 1000000000000 <= norm2_s q)%R ->
  exists u, quat_to_unit q = Ok u /\ near_unit_s u.
Proof. intros H1 H2 H3. exists (funit_s q). split; [apply to_unit_s|]. now apply funit_regular_s. Qed.

Local Lemma Ok_inj A (x y : A) : Ok x = Ok y -> x = y.
Proof. congruence. Qed.

(** 2^80 as a float *)
Definition huge : single := S_of_Z (2 ^ 80).
Lemma huge_SR : finites huge /\ SR huge = (2 ^ 80)%R.
Proof.
  split; [vm_compute; reflexivity|]. rewrite SR_B2R, <- SF2R_B2SF.
  replace (B2SF huge) with (SpecFloat.S754_finite false 8388608 57) by (vm_compute; reflexivity).
  unfold SF2R, F2R. cbn [Fnum Fexp cond_Zopp].
  rewrite <- (IZR_Zpower radix2) by lia. rewrite <- mult_IZR, pow_IZR. apply f_equal. vm_compute. reflexivity.
Qed.

(** A quaternion too long for its square to be representable, here of length
    2^80 (about 1e24), becomes zero *)
Theorem C167_overflow_refuted : ~ (forall q : quat single, finite_quat_s q -> (1 <= norm2_s q)%R ->
  exists u, quat_to_unit q = Ok u /\ near_unit_s u).
Proof.
  intros H. destruct huge_SR as (F1 & E1). set (z := B754_zero false : single).
  destruct (H (Quat huge z z z)) as (u & E & (_ & N)).
  - repeat split; vm_compute; reflexivity.
  - unfold norm2_s. cbn [qr qi qj qk]. rewrite E1. unfold z. rewrite SR_zero.
    assert (1 <= 2 ^ 80)%R by (apply pow_R1_Rle; lra). nra.
  - rewrite to_unit_s in E. apply Ok_inj in E. rewrite <- E in N. clear E.
    assert (Z : zero_quat_s (funit_s (Quat huge z z z))).
    { unfold funit_s. assert (Nm : ~ finites (fmagn_s (Quat huge z z z))) by (vm_compute; discriminate).
      destruct lit_tiny_s as (FL & BL). rewrite ltb_not_finite_s by (auto; lra). cbn [qr qi qj qk].
      assert (G : finites (S_div huge (fmagn_s (Quat huge z z z))) /\ finites (S_div z (fmagn_s (Quat huge z z z))))
        by (split; vm_compute; reflexivity).
      destruct G as (G1 & G2). split; [repeat split; assumption|]. cbn [qr qi qj qk]. repeat split; now apply div_by_none_s. }
    destruct Z as (_ & Z1 & Z2 & Z3 & Z4). unfold norm2_s in N. rewrite Z1, Z2, Z3, Z4 in N.
    pose proof us_small. revert N. unfold Rabs. destruct Rcase_abs; lra.
Qed.

(** What every filter stores, after any history of readings (infinities and NaNs
    included), with any gains and any mathematical library: the orientation it
    was given, or a unit quaternion up to 6e-7, or zero, or one with a component
    that is not finite.  It never drifts. *)
Definition sound_s (q q' : quat single) : Prop := q' = q \/ near_unit_s q' \/ zero_quat_s q' \/ broken_s q'.

Section Histories.
Context {M : NumM single}.
Variable bc : bool.

Local Lemma unitised_sound_s q q' : unitised q q' -> sound_s q q'.
Proof.
  intros [->|(p & E)]; [now left|right]. destruct (C167_to_unit p) as (u & Eu & H).
  rewrite E in Eu. injection Eu as <-. tauto.
Qed.

Theorem C167_madgwick freq beta incl l q q' : history (madg_run bc freq beta incl) l q = Ok q' -> sound_s q q'.
Proof. intros H. eapply unitised_sound_s, madg_history_u; eauto. Qed.
Theorem C167_mahony freq incl l c q c' q' : history (mahn_run bc freq incl) l (c, q) = Ok (c', q') -> sound_s q q'.
Proof. intros H. eapply unitised_sound_s, mahn_history_u; eauto. Qed.
Theorem C167_complementary freq al l q q' : history (comp_run bc freq al) l q = Ok q' -> sound_s q q'.
Proof. intros H. eapply unitised_sound_s, comp_history_u; eauto. Qed.
Theorem C167_saam l q q' : history (saam_run bc) l q = Ok q' -> sound_s q q'.
Proof. intros H. eapply unitised_sound_s, saam_history_u; eauto. Qed.
Theorem C167_aqua freq l ini c q ini' c' q' : history (aqua_run bc freq) l (ini, c, q) = Ok (ini', c', q') -> sound_s q q'.
Proof. intros H. eapply unitised_sound_s, aqua_history_u; eauto. Qed.
Theorem C167_kalman freq incl l ini c q ini' c' q' :
  history (kalm_run bc freq incl) l (ini, c, q) = Ok (ini', c', q') -> sound_s q q'.
Proof. intros H. eapply unitised_sound_s, kalm_history_u; eauto. Qed.
End Histories.

(** *** Non-vacuity *)
Definition two (z : Z) : single := S_of_Z z.
Example C167_to_unit_ex : exists u, quat_to_unit (Quat (two 1) (two 2) (two (-2)) (two 4)) = Ok u /\ near_unit_s u.
Proof.
  assert (V : forall n, (0 <= n < 10)%Z -> finites (S_of_Z n) /\ SR (S_of_Z n) = IZR n).
  { intros n Hn. rewrite <- (Z2Nat.id n) by lia. destruct (SR_of_nat (Z.to_nat n)) as (F & E); [lia|].
    split; [exact F|]. rewrite E. now rewrite INR_IZR_INZ. }
  assert (V2 : finites (S_of_Z (-2)) /\ SR (S_of_Z (-2)) = (-2)%R).
  { split; [vm_compute; reflexivity|]. rewrite SR_B2R, <- SF2R_B2SF.
    replace (B2SF (S_of_Z (-2))) with (SpecFloat.S754_finite true 8388608 (-22)) by (vm_compute; reflexivity).
    unfold SF2R, F2R. cbn [Fnum Fexp cond_Zopp Z.opp bpow]. change (Z.pow_pos radix2 22) with 4194304%Z. lra. }
  destruct (V 1%Z) as (F1 & E1); [lia|]. destruct (V 2%Z) as (F2 & E2); [lia|]. destruct (V 4%Z) as (F4 & E4); [lia|].
  destruct V2 as (F3 & E3). assert (4 <= 2 ^ 40)%R by (replace 4%R with (2 ^ 2)%R by ring; apply Rle_pow; [lra|lia]).
  apply C167_to_unit_regular; unfold two.
  - repeat split; assumption.
  - cbn [qr qi qj qk]. intros x [<-|[<-|[<-|[<-|[]]]]]; rewrite ?E1, ?E2, ?E3, ?E4; unfold Rabs; destruct Rcase_abs; lra.
  - unfold norm2_s. cbn [qr qi qj qk]. rewrite E1, E2, E3, E4. lra.
Qed.

Definition rates (a b c : Z) : option (vec single) := Some (vec_of [S_of_Z a; S_of_Z b; S_of_Z c] []).
Definition libs : NumM single := {|
  fexp := fun x => x; flog := @Ok _; flog10 := @Ok _; fpow := fun x _ => Ok x; fsin := fun x => x; fcos := fun x => x;
  ftan := @Ok _; fasin := @Ok _; facos := @Ok _; fatan := fun x => x; fatan2 := fun x _ => x;
  fsinh := fun x => x; fcosh := fun x => x; ftanh := fun x => x; ffloor := fun x => x; fceil := fun x => x;
  fround := fun x => x; ftrunc := fun _ => 0%Z |}.
Definition kept_finite (o : outcome (quat single)) : bool :=
  match o with Ok q => is_finite (qr q) && is_finite (qi q) && is_finite (qj q) && is_finite (qk q) | _ => false end.
Definition moved (o : outcome (quat single)) : bool :=
  match o with Ok q => negb (Beqb (qi q) (B754_zero false)) | _ => false end.

(** Three readings: the orientation moves and is a unit quaternion *)
Example C167_history_ex : exists q', history (madg_run (M := libs) true 100 (S_of_Z 1) None)
    [(None, None, rates 1 2 (-1)); (rates 0 0 1, None, rates 1 0 0); (rates 0 0 1, rates 1 0 0, rates 0 1 0)] quat_identity = Ok q'
  /\ q' <> quat_identity /\ finite_quat_s q' /\ (near_unit_s q' \/ zero_quat_s q').
Proof.
  assert (G : forall o, kept_finite o = true -> moved o = true -> (forall q', o = Ok q' -> sound_s quat_identity q') ->
    exists q', o = Ok q' /\ q' <> quat_identity /\ finite_quat_s q' /\ (near_unit_s q' \/ zero_quat_s q')).
  { intros [q'| | |] Hk Hm H; try discriminate. exists q'. split; [reflexivity|]. specialize (H q' eq_refl).
    cbn [kept_finite] in Hk. apply andb_prop in Hk. destruct Hk as (Hk & K4).
    apply andb_prop in Hk. destruct Hk as (Hk & K3). apply andb_prop in Hk. destruct Hk as (K1 & K2).
    assert (F : finite_quat_s q') by (repeat split; assumption).
    assert (D : q' <> quat_identity) by (intros ->; cbn in Hm; discriminate).
    split; [exact D|]. split; [exact F|]. destruct H as [E|[E|[E|E]]]; auto; [now contradiction|now contradiction E]. }
  apply G.
  - vm_compute. reflexivity.
  - vm_compute. reflexivity.
  - intros q' E. eapply C167_madgwick. exact E.
Qed.

Print Assumptions C167_to_unit.
Print Assumptions C167_to_unit_regular.
Print Assumptions C167_overflow_refuted.
Print Assumptions C167_madgwick.
Print Assumptions C167_mahony.
Print Assumptions C167_complementary.
Print Assumptions C167_saam.
Print Assumptions C167_aqua.
Print Assumptions C167_kalman.
