(** Fusion filters fed by the gyroscope alone, in machine arithmetic *)
From Coq Require Import Floats.PrimFloat.
From Flocq Require Import Core.
From Coq Require Import ZArith Reals Lra List Bool Lia.
From Verif Require Import Base BaseFacts NumF Libm Out SpecVec SpecReal SpecFlt SpecFltQuat SpecFusion SpecSafe SpecSafeFus MVec MMtx MQuat MAhrs MFusion
  PFlt PFltSum PFltUnit PFltVar PSafeFlt PFltQuat PFltAng PUnitised.
Import ListNotations.
Notation double := PrimFloat.float.
Set Implicit Arguments.
Unset Strict Implicit.
Open Scope R_scope.

Lemma period_finite freq : (0 < freq < 2 ^ 32)%Z -> finite (F_lit 10 1 / F_of_Z freq)%float /\ Rabs (FR (F_lit 10 1 / F_of_Z freq)%float) <= lim.
Proof.
  intros H. replace freq with (Z.of_nat (Z.to_nat freq)) by lia. set (n := Z.to_nat freq).
  destruct (FR_of_nat n) as (Fn & En); [change (2 ^ 53)%Z with (2 ^ 32 * 2 ^ 21)%Z; lia|].
  assert (Hn : 1 <= INR n) by (change 1 with (INR 1); apply le_INR; lia).
  assert (F1 : finite (F_lit 10 1)) by (vm_compute; reflexivity).
  assert (Q : 0 <= FR (F_lit 10 1) / FR (F_of_Z (Z.of_nat n)) <= 1).
  { rewrite FR_lit1, En. unfold Rdiv. rewrite Rmult_1_l. split; [left; apply Rinv_0_lt_compat; lra|].
    rewrite <- Rinv_1. apply Rinv_le_contravar; lra. }
  pose proof big1 as B1. assert (Nz : FR (F_of_Z (Z.of_nat n)) <> 0) by (rewrite En; lra).
  assert (Fq : finite (F_lit 10 1 / F_of_Z (Z.of_nat n))%float) by (apply div_finite; auto; rewrite Rabs_pos_eq; lra).
  split; auto. destruct (div_err _ _ Nz Fq) as (_ & d & e & Hd & He & E). rewrite E.
  destruct lim_facts as (L1 & _ & _ & L4). pose proof uu_small. pose proof eta_pos.
  set (x := FR (F_lit 10 1) / FR (F_of_Z (Z.of_nat n))) in *.
  eapply Rle_trans; [apply Rabs_triang|]. rewrite Rabs_mult, (Rabs_pos_eq x) by lra.
  assert (Rabs (1 + d) <= 2) by (eapply Rle_trans; [apply Rabs_triang|]; rewrite Rabs_R1; lra).
  assert (x * Rabs (1 + d) <= 1 * 2) by (apply Rmult_le_compat; try lra; apply Rabs_pos).
  assert (1 * eta <= lim * eta) by (apply Rmult_le_compat_r; lra). lra.
Qed.

Lemma unit_near q : near_unit q -> near_unit (funit q).
Proof. intros H. destruct (near_regular q H) as (A & B & C). now apply funit_regular. Qed.

Section Gyro.
Context {M : NumM double}.
Variables (bc : bool) (freq : Z).
Hypothesis Hf : (0 < freq < 2 ^ 32)%Z.
Let t : double := (F_lit 10 1 / F_of_Z freq)%float.

Lemma t_ok : (bc && (t <? zero)%float)%bool = false.
Proof. unfold t. rewrite Fperiod by lia. apply andb_false_r. Qed.

Definition rate_ok (a b c : double) : Prop :=
  finite a /\ finite b /\ finite c /\ Rabs (FR a) <= lim /\ Rabs (FR b) <= lim /\ Rabs (FR c) <= lim.

Lemma step_near a b c q : rate_ok a b c -> near_unit q -> near_unit (funit (fstep a b c t (funit q))).
Proof.
  intros (Fa & Fb & Fc & Ba & Bb & Bc) Hq. destruct (period_finite Hf) as (Ft & Bt).
  destruct (near_regular q Hq) as (H1 & H2 & H3). apply ang_step_unit; auto.
Qed.

Lemma ang__near a b c tl q : rate_ok a b c -> near_unit q ->
  exists q', ang_vel_ bc (vec_of [a; b; c] tl) q t = Ok q' /\ near_unit q'.
Proof.
  intros Hr Hq. unfold ang_vel_. rewrite ang_vel_F by apply t_ok. cbn [bind]. eexists. split; [reflexivity|].
  now apply step_near.
Qed.

Ltac step :=
  match goal with
  | H : Ok _ = Ok _ |- _ => injection H as; subst; cbn [sq sa sm sg fst snd]; try assumption
  | H : bind ?m _ = Ok _ |- _ => apply bindE in H; destruct H as (? & ? & H); cbv beta in H
  | H : (if ?b then _ else _) = Ok _ |- _ => destruct b
  | H : (let (_, _) := ?x in _) = Ok _ |- _ => destruct x
  end.

Lemma ang__near' a b c tl q t' q' : rate_ok a b c -> near_unit q -> period freq = Ok t' ->
  ang_vel_ bc (vec_of [a; b; c] tl) q t' = Ok q' -> near_unit q'.
Proof.
  intros Hr Hq Ht. assert (t' = t) as -> by (injection Ht as <-; reflexivity). intros H.
  destruct (ang__near tl Hr Hq) as (q1 & E & N1). rewrite E in H. injection H as <-. exact N1.
Qed.

Lemma mahn_update_g a b c tl q q' : rate_ok a b c -> near_unit q ->
  mahn_update bc freq (vec_of [a; b; c] tl) q = Ok q' -> near_unit q'.
Proof.
  unfold mahn_update. intros Hr Hq H. apply bindE in H. destruct H as (t' & Ht & H).
  apply bindE in H. destruct H as (q1 & H1 & H). rewrite to_unit_F in H. injection H as <-.
  apply unit_near. eapply ang__near'; eauto.
Qed.
Lemma mahony_imu_g k a b c tl q rc s' k' : rate_ok a b c -> near_unit q ->
  mahony_imu bc freq k (Sens None None (Some (vec_of [a; b; c] tl)) q) = Ok (rc, s', k') -> near_unit (sq s').
Proof.
  intros Hr Hq. unfold mahony_imu. cbn [deref sg sa sm sq valid]. unfold bind at 1. intros H. step; [step|].
  apply bindE in H. destruct H as (mag & _ & H). step; [step|]. unfold bind at 1 in H.
  repeat step. eapply mahn_update_g; eauto.
Qed.
Lemma mahn_g incl k a b c tl q rc k' q' : rate_ok a b c -> near_unit q ->
  mahn_run bc freq incl (None, None, Some (vec_of [a; b; c] tl)) (k, q) = Ok (rc, (k', q')) -> near_unit q'.
Proof.
  intros Hr Hq H. unfold mahn_run in H. apply bindE in H. destruct H as (((rc1 & s) & c1) & H & E). injection E as <- <- <-.
  unfold mahn_feed, the_sens in H. cbn [fst snd accel magn gyro] in H. step; [step|].
  unfold mahony in H. cbn [deref sg sa sm sq missing] in H. unfold bind at 1 in H. step; [step|].
  apply bindE in H. destruct H as (mag & _ & H). step; [step|]. unfold bind at 1 in H.
  eapply mahony_imu_g; eauto.
Qed.

Lemma comp_g al a b c tl q rc q' : rate_ok a b c -> near_unit q ->
  comp_run bc freq al (None, None, Some (vec_of [a; b; c] tl)) q = Ok (rc, q') -> near_unit q'.
Proof.
  intros Hr Hq H. unfold comp_run in H. apply bindE in H. destruct H as ((rc1 & s) & H & E). injection E as <- <-.
  unfold comp_feed, the_sens in H. cbn [fst snd accel magn gyro] in H. step; [step|].
  unfold fus_comp in H. cbn [deref sg sa sm sq valid] in H. unfold bind at 1 in H. step; [step|].
  apply bindE in H. destruct H as (mag & _ & H). step; [step|].
  rewrite to_unit_F in H. unfold bind at 1 in H. apply bindE in H. destruct H as (t' & Ht & H).
  assert (t' = t) as -> by (injection Ht as <-; reflexivity).
  rewrite ang_vel_F in H by apply t_ok. cbn [local bind] in H. rewrite to_unit_F in H. cbn [bind] in H.
  injection H as <- <-. cbn [sq]. apply unit_near, step_near; auto. now apply unit_near.
Qed.

(** subtracting nothing *)
Lemma sub_nothing x be : finite x -> Rabs (FR x) <= 2 -> finite be -> let y := (x - t * (be * zero))%float in finite y /\ FR y = FR x.
Proof.
  intros Fx Bx Fb y. destruct (period_finite Hf) as (Ft & _). fold t in Ft.
  assert (Z1 : finite (be * zero)%float /\ FR (be * zero)%float = 0).
  { assert (F : finite (be * zero)%float).
    { apply mul_finite; auto using finite_zero. rewrite FR_zero, Rmult_0_r, Rabs_R0. pose proof big1; lra. }
    split; auto. destruct (mul_rnd _ _ F) as (_ & _ & ->). rewrite FR_zero, Rmult_0_r. apply round_0, valid_rnd_N. }
  destruct Z1 as (F1 & E1).
  assert (Z2 : finite (t * (be * zero))%float /\ FR (t * (be * zero))%float = 0).
  { assert (F : finite (t * (be * zero))%float).
    { apply mul_finite; auto. rewrite E1, Rmult_0_r, Rabs_R0. pose proof big1; lra. }
    split; auto. destruct (mul_rnd _ _ F) as (_ & _ & ->). rewrite E1, Rmult_0_r. apply round_0, valid_rnd_N. }
  destruct Z2 as (F2 & E2). unfold y.
  assert (Fy : finite (x - t * (be * zero))%float).
  { apply sub_finite; auto. rewrite E2, Rminus_0_r. destruct lim_facts as (L1 & L2 & _). nra. }
  split; auto. destruct (sub_rnd _ _ Fy) as (_ & _ & ->). rewrite E2, Rminus_0_r. apply round_FR.
Qed.

Lemma quat_nothing be q : finite be -> near_unit q ->
  near_unit (Quat (qr q - t * (be * zero)) (qi q - t * (be * zero)) (qj q - t * (be * zero)) (qk q - t * (be * zero)))%float.
Proof.
  intros Fb Hq. pose proof (near_bound q Hq) as Nu. cbn [In] in Nu.
  destruct (Nu (qr q) ltac:(auto)) as (Fr & Br). destruct (Nu (qi q) ltac:(auto)) as (Fi & Bi).
  destruct (Nu (qj q) ltac:(auto)) as (Fj & Bj). destruct (Nu (qk q) ltac:(auto 6)) as (Fk & Bk).
  destruct (sub_nothing Fr Br Fb) as (G1 & E1). destruct (sub_nothing Fi Bi Fb) as (G2 & E2).
  destruct (sub_nothing Fj Bj Fb) as (G3 & E3). destruct (sub_nothing Fk Bk Fb) as (G4 & E4). cbv zeta in *.
  split; [repeat split; assumption|]. unfold norm2. cbn [qr qi qj qk]. rewrite E1, E2, E3, E4. apply Hq.
Qed.

Lemma madg_update_g be a b c tl q q' : finite be -> rate_ok a b c -> near_unit q ->
  madg_update bc freq be (vec_of [a; b; c] tl) (Vec 4 [Some zero; Some zero; Some zero; Some zero]) q = Ok q' -> near_unit q'.
Proof.
  unfold madg_update. intros Fb Hr Hq H. apply bindE in H. destruct H as (t' & Ht & H).
  apply bindE in H. destruct H as (q1 & H1 & H). pose proof (ang__near' Hr Hq Ht H1) as N1.
  assert (t' = t) as -> by (injection Ht as <-; reflexivity).
  cbn [rd vbuf nth_error] in H. unfold bind in H. rewrite to_unit_F in H. injection H as <-.
  apply unit_near. exact (quat_nothing Fb N1).
Qed.
Lemma init4 : vec_init (N := NumF) (Vec 4 (fresh 4)) = Ok (0%Z, Vec 4 [Some zero; Some zero; Some zero; Some zero]).
Proof. reflexivity. Qed.
Lemma madgwick_imu_g be a b c tl q rc s' : finite be -> rate_ok a b c -> near_unit q ->
  madgwick_imu bc freq be (Sens None None (Some (vec_of [a; b; c] tl)) q) = Ok (rc, s') -> near_unit (sq s').
Proof.
  intros Fb Hr Hq. unfold madgwick_imu. cbn [deref sg sa sm sq valid]. rewrite init4. unfold bind at 1. intros H. step; [step|].
  apply bindE in H. destruct H as (mag & _ & H). step; [step|]. rewrite to_unit_F in H. unfold bind at 1 2 3 in H.
  apply bindE in H. destruct H as (q1 & H1 & H). step. eapply madg_update_g; [exact Fb|exact Hr| |exact H1]. now apply unit_near.
Qed.
Lemma madg_g be incl a b c tl q rc q' : finite be -> rate_ok a b c -> near_unit q ->
  madg_run bc freq be incl (None, None, Some (vec_of [a; b; c] tl)) q = Ok (rc, q') -> near_unit q'.
Proof.
  intros Fb Hr Hq H. unfold madg_run in H. apply bindE in H. destruct H as ((rc1 & s) & H & E). injection E as <- <-.
  unfold madg_feed, the_sens in H. cbn [fst snd accel magn gyro] in H. step; [step|].
  unfold madgwick in H. cbn [deref sg sa sm sq missing] in H. unfold bind at 1 in H. step; [step|].
  apply bindE in H. destruct H as (mag & _ & H). step; [step|]. unfold bind at 1 in H.
  eapply madgwick_imu_g; eauto.
Qed.

Lemma history_g S (f : reading double -> S -> outcome (Z * S)) (g : S -> quat double) :
  (forall a b c tl s rc s', rate_ok a b c -> near_unit (g s) -> f (None, None, Some (vec_of [a; b; c] tl)) s = Ok (rc, s') ->
     near_unit (g s')) ->
  forall l s s', Forall (gyro_only lim) l -> near_unit (g s) -> history f l s = Ok s' -> near_unit (g s').
Proof.
  intros Hs. induction l as [|i l IH]; intros s s' Hl Hq H; cbn [history] in H.
  - injection H as <-. exact Hq.
  - inversion Hl as [|i' l' Hi Hl' E]; subst. apply bindE in H. destruct H as ((rc & s1) & H1 & H2). cbn [snd] in H2.
    apply (IH s1); auto. destruct i as ((ia & im) & ig). destruct Hi as (Ea & Em & a & b & c & tl & Eg & Hr).
    cbn [accel magn gyro fst snd] in *. subst. eapply Hs; eauto.
Qed.
End Gyro.
