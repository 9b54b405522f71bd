(** What a fusion filter stores is either left alone or an output of
    zsl_quat_to_unit, in every arithmetic *)
From Coq Require Import List Arith ZArith Bool.
From Verif Require Import Base Libm Out SpecSafe SpecFusion SpecSafeFus MVec MMtx MDecomp MStat MQuat MAhrs MFusion.
Set Implicit Arguments.

Section U.
Context {T : Type} {N : Num T} {M : NumM T}.
Variable bc : bool.

Lemma bindE A B (m : outcome A) (k : A -> outcome B) y : bind m k = Ok y -> exists x, m = Ok x /\ k x = Ok y.
Proof. destruct m; try discriminate. intros H. eauto. Qed.

Definition unitised (q q' : quat T) : Prop := q' = q \/ exists p, quat_to_unit p = Ok q'.

Ltac step :=
  match goal with
  | H : Ok _ = Ok _ |- _ => injection H as; subst; cbn [sq sa sm sg fst snd]
  | H : bind ?m _ = Ok _ |- _ => apply bindE in H; destruct H as (? & ? & H); cbv beta in H
  | H : (if ?b then _ else _) = Ok _ |- _ => destruct b
  | H : (let (_, _) := ?x in _) = Ok _ |- _ => destruct x
  | H : match ?x with Some _ => _ | None => _ end = Ok _ |- _ => destruct x
  | H : match ?x with None => _ | Some _ => _ end = Ok _ |- _ => destruct x
  end.
Ltac fin := solve [left; reflexivity | right; eexists; eassumption].

Lemma madg_update_u freq beta g gr q q' : madg_update bc freq beta g gr q = Ok q' -> exists p, quat_to_unit p = Ok q'.
Proof. unfold madg_update. intros H. repeat step; eauto. Qed.
Lemma mahn_update_u freq g q q' : mahn_update bc freq g q = Ok q' -> exists p, quat_to_unit p = Ok q'.
Proof. unfold mahn_update. intros H. repeat step; eauto. Qed.

Lemma madgwick_imu_u freq beta s rc s' : madgwick_imu bc freq beta s = Ok (rc, s') -> unitised (sq s) (sq s').
Proof. unfold madgwick_imu. intros H. repeat step; try fin; right; eapply madg_update_u; eauto. Qed.
Lemma madgwick_u freq beta incl s rc s' : madgwick bc freq beta incl s = Ok (rc, s') -> unitised (sq s) (sq s').
Proof.
  unfold madgwick. intros H. repeat step; try fin; try solve [right; eapply madg_update_u; eauto].
  eapply madgwick_imu_u; eauto.
Qed.
Lemma mahony_imu_u freq c s rc s' c' : mahony_imu bc freq c s = Ok (rc, s', c') -> unitised (sq s) (sq s').
Proof. unfold mahony_imu. intros H. repeat step; try fin; right; eapply mahn_update_u; eauto. Qed.
Lemma mahony_u freq incl c s rc s' c' : mahony bc freq incl c s = Ok (rc, s', c') -> unitised (sq s) (sq s').
Proof.
  unfold mahony. intros H. repeat step; try fin; try solve [right; eapply mahn_update_u; eauto].
  eapply mahony_imu_u; eauto.
Qed.
Lemma comp_u freq al s rc s' : fus_comp bc freq al s = Ok (rc, s') -> unitised (sq s) (sq s').
Proof. unfold fus_comp. intros H. repeat step; fin. Qed.
Lemma saam_u s rc s' : fus_saam bc s = Ok (rc, s') -> unitised (sq s) (sq s').
Proof. unfold fus_saam. intros H. apply bindE in H. destruct H as (b & _ & H). repeat step; fin. Qed.
Lemma aqua_u freq c s rc s' : fus_aqua bc freq c s = Ok (rc, s') -> unitised (sq s) (sq s').
Proof. unfold fus_aqua. intros H. repeat step; fin. Qed.
Lemma kalman_u freq incl c s rc s' c' : fus_kalman bc freq incl c s = Ok (rc, s', c') -> unitised (sq s) (sq s').
Proof.
  unfold fus_kalman. intros H.
  match goal with H : (if ?b then _ else _) = _ |- _ => destruct b end; repeat step; fin.
Qed.
Lemma kalm_quat_init_u ini a m q rc q' ini' : kalm_quat_init bc ini a m q = Ok (rc, q', ini') -> unitised q q'.
Proof.
  unfold kalm_quat_init. intros H.
  match goal with H : (if ?b then _ else _) = _ |- _ => destruct b end; repeat step; fin.
Qed.

Lemma unitised_trans q1 q2 q3 : unitised q1 q2 -> unitised q2 q3 -> unitised q1 q3.
Proof. intros [->|H1] [->|H2]; unfold unitised; auto. Qed.

Lemma history_u I S (f : I -> S -> outcome (Z * S)) (g : S -> quat T) :
  (forall i s rc s', f i s = Ok (rc, s') -> unitised (g s) (g s')) ->
  forall l s s', history f l s = Ok s' -> unitised (g s) (g s').
Proof.
  intros Hf. induction l as [|i l IH]; intros s s' H; cbn [history] in H.
  - injection H as <-. left. reflexivity.
  - apply bindE in H. destruct H as ((rc & s1) & H1 & H2). cbn [snd] in H2.
    eapply unitised_trans; eauto.
Qed.

Theorem madg_history_u freq beta incl l q q' :
  history (madg_run bc freq beta incl) l q = Ok q' -> unitised q q'.
Proof.
  apply (history_u (madg_run bc freq beta incl) (fun q => q)). clear. intros i q rc q' H. unfold madg_run in H.
  apply bindE in H. destruct H as ((rc1 & s) & H & E). injection E as <- <-. unfold madg_feed in H.
  step; [step; fin|]. apply madgwick_u in H. exact H.
Qed.
Theorem mahn_history_u freq incl l c q c' q' :
  history (mahn_run bc freq incl) l (c, q) = Ok (c', q') -> unitised q q'.
Proof.
  intros H. change (unitised (snd (c, q)) (snd (c', q'))). revert H.
  apply (history_u (mahn_run bc freq incl) snd). clear. intros i q rc q' H. unfold mahn_run in H.
  apply bindE in H. destruct H as (((rc1 & s) & c1) & H & E). injection E as <- <-. unfold mahn_feed in H.
  step; [step; fin|]. apply mahony_u in H. exact H.
Qed.
Theorem comp_history_u freq al l q q' :
  history (comp_run bc freq al) l q = Ok q' -> unitised q q'.
Proof.
  apply (history_u (comp_run bc freq al) (fun q => q)). clear. intros i q rc q' H. unfold comp_run in H.
  apply bindE in H. destruct H as ((rc1 & s) & H & E). injection E as <- <-. unfold comp_feed in H.
  step; [step; fin|]. apply comp_u in H. exact H.
Qed.
Theorem saam_history_u l q q' : history (saam_run bc) l q = Ok q' -> unitised q q'.
Proof.
  apply (history_u (saam_run bc) (fun q => q)). clear. intros i q rc q' H. unfold saam_run in H.
  apply bindE in H. destruct H as ((rc1 & s) & H & E). injection E as <- <-. apply saam_u in H. exact H.
Qed.
Theorem aqua_history_u freq l ini c q ini' c' q' :
  history (aqua_run bc freq) l (ini, c, q) = Ok (ini', c', q') -> unitised q q'.
Proof.
  intros H. change (unitised (snd (ini, c, q)) (snd (ini', c', q'))). revert H.
  apply (history_u (aqua_run bc freq) snd). clear. intros i q rc q' H. unfold aqua_run in H.
  apply bindE in H. destruct H as ((((rc1 & s) & c1) & ini) & H & E). injection E as <- <-. unfold aqua_feed in H.
  step; [step; fin|]. apply bindE in H. destruct H as ((c2 & ini2) & _ & H). apply bindE in H.
  destruct H as ((rc2 & s2) & H & E). injection E as <- <- <- <-. apply aqua_u in H. exact H.
Qed.
Theorem kalm_history_u freq incl l ini c q ini' c' q' :
  history (kalm_run bc freq incl) l (ini, c, q) = Ok (ini', c', q') -> unitised q q'.
Proof.
  intros H. change (unitised (snd (ini, c, q)) (snd (ini', c', q'))). revert H.
  apply (history_u (kalm_run bc freq incl) snd). clear. intros i q rc q' H. unfold kalm_run in H.
  apply bindE in H. destruct H as ((((rc1 & s) & c1) & ini) & H & E). injection E as <- <-. unfold kalm_feed in H.
  step; [step; fin|]. apply bindE in H. destruct H as (((c2 & s2) & ini2) & H1 & H). apply bindE in H.
  destruct H as (((rc3 & s3) & c3) & H & E). injection E as <- <- <- <-. apply kalman_u in H.
  eapply unitised_trans; [|exact H]. clear - H1. step.
  - apply bindE in H1. destruct H1 as (((rc4 & q4) & ini4) & H1 & H2). apply kalm_quat_init_u in H1.
    repeat step. exact H1.
  - step. fin.
Qed.
End U.
