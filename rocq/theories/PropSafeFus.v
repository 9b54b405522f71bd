(** C127: no history of readings makes a sensor-fusion filter touch memory
    outside its operands or use an indeterminate value: whatever the numbers,
    infinities and NaNs included, whichever of the optional readings are absent. *)
From Coq Require Import Floats.PrimFloat.
From Coq Require Import List Arith ZArith Bool Lia Reals.

From Verif Require Import Base BaseFacts NumR NumF Libm LibmR Out SpecVec SpecMtx SpecQuat SpecFusion SpecSafe SpecSafeFus
  MVec MMtx MQuat MFusion PVec PMtx PMtxOps PSafe PSafeMx PSafeQr PropSafe PSafeFus PSafeFlt PSafeHist.
Import ListNotations.
Set Implicit Arguments.
Notation double := PrimFloat.float.

(** ** IEEE 754 binary64, with any mathematical library: every history is
    answered *)
Section Doubles.
Variable M : NumM double.
Hypothesis libm : total_libm M.
Variable bc : bool.
Implicit Types (l : list (reading double)) (q : quat double).

Local Lemma F_acos x : wp (~ total NumF) False (fun _ => True) (facos x).
Proof. destruct (proj1 libm x) as (y & E). rewrite E. exact I. Qed.
Local Lemma F_asin x : wp (~ total NumF) False (fun _ => True) (fasin x).
Proof. destruct (proj2 libm x) as (y & E). rewrite E. exact I. Qed.
Local Lemma F_zd (m x : double) : fdiv f0 m = Ok x -> (fabs x >? flit 1 6)%num = false.
Proof. intros [= <-]. apply Fzd. Qed.
Local Lemma F_k (me k al : double) : in01 al -> (me >? flit 1 1)%num = true -> (me <? flit 2 1)%num = true ->
  fdiv (flit 2 1 - me)%num (flit 1 1) = Ok k -> in01 (al * k)%num.
Proof. intros H1 H2 H3 [= <-]. now apply Fk. Qed.
Local Lemma F_slerp (h r i j k : double) e u : fsqrt h = Ok r -> quat_to_unit quat_identity = Ok e ->
  quat_to_unit (Quat r i j k) = Ok u ->
  (fabs (qr e * qr u + qi e * qi u + qj e * qj u + qk e * qk u + flit 10 1) <? flit 1 6)%num = false.
Proof. intros [= <-]. apply Fslerp. Qed.
Local Lemma F_answers A (P : A -> Prop) (m : outcome A) : wp (~ total NumF) False P m -> exists r, m = Ok r /\ P r.
Proof.
  destruct m as [a|u| |]; cbn; intros H; try contradiction; [eauto|]. exfalso. exact (H total_F).
Qed.
Local Lemma F_answer A (m : outcome A) : wp (~ total NumF) False (fun _ => True) m -> exists r, m = Ok r.
Proof. intros H. apply F_answers in H as (r & E & _). eauto. Qed.

Theorem C127_doubles_madgwick freq beta incl l q : Forall (@well_formed double) l ->
  exists q', history (madg_run bc freq beta incl) l q = Ok q'.
Proof. intros Hl. apply F_answer, hist_madg; auto using lawful_F, Fz. Qed.

Theorem C127_doubles_mahony freq incl l c q : Forall (@well_formed double) l -> vec_filled 3 (intfb c) ->
  exists c' q', history (mahn_run bc freq incl) l (c, q) = Ok (c', q') /\ vec_filled 3 (intfb c').
Proof.
  intros Hl Hc. assert (W : wp (~ total NumF) False (fun st => vec_filled 3 (intfb (fst st))) (history (mahn_run bc freq incl) l (c, q)))
    by (apply hist_mahn; auto using lawful_F, Fz).
  destruct (F_answers _ _ W) as ((c' & q') & E & H). eauto.
Qed.

Theorem C127_doubles_complementary freq alpha l q : (0 <= freq < 2 ^ 32)%Z -> Forall (@well_formed double) l ->
  exists q', history (comp_run bc freq alpha) l q = Ok q'.
Proof.
  intros Hf Hl. apply F_answer, hist_comp; auto using lawful_F, Fz. intros t [= <-]. now apply Fperiod.
Qed.

(** SAAM compares its pointers with NULL only after using them when bounds
    checks are on *)
Theorem C127_doubles_saam l q :
  Forall (fun i : reading double => given_or_null (accel i) /\ given_or_null (magn i)) l ->
  (bc = false \/ Forall (fun i : reading double => accel i <> None /\ magn i <> None) l) ->
  exists q', history (saam_run bc) l q = Ok q'.
Proof. intros Hl Hn. apply F_answer, hist_saam; auto using lawful_F. Qed.

(** AQUA reads the first accelerometer reading before any NULL test when bounds
    checks are on *)
Theorem C127_doubles_aqua freq ini c l q : Forall (@well_formed double) l ->
  (ini <> 0%Z \/ bc = false \/ Forall (fun i : reading double => accel i <> None) l) ->
  exists st, history (aqua_run bc freq) l (ini, c, q) = Ok st.
Proof.
  intros Hl Hn. apply F_answer. apply hist_aqua; auto using lawful_F, F_acos, Fz.
  - reflexivity.
  - exact F_k.
  - exact F_slerp.
Qed.

(** Kalman: a 4x4 covariance matrix, which need not have values when the flag
    says the filter is not initialised *)
Theorem C127_doubles_kalman freq incl ini c l q : Forall (@all_optional double) l ->
  (bc = true \/ Forall (@all_given double) l) ->
  room 4 4 (kP c) -> (ini <> 0%Z -> mtx_filled 4 4 (kP c)) ->
  exists st, history (kalm_run bc freq incl) l (ini, c, q) = Ok st.
Proof. intros Hl Hn HR HP. apply F_answer, hist_kalm; auto using lawful_F, Fz. exact F_zd. Qed.

(** The searches for the gains of Madgwick's and Mahony's filters *)
Theorem C127_doubles_cal_madgwick old r (g a m : mtx double) f incl :
  mtx_filled r 3 g -> mtx_filled r 3 a -> mtx_filled r 3 m ->
  exists x, cal_madg bc old g a m f incl = Ok x.
Proof.
  intros Hg Ha Hm. apply F_answer. eapply wp_cal_madg; auto using lawful_F, F_asin, Fz;
    [exact (filled_ism NumF Hg)|exact (filled_ism NumF Ha)|exact (filled_ism NumF Hm)].
Qed.
Theorem C127_doubles_cal_mahony old r (g a m : mtx double) f incl :
  mtx_filled r 3 g -> mtx_filled r 3 a -> mtx_filled r 3 m ->
  exists x, cal_mahn bc old g a m f incl = Ok x.
Proof.
  intros Hg Ha Hm. apply F_answer. eapply wp_cal_mahn; auto using lawful_F, F_asin, Fz;
    [exact (filled_ism NumF Hg)|exact (filled_ism NumF Ha)|exact (filled_ism NumF Hm)].
Qed.

End Doubles.

(** ** Exact arithmetic: a history ends in an answer or has no real one, and
    never in undefined behaviour *)
Section Exact.
Variable bc : bool.
Implicit Types (l : list (reading R)) (q : quat R).

Theorem C127_madgwick freq beta incl l q : Forall (@well_formed R) l ->
  never_ub (history (madg_run bc freq beta incl) l q).
Proof. intros Hl. eapply wp_never_ub, hist_madg; auto using lawful_R, R_z. Qed.

Theorem C127_mahony freq incl l c q : Forall (@well_formed R) l -> vec_filled 3 (intfb c) ->
  never_ub (history (mahn_run bc freq incl) l (c, q)).
Proof. intros Hl Hc. eapply wp_never_ub, hist_mahn; auto using lawful_R, R_z. Qed.

Theorem C127_complementary freq alpha l q : (0 <= freq)%Z -> Forall (@well_formed R) l ->
  never_ub (history (comp_run bc freq alpha) l q).
Proof. intros Hf Hl. eapply wp_never_ub, hist_comp; auto using lawful_R, R_z. now apply R_period. Qed.

Theorem C127_saam l q :
  Forall (fun i : reading R => given_or_null (accel i) /\ given_or_null (magn i)) l ->
  (bc = false \/ Forall (fun i : reading R => accel i <> None /\ magn i <> None) l) ->
  never_ub (history (saam_run bc) l q).
Proof. intros Hl Hn. eapply wp_never_ub, hist_saam; auto using lawful_R. Qed.

Theorem C127_aqua freq ini c l q : Forall (@well_formed R) l ->
  (ini <> 0%Z \/ bc = false \/ Forall (fun i : reading R => accel i <> None) l) ->
  never_ub (history (aqua_run bc freq) l (ini, c, q)).
Proof.
  intros Hl Hn. eapply wp_never_ub, hist_aqua; auto using lawful_R, R_acos, R_z, R_01.
  - exact R_k.
  - exact R_slerp.
Qed.

Theorem C127_kalman freq incl ini c l q : Forall (@all_optional R) l ->
  (bc = true \/ Forall (@all_given R) l) ->
  room 4 4 (kP c) -> (ini <> 0%Z -> mtx_filled 4 4 (kP c)) ->
  never_ub (history (kalm_run bc freq incl) l (ini, c, q)).
Proof. intros Hl Hn HR HP. eapply wp_never_ub, hist_kalm; auto using lawful_R, R_z. exact R_zd. Qed.

Theorem C127_cal_madgwick old r (g a m : mtx R) f incl :
  mtx_filled r 3 g -> mtx_filled r 3 a -> mtx_filled r 3 m -> never_ub (cal_madg bc old g a m f incl).
Proof.
  intros Hg Ha Hm. eapply wp_never_ub, wp_cal_madg; auto using lawful_R, R_asin, R_z;
    [exact (filled_ism NumR Hg)|exact (filled_ism NumR Ha)|exact (filled_ism NumR Hm)].
Qed.
Theorem C127_cal_mahony old r (g a m : mtx R) f incl :
  mtx_filled r 3 g -> mtx_filled r 3 a -> mtx_filled r 3 m -> never_ub (cal_mahn bc old g a m f incl).
Proof.
  intros Hg Ha Hm. eapply wp_never_ub, wp_cal_mahn; auto using lawful_R, R_asin, R_z;
    [exact (filled_ism NumR Hg)|exact (filled_ism NumR Ha)|exact (filled_ism NumR Hm)].
Qed.
End Exact.

(** The "initialised" flag of the Kalman filter is one for the whole program: a
    second instance, with a covariance matrix of its own, uses that matrix
    before anything was stored in it. *)
Theorem C127_kalman_second_instance_refuted (M : NumM double) bc :
  exists (i : reading double) c q, all_given i /\ room 4 4 (kP c) /\
  (exists q' c', history (kalm_run bc 100 None) [i] (0%Z, c, q) = Ok (1%Z, c', q')) /\
  history (kalm_run bc 100 None) [i] (1%Z, c, q) = UB Uninit.
Proof.
  exists (Some (vec_of [0; 0; 1]%float []), Some (vec_of [1; 0; 0]%float []), Some (vec_of [0; 0; 0]%float [])).
  exists (Kalm 1 1 1 (mtx_def 4 4))%float, quat_identity.
  assert (G : forall x y z : double, given (Some (vec_of [x; y; z] []))).
  { intros x y z. eexists. split; [reflexivity|]. split; [reflexivity|].
    intros i Hi. destruct i as [|[|[|]]]; [eexists; reflexivity..|lia]. }
  split; [split; [apply G|split; apply G]|]. split; [apply room_def|].
  split; [|destruct bc; vm_compute; reflexivity].
  do 2 eexists. destruct bc; vm_compute; reflexivity.
Qed.

(** *** Non-vacuity: a history with infinities, NaNs, absent and huge readings *)
Definition libm0 : NumM double := {|
  fexp := fun x => x; flog := @Ok _; flog10 := @Ok _; fpow := fun x _ => Ok x; fsin := fun x => x; fcos := fun x => x;
  ftan := @Ok _; fasin := @Ok _; facos := @Ok _; fatan := fun x => x; fatan2 := fun x _ => x;
  fsinh := fun x => x; fcosh := fun x => x; ftanh := fun x => x; ffloor := fun x => x; fceil := fun x => x;
  fround := fun x => x; ftrunc := fun _ => 0%Z |}.
Definition vec3 (x y z : double) : option (vec double) := Some (vec_of [x; y; z] []).
Definition odd_readings : list (reading double) :=
  [ (vec3 0 0 1, vec3 1 0 0, vec3 0 0 0);
    (vec3 PrimFloat.infinity 0 PrimFloat.nan, vec3 1e308 1e308 1e308, vec3 PrimFloat.nan 1 (-1));
    (vec3 0 0 0, None, vec3 PrimFloat.infinity 0 0);
    (vec3 1 2 3, vec3 PrimFloat.neg_infinity 0 5e-324, vec3 1 1 1)]%float.
Lemma given3 (x y z : double) : given (vec3 x y z).
Proof.
  eexists. split; [reflexivity|]. split; [reflexivity|].
  intros i Hi. destruct i as [|[|[|]]]; [eexists; reflexivity..|lia].
Qed.
Lemma odd_wf : Forall (@well_formed double) odd_readings.
Proof.
  repeat apply Forall_cons; try apply Forall_nil; (split; [|split]);
    first [apply given3|right; apply given3|left; reflexivity].
Qed.
Lemma libm0_total : total_libm libm0.
Proof. split; intros x; eexists; reflexivity. Qed.

Example C127_madgwick_ex : exists q', history (madg_run (M := libm0) true 100 0.1%float None) odd_readings quat_identity = Ok q'.
Proof. apply C127_doubles_madgwick. apply odd_wf. Qed.
Example C127_aqua_ex : exists st, history (aqua_run (M := libm0) true 100) odd_readings
  (0%Z, Aqua 0.5 0.5 0.9 0.9, quat_identity)%float = Ok st.
Proof.
  apply C127_doubles_aqua; [apply libm0_total|apply odd_wf|]. right; right. repeat constructor; discriminate.
Qed.
Example C127_kalman_ex : exists st, history (kalm_run (M := libm0) true 100 None) odd_readings
  (0%Z, Kalm 0.1 0.1 0.1 (mtx_def 4 4), quat_identity)%float = Ok st.
Proof.
  apply C127_doubles_kalman; [|now left|apply room_def|now intros H].
  generalize odd_wf. apply Forall_impl. intros i (H1 & H2 & H3). repeat split; auto. now right.
Qed.

Print Assumptions C127_doubles_madgwick.
Print Assumptions C127_doubles_mahony.
Print Assumptions C127_doubles_complementary.
Print Assumptions C127_doubles_saam.
Print Assumptions C127_doubles_aqua.
Print Assumptions C127_doubles_kalman.
Print Assumptions C127_doubles_cal_madgwick.
Print Assumptions C127_doubles_cal_mahony.
Print Assumptions C127_madgwick.
Print Assumptions C127_aqua.
Print Assumptions C127_kalman.
Print Assumptions C127_kalman_second_instance_refuted.
