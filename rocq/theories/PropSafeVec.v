(** C148: vectors, quaternions, attitudes, probabilities and circuits: no
    function touches memory outside its operands or uses an indeterminate
    value, in any arithmetic, whatever the numbers are. *)
From Coq Require Import Floats.PrimFloat.
From Coq Require Import List Arith ZArith Bool Lia Reals.

From Verif Require Import Base BaseFacts NumR NumF Libm LibmR Out SpecVec SpecMtx SpecQuat SpecSafe SpecSafeFus SpecSafeVec
  MVec MMtx MQuat MAhrs MProb MPhysVec PSafe PSafeMx PSafeStat PropSafe PropSafeFus PSafeVec PSafeSmall.
Import ListNotations.
Set Implicit Arguments.

Section Any.
Context {T : Type} {N : Num T} {M : NumM T}.
Variable bc : bool.
Hypothesis L : lawful N.
Hypothesis LM : lawful_libm N M.
Implicit Types (v w x : vec T) (q : quat T) (m : mtx T) (a : att T).

Local Lemma ok A (P : A -> Prop) (m : outcome A) : wp (~ total N) False P m -> safe N P m.
Proof. apply wp_safe. Qed.

(** ** Vectors *)
Theorem C148_combine v w x : wf v -> wf w -> fits x ->
  unless_checked bc (vsz v = vsz w /\ vsz v = vsz x) ->
  safe N (done_or_refused x (vsz v)) (vec_add bc v w x) /\
  safe N (done_or_refused x (vsz v)) (vec_sub bc v w x).
Proof. intros. split; apply ok; now apply wp_zip. Qed.

Theorem C148_measure v w : wf v -> wf w -> unless_checked bc (vsz v = vsz w) ->
  safe N (@anything _) (vec_dot bc v w) /\ safe N (@anything _) (vec_norm bc v) /\
  safe N (@anything _) (vec_dist bc v w).
Proof.
  intros. split; [|split]; apply ok.
  - eapply wp_imp; [now apply wp_dot2|]. now intros.
  - now apply wp_norm1.
  - now apply wp_dist.
Qed.

Theorem C148_project u v w : wf u -> wf v -> fits w -> unless_checked bc (vsz v = vsz w /\ vsz v = vsz u) ->
  safe N (done_or_refused w (vsz u)) (vec_project bc u v w).
Proof. intros. apply ok. now apply wp_project. Qed.

Theorem C148_cross v w x : wf v -> wf w -> fits x -> unless_checked bc (vsz v = 3 /\ vsz w = 3 /\ vsz x = 3) ->
  safe N (done_or_refused x 3) (vec_cross bc v w x).
Proof. intros. apply ok. now apply wp_cross3. Qed.

Theorem C148_in_place v (s : T) : wf v ->
  safe N (code_0 (vec_filled (vsz v))) (vec_scalar_add v s) /\
  safe N (code_0 (vec_filled (vsz v))) (vec_scalar_mult v s) /\
  safe N (any_code (vec_filled (vsz v))) (vec_scalar_div v s) /\
  safe N (code_0 (vec_filled (vsz v))) (vec_neg v) /\
  safe N (code_0 (vec_filled (vsz v))) (vec_zte v) /\
  (1 <= vsz v -> safe N (code_0 (vec_filled (vsz v))) (vec_rev v) /\
                 safe N (code_0 (vec_filled (vsz v))) (vec_to_unit bc v)).
Proof.
  intros H. refine (conj (ok _ _ _) (conj (ok _ _ _) (conj (ok _ _ _) (conj (ok _ _ _) (conj (ok _ _ _) (fun H1 => conj (ok _ _ _) (ok _ _ _))))))).
  - now apply wp_scalar_add. - now apply wp_scalar_mult. - now apply wp_scalar_div.
  - now apply wp_neg. - now apply wp_zte1. - now apply wp_rev. - now apply wp_unit1.
Qed.

Theorem C148_ask v w (y eps : T) : wf v -> wf w ->
  safe N (@anything _) (vec_is_equal v w eps) /\ safe N (@anything _) (vec_is_nonneg v) /\
  safe N (@anything _) (vec_contains v y eps) /\ safe N (@anything _) (vec_ar_mean v).
Proof.
  intros. split; [|split; [|split]]; apply ok.
  - now apply wp_equal. - now apply wp_nonneg. - now apply wp_count.
  - eapply wp_imp; [now apply wp_average|]. now intros.
Qed.

(** zsl_vec_init, zsl_vec_from_arr and zsl_vec_copy do not compare sizes: the
    room must be there *)
Theorem C148_fill v w (b : buf T) : fits w ->
  safe N (code_0 (vec_filled (vsz w))) (vec_init w) /\
  (filled (vsz w) b -> safe N (code_0 (vec_filled (vsz w))) (vec_from_arr w b)) /\
  (wf v -> vsz v <= length (vbuf w) -> safe N (code_0 (vec_filled (vsz v))) (vec_copy w v)).
Proof.
  intros. split; [|split; intros]; apply ok.
  - now apply wp_init_v. - now apply wp_arr_v. - now apply wp_copy_v.
Qed.

(** W is the number of values of size_t; offset and length are below it *)
Theorem C148_subset W v off len x : wf v -> fits x -> (0 <= off < W)%Z -> (0 <= len < W)%Z ->
  (Z.of_nat (vsz v) + Z.of_nat (vsz x) <= W)%Z ->
  safe N (done_or_refused x (Nat.min (Z.to_nat len) (vsz v - Z.to_nat off))) (vec_get_subset true W v off len x).
Proof. intros. apply ok. now apply wp_subset. Qed.

(** zsl_vec_sum reads and writes as many elements of its output as the first
    vector has, and does not look at the output's size *)
Theorem C148_sum (vs : list (vec T)) n w : Forall (@wf T) vs -> n <= length vs ->
  (forall v0, nth_error vs 0 = Some v0 -> filled (vsz v0) (vbuf w)) ->
  unless_checked bc (forall v v', In v vs -> In v' vs -> vsz v = vsz v') ->
  safe N (@anything _) (vec_sum bc vs n w) /\ (1 <= n -> safe N (@anything _) (vec_mean bc vs n w)).
Proof.
  intros. split; [|intros]; apply ok; [eapply wp_imp; [now apply wp_vsum|now intros]|now apply wp_vmean].
Qed.

(** ** Quaternions.  [st] is the memory holding the caller's quaternions and
    i, j, k say which ones are the operands: they may coincide. *)
Theorem C148_quaternions (st : list (quat T)) (s : T) (i j k : nat) :
  i < length st -> j < length st -> k < length st ->
  let whole := fun st' => length st' = length st in
  safe N (code_0 whole) (quat_to_unit_st st i j) /\ safe N (code_0 whole) (quat_scale_st st i s j) /\
  safe N (code_0 whole) (quat_mult_st st i j k) /\ safe N (code_0 whole) (quat_conj_st st i j) /\
  safe N (code_0 whole) (quat_inv_st st i j).
Proof.
  intros. split; [|split; [|split; [|split]]]; apply ok.
  - now apply wp_unit_st. - now apply wp_scale_st. - now apply wp_mult_st. - now apply wp_conj_st. - now apply wp_inv_st.
Qed.

Theorem C148_quaternion_functions q p (e t : T) :
  safe N (@anything _) (quat_exp bc q) /\ safe N (@anything _) (quat_log bc q) /\
  safe N (@anything _) (quat_pow bc q e) /\ safe N (@anything _) (quat_diff q p) /\
  safe N (@anything _) (quat_rot bc q p) /\ safe N (@anything _) (quat_lerp bc q p t) /\
  safe N (@anything _) (quat_slerp bc q p t) /\ safe N (@anything _) (quat_is_unit q) /\
  safe N (@anything _) (quat_to_euler q).
Proof.
  repeat (match goal with |- _ /\ _ => split; [apply ok|] end); [now apply wp_exp|now apply wp_log|now apply wp_pow|now apply wp_diff|
    now apply wp_rotq|now apply wp_lerp|now apply wp_slerp|now apply wp_is_unit|apply ok; now apply wp_euler].
Qed.

Theorem C148_quaternions_of_vectors v q (inertia t angle : T) : wf v -> unless_checked bc (vsz v = 3) ->
  safe N (@anything _) (quat_from_ang_vel bc v q t) /\ safe N (@anything _) (quat_from_ang_mom bc v q inertia t) /\
  safe N (@anything _) (quat_from_axis_angle bc v angle).
Proof.
  intros. repeat (match goal with |- _ /\ _ => split; [apply ok|] end); [now apply wp_av|now apply wp_am|apply ok; now apply wp_from_aa].
Qed.

Theorem C148_axis_of_quaternion q v : fits v -> unless_checked bc (vsz v = 3) ->
  safe N (@anything _) (quat_to_axis_angle bc q v).
Proof. intros. apply ok. now apply wp_to_aa. Qed.

Theorem C148_rotation_matrices q m : unless_checked bc (mcols m = 3 /\ mrows m = 3) ->
  (mrows m * mcols m <= length (mbuf m) -> safe N (@anything _) (quat_to_rot_mtx bc q m)) /\
  (mtx_filled (mrows m) (mcols m) m -> safe N (@anything _) (quat_from_rot_mtx bc m)).
Proof.
  intros H. split; intros; apply ok; [apply wp_to_rot|now apply wp_of_rot]; [|exact H].
  now split; [|split].
Qed.

(** ** Attitudes *)
Theorem C148_attitudes v w a : wf v -> wf w -> unless_checked bc (vsz v = 3 /\ vsz w = 3) ->
  safe N (@anything _) (att_from_accel bc v a) /\ safe N (@anything _) (att_from_accelmag bc v w a) /\
  safe N (@anything _) (att_accel_angle bc v w).
Proof.
  intros Hv Hw Hs. assert (unless_checked bc (vsz v = 3)) by (destruct Hs as [?|(? & _)]; [left|right]; auto).
  repeat (match goal with |- _ /\ _ => split; [apply ok|] end); [now apply wp_acc|now apply wp_accmag|apply ok; now apply wp_angle].
Qed.

(** The declination is added to the caller's variable when the heading wrote
    nothing, so the variable must hold a value *)
Theorem C148_compass v (dec d0 deg mi sec lat alt : T) : wf v -> unless_checked bc (vsz v = 3) ->
  safe N (@anything _) (comp_magn_north bc v) /\ safe N (@anything _) (comp_geo_north bc v dec (Some d0)) /\
  safe N (@anything _) (comp_dms_to_dd bc deg mi sec) /\ safe N (@anything _) (grav_lat_alt lat alt).
Proof.
  intros. repeat (match goal with |- _ /\ _ => split; [apply ok|] end); [now apply wp_north|now apply wp_geo|now apply wp_dd|apply ok; now apply wp_grav].
Qed.

(** ** Probabilities *)
Theorem C148_probability {E : NumErf T} v (a b c x y z : T) : wf v ->
  safe N (@anything _) (prob_uni_pdf bc a b x) /\ safe N (@anything _) (prob_uni_mean bc a b) /\
  safe N (@anything _) (prob_uni_var bc a b) /\ safe N (@anything _) (prob_uni_cdf bc a b x) /\
  safe N (@anything _) (prob_normal_pdf a b x) /\ safe N (@anything _) (prob_normal_cdf a b x) /\
  safe N (@anything _) (prob_erf_inv bc x) /\ safe N (@anything _) (prob_normal_cdf_inv bc a b x) /\
  safe N (@anything _) (prob_bayes bc a b c) /\ safe N (@anything _) (prob_entropy bc v).
Proof.
  intros. repeat (match goal with |- _ /\ _ => split; [apply ok|] end); [now apply wp_uni_pdf|now apply wp_uni_mean|now apply wp_uni_var|now apply wp_uni_cdf|
    now apply wp_normal_pdf|now apply wp_normal_cdf|now apply wp_erf_inv|now apply wp_cdf_inv|now apply wp_bayes|apply ok; now apply wp_entropy].
Qed.

(** ** Circuits and the centre of mass *)
Theorem C148_circuits v : wf v ->
  safe N (@anything _) (elcty_res_series v) /\ safe N (@anything _) (elcty_res_parallel v) /\
  safe N (@anything _) (elcty_cap_series v) /\ safe N (@anything _) (elcty_cap_parallel v).
Proof.
  intros. repeat (match goal with |- _ /\ _ => split; [apply ok|] end); [now apply wp_rs|now apply wp_rp|now apply wp_cs|apply ok; now apply wp_cp].
Qed.

Theorem C148_centre_of_mass (masses v w x : vec T) : wf masses -> wf v -> wf w -> wf x ->
  unless_checked bc (vsz masses = vsz v /\ vsz masses = vsz w /\ vsz masses = vsz x) ->
  safe N (@anything _) (mass_center bc masses v w x).
Proof. intros. apply ok. now apply wp_center. Qed.
End Any.

(** ** Every arithmetic of the model is one of these *)
Lemma C148_doubles (M : NumM double) :
  (forall x : double, exists y, facos x = Ok y) -> (forall x : double, exists y, fasin x = Ok y) ->
  (forall x : double, exists y, ftan x = Ok y) -> (forall x : double, exists y, flog x = Ok y) ->
  (forall x : double, exists y, flog10 x = Ok y) -> (forall x z : double, exists y, fpow x z = Ok y) ->
  lawful NumF /\ total NumF /\ lawful_libm NumF M.
Proof.
  intros. split; [exact lawful_F|]. split; [exact total_F|].
  unfold lawful_libm, answers_or_none. intuition auto.
Qed.

Lemma C148_reals : lawful NumR /\ lawful_libm NumR NumMR.
Proof.
  assert (H : ~ total NumR).
  { intros (H & _). destruct (H 1%R 0%R) as (c & E). cbn in E. unfold Rdivo in E.
    destruct (Req_EM_T 0 0) as [_|?]; [discriminate|congruence]. }
  split; [exact lawful_R|]. unfold lawful_libm, answers_or_none, NumMR, flog, flog10, fpow, ftan, fasin, facos.
  repeat split; intros; unfold Racos, Rasin, Rtan, Rlog, Rlog10, Rpow;
    repeat (destruct (Rlt_dec _ _) || destruct (Rle_dec _ _) || destruct (Req_EM_T _ _)); eauto.
Qed.

(** ** Where the hypotheses are needed *)

(** zsl_vec_copy never compares sizes, so a destination too short is
    overrun, whether or not CONFIG_ZSL_BOUNDS_CHECKS is set *)
Theorem C148_copy_refuted : exists v w : vec double,
  wf v /\ wf w /\ vec_copy w v = UB OOBWrite.
Proof.
  exists (vec_of [1; 2]%float []), (vec_of [0]%float []).
  split; [|split; [|reflexivity]]; intros; split; try reflexivity; intros i Hi; cbn in Hi;
    destruct i as [|[|i]]; cbn; eauto; lia.
Qed.

(** zsl_vec_sum compares the summands with each other but not with its output *)
Theorem C148_sum_refuted : exists (vs : list (vec double)) w,
  Forall (@wf double) vs /\ wf w /\ vec_sum true vs 2 w = UB OOBRead.
Proof.
  exists [vec_of [1; 2]%float []; vec_of [3; 4]%float []], (vec_of [0]%float []).
  split; [|split; [|reflexivity]].
  - repeat apply Forall_cons; try apply Forall_nil; split; try reflexivity; intros i Hi; cbn in Hi;
      destruct i as [|[|i]]; cbn; eauto; lia.
  - split; [reflexivity|]. intros i Hi; cbn in Hi; destruct i as [|i]; cbn; eauto; lia.
Qed.

(** In double precision a field reading whose second component is NaN makes
    zsl_comp_magn_north return 0 and write nothing, so that zsl_comp_geo_north,
    which ignores the code, adds the declination to whatever the caller's
    variable held: an indeterminate value if it was not set.  Bounds checks do
    not help. *)
Theorem C148_geo_north_nan_refuted (M : NumM double) bc (x z dec : double) :
  let m := vec_of [x; PrimFloat.nan; z] [] in
  wf m /\ comp_magn_north bc m = Ok (0%Z, Kept) /\ comp_geo_north bc m dec None = UB Uninit.
Proof.
  cbv zeta. split.
  - split; [reflexivity|]. intros i Hi; cbn in Hi; destruct i as [|[|[|i]]]; cbn; eauto; lia.
  - destruct bc; split; reflexivity.
Qed.

(** ** Examples *)
Definition C148_odd : vec double := vec_of [PrimFloat.nan; PrimFloat.infinity; (-0)%float] [].

(** lawful and total arithmetic, three odd numbers, and with bounds checks any
    size: the hypotheses hold and the calls answer *)
Example C148_example : lawful NumF /\ total NumF /\ lawful_libm NumF libm0 /\ wf C148_odd /\ fits C148_odd /\
  unless_checked true (vsz (vec_of [1; 2]%float []) = 3) /\
  (exists x y z, vec_cross false C148_odd C148_odd C148_odd = Ok (0%Z, vec_of [x; y; z] [])) /\
  vec_cross true (vec_of [1; 2]%float []) C148_odd C148_odd = Ok ((- EINVAL)%Z, C148_odd) /\
  (exists a, comp_geo_north (M := libm0) false C148_odd 1%float (Some 0%float) = Ok (0%Z, Set_ a)) /\
  (exists r, prob_entropy (M := libm0) false C148_odd = Ok r) /\
  (exists st, @quat_inv_st _ _ [Quat 0 0 0 0; Quat 1 2 3 4]%float 0 0 = Ok (0%Z, st)).
Proof.
  destruct (@C148_doubles libm0) as (A & B & C); try (intros; eexists; reflexivity).
  split; [exact A|]. split; [exact B|]. split; [exact C|]. split.
  { split; [reflexivity|]. intros i Hi; cbn in Hi; destruct i as [|[|[|i]]]; cbn; eauto; lia. }
  split; [cbn; unfold fits; cbn; lia|]. split; [now left|].
  split; [do 3 eexists; reflexivity|]. split; [reflexivity|]. split; [eexists; reflexivity|].
  split; eexists; reflexivity.
Qed.

Print Assumptions C148_combine.
Print Assumptions C148_measure.
Print Assumptions C148_project.
Print Assumptions C148_cross.
Print Assumptions C148_in_place.
Print Assumptions C148_ask.
Print Assumptions C148_fill.
Print Assumptions C148_subset.
Print Assumptions C148_sum.
Print Assumptions C148_quaternions.
Print Assumptions C148_quaternion_functions.
Print Assumptions C148_quaternions_of_vectors.
Print Assumptions C148_axis_of_quaternion.
Print Assumptions C148_rotation_matrices.
Print Assumptions C148_attitudes.
Print Assumptions C148_compass.
Print Assumptions C148_probability.
Print Assumptions C148_circuits.
Print Assumptions C148_centre_of_mass.
Print Assumptions C148_doubles.
Print Assumptions C148_reals.
Print Assumptions C148_copy_refuted.
Print Assumptions C148_sum_refuted.
Print Assumptions C148_geo_north_nan_refuted.
