(** Safety of the quaternion, attitude, probability, circuit and colour
    functions in any arithmetic: weakest preconditions. *)
From Coq Require Import List Arith ZArith Bool Lia.
From Verif Require Import Base BaseFacts Libm Out SpecVec SpecMtx SpecSafe SpecSafeVec MVec MMtx MQuat MAhrs MProb MPhysVec MColorTab MColor
  PVec PMtx PMtxOps PSafe PSafeMx PSafeQr PSafeFus PSafeStat PropSafe PSafeVec.
Import ListNotations.
Set Implicit Arguments.
Local Open Scope num_scope.

Section V.
Context {T : Type} {N : Num T} {M : NumM T}.
Variable bc : bool.
Hypothesis L : lawful N.
Hypothesis LM : lawful_libm N M.
Notation NR := (~ total N).
Notation OF := False.
Notation "'WP' P m" := (wp NR OF P m) (at level 10, P at level 9, m at level 9).
Notation any := (fun _ => True).
Implicit Types u v w : vec T.

Lemma wm_acos x : WP any (facos x). Proof. apply wp_none, LM. Qed.
Lemma wm_asin x : WP any (fasin x). Proof. apply wp_none, LM. Qed.
Lemma wm_log x : WP any (flog x). Proof. apply wp_none, LM. Qed.
Lemma wm_log10 x : WP any (flog10 x). Proof. apply wp_none, LM. Qed.
Lemma wm_pow x y : WP any (fpow x y). Proof. apply wp_none, LM. Qed.

(** ** Quaternions in memory *)
Section Mem.
Variable n : nat.
Notation mem := (fun st : list (quat T) => length st = n).

Lemma wp_qget st p : mem st -> (p < n)%nat -> WP any (qget st p).
Proof. intros H Hp. unfold qget. destruct (nth_error st p) eqn:E; [exact I|apply nth_error_None in E; cbn in *; lia]. Qed.
Lemma wp_setr st p x : mem st -> (p < n)%nat -> WP mem (set_r st p x).
Proof. intros H Hp. unfold set_r. eapply wp_bind; [now apply wp_qget|]. intros q _. cbn. now rewrite upd_length. Qed.
Lemma wp_seti st p x : mem st -> (p < n)%nat -> WP mem (set_i st p x).
Proof. intros H Hp. unfold set_i. eapply wp_bind; [now apply wp_qget|]. intros q _. cbn. now rewrite upd_length. Qed.
Lemma wp_setj st p x : mem st -> (p < n)%nat -> WP mem (set_j st p x).
Proof. intros H Hp. unfold set_j. eapply wp_bind; [now apply wp_qget|]. intros q _. cbn. now rewrite upd_length. Qed.
Lemma wp_setk st p x : mem st -> (p < n)%nat -> WP mem (set_k st p x).
Proof. intros H Hp. unfold set_k. eapply wp_bind; [now apply wp_qget|]. intros q _. cbn. now rewrite upd_length. Qed.

Ltac memgo := repeat (cbv beta iota; match goal with
  | |- wp _ _ _ (bind (qget _ _) _) => eapply wp_bind; [apply wp_qget; assumption|intros ? _]
  | |- wp _ _ _ (bind (quat_magn _) _) => eapply wp_bind; [apply wq_magn; exact L|intros ? _]
  | |- wp _ _ _ (bind (fdiv _ _) _) => eapply wp_bind; [apply wp_div; exact L|intros ? _]
  | |- wp _ _ _ (bind (set_r _ _ _) _) => eapply wp_bind; [apply wp_setr; assumption|intros ? ?]
  | |- wp _ _ _ (bind (set_i _ _ _) _) => eapply wp_bind; [apply wp_seti; assumption|intros ? ?]
  | |- wp _ _ _ (bind (set_j _ _ _) _) => eapply wp_bind; [apply wp_setj; assumption|intros ? ?]
  | |- wp _ _ _ (bind (set_k _ _ _) _) => eapply wp_bind; [apply wp_setk; assumption|intros ? ?]
  | |- wp _ _ _ (if ?b then _ else _) => destruct b
  | |- wp _ _ _ (Ok _) => split; [reflexivity|assumption]
  end).

Notation ends := (fun r => fst r = 0%Z /\ mem (snd r)).

Lemma wp_unit_st st p q : mem st -> (p < n)%nat -> (q < n)%nat -> WP ends (quat_to_unit_st st p q).
Proof. intros. unfold quat_to_unit_st. memgo. Qed.
Lemma wp_scale_st st p s q : mem st -> (p < n)%nat -> (q < n)%nat -> WP ends (quat_scale_st st p s q).
Proof. intros. unfold quat_scale_st. memgo. Qed.
Lemma wp_mult_st st p q r : mem st -> (p < n)%nat -> (q < n)%nat -> (r < n)%nat -> WP ends (quat_mult_st st p q r).
Proof. intros. unfold quat_mult_st. memgo. Qed.
Lemma wp_conj_st st p q : mem st -> (p < n)%nat -> (q < n)%nat -> WP ends (quat_conj_st st p q).
Proof. intros. unfold quat_conj_st. memgo. Qed.
Lemma wp_inv_st st p q : mem st -> (p < n)%nat -> (q < n)%nat -> WP ends (quat_inv_st st p q).
Proof. intros. unfold quat_inv_st. cbv zeta. memgo. Qed.
End Mem.

(** ** Functions of values *)
Ltac go := repeat (cbv beta iota zeta; match goal with
  | |- wp _ _ _ (Ok _) => exact I
  | |- wp _ _ _ (bind (Ok _) _) => cbn [bind]
  | |- wp _ _ _ (bind (bind _ _) _) => eapply wp_bind with (P := any); [|intros ? _]
  | |- wp _ _ _ (bind (fdiv _ _) _) => eapply wp_bind; [apply wp_div; exact L|intros ? _]
  | |- wp _ _ _ (fdiv _ _) => apply wp_div; exact L
  | |- wp _ _ _ (bind (fsqrt _) _) => eapply wp_bind; [apply wp_sqrt; exact L|intros ? _]
  | |- wp _ _ _ (bind (facos _) _) => eapply wp_bind; [apply wm_acos|intros ? _]
  | |- wp _ _ _ (bind (fasin _) _) => eapply wp_bind; [apply wm_asin|intros ? _]
  | |- wp _ _ _ (bind (flog _) _) => eapply wp_bind; [apply wm_log|intros ? _]
  | |- wp _ _ _ (bind (flog10 _) _) => eapply wp_bind; [apply wm_log10|intros ? _]
  | |- wp _ _ _ (bind (fpow _ _) _) => eapply wp_bind; [apply wm_pow|intros ? _]
  | |- wp _ _ _ (bind (quat_magn _) _) => eapply wp_bind; [apply wq_magn; exact L|intros ? _]
  | |- wp _ _ _ (bind (quat_to_unit _) _) => eapply wp_bind; [apply wq_unit; exact L|intros ? _]
  | |- wp _ _ _ (bind (quat_inv _) _) => eapply wp_bind; [apply wq_inv; exact L|intros ? _]
  | |- wp _ _ _ (bind (quat_scale _ _) _) => eapply wp_bind; [apply wq_scale|intros ? _]
  | |- wp _ _ _ (bind (quat_mult _ _) _) => eapply wp_bind; [apply wq_mult|intros ? _]
  | H : isv ?n ?v |- wp _ _ _ (bind (rd (vbuf ?v) _) _) => eapply wp_bind; [apply (@rd_isv _ _ _ n); [exact H|lia]|intros ? _]
  | H : isb ?n ?b |- wp _ _ _ (bind (rd ?b _) _) => eapply wp_bind; [apply (@wp_rd' _ _ _ n); [exact H|lia]|intros ? _]
  | |- wp _ _ _ (if ?b then _ else _) => destruct b
  | |- wp _ _ _ (let (_, _) := ?x in _) => destruct x
  end).

Lemma isv_vec3 x y z : isv 3 (@vec3 T x y z).
Proof. split; [reflexivity|]. exists [x; y; z], []. split; [reflexivity|]. unfold vec3, vbuf. now rewrite app_nil_r. Qed.

Ltac unit3 u Hu := eapply wp_bind; [apply (@wp_to_unit T N bc OF L 3); [lia|]|
  let rc := fresh "rc" in let E := fresh "E" in intros (rc & u) (E & Hu); cbn [fst snd] in Hu].

Lemma wp_exp q : WP any (quat_exp bc q).
Proof.
  unfold quat_exp. cbv zeta. eapply wp_bind; [eapply wp_norm; [exact L|apply isv_vec3]|intros m _].
  unit3 u Hu; [apply isv_vec3|]. go.
Qed.
Lemma wp_log q : WP any (quat_log bc q).
Proof. unfold quat_log. cbv zeta. unit3 u Hu; [apply isv_vec3|]. go. Qed.
Lemma wp_pow q e : WP any (quat_pow bc q e).
Proof.
  unfold quat_pow. eapply wp_bind; [apply wp_log|]. intros (rc & l) _. go. apply wp_exp.
Qed.
Lemma wp_diff a b : WP any (quat_diff a b).
Proof. unfold quat_diff. go. apply wq_mult. Qed.
Lemma wp_rotq a b : WP any (quat_rot bc a b).
Proof. unfold quat_rot. go. Qed.
Lemma wp_lerp a b t : WP any (quat_lerp bc a b t).
Proof. now apply wq_lerp'. Qed.
Lemma wp_slerp a b t : WP any (quat_slerp bc a b t).
Proof. unfold quat_slerp. go. Qed.
Lemma wp_is_unit q : WP any (quat_is_unit q).
Proof. unfold quat_is_unit. go. Qed.
Lemma wp_euler q : WP any (quat_to_euler q).
Proof. unfold quat_to_euler. go. Qed.

(** a vector of three, or refused *)
Lemma three v : wf v -> unless_checked bc (vsz v = 3%nat) -> isv 3 v \/ bc = true /\ (vsz v =? 3)%nat = false.
Proof.
  intros H Hs. apply wf_isv in H. destruct (Nat.eqb_spec (vsz v) 3) as [E|E]; [left; now rewrite E in H|].
  right. destruct Hs as [->|Hs]; [auto|contradiction].
Qed.

Lemma wp_av v q t : wf v -> unless_checked bc (vsz v = 3%nat) -> WP any (quat_from_ang_vel bc v q t).
Proof.
  intros H Hs. destruct (three H Hs) as [Hv|(-> & E)].
  - eapply wp_imp; [now apply wq_ang_vel|auto].
  - unfold quat_from_ang_vel. rewrite E. exact I.
Qed.
Lemma wp_am v q i t : wf v -> unless_checked bc (vsz v = 3%nat) -> WP any (quat_from_ang_mom bc v q i t).
Proof.
  intros H Hs. destruct (three H Hs) as [Hv|(-> & E)].
  - unfold quat_from_ang_mom. destruct (bc && _); [exact I|].
    eapply wp_bind; [apply wp_vcopy3; exact Hv|]. intros (rc & w) (_ & Hw). cbn [snd] in Hw.
    eapply wp_bind; [apply (@wp_vdiv T N OF L 3); exact Hw|]. intros (rc' & w') Hw'. unfold snd_is in Hw'. cbn [snd] in Hw'.
    eapply wp_bind; [apply wq_ang_vel; [exact L|exact Hw']|]. intros (rc'' & o) _. exact I.
  - unfold quat_from_ang_mom. rewrite E. exact I.
Qed.
Lemma wp_from_aa v b : wf v -> unless_checked bc (vsz v = 3%nat) -> WP any (quat_from_axis_angle bc v b).
Proof.
  intros H Hs. unfold quat_from_axis_angle. destruct (three H Hs) as [Hv|(-> & ->)]; [|exact I].
  destruct (bc && _); [exact I|]. go.
  eapply wp_bind; [apply wp_vcopy3; exact Hv|]. intros (rc & w) (_ & Hw). cbn [snd] in Hw.
  eapply wp_bind; [apply (@wp_vdiv T N OF L 3); exact Hw|]. intros (rc' & w') Hw'. unfold snd_is in Hw'. cbn [snd] in Hw'. go.
Qed.
Lemma wp_to_aa q v : fits v -> unless_checked bc (vsz v = 3%nat) -> WP any (quat_to_axis_angle bc q v).
Proof.
  intros H Hs. unfold quat_to_axis_angle, fits in *.
  destruct (Nat.eqb_spec (vsz v) 3) as [E|E].
  2: { destruct Hs as [->|Hs]; [exact I|contradiction]. }
  rewrite E in H. cbn [negb]. rewrite andb_false_r. go;
  repeat first [eapply wp_bind; [apply wp_wr_any; cbn in *; lia|intros ? ?] | progress go].
Qed.
Lemma wp_to_rot q m : room (mrows m) (mcols m) m -> unless_checked bc (mcols m = 3 /\ mrows m = 3)%nat -> WP any (quat_to_rot_mtx bc q m).
Proof.
  intros (_ & _ & H) Hs. unfold quat_to_rot_mtx.
  destruct (Nat.eqb_spec (mcols m) 3) as [E1|E1], (Nat.eqb_spec (mrows m) 3) as [E2|E2]; cbn [negb orb];
    try (destruct Hs as [->|(? & ?)]; [exact I|contradiction]).
  rewrite andb_false_r. destruct m as [r c b]. cbn in *. subst. cbn in H.
  do 9 (destruct b as [|? b]; [cbn in H; lia|]). unfold mtx_set. cbn. destruct bc; exact I.
Qed.
Lemma wp_of_rot m : mtx_filled (mrows m) (mcols m) m -> unless_checked bc (mcols m = 3 /\ mrows m = 3)%nat -> WP any (quat_from_rot_mtx bc m).
Proof.
  intros H Hs. destruct (Nat.eqb_spec (mcols m) 3) as [E1|E1], (Nat.eqb_spec (mrows m) 3) as [E2|E2].
  - rewrite E1, E2 in H. eapply wp_from_rot; [exact L|]. eapply filled_ism; eauto.
  - destruct Hs as [->|(? & ?)]; [|contradiction]. unfold quat_from_rot_mtx. rewrite E1, (proj2 (Nat.eqb_neq _ _) E2). exact I.
  - destruct Hs as [->|(? & ?)]; [|contradiction]. unfold quat_from_rot_mtx. rewrite (proj2 (Nat.eqb_neq _ _) E1). exact I.
  - destruct Hs as [->|(? & ?)]; [|contradiction]. unfold quat_from_rot_mtx. rewrite (proj2 (Nat.eqb_neq _ _) E1). exact I.
Qed.

Lemma loops X n lo body (s : X) : (forall i s, lo <= i < lo + n -> True -> WP any (body i s))%nat -> WP any (for_ n lo body s).
Proof. intros Hb. now apply (@wp_for0 NR OF _ any). Qed.
Lemma exits X Y n lo body (s : Y) : (forall i s, lo <= i < lo + n -> True -> WP any (body i s))%nat -> WP any (@for_exit Y X n lo body s).
Proof.
  intros Hb. eapply wp_imp; [apply (@wp_for_exit NR OF _ _ any any); [exact I|]|auto].
  intros i s' Hi _. eapply wp_imp; [apply Hb; auto|]. intros [?|?] _; exact I.
Qed.

(** ** Attitudes *)
Lemma wp_acc v a : wf v -> unless_checked bc (vsz v = 3%nat) -> WP any (att_from_accel bc v a).
Proof.
  intros H Hs. destruct (three H Hs) as [Hv|(-> & E)]; [eapply wp_from_accel; eauto|].
  unfold att_from_accel. rewrite E. exact I.
Qed.
Lemma wp_accmag v w a : wf v -> wf w -> unless_checked bc (vsz v = 3%nat /\ vsz w = 3%nat) -> WP any (att_from_accelmag bc v w a).
Proof.
  intros H H' Hs.
  assert (S1 : unless_checked bc (vsz v = 3%nat)) by (destruct Hs as [?|(? & _)]; [left|right]; auto).
  assert (S2 : unless_checked bc (vsz w = 3%nat)) by (destruct Hs as [?|(_ & ?)]; [left|right]; auto).
  destruct (three H S1) as [Hv|(-> & E)]; [destruct (three H' S2) as [Hw|(-> & E)]|].
  - eapply wp_from_accelmag; eauto.
  - unfold att_from_accelmag. rewrite E. cbn [negb]. rewrite orb_true_r. exact I.
  - unfold att_from_accelmag. rewrite E. exact I.
Qed.
Lemma wp_angle v w : wf v -> wf w -> unless_checked bc (vsz v = 3%nat /\ vsz w = 3%nat) -> WP any (att_accel_angle bc v w).
Proof.
  intros H H' Hs.
  assert (S1 : unless_checked bc (vsz v = 3%nat)) by (destruct Hs as [?|(? & _)]; [left|right]; auto).
  assert (S2 : unless_checked bc (vsz w = 3%nat)) by (destruct Hs as [?|(_ & ?)]; [left|right]; auto).
  unfold att_accel_angle.
  destruct (three H S1) as [Hv|(-> & ->)]; [destruct (three H' S2) as [Hw|(-> & ->)]|].
  - destruct (bc && _); [exact I|].
    eapply wp_bind; [eapply wp_norm; [exact L|exact Hv]|intros n1 _].
    eapply wp_bind; [eapply wp_norm; [exact L|exact Hw]|intros n2 _].
    eapply wp_bind; [eapply (@wp_dot T N bc OF 3); [exact Hv|exact Hw]|].
    intros (rc & d) (d' & Hd). cbn [snd] in Hd. subst d. go.
  - cbn [negb]. rewrite orb_true_r. exact I.
  - exact I.
Qed.
Lemma wp_dd d m s : WP any (comp_dms_to_dd bc d m s).
Proof. unfold comp_dms_to_dd. go. Qed.
Lemma wp_north v : wf v -> unless_checked bc (vsz v = 3%nat) -> WP any (comp_magn_north bc v).
Proof.
  intros H Hs. unfold comp_magn_north. destruct (three H Hs) as [Hv|(-> & ->)]; [|exact I]. go.
Qed.
Lemma wp_geo v dec d0 : wf v -> unless_checked bc (vsz v = 3%nat) -> WP any (comp_geo_north bc v dec (Some d0)).
Proof.
  intros H Hs. unfold comp_geo_north. destruct (_ && _); [exact I|].
  eapply wp_bind; [now apply wp_north|]. intros (rc & [| |d]) _; exact I.
Qed.
Lemma wp_grav lat alt : WP any (grav_lat_alt lat alt).
Proof. unfold grav_lat_alt. go. Qed.

(** ** Probabilities *)
Lemma wp_uni_pdf a b x : WP any (prob_uni_pdf bc a b x).
Proof. unfold prob_uni_pdf. go. Qed.
Lemma wp_uni_mean a b : WP any (prob_uni_mean bc a b).
Proof. unfold prob_uni_mean. go. Qed.
Lemma wp_uni_var a b : WP any (prob_uni_var bc a b).
Proof. unfold prob_uni_var. go. Qed.
Lemma wp_uni_cdf a b x : WP any (prob_uni_cdf bc a b x).
Proof. unfold prob_uni_cdf. go. Qed.
Lemma wp_normal_pdf m s x : WP any (prob_normal_pdf m s x).
Proof. unfold prob_normal_pdf. go. Qed.
Lemma wp_normal_cdf {E : NumErf T} m s x : WP any (prob_normal_cdf m s x).
Proof. unfold prob_normal_cdf. go. Qed.
Lemma wp_erf_inv x : WP any (prob_erf_inv bc x).
Proof. unfold prob_erf_inv. go. Qed.
Lemma wp_cdf_inv m s p : WP any (prob_normal_cdf_inv bc m s p).
Proof. unfold prob_normal_cdf_inv. go. eapply wp_bind; [apply wp_erf_inv|intros; exact I]. Qed.
Lemma wp_bayes a b c : WP any (prob_bayes bc a b c).
Proof. unfold prob_bayes. go. Qed.
Lemma wp_entropy v : wf v -> WP any (prob_entropy bc v).
Proof.
  intros H%wf_isv. unfold prob_entropy. eapply wp_bind with (P := any).
  { destruct bc; [|exact I].
    eapply wp_bind with (P := any); [apply exits|].
    - intros i s Hi _. eapply wp_bind; [eapply rd_isv; [exact H|lia]|]. intros a _. destruct (a <? f0); exact I.
    - intros [s|s] _; exact I. }
  intros [|] _; [exact I|].
  eapply wp_bind with (P := any); [apply loops|].
  { intros i s Hi _. eapply wp_bind; [eapply rd_isv; [exact H|lia]|]. intros a _. go. }
  intros h _. go.
Qed.

(** ** Circuits and the centre of mass *)
Lemma wp_bad (bad : T -> bool) v : isv (vsz v) v -> WP any (any_bad bad v).
Proof.
  intros H. unfold any_bad. eapply wp_bind with (P := any); [apply exits|intros; exact I].
  intros i s Hi _. eapply wp_bind; [eapply rd_isv; [exact H|lia]|]. intros a _. destruct (bad a); exact I.
Qed.
Ltac circ := intros H%wf_isv; eapply wp_bind; [now apply wp_bad|]; intros [|] _; [exact I|];
  eapply wp_bind with (P := any); [apply loops;
    intros i s Hi _; eapply wp_bind; [eapply rd_isv; [exact H|lia]|]; intros a _; go|intros; go].
Lemma wp_rs v : wf v -> WP any (elcty_res_series v).
Proof. unfold elcty_res_series. circ. Qed.
Lemma wp_rp v : wf v -> WP any (elcty_res_parallel v).
Proof. unfold elcty_res_parallel. circ. Qed.
Lemma wp_cs v : wf v -> WP any (elcty_cap_series v).
Proof. unfold elcty_cap_series. circ. Qed.
Lemma wp_cp v : wf v -> WP any (elcty_cap_parallel v).
Proof. unfold elcty_cap_parallel. circ. Qed.
Lemma wp_center m x y z : wf m -> wf x -> wf y -> wf z ->
  unless_checked bc (vsz m = vsz x /\ vsz m = vsz y /\ vsz m = vsz z) -> WP any (mass_center bc m x y z).
Proof.
  intros Hm Hx Hy Hz Hs.
  assert (S : forall w, vsz w = vsz x \/ vsz w = vsz y \/ vsz w = vsz z -> unless_checked bc (vsz m = vsz w)).
  { intros w Hw. destruct Hs as [?|(? & ? & ?)]; [now left|right]. intuition congruence. }
  unfold mass_center. cbv zeta. destruct (bc && _); [exact I|].
  eapply wp_bind; [apply wp_dot2; [exact Hm|exact Hx|auto]|]. intros (rc & d1) _. destruct (negb _); [exact I|].
  eapply wp_bind; [apply wp_dot2; [exact Hm|exact Hy|auto]|]. intros (rc2 & d2) _. destruct (negb _); [exact I|].
  eapply wp_bind; [apply wp_dot2; [exact Hm|exact Hz|auto]|]. intros (rc3 & d3) _. destruct (negb _); [exact I|].
  eapply wp_bind; [eapply wp_average; eauto|]. intros (rc4 & d4) _. destruct (negb _); [exact I|].
  eapply wp_bind; [eapply wp_nonneg; eauto|]. intros nn _. go.
Qed.
End V.
