(** Properties C78-C81 and C99-C105: the sensor fusion filters and their
    calibration.  The statements use the vocabulary of SpecQuat and SpecFusion;
    [hold v tl] is a vector object of size 3 holding v, with [tl] behind it. *)
From Coquelicot Require Import Coquelicot.
From Coq Require Import List Arith ZArith Bool Reals Lra Lia.
From Verif Require Import Base BaseFacts NumR Libm LibmR RTac RAtan2 Out MVec SpecVec SpecReal PVec PVecR
  MMtx SpecMtx PMtx PMtxOps PMtxR MDecomp MStat MQuat SpecQuat PQuat PQuatRot PQuatTrig PQuatEul MAhrs MFusion
  SpecFusion PFusion PFusion2 PFusion3.
Import ListNotations.
Local Open Scope R_scope.
Implicit Types (p q u d : quat R) (v w : v3).

(** one sample: accelerometer, magnetometer (NULL allowed) and gyroscope, each
    a vector of any size *)
Definition sample : Type := (option (list R) * option (list R) * list R)%type.
Definition sens_of (i : sample) (q : quat R) : @sens R :=
  let '(a, m, g) := i in
  let some x := match x with Some l => Some (vec_of l []) | None => None end in
  Sens (some a) (some m) (Some (vec_of g [])) q.

(** the three coordinates of a sample whose vectors all have size 3 *)
Definition well_sized (i : sample) (r : option v3 * option v3 * v3) : Prop :=
  let '(a, m, g) := i in let '(a', m', g') := r in
  (match a, a' with Some l, Some v => l = [coord 0 v; coord 1 v; coord 2 v] | None, None => True | _, _ => False end) /\
  (match m, m' with Some l, Some v => l = [coord 0 v; coord 1 v; coord 2 v] | None, None => True | _, _ => False end) /\
  g = [coord 0 g'; coord 1 g'; coord 2 g'].
Definition ill_sized (i : sample) : Prop :=
  let '(a, m, g) := i in
  (exists l, a = Some l /\ length l <> 3%nat) \/ (exists l, m = Some l /\ length l <> 3%nat) \/
  length g <> 3%nat.

Lemma len3 (l : list R) : length l = 3%nat -> exists v, l = [coord 0 v; coord 1 v; coord 2 v].
Proof.
  destruct l as [|x [|y [|z [|]]]]; try discriminate. intros _. now exists (x, y, z).
Qed.
Lemma sized_cases i : (exists r, well_sized i r) \/ ill_sized i.
Proof.
  destruct i as [[a m] g]. unfold ill_sized.
  destruct (Nat.eq_dec (length g) 3) as [Eg|Eg]; [|right; auto].
  destruct (len3 _ Eg) as (w & ->).
  assert (X : forall o : option (list R), (exists l, o = Some l /\ length l <> 3%nat) \/
    exists o' : option v3, match o, o' with Some l, Some v => l = [coord 0 v; coord 1 v; coord 2 v]
               | None, None => True | _, _ => False end).
  { intros [l|]; [|right; now exists None]. destruct (Nat.eq_dec (length l) 3) as [E|E].
    - right. destruct (len3 _ E) as (v & ->). now exists (Some v).
    - left; eauto. }
  destruct (X a) as [|(a' & Ha)]; [auto|]. destruct (X m) as [|(m' & Hm)]; [auto|].
  left. exists (a', m', w). cbn. auto.
Qed.
Lemma sens_of_sized i a m w q : well_sized i (a, m, w) ->
  sens_of i q = Sens (hold_opt a []) (hold_opt m []) (Some (hold w [])) q.
Proof.
  destruct i as [[a' m'] g']. intros (Ha & Hm & ->). cbn [sens_of].
  destruct a', a, m', m; cbn in Ha, Hm; try contradiction; subst; reflexivity.
Qed.
Lemma bad_sized i q : ill_sized i ->
  bad3 (sa (sens_of i q)) || bad3 (sm (sens_of i q))
  || negb (vsz (vec_of (snd i) []) =? 3)%nat = true.
Proof.
  destruct i as [[a m] g]. intros [(l & -> & H)|[(l & -> & H)|H]]; cbn [sens_of sa sm bad3 snd].
  - apply Nat.eqb_neq in H. cbn [vsz vec_of]. now rewrite H.
  - apply Nat.eqb_neq in H. cbn [vsz vec_of]. rewrite H. cbn. now rewrite orb_true_r.
  - apply Nat.eqb_neq in H. cbn [vsz vec_of]. rewrite H. cbn. now rewrite orb_true_r.
Qed.
Lemma unit_or_zero q : unit_quat (unitised q) \/ unitised q = qzero.
Proof.
  destruct (Rlt_dec (qnorm q) (/ 1000000)) as [L|L]; [right; now apply unitised_small|left].
  apply unitised_unit. lra.
Qed.
Lemma unit_norm q : unit_quat q -> / 1000000 <= qnorm q.
Proof. exact (unit_norm_big q). Qed.

(** ** C78: unit quaternions *)
(** A rejected sample changes nothing. *)
Theorem C78_ill_sized_rejected freq beta incl c al cc i q :
  ill_sized i -> 0 <= beta -> 0 <= kp c -> 0 <= ki c -> 0 <= al <= 1 ->
  0 <= alpha cc <= 1 -> 0 <= MFusion.beta cc <= 1 ->
  madg_feed true freq beta incl (sens_of i q) = Ok ((- EINVAL)%Z, sens_of i q) /\
  mahn_feed true freq incl c (sens_of i q) = Ok ((- EINVAL)%Z, sens_of i q, c) /\
  comp_feed true freq al (sens_of i q) = Ok ((- EINVAL)%Z, sens_of i q) /\
  fus_aqua true freq cc (sens_of i q) = Ok ((- EINVAL)%Z, sens_of i q).
Proof.
  intros H Hb Hp Hi Ha Hal Hbe. pose proof (bad_sized i q H) as B.
  destruct i as [[a m] g].
  unfold madg_feed, mahn_feed, comp_feed, madgwick, mahony, fus_comp, fus_aqua.
  cbn [sens_of sa sm sg sq deref bind snd] in *. rops.
  rewrite !Rltb_false by lra. cbn [orb].
  rewrite !B. cbn [orb andb]. auto.
Qed.
Print Assumptions C78_ill_sized_rejected.
Example C78_ill_sized_case : ill_sized (Some [1; 2], None, [0; 0; 0]).
Proof. left. exists [1; 2]. split; [reflexivity|discriminate]. Qed.

(** Negative gains are rejected and nothing changes, whatever the sensors. *)
Theorem C78_bad_gain_rejected bc freq beta incl kp_ ki_ lim fb al c cc ini s :
  (beta < 0 -> madg_feed bc freq beta incl s = Ok ((- EINVAL)%Z, s)) /\
  (kp_ < 0 \/ ki_ < 0 -> mahn_feed bc freq incl (Mahn kp_ ki_ lim fb) s
                         = Ok ((- EINVAL)%Z, s, Mahn kp_ ki_ lim fb)) /\
  (al < 0 \/ 1 < al -> comp_feed bc freq al s = Ok ((- EINVAL)%Z, s)) /\
  (alpha c < 0 \/ 1 < alpha c \/ MFusion.beta c < 0 \/ 1 < MFusion.beta c ->
     aqua_feed bc freq ini c s = Ok ((- EINVAL)%Z, s, c, ini)) /\
  (var_g cc < 0 \/ var_a cc < 0 \/ var_m cc < 0 ->
     kalm_feed bc freq ini incl cc s = Ok ((- EINVAL)%Z, s, cc, ini)).
Proof.
  unfold madg_feed, mahn_feed, comp_feed, aqua_feed, kalm_feed. cbn [kp ki]. rops.
  replace (10 / 10) with 1 by field.
  repeat split; intros H.
  - now rewrite Rltb_true.
  - destruct H as [H|H]; rewrite (Rltb_true _ _ H); cbn; [reflexivity|]. now rewrite orb_true_r.
  - destruct H as [H|H]; rewrite (Rltb_true _ _ H); cbn; [reflexivity|]. now rewrite orb_true_r.
  - destruct H as [H|[H|[H|H]]]; rewrite (Rltb_true _ _ H), ?orb_true_r; reflexivity.
  - destruct H as [H|[H|H]]; rewrite (Rltb_true _ _ H), ?orb_true_r; reflexivity.
Qed.
Print Assumptions C78_bad_gain_rejected.
Example C78_bad_gain_case bc s : madg_feed bc 100 (-1) None s = Ok ((- EINVAL)%Z, s).
Proof. apply (C78_bad_gain_rejected bc 100 (-1) None 0 0 0 (Vec 0 []) 0 (Aqua 0 0 0 0) (Kalm 0 0 0 (Mtx 0 0 [])) 0 s). lra. Qed.

(** One Madgwick feed gives a unit quaternion or exactly zero; a unit one
    whenever gain / frequency is below 1. *)
Lemma madg_norm t q dq :
  unit_quat q -> (unit_quat dq \/ dq = qzero) -> 0 <= t <= 1 - / 1000000 ->
  / 1000000 <= qnorm (qplus q (qscale (- t) dq)).
Proof.
  intros U D Ht.
  apply Rle_trans with (1 - t); [lra|].
  rewrite <- (sqrt_Rsqr (1 - t)) by lra. apply sqrt_le_1_alt.
  assert (E : qdot (qplus q (qscale (- t) dq)) (qplus q (qscale (- t) dq))
              = qdot q q - 2 * t * qdot q dq + t * t * qdot dq dq).
  { destruct q, dq. unfold qdot, qplus, qscale, mkq, re, im, vdot, vadd, vscale. cbn. ring. }
  rewrite E. destruct D as [D| ->].
  - pose proof (qdot_unit_bounds q dq U D) as B. unfold unit_quat in *. rewrite U, D. unfold Rsqr. nra.
  - unfold unit_quat in U. rewrite U. unfold qdot, qzero, mkq, re, im, vdot, Rsqr. cbn. nra.
Qed.
Lemma madg_dir_cases u incl a m : unit_quat (madg_dir u incl a m) \/ madg_dir u incl a m = qzero.
Proof.
  unfold madg_dir. destruct (usable a); [|now right]. left.
  destruct (present m) as [vm|]; [|apply qdir_unit].
  destruct (field _ _ _). apply qdir_unit.
Qed.

Theorem C78_madgwick_feed bc freq beta incl (a m : option v3) w q ta tm tg :
  (0 < freq)%Z -> / 1000000 <= qnorm q -> 0 <= beta ->
  exists a' m' q',
  madg_feed bc freq beta incl (Sens (hold_opt a ta) (hold_opt m tm) (Some (hold w tg)) q)
  = Ok (0%Z, Sens a' m' (Some (hold w tg)) q') /\
  (unit_quat q' \/ q' = qzero) /\
  (beta / IZR freq <= 1 - / 1000000 -> unit_quat q').
Proof.
  intros Hf Hq Hb. unfold madg_feed. rops. rewrite Rltb_false by lra.
  rewrite madgwick_ok by assumption. do 3 eexists. split; [reflexivity|].
  split; [apply unit_or_zero|]. intros Hs. apply unitised_unit.
  assert (P : 0 < IZR freq) by now apply IZR_lt.
  apply madg_norm; [apply spin_unit; lra|apply madg_dir_cases|].
  split; [|exact Hs]. apply Rmult_le_pos; [exact Hb|]. left. now apply Rinv_0_lt_compat.
Qed.
Print Assumptions C78_madgwick_feed.
Example C78_madgwick_feed_case :
  (0 < 100)%Z /\ / 1000000 <= qnorm qone /\ 1 / 10 / IZR 100 <= 1 - / 1000000.
Proof. split; [lia|]. split; [apply unit_norm, qone_unit|lra]. Qed.

Definition madg_step freq beta incl (i : sample) q : outcome (Z * quat R) :=
  let! (rc, s) := madg_feed true freq beta incl (sens_of i q) in Ok (rc, sq s).

Theorem C78_madgwick_history freq beta incl l q :
  (0 < freq)%Z -> 0 <= beta -> beta / IZR freq <= 1 - / 1000000 -> unit_quat q ->
  exists q', history (madg_step freq beta incl) l q = Ok q' /\ unit_quat q'.
Proof.
  intros Hf Hb Hs. revert q. induction l as [|i l IH]; intros q U; [now exists q|]. cbn [history].
  assert (X : exists rc q1, madg_step freq beta incl i q = Ok (rc, q1) /\ unit_quat q1).
  { unfold madg_step. destruct (sized_cases i) as [[[[a m] w] W]|B].
    - rewrite (sens_of_sized i a m w q W).
      destruct (C78_madgwick_feed true freq beta incl a m w q [] [] [] Hf (unit_norm q U) Hb)
        as (a' & m' & q' & -> & _ & H). cbn [bind]. exists 0%Z, q'. split; [reflexivity|auto].
    - destruct (C78_ill_sized_rejected freq beta incl (Mahn 0 0 0 (Vec 0 [])) 0 (Aqua 0 0 0 0) i q B)
        as (-> & _); cbn [kp ki alpha MFusion.beta]; try lra.
      cbn [bind]. do 2 eexists. split; [reflexivity|]. now destruct i as [[? ?] ?]. }
  destruct X as (rc & q1 & -> & U1). cbn [bind snd]. exact (IH q1 U1).
Qed.
Print Assumptions C78_madgwick_history.
Example C78_madgwick_history_case : exists q',
  history (madg_step 100 (1 / 10) None)
    [(Some [0; 1; 9], None, [1; 0; 0]); (Some [1; 2], Some [1; 0; 1], [1; 0; 0]);
     (Some [0; 1; 9], Some [1; 0; 1], [1; 0; 0])] qone = Ok q' /\ unit_quat q'.
Proof. apply C78_madgwick_history; [lia|lra|lra|apply qone_unit]. Qed.

(** With a gain equal to the sample frequency the orientation can collapse: a
    level, motionless sensor and the identity orientation give the zero
    quaternion with code 0, and every later feed then fails. *)
Theorem C78_madgwick_refuted bc m0 :
  madg_feed bc 1 1 None (Sens (Some (hold (0, 0, 1) [])) None (Some (hold (0, 0, 0) [])) qone)
  = Ok (0%Z, Sens (Some (hold (0, 0, 1) [])) None (Some (hold (0, 0, 0) [])) qzero) /\
  madg_feed true 1 1 None (Sens (Some (hold (0, 0, 1) [])) m0 (Some (hold (0, 0, 0) [])) qzero)
  = Ok ((- EINVAL)%Z, Sens (Some (hold (0, 0, 1) [])) m0 (Some (hold (0, 0, 0) [])) qzero).
Proof.
  assert (L : vlen (0, 0, 1) = 1).
  { unfold vlen, vdot. replace (_ + _) with 1 by ring. apply sqrt_1. }
  assert (N : vnormalise (0, 0, 1) = (0, 0, 1)).
  { unfold vnormalise. rewrite L, Rinv_1. apply vscale_1. }
  assert (Us : usable (Some (0, 0, 1)) = Some (0, 0, 1)).
  { cbn [usable]. rewrite L. destruct (Rlt_dec (/ 1000000) 1); [reflexivity|lra]. }
  unfold madg_feed. rops. rewrite !Rltb_false by lra. split.
  - change (Some (hold (0, 0, 1) [])) with (hold_opt (Some (0, 0, 1)) []).
    change (@None (vec R)) with (hold_opt None []) at 1.
    rewrite madgwick_ok; [|lia|apply unit_norm, qone_unit]. rewrite Us, N.
    cbn [hold_opt present]. do 3 f_equal.
    rewrite (qnormalise_of_unit qone qone_unit). unfold madg_dir. rewrite Us, N. cbn [present].
    assert (G : gravity_grad qone (vsub (rotate qone (0, 0, 1)) (0, 0, 1)) = qzero).
    { unfold gravity_grad, dot_rows, vsub, rotate, qone, qzero, qplus, qscale, mkq, re, im, vadd, vscale, vcross, coord.
      cbn. f_equal; ring. }
    rewrite G. unfold qdir. rewrite qnorm_zero. destruct (Req_EM_T 0 0) as [_|]; [|congruence].
    assert (S : spin (/ 1) (0, 0, 0) qone = qone).
    { unfold spin. rewrite (qnormalise_of_unit qone qone_unit).
      replace (qplus _ _) with qone.
      - apply qnormalise_of_unit, qone_unit.
      - unfold qplus, qscale, hprod, pure, qone, mkq, re, im, vdot, vadd, vscale, vcross. cbn. f_equal; field. }
    rewrite S. apply unitised_small.
    replace (qplus qone (qscale (- (1 / 1)) qone)) with qzero; [rewrite qnorm_zero; lra|].
    unfold qplus, qscale, qzero, qone, mkq, re, im, vadd, vscale. cbn. f_equal; field.
  - unfold madgwick. cbn [sg deref bind sa sm sq]. 
    destruct (true && _); [reflexivity|].
    rewrite quat_magn_ok, qnorm_zero. cbn [bind]. rops. rewrite Rabs_R0, Rltb_true by lra. reflexivity.
Qed.
Print Assumptions C78_madgwick_refuted.

(** *** Mahony: always a unit quaternion *)
Theorem C78_mahony_feed bc freq incl kp_ ki_ lim fb ti (a m : option v3) w q ta tm tg :
  (0 < freq)%Z -> / 1000000 <= qnorm q -> 0 <= kp_ -> 0 <= ki_ ->
  exists s' c', mahn_feed bc freq incl (Mahn kp_ ki_ lim (hold fb ti))
    (Sens (hold_opt a ta) (hold_opt m tm) (Some (hold w tg)) q) = Ok (0%Z, s', c') /\ unit_quat (sq s').
Proof.
  intros Hf Hq Hp Hi. unfold mahn_feed. cbn [kp ki]. rops. rewrite !Rltb_false by lra. cbn [orb].
  rewrite mahony_ok by assumption. destruct (usable a); cbv zeta; do 2 eexists; (split; [reflexivity|]);
    cbn [sq]; apply spin_unit; lra.
Qed.
Print Assumptions C78_mahony_feed.

Definition mahn_step freq incl kp_ ki_ lim (i : sample) (s : quat R * v3) : outcome (Z * (quat R * v3)) :=
  let (q, fb) := s in
  let! ((rc, s), c) := mahn_feed true freq incl (Mahn kp_ ki_ lim (hold fb [])) (sens_of i q) in
  let! fb := rd3 (intfb c) in
  Ok (rc, (sq s, fb)).

Definition within (lim : R) (v : v3) : Prop :=
  Rabs (coord 0 v) <= lim /\ Rabs (coord 1 v) <= lim /\ Rabs (coord 2 v) <= lim.

Lemma clamp_within lim x : 0 <= lim -> Rabs (clamp lim x) <= lim.
Proof.
  intros H. unfold clamp. destruct (Rlt_dec lim x); [rewrite Rabs_pos_eq; lra|].
  destruct (Rlt_dec x (- lim)); [rewrite Rabs_Ropp, Rabs_pos_eq; lra|]. apply Rabs_le. lra.
Qed.
Lemma next_fb_within lim t fb e : 0 <= lim -> within lim (next_fb lim t fb e).
Proof.
  intros H. unfold next_fb. destruct (vadd fb (vscale t e)) as [[x y] z]. cbn.
  repeat split; now apply clamp_within.
Qed.

(** one feed on well-sized or ill-sized samples, as a function of the state *)
Lemma mahn_step_ok freq incl kp_ ki_ lim i q fb :
  (0 < freq)%Z -> 0 <= kp_ -> 0 <= ki_ -> 0 <= lim -> unit_quat q ->
  exists rc q' fb', mahn_step freq incl kp_ ki_ lim i (q, fb) = Ok (rc, (q', fb')) /\
    unit_quat q' /\ (fb' = fb \/ within lim fb').
Proof.
  intros Hf Hp Hi Hl U. unfold mahn_step. pose proof (unit_norm q U) as Hq.
  destruct (sized_cases i) as [[[[a m] w] W]|B].
  - rewrite (sens_of_sized i a m w q W). unfold mahn_feed. cbn [kp ki]. rops.
    rewrite !Rltb_false by lra. cbn [orb]. rewrite mahony_ok by assumption.
    destruct (usable a) as [va|]; cbv zeta; cbn [bind intfb]; rewrite rd3_hold; cbn [bind];
      do 3 eexists; (split; [reflexivity|]); (split; [apply spin_unit; lra|]).
    + right. now apply next_fb_within.
    + now left.
  - destruct (C78_ill_sized_rejected freq 0 incl (Mahn kp_ ki_ lim (hold fb [])) 0 (Aqua 0 0 0 0) i q B)
      as (_ & -> & _); cbn [kp ki alpha MFusion.beta]; try lra.
    cbn [bind intfb]. rewrite rd3_hold. cbn [bind]. do 3 eexists. split; [reflexivity|].
    split; [now destruct i as [[? ?] ?]|now left].
Qed.

Theorem C78_mahony_history freq incl kp_ ki_ lim l q fb :
  (0 < freq)%Z -> 0 <= kp_ -> 0 <= ki_ -> 0 <= lim -> unit_quat q ->
  exists q' fb', history (mahn_step freq incl kp_ ki_ lim) l (q, fb) = Ok (q', fb') /\ unit_quat q'.
Proof.
  intros Hf Hp Hi Hl. revert q fb. induction l as [|i l IH]; intros q fb U; [now exists q, fb|].
  cbn [history].
  destruct (mahn_step_ok freq incl kp_ ki_ lim i q fb Hf Hp Hi Hl U) as (rc & q1 & fb1 & -> & U1 & _).
  cbn [bind snd]. now apply IH.
Qed.
Print Assumptions C78_mahony_history.
Example C78_mahony_history_case : exists q' fb',
  history (mahn_step 100 None 2 (1 / 100) 1)
    [(Some [0; 1; 9], None, [1; 0; 0]); (Some [0; 1; 9], Some [1; 0], [1; 0; 0]);
     (Some [0; 1; 9], Some [1; 0; 1], [1; 0; 0])] (qone, (0, 0, 0)) = Ok (q', fb') /\ unit_quat q'.
Proof. apply C78_mahony_history; [lia|lra|lra|lra|apply qone_unit]. Qed.

(** ** C79: the integral feedback of Mahony's filter stays within its limit *)
Theorem C79_integral_clamped freq incl kp_ ki_ lim l q fb :
  (0 < freq)%Z -> 0 <= kp_ -> 0 <= ki_ -> 0 <= lim -> unit_quat q -> within lim fb ->
  exists q' fb', history (mahn_step freq incl kp_ ki_ lim) l (q, fb) = Ok (q', fb') /\ within lim fb'.
Proof.
  intros Hf Hp Hi Hl. revert q fb. induction l as [|i l IH]; intros q fb U W; [now exists q, fb|].
  cbn [history].
  destruct (mahn_step_ok freq incl kp_ ki_ lim i q fb Hf Hp Hi Hl U) as (rc & q1 & fb1 & -> & U1 & C).
  cbn [bind snd]. apply IH; [exact U1|]. destruct C as [->|C]; [exact W|exact C].
Qed.
Print Assumptions C79_integral_clamped.
Example C79_case : within 1 (0, 0, 0).
Proof. unfold within. cbn. rewrite Rabs_R0. lra. Qed.

(** one feed with a usable acceleration brings any integral within the limit
    and is the clamped running sum of the errors *)
Theorem C79_integral_step bc freq incl kp_ ki_ lim fb ti (a m : option v3) va w q ta tm tg :
  (0 < freq)%Z -> / 1000000 <= qnorm q -> 0 <= kp_ -> 0 <= ki_ -> usable a = Some va ->
  exists s', mahn_feed bc freq incl (Mahn kp_ ki_ lim (hold fb ti))
    (Sens (hold_opt a ta) (hold_opt m tm) (Some (hold w tg)) q)
  = Ok (0%Z, s', Mahn kp_ ki_ lim
      (hold (vmap (clamp lim) (vadd fb (vscale (/ IZR freq) (mahn_error (qnormalise q) incl va m)))) ti)).
Proof.
  intros Hf Hq Hp Hi E. unfold mahn_feed. cbn [kp ki]. rops. rewrite !Rltb_false by lra. cbn [orb].
  rewrite mahony_ok by assumption. rewrite E. cbv zeta. eexists. reflexivity.
Qed.
Print Assumptions C79_integral_step.
Example C79_step_case : usable (Some (0, 0, 1)) = Some (0, 0, 1).
Proof.
  cbn [usable]. destruct (Rlt_dec _ _) as [|H]; [reflexivity|]. exfalso. apply H.
  unfold vlen, vdot. replace (_ + _) with 1 by ring. rewrite sqrt_1. lra.
Qed.

(** *** Complementary filter *)
Theorem C78_complementary_feed bc freq al (a m : option v3) w q ta tm tg :
  (0 < freq)%Z -> / 1000000 <= qnorm q -> 0 <= al <= 1 ->
  exists q', comp_feed bc freq al (Sens (hold_opt a ta) (hold_opt m tm) (Some (hold w tg)) q)
  = Ok (0%Z, Sens (hold_opt a ta) (hold_opt m tm) (Some (hold w tg)) q') /\
  (unit_quat q' \/ q' = qzero) /\ (/ 1000000 <= Rabs (1 - 2 * al) -> unit_quat q').
Proof.
  intros Hf Hq Ha. unfold comp_feed. rops. replace (10 / 10) with 1 by field.
  rewrite !Rltb_false by lra. cbn [orb].
  destruct (fus_comp_ok bc freq al a m w q ta tm tg Hf Hq Ha) as (q' & -> & H).
  exists q'. split; [reflexivity|].
  assert (Us : unit_quat (spin (/ IZR freq) w q)) by (apply spin_unit; lra).
  destruct (usable a) as [va|], (usable m) as [vm|]; try (subst; auto; fail).
  destruct H as (t & _ & ->). split; [apply unit_or_zero|]. intros Hd. apply unitised_unit.
  eapply Rle_trans; [exact Hd|]. apply mix_norm; [exact Ha|exact Us|apply eul_unit].
Qed.
Print Assumptions C78_complementary_feed.

Definition comp_step freq al (i : sample) q : outcome (Z * quat R) :=
  let! (rc, s) := comp_feed true freq al (sens_of i q) in Ok (rc, sq s).
Theorem C78_complementary_history freq al l q :
  (0 < freq)%Z -> 0 <= al <= 1 -> / 1000000 <= Rabs (1 - 2 * al) -> unit_quat q ->
  exists q', history (comp_step freq al) l q = Ok q' /\ unit_quat q'.
Proof.
  intros Hf Ha Hs. revert q. induction l as [|i l IH]; intros q U; [now exists q|]. cbn [history].
  assert (X : exists rc q1, comp_step freq al i q = Ok (rc, q1) /\ unit_quat q1).
  { unfold comp_step. destruct (sized_cases i) as [[[[a m] w] W]|B].
    - rewrite (sens_of_sized i a m w q W).
      destruct (C78_complementary_feed true freq al a m w q [] [] [] Hf (unit_norm q U) Ha)
        as (q' & -> & _ & H). cbn [bind]. exists 0%Z, q'. split; [reflexivity|auto].
    - destruct (C78_ill_sized_rejected freq 0 None (Mahn 0 0 0 (Vec 0 [])) al (Aqua 0 0 0 0) i q B)
        as (_ & _ & -> & _); cbn [kp ki alpha MFusion.beta]; try lra.
      cbn [bind]. do 2 eexists. split; [reflexivity|]. now destruct i as [[? ?] ?]. }
  destruct X as (rc & q1 & -> & U1). cbn [bind snd]. exact (IH q1 U1).
Qed.
Print Assumptions C78_complementary_history.
Example C78_complementary_history_case : exists q',
  history (comp_step 100 (1 / 50))
    [(Some [0; 1; 9], None, [1; 0; 0]); (Some [1; 2], Some [1; 0; 1], [1; 0; 0]);
     (Some [0; 1; 9], Some [1; 0; 1], [1; 0; 0])] qone = Ok q' /\ unit_quat q'.
Proof. apply C78_complementary_history; [lia|lra|rewrite Rabs_pos_eq; lra|apply qone_unit]. Qed.

(** *** Kalman filter: unit or exactly zero, whenever a feed succeeds *)
Lemma bind_inv (A B : Type) (x : outcome A) (k : A -> outcome B) y :
  bind x k = Ok y -> exists z, x = Ok z /\ k z = Ok y.
Proof. destruct x; cbn; try discriminate. eauto. Qed.
Ltac inv_bind E :=
  apply bind_inv in E; let x := fresh "x" in let Ex := fresh "E" x in destruct E as (x & Ex & E).

Theorem C78_kalman_feed_partial bc freq ini incl (c : @kalm_cfg R) s rc s' c' ini' :
  kalm_feed bc freq ini incl c s = Ok (rc, s', c', ini') -> rc = 0%Z ->
  unit_quat (sq s') \/ sq s' = qzero.
Proof.
  unfold kalm_feed. destruct (_ || _ || _). { intros E ->. now injection E. }
  intros E. inv_bind E. destruct x as [[c1 s1] i1]. inv_bind E. destruct x as [[rc1 s2] c2].
  injection E as <- <- _ _. intros ->. clear - Ex0. unfold fus_kalman in Ex0.
  destruct (bc && _). { discriminate. }
  inv_bind Ex0. inv_bind Ex0. inv_bind Ex0. destruct x1 as [[? ?] ?].
  inv_bind Ex0. inv_bind Ex0. inv_bind Ex0. inv_bind Ex0. inv_bind Ex0. inv_bind Ex0. inv_bind Ex0.
  destruct x7. inv_bind Ex0. inv_bind Ex0. destruct x8. inv_bind Ex0. destruct x8 as [[? ?] ?].
  inv_bind Ex0. destruct x8 as [[? ?] ?]. inv_bind Ex0. destruct x8. 
  inv_bind Ex0. inv_bind Ex0. inv_bind Ex0. inv_bind Ex0. inv_bind Ex0. destruct x12.
  inv_bind Ex0. inv_bind Ex0. inv_bind Ex0. inv_bind Ex0. inv_bind Ex0.
  injection Ex0 as <- _. cbn [sq]. 
  repeat match goal with H : quat_to_unit _ = Ok _ |- _ => rewrite quat_to_unit_ok in H; injection H as <- end.
  apply unit_or_zero.
Qed.
Print Assumptions C78_kalman_feed_partial.

(** ** C101: SAAM *)
(** When the computed quaternion is not the zero quaternion, the orientation is
    a unit quaternion that turns the measured acceleration into the vertical
    and the measured field into the north-down plane, exactly. *)
Theorem C101_saam bc a m ta tm (g : option (vec R)) q :
  / 1000000 <= vlen a -> / 1000000 <= vlen m ->
  exists q', saam_feed bc (Sens (Some (hold a ta)) (Some (hold m tm)) g q)
  = Ok (0%Z, Sens (Some (hold (vnormalise a) ta)) (Some (hold (vnormalise m) tm)) g q') /\
  (q' = qzero \/
   (unit_quat q' /\ rotate q' (vnormalise a) = (0, 0, 1) /\
    let bz := vdot (vnormalise a) (vnormalise m) in
    rotate q' (vnormalise m) = (sqrt (1 - bz * bz), 0, bz))).
Proof.
  intros Ha Hm. unfold saam_feed. rewrite fus_saam_ok by assumption. eexists. split; [reflexivity|].
  set (x := vnormalise a). set (y := vnormalise m).
  assert (X : vdot x x = 1) by (apply vnormalise_unit; lra).
  assert (Y : vdot y y = 1) by (apply vnormalise_unit; lra).
  destruct (Rlt_dec (qnorm (saam_q x y)) (/ 1000000)) as [L|L].
  - left. now apply unitised_small.
  - right. rewrite unitised_normalise by lra.
    assert (U : unit_quat (qnormalise (saam_q x y))) by (apply qnormalise_unit; lra).
    assert (N : qnorm (qconj (saam_q x y)) <> 0) by (rewrite qnorm_conj; lra).
    split; [exact U|]. cbv zeta. split.
    + apply rotate_conj_inv; [exact U|]. rewrite <- qconj_normalise.
      apply rotate_of_intertwine; [exact N|]. now apply saam_align_a.
    + apply rotate_conj_inv; [exact U|]. rewrite <- qconj_normalise.
      apply rotate_of_intertwine; [exact N|]. now apply saam_align_m.
Qed.
Print Assumptions C101_saam.

Lemma unit_len v : vdot v v = 1 -> vlen v = 1.
Proof. intros H. unfold vlen. rewrite H. apply sqrt_1. Qed.
Lemma normalise_unit_id v : vdot v v = 1 -> vnormalise v = v.
Proof. intros H. unfold vnormalise. rewrite (unit_len v H), Rinv_1. apply vscale_1. Qed.

(** a sensor lying on its side gives a proper orientation *)
Example C101_saam_case bc q : exists q',
  saam_feed bc (Sens (Some (hold (1, 0, 0) [])) (Some (hold (0, 0, 1) [])) None q)
  = Ok (0%Z, Sens (Some (hold (1, 0, 0) [])) (Some (hold (0, 0, 1) [])) None q') /\
  unit_quat q' /\ rotate q' (1, 0, 0) = (0, 0, 1) /\ rotate q' (0, 0, 1) = (1, 0, 0).
Proof.
  assert (A : vdot (1, 0, 0) (1, 0, 0) = 1) by (cbn; ring).
  assert (M : vdot (0, 0, 1) (0, 0, 1) = 1) by (cbn; ring).
  pose proof (unit_len _ A) as LA. pose proof (unit_len _ M) as LM.
  destruct (C101_saam bc (1, 0, 0) (0, 0, 1) [] [] None q ltac:(lra) ltac:(lra)) as (q' & E & H).
  rewrite (normalise_unit_id _ A), (normalise_unit_id _ M) in *.
  exists q'. split; [exact E|]. cbv zeta in H.
  replace (vdot (1, 0, 0) (0, 0, 1)) with 0 in H by (cbn; ring).
  rewrite Rmult_0_r, Rminus_0_r, sqrt_1 in H.
  destruct H as [->|H]; [exfalso|exact H].
  unfold saam_feed in E. rewrite fus_saam_ok in E by lra.
  rewrite (normalise_unit_id _ A), (normalise_unit_id _ M) in E.
  assert (Q : unitised (saam_q (1, 0, 0) (0, 0, 1)) = qzero) by congruence. revert Q.
  assert (V : saam_q (1, 0, 0) (0, 0, 1) = Quat 0 (-2) 0 (-2)).
  { unfold saam_q. replace (vdot (1, 0, 0) (0, 0, 1)) with 0 by (cbn; ring).
    rewrite Rmult_0_r, Rminus_0_r, sqrt_1. f_equal; ring. }
  rewrite V. rewrite unitised_big.
  - unfold qscale, qzero, mkq, re, im, vscale. cbn. intros Q. injection Q as Q _.
    assert (0 < qnorm (Quat 0 (-2) 0 (-2))).
    { apply sqrt_lt_R0. unfold qdot, re, im, vdot. cbn. lra. }
    assert (/ qnorm (Quat 0 (-2) 0 (-2)) <> 0) by (apply Rinv_neq_0_compat; lra). nra.
  - apply Rle_trans with 1; [lra|]. rewrite <- sqrt_1. apply sqrt_le_1_alt.
    unfold qdot, re, im, vdot. cbn. lra.
Qed.

(** A level sensor (acceleration along +z, the most common pose) always gives
    the zero quaternion, with code 0, whatever the field. *)
Theorem C101_saam_level_refuted bc z m ta tm (g : option (vec R)) q :
  / 1000000 <= z -> / 1000000 <= vlen m ->
  exists s, saam_feed bc (Sens (Some (hold (0, 0, z) ta)) (Some (hold m tm)) g q) = Ok (0%Z, s)
            /\ sq s = qzero.
Proof.
  intros Hz Hm. assert (L : vlen (0, 0, z) = z).
  { unfold vlen, vdot. replace (_ + _) with (z * z) by ring. apply sqrt_square. lra. }
  unfold saam_feed. rewrite fus_saam_ok by (try rewrite L; assumption). eexists. split; [reflexivity|].
  cbn [sq]. replace (vnormalise (0, 0, z)) with (0, 0, 1).
  - set (y := vnormalise m).
    assert (V : saam_q (0, 0, 1) y = qzero).
    { destruct y as [[y0 y1] y2]. unfold saam_q, qzero, mkq, vdot. f_equal; ring. }
    rewrite V. apply unitised_small. rewrite qnorm_zero. lra.
  - unfold vnormalise. rewrite L. unfold vscale. f_equal; [f_equal|]; field; lra.
Qed.
Print Assumptions C101_saam_level_refuted.

(** Missing, tiny or wrongly sized readings are rejected; with bounds checks a
    NULL reading is dereferenced before it is compared with NULL. *)
Theorem C101_saam_rejects (s : @sens R) bc (a m : v3) ta tm g q :
  (vlen a < / 1000000 \/ vlen m < / 1000000 ->
   saam_feed bc (Sens (Some (hold a ta)) (Some (hold m tm)) g q)
   = Ok ((- EINVAL)%Z, Sens (Some (hold a ta)) (Some (hold m tm)) g q)) /\
  (sa s = None -> saam_feed true s = UB NullDeref) /\
  (sm s = None -> saam_feed false s = Ok ((- EINVAL)%Z, s)).
Proof.
  split; [|split].
  - intros H. unfold saam_feed, fus_saam. cbn [sa sm sg deref bind].
    change (vsz (hold a ta)) with 3%nat. change (vsz (hold m tm)) with 3%nat. cbn [Nat.eqb negb].
    pose proof (missing_ok bc (Some a) ta) as Ea. pose proof (missing_ok bc (Some m) tm) as Em.
    cbn [hold_opt present] in Ea, Em.
    destruct bc; cbn [bind]; rewrite Em; cbn [bind];
    (destruct (Rlt_dec (vlen m) (/ 1000000)); [reflexivity|]; rewrite Ea; cbn [bind];
     destruct (Rlt_dec (vlen a) (/ 1000000)); [reflexivity|lra]).
  - destruct s as [a0 m0 g0 q0]. cbn. intros ->. reflexivity.
  - destruct s as [a0 m0 g0 q0]. cbn. intros ->. reflexivity.
Qed.
Print Assumptions C101_saam_rejects.

(** C78 is false of SAAM as well: see C101_saam_level_refuted; what holds is
    unit or zero. *)
Theorem C78_saam_feed_partial bc a m ta tm (g : option (vec R)) q :
  / 1000000 <= vlen a -> / 1000000 <= vlen m ->
  exists s, saam_feed bc (Sens (Some (hold a ta)) (Some (hold m tm)) g q) = Ok (0%Z, s) /\
  (unit_quat (sq s) \/ sq s = qzero).
Proof.
  intros Ha Hm. destruct (C101_saam bc a m ta tm g q Ha Hm) as (q' & -> & H).
  eexists. split; [reflexivity|]. cbn [sq]. tauto.
Qed.
Print Assumptions C78_saam_feed_partial.

(** ** C102: AQUA *)
Theorem C102_aqua bc freq ini c (a m : option v3) w q ta tm tg rc s' c' ini' :
  (0 < freq)%Z -> (0 < ini)%Z -> / 1000000 <= qnorm q ->
  0 <= alpha c <= 1 -> 0 <= MFusion.beta c <= 1 ->
  aqua_feed bc freq ini c (Sens (hold_opt a ta) (hold_opt m tm) (Some (hold w tg)) q)
  = Ok (rc, s', c', ini') ->
  rc = 0%Z /\ c' = c /\ ini' = ini /\ unit_quat (sq s') /\
  let s := spin (/ IZR freq) (vscale (-1) w) q in
  match usable a with
  | None => sq s' = s
  | Some va =>
      let before := rotate (qconj s) (vnormalise va) in
      let after := rotate (qconj (sq s')) (vnormalise va) in
      coord 2 before <= coord 2 after /\
      (alpha c = 1 -> after = (0, 0, 1)) /\
      match usable m with
      | None => alpha c = 0 -> sq s' = s
      | Some vm =>
          let after_m := rotate (qconj (sq s')) (vnormalise vm) in
          (MFusion.beta c = 1 -> 0 < coord 0 after_m /\ coord 1 after_m = 0) /\
          (alpha c = 0 -> MFusion.beta c = 0 -> sq s' = s)
      end
  end.
Proof.
  intros Hf Hini Hq Ha Hb. unfold aqua_feed. rops. replace (10 / 10) with 1 by field.
  rewrite !Rltb_false by lra. cbn [orb].
  replace (ini =? 0)%Z with false by (symmetry; apply Z.eqb_neq; lia). cbn [bind].
  intros E. apply bind_inv in E. destruct E as ((rc1 & s1) & E & E2). injection E2 as <- <- <- <-.
  pose proof (fus_aqua_ok bc freq c a m w q ta tm tg Hf Hq Ha Hb) as F. cbv zeta in F.
  cbv zeta. set (s := spin (/ IZR freq) (vscale (-1) w) q) in *.
  assert (Us : unit_quat s) by (apply spin_unit; lra).
  destruct (usable a) as [va|] eqn:Ua.
  2:{ rewrite F in E. injection E as <- <-. cbn [sq]. auto. }
  destruct (usable_len _ _ Ua) as [_ La].
  destruct F as [F1 F2].
  destruct (Req_EM_T (coord 2 (rotate (qconj s) (vnormalise va))) (-1)) as [D|D].
  { rewrite (F1 D) in E. discriminate. }
  destruct (F2 D) as (q1 & A & U1 & F3).
  destruct (aqua_acc_effect _ _ _ _ va q1 Us ltac:(lra) D A) as (M1 & M2 & M3).
  destruct (usable m) as [vm|] eqn:Um.
  2:{ rewrite F3 in E. injection E as <- <-. cbn [sq]. auto 9. }
  destruct (usable_len _ _ Um) as [_ Lm]. destruct F3 as [F3 F4].
  assert (St : steerable (rotate (qconj q1) (vnormalise vm)) \/ ~ steerable (rotate (qconj q1) (vnormalise vm))).
  { destruct (rotate (qconj q1) (vnormalise vm)) as [[lx ly] lz]. unfold steerable.
    destruct (Req_EM_T ly 0), (Rlt_dec 0 lx); auto; right; intros [|]; contradiction. }
  destruct St as [St|St]; [|rewrite (F3 St) in E; discriminate].
  destruct (F4 St) as (q2 & B & U2 & F5). rewrite F5 in E. injection E as <- <-. cbn [sq].
  destruct (aqua_mag_effect _ _ _ _ vm q2 U1 ltac:(lra) St B) as (N1 & N2 & N3 & N4 & N5).
  split; [reflexivity|]. split; [reflexivity|]. split; [reflexivity|]. split; [exact U2|].
  rewrite N3. split; [exact M1|]. split; [|split].
  - intros T1. pose proof (N3 (vnormalise va)) as Z. rewrite (M3 T1) in Z. cbn [coord] in Z.
    pose proof (rotate_unit_len (qconj q2) va (qconj_unit _ U2) ltac:(lra)) as G.
    destruct (rotate (qconj q2) (vnormalise va)) as [[x y] z]. cbn [coord] in Z. subst z.
    unfold vdot in G. assert (X0 : x * x = 0) by nra. assert (Y0 : y * y = 0) by nra.
    assert (x = 0) by (apply Rmult_integral in X0; tauto).
    assert (y = 0) by (apply Rmult_integral in Y0; tauto). now subst.
  - intros T1. rewrite (N5 T1). cbn [coord]. split; [|reflexivity].
    destruct (rotate (qconj q1) (vnormalise vm)) as [[lx ly] lz]. apply steerable_pos in St. apply St.
  - intros T0 T0'. rewrite (N4 T0'). auto.
Qed.
Print Assumptions C102_aqua.

(** AQUA feeds have a defined result unless the estimated gravity points
    exactly away from the vertical, or the estimated field is exactly vertical
    or points exactly south. *)
Theorem C102_aqua_defined bc freq ini c (a m : option v3) w q ta tm tg :
  (0 < freq)%Z -> (0 < ini)%Z -> / 1000000 <= qnorm q ->
  0 <= alpha c <= 1 -> 0 <= MFusion.beta c <= 1 ->
  (forall va, usable a = Some va ->
     rotate (qconj (spin (/ IZR freq) (vscale (-1) w) q)) (vnormalise va) <> (0, 0, -1)) ->
  (usable a = None \/ usable m = None) ->
  exists s', aqua_feed bc freq ini c (Sens (hold_opt a ta) (hold_opt m tm) (Some (hold w tg)) q)
             = Ok (0%Z, s', c, ini).
Proof.
  intros Hf Hini Hq Ha Hb Hg Hm. unfold aqua_feed. rops. replace (10 / 10) with 1 by field.
  rewrite !Rltb_false by lra. cbn [orb].
  replace (ini =? 0)%Z with false by (symmetry; apply Z.eqb_neq; lia). cbn [bind].
  pose proof (fus_aqua_ok bc freq c a m w q ta tm tg Hf Hq Ha Hb) as F. cbv zeta in F.
  destruct (usable a) as [va|] eqn:Ua; [|rewrite F; cbn [bind]; eauto].
  destruct Hm as [Hm|Hm]; [discriminate|]. rewrite Hm in F. destruct F as [_ F].
  specialize (Hg va eq_refl). destruct (usable_len _ _ Ua) as [_ La].
  destruct F as (q1 & _ & _ & E).
  - intros D. apply Hg.
    assert (Us : unit_quat (spin (/ IZR freq) (vscale (-1) w) q)) by (apply spin_unit; lra).
    pose proof (rotate_unit_len (qconj _) va (qconj_unit _ Us) ltac:(lra)) as G.
    destruct (rotate _ (vnormalise va)) as [[x y] z]. cbn [coord] in D. subst z. unfold vdot in G.
    assert (X0 : x * x = 0) by nra. assert (Y0 : y * y = 0) by nra.
    assert (x = 0) by (apply Rmult_integral in X0; tauto).
    assert (y = 0) by (apply Rmult_integral in Y0; tauto). now subst.
  - rewrite E. cbn [bind]. eauto.
Qed.
Print Assumptions C102_aqua_defined.

Lemma spin_rest t q : unit_quat q -> spin t (vscale (-1) (0, 0, 0)) q = q.
Proof.
  intros U. unfold spin. rewrite (qnormalise_of_unit q U).
  replace (qplus _ _) with q; [now apply qnormalise_of_unit|].
  destruct q. unfold qplus, qscale, hprod, pure, mkq, re, im, vdot, vadd, vscale, vcross. cbn.
  f_equal; field.
Qed.
Lemma rotate_one v : rotate (qconj qone) v = v.
Proof.
  destruct v as [[x y] z]. unfold rotate, qconj, qone, mkq, re, im, vadd, vscale, vcross. cbn.
  f_equal; [f_equal|]; ring.
Qed.

(** An upside-down sensor with the identity orientation is a point where AQUA
    divides by zero. *)
Theorem C102_aqua_upside_down_refuted bc :
  aqua_feed bc 1 1 (Aqua (1 / 2) (1 / 2) (9 / 10) (9 / 10))
    (Sens (Some (hold (0, 0, -1) [])) None (Some (hold (0, 0, 0) [])) qone) = NotReal.
Proof.
  unfold aqua_feed. cbn [alpha MFusion.beta]. rops. replace (10 / 10) with 1 by field.
  rewrite !Rltb_false by lra. cbn [orb Z.eqb bind].
  assert (A : vdot (0, 0, -1) (0, 0, -1) = 1) by (cbn; ring).
  pose proof (unit_len _ A) as L.
  assert (Us : usable (Some (0, 0, -1)) = Some (0, 0, -1)).
  { cbn [usable]. rewrite L. destruct (Rlt_dec (/ 1000000) 1); [reflexivity|lra]. }
  pose proof (fus_aqua_ok bc 1 (Aqua (1 / 2) (1 / 2) (9 / 10) (9 / 10)) (Some (0, 0, -1)) None (0, 0, 0) qone
    [] [] [] ltac:(lia) (unit_norm _ qone_unit) ltac:(cbn; lra) ltac:(cbn; lra)) as F.
  cbv zeta in F. rewrite Us in F. destruct F as [F _]. cbn [hold_opt] in F. rewrite F; [reflexivity|].
  rewrite (normalise_unit_id _ A), spin_rest by apply qone_unit. rewrite rotate_one. reflexivity.
Qed.
Print Assumptions C102_aqua_upside_down_refuted.

(** The hypotheses of C102_aqua are met by a tilted sensor at rest. *)
Example C102_aqua_case bc : exists s',
  aqua_feed bc 100 1 (Aqua 1 (1 / 2) (9 / 10) (9 / 10))
    (Sens (Some (hold (1, 0, 0) [])) None (Some (hold (0, 0, 0) [])) qone)
  = Ok (0%Z, s', Aqua 1 (1 / 2) (9 / 10) (9 / 10), 1%Z) /\
  rotate (qconj (sq s')) (1, 0, 0) = (0, 0, 1).
Proof.
  assert (A : vdot (1, 0, 0) (1, 0, 0) = 1) by (cbn; ring). pose proof (unit_len _ A) as L.
  assert (Us : usable (Some (1, 0, 0)) = Some (1, 0, 0)).
  { cbn [usable]. rewrite L. destruct (Rlt_dec (/ 1000000) 1); [reflexivity|lra]. }
  destruct (C102_aqua_defined bc 100 1 (Aqua 1 (1 / 2) (9 / 10) (9 / 10)) (Some (1, 0, 0)) None (0, 0, 0) qone [] [] [])
    as (s' & E); try lia; cbn [alpha MFusion.beta]; try lra; auto.
  - apply unit_norm, qone_unit.
  - intros va Hv. rewrite Us in Hv. injection Hv as <-.
    rewrite (normalise_unit_id _ A), spin_rest by apply qone_unit. rewrite rotate_one.
    intros H. injection H as H _. lra.
  - exists s'. cbn [hold_opt] in E. split; [exact E|].
    pose proof (C102_aqua bc 100 1 (Aqua 1 (1 / 2) (9 / 10) (9 / 10)) (Some (1, 0, 0)) None (0, 0, 0) qone [] [] []
      _ s' _ _ ltac:(lia) ltac:(lia) (unit_norm _ qone_unit) ltac:(cbn; lra) ltac:(cbn; lra) E) as (_ & _ & _ & _ & H).
    cbv zeta in H. rewrite Us in H. destruct H as (_ & H & _). rewrite (normalise_unit_id _ A) in H.
    apply H. reflexivity.
Qed.

Theorem C78_aqua_feed_partial bc freq ini c (a m : option v3) w q ta tm tg rc s' c' ini' :
  (0 < freq)%Z -> (0 < ini)%Z -> / 1000000 <= qnorm q ->
  0 <= alpha c <= 1 -> 0 <= MFusion.beta c <= 1 ->
  aqua_feed bc freq ini c (Sens (hold_opt a ta) (hold_opt m tm) (Some (hold w tg)) q)
  = Ok (rc, s', c', ini') -> rc = 0%Z /\ unit_quat (sq s').
Proof.
  intros Hf Hi Hq Ha Hb E.
  destruct (C102_aqua bc freq ini c a m w q ta tm tg rc s' c' ini' Hf Hi Hq Ha Hb E) as (? & _ & _ & ? & _).
  auto.
Qed.
Print Assumptions C78_aqua_feed_partial.

(** The first feed scales alpha down when the acceleration is not close to
    gravity, never below 0 nor above its configured value. *)
Theorem C102_alpha_init bc ini a ta (al : R) :
  (0 <= ini < 4294967295)%Z -> 0 <= al ->
  exists al', aqua_alpha_init bc ini (Some (hold a ta)) al = Ok (0%Z, al', (ini + 1)%Z) /\
  0 <= al' <= al /\
  (Rabs (vlen a - 981 / 100) <= 981 / 1000 -> al' = al) /\
  (1962 / 1000 <= Rabs (vlen a - 981 / 100) -> al' = 0).
Proof.
  intros Hi Ha. unfold aqua_alpha_init. cbn [deref bind]. change (vsz (hold a ta)) with 3%nat.
  cbn [Nat.eqb negb].
  assert (B : (if bc then Ok false else Ok false) = Ok false) by now destruct bc.
  rewrite B. cbn [bind]. change (vec_norm_opt bc (Some (hold a ta))) with (vec_norm bc (hold a ta)). rewrite norm_hold. cbn [bind]. rops.
  rewrite Rdivo_ok by lra. cbn [bind].
  replace (981 / 100 * 1) with (981 / 100) by ring.
  set (x := Rabs (vlen a - 981 / 100)). assert (X : 0 <= x) by apply Rabs_pos.
  set (e := x / (981 / 100)). assert (E : x = e * (981 / 100)) by (unfold e; field).
  rewrite Z.mod_small by lia.
  destruct (Rleb_spec (2 / 10) e) as [H|H]; cbn [bind].
  - eexists. split; [reflexivity|]. split; [lra|]. split; lra.
  - destruct (Rltb_spec (1 / 10) e) as [H1|H1]; cbn [andb].
    + rewrite Rltb_true by lra. rewrite Rdivo_ok by lra. cbn [bind].
      eexists. split; [reflexivity|].
      assert (K : 0 <= (2 / 10 - e) / (1 / 10) <= 1) by lra.
      split; [split; nra|]. split; lra.
    + cbn [bind]. eexists. split; [reflexivity|]. split; [lra|]. split; lra.
Qed.
Print Assumptions C102_alpha_init.

(** With bounds checks on, an accelerometer vector of another length is refused,
    and neither alpha nor the counter changes. *)
Theorem C102_alpha_init_rejects T (N : Num T) ini (a : vec T) (al : T) :
  vsz a <> 3%nat -> aqua_alpha_init true ini (Some a) al = Ok ((- EINVAL)%Z, al, ini).
Proof.
  intros H. unfold aqua_alpha_init. cbn [deref bind]. apply Nat.eqb_neq in H. rewrite H. reflexivity.
Qed.
Print Assumptions C102_alpha_init_rejects.

(** The counter is shared by all AQUA instances and only the first feed ever
    looks at the acceleration: on the first feed a NULL accelerometer is
    dereferenced when bounds checks are on. *)
Theorem C102_first_feed_null_refuted c (m g : option (vec R)) q freq :
  0 <= alpha c <= 1 -> 0 <= MFusion.beta c <= 1 ->
  aqua_feed true freq 0 c (Sens None m g q) = UB NullDeref.
Proof.
  intros Ha Hb. unfold aqua_feed. rops. replace (10 / 10) with 1 by field.
  rewrite !Rltb_false by lra. reflexivity.
Qed.
Print Assumptions C102_first_feed_null_refuted.
