(** Physics helpers: transients obey their differential equations, and where
    the guards fall short. *)
From Coq Require Import ZArith Reals Lra Lia Psatz Bool.
From Coquelicot Require Import Coquelicot.
From Coq Require Import List.
From Verif Require Import Base NumR Libm LibmR RTac Out MVec MPhys MPhysVec SpecPhys RPi RE PropPhys PropPhys2 PropPhys3.
Import ListNotations.
Local Open Scope R_scope.

(** ** C111: transients *)

(** The calls report the trajectory [f] at every time t >= 0. *)
Definition follows (call : R -> outcome (Z * out R)) (f : R -> R) : Prop :=
  forall t, 0 <= t -> gives (call t) (f t).

Lemma exp_decay_lim k : 0 < k -> is_lim (fun t => exp (- t / k)) p_infty 0.
Proof.
  intros K. apply (is_lim_comp exp (fun t => - t / k) p_infty 0 m_infty).
  - apply is_lim_exp_m.
  - apply (is_lim_ext (fun t => (- / k) * t)); [intros; field; lra|].
    evar_last; [apply (is_lim_scal_l (fun t => t) (- / k) p_infty p_infty), is_lim_id|].
    cbn. destruct (Rle_dec 0 (- / k)) as [L|L].
    + pose proof (Rinv_0_lt_compat k K). exfalso. lra.
    + reflexivity.
  - exists 0. intros; discriminate.
Qed.
Lemma exp_decay_bounds k t : 0 < k -> 0 <= t -> 0 < exp (- t / k) <= 1.
Proof.
  intros K T. split; [apply exp_pos|]. rewrite <- exp_0.
  assert (- t / k <= 0) by (unfold Rdiv; pose proof (Rinv_0_lt_compat k K); nra).
  destruct (Req_dec (- t / k) 0) as [->|N]; [lra|]. apply Rlt_le, exp_increasing. lra.
Qed.
Lemma exp_decay_derive (k c t : R) : k <> 0 -> is_derive (fun t => c * exp (- t / k)) t (- (c * exp (- t / k)) / k).
Proof. intros K. auto_derive; [trivial|]. unfold Rdiv. ring. Qed.

Lemma exp_decay_0 k : exp (- 0 / k) = 1.
Proof. unfold Rdiv. rewrite Ropp_0, Rmult_0_l. apply exp_0. Qed.

(** Charging a capacitor through a resistor towards the charge q0. *)
Theorem C111_charging r c q0 :
  0 < r * c -> 0 <= q0 ->
  exists q : R -> R, follows (fun t => ecmp_rc_charg_q r c t q0) q
    /\ q 0 = 0
    /\ (forall t, is_derive q t ((q0 - q t) / (r * c)))
    /\ (forall t, 0 <= t -> 0 <= q t <= q0)
    /\ is_lim q p_infty q0.
Proof.
  intros K Q. exists (fun t => q0 - q0 * exp (- t / (r * c))).
  pose proof (proj1 (proj2 (proj2 (proj2 (proj2 (proj2 (proj2 (proj2 C86_components)))))))) as A.
  split; [|split; [|split; [|split]]].
  - intros t T. destruct (proj1 (A r c t q0)) as (x & E & ->); [auto|]. exact E.
  - cbv beta. rewrite exp_decay_0. lra.
  - intros t. pose proof (exp_decay_derive (r * c) q0 t ltac:(lra)) as D.
    evar_last; [apply (is_derive_minus (fun _ => q0) (fun t => q0 * exp (- t / (r * c))));
                [apply is_derive_const | exact D]|].
    cbn. unfold minus, plus, opp, zero. cbn. unfold Rdiv. ring.
  - intros t T. pose proof (exp_decay_bounds (r * c) t K T). nra.
  - pose proof (exp_decay_lim (r * c) K) as L.
    evar_last; [apply (is_lim_minus' (fun _ => q0) (fun t => q0 * exp (- t / (r * c))) p_infty q0 (q0 * 0));
                [apply is_lim_const | apply (is_lim_scal_l _ q0 p_infty 0 L)]|].
    cbn. f_equal. lra.
Qed.
(** The voltages of the resistor and the capacitor always add up to the
    voltage of the source. *)
Theorem C111_kirchhoff r c v t i q :
  0 < r -> 0 < c -> 0 <= v -> 0 <= t ->
  gives (ecmp_rc_charg_i r c t (v / r)) i -> gives (ecmp_rc_charg_q r c t (v * c)) q ->
  r * i + q / c = v.
Proof.
  intros R0 C V T I Q. unfold gives in *.
  pose proof (proj1 (proj2 (proj2 (proj2 (proj2 (proj2 (proj2 C86_components))))))) as A.
  pose proof (proj1 (proj2 (proj2 (proj2 (proj2 (proj2 (proj2 (proj2 C86_components)))))))) as B.
  destruct (answers_unique _ _ _ _ (A r c t (v / r)) I) as (_ & ->).
  destruct (answers_unique _ _ _ _ (B r c t (v * c)) Q) as (_ & ->). field. lra.
Qed.
Example C111_kirchhoff_case : exists i q,
  gives (ecmp_rc_charg_i 2 3 1 (5 / 2)) i /\ gives (ecmp_rc_charg_q 2 3 1 (5 * 3)) q.
Proof.
  exists (5 / 2 * exp (- (1) / (2 * 3))), (5 * 3 * (1 - exp (- (1) / (2 * 3)))).
  unfold gives, ecmp_rc_charg_i, ecmp_rc_charg_q. split; rops; rcases; divs; [reflexivity|].
  apply ok_set. lra.
Qed.
(** The charging current is the rate of the charge. *)
Theorem C111_charging_current r c q0 :
  0 < r * c -> 0 <= q0 ->
  exists q i : R -> R, follows (fun t => ecmp_rc_charg_q r c t q0) q
    /\ follows (fun t => ecmp_rc_charg_i r c t (q0 / (r * c))) i
    /\ (forall t, is_derive q t (i t))
    /\ (forall t, 0 <= t -> 0 <= i t <= q0 / (r * c)) /\ is_lim i p_infty 0.
Proof.
  intros K Q.
  assert (I0 : 0 <= q0 / (r * c)) by (apply Rmult_le_pos; [lra | apply Rlt_le, Rinv_0_lt_compat; lra]).
  exists (fun t => q0 - q0 * exp (- t / (r * c))), (fun t => q0 / (r * c) * exp (- t / (r * c))).
  pose proof (proj1 (proj2 (proj2 (proj2 (proj2 (proj2 (proj2 C86_components))))))) as A.
  pose proof (proj1 (proj2 (proj2 (proj2 (proj2 (proj2 (proj2 (proj2 C86_components)))))))) as B.
  split; [|split; [|split; [|split]]].
  - intros t T. destruct (proj1 (B r c t q0)) as (x & E & ->); [auto|]. exact E.
  - intros t T. destruct (proj1 (A r c t (q0 / (r * c)))) as (x & E & ->); [auto|]. exact E.
  - intros t. pose proof (exp_decay_derive (r * c) q0 t ltac:(lra)) as D.
    evar_last; [apply (is_derive_minus (fun _ => q0) (fun t => q0 * exp (- t / (r * c))));
                [apply is_derive_const | exact D]|].
    cbn. unfold minus, plus, opp, zero. cbn. unfold Rdiv. ring.
  - intros t T. pose proof (exp_decay_bounds (r * c) t K T). nra.
  - pose proof (exp_decay_lim (r * c) K) as L.
    evar_last; [apply (is_lim_scal_l _ (q0 / (r * c)) p_infty 0 L)|]. cbn. f_equal. lra.
Qed.
(** Discharging: the charge decays, and the current is its rate. *)
Theorem C111_discharging r c q0 :
  0 < r * c -> 0 <= q0 ->
  exists q i : R -> R, follows (fun t => ecmp_rc_discharg_q r c t q0) q
    /\ follows (fun t => ecmp_rc_discharg_i r c t (q0 / (r * c))) i
    /\ q 0 = q0
    /\ (forall t, is_derive q t (- q t / (r * c)))
    /\ (forall t, is_derive q t (i t))
    /\ (forall t, 0 <= t -> 0 <= q t <= q0) /\ is_lim q p_infty 0.
Proof.
  intros K Q.
  assert (I0 : 0 <= q0 / (r * c)) by (apply Rmult_le_pos; [lra | apply Rlt_le, Rinv_0_lt_compat; lra]).
  exists (fun t => q0 * exp (- t / (r * c))), (fun t => - (q0 / (r * c)) * exp (- t / (r * c))).
  pose proof (proj1 (proj2 (proj2 (proj2 (proj2 (proj2 (proj2 (proj2 (proj2 C86_components))))))))) as A.
  pose proof (proj1 (proj2 (proj2 (proj2 (proj2 (proj2 (proj2 (proj2 (proj2 (proj2 C86_components)))))))))) as B.
  split; [|split; [|split; [|split; [|split; [|split]]]]].
  - intros t T. destruct (proj1 (B r c t q0)) as (x & E & ->); [auto|]. exact E.
  - intros t T. destruct (proj1 (A r c t (q0 / (r * c)))) as (x & E & ->); [auto|]. exact E.
  - cbv beta. rewrite exp_decay_0. lra.
  - intros t. apply exp_decay_derive. lra.
  - intros t. pose proof (exp_decay_derive (r * c) q0 t ltac:(lra)) as D.
    evar_last; [exact D|]. unfold Rdiv. ring.
  - intros t T. pose proof (exp_decay_bounds (r * c) t K T). nra.
  - pose proof (exp_decay_lim (r * c) K) as L.
    evar_last; [apply (is_lim_scal_l _ q0 p_infty 0 L)|]. cbn. f_equal. lra.
Qed.
(** Current through a coil: L i' + R i = R i0, starting from 0. *)
Theorem C111_coil r l i0 :
  0 < r -> 0 < l -> 0 <= i0 ->
  exists i : R -> R, follows (fun t => ecmp_rl_current r l t i0) i
    /\ i 0 = 0
    /\ (forall t, exists di, is_derive i t di /\ l * di + r * i t = r * i0)
    /\ (forall t, 0 <= t -> 0 <= i t <= i0) /\ is_lim i p_infty i0.
Proof.
  intros R0 L0 I0. exists (fun t => i0 - i0 * exp (- t / (l / r))).
  assert (K : 0 < l / r) by (apply Rdiv_lt_0_compat; lra).
  pose proof (proj2 (proj2 (proj2 (proj2 (proj2 (proj2 (proj2 (proj2 (proj2 (proj2 C86_components)))))))))) as A.
  split; [|split; [|split; [|split]]].
  - intros t T. destruct (proj1 (A r l t i0)) as (x & E & ->); [lra|]. unfold gives. rewrite E. apply ok_set.
    f_equal. f_equal. f_equal. field. lra.
  - cbv beta. rewrite exp_decay_0. lra.
  - intros t. exists (i0 * exp (- t / (l / r)) / (l / r)). split; [|field; lra].
    pose proof (exp_decay_derive (l / r) i0 t ltac:(lra)) as D.
    evar_last; [apply (is_derive_minus (fun _ => i0) (fun t => i0 * exp (- t / (l / r))));
                [apply is_derive_const | exact D]|].
    cbn. unfold minus, plus, opp, zero. cbn. unfold Rdiv. ring.
  - intros t T. pose proof (exp_decay_bounds (l / r) t K T). nra.
  - pose proof (exp_decay_lim (l / r) K) as L.
    evar_last; [apply (is_lim_minus' (fun _ => i0) (fun t => i0 * exp (- t / (l / r))) p_infty i0 (i0 * 0));
                [apply is_lim_const | apply (is_lim_scal_l _ i0 p_infty 0 L)]|].
    cbn. f_equal. lra.
Qed.
Example C111_case : 0 < 2 * 3 /\ 0 <= 5. Proof. lra. Qed.

(** Radioactive decay: waiting t and then t' is waiting t + t'; the activity
    falls and keeps its sign; it obeys q' = - k l q where k is 1 up to 10^-11
    (the code raises its eleven-digit e to a power instead of calling exp). *)
Lemma ln_e11 : Rabs (ln e11 - 1) <= / 100000000000.
Proof.
  assert (E : e11 = 271828182845 / 100000000000) by (unfold e11; consts; lra).
  pose proof e_bounds as B. apply Rabs_le. split.
  - enough (1 - / 100000000000 <= ln e11) by lra.
    rewrite <- (ln_exp (1 - / 100000000000)). apply Rcomplements.ln_le; [apply exp_pos|].
    unfold Rminus. rewrite exp_plus, exp_Ropp, E.
    assert (1 + / 100000000000 < exp (/ 100000000000)) by (apply exp_ineq1; lra).
    apply (Rmult_le_reg_r (exp (/ 100000000000))); [apply exp_pos|].
    rewrite Rmult_assoc, Rinv_l by (pose proof (exp_pos (/ 100000000000)); lra). nra.
  - enough (ln e11 <= 1) by lra. rewrite <- (ln_exp 1). apply Rcomplements.ln_le; rewrite E; lra.
Qed.
Theorem C111_decay l q0 :
  0 <= l ->
  exists (q : R -> R) (k : R), follows (fun t => atom_rad_decay q0 t l) q
    /\ q 0 = q0
    /\ (forall t, is_derive q t (- (k * l) * q t)) /\ Rabs (k - 1) <= / 100000000000
    /\ (forall t, 0 <= t -> Rabs (q t) <= Rabs q0 /\ 0 <= q t * q0)
    /\ (forall t t' x, 0 <= t -> 0 <= t' -> gives (atom_rad_decay q0 t l) x ->
          gives (atom_rad_decay x t' l) (q (t + t'))).
Proof.
  intros L. exists (fun t => q0 * Rpower e11 (- (l * t))), (ln e11).
  pose proof (proj1 (proj2 (proj2 (proj2 (proj2 C86_atomic))))) as A.
  pose proof ln_e11 as K. assert (K0 : 0 < ln e11) by (apply Rcomplements.Rabs_le_between in K; lra).
  assert (F : follows (fun t => atom_rad_decay q0 t l) (fun t => q0 * Rpower e11 (- (l * t)))).
  { intros t T. destruct (proj1 (A q0 t l)) as (x & E & ->); [auto|]. exact E. }
  split; [exact F|]. split; [|split; [|split; [exact K|split]]].
  - rewrite Rmult_0_r, Ropp_0. unfold Rpower. rewrite Rmult_0_l, exp_0. lra.
  - intros t. unfold Rpower. set (c := ln e11). clearbody c. auto_derive; [trivial|]. ring.
  - intros t T. unfold Rpower. set (u := - (l * t) * ln e11).
    assert (U : u <= 0) by (unfold u; pose proof (Rmult_le_pos _ _ (Rmult_le_pos _ _ L T) (Rlt_le _ _ K0)); lra).
    assert (B : 0 < exp u <= 1).
    { split; [apply exp_pos|]. rewrite <- exp_0. destruct (Req_dec u 0) as [->|]; [lra|].
      apply Rlt_le, exp_increasing. lra. }
    split; [|pose proof (Rmult_le_pos _ _ (Rle_0_sqr q0) (Rlt_le _ _ (proj1 B))) as S; unfold Rsqr in S; lra]. rewrite Rabs_mult, (Rabs_pos_eq (exp u)) by lra. pose proof (Rabs_pos q0). nra.
  - intros t t' x T T' X. pose proof (F t T) as Y. unfold gives in *. rewrite X in Y. injection Y as ->.
    destruct (proj1 (A (q0 * Rpower e11 (- (l * t))) t' l)) as (y & E & ->); [auto|].
    rewrite E. apply ok_set. rewrite Rmult_assoc, <- Rpower_plus. do 2 f_equal. ring.
Qed.

(** ** C86: arguments that the guards let through

    Each of these divides by zero or takes the root, logarithm or arcsine of a
    number outside its domain, and the C function answers 0. *)
Theorem C86_unguarded_refuted :
  (forall z, (z <> 0)%Z -> atom_bohr_orb_vel (T := R) z 0 = NotReal /\ atom_bohr_orb_ener (T := R) z 0 = NotReal)
  /\ (forall i, 0 <= i -> sound_level i 0 = NotReal)
  /\ (forall i0, 0 < i0 -> sound_level 0 i0 = NotReal)
  /\ (forall d p, 0 < d -> 0 <= p -> sound_intensity 0 d p = NotReal)
  /\ (forall v, sound_shock_wave_angle v 0 = NotReal)
  /\ (forall v vs, 0 < vs < v -> sound_shock_wave_angle v vs = NotReal)
  /\ (forall m r, 0 < r -> m < 0 -> grav_esc_vel m r = NotReal /\ grav_orb_vel m r = NotReal)
  /\ (forall m r, 0 < m -> r < 0 -> grav_esc_vel m r = NotReal /\ grav_orb_vel m r = NotReal
        /\ grav_orb_period m m r = NotReal).
Proof.
  assert (NS : forall x, x < 0 -> Rsqrto x = NotReal).
  { intros x X. unfold Rsqrto. destruct (Rle_dec 0 x); [lra | reflexivity]. }
  assert (ND : forall x y, 0 < x -> y < 0 -> x / y < 0).
  { intros x y X Y. unfold Rdiv. pose proof (Rinv_lt_0_compat y Y). nra. }
  split.
  { intros z Z. unfold atom_bohr_orb_vel, atom_bohr_orb_ener. rops.
    rewrite (proj2 (Z.eqb_neq z 0) Z). rewrite Rmult_0_l, !Rdivo_0. split; reflexivity. }
  split.
  { intros i I. unfold sound_level. rops. rcases. now rewrite Rdivo_0. }
  split.
  { intros i0 I. unfold sound_level. rops. rcases. divs. unfold Rlog10.
    replace (0 / i0) with 0 by (field; lra). destruct (Rlt_dec 0 0); [lra | reflexivity]. }
  split.
  { intros d p D P. unfold sound_intensity. rops. rcases. divs. replace (0 / d) with 0 by (field; lra).
    rewrite (@Rsqrto_sq 0 0) by lra. cbn [bind]. rewrite Rmult_0_r. rewrite Rmult_0_r. now rewrite Rdivo_0. }
  split.
  { intros v. unfold sound_shock_wave_angle. rops. now rewrite Rdivo_0. }
  split.
  { intros v vs [V1 V2]. unfold sound_shock_wave_angle. rops. divs.
    assert (1 < v / vs) by (apply (Rmult_lt_reg_r vs); [lra|]; unfold Rdiv; rewrite Rmult_assoc, Rinv_l; lra).
    unfold Rasin. destruct (Rle_dec (-1) (v / vs)); [|reflexivity]. destruct (Rle_dec (v / vs) 1); [lra | reflexivity]. }
  split.
  - intros m r R0 M. unfold grav_esc_vel, grav_orb_vel. rops. rcases. divs.
    assert (N : forall k, 0 < k -> k * m / r < 0).
    { intros k K. pose proof (Rmult_lt_0_compat _ _ (Rmult_lt_0_compat _ _ K (Ropp_0_gt_lt_contravar _ M)) (Rinv_0_lt_compat r R0)).
      unfold Rdiv. lra. }
    rewrite !NS by (apply N; lra). split; reflexivity.
  - intros m r M R0. unfold grav_esc_vel, grav_orb_vel, grav_orb_period. rops. rcases. divs.
    rewrite NS by (apply ND; nra). rewrite NS by (apply ND; nra).
    split; [reflexivity|]. split; [reflexivity|]. rewrite NS; [reflexivity|].
    assert (0 < - r) by lra. assert (0 < (- r) * (- r) * (- r)) by (repeat apply Rmult_lt_0_compat; lra).
    apply (Rmult_lt_reg_r (667408 / 10000000000000000 * (m + m))); [lra|].
    unfold Rdiv at 1. rewrite Rmult_assoc, Rinv_l by lra. nra.
Qed.
(** The index of refraction is computed upside down: v / c, never above 1. *)
Theorem C86_refraction_refuted v :
  0 < v <= light_c -> exists n, gives (opt_refrac_index v) n /\ n * light_c = v /\ n <= 1
    /\ (v < light_c -> n <> light_c / v).
Proof.
  intros V. exists (v / light_c). unfold light_c in *. split; [|split; [|split]].
  - unfold gives, opt_refrac_index. rops. rcases. divs. apply ok_set. lra.
  - field.
  - lra.
  - intros L E. assert (1 < 299792458 / v) by (apply (Rmult_lt_reg_r v); [lra|]; unfold Rdiv;
      rewrite Rmult_assoc, Rinv_l; lra). lra.
Qed.
(** Exactly which speeds it accepts, both ends included. *)
Theorem C86_refraction_domain v :
  (0 <= v <= light_c -> gives (opt_refrac_index v) (v / light_c))
  /\ (v < 0 \/ light_c < v -> rejects (opt_refrac_index v)).
Proof.
  unfold light_c, gives, rejects, opt_refrac_index. rops. split; intros V.
  - rcases. divs. apply ok_set. lra.
  - destruct V; rcases; reflexivity.
Qed.
Print Assumptions C86_refraction_domain.
Example C86_refraction_case : 0 < 200000000 <= light_c. Proof. unfold light_c. lra. Qed.
(** Below the threshold frequency the photoelectric helper reports a negative
    kinetic energy, and the Bernoulli helper a negative pressure, with status 0. *)
Theorem C86_negative_refuted :
  (exists k, gives (photon_photoelectric 0 1) k /\ k < 0)
  /\ (exists p, gives (fluid_bernoulli 1000 0 0 1) p /\ p < 0).
Proof.
  split.
  - exists (-1). split; [|lra]. unfold gives, photon_photoelectric. rops. rcases. divs. apply ok_set. lra.
  - exists (- (1 / 2)). split; [|lra]. unfold gives, fluid_bernoulli. rops. rcases. apply ok_set. lra.
Qed.
Example C86_case : gives (kin_dist 2 3 4) 24 /\ rejects (kin_dist 2 (-3) 4).
Proof. unfold gives, rejects, kin_dist. split; rops; rcases; [apply ok_set; lra | reflexivity]. Qed.

Print Assumptions C111_charging.
Print Assumptions C111_decay.
Print Assumptions C86_unguarded_refuted.
