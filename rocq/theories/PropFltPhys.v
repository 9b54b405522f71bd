(** Property C159: the physics formulas in double precision.

    [within k y r]: the machine number y is finite and is the real number r up
    to k roundings to nearest ((1 + 2^-53)^k either way).  [moderate x]:
    2^-100 <= |x| <= 2^100.  [positive x]: moderate and greater than 0.  The
    formulas are those of C86; the constants those of SpecPhys.v. *)
From Coq Require Import Floats.PrimFloat.
From Coq Require Import ZArith Bool Reals Lra Lia.
From Verif Require Import Base Out NumF SpecPhys SpecFlt SpecFltRel MPhys PFlt PFltRel PPoly.
Open Scope R_scope.

(** The call answers 0 and stores r up to k roundings. *)
Definition stores (k : nat) (o : outcome (Z * out double)) (r : R) : Prop :=
  exists y, o = Ok (0%Z, Set_ y) /\ within k y r.

(** the value of a literal *)
Ltac flt_val := unfold FR;
  match goal with |- context [FloatOps.Prim2SF ?x] =>
    let y := eval vm_compute in (FloatOps.Prim2SF x) in
    replace (FloatOps.Prim2SF x) with y by (vm_compute; reflexivity) end; cbv iota;
  rewrite ?prz_neg, ?prz_pos;
  repeat match goal with |- context [(2 ^ Z.pos ?p)%Z] =>
    let v := eval vm_compute in (2 ^ Z.pos p)%Z in change (2 ^ Z.pos p)%Z with v end;
  try change (powerRZ 2 0) with 1; lra.

Ltac leaf :=
  match goal with
  | |- nice _ _ ?x _ => is_var x; apply nice_moderate; assumption
  | |- nice _ _ (F_lit 5 1) _ => apply nice_half
  | |- nice _ _ (F_lit 20 1) _ => apply nice_two
  | |- nice _ _ (F_lit 30 1) _ => apply nice_three
  | |- nice _ _ (F_lit 40 1) _ => apply nice_four
  | |- nice _ _ (F_lit 2997924580 1) _ => apply nice_light
  | |- nice _ _ (F_lit 8987551787 0) _ => apply nice_coulomb
  | |- nice _ _ (F_lit 1000 0) _ => apply nice_thousand
  | |- nice _ _ (F_lit 1000000 0) _ => apply nice_million
  | |- nice _ _ (F_lit 9807 3) _ => apply nice_g
  | |- nice _ _ (F_lit 667408 16) _ => apply nice_G
  | |- nice _ _ (F_lit 8314462618 9) _ => apply nice_gas
  | |- nice _ _ (F_lit 314159265359 11) _ => apply nice_pi
  | |- nice _ _ (F_lit 885 14) _ => apply nice_eps
  | |- nice _ _ (F_lit 10 4) _ => apply nice_milli
  | |- nice _ _ (F_of_Z _) _ => apply nice_Z; lia
  end.
Ltac pos := repeat first
  [ assumption | apply mod_sq; assumption
  | apply Rdiv_lt_0_compat | apply Rmult_lt_0_compat | apply Rplus_lt_0_compat | apply sqrt_lt_R0 | lra ].
Ltac rel :=
  match goal with
  | |- nice _ _ (_ * _)%float _ => eapply nice_mul; [rel|rel|lia|lia]
  | |- nice _ _ (_ / _)%float _ => eapply nice_div; [rel|rel|lia|lia]
  | |- nice _ _ (_ + _)%float _ => eapply nice_sum; [rel|rel|pos|pos|lia|lia]
  | |- nice _ _ (- _)%float _ => eapply nice_opp; rel
  | |- nice _ _ (PrimFloat.sqrt _) _ => eapply nice_sqrt; [rel|pos|lia|lia]
  | _ => leaf
  end.
Ltac mods := repeat match goal with
  | H : positive ?x |- _ => pose proof (pos_mod x H); pose proof (proj2 H : 0 < FR x); revert H
  end; intros.
Ltac guards := repeat first
  [ rewrite pos_lt by assumption | rewrite pos_le by assumption | rewrite mod_eq by assumption
  | erewrite nice_eq0 by rel ].
Ltac nz := repeat match goal with H : moderate ?x |- _ => pose proof (nice_nz _ _ _ _ (nice_moderate x H)); clear H end.
Ltac formula d :=
  intros; pose proof consts_pos as (? & ? & ? & ? & ?); mods; unfold d; cbn [flt fle feq f0 f1 fadd fsub fmul fdiv fneg fsqrt flit fofZ NumF bind];
  guards; cbn [orb bind]; eexists; split; [reflexivity|]; eapply within_eq; [rel|lia|];
  nz; cbn [pow]; unfold light_c, coulomb_k;
  first [reflexivity | field; repeat split; lra | f_equal; field; repeat split; lra | idtac].

Theorem C159_kinematics :
  (forall v m, moderate v -> positive m -> stores 3 (kin_ener v m) (FR m * FR v ^ 2 / 2))
  /\ (forall d t, moderate d -> positive t -> stores 1 (kin_av_vel d t) (FR d / FR t))
  /\ (forall vi t a, positive vi -> positive t -> positive a -> stores 4 (kin_dist vi t a) (FR vi * FR t + FR a * FR t ^ 2 / 2))
  /\ (forall vi t a, positive vi -> positive t -> positive a -> stores 2 (kin_vel vi t a) (FR vi + FR a * FR t))
  /\ (forall vh vv, moderate vh -> moderate vv -> stores 3 (proj_vel vh vv) (sqrt (FR vh ^ 2 + FR vv ^ 2)))
  /\ (forall m v, positive m -> moderate v -> stores 1 (mom_mom m v) (FR m * FR v))
  /\ (forall f t, moderate f -> positive t -> stores 1 (mom_imp f t) (FR f * FR t))
  /\ (forall m1 v1 m2 v2, positive m1 -> positive v1 -> positive m2 -> positive v2 -> stores 4 (mom_inelas m1 v1 m2 v2) ((FR m1 * FR v1 + FR m2 * FR v2) / (FR m1 + FR m2))).
Proof.
  repeat split.
  - formula @kin_ener.
  - formula @kin_av_vel.
  - formula @kin_dist.
  - formula @kin_vel.
  - formula @proj_vel.
  - formula @mom_mom.
  - formula @mom_imp.
  - formula @mom_inelas.
Qed.
Print Assumptions C159_kinematics.

Theorem C159_energy :
  (forall v m, moderate v -> positive m -> stores 3 (ener_kin v m) (FR m * FR v ^ 2 / 2))
  /\ (forall w i, moderate w -> positive i -> stores 3 (ener_rot w i) (FR i * FR w ^ 2 / 2))
  /\ (forall m h, positive m -> moderate h -> stores 3 (ener_grav_pot m h) (FR m * gravity * FR h))
  /\ (forall k d, positive k -> moderate d -> stores 3 (ener_elas_pot k d) (FR k * FR d ^ 2 / 2))
  /\ (forall e t, moderate e -> positive t -> stores 1 (ener_power e t) (FR e / FR t))
  /\ (forall f d, positive f -> positive d -> stores 1 (ener_fric f d) (- (FR f * FR d)))
  /\ (forall f d, positive f -> positive d -> stores 1 (work_module f d) (FR f * FR d))
  /\ (forall m a, positive m -> moderate a -> stores 1 (dyn_newton m a) (FR m * FR a))
  /\ (forall m a, positive m -> positive a -> stores 3 (dyn_tension m a) (FR m * (gravity + FR a)))
  /\ (forall d1 f d2, positive d1 -> moderate f -> positive d2 -> stores 2 (dyn_lever d1 f d2) (FR d1 * FR f / FR d2))
  /\ (forall l, positive l -> stores 6 (dyn_pendul_period l) (2 * pi11 * sqrt (FR l / gravity))).
Proof.
  repeat split.
  - formula @ener_kin.
  - formula @ener_rot.
  - formula @ener_grav_pot.
  - formula @ener_elas_pot.
  - formula @ener_power.
  - formula @ener_fric.
  - formula @work_module.
  - formula @dyn_newton.
  - formula @dyn_tension.
  - formula @dyn_lever.
  - formula @dyn_pendul_period.
Qed.
Print Assumptions C159_energy.

Theorem C159_rotation :
  (forall phi r, moderate phi -> positive r -> stores 1 (rot_dist phi r) (FR phi * FR r))
  /\ (forall phi, moderate phi -> stores 3 (rot_turn phi) (FR phi / (2 * pi11)))
  /\ (forall phi t, moderate phi -> positive t -> stores 1 (rot_av_omega phi t) (FR phi / FR t))
  /\ (forall w r, moderate w -> positive r -> stores 1 (rot_vel w r) (FR w * FR r))
  /\ (forall a r, moderate a -> positive r -> stores 1 (rot_accel a r) (FR a * FR r))
  /\ (forall w i, moderate w -> positive i -> stores 3 (rot_ener w i) (FR i * FR w ^ 2 / 2))
  /\ (forall w, positive w -> stores 3 (rot_period w) (2 * pi11 / FR w))
  /\ (forall w, positive w -> stores 3 (rot_frequency w) (FR w / (2 * pi11)))
  /\ (forall v r, moderate v -> positive r -> stores 2 (rot_cent_accel v r) (FR v ^ 2 / FR r))
  /\ (forall t r, positive t -> positive r -> stores 7 (rot_cent_accel2 t r) ((2 * pi11 / FR t) ^ 2 * FR r))
  /\ (forall oi t a, positive oi -> positive t -> positive a -> stores 4 (rot_angle oi t a) (FR oi * FR t + FR a * FR t ^ 2 / 2))
  /\ (forall a c, moderate a -> moderate c -> stores 3 (rot_total_accel a c) (sqrt (FR a ^ 2 + FR c ^ 2)))
  /\ (forall q w, moderate q -> moderate w -> stores 1 (rot_power q w) (FR q * FR w)).
Proof.
  repeat split.
  - formula @rot_dist.
  - formula @rot_turn.
  - formula @rot_av_omega.
  - formula @rot_vel.
  - formula @rot_accel.
  - formula @rot_ener.
  - formula @rot_period.
  - formula @rot_frequency.
  - formula @rot_cent_accel.
  - formula @rot_cent_accel2.
  - formula @rot_angle.
  - formula @rot_total_accel.
  - formula @rot_power.
Qed.
Print Assumptions C159_rotation.

Theorem C159_gravitation :
  (forall m r, positive m -> positive r -> stores 5 (grav_esc_vel m r) (sqrt (2 * newton_G * FR m / FR r)))
  /\ (forall m r, positive m -> positive r -> stores 4 (grav_orb_vel m r) (sqrt (newton_G * FR m / FR r)))
  /\ (forall m s r, positive m -> positive s -> positive r -> stores 12 (grav_orb_period m s r) (sqrt ((2 * pi11) ^ 2 * FR r ^ 3 / (newton_G * (FR m + FR s)))))
  /\ (forall m r, moderate m -> moderate r -> stores 4 (grav_acc m r) (- newton_G * FR m / FR r ^ 2))
  /\ (forall m1 m2 r, moderate m1 -> moderate m2 -> moderate r -> stores 5 (grav_force m1 m2 r) (- newton_G * FR m1 * FR m2 / FR r ^ 2))
  /\ (forall m1 m2 r, moderate m1 -> moderate m2 -> moderate r -> stores 5 (grav_pot_ener m1 m2 r) (- newton_G * FR m1 * FR m2 / (1000 * FR r))).
Proof.
  repeat split.
  - formula @grav_esc_vel.
  - formula @grav_orb_vel.
  - formula @grav_orb_period.
  - formula @grav_acc.
  - formula @grav_force.
  - formula @grav_pot_ener.
Qed.
Print Assumptions C159_gravitation.

Theorem C159_fluids_and_gases :
  (forall m v, positive m -> positive v -> stores 1 (fluid_dens m v) (FR m / FR v))
  /\ (forall f a, positive f -> positive a -> stores 1 (fluid_simple_press f a) (FR f / FR a))
  /\ (forall p0 h d, positive p0 -> positive h -> positive d -> stores 6 (fluid_press p0 h d) (FR p0 + FR h * FR d * gravity / 1000))
  /\ (forall v d, positive v -> positive d -> stores 5 (fluid_bouyant_force v d) (FR v * FR d * gravity / 1000))
  /\ (forall a1 v1 a2, positive a1 -> positive v1 -> positive a2 -> stores 2 (fluid_flow_rate a1 v1 a2) (FR a1 * FR v1 / FR a2))
  /\ (forall a1 f a2, positive a1 -> positive f -> positive a2 -> stores 2 (fluid_force_prop a1 f a2) (FR a2 * FR f / FR a1))
  /\ (forall v a, positive v -> positive a -> stores 1 (fluid_volume_flow_rate v a) (FR v * FR a))
  /\ (forall m n t, positive m -> positive n -> positive t -> stores 6 (gas_av_vel m n t) (sqrt (3 * FR n * gas_R * FR t / FR m)))
  /\ (forall v n t, positive v -> positive n -> positive t -> stores 4 (gas_press v n t) (FR n * gas_R * FR t / FR v))
  /\ (forall p v pf, positive p -> positive v -> positive pf -> stores 2 (gas_boyle p v pf) (FR p * FR v / FR pf))
  /\ (forall ti v tf, positive ti -> positive v -> positive tf -> stores 2 (gas_charles_lussac ti v tf) (FR v * FR tf / FR ti))
  /\ (forall m l, positive m -> positive l -> stores 1 (thermo_heat_fusion m l) (FR m * FR l))
  /\ (forall m c t, positive m -> positive c -> moderate t -> stores 2 (thermo_heat m c t) (FR m * FR c * FR t))
  /\ (forall l a t, positive l -> positive a -> positive t -> stores 3 (thermo_expan l a t) (FR l * (1 + FR a * FR t)))
  /\ (forall nv d, positive nv -> positive d -> stores 7 (thermo_mean_free_path nv d) (1000000 / (sqrt 2 * pi11 * FR d ^ 2 * FR nv))).
Proof.
  repeat split.
  - formula @fluid_dens.
  - formula @fluid_simple_press.
  - formula @fluid_press.
  - formula @fluid_bouyant_force.
  - formula @fluid_flow_rate.
  - formula @fluid_force_prop.
  - formula @fluid_volume_flow_rate.
  - formula @gas_av_vel.
  - formula @gas_press.
  - formula @gas_boyle.
  - formula @gas_charles_lussac.
  - formula @thermo_heat_fusion.
  - formula @thermo_heat.
  - formula @thermo_expan.
  - formula @thermo_mean_free_path.
Qed.
Print Assumptions C159_fluids_and_gases.

Theorem C159_waves_and_light :
  (forall b k a, positive b -> positive k -> positive a -> stores 2 (sound_press_amp b k a) (FR b * FR k * FR a))
  /\ (forall b d p, positive b -> positive d -> positive p -> stores 6 (sound_intensity b d p) (FR p ^ 2 * sqrt (FR b / FR d) / (2 * FR b)))
  /\ (forall s t, positive s -> positive t -> stores 3 (opt_focus s t) (/ (/ FR s + / FR t)))
  /\ (forall f, moderate f -> stores 1 (opt_power f) (/ FR f))
  /\ (forall y1 y2, positive y1 -> positive y2 -> stores 1 (opt_magn y1 y2) (FR y2 / FR y1))
  /\ (forall f, positive f -> stores 1 (photon_wavelength f) (light_c / FR f))
  /\ (forall l, positive l -> stores 1 (photon_frequency l) (light_c / FR l)).
Proof.
  repeat split.
  - formula @sound_press_amp.
  - formula @sound_intensity.
  - formula @opt_focus.
  - formula @opt_power.
  - formula @opt_magn.
  - formula @photon_wavelength.
  - formula @photon_frequency.
Qed.
Print Assumptions C159_waves_and_light.

Theorem C159_electricity :
  (forall q v, moderate q -> positive v -> stores 1 (elec_charge_dens q v) (FR q / FR v))
  /\ (forall q1 q2 r, moderate q1 -> moderate q2 -> positive r -> stores 4 (elec_force q1 q2 r) (coulomb_k * FR q1 * FR q2 / FR r ^ 2))
  /\ (forall q e, moderate q -> moderate e -> stores 1 (elec_force2 q e) (FR q * FR e))
  /\ (forall q r, moderate q -> positive r -> stores 3 (elec_field q r) (coulomb_k * FR q / FR r ^ 2))
  /\ (forall q1 q2 r, moderate q1 -> moderate q2 -> positive r -> stores 3 (elec_pot_ener q1 q2 r) (coulomb_k * FR q1 * FR q2 / FR r))
  /\ (forall q r, moderate q -> positive r -> stores 2 (elec_potential q r) (coulomb_k * FR q / FR r))
  /\ (forall q t, moderate q -> positive t -> stores 1 (elcty_current q t) (FR q / FR t))
  /\ (forall r a l, positive r -> positive a -> positive l -> stores 2 (elcty_resistivity r a l) (FR r * FR a / FR l))
  /\ (forall i r, moderate i -> positive r -> stores 1 (elcty_ohm_law i r) (FR i * FR r))
  /\ (forall v i, moderate v -> moderate i -> stores 1 (elcty_power_vi v i) (FR v * FR i))
  /\ (forall i r, moderate i -> positive r -> stores 2 (elcty_power_ir i r) (FR i ^ 2 * FR r))
  /\ (forall v r, moderate v -> positive r -> stores 2 (elcty_power_vr v r) (FR v ^ 2 / FR r))
  /\ (forall q v, moderate q -> moderate v -> stores 1 (ecmp_capac_cpv q v) (FR q / FR v))
  /\ (forall a d, moderate a -> moderate d -> stores 3 (ecmp_capac_ad a d) (vacuum_eps * FR a / FR d))
  /\ (forall c v, moderate c -> moderate v -> stores 3 (ecmp_ener_capac c v) (FR c * FR v ^ 2 / 2))
  /\ (forall l i, moderate l -> moderate i -> stores 3 (ecmp_ener_induc l i) (FR l * FR i ^ 2 / 2))
  /\ (forall i a, moderate i -> positive a -> stores 1 (magn_mom i a) (FR i * FR a)).
Proof.
  repeat split.
  - formula @elec_charge_dens.
  - formula @elec_force.
  - formula @elec_force2.
  - formula @elec_field.
  - formula @elec_pot_ener.
  - formula @elec_potential.
  - formula @elcty_current.
  - formula @elcty_resistivity.
  - formula @elcty_ohm_law.
  - formula @elcty_power_vi.
  - formula @elcty_power_ir.
  - formula @elcty_power_vr.
  - formula @ecmp_capac_cpv.
  - formula @ecmp_capac_ad.
  - formula @ecmp_ener_capac.
  - formula @ecmp_ener_induc.
  - formula @magn_mom.
Qed.
Print Assumptions C159_electricity.

(** The transformer law, between numbers of turns *)
Theorem C159_transformer :
  forall t1 v t2, (0 < t1 < 2 ^ 53)%Z -> (0 < t2 < 2 ^ 53)%Z -> moderate v ->
  stores 2 (ecmp_trans t1 v t2) (FR v * IZR t2 / IZR t1).
Proof.
  intros t1 v t2 H1 H2 Hv. unfold ecmp_trans. rewrite (proj2 (Z.eqb_neq t1 0)) by lia.
  cbn [fmul fdiv fofZ NumF bind]. eexists. split; [reflexivity|]. eapply within_eq; [rel|lia|reflexivity].
Qed.
Print Assumptions C159_transformer.

(** What k roundings are worth: a relative error of at most k * 1.12e-16 for the k above. *)
Theorem C159_relative :
  forall k y r, (k <= 12)%nat -> within k y r -> Rabs (FR y - r) <= INR k * (9 / 8) * uu * Rabs r.
Proof. exact within_rel. Qed.
Print Assumptions C159_relative.

(** Outside the range an intermediate product may overflow or vanish although
    the answer is an ordinary number: Boyle's law, 1e200 * 1e200 / 1e300 and
    1e-200 * 1e-200 / 1e-300. *)
Theorem C159_range_refuted :
  gas_boyle 1e200%float 1e200%float 1e300%float = Ok (0%Z, Set_ infinity)
  /\ gas_boyle 1e-200%float 1e-200%float 1e-300%float = Ok (0%Z, Set_ 0%float).
Proof. split; vm_compute; reflexivity. Qed.
Print Assumptions C159_range_refuted.

(** ... and a difference may lose everything: the velocity after a braking
    that leaves 2^-104 of it is answered as 0. *)
Theorem C159_cancel_refuted :
  exists vi t a, moderate vi /\ positive t /\ moderate a /\ FR vi + FR a * FR t = / 2 ^ 104
    /\ forall k, ~ stores k (kin_vel vi t a) (FR vi + FR a * FR t).
Proof.
  exists 1%float, 0x1.0000000000001p0%float, (-0x1.ffffffffffffep-1)%float.
  assert (E1 : FR 1%float = 1) by exact PFltUnit.FR_one.
  assert (E2 : FR 0x1.0000000000001p0%float = 4503599627370497 / 4503599627370496) by flt_val.
  assert (E3 : FR (-0x1.ffffffffffffep-1)%float = - (4503599627370495 / 4503599627370496)) by flt_val.
  assert (S : FR 1%float + FR (-0x1.ffffffffffffep-1)%float * FR 0x1.0000000000001p0%float = / 2 ^ 104).
  { rewrite E1, E2, E3. lra. }
  split; [|split; [|split; [|split; [exact S|]]]].
  - split; [reflexivity|]. rewrite E1, Rabs_pos_eq by lra. lra.
  - split; [|rewrite E2; lra]. split; [reflexivity|]. rewrite E2, Rabs_pos_eq by lra. lra.
  - split; [reflexivity|]. rewrite E3, Rabs_Ropp, Rabs_pos_eq by lra. lra.
  - intros k (y & Ey & _ & t & (L & _) & E). rewrite S in E.
    replace (kin_vel 1%float 0x1.0000000000001p0%float (-0x1.ffffffffffffep-1)%float) with (Ok (0%Z, Set_ 0%float)) in Ey
      by (vm_compute; reflexivity).
    assert (Y : y = 0%float) by congruence. subst y. change 0%float with zero in E. rewrite FR_zero in E.
    pose proof (Rinv_0_lt_compat _ (qk_pos k)). pose proof (ip2 104). nra.
Qed.
Print Assumptions C159_cancel_refuted.

Example C159_example :
  positive 0.25%float /\ moderate (-3)%float
  /\ stores 3 (kin_ener (-3)%float 0.25%float) (9 / 8) /\ kin_ener (-3)%float 0.25%float = Ok (0%Z, Set_ 1.125%float).
Proof.
  assert (E1 : FR 0.25%float = 1 / 4) by flt_val.
  assert (E2 : FR (-3)%float = -3) by flt_val.
  assert (P : positive 0.25%float).
  { split; [|rewrite E1; lra]. split; [reflexivity|]. rewrite E1, Rabs_pos_eq by lra. lra. }
  assert (Mv : moderate (-3)%float).
  { split; [reflexivity|]. rewrite E2. unfold Rabs. destruct Rcase_abs; lra. }
  split; [exact P|]. split; [exact Mv|]. split; [|vm_compute; reflexivity].
  replace (9 / 8) with (FR 0.25%float * FR (-3)%float ^ 2 / 2) by (rewrite E1, E2; lra).
  now apply (proj1 C159_kinematics).
Qed.
