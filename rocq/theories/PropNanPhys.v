(** Property C160: not a number in, not a number out.

    [M] is the C mathematical library; [nan_through M] is what IEEE 754 says of
    it: not-a-number goes through exp, sin, cos, log10, asin, and through pow
    unless the exponent is 0 or the base is 1. *)
From Coq Require Import Floats.PrimFloat.
From Coq Require Import ZArith Bool List Lia.
From Verif Require Import Base Out NumF Libm BaseFacts SpecVec SpecFltNan MVec MPhys MPhysVec PBal PNanQuat PNanPhys PPoly.
Import ListNotations.

(** src/physics/kinematics.c *)
Theorem C160_kinematics :
  forall (M : NumM double), nan_through M ->
  (forall (vi : double) (time : double) (accel : double) rc res, nan_among [vi; time; accel] -> kin_dist vi time accel = Ok (rc, res) -> lost res)
  /\ (forall (vi : double) (vf : double) (a : double) (xf : double) rc res, nan_among [vi; vf; a; xf] -> kin_init_pos2 vi vf a xf = Ok (rc, res) -> lost res)
  /\ (forall (vi : double) (time : double) (accel : double) rc res, nan_among [vi; time; accel] -> kin_vel vi time accel = Ok (rc, res) -> lost res)
  /\ (forall (vi : double) (dist : double) (accel : double) rc res, nan_among [vi; dist; accel] -> kin_vel2 vi dist accel = Ok (rc, res) -> lost res)
  /\ (forall (vf : double) (a : double) (t : double) rc res, nan_among [vf; a; t] -> kin_init_vel vf a t = Ok (rc, res) -> lost res)
  /\ (forall (dist : double) (a : double) (t : double) rc res, nan_among [dist; a; t] -> kin_init_vel2 dist a t = Ok (rc, res) -> lost res)
  /\ (forall (vf : double) (a : double) (dist : double) rc res, nan_among [vf; a; dist] -> kin_init_vel3 vf a dist = Ok (rc, res) -> lost res)
  /\ (forall (dist : double) (time : double) rc res, nan_among [dist; time] -> kin_av_vel dist time = Ok (rc, res) -> lost res)
  /\ (forall (vi : double) (vf : double) (time : double) rc res, nan_among [vi; vf; time] -> kin_accel vi vf time = Ok (rc, res) -> lost res)
  /\ (forall (v : double) (m : double) rc res, nan_among [v; m] -> kin_ener v m = Ok (rc, res) -> lost res).
Proof.
  intros M L. repeat match goal with |- _ /\ _ => split end.
  - nan_in @kin_dist.
  - nan_in @kin_init_pos2.
  - nan_in @kin_vel.
  - nan_in @kin_vel2.
  - nan_in @kin_init_vel.
  - nan_in @kin_init_vel2.
  - nan_in @kin_init_vel3.
  - nan_in @kin_av_vel.
  - nan_in @kin_accel.
  - nan_in @kin_ener.
Qed.
Print Assumptions C160_kinematics.

(** src/physics/projectiles.c *)
Theorem C160_projectiles :
  forall (M : NumM double), nan_through M ->
  (forall (viv : double) (yi : double) (yf : double) rc res, nan_among [viv; yi; yf] -> proj_time viv yi yf = Ok (rc, res) -> lost res)
  /\ (forall (viv : double) (yi : double) (yf : double) rc res, nan_among [viv; yi; yf] -> proj_time_first viv yi yf = Ok (rc, res) -> lost res)
  /\ (forall (viv : double) (vfv : double) rc res, nan_among [viv; vfv] -> proj_time2 viv vfv = Ok (rc, res) -> lost res)
  /\ (forall (viv : double) (t : double) (yi : double) rc res, nan_among [viv; t; yi] -> proj_ver_motion viv t yi = Ok (rc, res) -> lost res)
  /\ (forall (viv : double) (t : double) rc res, nan_among [viv; t] -> proj_ver_vel viv t = Ok (rc, res) -> lost res)
  /\ (forall (vih : double) (t : double) (xi : double) rc res, nan_among [vih; t; xi] -> proj_hor_motion vih t xi = Ok (rc, res) -> lost res)
  /\ (forall (vfh : double) (vfv : double) rc res, nan_among [vfh; vfv] -> proj_vel vfh vfv = Ok (rc, res) -> lost res).
Proof.
  intros M L. repeat match goal with |- _ /\ _ => split end.
  - nan_in @proj_time.
  - nan_in @proj_time_first.
  - nan_in @proj_time2.
  - nan_in @proj_ver_motion.
  - nan_in @proj_ver_vel.
  - nan_in @proj_hor_motion.
  - nan_in @proj_vel.
Qed.
Print Assumptions C160_projectiles.

(** src/physics/momentum.c *)
Theorem C160_momentum :
  forall (M : NumM double), nan_through M ->
  (forall (m : double) (v : double) rc res, nan_among [m; v] -> mom_mom m v = Ok (rc, res) -> lost res)
  /\ (forall (f : double) (time : double) rc res, nan_among [f; time] -> mom_imp f time = Ok (rc, res) -> lost res)
  /\ (forall (m : double) (vi : double) (vf : double) rc res, nan_among [m; vi; vf] -> mom_change m vi vf = Ok (rc, res) -> lost res)
  /\ (forall (m1 : double) (vi1 : double) (vf1 : double) (m2 : double) (vi2 : double) rc res, nan_among [m1; vi1; vf1; m2; vi2] -> mom_elas m1 vi1 vf1 m2 vi2 = Ok (rc, res) -> lost res)
  /\ (forall (m1 : double) (vi1 : double) (m2 : double) (vi2 : double) rc res, nan_among [m1; vi1; m2; vi2] -> mom_inelas m1 vi1 m2 vi2 = Ok (rc, res) -> lost res).
Proof.
  intros M L. repeat match goal with |- _ /\ _ => split end.
  - nan_in @mom_mom.
  - nan_in @mom_imp.
  - nan_in @mom_change.
  - nan_in @mom_elas.
  - nan_in @mom_inelas.
Qed.
Print Assumptions C160_momentum.

(** src/physics/energy.c *)
Theorem C160_energy :
  forall (M : NumM double), nan_through M ->
  (forall (v : double) (m : double) rc res, nan_among [v; m] -> ener_kin v m = Ok (rc, res) -> lost res)
  /\ (forall (omega : double) (i : double) rc res, nan_among [omega; i] -> ener_rot omega i = Ok (rc, res) -> lost res)
  /\ (forall (m : double) (h : double) rc res, nan_among [m; h] -> ener_grav_pot m h = Ok (rc, res) -> lost res)
  /\ (forall (k : double) (dist : double) rc res, nan_among [k; dist] -> ener_elas_pot k dist = Ok (rc, res) -> lost res)
  /\ (forall (ener : double) (time : double) rc res, nan_among [ener; time] -> ener_power ener time = Ok (rc, res) -> lost res)
  /\ (forall (fric : double) (dist : double) rc res, nan_among [fric; dist] -> ener_fric fric dist = Ok (rc, res) -> lost res)
  /\ (forall (ke : double) (rke : double) (ug : double) (ue : double) rc res, nan_among [ke; rke; ug; ue] -> ener_mec ke rke ug ue = Ok (rc, res) -> lost res)
  /\ (forall (ei1 : double) (ei2 : double) (ei3 : double) (ei4 : double) (ef1 : double) (ef2 : double) (ef3 : double) rc res, nan_among [ei1; ei2; ei3; ei4; ef1; ef2; ef3] -> ener_final ei1 ei2 ei3 ei4 ef1 ef2 ef3 = Ok (rc, res) -> lost res)
  /\ (forall (f : double) rc res, nan_among [f] -> ener_photon f = Ok (rc, res) -> lost res)
  /\ (forall (lambda : double) rc res, nan_among [lambda] -> ener_photon2 lambda = Ok (rc, res) -> lost res).
Proof.
  intros M L. repeat match goal with |- _ /\ _ => split end.
  - nan_in @ener_kin.
  - nan_in @ener_rot.
  - nan_in @ener_grav_pot.
  - nan_in @ener_elas_pot.
  - nan_in @ener_power.
  - nan_in @ener_fric.
  - nan_in @ener_mec.
  - nan_in @ener_final.
  - nan_in @ener_photon.
  - nan_in @ener_photon2.
Qed.
Print Assumptions C160_energy.

(** src/physics/work.c *)
Theorem C160_work :
  forall (M : NumM double), nan_through M ->
  (forall (f : double) (d : double) rc res, nan_among [f; d] -> work_module f d = Ok (rc, res) -> lost res)
  /\ (forall (k1 : double) (k2 : double) rc res, nan_among [k1; k2] -> work_kin k1 k2 = Ok (rc, res) -> lost res).
Proof.
  intros M L. repeat match goal with |- _ /\ _ => split end.
  - nan_in @work_module.
  - nan_in @work_kin.
Qed.
Print Assumptions C160_work.

(** src/physics/dynamics.c *)
Theorem C160_dynamics :
  forall (M : NumM double), nan_through M ->
  (forall (m : double) (accel : double) rc res, nan_among [m; accel] -> dyn_newton m accel = Ok (rc, res) -> lost res)
  /\ (forall (n : double) (mu : double) rc res, nan_among [n; mu] -> dyn_fric n mu = Ok (rc, res) -> lost res)
  /\ (forall (m : double) (theta : double) rc res, nan_among [m; theta] -> dyn_normal (M := M) m theta = Ok (rc, res) -> lost res)
  /\ (forall (l : double) rc res, nan_among [l] -> dyn_pendul_period l = Ok (rc, res) -> lost res)
  /\ (forall (l : double) (oi : double) rc res, nan_among [l; oi] -> dyn_pendul_max_speed (M := M) l oi = Ok (rc, res) -> lost res)
  /\ (forall (m : double) (a : double) rc res, nan_among [m; a] -> dyn_tension m a = Ok (rc, res) -> lost res)
  /\ (forall (d1 : double) (f1 : double) (d2 : double) rc res, nan_among [d1; f1; d2] -> dyn_lever d1 f1 d2 = Ok (rc, res) -> lost res).
Proof.
  intros M L. repeat match goal with |- _ /\ _ => split end.
  - nan_in @dyn_newton.
  - nan_in @dyn_fric.
  - nan_in @dyn_normal.
  - nan_in @dyn_pendul_period.
  - nan_in @dyn_pendul_max_speed.
  - nan_in @dyn_tension.
  - nan_in @dyn_lever.
Qed.
Print Assumptions C160_dynamics.

(** src/physics/rotation.c *)
Theorem C160_rotation :
  forall (M : NumM double), nan_through M ->
  (forall (oi : double) (time : double) (a : double) rc res, nan_among [oi; time; a] -> rot_angle oi time a = Ok (rc, res) -> lost res)
  /\ (forall (phi : double) (r : double) rc res, nan_among [phi; r] -> rot_dist phi r = Ok (rc, res) -> lost res)
  /\ (forall (phi : double) rc res, nan_among [phi] -> rot_turn phi = Ok (rc, res) -> lost res)
  /\ (forall (oi : double) (time : double) (a : double) rc res, nan_among [oi; time; a] -> rot_omega oi time a = Ok (rc, res) -> lost res)
  /\ (forall (oi : double) (phi : double) (a : double) rc res, nan_among [oi; phi; a] -> rot_omega2 oi phi a = Ok (rc, res) -> lost res)
  /\ (forall (phi : double) (time : double) rc res, nan_among [phi; time] -> rot_av_omega phi time = Ok (rc, res) -> lost res)
  /\ (forall (omega : double) (r : double) rc res, nan_among [omega; r] -> rot_vel omega r = Ok (rc, res) -> lost res)
  /\ (forall (oi : double) (of_ : double) (time : double) rc res, nan_among [oi; of_; time] -> rot_ang_accel oi of_ time = Ok (rc, res) -> lost res)
  /\ (forall (a : double) (r : double) rc res, nan_among [a; r] -> rot_accel a r = Ok (rc, res) -> lost res)
  /\ (forall (omega : double) (i : double) rc res, nan_among [omega; i] -> rot_ener omega i = Ok (rc, res) -> lost res)
  /\ (forall (omega : double) rc res, nan_among [omega] -> rot_period omega = Ok (rc, res) -> lost res)
  /\ (forall (omega : double) rc res, nan_among [omega] -> rot_frequency omega = Ok (rc, res) -> lost res)
  /\ (forall (vel : double) (r : double) rc res, nan_among [vel; r] -> rot_cent_accel vel r = Ok (rc, res) -> lost res)
  /\ (forall (t : double) (r : double) rc res, nan_among [t; r] -> rot_cent_accel2 t r = Ok (rc, res) -> lost res)
  /\ (forall (accel : double) (ca : double) rc res, nan_among [accel; ca] -> rot_total_accel accel ca = Ok (rc, res) -> lost res)
  /\ (forall (torque : double) (omega : double) rc res, nan_among [torque; omega] -> rot_power torque omega = Ok (rc, res) -> lost res).
Proof.
  intros M L. repeat match goal with |- _ /\ _ => split end.
  - nan_in @rot_angle.
  - nan_in @rot_dist.
  - nan_in @rot_turn.
  - nan_in @rot_omega.
  - nan_in @rot_omega2.
  - nan_in @rot_av_omega.
  - nan_in @rot_vel.
  - nan_in @rot_ang_accel.
  - nan_in @rot_accel.
  - nan_in @rot_ener.
  - nan_in @rot_period.
  - nan_in @rot_frequency.
  - nan_in @rot_cent_accel.
  - nan_in @rot_cent_accel2.
  - nan_in @rot_total_accel.
  - nan_in @rot_power.
Qed.
Print Assumptions C160_rotation.

(** src/physics/gravitation.c *)
Theorem C160_gravitation :
  forall (M : NumM double), nan_through M ->
  (forall (mp : double) (msat : double) (r : double) rc res, nan_among [mp; msat; r] -> grav_orb_period mp msat r = Ok (rc, res) -> lost res)
  /\ (forall (mp : double) (r : double) rc res, nan_among [mp; r] -> grav_esc_vel mp r = Ok (rc, res) -> lost res)
  /\ (forall (m : double) (r : double) rc res, nan_among [m; r] -> grav_acc m r = Ok (rc, res) -> lost res)
  /\ (forall (mp : double) (r : double) rc res, nan_among [mp; r] -> grav_orb_vel mp r = Ok (rc, res) -> lost res)
  /\ (forall (m1 : double) (m2 : double) (r : double) rc res, nan_among [m1; m2; r] -> grav_force m1 m2 r = Ok (rc, res) -> lost res)
  /\ (forall (m1 : double) (m2 : double) (r : double) rc res, nan_among [m1; m2; r] -> grav_pot_ener m1 m2 r = Ok (rc, res) -> lost res).
Proof.
  intros M L. repeat match goal with |- _ /\ _ => split end.
  - nan_in @grav_orb_period.
  - nan_in @grav_esc_vel.
  - nan_in @grav_acc.
  - nan_in @grav_orb_vel.
  - nan_in @grav_force.
  - nan_in @grav_pot_ener.
Qed.
Print Assumptions C160_gravitation.

(** src/physics/fluids.c *)
Theorem C160_fluids :
  forall (M : NumM double), nan_through M ->
  (forall (m : double) (v : double) rc res, nan_among [m; v] -> fluid_dens m v = Ok (rc, res) -> lost res)
  /\ (forall (f : double) (a : double) rc res, nan_among [f; a] -> fluid_simple_press f a = Ok (rc, res) -> lost res)
  /\ (forall (p0 : double) (h : double) (d : double) rc res, nan_among [p0; h; d] -> fluid_press p0 h d = Ok (rc, res) -> lost res)
  /\ (forall (v : double) (d : double) rc res, nan_among [v; d] -> fluid_bouyant_force v d = Ok (rc, res) -> lost res)
  /\ (forall (a1 : double) (v1 : double) (a2 : double) rc res, nan_among [a1; v1; a2] -> fluid_flow_rate a1 v1 a2 = Ok (rc, res) -> lost res)
  /\ (forall (a1 : double) (f1 : double) (a2 : double) rc res, nan_among [a1; f1; a2] -> fluid_force_prop a1 f1 a2 = Ok (rc, res) -> lost res)
  /\ (forall (d : double) (v1 : double) (p1 : double) (v2 : double) rc res, nan_among [d; v1; p1; v2] -> fluid_bernoulli d v1 p1 v2 = Ok (rc, res) -> lost res)
  /\ (forall (vel : double) (a : double) rc res, nan_among [vel; a] -> fluid_volume_flow_rate vel a = Ok (rc, res) -> lost res).
Proof.
  intros M L. repeat match goal with |- _ /\ _ => split end.
  - nan_in @fluid_dens.
  - nan_in @fluid_simple_press.
  - nan_in @fluid_press.
  - nan_in @fluid_bouyant_force.
  - nan_in @fluid_flow_rate.
  - nan_in @fluid_force_prop.
  - nan_in @fluid_bernoulli.
  - nan_in @fluid_volume_flow_rate.
Qed.
Print Assumptions C160_fluids.

(** src/physics/gases.c *)
Theorem C160_gases :
  forall (M : NumM double), nan_through M ->
  (forall (m : double) (n : double) (t : double) rc res, nan_among [m; n; t] -> gas_av_vel m n t = Ok (rc, res) -> lost res)
  /\ (forall (v : double) (n : double) (t : double) rc res, nan_among [v; n; t] -> gas_press v n t = Ok (rc, res) -> lost res)
  /\ (forall (pi : double) (vi : double) (pf : double) rc res, nan_among [pi; vi; pf] -> gas_boyle pi vi pf = Ok (rc, res) -> lost res)
  /\ (forall (ti : double) (vi : double) (tf : double) rc res, nan_among [ti; vi; tf] -> gas_charles_lussac ti vi tf = Ok (rc, res) -> lost res).
Proof.
  intros M L. repeat match goal with |- _ /\ _ => split end.
  - nan_in @gas_av_vel.
  - nan_in @gas_press.
  - nan_in @gas_boyle.
  - nan_in @gas_charles_lussac.
Qed.
Print Assumptions C160_gases.

(** src/physics/thermo.c *)
Theorem C160_thermo :
  forall (M : NumM double), nan_through M ->
  (forall (m : double) (lh : double) rc res, nan_among [m; lh] -> thermo_heat_fusion m lh = Ok (rc, res) -> lost res)
  /\ (forall (m : double) (sh : double) (t : double) rc res, nan_among [m; sh; t] -> thermo_heat m sh t = Ok (rc, res) -> lost res)
  /\ (forall (l0 : double) (a : double) (t : double) rc res, nan_among [l0; a; t] -> thermo_expan l0 a t = Ok (rc, res) -> lost res)
  /\ (forall (nv : double) (d : double) rc res, nan_among [nv; d] -> thermo_mean_free_path nv d = Ok (rc, res) -> lost res)
  /\ (forall (qc : double) (qh : double) rc res, nan_among [qc; qh] -> thermo_effic_heat_engine qc qh = Ok (rc, res) -> lost res)
  /\ (forall (tc : double) (qc : double) (th : double) rc res, nan_among [tc; qc; th] -> thermo_carnot_engine tc qc th = Ok (rc, res) -> lost res).
Proof.
  intros M L. repeat match goal with |- _ /\ _ => split end.
  - nan_in @thermo_heat_fusion.
  - nan_in @thermo_heat.
  - nan_in @thermo_expan.
  - nan_in @thermo_mean_free_path.
  - nan_in @thermo_effic_heat_engine.
  - nan_in @thermo_carnot_engine.
Qed.
Print Assumptions C160_thermo.

(** src/physics/sound.c *)
Theorem C160_sound :
  forall (M : NumM double), nan_through M ->
  (forall (b : double) (k : double) (a : double) rc res, nan_among [b; k; a] -> sound_press_amp b k a = Ok (rc, res) -> lost res)
  /\ (forall (i : double) (i0 : double) rc res, nan_among [i; i0] -> sound_level (M := M) i i0 = Ok (rc, res) -> lost res)
  /\ (forall (b : double) (d : double) (p : double) rc res, nan_among [b; d; p] -> sound_intensity b d p = Ok (rc, res) -> lost res)
  /\ (forall (v : double) (vs : double) rc res, nan_among [v; vs] -> sound_shock_wave_angle (M := M) v vs = Ok (rc, res) -> lost res)
  /\ (forall (v : double) (vs : double) (vl : double) (fs : double) rc res, nan_among [v; vs; vl; fs] -> sound_dop_effect v vs vl fs = Ok (rc, res) -> lost res)
  /\ (forall (fa : double) (fb : double) rc res, nan_among [fa; fb] -> sound_beat fa fb = Ok (rc, res) -> lost res).
Proof.
  intros M L. repeat match goal with |- _ /\ _ => split end.
  - nan_in @sound_press_amp.
  - nan_in @sound_level.
  - nan_in @sound_intensity.
  - nan_in @sound_shock_wave_angle.
  - nan_in @sound_dop_effect.
  - nan_in @sound_beat.
Qed.
Print Assumptions C160_sound.

(** src/physics/optics.c *)
Theorem C160_optics :
  forall (M : NumM double), nan_through M ->
  (forall (v : double) rc res, nan_among [v] -> opt_refrac_index v = Ok (rc, res) -> lost res)
  /\ (forall (sr : double) (si : double) rc res, nan_among [sr; si] -> opt_focus sr si = Ok (rc, res) -> lost res)
  /\ (forall (n1 : double) (n2 : double) rc res, nan_among [n1; n2] -> opt_critic_angle (M := M) n1 n2 = Ok (rc, res) -> lost res)
  /\ (forall (f : double) rc res, nan_among [f] -> opt_power f = Ok (rc, res) -> lost res)
  /\ (forall (y1 : double) (y2 : double) rc res, nan_among [y1; y2] -> opt_magn y1 y2 = Ok (rc, res) -> lost res)
  /\ (forall (n : Z) (lambda : double) (o : double) rc res, nan_among [lambda; o] -> opt_dif (M := M) n lambda o = Ok (rc, res) -> lost res).
Proof.
  intros M L. repeat match goal with |- _ /\ _ => split end.
  - nan_in @opt_refrac_index.
  - nan_in @opt_focus.
  - nan_in @opt_critic_angle.
  - nan_in @opt_power.
  - nan_in @opt_magn.
  - nan_in @opt_dif.
Qed.
Print Assumptions C160_optics.

(** src/physics/photons.c *)
Theorem C160_photons :
  forall (M : NumM double), nan_through M ->
  (forall (lambda : double) rc res, nan_among [lambda] -> photon_ener lambda = Ok (rc, res) -> lost res)
  /\ (forall (lambda : double) rc res, nan_among [lambda] -> photon_mom lambda = Ok (rc, res) -> lost res)
  /\ (forall (f : double) rc res, nan_among [f] -> photon_wavelength f = Ok (rc, res) -> lost res)
  /\ (forall (lambda : double) rc res, nan_among [lambda] -> photon_frequency lambda = Ok (rc, res) -> lost res)
  /\ (forall (f : double) (w : double) rc res, nan_among [f; w] -> photon_photoelectric f w = Ok (rc, res) -> lost res).
Proof.
  intros M L. repeat match goal with |- _ /\ _ => split end.
  - nan_in @photon_ener.
  - nan_in @photon_mom.
  - nan_in @photon_wavelength.
  - nan_in @photon_frequency.
  - nan_in @photon_photoelectric.
Qed.
Print Assumptions C160_photons.

(** src/physics/atomic.c *)
Theorem C160_atomic :
  forall (M : NumM double), nan_through M ->
  (forall (qi : double) (t : double) (lambda : double) rc res, nan_among [qi; t; lambda] -> atom_rad_decay (M := M) qi t lambda = Ok (rc, res) -> lost res)
  /\ (forall (n : Z) (theta : double) (lambda : double) rc res, nan_among [theta; lambda] -> atom_bragg (M := M) n theta lambda = Ok (rc, res) -> lost res).
Proof.
  intros M L. repeat match goal with |- _ /\ _ => split end.
  - nan_in @atom_rad_decay.
  - nan_in @atom_bragg.
Qed.
Print Assumptions C160_atomic.

(** src/physics/electric.c *)
Theorem C160_electric :
  forall (M : NumM double), nan_through M ->
  (forall (q : double) (v : double) rc res, nan_among [q; v] -> elec_charge_dens q v = Ok (rc, res) -> lost res)
  /\ (forall (q1 : double) (q2 : double) (r : double) rc res, nan_among [q1; q2; r] -> elec_force q1 q2 r = Ok (rc, res) -> lost res)
  /\ (forall (q : double) (e : double) rc res, nan_among [q; e] -> elec_force2 q e = Ok (rc, res) -> lost res)
  /\ (forall (q : double) (r : double) rc res, nan_among [q; r] -> elec_field q r = Ok (rc, res) -> lost res)
  /\ (forall (q1 : double) (q2 : double) (r : double) rc res, nan_among [q1; q2; r] -> elec_pot_ener q1 q2 r = Ok (rc, res) -> lost res)
  /\ (forall (q : double) (r : double) rc res, nan_among [q; r] -> elec_potential q r = Ok (rc, res) -> lost res)
  /\ (forall (e : double) (a : double) (theta : double) rc res, nan_among [e; a; theta] -> elec_flux (M := M) e a theta = Ok (rc, res) -> lost res).
Proof.
  intros M L. repeat match goal with |- _ /\ _ => split end.
  - nan_in @elec_charge_dens.
  - nan_in @elec_force.
  - nan_in @elec_force2.
  - nan_in @elec_field.
  - nan_in @elec_pot_ener.
  - nan_in @elec_potential.
  - nan_in @elec_flux.
Qed.
Print Assumptions C160_electric.

(** src/physics/electricity.c *)
Theorem C160_electricity :
  forall (M : NumM double), nan_through M ->
  (forall (q : double) (t : double) rc res, nan_among [q; t] -> elcty_current q t = Ok (rc, res) -> lost res)
  /\ (forall (r : double) (a : double) (l : double) rc res, nan_among [r; a; l] -> elcty_resistivity r a l = Ok (rc, res) -> lost res)
  /\ (forall (i : double) (r : double) rc res, nan_among [i; r] -> elcty_ohm_law i r = Ok (rc, res) -> lost res)
  /\ (forall (v : double) (i : double) rc res, nan_among [v; i] -> elcty_power_vi v i = Ok (rc, res) -> lost res)
  /\ (forall (i : double) (r : double) rc res, nan_among [i; r] -> elcty_power_ir i r = Ok (rc, res) -> lost res)
  /\ (forall (v : double) (r : double) rc res, nan_among [v; r] -> elcty_power_vr v r = Ok (rc, res) -> lost res).
Proof.
  intros M L. repeat match goal with |- _ /\ _ => split end.
  - nan_in @elcty_current.
  - nan_in @elcty_resistivity.
  - nan_in @elcty_ohm_law.
  - nan_in @elcty_power_vi.
  - nan_in @elcty_power_ir.
  - nan_in @elcty_power_vr.
Qed.
Print Assumptions C160_electricity.

(** src/physics/eleccomp.c *)
Theorem C160_eleccomp :
  forall (M : NumM double), nan_through M ->
  (forall (q : double) (v : double) rc res, nan_among [q; v] -> ecmp_capac_cpv q v = Ok (rc, res) -> lost res)
  /\ (forall (a : double) (d : double) rc res, nan_among [a; d] -> ecmp_capac_ad a d = Ok (rc, res) -> lost res)
  /\ (forall (c : double) (v : double) rc res, nan_among [c; v] -> ecmp_ener_capac c v = Ok (rc, res) -> lost res)
  /\ (forall (l : double) (i : double) rc res, nan_among [l; i] -> ecmp_ener_induc l i = Ok (rc, res) -> lost res)
  /\ (forall (t1 : Z) (v1 : double) (t2 : Z) rc res, nan_among [v1] -> ecmp_trans t1 v1 t2 = Ok (rc, res) -> lost res)
  /\ (forall (vr : double) (vl : double) (vc : double) rc res, nan_among [vr; vl; vc] -> ecmp_rlc_volt (M := M) vr vl vc = Ok (rc, res) -> lost res)
  /\ (forall (r : double) (c : double) (t : double) (i0 : double) rc res, nan_among [r; c; t; i0] -> ecmp_rc_charg_i (M := M) r c t i0 = Ok (rc, res) -> lost res)
  /\ (forall (r : double) (c : double) (t : double) (q0 : double) rc res, nan_among [r; c; t; q0] -> ecmp_rc_charg_q (M := M) r c t q0 = Ok (rc, res) -> lost res)
  /\ (forall (r : double) (c : double) (t : double) (i0 : double) rc res, nan_among [r; c; t; i0] -> ecmp_rc_discharg_i (M := M) r c t i0 = Ok (rc, res) -> lost res)
  /\ (forall (r : double) (c : double) (t : double) (q0 : double) rc res, nan_among [r; c; t; q0] -> ecmp_rc_discharg_q (M := M) r c t q0 = Ok (rc, res) -> lost res)
  /\ (forall (r : double) (l : double) (t : double) (i0 : double) rc res, nan_among [r; l; t; i0] -> ecmp_rl_current (M := M) r l t i0 = Ok (rc, res) -> lost res).
Proof.
  intros M L. repeat match goal with |- _ /\ _ => split end.
  - nan_in @ecmp_capac_cpv.
  - nan_in @ecmp_capac_ad.
  - nan_in @ecmp_ener_capac.
  - nan_in @ecmp_ener_induc.
  - nan_in @ecmp_trans.
  - nan_in @ecmp_rlc_volt.
  - nan_in @ecmp_rc_charg_i.
  - nan_in @ecmp_rc_charg_q.
  - nan_in @ecmp_rc_discharg_i.
  - nan_in @ecmp_rc_discharg_q.
  - nan_in @ecmp_rl_current.
Qed.
Print Assumptions C160_eleccomp.

(** src/physics/magnetics.c *)
Theorem C160_magnetics :
  forall (M : NumM double), nan_through M ->
  (forall (q : double) (v : double) (b : double) (theta : double) rc res, nan_among [q; v; b; theta] -> magn_force (M := M) q v b theta = Ok (rc, res) -> lost res)
  /\ (forall (i : double) (l : double) (b : double) (theta : double) rc res, nan_among [i; l; b; theta] -> magn_force_wire (M := M) i l b theta = Ok (rc, res) -> lost res)
  /\ (forall (i : double) (a : double) (b : double) (theta : double) rc res, nan_among [i; a; b; theta] -> magn_torque_loop (M := M) i a b theta = Ok (rc, res) -> lost res)
  /\ (forall (mom : double) (b : double) (theta : double) rc res, nan_among [mom; b; theta] -> magn_pot_dipole (M := M) mom b theta = Ok (rc, res) -> lost res)
  /\ (forall (q : double) (v : double) (b : double) (m : double) rc res, nan_among [q; v; b; m] -> magn_orb_radius q v b m = Ok (rc, res) -> lost res)
  /\ (forall (a : double) (b : double) (theta : double) rc res, nan_among [a; b; theta] -> magn_flux (M := M) a b theta = Ok (rc, res) -> lost res)
  /\ (forall (i : double) (a : double) rc res, nan_among [i; a] -> magn_mom i a = Ok (rc, res) -> lost res).
Proof.
  intros M L. repeat match goal with |- _ /\ _ => split end.
  - nan_in @magn_force.
  - nan_in @magn_force_wire.
  - nan_in @magn_torque_loop.
  - nan_in @magn_pot_dipole.
  - nan_in @magn_orb_radius.
  - nan_in @magn_flux.
  - nan_in @magn_mom.
Qed.
Print Assumptions C160_magnetics.

(** * The functions that call others *)
Ltac nan_in2 tac :=
  match goal with L : nan_through ?M |- _ =>
    destruct (libs M L) as (? & ? & ? & ? & ? & ? & ?);
    intros; match goal with H : nan_among _ |- _ => nan_cases H; apply is_nan_nanf in H end;
    match goal with E : _ = Ok _ |- _ =>
      tac E; cbn [flt fle feq f0 f1 fadd fsub fmul fdiv fneg fabs fsqrt flit fofZ NumF bind] in E;
      cbv zeta in E; paths E end; first [exact I | nan_libs; apply lost_set; nan_step]
  end.

Theorem C160_composed :
  forall (M : NumM double), nan_through M ->
  (forall (vi t a xf : double) rc res, nan_among [vi; t; a; xf] -> kin_init_pos vi t a xf = Ok (rc, res) -> lost res)
  /\ (forall (vi vf accel : double) rc res, nan_among [vi; vf; accel] -> kin_time vi vf accel = Ok (rc, res) -> lost res)
  /\ (forall (oi of_ a : double) rc res, nan_among [oi; of_; a] -> rot_time oi of_ a = Ok (rc, res) -> lost res)
  /\ (forall (vi theta : double) rc h v, nan_among [vi; theta] -> proj_init_vel (M := M) vi theta = Ok (rc, h, v) -> lost h /\ lost v)
  /\ (forall (vih viv xi yi xf : double) rc res, nan_among [vih; viv; xi; yi; xf] -> proj_trajectory vih viv xi yi xf = Ok (rc, res) -> lost res)
  /\ (forall (vih viv xi yi : double) rc res, nan_among [vih; viv; xi; yi] -> proj_range vih viv xi yi = Ok (rc, res) -> lost res)
  /\ (forall (f d theta : double) rc res, nan_among [f; d; theta] -> work_x (M := M) f d theta = Ok (rc, res) -> lost res)
  /\ (forall (f d theta : double) rc res, nan_among [f; d; theta] -> work_y (M := M) f d theta = Ok (rc, res) -> lost res)
  /\ (forall (n1 n2 o1 : double) rc res, nan_among [n1; n2; o1] -> opt_snell (M := M) n1 n2 o1 = Ok (rc, res) -> lost res)
  /\ (forall (t1 : double) b rc res, nan_among [t1] -> thermo_fahren_cels t1 b = Ok (rc, res) -> lost res)
  /\ (forall (t1 : double) b rc res, nan_among [t1] -> thermo_cels_kel t1 b = Ok (rc, res) -> lost res).
Proof.
  intros M L. repeat match goal with |- _ /\ _ => split end.
  - nan_in2 ltac:(fun E => unfold kin_init_pos, kin_dist, omap in E).
  - nan_in @kin_time.
  - nan_in @rot_time.
  - intros vi theta rc h v H E. destruct (libs M L) as (? & ? & ? & ? & ? & ? & ?). unfold proj_init_vel in E.
    injection E as <- <- <-. nan_cases H; apply is_nan_nanf in H; (split; apply lost_set; cbn [fmul NumF]; nan_step).
  - nan_in2 ltac:(fun E => unfold proj_trajectory, proj_ver_motion in E).
  - nan_in2 ltac:(fun E => unfold proj_range, proj_time, proj_hor_motion, omap in E).
  - nan_in2 ltac:(fun E => unfold work_x, work_module, omap in E).
  - nan_in2 ltac:(fun E => unfold work_y, work_module, omap in E).
  - nan_in @opt_snell.
  - nan_in @thermo_fahren_cels.
  - nan_in @thermo_cels_kel.
Qed.
Print Assumptions C160_composed.

(** * The functions that read a vector *)
Theorem C160_circuits :
  forall (xs : list double) tl rc res, nan_among xs ->
  (elcty_res_series (vec_of xs tl) = Ok (rc, res) -> lost res)
  /\ (elcty_res_parallel (vec_of xs tl) = Ok (rc, res) -> lost res)
  /\ (elcty_cap_series (vec_of xs tl) = Ok (rc, res) -> lost res)
  /\ (elcty_cap_parallel (vec_of xs tl) = Ok (rc, res) -> lost res).
Proof.
  intros xs tl rc res H. apply nan_among_nanf in H.
  assert (I : forall a q : double, nanf a -> Ok a = Ok q -> nanf q) by congruence.
  assert (D : forall a q : double, nanf a -> Ok (flit 1 0 / a)%float = Ok q -> nanf q)
    by (intros a q N E; replace q with (flit 1 0 / a)%float by congruence; now apply nan_div_r).
  repeat match goal with |- _ /\ _ => split end;
    [unfold elcty_res_series | unfold elcty_res_parallel | unfold elcty_cap_series | unfold elcty_cap_parallel];
    intros E; apply bind_ok in E; destruct E as (bad & _ & E); destruct bad;
    try (injection E as <- <-; exact Logic.I);
    apply bind_ok in E; destruct E as (s & S & E).
  - apply (nan_loop (fun a => Ok a)) in S; auto. injection E as <- <-. now apply lost_set.
  - apply (nan_loop (fun a => Ok (flit 1 0 / a)%float)) in S; auto. injection E as <- <-. now apply lost_set, nan_div_r.
  - apply (nan_loop (fun a => Ok (flit 1 0 / a)%float)) in S; auto. injection E as <- <-. now apply lost_set, nan_div_r.
  - apply (nan_loop (fun a => Ok a)) in S; auto. injection E as <- <-. now apply lost_set.
Qed.
Print Assumptions C160_circuits.

(** * Where it fails: the angle of a vertical velocity is not read *)
Theorem C160_angle_refuted :
  forall (M : NumM double), exists rc y,
  proj_angle (M := M) 0%float nan = Ok (rc, Set_ y) /\ rc = 0%Z /\ PrimFloat.is_nan y = false.
Proof. intros M. do 2 eexists. split; [reflexivity|]. split; [reflexivity|]. vm_compute. reflexivity. Qed.
Print Assumptions C160_angle_refuted.

(** with a horizontal part different from zero it is read *)
Theorem C160_angle :
  forall (M : NumM double), nan_through M -> (forall x, is_nan x = true -> is_nan (fatan x) = true) ->
  forall (vfh vfv : double) rc res, nan_among [vfh; vfv] -> (vfh =? 0)%float = false ->
  proj_angle (M := M) vfh vfv = Ok (rc, res) -> lost res.
Proof.
  intros M L A vfh vfv rc res H Z E. unfold proj_angle in E. cbn [feq f0 NumF] in E. change zero with 0%float in E. rewrite Z in E.
  cbn [fdiv NumF bind] in E. injection E as <- <-. cbn [lost]. apply A.
  apply is_nan_nanf. nan_cases H; apply is_nan_nanf in H; nan_step.
Qed.
Print Assumptions C160_angle.

(** The code does not tell: a kinetic energy of NaN is reported as a success *)
Theorem C160_code_refuted :
  exists y, kin_ener nan 1%float = Ok (0%Z, Set_ y) /\ PrimFloat.is_nan y = true.
Proof. eexists. split; [reflexivity|]. vm_compute. reflexivity. Qed.
Print Assumptions C160_code_refuted.

(** the hypotheses are met: a library that answers NaN everywhere, and calls
    with one NaN among ordinary arguments *)
Definition nan_lib : NumM double :=
  {| fexp _ := nan; flog _ := Ok nan; flog10 _ := Ok nan; fpow _ _ := Ok nan; fsin _ := nan; fcos _ := nan; ftan _ := Ok nan;
     fasin _ := Ok nan; facos _ := Ok nan; fatan _ := nan; fatan2 _ _ := nan; fsinh _ := nan; fcosh _ := nan; ftanh _ := nan;
     ffloor _ := nan; fceil _ := nan; fround _ := nan; ftrunc _ := 0%Z |}.

Example C160_example :
  nan_through nan_lib /\ nan_among [1; nan; 2]%float
  /\ (exists y, kin_dist 1%float nan 2%float = Ok (0%Z, Set_ y))
  /\ (exists y, elcty_res_series (vec_of [1; nan; 2]%float []) = Ok (0%Z, Set_ y)).
Proof.
  split; [repeat split; intros; try match goal with H : _ = Ok ?y |- is_nan ?y = true => injection H as <- end; vm_compute; reflexivity|].
  split; [apply Exists_cons_tl, Exists_cons_hd; vm_compute; reflexivity|].
  split; eexists; reflexivity.
Qed.

(** * The centre of mass: a NaN mass spoils the three coordinates, a NaN
    coordinate spoils its own *)
Lemma nan_dot bc (xs ys : list double) tx ty rc d : length xs = length ys ->
  nan_among xs \/ nan_among ys -> vec_dot bc (vec_of xs tx) (vec_of ys ty) = Ok (rc, d) -> rc = 0%Z /\ exists y, d = Some y /\ nanf y.
Proof.
  intros N H E. unfold vec_dot in E. cbn [vsz vec_of] in E. rewrite N, Nat.eqb_refl, andb_false_r in E.
  apply bind_ok in E. destruct E as (s & S & E). injection E as <- <-. split; [reflexivity|]. exists s. split; [reflexivity|].
  assert (X : exists k, (k < length ys)%nat /\ (nanf (nth k xs zero) \/ nanf (nth k ys zero))).
  { destruct H as [H|H]; apply nan_among_nanf, Exists_exists in H; destruct H as (x & I & Nx);
      apply (In_nth _ _ zero) in I; destruct I as (k & K & <-); exists k; split; auto; lia. }
  destruct X as (k & K & X).
  match type of S with for_ ?n ?l ?b ?s0 = _ => pose proof (@for_ok_inv double (fun i r => (k < i)%nat -> nanf r) n l b s0 s) as F end.
  apply F; auto; [lia|]. intros i s1 s2 Hi IH B J. cbn [vbuf vec_of] in B.
  rewrite (rd_cells_app xs tx zero), (rd_cells_app ys ty zero) in B by lia. cbn [bind] in B. injection B as <-. cbn [fadd fmul NumF].
  destruct (Nat.eq_dec i k) as [->|Ne].
  - apply nan_add_r. destruct X; [now apply nan_mul_l | now apply nan_mul_r].
  - apply nan_add_l, IH. lia.
Qed.

Lemma dot_rc bc (xs ys : list double) tx ty rc d : length xs = length ys ->
  vec_dot bc (vec_of xs tx) (vec_of ys ty) = Ok (rc, d) -> rc = 0%Z.
Proof.
  intros N E. unfold vec_dot in E. cbn [vsz vec_of] in E. rewrite N, Nat.eqb_refl, andb_false_r in E.
  apply bind_ok in E. destruct E as (s & S & E). congruence.
Qed.

Theorem C160_mass_center :
  forall bc (ms xs ys zs : list double) tm tx ty tz rc cx cy cz,
  length xs = length ms -> length ys = length ms -> length zs = length ms -> (1 <= length ms)%nat ->
  mass_center bc (vec_of ms tm) (vec_of xs tx) (vec_of ys ty) (vec_of zs tz) = Ok (rc, (cx, cy, cz)) ->
  (nan_among ms \/ nan_among xs -> lost cx) /\ (nan_among ms \/ nan_among ys -> lost cy) /\ (nan_among ms \/ nan_among zs -> lost cz).
Proof.
  intros bc ms xs ys zs tm tx ty tz rc cx cy cz Lx Ly Lz L1 E. unfold mass_center in E. cbn [vsz vec_of] in E.
  rewrite Lx, Ly, Lz, Nat.eqb_refl in E. cbn [negb orb] in E. rewrite andb_false_r in E.
  apply bind_ok in E. destruct E as ((r1 & d1) & D1 & E). rewrite (dot_rc _ _ _ _ _ _ _ (eq_sym Lx) D1) in E. cbn [negb Z.eqb] in E.
  apply bind_ok in E. destruct E as ((r2 & d2) & D2 & E). rewrite (dot_rc _ _ _ _ _ _ _ (eq_sym Ly) D2) in E. cbn [negb Z.eqb] in E.
  apply bind_ok in E. destruct E as ((r3 & d3) & D3 & E). rewrite (dot_rc _ _ _ _ _ _ _ (eq_sym Lz) D3) in E. cbn [negb Z.eqb] in E.
  apply bind_ok in E. destruct E as ((r4 & m4) & D4 & E).
  assert (r4 = 0%Z) as ->.
  { unfold vec_ar_mean in D4. cbn [vsz vec_of] in D4. destruct (length ms <? 1)%nat eqn:Z; [apply Nat.ltb_lt in Z; lia|].
    repeat (apply bind_ok in D4; destruct D4 as (? & _ & D4)). congruence. }
  cbn [negb Z.eqb] in E. apply bind_ok in E. destruct E as (nn & _ & E). destruct nn; cbn [negb] in E.
  2: { injection E as <- <- <- <-. repeat split. }
  match type of E with (if ?b then _ else _) = _ => destruct b end.
  { injection E as <- <- <- <-. repeat split. }
  cbn [fdiv NumF bind] in E. injection E as <- <- <- <-.
  repeat split; intros H; apply lost_set, nan_div_l.
  - destruct (nan_dot _ _ _ _ _ _ _ (eq_sym Lx) H D1) as (_ & y & -> & Ny). exact Ny.
  - destruct (nan_dot _ _ _ _ _ _ _ (eq_sym Ly) H D2) as (_ & y & -> & Ny). exact Ny.
  - destruct (nan_dot _ _ _ _ _ _ _ (eq_sym Lz) H D3) as (_ & y & -> & Ny). exact Ny.
Qed.
Print Assumptions C160_mass_center.
