(** Model of the straight-line functions of src/physics: a guard that assigns
    NAN and answers -EINVAL, or a formula.  Written with tools/phys.py; the
    functions with loops or several outputs are in MPhysVec.v. *)
From Coq Require Import ZArith Bool.
From Verif Require Import Base Libm Out.
Set Implicit Arguments.
Local Open Scope num_scope.

Section Phys.
Context {T : Type} {N : Num T} {M : NumM T}.

(** ** src/physics/kinematics.c *)

(** zsl_phy_kin_dist, src/physics/kinematics.c:12-24 *)
Definition kin_dist (vi time accel : T) : outcome (Z * out T) :=
  if time <? f0 then Ok ((- EINVAL)%Z, NaN)
  else
    let res := vi * time + (flit 5 1) * accel * time * time in
    Ok (0%Z, Set_ res).

(** zsl_phy_kin_init_pos2, src/physics/kinematics.c:44-56 *)
Definition kin_init_pos2 (vi vf a xf : T) : outcome (Z * out T) :=
  if a =? f0 then Ok ((- EINVAL)%Z, NaN)
  else
    let! r1 := fdiv (vf * vf - vi * vi) ((flit 20 1) * a) in
    let res := xf - r1 in
    Ok (0%Z, Set_ res).

(** zsl_phy_kin_vel, src/physics/kinematics.c:72-84 *)
Definition kin_vel (vi time accel : T) : outcome (Z * out T) :=
  let res := vi + time * accel in
  if time <? f0 then Ok ((- EINVAL)%Z, NaN)
  else
    Ok (0%Z, Set_ res).

(** zsl_phy_kin_vel2, src/physics/kinematics.c:86-100 *)
Definition kin_vel2 (vi dist accel : T) : outcome (Z * out T) :=
  let vf2 := vi * vi + (fofZ 2) * accel * dist in
  if vf2 <? f0 then Ok ((- EINVAL)%Z, NaN)
  else
    let! r1 := fsqrt vf2 in
    let res := r1 in
    Ok (0%Z, Set_ res).

(** zsl_phy_kin_init_vel, src/physics/kinematics.c:102-113 *)
Definition kin_init_vel (vf a t : T) : outcome (Z * out T) :=
  if t <? f0 then Ok ((- EINVAL)%Z, NaN)
  else
    let res := vf - a * t in
    Ok (0%Z, Set_ res).

(** zsl_phy_kin_init_vel2, src/physics/kinematics.c:115-127 *)
Definition kin_init_vel2 (dist a t : T) : outcome (Z * out T) :=
  if t <=? f0 then Ok ((- EINVAL)%Z, NaN)
  else
    let! r1 := fdiv (dist - (flit 5 1) * a * t * t) t in
    let res := r1 in
    Ok (0%Z, Set_ res).

(** zsl_phy_kin_init_vel3, src/physics/kinematics.c:129-143 *)
Definition kin_init_vel3 (vf a dist : T) : outcome (Z * out T) :=
  let sq := vf * vf - (fofZ 2) * a * dist in
  if sq <? f0 then Ok ((- EINVAL)%Z, NaN)
  else
    let! r1 := fsqrt sq in
    let res := r1 in
    Ok (0%Z, Set_ res).

(** zsl_phy_kin_av_vel, src/physics/kinematics.c:145-156 *)
Definition kin_av_vel (dist time : T) : outcome (Z * out T) :=
  if time <=? f0 then Ok ((- EINVAL)%Z, NaN)
  else
    let! r1 := fdiv dist time in
    let res := r1 in
    Ok (0%Z, Set_ res).

(** zsl_phy_kin_accel, src/physics/kinematics.c:158-170 *)
Definition kin_accel (vi vf time : T) : outcome (Z * out T) :=
  if time <=? f0 then Ok ((- EINVAL)%Z, NaN)
  else
    let! r1 := fdiv (vf - vi) time in
    let res := r1 in
    Ok (0%Z, Set_ res).

(** zsl_phy_kin_ener, src/physics/kinematics.c:172-183 *)
Definition kin_ener (v m : T) : outcome (Z * out T) :=
  if m <? f0 then Ok ((- EINVAL)%Z, NaN)
  else
    let res := (flit 5 1) * m * v * v in
    Ok (0%Z, Set_ res).

(** ** src/physics/projectiles.c *)

(** zsl_phy_proj_time, src/physics/projectiles.c:22-36 *)
Definition proj_time (viv yi yf : T) : outcome (Z * out T) :=
  let disc := viv * viv + (flit 20 1) * (flit 9807 3) * (yi - yf) in
  if disc <? f0 then Ok ((- EINVAL)%Z, NaN)
  else
    let! r1 := fsqrt disc in
    let! r2 := fdiv (viv + r1) (flit 9807 3) in
    let res := r2 in
    Ok (0%Z, Set_ res).

(** zsl_phy_proj_time_first, src/physics/projectiles.c:38-56 *)
Definition proj_time_first (viv yi yf : T) : outcome (Z * out T) :=
  let disc := viv * viv + (flit 20 1) * (flit 9807 3) * (yi - yf) in
  if disc <? f0 then Ok ((- EINVAL)%Z, NaN)
  else
    let! r1 := fsqrt disc in
    let! r2 := fdiv (viv - r1) (flit 9807 3) in
    let res := r2 in
    if res <? f0 then Ok ((- EINVAL)%Z, NaN)
    else
      Ok (0%Z, Set_ res).

(** zsl_phy_proj_time2, src/physics/projectiles.c:58-69 *)
Definition proj_time2 (viv vfv : T) : outcome (Z * out T) :=
  let! r1 := fdiv (viv - vfv) (flit 9807 3) in
  let res := r1 in
  if res <? f0 then Ok ((- EINVAL)%Z, NaN)
  else
    Ok (0%Z, Set_ res).

(** zsl_phy_proj_ver_motion, src/physics/projectiles.c:71-83 *)
Definition proj_ver_motion (viv t yi : T) : outcome (Z * out T) :=
  if t <? f0 then Ok ((- EINVAL)%Z, NaN)
  else
    let! r1 := fdiv ((flit 9807 3) * t * t) (flit 20 1) in
    let res := yi + viv * t - r1 in
    Ok (0%Z, Set_ res).

(** zsl_phy_proj_ver_vel, src/physics/projectiles.c:85-96 *)
Definition proj_ver_vel (viv t : T) : outcome (Z * out T) :=
  if t <? f0 then Ok ((- EINVAL)%Z, NaN)
  else
    let res := viv - (flit 9807 3) * t in
    Ok (0%Z, Set_ res).

(** zsl_phy_proj_hor_motion, src/physics/projectiles.c:98-110 *)
Definition proj_hor_motion (vih t xi : T) : outcome (Z * out T) :=
  let res := xi + vih * t in
  if t <? f0 then Ok ((- EINVAL)%Z, NaN)
  else
    Ok (0%Z, Set_ res).

(** zsl_phy_proj_vel, src/physics/projectiles.c:128-134 *)
Definition proj_vel (vfh vfv : T) : outcome (Z * out T) :=
  let! r1 := fsqrt (vfh * vfh + vfv * vfv) in
  let res := r1 in
  Ok (0%Z, Set_ res).

(** ** src/physics/momentum.c *)

(** zsl_phy_mom_mom, src/physics/momentum.c:12-23 *)
Definition mom_mom (m v : T) : outcome (Z * out T) :=
  if m <? f0 then Ok ((- EINVAL)%Z, NaN)
  else
    let res := m * v in
    Ok (0%Z, Set_ res).

(** zsl_phy_mom_imp, src/physics/momentum.c:25-36 *)
Definition mom_imp (f time : T) : outcome (Z * out T) :=
  if time <? f0 then Ok ((- EINVAL)%Z, NaN)
  else
    let res := f * time in
    Ok (0%Z, Set_ res).

(** zsl_phy_mom_change, src/physics/momentum.c:38-49 *)
Definition mom_change (m vi vf : T) : outcome (Z * out T) :=
  if m <? f0 then Ok ((- EINVAL)%Z, NaN)
  else
    let res := m * (vf - vi) in
    Ok (0%Z, Set_ res).

(** zsl_phy_mom_elas, src/physics/momentum.c:51-67 *)
Definition mom_elas (m1 vi1 vf1 m2 vi2 : T) : outcome (Z * out T) :=
  if (m1 <? f0) || (m2 <=? f0) then Ok ((- EINVAL)%Z, NaN)
  else
    let! r1 := fdiv (m1 * (vi1 - vf1) + m2 * vi2) m2 in
    let res := r1 in
    Ok (0%Z, Set_ res).

(** zsl_phy_mom_inelas, src/physics/momentum.c:69-85 *)
Definition mom_inelas (m1 vi1 m2 vi2 : T) : outcome (Z * out T) :=
  if (m1 <? f0) || (m2 <? f0) || ((m1 + m2) =? f0) then Ok ((- EINVAL)%Z, NaN)
  else
    let! r1 := fdiv (m1 * vi1 + m2 * vi2) (m1 + m2) in
    let res := r1 in
    Ok (0%Z, Set_ res).

(** ** src/physics/energy.c *)

(** zsl_phy_ener_kin, src/physics/energy.c:12-23 *)
Definition ener_kin (v m : T) : outcome (Z * out T) :=
  if m <? f0 then Ok ((- EINVAL)%Z, NaN)
  else
    let res := (flit 5 1) * m * v * v in
    Ok (0%Z, Set_ res).

(** zsl_phy_ener_rot, src/physics/energy.c:25-36 *)
Definition ener_rot (omega i : T) : outcome (Z * out T) :=
  if i <? f0 then Ok ((- EINVAL)%Z, NaN)
  else
    let res := (flit 5 1) * i * omega * omega in
    Ok (0%Z, Set_ res).

(** zsl_phy_ener_grav_pot, src/physics/energy.c:38-49 *)
Definition ener_grav_pot (m h : T) : outcome (Z * out T) :=
  if m <? f0 then Ok ((- EINVAL)%Z, NaN)
  else
    let res := m * (flit 9807 3) * h in
    Ok (0%Z, Set_ res).

(** zsl_phy_ener_elas_pot, src/physics/energy.c:51-62 *)
Definition ener_elas_pot (k dist : T) : outcome (Z * out T) :=
  if k <? f0 then Ok ((- EINVAL)%Z, NaN)
  else
    let res := (flit 5 1) * k * dist * dist in
    Ok (0%Z, Set_ res).

(** zsl_phy_ener_power, src/physics/energy.c:64-75 *)
Definition ener_power (ener time : T) : outcome (Z * out T) :=
  if time <=? f0 then Ok ((- EINVAL)%Z, NaN)
  else
    let! r1 := fdiv ener time in
    let res := r1 in
    Ok (0%Z, Set_ res).

(** zsl_phy_ener_fric, src/physics/energy.c:77-88 *)
Definition ener_fric (fric dist : T) : outcome (Z * out T) :=
  if (dist <? f0) || (fric <? f0) then Ok ((- EINVAL)%Z, NaN)
  else
    let res := (- fric) * dist in
    Ok (0%Z, Set_ res).

(** zsl_phy_ener_mec, src/physics/energy.c:90-97 *)
Definition ener_mec (ke rke ug ue : T) : outcome (Z * out T) :=
  let res := ke + rke + ug + ue in
  Ok (0%Z, Set_ res).

(** zsl_phy_ener_final, src/physics/energy.c:99-109 *)
Definition ener_final (ei1 ei2 ei3 ei4 ef1 ef2 ef3 : T) : outcome (Z * out T) :=
  let res := ei1 + ei2 + ei3 + ei4 - ef1 - ef2 - ef3 in
  Ok (0%Z, Set_ res).

(** zsl_phy_ener_photon, src/physics/energy.c:111-122 *)
Definition ener_photon (f : T) : outcome (Z * out T) :=
  if f <? f0 then Ok ((- EINVAL)%Z, NaN)
  else
    let! r1 := fdiv ((flit 662607015 42) * f) (flit 1602176634 28) in
    let res := r1 in
    Ok (0%Z, Set_ res).

(** zsl_phy_ener_photon2, src/physics/energy.c:124-138 *)
Definition ener_photon2 (lambda : T) : outcome (Z * out T) :=
  if lambda <=? f0 then Ok ((- EINVAL)%Z, NaN)
  else
    let lambda := lambda * (flit 1 9) in
    let! r1 := fdiv ((flit 662607015 42) * (flit 2997924580 1)) (lambda * (flit 1602176634 28)) in
    let res := r1 in
    Ok (0%Z, Set_ res).

(** ** src/physics/work.c *)

(** zsl_phy_work_module, src/physics/work.c:12-23 *)
Definition work_module (f d : T) : outcome (Z * out T) :=
  if (f <? f0) || (d <? f0) then Ok ((- EINVAL)%Z, NaN)
  else
    let res := f * d in
    Ok (0%Z, Set_ res).

(** zsl_phy_work_kin, src/physics/work.c:55-61 *)
Definition work_kin (k1 k2 : T) : outcome (Z * out T) :=
  let res := k2 - k1 in
  Ok (0%Z, Set_ res).

(** ** src/physics/dynamics.c *)

(** zsl_phy_dyn_newton, src/physics/dynamics.c:12-23 *)
Definition dyn_newton (m accel : T) : outcome (Z * out T) :=
  if m <? f0 then Ok ((- EINVAL)%Z, NaN)
  else
    let res := m * accel in
    Ok (0%Z, Set_ res).

(** zsl_phy_dyn_fric, src/physics/dynamics.c:25-36 *)
Definition dyn_fric (n mu : T) : outcome (Z * out T) :=
  if (mu <? f0) || (mu >? (fofZ 1)) then Ok ((- EINVAL)%Z, NaN)
  else
    let res := n * mu in
    Ok (0%Z, Set_ res).

(** zsl_phy_dyn_normal, src/physics/dynamics.c:38-49 *)
Definition dyn_normal (m theta : T) : outcome (Z * out T) :=
  if m <? f0 then Ok ((- EINVAL)%Z, NaN)
  else
    let res := m * (flit 9807 3) * (fcos theta) in
    Ok (0%Z, Set_ res).

(** zsl_phy_dyn_pendul_period, src/physics/dynamics.c:51-62 *)
Definition dyn_pendul_period (l : T) : outcome (Z * out T) :=
  if l <? f0 then Ok ((- EINVAL)%Z, NaN)
  else
    let! r1 := fdiv l (flit 9807 3) in
    let! r2 := fsqrt r1 in
    let res := (flit 20 1) * (flit 314159265359 11) * r2 in
    Ok (0%Z, Set_ res).

(** zsl_phy_dyn_pendul_max_speed, src/physics/dynamics.c:64-75 *)
Definition dyn_pendul_max_speed (l oi : T) : outcome (Z * out T) :=
  if l <? f0 then Ok ((- EINVAL)%Z, NaN)
  else
    let! r1 := fsqrt ((flit 20 1) * (flit 9807 3) * l * ((flit 10 1) - (fcos oi))) in
    let res := r1 in
    Ok (0%Z, Set_ res).

(** zsl_phy_dyn_tension, src/physics/dynamics.c:77-88 *)
Definition dyn_tension (m a : T) : outcome (Z * out T) :=
  if m <? f0 then Ok ((- EINVAL)%Z, NaN)
  else
    let res := m * (flit 9807 3) + m * a in
    Ok (0%Z, Set_ res).

(** zsl_phy_dyn_lever, src/physics/dynamics.c:90-101 *)
Definition dyn_lever (d1 f1 d2 : T) : outcome (Z * out T) :=
  if (d1 <? f0) || (d2 <=? f0) then Ok ((- EINVAL)%Z, NaN)
  else
    let! r1 := fdiv (d1 * f1) d2 in
    let res := r1 in
    Ok (0%Z, Set_ res).

(** ** src/physics/rotation.c *)

(** zsl_phy_rot_angle, src/physics/rotation.c:12-23 *)
Definition rot_angle (oi time a : T) : outcome (Z * out T) :=
  if time <? f0 then Ok ((- EINVAL)%Z, NaN)
  else
    let res := oi * time + (flit 5 1) * a * time * time in
    Ok (0%Z, Set_ res).

(** zsl_phy_rot_dist, src/physics/rotation.c:25-36 *)
Definition rot_dist (phi r : T) : outcome (Z * out T) :=
  if r <? f0 then Ok ((- EINVAL)%Z, NaN)
  else
    let res := phi * r in
    Ok (0%Z, Set_ res).

(** zsl_phy_rot_turn, src/physics/rotation.c:38-44 *)
Definition rot_turn (phi : T) : outcome (Z * out T) :=
  let! r1 := fdiv phi ((flit 20 1) * (flit 314159265359 11)) in
  let res := r1 in
  Ok (0%Z, Set_ res).

(** zsl_phy_rot_omega, src/physics/rotation.c:59-70 *)
Definition rot_omega (oi time a : T) : outcome (Z * out T) :=
  let res := oi + time * a in
  if time <? f0 then Ok ((- EINVAL)%Z, NaN)
  else
    Ok (0%Z, Set_ res).

(** zsl_phy_rot_omega2, src/physics/rotation.c:72-85 *)
Definition rot_omega2 (oi phi a : T) : outcome (Z * out T) :=
  let of2 := oi * oi + (flit 20 1) * a * phi in
  if of2 <? f0 then Ok ((- EINVAL)%Z, NaN)
  else
    let! r1 := fsqrt of2 in
    let res := r1 in
    Ok (0%Z, Set_ res).

(** zsl_phy_rot_av_omega, src/physics/rotation.c:87-98 *)
Definition rot_av_omega (phi time : T) : outcome (Z * out T) :=
  if time <=? f0 then Ok ((- EINVAL)%Z, NaN)
  else
    let! r1 := fdiv phi time in
    let res := r1 in
    Ok (0%Z, Set_ res).

(** zsl_phy_rot_vel, src/physics/rotation.c:100-111 *)
Definition rot_vel (omega r : T) : outcome (Z * out T) :=
  if r <? f0 then Ok ((- EINVAL)%Z, NaN)
  else
    let res := omega * r in
    Ok (0%Z, Set_ res).

(** zsl_phy_rot_ang_accel, src/physics/rotation.c:113-125 *)
Definition rot_ang_accel (oi of_ time : T) : outcome (Z * out T) :=
  if time <=? f0 then Ok ((- EINVAL)%Z, NaN)
  else
    let! r1 := fdiv (of_ - oi) time in
    let res := r1 in
    Ok (0%Z, Set_ res).

(** zsl_phy_rot_accel, src/physics/rotation.c:127-138 *)
Definition rot_accel (a r : T) : outcome (Z * out T) :=
  if r <? f0 then Ok ((- EINVAL)%Z, NaN)
  else
    let res := a * r in
    Ok (0%Z, Set_ res).

(** zsl_phy_rot_ener, src/physics/rotation.c:140-151 *)
Definition rot_ener (omega i : T) : outcome (Z * out T) :=
  if i <? f0 then Ok ((- EINVAL)%Z, NaN)
  else
    let res := (flit 5 1) * i * omega * omega in
    Ok (0%Z, Set_ res).

(** zsl_phy_rot_period, src/physics/rotation.c:153-164 *)
Definition rot_period (omega : T) : outcome (Z * out T) :=
  if omega <=? f0 then Ok ((- EINVAL)%Z, NaN)
  else
    let! r1 := fdiv ((flit 20 1) * (flit 314159265359 11)) omega in
    let res := r1 in
    Ok (0%Z, Set_ res).

(** zsl_phy_rot_frequency, src/physics/rotation.c:166-177 *)
Definition rot_frequency (omega : T) : outcome (Z * out T) :=
  if omega <? f0 then Ok ((- EINVAL)%Z, NaN)
  else
    let! r1 := fdiv omega ((flit 20 1) * (flit 314159265359 11)) in
    let res := r1 in
    Ok (0%Z, Set_ res).

(** zsl_phy_rot_cent_accel, src/physics/rotation.c:179-190 *)
Definition rot_cent_accel (vel r : T) : outcome (Z * out T) :=
  if r <=? f0 then Ok ((- EINVAL)%Z, NaN)
  else
    let! r1 := fdiv (vel * vel) r in
    let res := r1 in
    Ok (0%Z, Set_ res).

(** zsl_phy_rot_cent_accel2, src/physics/rotation.c:192-203 *)
Definition rot_cent_accel2 (t r : T) : outcome (Z * out T) :=
  if (r <? f0) || (t <=? f0) then Ok ((- EINVAL)%Z, NaN)
  else
    let! r1 := fdiv ((flit 40 1) * (flit 314159265359 11) * (flit 314159265359 11) * r) (t * t) in
    let res := r1 in
    Ok (0%Z, Set_ res).

(** zsl_phy_rot_total_accel, src/physics/rotation.c:205-211 *)
Definition rot_total_accel (accel ca : T) : outcome (Z * out T) :=
  let! r1 := fsqrt (accel * accel + ca * ca) in
  let res := r1 in
  Ok (0%Z, Set_ res).

(** zsl_phy_rot_power, src/physics/rotation.c:213-219 *)
Definition rot_power (torque omega : T) : outcome (Z * out T) :=
  let res := torque * omega in
  Ok (0%Z, Set_ res).

(** ** src/physics/gravitation.c *)

(** zsl_phy_grav_orb_period, src/physics/gravitation.c:12-25 *)
Definition grav_orb_period (mp msat r : T) : outcome (Z * out T) :=
  if (mp + msat) =? f0 then Ok ((- EINVAL)%Z, NaN)
  else
    let! r1 := fdiv ((flit 40 1) * (flit 314159265359 11) * (flit 314159265359 11) * r * r * r) ((flit 667408 16) * (mp + msat)) in
    let! r2 := fsqrt r1 in
    let res := r2 in
    Ok (0%Z, Set_ res).

(** zsl_phy_grav_esc_vel, src/physics/gravitation.c:27-38 *)
Definition grav_esc_vel (mp r : T) : outcome (Z * out T) :=
  if r =? f0 then Ok ((- EINVAL)%Z, NaN)
  else
    let! r1 := fdiv ((flit 20 1) * (flit 667408 16) * mp) r in
    let! r2 := fsqrt r1 in
    let res := r2 in
    Ok (0%Z, Set_ res).

(** zsl_phy_grav_acc, src/physics/gravitation.c:40-51 *)
Definition grav_acc (m r : T) : outcome (Z * out T) :=
  if r =? f0 then Ok ((- EINVAL)%Z, NaN)
  else
    let! r1 := fdiv ((- (flit 667408 16)) * m) (r * r) in
    let res := r1 in
    Ok (0%Z, Set_ res).

(** zsl_phy_grav_orb_vel, src/physics/gravitation.c:53-64 *)
Definition grav_orb_vel (mp r : T) : outcome (Z * out T) :=
  if r =? f0 then Ok ((- EINVAL)%Z, NaN)
  else
    let! r1 := fdiv ((flit 667408 16) * mp) r in
    let! r2 := fsqrt r1 in
    let res := r2 in
    Ok (0%Z, Set_ res).

(** zsl_phy_grav_force, src/physics/gravitation.c:66-77 *)
Definition grav_force (m1 m2 r : T) : outcome (Z * out T) :=
  if r =? f0 then Ok ((- EINVAL)%Z, NaN)
  else
    let! r1 := fdiv ((- (flit 667408 16)) * m1 * m2) (r * r) in
    let res := r1 in
    Ok (0%Z, Set_ res).

(** zsl_phy_grav_pot_ener, src/physics/gravitation.c:79-91 *)
Definition grav_pot_ener (m1 m2 r : T) : outcome (Z * out T) :=
  if r =? f0 then Ok ((- EINVAL)%Z, NaN)
  else
    let! r1 := fdiv ((- (flit 667408 16)) * m1 * m2) (r * (flit 1000 0)) in
    let res := r1 in
    Ok (0%Z, Set_ res).

(** ** src/physics/fluids.c *)

(** zsl_phy_fluid_dens, src/physics/fluids.c:12-23 *)
Definition fluid_dens (m v : T) : outcome (Z * out T) :=
  if (m <? f0) || (v <=? f0) then Ok ((- EINVAL)%Z, NaN)
  else
    let! r1 := fdiv m v in
    let res := r1 in
    Ok (0%Z, Set_ res).

(** zsl_phy_fluid_simple_press, src/physics/fluids.c:25-36 *)
Definition fluid_simple_press (f a : T) : outcome (Z * out T) :=
  if (f <? f0) || (a <=? f0) then Ok ((- EINVAL)%Z, NaN)
  else
    let! r1 := fdiv f a in
    let res := r1 in
    Ok (0%Z, Set_ res).

(** zsl_phy_fluid_press, src/physics/fluids.c:38-49 *)
Definition fluid_press (p0 h d : T) : outcome (Z * out T) :=
  if (p0 <? f0) || (h <? f0) || (d <? f0) then Ok ((- EINVAL)%Z, NaN)
  else
    let res := p0 + h * d * (flit 9807 3) * (flit 10 4) in
    Ok (0%Z, Set_ res).

(** zsl_phy_fluid_bouyant_force, src/physics/fluids.c:51-62 *)
Definition fluid_bouyant_force (v d : T) : outcome (Z * out T) :=
  if (v <? f0) || (d <? f0) then Ok ((- EINVAL)%Z, NaN)
  else
    let res := v * d * (flit 9807 3) * (flit 10 4) in
    Ok (0%Z, Set_ res).

(** zsl_phy_fluid_flow_rate, src/physics/fluids.c:64-76 *)
Definition fluid_flow_rate (a1 v1 a2 : T) : outcome (Z * out T) :=
  if (v1 <? f0) || (a1 <? f0) || (a2 <=? f0) then Ok ((- EINVAL)%Z, NaN)
  else
    let! r1 := fdiv (a1 * v1) a2 in
    let res := r1 in
    Ok (0%Z, Set_ res).

(** zsl_phy_fluid_force_prop, src/physics/fluids.c:78-90 *)
Definition fluid_force_prop (a1 f1 a2 : T) : outcome (Z * out T) :=
  if (f1 <? f0) || (a2 <? f0) || (a1 <=? f0) then Ok ((- EINVAL)%Z, NaN)
  else
    let! r1 := fdiv (a2 * f1) a1 in
    let res := r1 in
    Ok (0%Z, Set_ res).

(** zsl_phy_fluid_bernoulli, src/physics/fluids.c:92-108 *)
Definition fluid_bernoulli (d v1 p1 v2 : T) : outcome (Z * out T) :=
  if (v1 <? f0) || (v2 <? f0) || (p1 <? f0) || (d <? f0) then Ok ((- EINVAL)%Z, NaN)
  else
    let res := p1 + (flit 5 1) * d * (v1 * v1 - v2 * v2) * (flit 10 4) in
    Ok (0%Z, Set_ res).

(** zsl_phy_fluid_volume_flow_rate, src/physics/fluids.c:110-121 *)
Definition fluid_volume_flow_rate (vel a : T) : outcome (Z * out T) :=
  if (vel <? f0) || (a <? f0) then Ok ((- EINVAL)%Z, NaN)
  else
    let res := vel * a in
    Ok (0%Z, Set_ res).

(** ** src/physics/gases.c *)

(** zsl_phy_gas_av_vel, src/physics/gases.c:12-23 *)
Definition gas_av_vel (m n t : T) : outcome (Z * out T) :=
  if (m <=? f0) || (n <? f0) || (t <? f0) then Ok ((- EINVAL)%Z, NaN)
  else
    let! r1 := fdiv ((flit 30 1) * n * (flit 8314462618 9) * t) m in
    let! r2 := fsqrt r1 in
    let res := r2 in
    Ok (0%Z, Set_ res).

(** zsl_phy_gas_press, src/physics/gases.c:25-36 *)
Definition gas_press (v n t : T) : outcome (Z * out T) :=
  if (v <=? f0) || (n <? f0) || (t <? f0) then Ok ((- EINVAL)%Z, NaN)
  else
    let! r1 := fdiv (n * (flit 8314462618 9) * t) v in
    let res := r1 in
    Ok (0%Z, Set_ res).

(** zsl_phy_gas_boyle, src/physics/gases.c:38-49 *)
Definition gas_boyle (pi vi pf : T) : outcome (Z * out T) :=
  if (pf <=? f0) || (vi <? f0) || (pi <? f0) then Ok ((- EINVAL)%Z, NaN)
  else
    let! r1 := fdiv (vi * pi) pf in
    let res := r1 in
    Ok (0%Z, Set_ res).

(** zsl_phy_gas_charles_lussac, src/physics/gases.c:51-63 *)
Definition gas_charles_lussac (ti vi tf : T) : outcome (Z * out T) :=
  if (ti <=? f0) || (vi <? f0) || (tf <? f0) then Ok ((- EINVAL)%Z, NaN)
  else
    let! r1 := fdiv (vi * tf) ti in
    let res := r1 in
    Ok (0%Z, Set_ res).

(** ** src/physics/thermo.c *)

(** zsl_phy_thermo_heat_fusion, src/physics/thermo.c:38-49 *)
Definition thermo_heat_fusion (m lh : T) : outcome (Z * out T) :=
  if (m <? f0) || (lh <? f0) then Ok ((- EINVAL)%Z, NaN)
  else
    let res := m * lh in
    Ok (0%Z, Set_ res).

(** zsl_phy_thermo_heat, src/physics/thermo.c:51-62 *)
Definition thermo_heat (m sh t : T) : outcome (Z * out T) :=
  if (m <? f0) || (sh <? f0) then Ok ((- EINVAL)%Z, NaN)
  else
    let res := m * sh * t in
    Ok (0%Z, Set_ res).

(** zsl_phy_thermo_expan, src/physics/thermo.c:64-75 *)
Definition thermo_expan (l0 a t : T) : outcome (Z * out T) :=
  if (l0 <? f0) || (a <? f0) then Ok ((- EINVAL)%Z, NaN)
  else
    let res := l0 + l0 * a * t in
    Ok (0%Z, Set_ res).

(** zsl_phy_thermo_mean_free_path, src/physics/thermo.c:77-88 *)
Definition thermo_mean_free_path (nv d : T) : outcome (Z * out T) :=
  if (nv <=? f0) || (d <=? f0) then Ok ((- EINVAL)%Z, NaN)
  else
    let! r1 := fsqrt (flit 20 1) in
    let! r2 := fdiv (flit 1000000 0) ((flit 314159265359 11) * r1 * nv * d * d) in
    let res := r2 in
    Ok (0%Z, Set_ res).

(** zsl_phy_thermo_effic_heat_engine, src/physics/thermo.c:90-101 *)
Definition thermo_effic_heat_engine (qc qh : T) : outcome (Z * out T) :=
  if (qh =? f0) || (qc >? qh) then Ok ((- EINVAL)%Z, NaN)
  else
    let! r1 := fdiv qc qh in
    let res := (flit 10 1) - r1 in
    Ok (0%Z, Set_ res).

(** zsl_phy_thermo_carnot_engine, src/physics/thermo.c:103-115 *)
Definition thermo_carnot_engine (tc qc th : T) : outcome (Z * out T) :=
  if (tc <=? f0) || (th <? tc) then Ok ((- EINVAL)%Z, NaN)
  else
    let! r1 := fdiv (qc * th) tc in
    let res := r1 in
    Ok (0%Z, Set_ res).

(** ** src/physics/sound.c *)

(** zsl_phy_sound_press_amp, src/physics/sound.c:12-23 *)
Definition sound_press_amp (b k a : T) : outcome (Z * out T) :=
  if (b <? f0) || (k <? f0) || (a <? f0) then Ok ((- EINVAL)%Z, NaN)
  else
    let res := b * k * a in
    Ok (0%Z, Set_ res).

(** zsl_phy_sound_level, src/physics/sound.c:25-36 *)
Definition sound_level (i i0 : T) : outcome (Z * out T) :=
  if (i <? f0) || (i0 <? f0) then Ok ((- EINVAL)%Z, NaN)
  else
    let! r1 := fdiv i i0 in
    let! r2 := flog10 r1 in
    let res := (fofZ 10) * r2 in
    Ok (0%Z, Set_ res).

(** zsl_phy_sound_intensity, src/physics/sound.c:38-49 *)
Definition sound_intensity (b d p : T) : outcome (Z * out T) :=
  if (b <? f0) || (d <=? f0) || (p <? f0) then Ok ((- EINVAL)%Z, NaN)
  else
    let! r1 := fdiv b d in
    let! r2 := fsqrt r1 in
    let! r3 := fdiv (p * p * r2) ((fofZ 2) * b) in
    let res := r3 in
    Ok (0%Z, Set_ res).

(** zsl_phy_sound_shock_wave_angle, src/physics/sound.c:51-57 *)
Definition sound_shock_wave_angle (v vs : T) : outcome (Z * out T) :=
  let! r1 := fdiv v vs in
  let! r2 := fasin r1 in
  let res := r2 in
  Ok (0%Z, Set_ res).

(** zsl_phy_sound_dop_effect, src/physics/sound.c:59-76 *)
Definition sound_dop_effect (v vs vl fs : T) : outcome (Z * out T) :=
  if (fs <? f0) || ((v + vs) =? f0) then Ok ((- EINVAL)%Z, NaN)
  else
    let! r1 := fdiv (fs * (v + vl)) (v + vs) in
    let res := r1 in
    if res <? f0 then Ok ((- EINVAL)%Z, NaN)
    else
      Ok (0%Z, Set_ res).

(** zsl_phy_sound_beat, src/physics/sound.c:78-89 *)
Definition sound_beat (fa fb : T) : outcome (Z * out T) :=
  if (fa <? f0) || (fb <? f0) then Ok ((- EINVAL)%Z, NaN)
  else
    let res := fabs (fa - fb) in
    Ok (0%Z, Set_ res).

(** ** src/physics/optics.c *)

(** zsl_phy_opt_refrac_index, src/physics/optics.c:12-23 *)
Definition opt_refrac_index (v : T) : outcome (Z * out T) :=
  if (v <? f0) || (v >? (flit 2997924580 1)) then Ok ((- EINVAL)%Z, NaN)
  else
    let! r1 := fdiv v (flit 2997924580 1) in
    let res := r1 in
    Ok (0%Z, Set_ res).

(** zsl_phy_opt_focus, src/physics/optics.c:40-51 *)
Definition opt_focus (sr si : T) : outcome (Z * out T) :=
  if sr + si =? f0 then Ok ((- EINVAL)%Z, NaN)
  else
    let! r1 := fdiv (sr * si) (sr + si) in
    let res := r1 in
    Ok (0%Z, Set_ res).

(** zsl_phy_opt_critic_angle, src/physics/optics.c:53-64 *)
Definition opt_critic_angle (n1 n2 : T) : outcome (Z * out T) :=
  if (n1 <=? f0) || (n2 <? f0) || (n2 >? n1) then Ok ((- EINVAL)%Z, NaN)
  else
    let! r1 := fdiv n2 n1 in
    let! r2 := fasin r1 in
    let res := r2 in
    Ok (0%Z, Set_ res).

(** zsl_phy_opt_power, src/physics/optics.c:66-77 *)
Definition opt_power (f : T) : outcome (Z * out T) :=
  if f =? f0 then Ok ((- EINVAL)%Z, NaN)
  else
    let! r1 := fdiv (fofZ 1) f in
    let res := r1 in
    Ok (0%Z, Set_ res).

(** zsl_phy_opt_magn, src/physics/optics.c:79-90 *)
Definition opt_magn (y1 y2 : T) : outcome (Z * out T) :=
  if (y1 <=? f0) || (y2 <? f0) then Ok ((- EINVAL)%Z, NaN)
  else
    let! r1 := fdiv y2 y1 in
    let res := r1 in
    Ok (0%Z, Set_ res).

(** zsl_phy_opt_dif, src/physics/optics.c:92-103.  uint8_t arguments are integers 0..255 *)
Definition opt_dif (n : Z) (lambda : T) (o : T) : outcome (Z * out T) :=
  if (lambda <? f0) || ((fsin o) <=? f0) then Ok ((- EINVAL)%Z, NaN)
  else
    let! r1 := fdiv ((fofZ n) * lambda) (fsin o) in
    let res := r1 in
    Ok (0%Z, Set_ res).

(** ** src/physics/photons.c *)

(** zsl_phy_photon_ener, src/physics/photons.c:12-23 *)
Definition photon_ener (lambda : T) : outcome (Z * out T) :=
  if lambda <=? f0 then Ok ((- EINVAL)%Z, NaN)
  else
    let! r1 := fdiv ((flit 2997924580 1) * (flit 662607015 42)) (lambda * (flit 1602176634 28)) in
    let res := r1 in
    Ok (0%Z, Set_ res).

(** zsl_phy_photon_mom, src/physics/photons.c:25-36 *)
Definition photon_mom (lambda : T) : outcome (Z * out T) :=
  if lambda <=? f0 then Ok ((- EINVAL)%Z, NaN)
  else
    let! r1 := fdiv (flit 662607015 42) (lambda * (flit 1602176634 28)) in
    let res := r1 in
    Ok (0%Z, Set_ res).

(** zsl_phy_photon_wavelength, src/physics/photons.c:38-49 *)
Definition photon_wavelength (f : T) : outcome (Z * out T) :=
  if f <=? f0 then Ok ((- EINVAL)%Z, NaN)
  else
    let! r1 := fdiv (flit 2997924580 1) f in
    let res := r1 in
    Ok (0%Z, Set_ res).

(** zsl_phy_photon_frequency, src/physics/photons.c:51-62 *)
Definition photon_frequency (lambda : T) : outcome (Z * out T) :=
  if lambda <=? f0 then Ok ((- EINVAL)%Z, NaN)
  else
    let! r1 := fdiv (flit 2997924580 1) lambda in
    let res := r1 in
    Ok (0%Z, Set_ res).

(** zsl_phy_photon_photoelectric, src/physics/photons.c:64-75 *)
Definition photon_photoelectric (f w : T) : outcome (Z * out T) :=
  if (f <? f0) || (w <? f0) then Ok ((- EINVAL)%Z, NaN)
  else
    let! r1 := fdiv ((flit 662607015 42) * f) (flit 1602176634 28) in
    let res := r1 - w in
    Ok (0%Z, Set_ res).

(** ** src/physics/atomic.c *)

(** zsl_phy_atom_nucl_radius, src/physics/atomic.c:12-23.  uint8_t arguments are integers 0..255 *)
Definition atom_nucl_radius (a : Z) : outcome (Z * out T) :=
  if (a =? 0)%Z then Ok ((- EINVAL)%Z, NaN)
  else
    let! r1 := fdiv (flit 10 1) (flit 30 1) in
    let! r2 := fpow (fofZ a) r1 in
    let res := (flit 125 17) * r2 * (flit 1000000000000000 0) in
    Ok (0%Z, Set_ res).

(** zsl_phy_atom_bohr_orb_radius, src/physics/atomic.c:25-49.  uint8_t arguments are integers 0..255 *)
Definition atom_bohr_orb_radius (z n : Z) : outcome (Z * out T) :=
  if (z =? 0)%Z then Ok ((- EINVAL)%Z, NaN)
  else
    let! r1 := fdiv ((fofZ n) * (fofZ n) * (flit 1054571800 43) * (flit 1054571800 43) * (flit 1000000000 0)) ((fofZ z) * (flit 8987551787 0) * (flit 1602176634 28) * (flit 1602176634 28) * (flit 91093835611 41)) in
    let res := r1 in
    Ok (0%Z, Set_ res).

(** zsl_phy_atom_bohr_orb_vel, src/physics/atomic.c:51-63.  uint8_t arguments are integers 0..255 *)
Definition atom_bohr_orb_vel (z n : Z) : outcome (Z * out T) :=
  if (z =? 0)%Z then Ok ((- EINVAL)%Z, NaN)
  else
    let! r1 := fdiv ((fofZ z) * (flit 8987551787 0) * (flit 1602176634 28) * (flit 1602176634 28) * (flit 1 3)) ((fofZ n) * (flit 1054571800 43)) in
    let res := r1 in
    Ok (0%Z, Set_ res).

(** zsl_phy_atom_bohr_orb_ener, src/physics/atomic.c:65-78.  uint8_t arguments are integers 0..255 *)
Definition atom_bohr_orb_ener (z n : Z) : outcome (Z * out T) :=
  if (z =? 0)%Z then Ok ((- EINVAL)%Z, NaN)
  else
    let! r1 := fdiv ((fofZ z) * (flit 8987551787 0) * (flit 1602176634 28) * (flit 1602176634 28)) ((fofZ n) * (flit 1054571800 43)) in
    let! r2 := fpow r1 (flit 20 1) in
    let! r3 := fdiv (- (r2 * (flit 5 1) * (flit 91093835611 41))) (flit 1602176634 28) in
    let res := r3 in
    Ok (0%Z, Set_ res).

(** zsl_phy_atom_rad_decay, src/physics/atomic.c:80-92 *)
Definition atom_rad_decay (qi t lambda : T) : outcome (Z * out T) :=
  if (t <? f0) || (lambda <? f0) then Ok ((- EINVAL)%Z, NaN)
  else
    let! r1 := fpow (flit 271828182845 11) ((- lambda) * t) in
    let res := qi * r1 in
    Ok (0%Z, Set_ res).

(** zsl_phy_atom_bragg, src/physics/atomic.c:94-106.  uint8_t arguments are integers 0..255 *)
Definition atom_bragg (n : Z) (theta : T) (lambda : T) : outcome (Z * out T) :=
  if (lambda <? f0) || ((fsin theta) <=? f0) then Ok ((- EINVAL)%Z, NaN)
  else
    let! r1 := fdiv ((fofZ n) * lambda) ((flit 20 1) * (fsin theta)) in
    let res := r1 in
    Ok (0%Z, Set_ res).

(** ** src/physics/electric.c *)

(** zsl_phy_elec_charge_dens, src/physics/electric.c:12-23 *)
Definition elec_charge_dens (q v : T) : outcome (Z * out T) :=
  if v <=? f0 then Ok ((- EINVAL)%Z, NaN)
  else
    let! r1 := fdiv q v in
    let res := r1 in
    Ok (0%Z, Set_ res).

(** zsl_phy_elec_force, src/physics/electric.c:25-36 *)
Definition elec_force (q1 q2 r : T) : outcome (Z * out T) :=
  if r <=? f0 then Ok ((- EINVAL)%Z, NaN)
  else
    let! r1 := fdiv ((flit 8987551787 0) * q1 * q2) (r * r) in
    let res := r1 in
    Ok (0%Z, Set_ res).

(** zsl_phy_elec_force2, src/physics/electric.c:38-44 *)
Definition elec_force2 (q e : T) : outcome (Z * out T) :=
  let res := q * e in
  Ok (0%Z, Set_ res).

(** zsl_phy_elec_field, src/physics/electric.c:46-57 *)
Definition elec_field (q r : T) : outcome (Z * out T) :=
  if r <=? f0 then Ok ((- EINVAL)%Z, NaN)
  else
    let! r1 := fdiv ((flit 8987551787 0) * q) (r * r) in
    let res := r1 in
    Ok (0%Z, Set_ res).

(** zsl_phy_elec_pot_ener, src/physics/electric.c:59-70 *)
Definition elec_pot_ener (q1 q2 r : T) : outcome (Z * out T) :=
  if r <=? f0 then Ok ((- EINVAL)%Z, NaN)
  else
    let! r1 := fdiv ((flit 8987551787 0) * q1 * q2) r in
    let res := r1 in
    Ok (0%Z, Set_ res).

(** zsl_phy_elec_potential, src/physics/electric.c:72-83 *)
Definition elec_potential (q r : T) : outcome (Z * out T) :=
  if r <=? f0 then Ok ((- EINVAL)%Z, NaN)
  else
    let! r1 := fdiv ((flit 8987551787 0) * q) r in
    let res := r1 in
    Ok (0%Z, Set_ res).

(** zsl_phy_elec_flux, src/physics/electric.c:85-96 *)
Definition elec_flux (e a theta : T) : outcome (Z * out T) :=
  if (e <? f0) || (a <? f0) then Ok ((- EINVAL)%Z, NaN)
  else
    let res := e * a * (fcos theta) in
    Ok (0%Z, Set_ res).

(** ** src/physics/electricity.c *)

(** zsl_phy_elcty_current, src/physics/electricity.c:13-24 *)
Definition elcty_current (q t : T) : outcome (Z * out T) :=
  if t <=? f0 then Ok ((- EINVAL)%Z, NaN)
  else
    let! r1 := fdiv q t in
    let res := r1 in
    Ok (0%Z, Set_ res).

(** zsl_phy_elcty_resistivity, src/physics/electricity.c:104-115 *)
Definition elcty_resistivity (r a l : T) : outcome (Z * out T) :=
  if (a <? f0) || (l <=? f0) || (r <? f0) then Ok ((- EINVAL)%Z, NaN)
  else
    let! r1 := fdiv a l in
    let res := r * r1 in
    Ok (0%Z, Set_ res).

(** zsl_phy_elcty_ohm_law, src/physics/electricity.c:117-128 *)
Definition elcty_ohm_law (i r : T) : outcome (Z * out T) :=
  if r <? f0 then Ok ((- EINVAL)%Z, NaN)
  else
    let res := i * r in
    Ok (0%Z, Set_ res).

(** zsl_phy_elcty_power_vi, src/physics/electricity.c:130-136 *)
Definition elcty_power_vi (v i : T) : outcome (Z * out T) :=
  let res := v * i in
  Ok (0%Z, Set_ res).

(** zsl_phy_elcty_power_ir, src/physics/electricity.c:138-149 *)
Definition elcty_power_ir (i r : T) : outcome (Z * out T) :=
  if r <? f0 then Ok ((- EINVAL)%Z, NaN)
  else
    let res := i * i * r in
    Ok (0%Z, Set_ res).

(** zsl_phy_elcty_power_vr, src/physics/electricity.c:151-162 *)
Definition elcty_power_vr (v r : T) : outcome (Z * out T) :=
  if r <=? f0 then Ok ((- EINVAL)%Z, NaN)
  else
    let! r1 := fdiv (v * v) r in
    let res := r1 in
    Ok (0%Z, Set_ res).

(** ** src/physics/eleccomp.c *)

(** zsl_phy_ecmp_capac_cpv, src/physics/eleccomp.c:12-23 *)
Definition ecmp_capac_cpv (q v : T) : outcome (Z * out T) :=
  if v =? f0 then Ok ((- EINVAL)%Z, NaN)
  else
    let! r1 := fdiv q v in
    let res := r1 in
    Ok (0%Z, Set_ res).

(** zsl_phy_ecmp_capac_ad, src/physics/eleccomp.c:25-36 *)
Definition ecmp_capac_ad (a d : T) : outcome (Z * out T) :=
  if d =? f0 then Ok ((- EINVAL)%Z, NaN)
  else
    let! r1 := fdiv a d in
    let res := (flit 885 14) * r1 in
    Ok (0%Z, Set_ res).

(** zsl_phy_ecmp_ener_capac, src/physics/eleccomp.c:38-44 *)
Definition ecmp_ener_capac (c v : T) : outcome (Z * out T) :=
  let res := (flit 5 1) * c * v * v in
  Ok (0%Z, Set_ res).

(** zsl_phy_ecmp_ener_induc, src/physics/eleccomp.c:46-52 *)
Definition ecmp_ener_induc (l i : T) : outcome (Z * out T) :=
  let res := (flit 5 1) * l * i * i in
  Ok (0%Z, Set_ res).

(** zsl_phy_ecmp_trans, src/physics/eleccomp.c:54-65.  uint8_t arguments are integers 0..255 *)
Definition ecmp_trans (t1 : Z) (v1 : T) (t2 : Z) : outcome (Z * out T) :=
  if (t1 =? 0)%Z then Ok ((- EINVAL)%Z, NaN)
  else
    let! r1 := fdiv (v1 * (fofZ t2)) (fofZ t1) in
    let res := r1 in
    Ok (0%Z, Set_ res).

(** zsl_phy_ecmp_rlc_volt, src/physics/eleccomp.c:67-74 *)
Definition ecmp_rlc_volt (vr vl vc : T) : outcome (Z * out T) :=
  let! r1 := fpow (vl - vc) (flit 20 1) in
  let! r2 := fsqrt (vr * vr + r1) in
  let res := r2 in
  Ok (0%Z, Set_ res).

(** zsl_phy_ecmp_rc_charg_i, src/physics/eleccomp.c:76-88 *)
Definition ecmp_rc_charg_i (r c t i0 : T) : outcome (Z * out T) :=
  if ((r * c) <=? f0) || (i0 <? f0) || (t <? f0) then Ok ((- EINVAL)%Z, NaN)
  else
    let! r1 := fdiv (- t) (r * c) in
    let res := i0 * (fexp r1) in
    Ok (0%Z, Set_ res).

(** zsl_phy_ecmp_rc_charg_q, src/physics/eleccomp.c:90-102 *)
Definition ecmp_rc_charg_q (r c t q0 : T) : outcome (Z * out T) :=
  if ((r * c) <=? f0) || (q0 <? f0) || (t <? f0) then Ok ((- EINVAL)%Z, NaN)
  else
    let! r1 := fdiv (- t) (r * c) in
    let res := q0 * ((flit 10 1) - (fexp r1)) in
    Ok (0%Z, Set_ res).

(** zsl_phy_ecmp_rc_discharg_i, src/physics/eleccomp.c:104-116 *)
Definition ecmp_rc_discharg_i (r c t i0 : T) : outcome (Z * out T) :=
  if ((r * c) <=? f0) || (i0 <? f0) || (t <? f0) then Ok ((- EINVAL)%Z, NaN)
  else
    let! r1 := fdiv (- t) (r * c) in
    let res := (- i0) * (fexp r1) in
    Ok (0%Z, Set_ res).

(** zsl_phy_ecmp_rc_discharg_q, src/physics/eleccomp.c:118-130 *)
Definition ecmp_rc_discharg_q (r c t q0 : T) : outcome (Z * out T) :=
  if ((r * c) <=? f0) || (q0 <? f0) || (t <? f0) then Ok ((- EINVAL)%Z, NaN)
  else
    let! r1 := fdiv (- t) (r * c) in
    let res := q0 * (fexp r1) in
    Ok (0%Z, Set_ res).

(** zsl_phy_ecmp_rl_current, src/physics/eleccomp.c:132-144 *)
Definition ecmp_rl_current (r l t i0 : T) : outcome (Z * out T) :=
  if (l <=? f0) || (i0 <? f0) || (t <? f0) || (r <? f0) then Ok ((- EINVAL)%Z, NaN)
  else
    let! r1 := fdiv (- (r * t)) l in
    let res := i0 * ((flit 10 1) - (fexp r1)) in
    Ok (0%Z, Set_ res).

(** ** src/physics/magnetics.c *)

(** zsl_phy_magn_force, src/physics/magnetics.c:12-24 *)
Definition magn_force (q v b theta : T) : outcome (Z * out T) :=
  if (v <? f0) || (b <? f0) then Ok ((- EINVAL)%Z, NaN)
  else
    let res := q * v * b * (fsin theta) in
    Ok (0%Z, Set_ res).

(** zsl_phy_magn_force_wire, src/physics/magnetics.c:26-38 *)
Definition magn_force_wire (i l b theta : T) : outcome (Z * out T) :=
  if (l <? f0) || (b <? f0) then Ok ((- EINVAL)%Z, NaN)
  else
    let res := i * l * b * (fsin theta) in
    Ok (0%Z, Set_ res).

(** zsl_phy_magn_torque_loop, src/physics/magnetics.c:40-52 *)
Definition magn_torque_loop (i a b theta : T) : outcome (Z * out T) :=
  if (a <? f0) || (b <? f0) then Ok ((- EINVAL)%Z, NaN)
  else
    let res := i * a * b * (fsin theta) in
    Ok (0%Z, Set_ res).

(** zsl_phy_magn_pot_dipole, src/physics/magnetics.c:54-66 *)
Definition magn_pot_dipole (mom b theta : T) : outcome (Z * out T) :=
  if (mom <? f0) || (b <? f0) then Ok ((- EINVAL)%Z, NaN)
  else
    let res := (- mom) * b * (fcos theta) in
    Ok (0%Z, Set_ res).

(** zsl_phy_magn_orb_radius, src/physics/magnetics.c:68-85 *)
Definition magn_orb_radius (q v b m : T) : outcome (Z * out T) :=
  if (q =? f0) || (b =? f0) || (m <? f0) then Ok ((- EINVAL)%Z, NaN)
  else
    let! r1 := fdiv (m * v) (q * b) in
    let res := r1 in
    if res <? f0 then Ok ((- EINVAL)%Z, NaN)
    else
      Ok (0%Z, Set_ res).

(** zsl_phy_magn_flux, src/physics/magnetics.c:87-98 *)
Definition magn_flux (a b theta : T) : outcome (Z * out T) :=
  if (a <? f0) || (b <? f0) then Ok ((- EINVAL)%Z, NaN)
  else
    let res := a * b * (fcos theta) in
    Ok (0%Z, Set_ res).

(** zsl_phy_magn_mom, src/physics/magnetics.c:100-111 *)
Definition magn_mom (i a : T) : outcome (Z * out T) :=
  if a <? f0 then Ok ((- EINVAL)%Z, NaN)
  else
    let res := i * a in
    Ok (0%Z, Set_ res).

End Phys.
