(** Model of src/orientation/ahrs.c, compass.c, gravity.c and euler.c. *)
From Coq Require Import List Arith ZArith Bool.
From Verif Require Import Base Libm Out MVec MMtx MQuat.
Import ListNotations.
Set Implicit Arguments.
Local Open Scope num_scope.

(** struct zsl_attitude, include/zsl/orientation/ahrs.h:48-80 *)
Record att (T : Type) : Type := Att { roll : T; pitch : T; yaw : T; status : Z }.
Arguments Att {T}.
Arguments roll {T}.
Arguments pitch {T}.
Arguments yaw {T}.
Arguments status {T}.

Section Ahrs.
Variable bc : bool.   (* CONFIG_ZSL_BOUNDS_CHECKS *)
Context {T : Type} {N : Num T} {M : NumM T}.

(** ZSL_DEG_TO_RAD, ZSL_RAD_TO_DEG, ZSL_PI, include/zsl/consts.h *)
Definition DEG_TO_RAD : T := flit 1745329252 11.
Definition RAD_TO_DEG : T := flit 57295779513 9.
Definition ZSL_PI : T := flit 314159265359 11.

(** zsl_att_to_vec, src/orientation/ahrs.c:12-20.  In C the vector shares the
    attitude's memory; the model gives the contents. *)
Definition att_to_vec (a : att T) : Z * vec T :=
  (0%Z, Vec 3 [Some (roll a); Some (pitch a); Some (yaw a)]).

(** zsl_eul_to_vec, src/orientation/euler.c:14-22, likewise *)
Definition eul_to_vec (e : euler T) : Z * vec T :=
  (0%Z, Vec 3 [Some (ex e); Some (ey e); Some (ez e)]).

(** zsl_att_to_euler, src/orientation/ahrs.c:22-31 *)
Definition att_to_euler (a : att T) : Z * euler T :=
  (0%Z, Euler (roll a * DEG_TO_RAD) (pitch a * DEG_TO_RAD) (yaw a * DEG_TO_RAD)).

(** zsl_att_from_euler, src/orientation/ahrs.c:33-43 *)
Definition att_from_euler (e : euler T) : Z * att T :=
  (0%Z, Att (ex e * RAD_TO_DEG) (ey e * RAD_TO_DEG) (ez e * RAD_TO_DEG) 0).

(** zsl_att_from_accel, src/orientation/ahrs.c:83-112; [a] is the caller's
    attitude before the call *)
Definition att_from_accel (accel : vec T) (a : att T) : outcome (Z * att T) :=
  if bc && negb (vsz accel =? 3)%nat then Ok ((- EINVAL)%Z, a)
  else
    let! (_, u) := vec_copy (Vec 3 (fresh 3)) accel in
    let! (_, u) := vec_to_unit bc u in
    let! u0 := rd (vbuf u) 0 in
    let! u1 := rd (vbuf u) 1 in
    let! u2 := rd (vbuf u) 2 in
    let ss := u1 * u1 + u2 * u2 in
    let! h := fsqrt ss in
    Ok (0%Z, Att (fatan2 u1 u2 * RAD_TO_DEG) (fatan2 (- u0) h * RAD_TO_DEG) f0 (status a)).

(** zsl_att_from_accelmag, src/orientation/ahrs.c:45-81.  The local attitude
    starts indeterminate in C; every component read from it has been set. *)
Definition att_from_accelmag (accel mag : vec T) (a : att T) : outcome (Z * att T) :=
  if bc && (negb (vsz accel =? 3)%nat || negb (vsz mag =? 3)%nat) then Ok ((- EINVAL)%Z, a)
  else
    let! (_, m) := vec_copy (Vec 3 (fresh 3)) mag in
    let! (_, m) := vec_to_unit bc m in
    let! (_, t) := att_from_accel accel a in
    let! m0 := rd (vbuf m) 0 in
    let! m1 := rd (vbuf m) 1 in
    let! m2 := rd (vbuf m) 2 in
    let r := roll t * DEG_TO_RAD in
    let p := pitch t * DEG_TO_RAD in
    let nom := m2 * fsin r - m1 * fcos r in
    let den := m0 * fcos p + fsin p * (m1 * fsin r + m2 * fcos r) in
    Ok (0%Z, Att (roll t) (pitch t) (fatan2 nom den * RAD_TO_DEG) (status a)).

(** zsl_att_accel_angle, src/orientation/ahrs.c:114-138 *)
Definition att_accel_angle (a1 a2 : vec T) : outcome (Z * out T) :=
  if bc && (negb (vsz a1 =? 3)%nat || negb (vsz a2 =? 3)%nat) then Ok ((- EINVAL)%Z, Kept)
  else
    let! n1 := vec_norm bc a1 in
    let! n2 := vec_norm bc a2 in
    let! (_, d) := vec_dot bc a1 a2 in
    match d with
    | None => UB Uninit
    | Some d =>
        let! c := fdiv d (n1 * n2) in
        let! b := facos c in
        Ok (0%Z, Set_ b)
    end.

(** zsl_comp_dms_to_dd, src/orientation/compass.c:13-53 *)
Definition comp_dms_to_dd (d m s : T) : outcome (Z * T) :=
  if bc && ((m <? f0) || (m >? flit 600 1)) then Ok ((- EINVAL)%Z, f0)
  else if bc && ((s <? f0) || (s >? flit 600 1)) then Ok ((- EINVAL)%Z, f0)
  else if bc && ((d <? - flit 1800 1) || (d >? flit 1800 1)) then Ok ((- EINVAL)%Z, f0)
  else
    let! a := fdiv m (flit 600 1) in
    let! b := fdiv s (flit 36000 1) in
    if d <? f0 then Ok (0%Z, d - a - b) else Ok (0%Z, d + a + b).

(** zsl_comp_magn_north, src/orientation/compass.c:55-81 *)
Definition comp_magn_north (m : vec T) : outcome (Z * out T) :=
  if bc && negb (vsz m =? 3)%nat then Ok ((- EINVAL)%Z, Kept)
  else
    let! x := rd (vbuf m) 0 in
    let! y := rd (vbuf m) 1 in
    if fabs y <? flit 1 6 then
      if x >? f0 then Ok (0%Z, Set_ f0) else Ok (0%Z, Set_ (flit 1800 1))
    else if y >? f0 then
      let! a := fdiv (fatan2 x y * flit 1800 1) ZSL_PI in
      Ok (0%Z, Set_ (flit 900 1 - a))
    else if y <? f0 then
      let! a := fdiv (fatan2 x y * flit 1800 1) ZSL_PI in
      Ok (0%Z, Set_ (flit 2700 1 - a))
    else Ok (0%Z, Kept).

(** zsl_comp_geo_north, src/orientation/compass.c:83-100; [d0] is the caller's
    variable before the call *)
Definition comp_geo_north (m : vec T) (dec : T) (d0 : option T) : outcome (Z * out T) :=
  if bc && negb (vsz m =? 3)%nat then Ok ((- EINVAL)%Z, Kept)
  else
    let! (_, d) := comp_magn_north m in
    match d with
    | Set_ d => Ok (0%Z, Set_ (d + dec))
    | NaN => Ok (0%Z, NaN)
    | Kept => match d0 with Some d => Ok (0%Z, Set_ (d + dec)) | None => UB Uninit end
    end.

(** zsl_grav_lat_alt, src/orientation/gravity.c:12-26 *)
Definition grav_lat_alt (lat alt : T) : outcome (Z * out T) :=
  if (alt <? f0) || (lat >? flit 900 1) || (lat <? - flit 900 1)
  then Ok ((- EINVAL)%Z, NaN)
  else
    let! k := fdiv ZSL_PI (flit 1800 1) in
    Ok (0%Z, Set_ (flit 9780318 6 *
      (flit 10 1 + flit 53024 7 * fsin (lat * k) * fsin (lat * k)
       - flit 58 7 * fsin (flit 20 1 * lat * k) * fsin (flit 20 1 * lat * k))
      - flit 3085 9 * alt)).

End Ahrs.
