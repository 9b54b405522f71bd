(** Model of the functions of src/physics that MPhys.v leaves out: calls to
    other functions, loops over a vector, or several outputs. *)
From Coq Require Import ZArith Bool List.
From Verif Require Import Base Libm Out MVec MPhys.
Import ListNotations.
Set Implicit Arguments.
Local Open Scope num_scope.

Section PhysVec.
Context {T : Type} {N : Num T} {M : NumM T}.

(** Arithmetic on a variable that a callee may have set to NAN: NAN spreads
    (IEEE 754, 6.2). *)
Definition omap (f : T -> T) (o : out T) : out T :=
  match o with Kept => Kept | NaN => NaN | Set_ x => Set_ (f x) end.

(** zsl_phy_kin_init_pos, src/physics/kinematics.c:26-42 *)
Definition kin_init_pos (vi t a xf : T) : outcome (Z * out T) :=
  if t <? f0 then Ok ((- EINVAL)%Z, NaN)
  else
    let! (_, dist) := kin_dist vi t a in
    Ok (0%Z, omap (fun d => xf - d) dist).

(** zsl_phy_kin_time, src/physics/kinematics.c:58-70.  The C code divides first
    and then tests accel; the quotient of a division by zero is overwritten by
    NAN, so the test comes first here. *)
Definition kin_time (vi vf accel : T) : outcome (Z * out T) :=
  if accel =? f0 then Ok ((- EINVAL)%Z, NaN)
  else
    let! time := fdiv (vf - vi) accel in
    if time <? f0 then Ok ((- EINVAL)%Z, NaN)
    else Ok (0%Z, Set_ time).

(** zsl_phy_rot_time, src/physics/rotation.c:46-57; as [kin_time] *)
Definition rot_time (oi of_ a : T) : outcome (Z * out T) :=
  if a =? f0 then Ok ((- EINVAL)%Z, NaN)
  else
    let! time := fdiv (of_ - oi) a in
    if time <? f0 then Ok ((- EINVAL)%Z, NaN)
    else Ok (0%Z, Set_ time).

(** zsl_phy_proj_init_vel, src/physics/projectiles.c:12-20; the outputs are
    the horizontal and the vertical part *)
Definition proj_init_vel (vi theta : T) : outcome (Z * out T * out T) :=
  Ok (0%Z, Set_ (vi * fcos theta), Set_ (vi * fsin theta)).

(** zsl_phy_proj_trajectory, src/physics/projectiles.c:112-126; the test of
    vih comes first here, see [kin_time] *)
Definition proj_trajectory (vih viv xi yi xf : T) : outcome (Z * out T) :=
  if vih =? f0 then Ok ((- EINVAL)%Z, NaN)
  else
    let! t := fdiv (xf - xi) vih in
    if t <? f0 then Ok ((- EINVAL)%Z, NaN)
    else
      let! (_, yf) := proj_ver_motion viv t yi in
      Ok (0%Z, yf).

(** zsl_phy_proj_angle, src/physics/projectiles.c:136-147 *)
Definition proj_angle (vfh vfv : T) : outcome (Z * out T) :=
  if vfh =? f0 then
    let! h := fdiv (flit 314159265359 11) (flit 20 1) in
    Ok (0%Z, Set_ h)
  else
    let! q := fdiv vfv vfh in
    Ok (0%Z, Set_ (fatan q)).

(** zsl_phy_proj_range, src/physics/projectiles.c:149-162.  The status of both
    calls is ignored.  When proj_time stored NAN in t, hor_motion's test
    "t < 0" is false and it stores xi + vih * NAN = NAN. *)
Definition proj_range (vih viv xi yi : T) : outcome (Z * out T) :=
  let! (_, t) := proj_time viv yi (flit 0 1) in
  match t with
  | Set_ t =>
      let! (_, xf) := proj_hor_motion vih t xi in
      Ok (0%Z, omap (fun x => x - xi) xf)
  | _ => Ok (0%Z, NaN)
  end.

(** zsl_phy_work_x, src/physics/work.c:25-38 *)
Definition work_x (f d theta : T) : outcome (Z * out T) :=
  if (f <? f0) || (d <? f0) then Ok ((- EINVAL)%Z, NaN)
  else
    let! (_, w) := work_module f d in
    Ok (0%Z, omap (fun w => w * fcos theta) w).

(** zsl_phy_work_y, src/physics/work.c:40-53 *)
Definition work_y (f d theta : T) : outcome (Z * out T) :=
  if (f <? f0) || (d <? f0) then Ok ((- EINVAL)%Z, NaN)
  else
    let! (_, w) := work_module f d in
    Ok (0%Z, omap (fun w => w * fsin theta) w).

(** zsl_phy_opt_snell, src/physics/optics.c:25-38.  The quotient is formed
    before n2 is tested; for n2 <= 0 it is not used. *)
Definition opt_snell (n1 n2 o1 : T) : outcome (Z * out T) :=
  if (n1 <? f0) || (n2 <=? f0) then Ok ((- EINVAL)%Z, NaN)
  else
    let! o := fdiv (n1 * fsin o1) n2 in
    if fabs o >? fofZ 1 then Ok ((- EINVAL)%Z, NaN)
    else
      let! q := fdiv (n1 * fsin o1) n2 in
      let! o2 := fasin q in
      Ok (0%Z, Set_ o2).

(** zsl_phy_thermo_fahren_cels, src/physics/thermo.c:12-23; ctf: Celsius to
    Fahrenheit *)
Definition thermo_fahren_cels (t1 : T) (ctf : bool) : outcome (Z * out T) :=
  if ctf then
    let! q := fdiv (fofZ 9 * t1) (fofZ 5) in
    Ok (0%Z, Set_ (q + fofZ 32))
  else
    let! q := fdiv ((t1 - fofZ 32) * fofZ 5) (fofZ 9) in
    Ok (0%Z, Set_ q).

(** zsl_phy_thermo_cels_kel, src/physics/thermo.c:25-36; ktc: Kelvin to
    Celsius *)
Definition thermo_cels_kel (t1 : T) (ktc : bool) : outcome (Z * out T) :=
  if ktc then Ok (0%Z, Set_ (t1 - flit 27315 2))
  else Ok (0%Z, Set_ (t1 + flit 27315 2)).

(** the first loop of the four functions below: does an entry fail the test? *)
Definition any_bad (bad : T -> bool) (v : vec T) : outcome bool :=
  let! r := for_exit (vsz v) 0 (fun j (_ : unit) =>
              let! a := rd (vbuf v) j in
              if bad a then Ok (inr tt) else Ok (inl tt)) tt in
  Ok (match r with inl _ => false | inr _ => true end).

(** zsl_phy_elcty_res_series, src/physics/electricity.c:26-42 *)
Definition elcty_res_series (v : vec T) : outcome (Z * out T) :=
  let! bad := any_bad (fun a => a <? f0) v in
  if bad then Ok ((- EINVAL)%Z, NaN)
  else
    let! r := for_ (vsz v) 0 (fun j r => let! a := rd (vbuf v) j in Ok (r + a)) (flit 0 1) in
    Ok (0%Z, Set_ r).

(** zsl_phy_elcty_res_parallel, src/physics/electricity.c:44-63 *)
Definition elcty_res_parallel (v : vec T) : outcome (Z * out T) :=
  let! bad := any_bad (fun a => a <=? f0) v in
  if bad then Ok ((- EINVAL)%Z, NaN)
  else
    let! r_temp := for_ (vsz v) 0 (fun j r =>
                     let! a := rd (vbuf v) j in
                     let! q := fdiv (flit 1 0) a in
                     Ok (r + q)) (flit 0 1) in
    let! r := fdiv (flit 1 0) r_temp in
    Ok (0%Z, Set_ r).

(** zsl_phy_elcty_cap_series, src/physics/electricity.c:65-84 *)
Definition elcty_cap_series (v : vec T) : outcome (Z * out T) :=
  let! bad := any_bad (fun a => a <=? f0) v in
  if bad then Ok ((- EINVAL)%Z, NaN)
  else
    let! c_temp := for_ (vsz v) 0 (fun j c =>
                     let! a := rd (vbuf v) j in
                     let! q := fdiv (flit 1 0) a in
                     Ok (c + q)) (flit 0 1) in
    let! c := fdiv (flit 1 0) c_temp in
    Ok (0%Z, Set_ c).

(** zsl_phy_elcty_cap_parallel, src/physics/electricity.c:86-102 *)
Definition elcty_cap_parallel (v : vec T) : outcome (Z * out T) :=
  let! bad := any_bad (fun a => a <? f0) v in
  if bad then Ok ((- EINVAL)%Z, NaN)
  else
    let! c := for_ (vsz v) 0 (fun j c => let! a := rd (vbuf v) j in Ok (c + a)) (flit 0 1) in
    Ok (0%Z, Set_ c).

(** zsl_phy_mass_center, src/physics/mass.c:13-81; [bc] is
    CONFIG_ZSL_BOUNDS_CHECKS.  The outputs are *mx, *my, *mz. *)
Definition mass_center (bc : bool) (m x y z : vec T)
  : outcome (Z * (out T * out T * out T)) :=
  let nans := (NaN, NaN, NaN) in
  let kept := (Kept, Kept, Kept) in
  if bc && (negb (vsz m =? vsz x)%nat || negb (vsz x =? vsz y)%nat || negb (vsz y =? vsz z)%nat)
  then Ok ((- EINVAL)%Z, nans)
  else
    let! (rc, mtx) := vec_dot bc m x in
    if negb (rc =? 0)%Z then Ok ((- EINVAL)%Z, kept) else
    let! (rc, mty) := vec_dot bc m y in
    if negb (rc =? 0)%Z then Ok ((- EINVAL)%Z, kept) else
    let! (rc, mtz) := vec_dot bc m z in
    if negb (rc =? 0)%Z then Ok ((- EINVAL)%Z, kept) else
    let! (rc, mt) := vec_ar_mean m in
    if negb (rc =? 0)%Z then Ok ((- EINVAL)%Z, kept) else
    let! nn := vec_is_nonneg m in
    if negb nn then Ok ((- EINVAL)%Z, nans) else
    let val o := match o with Some a => a | None => f0 end in
    let mt := val mt * fofZ (Z.of_nat (vsz m)) in
    if mt =? f0 then Ok ((- EINVAL)%Z, nans)
    else
      let! cx := fdiv (val mtx) mt in
      let! cy := fdiv (val mty) mt in
      let! cz := fdiv (val mtz) mt in
      Ok (0%Z, (Set_ cx, Set_ cy, Set_ cz)).

End PhysVec.
