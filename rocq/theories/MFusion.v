(** Model of src/orientation/fusion/madgwick.c, mahony.c, complementary.c,
    saam.c, aqua.c, kalman.c and calibration.c.

    The static sample frequency of each filter (a uint32_t) is a parameter
    [freq]; the init functions return its new value.  A sensor pointer is
    [None] when it is NULL.  The filters normalise and scale the caller's
    vectors in place, so every function also returns the vectors. *)
From Coq Require Import List Arith ZArith Bool.
From Verif Require Import Base Libm Out MVec MMtx MDecomp MStat MQuat MAhrs.
Import ListNotations.
Set Implicit Arguments.
Local Open Scope num_scope.

Section Fusion.
Variable bc : bool.   (* CONFIG_ZSL_BOUNDS_CHECKS *)
Context {T : Type} {N : Num T} {M : NumM T}.

(** the caller's objects: accelerometer, magnetometer, gyroscope, orientation *)
Record sens : Type := Sens { sa : option (vec T); sm : option (vec T); sg : option (vec T);
                             sq : quat T }.

Definition deref {A} (p : option A) : outcome A :=
  match p with Some x => Ok x | None => UB NullDeref end.
Definition local {A} (p : option A) : outcome A :=
  match p with Some x => Ok x | None => UB Uninit end.
(** p != NULL && p->sz != 3 *)
Definition bad3 (p : option (vec T)) : bool :=
  match p with Some v => negb (vsz v =? 3)%nat | None => false end.

(** 1.0 / freq *)
Definition period (freq : Z) : outcome T := fdiv (flit 10 1) (fofZ freq).

(** zsl_fus_madg_init, src/orientation/fusion/madgwick.c:283-303, and the
    identical zsl_fus_mahn_init, src/orientation/fusion/mahony.c:268-288,
    zsl_fus_comp_init, src/orientation/fusion/complementary.c:79-99,
    zsl_fus_saam_init, src/orientation/fusion/saam.c:64-80, zsl_fus_aqua_init,
    src/orientation/fusion/aqua.c:175-195, zsl_fus_kalm_init,
    src/orientation/fusion/kalman.c:285-305; [old] is the static frequency
    before the call *)
Definition fus_init (old freq : Z) : Z * Z :=
  if bc && (freq <=? 0)%Z then ((- EINVAL)%Z, old) else (0%Z, freq).

(** q = qa qb qa^-1, the result code of zsl_quat_rot being ignored *)
Definition rot_ (qa qb : quat T) : outcome (quat T) :=
  let! (_, o) := quat_rot bc qa qb in local o.

(** zsl_quat_from_ang_vel(g, q, t, q), result code ignored *)
Definition ang_vel_ (g : vec T) (q : quat T) (t : T) : outcome (quat T) :=
  let! (_, o) := quat_from_ang_vel bc g q t in
  Ok (match o with Some p => p | None => q end).

(** (p != NULL) && ZSL_ABS(zsl_vec_norm(p)) > 1E-6, giving the vector *)
Definition valid (p : option (vec T)) : outcome (option (vec T)) :=
  match p with
  | None => Ok None
  | Some v => let! n := vec_norm bc v in Ok (if fabs n >? flit 1 6 then Some v else None)
  end.

(** (p == NULL) || ZSL_ABS(zsl_vec_norm(p)) < 1E-6 *)
Definition missing (p : option (vec T)) : outcome bool :=
  match p with
  | None => Ok true
  | Some v => let! n := vec_norm bc v in Ok (fabs n <? flit 1 6)
  end.

(** the first three elements *)
Definition rd3 (v : vec T) : outcome (T * T * T) :=
  let! x := rd (vbuf v) 0 in
  let! y := rd (vbuf v) 1 in
  let! z := rd (vbuf v) 2 in
  Ok (x, y, z).

(** f = (p.i, p.j, p.k) - (x, y, z) as a 3x1 matrix *)
Definition col3 (x y z : T) : mtx T := Mtx 3 1 [Some x; Some y; Some z].

(** the transposed Jacobian of the gravity function,
    src/orientation/fusion/madgwick.c:68-75 and 177-184 *)
Definition jt_g (q : quat T) : buf T :=
  let two := flit 20 1 in let four := flit 40 1 in
  map Some [- two * qj q; two * qi q; f0;
            two * qk q; two * qr q; - four * qi q;
            - two * qr q; two * qk q; - four * qj q;
            two * qi q; two * qj q; f0].

(** the transposed Jacobian of the magnetic field function,
    src/orientation/fusion/madgwick.c:230-251 *)
Definition jt_b (q : quat T) (bx bz : T) : buf T :=
  let two := flit 20 1 in let four := flit 40 1 in
  map Some [- two * bz * qj q;
            - two * bx * qk q + two * bz * qi q;
            two * bx * qj q;
            two * bz * qk q;
            two * bz * qj q + two * bz * qr q;
            two * bx * qk q - four * bz * qi q;
            - four * bx * qj q - two * bz * qr q;
            two * bx * qi q - two * bz * qk q;
            two * bx * qr q - two * bz * qj q;
            - four * bx * qk q + two * bz * qi q;
            - two * bx * qr q + two * bz * qj q;
            two * bx * qi q].

(** jt (4x3) times f (3x1), src/orientation/fusion/madgwick.c:77-82 *)
Definition gradient (jt : buf T) (f : mtx T) : outcome (mtx T) :=
  let! (_, j) := mtx_from_arr (mtx_def 4 3) jt in
  let! (_, jtf) := mtx_mult bc j f (mtx_def 4 1) in
  Ok jtf.

(** src/orientation/fusion/madgwick.c:89-97 and 269-277: gyroscope integration
    and the gradient step *)
Definition madg_update (freq : Z) (beta : T) (g : vec T) (grad : vec T) (q : quat T)
  : outcome (quat T) :=
  let! t := period freq in
  let! q := ang_vel_ g q t in
  let! g0 := rd (vbuf grad) 0 in
  let! g1 := rd (vbuf grad) 1 in
  let! g2 := rd (vbuf grad) 2 in
  let! g3 := rd (vbuf grad) 3 in
  quat_to_unit (Quat (qr q - t * (beta * g0)) (qi q - t * (beta * g1))
                     (qj q - t * (beta * g2)) (qk q - t * (beta * g3))).

(** zsl_fus_madgwick_imu, src/orientation/fusion/madgwick.c:15-101 *)
Definition madgwick_imu (freq : Z) (beta : T) (s : sens) : outcome (Z * sens) :=
  let! g := deref (sg s) in
  if bc && (bad3 (sa s) || negb (vsz g =? 3)%nat) then Ok ((- EINVAL)%Z, s)
  else
    let! mag := quat_magn (sq s) in
    if bc && (fabs mag <? flit 1 6) then Ok ((- EINVAL)%Z, s)
    else
      let! q := quat_to_unit (sq s) in
      let! (_, grad) := vec_init (Vec 4 (fresh 4)) in
      let! av := valid (sa s) in
      match av with
      | None =>
          let! q := madg_update freq beta g grad q in
          Ok (0%Z, Sens (sa s) (sm s) (sg s) q)
      | Some a =>
          let! (_, a) := vec_to_unit bc a in
          let! p := rot_ q (Quat f0 f0 f0 f1) in
          let! ((a0, a1), a2) := rd3 a in
          let! jtf := gradient (jt_g q) (col3 (qi p - a0) (qj p - a1) (qk p - a2)) in
          let! (_, grad) := vec_from_arr grad (mbuf jtf) in
          let! (_, grad) := vec_to_unit bc grad in
          let! q := madg_update freq beta g grad q in
          Ok (0%Z, Sens (Some a) (sm s) (sg s) q)
      end.

(** the magnetic field in the earth frame,
    src/orientation/fusion/madgwick.c:201-216, mahony.c:182-197: [incl] is the
    inclination in degrees, or NULL *)
Definition earth_field (q : quat T) (incl : option T) (m0 m1 m2 : T) : outcome (T * T) :=
  match incl with
  | None =>
      let! h := rot_ q (Quat f0 m0 m1 m2) in
      let! bx := fsqrt (qi h * qi h + qj h * qj h) in
      Ok (bx, qk h)
  | Some i =>
      let! d := fdiv (i * ZSL_PI) (flit 1800 1) in
      Ok (fcos d, fsin d)
  end.

(** zsl_fus_madgwick, src/orientation/fusion/madgwick.c:114-281 *)
Definition madgwick (freq : Z) (beta : T) (incl : option T) (s : sens) : outcome (Z * sens) :=
  let! g := deref (sg s) in
  if bc && (bad3 (sa s) || bad3 (sm s) || negb (vsz g =? 3)%nat) then Ok ((- EINVAL)%Z, s)
  else
    let! mag := quat_magn (sq s) in
    if bc && (fabs mag <? flit 1 6) then Ok ((- EINVAL)%Z, s)
    else
      let! miss := missing (sm s) in
      if miss then madgwick_imu freq beta s
      else
        let! q := quat_to_unit (sq s) in
        let! (_, grad) := vec_init (Vec 4 (fresh 4)) in
        let! av := valid (sa s) in
        match av with
        | None =>
            let! q := madg_update freq beta g grad q in
            Ok (0%Z, Sens (sa s) (sm s) (sg s) q)
        | Some a =>
            let! (_, a) := vec_to_unit bc a in
            let! m := deref (sm s) in
            let! (_, m) := vec_to_unit bc m in
            let! p := rot_ q (Quat f0 f0 f0 f1) in
            let! ((a0, a1), a2) := rd3 a in
            let! jg := gradient (jt_g q) (col3 (qi p - a0) (qj p - a1) (qk p - a2)) in
            let! ((m0, m1), m2) := rd3 m in
            let! (bx, bz) := earth_field q incl m0 m1 m2 in
            let! p := rot_ q (Quat f0 bx f0 bz) in
            let! jb := gradient (jt_b q bx bz) (col3 (qi p - m0) (qj p - m1) (qk p - m2)) in
            let! b := for_ 4 0 (fun i b =>
                        let! x := rd (mbuf jg) i in
                        let! y := rd (mbuf jb) i in
                        wr b i (x + y)) (vbuf grad) in
            let! (_, grad) := vec_to_unit bc (Vec 4 b) in
            let! q := madg_update freq beta g grad q in
            Ok (0%Z, Sens (Some a) (Some m) (sg s) q)
        end.

(** zsl_fus_madg_feed, src/orientation/fusion/madgwick.c:305-315 *)
Definition madg_feed (freq : Z) (beta : T) (incl : option T) (s : sens) : outcome (Z * sens) :=
  if beta <? f0 then Ok ((- EINVAL)%Z, s) else madgwick freq beta incl s.

(** struct zsl_fus_mahn_cfg, include/zsl/orientation/fusion/mahony.h:40-61 *)
Record mahn_cfg : Type := Mahn { kp : T; ki : T; ilim : T; intfb : vec T }.

(** src/orientation/fusion/mahony.c:68-90 and 222-244: add e * period and limit *)
Definition integrate (fb e t lim : T) : T :=
  let x := fb + e * t in
  if x >? lim then lim else if x <? - lim then - lim else x.

(** src/orientation/fusion/mahony.c:68-100 and 222-254: the integral and
    proportional feedback for the error vector [e] *)
Definition feedback (t : T) (c : mahn_cfg) (e g : vec T) : outcome (mahn_cfg * vec T) :=
  let! ((e0, e1), e2) := rd3 e in
  let! ((i0, i1), i2) := rd3 (intfb c) in
  let i0 := integrate i0 e0 t (ilim c) in
  let i1 := integrate i1 e1 t (ilim c) in
  let i2 := integrate i2 e2 t (ilim c) in
  let! b := wr (vbuf (intfb c)) 0 i0 in
  let! b := wr b 1 i1 in
  let! b := wr b 2 i2 in
  let! ((g0, g1), g2) := rd3 g in
  let! gb := wr (vbuf g) 0 (g0 + ki c * i0 + kp c * e0) in
  let! gb := wr gb 1 (g1 + ki c * i1 + kp c * e1) in
  let! gb := wr gb 2 (g2 + ki c * i2 + kp c * e2) in
  Ok (Mahn (kp c) (ki c) (ilim c) (Vec (vsz (intfb c)) b), Vec (vsz g) gb).

(** the last two statements of both functions *)
Definition mahn_update (freq : Z) (g : vec T) (q : quat T) : outcome (quat T) :=
  let! t := period freq in
  let! q := ang_vel_ g q t in
  quat_to_unit q.

(** zsl_fus_mahony_imu, src/orientation/fusion/mahony.c:15-112 *)
Definition mahony_imu (freq : Z) (c : mahn_cfg) (s : sens) : outcome (Z * sens * mahn_cfg) :=
  let! g := deref (sg s) in
  if bc && (bad3 (sa s) || negb (vsz g =? 3)%nat || negb (vsz (intfb c) =? 3)%nat)
  then Ok ((- EINVAL)%Z, s, c)
  else
    let! mag := quat_magn (sq s) in
    if bc && (fabs mag <? flit 1 6) then Ok ((- EINVAL)%Z, s, c)
    else
      let! av := valid (sa s) in
      match av with
      | None =>
          let! q := mahn_update freq g (sq s) in
          Ok (0%Z, Sens (sa s) (sm s) (sg s) q, c)
      | Some a =>
          let! (_, a) := vec_to_unit bc a in
          let! p := rot_ (sq s) (Quat f0 f0 f0 f1) in
          let! (_, e) := vec_cross bc a (Vec 3 [Some (qi p); Some (qj p); Some (qk p)])
                           (Vec 3 (fresh 3)) in
          let! t := period freq in
          let! (c, g) := feedback t c e g in
          let! q := mahn_update freq g (sq s) in
          Ok (0%Z, Sens (Some a) (sm s) (Some g) q, c)
      end.

(** zsl_fus_mahony, src/orientation/fusion/mahony.c:114-266 *)
Definition mahony (freq : Z) (incl : option T) (c : mahn_cfg) (s : sens)
  : outcome (Z * sens * mahn_cfg) :=
  let! g := deref (sg s) in
  if bc && (bad3 (sa s) || bad3 (sm s) || negb (vsz g =? 3)%nat || negb (vsz (intfb c) =? 3)%nat)
  then Ok ((- EINVAL)%Z, s, c)
  else
    let! mag := quat_magn (sq s) in
    if bc && (fabs mag <? flit 1 6) then Ok ((- EINVAL)%Z, s, c)
    else
      let! miss := missing (sm s) in
      if miss then mahony_imu freq c s
      else
        let! av := valid (sa s) in
        match av with
        | None =>
            let! q := mahn_update freq g (sq s) in
            Ok (0%Z, Sens (sa s) (sm s) (sg s) q, c)
        | Some a =>
            let! (_, a) := vec_to_unit bc a in
            let! m := deref (sm s) in
            let! (_, m) := vec_to_unit bc m in
            let! p := rot_ (sq s) (Quat f0 f0 f0 f1) in
            let! (_, e_g) := vec_cross bc a (Vec 3 [Some (qi p); Some (qj p); Some (qk p)])
                               (Vec 3 (fresh 3)) in
            let! ((m0, m1), m2) := rd3 m in
            let! (bx, bz) := earth_field (sq s) incl m0 m1 m2 in
            let! p := rot_ (sq s) (Quat f0 bx f0 bz) in
            let! (_, e_b) := vec_cross bc m (Vec 3 [Some (qi p); Some (qj p); Some (qk p)])
                               (Vec 3 (fresh 3)) in
            let! (_, e) := vec_add bc e_g e_b (Vec 3 (fresh 3)) in
            let! t := period freq in
            let! (c, g) := feedback t c e g in
            let! q := mahn_update freq g (sq s) in
            Ok (0%Z, Sens (Some a) (Some m) (Some g) q, c)
        end.

(** zsl_fus_mahn_feed, src/orientation/fusion/mahony.c:290-301 *)
Definition mahn_feed (freq : Z) (incl : option T) (c : mahn_cfg) (s : sens)
  : outcome (Z * sens * mahn_cfg) :=
  if (kp c <? f0) || (ki c <? f0) then Ok ((- EINVAL)%Z, s, c) else mahony freq incl c s.

(** zsl_fus_comp, src/orientation/fusion/complementary.c:15-77.  The local
    attitude starts indeterminate in C; its components are all set before use. *)
Definition fus_comp (freq : Z) (alpha : T) (s : sens) : outcome (Z * sens) :=
  let! g := deref (sg s) in
  if bc && (bad3 (sa s) || bad3 (sm s) || negb (vsz g =? 3)%nat
            || (alpha <? f0) || (alpha >? flit 10 1)) then Ok ((- EINVAL)%Z, s)
  else
    let! mag := quat_magn (sq s) in
    if bc && (fabs mag <? flit 1 6) then Ok ((- EINVAL)%Z, s)
    else
      let! q := quat_to_unit (sq s) in
      let! t := period freq in
      let! (_, o) := quat_from_ang_vel bc g q t in
      let! q_w := local o in
      let! mv := valid (sm s) in
      let! av := match mv with None => Ok None | Some _ => valid (sa s) end in
      match mv, av with
      | Some m, Some a =>
          let! (_, att) := att_from_accelmag bc a m (Att f0 f0 f0 0%Z) in
          let (_, e) := att_to_euler att in
          let (_, q_am) := quat_from_euler e in
          let! (_, o) := quat_lerp bc q_w q_am alpha in
          let q := match o with Some p => p | None => q end in
          let! q := quat_to_unit q in
          Ok (0%Z, Sens (sa s) (sm s) (sg s) q)
      | _, _ =>
          let! q := quat_to_unit q_w in
          Ok (0%Z, Sens (sa s) (sm s) (sg s) q)
      end.

(** zsl_fus_comp_feed, src/orientation/fusion/complementary.c:101-111 *)
Definition comp_feed (freq : Z) (alpha : T) (s : sens) : outcome (Z * sens) :=
  if (alpha <? f0) || (alpha >? flit 10 1) then Ok ((- EINVAL)%Z, s) else fus_comp freq alpha s.

(** zsl_fus_saam, src/orientation/fusion/saam.c:15-60.  With bounds checks the
    pointers are dereferenced before they are compared with NULL. *)
Definition fus_saam (s : sens) : outcome (Z * sens) :=
  let! bad := (if bc then
                 let! a := deref (sa s) in
                 if negb (vsz a =? 3)%nat then Ok true
                 else let! m := deref (sm s) in Ok (negb (vsz m =? 3)%nat)
               else Ok false) in
  if bad then Ok ((- EINVAL)%Z, s)
  else
    let! mm := missing (sm s) in
    if mm then Ok ((- EINVAL)%Z, s)
    else
      let! ma := missing (sa s) in
      if ma then Ok ((- EINVAL)%Z, s)
      else
        let! a := deref (sa s) in
        let! (_, a) := vec_to_unit bc a in
        let! m := deref (sm s) in
        let! (_, m) := vec_to_unit bc m in
        let! (_, d) := vec_dot bc a m in
        let! bz := local d in
        let! bx := fsqrt (flit 10 1 - bz * bz) in
        let! ((a0, a1), a2) := rd3 a in
        let! ((m0, m1), m2) := rd3 m in
        let! q := quat_to_unit
          (Quat (- a1 * (bx + m0) + a0 * m1)
                ((a2 - flit 10 1) * (bx + m0) + a0 * (bz - m2))
                ((a2 - flit 10 1) * m1 + a1 * (bz - m2))
                (a2 * bz - a0 * bx - m2)) in
        Ok (0%Z, Sens (Some a) (Some m) (sg s) q).

(** zsl_fus_saam_feed, src/orientation/fusion/saam.c:82-86 *)
Definition saam_feed (s : sens) : outcome (Z * sens) := fus_saam s.

(** struct zsl_fus_aqua_cfg, include/zsl/orientation/fusion/aqua.h:42-73 *)
Record aqua_cfg : Type := Aqua { alpha : T; beta : T; e_a : T; e_m : T }.

(** lerp or slerp from the identity to [dq], whichever the threshold selects;
    the result code is ignored, so the output may be indeterminate *)
Definition scale_down (dq : quat T) (e t : T) : outcome (quat T) :=
  let! (_, o) := if qr dq >? e then quat_lerp bc quat_identity dq t
                 else quat_slerp bc quat_identity dq t in
  local o.

(** zsl_fus_aqua, src/orientation/fusion/aqua.c:16-143 *)
Definition fus_aqua (freq : Z) (c : aqua_cfg) (s : sens) : outcome (Z * sens) :=
  let! g := deref (sg s) in
  if bc && (bad3 (sa s) || bad3 (sm s) || negb (vsz g =? 3)%nat) then Ok ((- EINVAL)%Z, s)
  else
    let! mag := quat_magn (sq s) in
    if bc && (fabs mag <? flit 1 6) then Ok ((- EINVAL)%Z, s)
    else
      let! q := quat_to_unit (sq s) in
      let! (_, g) := vec_scalar_mult g (- flit 10 1) in
      let! t := period freq in
      let! q := ang_vel_ g q t in
      let! av := valid (sa s) in
      match av with
      | None =>
          let! q := quat_to_unit q in
          Ok (0%Z, Sens (sa s) (sm s) (Some g) q)
      | Some a =>
          let! (_, a) := vec_to_unit bc a in
          let! ((a0, a1), a2) := rd3 a in
          let! qi_ := quat_inv q in
          let! qg := rot_ qi_ (Quat f0 a0 a1 a2) in
          let! h := fdiv (qk qg + flit 10 1) (flit 20 1) in
          let! r := fsqrt h in
          let! d := fsqrt (flit 20 1 * (qk qg + flit 10 1)) in
          let! i := fdiv (- qj qg) d in
          let! j := fdiv (qi qg) d in
          let! q_acc := scale_down (Quat r i j f0) (e_a c) (alpha c) in
          let! q := quat_mult q q_acc in
          let! mv := valid (sm s) in
          match mv with
          | None =>
              let! q := quat_to_unit q in
              Ok (0%Z, Sens (Some a) (sm s) (Some g) q)
          | Some m =>
              let! (_, m) := vec_to_unit bc m in
              let! ((m0, m1), m2) := rd3 m in
              let! qi_ := quat_inv q in
              let! ql := rot_ qi_ (Quat f0 m0 m1 m2) in
              let! y := fsqrt (qi ql * qi ql + qj ql * qj ql) in
              let! h := fdiv (y * y + qi ql * y) (flit 20 1 * y * y) in
              let! r := fsqrt h in
              let! d := fsqrt (flit 20 1 * (y * y + qi ql * y)) in
              let! k := fdiv (qj ql) d in
              let! q_mag := scale_down (Quat r f0 f0 k) (e_m c) (beta c) in
              let! q := quat_mult q q_mag in
              let! q := quat_to_unit q in
              Ok (0%Z, Sens (Some a) (Some m) (Some g) q)
          end
      end.

(** zsl_fus_aqua_alpha_init, src/orientation/fusion/aqua.c:145-173; [ini] is
    the static counter zsl_fus_aqua_initialised *)
Definition aqua_alpha_init (ini : Z) (a : option (vec T)) (al : T) : outcome (Z * T * Z) :=
  let! bad := (if bc then let! a := deref a in Ok (negb (vsz a =? 3)%nat) else Ok false) in
  if bad then Ok ((- EINVAL)%Z, al, ini)
  else
    let! n := vec_norm_opt bc a in
    let gr := flit 981 2 in
    let! m_e := fdiv (fabs (n - gr)) gr in
    let! al :=
      if m_e >=? flit 2 1 then Ok f0
      else if (m_e >? flit 1 1) && (m_e <? flit 2 1) then
        let! k := fdiv (flit 2 1 - m_e) (flit 1 1) in Ok (al * k)
      else Ok al in
    Ok (0%Z, al, ((ini + 1) mod 4294967296)%Z).

(** zsl_fus_aqua_feed, src/orientation/fusion/aqua.c:197-215 *)
Definition aqua_feed (freq ini : Z) (c : aqua_cfg) (s : sens)
  : outcome (Z * sens * aqua_cfg * Z) :=
  if (alpha c <? f0) || (alpha c >? flit 10 1) || (beta c <? f0) || (beta c >? flit 10 1)
  then Ok ((- EINVAL)%Z, s, c, ini)
  else
    let! (c, ini) :=
      if (ini =? 0)%Z then
        let! ((_, al), ini) := aqua_alpha_init ini (sa s) (alpha c) in
        Ok (Aqua al (beta c) (e_a c) (e_m c), ini)
      else Ok (c, ini) in
    let! (rc, s) := fus_aqua freq c s in
    Ok (rc, s, c, ini).

(** struct zsl_fus_kalm_cfg, include/zsl/orientation/fusion/kalman.h:40-63 *)
Record kalm_cfg : Type := Kalm { var_g : T; var_a : T; var_m : T; kP : mtx T }.

(** zsl_fus_kalman is split into its phases; the result codes of the matrix
    functions are ignored throughout.

    src/orientation/fusion/kalman.c:36-61: the matrices F and W *)
Definition kalm_F (if2 g0 g1 g2 : T) : outcome (mtx T) :=
  let! r := mtx_from_arr (mtx_def 4 4) (map Some
    [flit 10 1; - if2 * g0; - if2 * g1; - if2 * g2;
     if2 * g0; flit 10 1; if2 * g2; - if2 * g1;
     if2 * g1; - if2 * g2; flit 10 1; if2 * g0;
     if2 * g2; if2 * g1; - if2 * g0; flit 10 1]) in
  Ok (snd r).
Definition kalm_W (q : quat T) : outcome (mtx T) :=
  let! r := mtx_from_arr (mtx_def 4 3) (map Some
    [- qi q; - qj q; - qk q;
     qr q; - qk q; qj q;
     qk q; qr q; - qi q;
     - qj q; qi q; qr q]) in
  Ok (snd r).

(** src/orientation/fusion/kalman.c:48-73: P := F P F^t + var_g if2^2 W W^t *)
Definition kalm_predict (if2 vg : T) (F W P : mtx T) : outcome (mtx T) :=
  let! rFt := mtx_trans bc F (mtx_def 4 4) in
  let! rWt := mtx_trans bc W (mtx_def 3 4) in
  let! rQ := mtx_mult bc W (snd rWt) (mtx_def 4 4) in
  let! rQ := mtx_scalar_mult_d (snd rQ) (vg * if2 * if2) in
  let! rFP := mtx_mult bc F P (mtx_def 4 4) in
  let! rP := mtx_mult bc (snd rFP) (snd rFt) P in
  let! rP := mtx_add_d bc (snd rP) (snd rQ) in
  Ok (snd rP).

(** src/orientation/fusion/kalman.c:117-160: the measurement model h, 6x1, and
    twice its claimed Jacobian, H *)
Definition kalm_h (q mg : quat T) : outcome (mtx T) :=
  let two := flit 20 1 in
  let! a2 := rot_ q (Quat f0 f0 f0 (- flit 10 1)) in
  let! m2 := rot_ q mg in
  Ok (Mtx 6 1 (map Some [two * qi a2; two * qj a2; two * qk a2;
                         two * qi m2; two * qj m2; two * qk m2])).
Definition kalm_H (q mg : quat T) : outcome (mtx T) :=
  let two := flit 20 1 in
  let! r := mtx_from_arr (mtx_def 6 4) (map Some
    [qj q; - qk q; qr q; - qi q;
     - qi q; - qr q; - qk q; - qj q;
     f0; two * qi q; two * qj q; f0;
     - qk mg * qj q; qk mg * qk q; - two * qi mg * qj q - qk mg * qr q;
     - two * qi mg * qk q + qk mg * qi q;
     - qi mg * qk q + qk mg * qi q; qi mg * qj q + qk mg * qr q;
     qi mg * qi q + qk mg * qk q; - qi mg * qr q + qk mg * qj q;
     qi mg * qj q; qi mg * qk q - two * qk mg * qi q;
     qi mg * qr q - two * qk mg * qj q; qi mg * qi q]) in
  let! r := mtx_scalar_mult_d (snd r) two in
  Ok (snd r).

(** src/orientation/fusion/kalman.c:162-171: the measurement noise *)
Definition kalm_R (va vm : T) : outcome (mtx T) :=
  let! r := mtx_init bc (mtx_def 6 6) (Some (entry_fn_identity bc)) in
  let! r := mtx_set bc (snd r) 0 0 va in
  let! r := mtx_set bc (snd r) 1 1 va in
  let! r := mtx_set bc (snd r) 2 2 va in
  let! r := mtx_set bc (snd r) 3 3 vm in
  let! r := mtx_set bc (snd r) 4 4 vm in
  let! r := mtx_set bc (snd r) 5 5 vm in
  Ok (snd r).

(** src/orientation/fusion/kalman.c:173-205: the gain K, the corrected P and
    the correction K (z - h) *)
Definition kalm_correct (z h H R P : mtx T) : outcome (mtx T * mtx T) :=
  let! rHt := mtx_trans bc H (mtx_def 4 6) in
  let! rv := mtx_sub bc z h (mtx_def 6 1) in
  let! rHP := mtx_mult bc H P (mtx_def 6 4) in
  let! rHPHt := mtx_mult bc (snd rHP) (snd rHt) (mtx_def 6 6) in
  let! rS := mtx_add bc (snd rHPHt) R (mtx_def 6 6) in
  let! rSi := mtx_inv bc (snd rS) (mtx_def 6 6) in
  let! rPHt := mtx_mult bc P (snd rHt) (mtx_def 4 6) in
  let! rK := mtx_mult bc (snd rPHt) (snd rSi) (mtx_def 4 6) in
  let! ri := mtx_init bc (mtx_def 4 4) (Some (entry_fn_identity bc)) in
  let! rKH := mtx_mult bc (snd rK) H (mtx_def 4 4) in
  let! ri := mtx_sub_d bc (snd ri) (snd rKH) in
  let! rP := mtx_mult bc (snd ri) P P in
  let! rKv := mtx_mult bc (snd rK) (snd rv) (mtx_def 4 1) in
  Ok (snd rP, snd rKv).

(** zsl_fus_kalman, src/orientation/fusion/kalman.c:16-217 *)
Definition fus_kalman (freq : Z) (incl : option T) (c : kalm_cfg) (s : sens)
  : outcome (Z * sens * kalm_cfg) :=
  if bc && (match sa s with None => true | Some a => negb (vsz a =? 3)%nat end
            || match sm s with None => true | Some m => negb (vsz m =? 3)%nat end
            || match sg s with None => true | Some g => negb (vsz g =? 3)%nat end)
  then Ok ((- EINVAL)%Z, s, c)
  else
    let! if2 := fdiv (flit 10 1) (flit 20 1 * fofZ freq) in
    let! g := deref (sg s) in
    let! ((g0, g1), g2) := rd3 g in
    let! F := kalm_F if2 g0 g1 g2 in
    let! W := kalm_W (sq s) in
    let! P := kalm_predict if2 (var_g c) F W (kP c) in
    let! t := period freq in
    let! q := ang_vel_ g (sq s) t in
    let! a := deref (sa s) in
    let! (_, a) := vec_to_unit bc a in
    let! m := deref (sm s) in
    let! (_, m) := vec_to_unit bc m in
    let! ((a0, a1), a2) := rd3 a in
    let! ((m0, m1), m2) := rd3 m in
    let! (bx, bz) := earth_field q incl m0 m1 m2 in
    let! mg := quat_to_unit (Quat f0 bx f0 bz) in
    let! h := kalm_h q mg in
    let! H := kalm_H q mg in
    let! R := kalm_R (var_a c) (var_m c) in
    let! (P, Kv) := kalm_correct (Mtx 6 1 (map Some [a0; a1; a2; m0; m1; m2])) h H R P in
    let! k0 := rd (mbuf Kv) 0 in
    let! k1 := rd (mbuf Kv) 1 in
    let! k2 := rd (mbuf Kv) 2 in
    let! k3 := rd (mbuf Kv) 3 in
    let! q := quat_to_unit (Quat (qr q + k0) (qi q + k1) (qj q + k2) (qk q + k3)) in
    Ok (0%Z, Sens (Some a) (Some m) (sg s) q, Kalm (var_g c) (var_a c) (var_m c) P).

(** zsl_fus_kalm_quat_init, src/orientation/fusion/kalman.c:219-262; the last
    component is the static flag zsl_fus_kalm_initialised *)
Definition kalm_quat_init (ini : Z) (a m : option (vec T)) (q : quat T) : outcome (Z * quat T * Z) :=
  if bc && (match a with None => true | Some a => negb (vsz a =? 3)%nat end
            || match m with None => true | Some m => negb (vsz m =? 3)%nat end)
  then Ok ((- EINVAL)%Z, q, ini)
  else
    let! a := deref a in
    let! m := deref m in
    let! (_, w) := vec_cross bc a m (Vec 3 (fresh 3)) in
    let! (_, v) := vec_cross bc w a (Vec 3 (fresh 3)) in
    let! (_, u) := vec_copy (Vec 3 (fresh 3)) a in
    let! (_, v) := vec_to_unit bc v in
    let! (_, w) := vec_to_unit bc w in
    let! (_, u) := vec_to_unit bc u in
    let! (_, mt) := mtx_set_col bc (mtx_def 3 3) 0 (vbuf v) in
    let! (_, mt) := mtx_set_col bc mt 1 (vbuf w) in
    let! (_, mt) := mtx_set_col bc mt 2 (vbuf u) in
    let! (_, o) := quat_from_rot_mtx bc mt in
    let! q := quat_to_unit (match o with Some p => p | None => q end) in
    Ok (0%Z, q, 1%Z).

(** zsl_fus_kalm_P_init, src/orientation/fusion/kalman.c:264-283 *)
Definition kalm_P_init (ini : Z) (P : mtx T) : outcome (Z * mtx T * Z) :=
  if bc && (negb (mrows P =? 4)%nat || negb (mcols P =? 4)%nat) then Ok ((- EINVAL)%Z, P, ini)
  else
    let! (_, P) := mtx_init bc P (Some (entry_fn_identity bc)) in
    Ok (0%Z, P, 1%Z).

(** zsl_fus_kalm_feed, src/orientation/fusion/kalman.c:307-324 *)
Definition kalm_feed (freq ini : Z) (incl : option T) (c : kalm_cfg) (s : sens)
  : outcome (Z * sens * kalm_cfg * Z) :=
  if (var_g c <? f0) || (var_a c <? f0) || (var_m c <? f0) then Ok ((- EINVAL)%Z, s, c, ini)
  else
    let! ((c, s), ini) :=
      if (ini =? 0)%Z then
        let! ((_, q), ini) := kalm_quat_init ini (sa s) (sm s) (sq s) in
        let! ((_, P), ini) := kalm_P_init ini (kP c) in
        Ok (Kalm (var_g c) (var_a c) (var_m c) P, Sens (sa s) (sm s) (sg s) q, ini)
      else Ok (c, s, ini) in
    let! ((rc, s), c) := fus_kalman freq incl c s in
    Ok (rc, s, c, ini).

(** zsl_fus_cal_rot_mtx, src/orientation/fusion/calibration.c:50-72 *)
Definition cal_rot_mtx (v : vec T) (m : mtx T) (v_rot : vec T) : outcome (Z * vec T) :=
  if bc && (negb (vsz v =? 3)%nat || negb (vsz v_rot =? 3)%nat
            || negb (mrows m =? 3)%nat || negb (mcols m =? 3)%nat)
  then Ok ((- EINVAL)%Z, v_rot)
  else
    let! (_, vm) := mtx_from_arr (mtx_def 3 1) (vbuf v) in
    let! (_, mv) := mtx_mult bc m vm (mtx_def 3 1) in
    let! (_, v_rot) := vec_from_arr v_rot (mbuf mv) in
    Ok (0%Z, v_rot).

(** zsl_fus_cal_rot_axis_angle, src/orientation/fusion/calibration.c:74-95 *)
Definition cal_rot_axis_angle (v a : vec T) (b : T) (v_rot : vec T) : outcome (Z * vec T) :=
  if bc && (negb (vsz v =? 3)%nat || negb (vsz v_rot =? 3)%nat || negb (vsz a =? 3)%nat)
  then Ok ((- EINVAL)%Z, v_rot)
  else
    let! (_, o) := quat_from_axis_angle bc a b in
    let! q := local o in
    let! (_, m) := quat_to_rot_mtx bc q (mtx_def 3 3) in
    let! (_, v_rot) := cal_rot_mtx v m v_rot in
    Ok (0%Z, v_rot).

(** zsl_fus_cal_corr_scalar, src/orientation/fusion/calibration.c:397-405 *)
Definition cal_corr_scalar (d k b : T) : Z * T := (0%Z, k * (d + b)).

(** zsl_fus_cal_corr_vec, src/orientation/fusion/calibration.c:407-429 *)
Definition cal_corr_vec (v : vec T) (K : mtx T) (b v_out : vec T) : outcome (Z * vec T) :=
  if bc && (negb (vsz v =? vsz v_out)%nat || negb (vsz v =? mrows K)%nat
            || negb (vsz v =? mcols K)%nat || negb (vsz v =? vsz b)%nat)
  then Ok ((- EINVAL)%Z, v_out)
  else
    let n := vsz v in
    let! (_, vb) := vec_add bc v b (Vec n (fresh n)) in
    let! (_, VB) := mtx_from_arr (mtx_def n 1) (vbuf vb) in
    let! (_, KVB) := mtx_mult bc K VB (mtx_def n 1) in
    let! (_, v_out) := vec_from_arr v_out (mbuf KVB) in
    Ok (0%Z, v_out).

(** the element-wise differences added to Sx and Sy after one sample,
    src/orientation/fusion/calibration.c:481-490 and 568-577 *)
Definition cal_sample (q : quat T) (av : option (vec T)) (Sx Sy : T) : outcome (T * T) :=
  let! (_, e) := quat_to_euler q in
  let! k := fdiv (flit 180 0) ZSL_PI in
  let! a := deref av in
  let! (_, at_) := att_from_accel bc a (Att f0 f0 f0 0%Z) in
  let dx := ex e * k - roll at_ in
  let dy := ey e * k - pitch at_ in
  Ok (Sx + dx * dx, Sy + dy * dy).

(** Sx = sqrt(Sx / rows), Sy likewise, St = (Sx + Sy) / 2 *)
Definition cal_total (rows : nat) (Sx Sy : T) : outcome T :=
  let! x := fdiv Sx (fofZ (Z.of_nat rows)) in
  let! x := fsqrt x in
  let! y := fdiv Sy (fofZ (Z.of_nat rows)) in
  let! y := fsqrt y in
  fdiv (x + y) (flit 20 1).

(** src/orientation/fusion/calibration.c:476-478 and 563-565: the three sensor
    vectors of row j, result codes ignored.  In C the local arrays keep their
    contents between rows; all three elements are rewritten for 3 columns. *)
Definition cal_rows (g a m : mtx T) (j : nat) (q : quat T) : outcome sens :=
  let! (_, gb) := mtx_get_row bc g j (fresh 3) in
  let! (_, ab) := mtx_get_row bc a j (fresh 3) in
  let! (_, mb) := mtx_get_row bc m j (fresh 3) in
  Ok (Sens (Some (Vec 3 ab)) (Some (Vec 3 mb)) (Some (Vec 3 gb)) q).

(** src/orientation/fusion/calibration.c:470-495: the error recorded for one
    gain of the Madgwick filter *)
Definition cal_madg_error (g a m : mtx T) (freq : Z) (incl : option T) (b : T) : outcome T :=
  let! ((_, Sx), Sy) := for_ (mrows a) 0 (fun j '(q, Sx, Sy) =>
      let! s := cal_rows g a m j q in
      let! (_, s) := madg_feed freq b incl s in
      let! (Sx, Sy) := cal_sample (sq s) (sa s) Sx Sy in
      Ok (sq s, Sx, Sy)) (quat_identity, f0, f0) in
  cal_total (mrows a) Sx Sy.

(** src/orientation/fusion/calibration.c:497-504 and 584-591, with Smin set to 0 in every
    iteration; the result is the gain kept so far *)
Definition cal_keep (i : nat) (St b : T) (best : option T) : option T :=
  let Smin := f0 in
  if (i =? 0)%nat then Some b else if St <? Smin then Some b else best.

(** zsl_fus_cal_madg, src/orientation/fusion/calibration.c:431-509.  [old] is
    the static frequency of the filter; the conversion of sampleFreq to
    uint32_t truncates ([ftrunc]). *)
Definition cal_madg (old : Z) (g a m : mtx T) (sampleFreq : T) (incl : option T)
  : outcome (Z * option T) :=
  if bc && (negb (mcols g =? 3)%nat || negb (mcols a =? 3)%nat || negb (mcols m =? 3)%nat
            || (sampleFreq <? f0) || negb (mrows g =? mrows a)%nat || negb (mrows g =? mrows m)%nat)
  then Ok ((- EINVAL)%Z, None)
  else
    let (_, freq) := fus_init old (ftrunc sampleFreq) in
    let! best := for_ 1000 0 (fun i best =>
      let! b := fdiv (fofZ (Z.of_nat i)) (flit 10000 1) in
      let! St := cal_madg_error g a m freq incl b in
      Ok (cal_keep i St b best)) None in
    Ok (0%Z, best).

(** src/orientation/fusion/calibration.c:557-582: the error recorded for one
    gain of the Mahony filter.  The integral feedback
    carries over from one gain to the next; integral_limit is 0. *)
Definition cal_mahn_error (g a m : mtx T) (freq : Z) (incl : option T) (k : T) (fb : vec T)
  : outcome (T * vec T) :=
  let! (((_, Sx), Sy), fb) := for_ (mrows a) 0 (fun j '(q, Sx, Sy, fb) =>
      let! s := cal_rows g a m j q in
      let! ((_, s), c) := mahn_feed freq incl (Mahn k (flit 2 2) f0 fb) s in
      let! (Sx, Sy) := cal_sample (sq s) (sa s) Sx Sy in
      Ok (sq s, Sx, Sy, intfb c)) (quat_identity, f0, f0, fb) in
  let! St := cal_total (mrows a) Sx Sy in
  Ok (St, fb).

(** zsl_fus_cal_mahn, src/orientation/fusion/calibration.c:511-596 *)
Definition cal_mahn (old : Z) (g a m : mtx T) (sampleFreq : T) (incl : option T)
  : outcome (Z * option T) :=
  if bc && (negb (mcols g =? 3)%nat || negb (mcols a =? 3)%nat || negb (mcols m =? 3)%nat
            || (sampleFreq <? f0) || negb (mrows g =? mrows a)%nat || negb (mrows g =? mrows m)%nat)
  then Ok ((- EINVAL)%Z, None)
  else
    let (_, freq) := fus_init old (ftrunc sampleFreq) in
    let! (best, _) := for_ 1000 0 (fun i '(best, fb) =>
      let! k := fdiv (fofZ (Z.of_nat i)) (flit 10000 1) in
      let! (St, fb) := cal_mahn_error g a m freq incl k fb in
      Ok (cal_keep i St k best, fb)) (None, Vec 3 [Some f0; Some f0; Some f0]) in
    Ok (0%Z, best).

End Fusion.
