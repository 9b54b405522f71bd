(** Model of src/orientation/quaternions.c.

    The functions that read an input after having started to write their output
    (and so are sensitive to the output being the same object as an input) are
    modelled over a memory of quaternions, with field-by-field writes; the
    wrapper named without [_st] runs them on distinct objects.  The others read
    everything they need into locals before the first write, and are modelled
    by the value they write; an output that is not written is [None]. *)
From Coq Require Import List Arith ZArith Bool.
From Verif Require Import Base Libm Out MVec MMtx.
Import ListNotations.
Set Implicit Arguments.
Local Open Scope num_scope.

(** struct zsl_quat, include/zsl/orientation/quaternions.h:93-108 *)
Record quat (T : Type) : Type := Quat { qr : T; qi : T; qj : T; qk : T }.
Arguments Quat {T}.
Arguments qr {T}.
Arguments qi {T}.
Arguments qj {T}.
Arguments qk {T}.

(** struct zsl_euler, include/zsl/orientation/euler.h *)
Record euler (T : Type) : Type := Euler { ex : T; ey : T; ez : T }.
Arguments Euler {T}.
Arguments ex {T}.
Arguments ey {T}.
Arguments ez {T}.

Section Quat.
Variable bc : bool.   (* CONFIG_ZSL_BOUNDS_CHECKS *)
Context {T : Type} {N : Num T} {M : NumM T}.

(** objects of type struct zsl_quat, named by position *)
Definition qmem := list (quat T).

Definition qget (st : qmem) (p : nat) : outcome (quat T) :=
  match nth_error st p with Some q => Ok q | None => UB NullDeref end.
(** p->r = x and so on *)
Definition set_r (st : qmem) (p : nat) (x : T) : outcome qmem :=
  let! q := qget st p in Ok (upd st p (Quat x (qi q) (qj q) (qk q))).
Definition set_i (st : qmem) (p : nat) (x : T) : outcome qmem :=
  let! q := qget st p in Ok (upd st p (Quat (qr q) x (qj q) (qk q))).
Definition set_j (st : qmem) (p : nat) (x : T) : outcome qmem :=
  let! q := qget st p in Ok (upd st p (Quat (qr q) (qi q) x (qk q))).
Definition set_k (st : qmem) (p : nat) (x : T) : outcome qmem :=
  let! q := qget st p in Ok (upd st p (Quat (qr q) (qi q) (qj q) x)).

(** zsl_quat_val_is_equal, src/orientation/quaternions.c:24-36 *)
Definition quat_val_is_equal (a b epsilon : T) : bool :=
  let c := a - b in fabs c <? epsilon.

(** ZSL_QUAT_TYPE_EMPTY, ZSL_QUAT_TYPE_IDENTITY *)
Definition quat_empty : quat T := Quat f0 f0 f0 f0.
Definition quat_identity : quat T := Quat f1 f0 f0 f0.

(** zsl_quat_init, src/orientation/quaternions.c:38-55; type 1 is
    ZSL_QUAT_TYPE_IDENTITY *)
Definition quat_init (type : Z) : quat T :=
  if (type =? 1)%Z then quat_identity else quat_empty.

(** zsl_quat_magn, src/orientation/quaternions.c:57-60 *)
Definition quat_magn (q : quat T) : outcome T :=
  fsqrt (qr q * qr q + qi q * qi q + qj q * qj q + qk q * qk q).

(** zsl_quat_to_unit, src/orientation/quaternions.c:62-80 *)
Definition quat_to_unit_st (st : qmem) (q qn : nat) : outcome (Z * qmem) :=
  let! v := qget st q in
  let! m := quat_magn v in
  if fabs m <? flit 1 6 then
    let! st := set_r st qn f0 in
    let! st := set_i st qn f0 in
    let! st := set_j st qn f0 in
    let! st := set_k st qn f0 in
    Ok (0%Z, st)
  else
    let! v := qget st q in let! x := fdiv (qr v) m in let! st := set_r st qn x in
    let! v := qget st q in let! x := fdiv (qi v) m in let! st := set_i st qn x in
    let! v := qget st q in let! x := fdiv (qj v) m in let! st := set_j st qn x in
    let! v := qget st q in let! x := fdiv (qk v) m in let! st := set_k st qn x in
    Ok (0%Z, st).

(** zsl_quat_to_unit_d, src/orientation/quaternions.c:82-85 *)
Definition quat_to_unit_d_st (st : qmem) (q : nat) := quat_to_unit_st st q q.

Definition quat_to_unit (q : quat T) : outcome (quat T) :=
  let! (_, st) := quat_to_unit_st [q; quat_empty] 0 1 in qget st 1.

(** zsl_quat_is_unit, src/orientation/quaternions.c:87-99 *)
Definition quat_is_unit (q : quat T) : outcome bool :=
  let! unit_len := fsqrt (qr q * qr q + qi q * qi q + qj q * qj q + qk q * qk q) in
  Ok (quat_val_is_equal unit_len f1 (flit 1 6)).

(** zsl_quat_scale, src/orientation/quaternions.c:101-111 *)
Definition quat_scale_st (st : qmem) (q : nat) (s : T) (qs : nat) : outcome (Z * qmem) :=
  let! v := qget st q in let! st := set_r st qs (qr v * s) in
  let! v := qget st q in let! st := set_i st qs (qi v * s) in
  let! v := qget st q in let! st := set_j st qs (qj v * s) in
  let! v := qget st q in let! st := set_k st qs (qk v * s) in
  Ok (0%Z, st).

(** zsl_quat_scale_d, src/orientation/quaternions.c:113-116 *)
Definition quat_scale_d_st (st : qmem) (q : nat) (s : T) := quat_scale_st st q s q.

Definition quat_scale (q : quat T) (s : T) : outcome (quat T) :=
  let! (_, st) := quat_scale_st [q; quat_empty] 0 s 1 in qget st 1.

(** zsl_quat_mult, src/orientation/quaternions.c:118-143 *)
Definition quat_mult_st (st : qmem) (qa qb qm : nat) : outcome (Z * qmem) :=
  let! c := qget st qa in
  let! d := qget st qb in
  let! st := set_i st qm (qr c * qi d + qi c * qr d + qj c * qk d - qk c * qj d) in
  let! st := set_j st qm (qr c * qj d - qi c * qk d + qj c * qr d + qk c * qi d) in
  let! st := set_k st qm (qr c * qk d + qi c * qj d - qj c * qi d + qk c * qr d) in
  let! st := set_r st qm (qr c * qr d - qi c * qi d - qj c * qj d - qk c * qk d) in
  Ok (0%Z, st).

Definition quat_mult (a b : quat T) : outcome (quat T) :=
  let! (_, st) := quat_mult_st [a; b; quat_empty] 0 1 2 in qget st 2.

(** ZSL_VECTOR_DEF(v, 3) filled with the three numbers *)
Definition vec3 (x y z : T) : vec T := Vec 3 (cells [x; y; z]).

(** zsl_quat_exp, src/orientation/quaternions.c:145-174 *)
Definition quat_exp (q : quat T) : outcome (Z * quat T) :=
  let v := vec3 (qi q) (qj q) (qk q) in
  let! vmag := vec_norm bc v in
  let! (_, v) := vec_to_unit bc v in
  let vsin := fsin vmag in
  let rexp := fexp (qr q) in
  let! a := rd (vbuf v) 0 in
  let! b := rd (vbuf v) 1 in
  let! c := rd (vbuf v) 2 in
  Ok (0%Z, Quat (fcos vmag * rexp) (a * vsin * rexp) (b * vsin * rexp) (c * vsin * rexp)).

(** zsl_quat_log, src/orientation/quaternions.c:176-203 *)
Definition quat_log (q : quat T) : outcome (Z * quat T) :=
  let v := vec3 (qi q) (qj q) (qk q) in
  let! (_, v) := vec_to_unit bc v in
  let! qmag := quat_magn q in
  let! d := fdiv (qr q) qmag in
  let! racos := facos d in
  let! l := flog qmag in
  let! a := rd (vbuf v) 0 in
  let! b := rd (vbuf v) 1 in
  let! c := rd (vbuf v) 2 in
  Ok (0%Z, Quat l (a * racos) (b * racos) (c * racos)).

(** zsl_quat_pow, src/orientation/quaternions.c:205-231 (log, scale and exp
    always return 0) *)
Definition quat_pow (q : quat T) (e : T) : outcome (Z * quat T) :=
  let! (_, qlog) := quat_log q in
  let! qsc := quat_scale qlog e in
  quat_exp qsc.

(** zsl_quat_conj, src/orientation/quaternions.c:233-244 *)
Definition quat_conj_st (st : qmem) (q qc : nat) : outcome (Z * qmem) :=
  let! v := qget st q in let! st := set_r st qc (qr v) in
  let! v := qget st q in let! st := set_i st qc (qi v * - flit 10 1) in
  let! v := qget st q in let! st := set_j st qc (qj v * - flit 10 1) in
  let! v := qget st q in let! st := set_k st qc (qk v * - flit 10 1) in
  Ok (0%Z, st).

Definition quat_conj (q : quat T) : outcome (quat T) :=
  let! (_, st) := quat_conj_st [q; quat_empty] 0 1 in qget st 1.

(** zsl_quat_inv, src/orientation/quaternions.c:246-264 *)
Definition quat_inv_st (st : qmem) (q qi_ : nat) : outcome (Z * qmem) :=
  let! v := qget st q in
  let! m := quat_magn v in
  if fabs m <? flit 1 6 then
    let! st := set_r st qi_ f0 in
    let! st := set_i st qi_ f0 in
    let! st := set_j st qi_ f0 in
    let! st := set_k st qi_ f0 in
    Ok (0%Z, st)
  else
    let m := m * m in
    let! v := qget st q in let! x := fdiv (qr v) m in let! st := set_r st qi_ x in
    let! v := qget st q in let! x := fdiv (qi v) (- m) in let! st := set_i st qi_ x in
    let! v := qget st q in let! x := fdiv (qj v) (- m) in let! st := set_j st qi_ x in
    let! v := qget st q in let! x := fdiv (qk v) (- m) in let! st := set_k st qi_ x in
    Ok (0%Z, st).

(** zsl_quat_inv_d, src/orientation/quaternions.c:266-269 *)
Definition quat_inv_d_st (st : qmem) (q : nat) := quat_inv_st st q q.

Definition quat_inv (q : quat T) : outcome (quat T) :=
  let! (_, st) := quat_inv_st [q; quat_empty] 0 1 in qget st 1.

(** zsl_quat_diff, src/orientation/quaternions.c:271-287 *)
Definition quat_diff (qa qb : quat T) : outcome (quat T) :=
  let! i := quat_inv qa in
  quat_mult i qb.

(** zsl_quat_rot, src/orientation/quaternions.c:289-313 *)
Definition quat_rot (qa qb : quat T) : outcome (Z * option (quat T)) :=
  if bc && (fabs (qr qb) >? flit 1 6) then Ok ((- EINVAL)%Z, None)
  else
    let! qn := quat_to_unit qa in
    let! qm := quat_mult qn qb in
    let! i := quat_inv qn in
    let! q := quat_mult qm i in
    Ok (0%Z, Some q).

(** zsl_quat_lerp, src/orientation/quaternions.c:315-353 *)
Definition quat_lerp (qa qb : quat T) (t : T) : outcome (Z * option (quat T)) :=
  if bc && ((t <? f0) || (t >? flit 10 1)) then Ok ((- EINVAL)%Z, None)
  else
    let! qa_u := quat_to_unit qa in
    let! qb_u := quat_to_unit qb in
    let! q1 := quat_scale qa_u (flit 10 1 - t) in
    let! q2 := quat_scale qb_u t in
    let! (_, st) := quat_to_unit_d_st
      [Quat (qr q1 + qr q2) (qi q1 + qi q2) (qj q1 + qj q2) (qk q1 + qk q2)] 0 in
    let! q := qget st 0 in
    Ok (0%Z, Some q).

(** zsl_quat_slerp, src/orientation/quaternions.c:355-445 *)
Definition quat_slerp (qa qb : quat T) (t : T) : outcome (Z * option (quat T)) :=
  if bc && ((t <? f0) || (t >? flit 10 1)) then Ok ((- EINVAL)%Z, None)
  else
    let! qa_u := quat_to_unit qa in
    let! qb_u := quat_to_unit qb in
    if t =? f0 then Ok (0%Z, Some qa_u)
    else if t =? flit 10 1 then Ok (0%Z, Some qb_u)
    else
      let dot := qr qa_u * qr qb_u + qi qa_u * qi qb_u + qj qa_u * qj qb_u
                 + qk qa_u * qk qb_u in
      if fabs (dot - flit 10 1) <? flit 1 6 then Ok (0%Z, Some qa_u)
      else if fabs (dot + flit 10 1) <? flit 1 6 then Ok ((- EINVAL)%Z, None)
      else
        let! phi := facos dot in
        let phi_s := fsin phi in
        let phi_st := fsin (phi * t) in
        let phi_smt := fsin (phi * (flit 10 1 - t)) in
        let! s1 := fdiv phi_smt phi_s in
        let! q1 := quat_scale qa_u s1 in
        let! s2 := fdiv phi_st phi_s in
        let! q2 := quat_scale qb_u s2 in
        Ok (0%Z, Some (Quat (qr q1 + qr q2) (qi q1 + qi q2) (qj q1 + qj q2) (qk q1 + qk q2))).

(** zsl_quat_from_ang_vel, src/orientation/quaternions.c:447-485 *)
Definition quat_from_ang_vel (w : vec T) (qin : quat T) (t : T)
  : outcome (Z * option (quat T)) :=
  if bc && (negb (vsz w =? 3)%nat || (t <? f0)) then Ok ((- EINVAL)%Z, None)
  else
    let! a := rd (vbuf w) 0 in
    let! b := rd (vbuf w) 1 in
    let! c := rd (vbuf w) 2 in
    let! qin2 := quat_to_unit qin in
    let! wq := quat_mult (Quat f0 a b c) qin2 in
    let! (_, st) := quat_scale_d_st [wq] 0 (flit 5 1 * t) in
    let! wq := qget st 0 in
    let! q := quat_to_unit (Quat (qr qin2 + qr wq) (qi qin2 + qi wq) (qj qin2 + qj wq)
                                 (qk qin2 + qk wq)) in
    Ok (0%Z, Some q).

(** zsl_quat_from_ang_mom, src/orientation/quaternions.c:487-510.  The result
    codes of the vector functions and of zsl_quat_from_ang_vel are ignored. *)
Definition quat_from_ang_mom (l : vec T) (qin : quat T) (i t : T)
  : outcome (Z * option (quat T)) :=
  if bc && (negb (vsz l =? 3)%nat || (t <? f0) || (i <=? f0)) then Ok ((- EINVAL)%Z, None)
  else
    let! (_, w) := vec_copy (Vec 3 (fresh 3)) l in
    let! (_, w) := vec_scalar_div w i in
    let! (_, q) := quat_from_ang_vel w qin t in
    Ok (0%Z, q).

(** zsl_quat_to_euler, src/orientation/quaternions.c:512-543 *)
Definition quat_to_euler (q : quat T) : outcome (Z * euler T) :=
  let! n := quat_to_unit q in
  let gl := qi n * qk n + qj n * qr n in
  let v := flit 2 0 * gl in
  let v := if v >? flit 10 1 then flit 10 1
           else if v <? - flit 10 1 then - flit 10 1 else v in
  let! y := fasin v in
  if (fabs (gl - flit 5 1) <? flit 1 6) || (fabs (gl + flit 5 1) <? flit 1 6) then
    Ok (0%Z, Euler (fatan2 (flit 20 1 * (qj n * qk n + qi n * qr n))
                           (flit 10 1 - flit 20 1 * (qi n * qi n + qk n * qk n))) y f0)
  else
    Ok (0%Z, Euler (fatan2 (flit 20 1 * (qi n * qr n - qj n * qk n))
                           (flit 10 1 - flit 20 1 * (qi n * qi n + qj n * qj n)))
                   y
                   (fatan2 (flit 20 1 * (qk n * qr n - qi n * qj n))
                           (flit 10 1 - flit 20 1 * (qj n * qj n + qk n * qk n)))).

(** zsl_quat_from_euler, src/orientation/quaternions.c:545-562 *)
Definition quat_from_euler (e : euler T) : Z * quat T :=
  let roll_c := fcos (ex e * flit 5 1) in
  let roll_s := fsin (ex e * flit 5 1) in
  let pitch_c := fcos (ey e * flit 5 1) in
  let pitch_s := fsin (ey e * flit 5 1) in
  let yaw_c := fcos (ez e * flit 5 1) in
  let yaw_s := fsin (ez e * flit 5 1) in
  (0%Z, Quat (roll_c * pitch_c * yaw_c - roll_s * pitch_s * yaw_s)
             (roll_s * pitch_c * yaw_c + roll_c * pitch_s * yaw_s)
             (roll_c * pitch_s * yaw_c - roll_s * pitch_c * yaw_s)
             (roll_c * pitch_c * yaw_s + roll_s * pitch_s * yaw_c)).

(** zsl_quat_to_rot_mtx, src/orientation/quaternions.c:564-597.  The result
    codes of zsl_mtx_set are ignored. *)
Definition quat_to_rot_mtx (q : quat T) (m : mtx T) : outcome (Z * mtx T) :=
  if bc && (negb (mcols m =? 3)%nat || negb (mrows m =? 3)%nat) then Ok ((- EINVAL)%Z, m)
  else
    let r := qr q in let i := qi q in let j := qj q in let k := qk q in
    let one := flit 10 1 in let two := flit 20 1 in
    let! (_, m) := mtx_set bc m 0 0 (one - two * (j * j + k * k)) in
    let! (_, m) := mtx_set bc m 0 1 (two * (i * j - k * r)) in
    let! (_, m) := mtx_set bc m 0 2 (two * (i * k + j * r)) in
    let! (_, m) := mtx_set bc m 1 0 (two * (i * j + k * r)) in
    let! (_, m) := mtx_set bc m 1 1 (one - two * (i * i + k * k)) in
    let! (_, m) := mtx_set bc m 1 2 (two * (j * k - i * r)) in
    let! (_, m) := mtx_set bc m 2 0 (two * (i * k - j * r)) in
    let! (_, m) := mtx_set bc m 2 1 (two * (j * k + i * r)) in
    let! (_, m) := mtx_set bc m 2 2 (one - two * (i * i + j * j)) in
    Ok (0%Z, m).

(** q->i *= d / |d| when |d| > 1E-6 *)
Definition with_sign (x d : T) : outcome T :=
  if fabs d >? flit 1 6 then let! s := fdiv d (fabs d) in Ok (x * s) else Ok x.

(** zsl_quat_from_rot_mtx, src/orientation/quaternions.c:599-636 *)
Definition quat_from_rot_mtx (m : mtx T) : outcome (Z * option (quat T)) :=
  if bc && (negb (mcols m =? 3)%nat || negb (mrows m =? 3)%nat)
  then Ok ((- EINVAL)%Z, None)
  else
    let! m0 := rd (mbuf m) 0 in
    let! m4 := rd (mbuf m) 4 in
    let! m8 := rd (mbuf m) 8 in
    let one := flit 10 1 in
    let! r := fsqrt (m0 + m4 + m8 + one) in
    let! i := fsqrt (m0 - m4 - m8 + one) in
    let! j := fsqrt (- m0 + m4 - m8 + one) in
    let! k := fsqrt (- m0 - m4 + m8 + one) in
    let! m7 := rd (mbuf m) 7 in
    let! m5 := rd (mbuf m) 5 in
    let! i := with_sign (flit 5 1 * i) (m7 - m5) in
    let! m2 := rd (mbuf m) 2 in
    let! m6 := rd (mbuf m) 6 in
    let! j := with_sign (flit 5 1 * j) (m2 - m6) in
    let! m3 := rd (mbuf m) 3 in
    let! m1 := rd (mbuf m) 1 in
    let! k := with_sign (flit 5 1 * k) (m3 - m1) in
    Ok (0%Z, Some (Quat (flit 5 1 * r) i j k)).

(** zsl_quat_to_axis_angle, src/orientation/quaternions.c:638-672: the axis
    vector and the angle *)
Definition quat_to_axis_angle (q : quat T) (a : vec T) : outcome (Z * vec T * out T) :=
  if bc && negb (vsz a =? 3)%nat then Ok ((- EINVAL)%Z, a, Kept)
  else
    let! n := quat_to_unit q in
    if fabs (qr n - flit 10 1) <? flit 1 6 then
      let! b := wr (vbuf a) 0 f0 in
      let! b := wr b 1 f0 in
      let! b := wr b 2 f0 in
      Ok (0%Z, Vec (vsz a) b, Set_ f0)
    else
      let! s := fsqrt (flit 10 1 - qr n * qr n) in
      let! ac := facos (qr n) in
      let! x := fdiv (qi n) s in let! b := wr (vbuf a) 0 x in
      let! x := fdiv (qj n) s in let! b := wr b 1 x in
      let! x := fdiv (qk n) s in let! b := wr b 2 x in
      Ok (0%Z, Vec (vsz a) b, Set_ (flit 20 1 * ac)).

(** zsl_quat_from_axis_angle, src/orientation/quaternions.c:674-712 *)
Definition quat_from_axis_angle (a : vec T) (b : T) : outcome (Z * option (quat T)) :=
  if bc && negb (vsz a =? 3)%nat then Ok ((- EINVAL)%Z, None)
  else
    let! x := rd (vbuf a) 0 in
    let! y := rd (vbuf a) 1 in
    let! z := rd (vbuf a) 2 in
    let! norm := fsqrt (x * x + y * y + z * z) in
    if norm <? flit 1 6 then Ok (0%Z, Some (Quat f0 f0 f0 f0))
    else
      let! (_, an) := vec_copy (Vec 3 (fresh 3)) a in
      let! (_, an) := vec_scalar_div an norm in
      let! h := fdiv b (flit 20 1) in
      let! x := rd (vbuf an) 0 in
      let! y := rd (vbuf an) 1 in
      let! z := rd (vbuf an) 2 in
      Ok (0%Z, Some (Quat (fcos h) (x * fsin h) (y * fsin h) (z * fsin h))).

End Quat.
