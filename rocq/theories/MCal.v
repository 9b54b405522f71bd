(** Model of the magnetometer calibration of
    src/orientation/fusion/calibration.c: the spherical and ellipsoid
    Levenberg-Marquardt fit and the least-squares ellipsoid fit.  Both exist
    only when CONFIG_ZSL_SINGLE_PRECISION is not set.

    [fuel] and [ghost] are those of the sort (see MVec.vec_sort). *)
From Coq Require Import List Arith ZArith Bool.
From Verif Require Import Base MVec MMtx MDecomp MStat.
Import ListNotations.
Set Implicit Arguments.
Local Open Scope num_scope.

Section Cal.
Variable bc : bool.   (* CONFIG_ZSL_BOUNDS_CHECKS *)
Context {T : Type} {N : Num T}.

(** zsl_fus_cal_magn_f_shp, src/orientation/fusion/calibration.c:15-21 *)
Definition magn_f_shp (H b : vec T) : outcome T :=
  let! (_, Hb) := vec_add bc H b (Vec 3 (fresh 3)) in
  vec_norm bc Hb.

(** The symmetric matrix spelt out by the first six elements of [g], written
    in a 3x3 array of doubles: src/orientation/fusion/calibration.c:28-33 and
    320-325 *)
Definition magn_sym (g K : buf T) : outcome (buf T) :=
  let! x := rd g 0 in
  let! K := wr K 0 x in
  let! x := rd g 1 in
  let! K := wr K 3 x in
  let! K := wr K 1 x in
  let! x := rd g 2 in
  let! K := wr K 6 x in
  let! K := wr K 2 x in
  let! x := rd g 3 in
  let! K := wr K 4 x in
  let! x := rd g 4 in
  let! K := wr K 7 x in
  let! K := wr K 5 x in
  let! x := rd g 5 in
  wr K 8 x.

(** zsl_fus_cal_magn_f_elli, src/orientation/fusion/calibration.c:25-47 *)
Definition magn_f_elli (H : vec T) (g : mtx T) : outcome T :=
  let! K := magn_sym (mbuf g) (fresh 9) in
  let! Hb := for_ 3 0 (fun i Hb =>
      let! h := rd (vbuf H) i in
      let! x := rd (mbuf g) (6 + i) in
      wr Hb i (h + x)) (fresh 3) in
  let! (_, KHb) := mtx_mult bc (Mtx 3 3 K) (Mtx 3 1 Hb) (mtx_def 3 1) in
  let! (_, Hd) := vec_from_arr (Vec 3 (fresh 3)) (mbuf KHb) in
  vec_norm bc Hd.

(** zsl_mtx_get_row(m, i, H.data).  The code keeps one vector H; every use
    follows such a call, so a new one is read here. *)
Definition magn_row (m : mtx T) (i : nat) : outcome (vec T) :=
  let! (_, H) := mtx_get_row bc m i (fresh 3) in
  Ok (Vec 3 H).

(** The first guess of the centre and the radius,
    src/orientation/fusion/calibration.c:119-132.  For a matrix of no rows the
    index m->sz_rows - 1 wraps; here it reads an empty array. *)
Definition magn_start (fuel : nat) (ghost : option T) (m : mtx T) (b : buf T) : outcome (buf T * T) :=
  let n := mrows m in
  let! (b, mean, _, _) := for_ 3 0 (fun i '(b, mean, v, w) =>
      let! (_, v) := mtx_get_col bc m i v in
      let! (_, w) := vec_sort fuel ghost (Vec n v) (Vec n w) in
      let w := vbuf w in
      let! hi := rd w (n - 1) in
      let! lo := rd w 0 in
      let! c := fdiv (- (hi + lo)) (flit 20 1) in
      let! b := wr b i c in
      let! h := fdiv (hi - lo) (flit 20 1) in
      Ok (b, mean + h, v, w)) (b, f0, fresh n, fresh n) in
  let! R := fdiv mean (flit 30 1) in
  Ok (b, R).

(** a.data[i] += x *)
Definition addto (a : buf T) (i : nat) (x : T) : outcome (buf T) :=
  let! y := rd a i in wr a i (y + x).

(** The row J of the sphere fit, src/orientation/fusion/calibration.c:149-157 *)
Definition magn_jac_shp (m : mtx T) (b : vec T) : outcome (mtx T) :=
  let! (_, J) := mtx_init bc (mtx_def 1 4) None in
  let! J := for_ (mrows m) 0 (fun i J =>
      let! H := magn_row m i in
      let! f := magn_f_shp H b in
      let! J := addto J 0 f1 in
      for_ 3 0 (fun k J =>
        let! h := rd (vbuf H) k in
        let! x := rd (vbuf b) k in
        let! q := fdiv (- (h - x)) f in
        addto J (1 + k) q) J) (mbuf J) in
  Ok (Mtx 1 4 J).

(** What one sample adds to the row N of the ellipsoid fit,
    src/orientation/fusion/calibration.c:242-265 *)
Definition magn_row_elli (J : buf T) (f h0 h1 h2 b0 b1 b2 g0 g1 g2 g3 g4 g5 : T) : outcome (buf T) :=
  let A := g0 * (h0 + b0) + g1 * (h1 + b1) + g2 * (h2 + b2) in
  let B := g1 * (h0 + b0) + g3 * (h1 + b1) + g4 * (h2 + b2) in
  let C := g2 * (h0 + b0) + g4 * (h1 + b1) + g5 * (h2 + b2) in
  let! q := fdiv (- (h0 + b0) * A) f in
  let! J := addto J 0 q in
  let! q := fdiv (- (h1 + b1) * B) f in
  let! J := addto J 1 q in
  let! q := fdiv (- (h2 + b2) * C) f in
  let! J := addto J 2 q in
  let! q := fdiv (- ((h1 + b1) * A + (h0 + b0) * B)) f in
  let! J := addto J 3 q in
  let! q := fdiv (- ((h2 + b2) * A + (h0 + b0) * C)) f in
  let! J := addto J 4 q in
  let! q := fdiv (- ((h2 + b2) * B + (h1 + b1) * C)) f in
  let! J := addto J 5 q in
  let! q := fdiv (- A) f in
  let! J := addto J 6 q in
  let! q := fdiv (- B) f in
  let! J := addto J 7 q in
  let! q := fdiv (- C) f in
  addto J 8 q.

(** One sample of the ellipsoid fit,
    src/orientation/fusion/calibration.c:238-265 *)
Definition magn_add_elli (m : mtx T) (b : vec T) (g : mtx T) (i : nat) (J : buf T) : outcome (buf T) :=
  let! H := magn_row m i in
  let! f := magn_f_elli H g in
  let! h0 := rd (vbuf H) 0 in
  let! h1 := rd (vbuf H) 1 in
  let! h2 := rd (vbuf H) 2 in
  let! b0 := rd (vbuf b) 0 in
  let! b1 := rd (vbuf b) 1 in
  let! b2 := rd (vbuf b) 2 in
  let! g0 := rd (mbuf g) 0 in
  let! g1 := rd (mbuf g) 1 in
  let! g2 := rd (mbuf g) 2 in
  let! g3 := rd (mbuf g) 3 in
  let! g4 := rd (mbuf g) 4 in
  let! g5 := rd (mbuf g) 5 in
  magn_row_elli J f h0 h1 h2 b0 b1 b2 g0 g1 g2 g3 g4 g5.

(** The row N of the ellipsoid fit,
    src/orientation/fusion/calibration.c:236-266 *)
Definition magn_jac_elli (m : mtx T) (b : vec T) (g : mtx T) : outcome (mtx T) :=
  let! (_, J) := mtx_init bc (mtx_def 1 9) None in
  let! J := for_ (mrows m) 0 (magn_add_elli m b g) (mbuf J) in
  Ok (Mtx 1 9 J).

(** One step: from the 1xn row J and the residual R - f to the n increments,
    src/orientation/fusion/calibration.c:160-175 (n = 4) and 269-287 (n = 9).
    [idx] is the matrix the code keeps from one step to the next: the identity
    at first, then the last inverse; only its diagonal is overwritten. *)
Definition magn_step (n : nat) (J : mtx T) (l : T) (idx : mtx T) (res : T) : outcome (mtx T * mtx T) :=
  let! (_, Jt) := mtx_trans bc J (mtx_def n 1) in
  let! (_, JtJ) := mtx_mult bc Jt J (mtx_def n n) in
  let! d := for_ n 0 (fun i d =>
      let! x := rd (mbuf JtJ) (i * (n + 1)) in
      wr d (i * (n + 1)) (l * x)) (mbuf idx) in
  let idx := Mtx (mrows idx) (mcols idx) d in
  let! (_, JtJ) := mtx_add_d bc JtJ idx in
  let! (_, idx) := mtx_inv bc JtJ idx in
  let! (_, t) := mtx_mult bc idx Jt (mtx_def n 1) in
  let! (_, t) := mtx_scalar_mult_d t (- res) in
  Ok (idx, t).

(** The new damping parameter and squared residual sum after step j,
    src/orientation/fusion/calibration.c:187-197 and 304-314 *)
Definition magn_lambda (j : nat) (l mu s res : T) : outcome (T * T) :=
  let! s2 := fdiv (s * fofZ (Z.of_nat j) + res * res) (fofZ (Z.of_nat (j + 1))) in
  let! l := if s2 <? s then fdiv l mu else Ok (l * mu) in
  Ok (l, s2).

(** The sphere fit, src/orientation/fusion/calibration.c:134-199: answers R, b *)
Definition magn_sphere (m : mtx T) (l mu R : T) (b : vec T) : outcome (T * vec T) :=
  let n := mrows m in
  let! (_, idx) := mtx_init bc (mtx_def 4 4) (Some (entry_fn_identity bc)) in
  let! (R, b, _, _, _) := for_ n 0 (fun j '(R, b, l, s, idx) =>
      let! J := magn_jac_shp m b in
      let! H := magn_row m j in
      let! f := magn_f_shp H b in
      let! (idx, t) := magn_step 4 J l idx (R - f) in
      let! t0 := rd (mbuf t) 0 in
      let R := R + t0 in
      let! bb := for_ 3 0 (fun k bb =>
          let! x := rd (mbuf t) (1 + k) in addto bb k x) (vbuf b) in
      let b := Vec (vsz b) bb in
      if (j <? n - 1)%nat then
        let! H := magn_row m (j + 1) in
        let! f := magn_f_shp H b in
        let! (l, s) := magn_lambda j l mu s (R - f) in
        Ok (R, b, l, s, idx)
      else Ok (R, b, l, s, idx)) (R, b, l, f0, idx) in
  Ok (R, b).

(** The ellipsoid fit, src/orientation/fusion/calibration.c:208-317: answers
    the nine parameters and the last damping parameter *)
Definition magn_ellipsoid (m : mtx T) (l mu R : T) (b : vec T) : outcome (mtx T * T) :=
  let n := mrows m in
  let! b0 := rd (vbuf b) 0 in
  let! b1 := rd (vbuf b) 1 in
  let! b2 := rd (vbuf b) 2 in
  let g := Mtx 9 1 (cells [f1; f0; f0; f1; f0; f1; b0; b1; b2]) in
  let! (_, idx) := mtx_init bc (mtx_def 9 9) (Some (entry_fn_identity bc)) in
  let! (g, l, _, _) := for_ n 0 (fun j '(g, l, s, idx) =>
      let! J := magn_jac_elli m b g in
      let! H := magn_row m j in
      let! f := magn_f_elli H g in
      let! (idx, t) := magn_step 9 J l idx (R - f) in
      let! gb := for_ 9 0 (fun k gb =>
          let! x := rd (mbuf t) k in addto gb k x) (mbuf g) in
      let g := Mtx 9 1 gb in
      if (j <? n - 1)%nat then
        let! H := magn_row m (j + 1) in
        let! f := magn_f_elli H g in
        let! (l, s) := magn_lambda j l mu s (R - f) in
        Ok (g, l, s, idx)
      else Ok (g, l, s, idx)) (g, l, f0, idx) in
  Ok (g, l).

(** zsl_fus_cal_magn, src/orientation/fusion/calibration.c:98-333.  Answers
    the code, *l, K and b; *l and *mu are distinct objects. *)
Definition cal_magn (fuel : nat) (ghost : option T) (m : mtx T) (l mu : T) (K : mtx T) (b : vec T)
  : outcome (Z * (T * mtx T * vec T)) :=
  if bc && (negb (mcols m =? 3)%nat || negb (mrows K =? 3)%nat || negb (mcols K =? 3)%nat
            || negb (vsz b =? 3)%nat || (mu <? flit 10 1))
  then Ok ((- EINVAL)%Z, (l, K, b))
  else
    let! (bb, R) := magn_start fuel ghost m (vbuf b) in
    let! (R, b) := magn_sphere m l mu R (Vec (vsz b) bb) in
    let! (_, K) := mtx_init bc K (Some (entry_fn_identity bc)) in
    let! (g, l) := magn_ellipsoid m l mu R b in
    let! Kb := magn_sym (mbuf g) (mbuf K) in
    let! bb := for_ 3 0 (fun i bb =>
        let! x := rd (mbuf g) (6 + i) in wr bb i x) (vbuf b) in
    Ok (0%Z, (l, Mtx (mrows K) (mcols K) Kb, Vec (vsz b) bb)).

(** zsl_fus_cal_magn_fast, src/orientation/fusion/calibration.c:337-394.  The
    result codes of the fit, the factorisation and the inversion are ignored;
    me = None is a null pointer. *)
Definition cal_magn_fast (m : mtx T) (me : option T) (K : mtx T) (b : vec T)
  : outcome (Z * (mtx T * vec T)) :=
  let me := match me with Some x => x | None => flit 500 1 end in
  if bc && (negb (mcols m =? 3)%nat || negb (mrows K =? 3)%nat || negb (mcols K =? 3)%nat
            || negb (vsz b =? 3)%nat || (me <? f0))
  then Ok ((- EINVAL)%Z, (K, b))
  else
    let! (_, coef) := sta_quad_fit bc m (Vec 9 (fresh 9)) in
    let c := vbuf coef in
    let! c0 := rd c 0 in
    let! c3 := rd c 3 in
    let! c4 := rd c 4 in
    let! c1 := rd c 1 in
    let! c5 := rd c 5 in
    let! c2 := rd c 2 in
    let A := Mtx 3 3 (cells [c0; c3; c4; c3; c1; c5; c4; c5; c2]) in
    let! c6 := rd c 6 in
    let! c7 := rd c 7 in
    let! c8 := rd c 8 in
    let v := Mtx 3 1 (cells [c6; c7; c8]) in
    let! (_, L) := mtx_cholesky bc A (mtx_def 3 3) in
    let! (_, G) := mtx_trans bc L (mtx_def 3 3) in
    let! (_, G) := mtx_scalar_mult_d G me in
    let! (_, K) := mtx_copy bc K G in
    let! (_, Ai) := mtx_inv bc A (mtx_def 3 3) in
    let! (_, X0) := mtx_mult bc Ai v (mtx_def 3 1) in
    let! bb := for_ 3 0 (fun i bb =>
        let! x := rd (mbuf X0) i in wr bb i x) (vbuf b) in
    Ok (0%Z, (K, Vec (vsz b) bb)).

End Cal.
