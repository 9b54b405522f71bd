(** Model of src/colorimetry: conv.c, lumeff.c, illuminants.c, norm.c,
    observers.c and rgbccms.c.  The numeric tables are in MColorTab.v.

    The one-bit "invalid" members of the structures are [option Z]: [None] is
    an indeterminate value, reading it is undefined behaviour ([flag]).  The
    enumerations are integers.  A conversion receives its output structure as
    it was before the call, because several members are left untouched. *)
From Coq Require Import List Arith ZArith Bool.
From Verif Require Import Base Libm Out MVec MMtx MColorTab.
Import ListNotations.
Set Implicit Arguments.
Local Open Scope num_scope.

(** struct zsl_clr_xyz, include/zsl/colorimetry.h:258-275 *)
Record xyz (T : Type) : Type := Xyz {
  cX : T; cY : T; cZ : T; xobs : Z; xill : Z;
  fX : option Z; fY : option Z; fZ : option Z }.
Arguments Xyz {T}.
Arguments cX {T}. Arguments cY {T}. Arguments cZ {T}. Arguments xobs {T}. Arguments xill {T}.
Arguments fX {T}. Arguments fY {T}. Arguments fZ {T}.

(** struct zsl_clr_xyy, include/zsl/colorimetry.h:280-297 *)
Record xyy (T : Type) : Type := Xyy {
  px : T; py : T; pY : T; yobs : Z; yill : Z;
  fx : option Z; fy : option Z; fYY : option Z }.
Arguments Xyy {T}.
Arguments px {T}. Arguments py {T}. Arguments pY {T}. Arguments yobs {T}. Arguments yill {T}.
Arguments fx {T}. Arguments fy {T}. Arguments fYY {T}.

(** struct zsl_clr_uv60 and struct zsl_clr_uv76, which have the same members,
    include/zsl/colorimetry.h:302-333 *)
Record uv (T : Type) : Type := Uv {
  cu : T; cv : T; uobs : Z; uill : Z; fu : option Z; fv : option Z }.
Arguments Uv {T}.
Arguments cu {T}. Arguments cv {T}. Arguments uobs {T}. Arguments uill {T}.
Arguments fu {T}. Arguments fv {T}.

(** struct zsl_clr_rgbf, include/zsl/colorimetry.h:338-355 *)
Record rgbf (T : Type) : Type := Rgbf {
  rr : T; rg : T; rb : T; ra : T;
  fr : option Z; fg : option Z; fb : option Z; fa : option Z }.
Arguments Rgbf {T}.
Arguments rr {T}. Arguments rg {T}. Arguments rb {T}. Arguments ra {T}.
Arguments fr {T}. Arguments fg {T}. Arguments fb {T}. Arguments fa {T}.

(** struct zsl_clr_rgb8, include/zsl/colorimetry.h:360-377 *)
Record rgb8 : Type := Rgb8 {
  r8 : Z; g8 : Z; b8 : Z; a8 : Z;
  fr8 : option Z; fg8 : option Z; fb8 : option Z; fa8 : option Z }.

(** struct zsl_clr_cct, include/zsl/colorimetry.h:406-426 *)
Record cct (T : Type) : Type := Cct {
  ct : T; duv : T; fct : option Z; fduv : option Z }.
Arguments Cct {T}.
Arguments ct {T}. Arguments duv {T}. Arguments fct {T}. Arguments fduv {T}.

(** struct zsl_clr_spd, include/zsl/colorimetry.h:515-524: the number of
    components and the components (nm, value) there is memory for.  Sizes are
    taken to fit an int, as the loop counters of conv.c require. *)
Record spd (T : Type) : Type := Spd { ssize : nat; scomps : list (Z * T) }.
Arguments Spd {T}.
Arguments ssize {T}. Arguments scomps {T}.

(** an "invalid" member as a truth value *)
Definition flag (f : option Z) : outcome bool :=
  match f with Some z => Ok (negb (z =? 0)%Z) | None => UB Uninit end.

(** an array element as an rvalue *)
Definition elt {A} (l : list A) (i : nat) : outcome A :=
  match nth_error l i with Some x => Ok x | None => UB OOBRead end.

Section Color.
Variable bc : bool.    (* CONFIG_ZSL_BOUNDS_CHECKS *)
Variable cap : bool.   (* CONFIG_ZSL_CLR_RGBF_BOUND_CAP *)
Context {T : Type} {N : Num T} {M : NumM T}.

(** ** Tables *)

(** zsl_clr_obs_get, src/colorimetry/observers.c:232-243: the table and its
    number of decimals.  [None]: *data not written. *)
Definition obs_get (obs : Z) : option (list (Z * Z * Z) * Z) :=
  if (obs =? 1)%Z then Some (obs10_tab, obs10_tab_e)
  else if (obs =? 0)%Z then Some (obs2_tab, obs2_tab_e)
  else None.

(** obs_data->data[i]; obs_data is an uninitialised local in the callers *)
Definition obs_elt (o : option (list (Z * Z * Z) * Z)) (i : nat) : outcome (T * T * T) :=
  match o with
  | None => UB Uninit
  | Some (tab, e) =>
      let! (x, y, z) := elt tab i in Ok (flit x e, flit y e, flit z e)
  end.

(** zsl_clr_illum_get, src/colorimetry/illuminants.c:88-106: the entry, as its
    index in the table.  [None]: *data not written. *)
Definition illum_get (obs illum : Z) : Z * option nat :=
  match find (fun i => let '(il, ob) := nth i illum_ids (-1, -1)%Z in
                       (il =? illum)%Z && (ob =? obs)%Z) (seq 0 (length illum_ids)) with
  | Some i => (0%Z, Some i)
  | None => ((- EINVAL)%Z, None)
  end.

(** the XYZ member of a table entry, src/colorimetry/illuminants.c:14-86 *)
Definition illum_xyz (i : nat) : outcome (T * T * T) :=
  let! (x, y, z) := elt illum_tab i in
  Ok (flit x illum_tab_e, flit y illum_tab_e, flit z illum_tab_e).

(** zsl_clr_rgbccm_get, src/colorimetry/rgbccms.c:139-143, with the matrix it
    points to *)
Definition rgbccm_get (ccm : nat) : outcome (mtx T) :=
  let! l := elt ccm_tab ccm in
  Ok (Mtx 3 3 (cells (map (fun m => flit m ccm_tab_e) l))).

(** zsl_clr_lef_get, src/colorimetry/lumeff.c:193-205 *)
Definition lef_get (lef : Z) : spd T :=
  if (lef =? 1)%Z
  then Spd 81 (map (fun p => (fst p, flit (snd p) scotopic_tab_e1)) scotopic_tab)
  else Spd 81 (map (fun p => (fst p, flit (snd p) photopic_tab_e1)) photopic_tab).

(** zsl_clr_lef_lerp, src/colorimetry/lumeff.c:207-248.  The search loop
    answers the value of an exact match (inr (inl v)) or the two indices. *)
Definition lef_lerp (lef nm : Z) : outcome (Z * T) :=
  let d := lef_get lef in
  let! (nm0, _) := elt (scomps d) 0 in
  let! (nm1, _) := elt (scomps d) (ssize d - 1) in
  if (nm <? nm0)%Z || (nm1 <? nm)%Z then Ok (0%Z, f0)
  else
    let! r := for_exit (ssize d) 0 (fun i (s : unit) =>
                let! (n, v) := elt (scomps d) i in
                if (nm =? n)%Z then Ok (inr (inl v))
                else if (nm <? n)%Z then
                  Ok (inr (inr (i, if (i =? 0)%nat then 0%nat else (i - 1)%nat)))
                else Ok (inl s)) tt in
    match r with
    | inr (inl v) => Ok (0%Z, v)
    | _ =>
        let (upper, lower) := match r with inr (inr p) => p | _ => (0, 0)%nat end in
        let! (_, vu) := elt (scomps d) upper in
        let! (nl, vl) := elt (scomps d) lower in
        let! coeff := fdiv (vu - vl) (flit 50 1) in
        Ok (0%Z, coeff * fofZ ((nm - nl) mod 4294967296) + vl)
    end.

(** zsl_clr_norm_spd, src/colorimetry/norm.c:10-32 *)
Definition norm_spd (s : spd T) : outcome (Z * spd T) :=
  let! mx := for_ (ssize s) 0 (fun i mx =>
               let! (_, v) := elt (scomps s) i in
               Ok (if mx <? v then v else mx)) f0 in
  if mx =? f0 then Ok ((- EINVAL)%Z, s)
  else
    let! c := for_ (ssize s) 0 (fun i c =>
                let! (n, v) := elt c i in
                let! q := fdiv v mx in
                Ok (upd c i (n, q))) (scomps s) in
    Ok (0%Z, Spd (ssize s) c).

(** ** Conversions *)

(** zsl_clr_conv_spd_xyz, src/colorimetry/conv.c:423-489 *)
Definition spd_xyz (s : spd T) (obs : Z) : outcome (Z * xyz T) :=
  let bad x y z := Ok ((- EINVAL)%Z, Xyz x y z 0 0 (Some 1) (Some 1) (Some 1))%Z in
  if (ssize s <? 1)%nat then bad f0 f0 f0
  else
    let data := obs_get obs in
    let! (x, y, z, matches) := for_ (ssize s) 0 (fun i a =>
        let '(x, y, z, k) := a in
        let! (nm, v) := elt (scomps s) i in
        if (359 <? nm)%Z && (nm <? 831)%Z then
          let! (ox, oy, oz) := obs_elt data (Z.to_nat ((nm - 360) / 5)) in
          Ok (x + v * ox, y + v * oy, z + v * oz, (k + 1)%Z)
        else Ok a) (f0, f0, f0, 0%Z) in
    if (matches =? 0)%Z then bad x y z
    else
      let! x := fdiv x (fofZ matches) in
      let! y := fdiv y (fofZ matches) in
      let! z := fdiv z (fofZ matches) in
      let! x := fdiv x y in
      let! z := fdiv z y in
      Ok (0%Z, Xyz x f1 z obs 0 (Some 0) (Some 0) (Some 0))%Z.

(** zsl_clr_conv_xyy_xyz, src/colorimetry/conv.c:491-508 *)
Definition xyy_xyz (a : xyy T) (o : xyz T) : outcome (Z * xyz T) :=
  let! x := fdiv (px a * pY a) (py a) in
  let! z := fdiv ((f1 - px a - py a) * pY a) (py a) in
  Ok (0%Z, Xyz x (pY a) z (yobs a) (yill a) (fX o) (fY o) (fZ o)).

(** zsl_clr_conv_xyz_xyy, src/colorimetry/conv.c:510-525 *)
Definition xyz_xyy (a : xyz T) (o : xyy T) : outcome (Z * xyy T) :=
  let! x := fdiv (cX a) (cX a + cY a + cZ a) in
  let! y := fdiv (cY a) (cX a + cY a + cZ a) in
  Ok (0%Z, Xyy x y (cY a) (xobs a) (xill a) (fx o) (fy o) (fYY o)).

(** zsl_clr_conv_xyy_uv60, src/colorimetry/conv.c:527-542 *)
Definition xyy_uv60 (a : xyy T) (o : uv T) : outcome (Z * uv T) :=
  let d := (fofZ 2 * px a * (- flit 10 1)) + (fofZ 12 * py a) + fofZ 3 in
  let! u := fdiv (fofZ 4 * px a) d in
  let! v := fdiv (fofZ 6 * py a) d in
  Ok (0%Z, Uv u v (yobs a) (yill a) (fu o) (fv o)).

(** an xyY structure on the stack before it is assigned: the flags are
    indeterminate, and no other member is read before being written *)
Definition xyy_local : xyy T := Xyy f0 f0 f0 0 0 None None None.
Definition xyz_local : xyz T := Xyz f0 f0 f0 0 0 None None None.
Definition uv_local : uv T := Uv f0 f0 0 0 None None.

(** zsl_clr_conv_xyz_uv60, src/colorimetry/conv.c:544-556 *)
Definition xyz_uv60 (a : xyz T) (o : uv T) : outcome (Z * uv T) :=
  let! (_, y) := xyz_xyy a xyy_local in
  let! (_, u) := xyy_uv60 y o in
  Ok (0%Z, u).

(** zsl_clr_conv_uv60_xyy, src/colorimetry/conv.c:572-586 *)
Definition uv60_xyy (a : uv T) : outcome (Z * xyy T) :=
  let d := flit 20 1 * cu a - flit 80 1 * cv a + flit 40 1 in
  let! x := fdiv (flit 30 1 * cu a) d in
  let! y := fdiv (flit 20 1 * cv a) d in
  Ok (0%Z, Xyy x y f1 (uobs a) (uill a) (Some 0) (Some 0) (Some 0))%Z.

(** zsl_clr_conv_uv60_xyz, src/colorimetry/conv.c:558-570 *)
Definition uv60_xyz (a : uv T) (o : xyz T) : outcome (Z * xyz T) :=
  let! (_, y) := uv60_xyy a in
  let! (_, x) := xyy_xyz y o in
  Ok (0%Z, x).

(** zsl_clr_conv_uv60_uv76, src/colorimetry/conv.c:588-599 *)
Definition uv60_uv76 (a : uv T) : outcome (Z * uv T) :=
  Ok (0%Z, Uv (cu a) (cv a * flit 15 1) (uobs a) (uill a) (fu a) (fv a)).

(** zsl_clr_conv_uv76_uv60, src/colorimetry/conv.c:601-612 *)
Definition uv76_uv60 (a : uv T) : outcome (Z * uv T) :=
  let! v := fdiv (cv a) (flit 15 1) in
  Ok (0%Z, Uv (cu a) v (uobs a) (uill a) (fu a) (fv a)).

(** ZSL_EXPM1, include/zsl/zsl.h: exp(x) - 1, in exact arithmetic *)
Definition expm1 (x : T) : T := fexp x - f1.

(** the black-body value at a wavelength, src/colorimetry/conv.c:672-678 *)
Definition bbody (t : T) (nm : Z) : outcome T :=
  let c1 := flit 374183162616761619 15 in
  let c2 := flit 14387863142323088 15 in
  let d := fofZ nm * flit 10 4 in
  let d5 := d * d * d * d * d in
  let! e := fdiv c2 (t * d * flit 10 4) in
  fdiv c1 (d5 * flit 10 13 * expm1 e).

(** zsl_clr_conv_ct_xyz, src/colorimetry/conv.c:637-691 *)
Definition ct_xyz (t : T) (obs : Z) : outcome (Z * xyz T) :=
  let data := obs_get obs in
  let! (x, y, z) := for_ 95 0 (fun i a =>
      let '(x, y, z) := a in
      let! b := bbody t (360 + 5 * Z.of_nat i) in
      let! (ox, oy, oz) := obs_elt data i in
      Ok (x + b * ox, y + b * oy, z + b * oz)) (f0, f0, f0) in
  let! x := fdiv x y in
  let! z := fdiv z y in
  Ok (0%Z, Xyz x f1 z obs 0 (Some 0) (Some 0) (Some 0))%Z.

(** zsl_clr_conv_ct_uv60, src/colorimetry/conv.c:614-635 *)
Definition ct_uv60 (t : T) (obs : Z) (o : uv T) : outcome (Z * uv T) :=
  let! (rc, x) := ct_xyz t obs in
  if negb (rc =? 0)%Z then Ok (rc, o)
  else
    let! (rc, u) := xyz_uv60 x o in
    if negb (rc =? 0)%Z then Ok (rc, u) else Ok (0%Z, u).

(** one channel of zsl_clr_conv_xyz_rgbf, src/colorimetry/conv.c:1229-1322:
    the value stored and the flag *)
Definition channel (v : T) : T * option Z :=
  let under := v <? f0 in
  let v := if under && cap then f0 else v in
  let over := v >=? flit 10 1 in
  (if over && cap then flit 10 1 else v, Some (if under || over then 1 else 0)%Z).

(** zsl_clr_conv_xyz_rgbf, src/colorimetry/conv.c:1229-1322.  The structure is
    cleared first, so its former contents do not matter. *)
Definition xyz_rgbf (a : xyz T) (m : mtx T) : outcome (Z * rgbf T) :=
  let! (_, xm) := mtx_init bc (mtx_def 3 1) None in
  let! (_, om) := mtx_init bc (mtx_def 3 1) None in
  let! b := wr (mbuf xm) 0 (cX a) in
  let! b := wr b 1 (cY a) in
  let! b := wr b 2 (cZ a) in
  let! (rc, om) := mtx_mult bc m (Mtx 3 1 b) om in
  if negb (rc =? 0)%Z
  then Ok (rc, Rgbf f0 f0 f0 f0 (Some 1) (Some 1) (Some 1) (Some 1))%Z
  else
    let! r := rd (mbuf om) 0 in
    let! g := rd (mbuf om) 1 in
    let! b := rd (mbuf om) 2 in
    let '(r, ir) := channel r in
    let '(g, ig) := channel g in
    let '(b, ib) := channel b in
    Ok (0%Z, Rgbf r g b f1 ir ig ib (Some 0%Z)).

(** the cap of zsl_clr_conv_xyz_rgb8, src/colorimetry/conv.c:1175-1227 *)
Definition cap8 (v : T) : T :=
  if cap then v
  else
    let v := if v >? flit 10 1 then flit 10 1 else v in
    if v <? f0 then f0 else v.

(** (uint8_t)(v * 255.0): undefined outside the range of the type (C11
    6.3.1.4p1); the model has no name for that, and answers NotReal *)
Definition to_u8 (v : T) : outcome Z :=
  let z := ftrunc (v * flit 2550 1) in
  if (0 <=? z)%Z && (z <=? 255)%Z then Ok z else NotReal.

(** zsl_clr_conv_xyz_rgb8, src/colorimetry/conv.c:1175-1227; o is the caller's
    structure before the call *)
Definition xyz_rgb8 (a : xyz T) (m : mtx T) (o : rgb8) : outcome (Z * rgb8) :=
  let! (rc, f) := xyz_rgbf a m in
  if negb (rc =? 0)%Z
  then Ok (rc, Rgb8 (r8 o) (g8 o) (b8 o) (a8 o) (Some 1) (Some 1) (Some 1) (Some 1))%Z
  else
    let! r := to_u8 (cap8 (rr f)) in
    let! g := to_u8 (cap8 (rg f)) in
    let! b := to_u8 (cap8 (rb f)) in
    Ok (0%Z, Rgb8 r g b 255 (fr f) (fg f) (fb f) (fa8 o))%Z.

(** zsl_clr_conv_ct_rgb8, src/colorimetry/conv.c:693-716 *)
Definition ct_rgb8 (t : T) (obs : Z) (m : mtx T) (o : rgb8) : outcome (Z * rgb8) :=
  let! (rc, x) := ct_xyz t obs in
  if negb (rc =? 0)%Z
  then Ok (rc, Rgb8 (r8 o) (g8 o) (b8 o) (a8 o) (Some 1) (Some 1) (Some 1) (Some 1))%Z
  else xyz_rgb8 x m o.

(** zsl_clr_conv_ct_rgbf, src/colorimetry/conv.c:718-741 *)
Definition ct_rgbf (t : T) (obs : Z) (m : mtx T) (o : rgbf T) : outcome (Z * rgbf T) :=
  let! (rc, x) := ct_xyz t obs in
  if negb (rc =? 0)%Z
  then Ok (rc, Rgbf (rr o) (rg o) (rb o) (ra o) (Some 1) (Some 1) (Some 1) (Some 1))%Z
  else xyz_rgbf x m.

(** zsl_clr_conv_cct_xyy, src/colorimetry/conv.c:743-827.  The error exits
    are left out: zsl_clr_conv_ct_xyz and zsl_clr_conv_xyz_uv60 only answer 0. *)
Definition cct_xyy (c : cct T) (obs : Z) : outcome (Z * xyy T) :=
  let! (_, x0) := ct_xyz (ct c) obs in
  let! (_, uv0) := xyz_uv60 x0 uv_local in
  let! (_, x1) := ct_xyz (ct c + flit 1 2) obs in
  let! (_, uv1) := xyz_uv60 x1 uv_local in
  let du := cu uv0 - cu uv1 in
  let dv := cv uv0 - cv uv1 in
  let! h := fsqrt (du * du + dv * dv) in
  let! s := fdiv dv h in
  let! k := fdiv du h in
  let u := cu uv0 - duv c * s in
  let v := cv uv0 + duv c * k in
  let! x := fdiv (flit 90 1 * u) (flit 60 1 * u - flit 160 1 * v * flit 15 1 + flit 120 1) in
  let! y := fdiv (flit 20 1 * v * flit 15 1)
                 (flit 30 1 * u - flit 80 1 * v * flit 15 1 + flit 60 1) in
  Ok (0%Z, Xyy x y f1 obs 0 (Some 0) (Some 0) (Some 0))%Z.

(** zsl_clr_conv_cct_xyz, src/colorimetry/conv.c:829-853; the error exits
    cannot be reached either *)
Definition cct_xyz (c : cct T) (obs : Z) (o : xyz T) : outcome (Z * xyz T) :=
  let! (_, y) := cct_xyy c obs in
  let! (_, x) := xyy_xyz y o in
  Ok (0%Z, x).

(** zsl_clr_conv_uv60_cct_mccamy, src/colorimetry/conv.c:855-893 *)
Definition mccamy (a : uv T) (o : cct T) : outcome (Z * cct T) :=
  let! iu := flag (fu a) in
  let! i := if iu then Ok true else flag (fv a) in
  if i then Ok ((- EINVAL)%Z, Cct (ct o) (duv o) (Some 1) (Some 1))%Z
  else
    let! (_, y) := uv60_xyy a in
    let! n := fdiv (px y - flit 3320 4) (flit 1858 4 - py y) in
    let! n3 := fpow n (fofZ 3) in
    let! n2 := fpow n (fofZ 2) in
    let t := flit 4490 1 * n3 + flit 35250 1 * n2 + flit 68233 1 * n + flit 552033 2 in
    Ok (0%Z, Cct t f0 (fct o) (Some 1%Z)).

(** a polynomial of degree six, highest power first, as the Ohno formulae
    spell it out, src/colorimetry/conv.c:926-932 and others *)
Definition poly6 (k : list T) (x : T) : outcome T :=
  let! p6 := fpow x (fofZ 6) in
  let! p5 := fpow x (fofZ 5) in
  let! p4 := fpow x (fofZ 4) in
  let! p3 := fpow x (fofZ 3) in
  let! p2 := fpow x (fofZ 2) in
  let! k6 := elt k 6 in
  let! k5 := elt k 5 in
  let! k4 := elt k 4 in
  let! k3 := elt k 3 in
  let! k2 := elt k 2 in
  let! k1 := elt k 1 in
  let! k0 := elt k 0 in
  Ok (k6 * p6 + k5 * p5 + k4 * p4 + k3 * p3 + k2 * p2 + k1 * x + k0).

(** row i of zsl_clr_conv_xyy_cct_ohno_2011_data, src/colorimetry/conv.c:22-85 *)
Definition k2011 (i : nat) : outcome (list T) :=
  let! l := elt ohno2011_tab i in Ok (map (fun m => flit m ohno2011_tab_e) l).

(** zsl_clr_conv_uv60_cct_ohno2011, src/colorimetry/conv.c:895-1009.  M_PI is
    the value of math.h. *)
Definition ohno2011 (a : uv T) (o : cct T) : outcome (Z * cct T) :=
  let! iu := flag (fu a) in
  let! i := if iu then Ok true else flag (fv a) in
  if i then Ok ((- EINVAL)%Z, Cct (ct o) (duv o) (Some 1) (Some 1))%Z
  else
    let du := cu a - flit 292 3 in
    let dv := cv a - flit 24 2 in
    let! l_fp := fsqrt (du * du + dv * dv) in
    let! q := fdiv dv du in
    let a1 := fatan q in
    let al := if a1 >=? f0 then a1 else a1 + flit 314159265358979323846 20 in
    let! k0 := k2011 0 in
    let! l_bb := poly6 k0 al in
    let dd := l_fp - l_bb in
    let low := al <? flit 254 2 in
    let! kt := k2011 (if low then 1 else 2)%nat in
    let! kd := k2011 (if low then 3 else 4)%nat in
    let! pt := poly6 kt al in
    let! t1 := fdiv (fofZ 1) pt in
    let! pd := poly6 kd al in
    let! q1 := fdiv (pd * (l_bb + flit 1 2)) l_fp in
    let! dt1 := fdiv (q1 * dd) (flit 1 2) in
    let t2 := t1 - dt1 in
    let! c := flog10 t2 in
    let! dt2 :=
      (if dd >=? f0 then
        let! k5 := k2011 5 in poly6 k5 c
      else
        let! k6 := k2011 6 in
        let! p := poly6 k6 c in
        let! q3 := fdiv dd (flit 3 2) in
        let! s := fpow q3 (fofZ 2) in
        Ok (p * s) : outcome T) in
    Ok (0%Z, Cct (t2 - dt2) dd (Some 0%Z) (Some 0%Z)).

(** zsl_clr_conv_ct_uv_ohno_2014_data[i], src/colorimetry/conv.c:113-418 *)
Definition ct_uv (i : nat) : outcome (T * T * T) :=
  let! (t, u, v) := elt ct_uv_tab i in
  Ok (flit t ct_uv_tab_e0, flit u ct_uv_tab_e1, flit v ct_uv_tab_e2).

(** the squared distance of entry i to (u, v), src/colorimetry/conv.c:1087-1090 *)
Definition dist_uv (i : nat) (a : uv T) : outcome T :=
  let! (_, u, v) := ct_uv i in
  Ok ((u - cu a) * (u - cu a) + (v - cv a) * (v - cv a)).

(** the search for the nearest entry, src/colorimetry/conv.c:1074-1096 *)
Definition nearest (a : uv T) : outcome (T * nat) :=
  for_ 304 0 (fun i s =>
    let '(best, k) := s in
    let! d := dist_uv i a in
    Ok (if d <? best then (d, i) else s)) (flit 10 1, 0%nat).

(** zsl_clr_conv_uv60_cct_ohno2014, src/colorimetry/conv.c:1044-1156.  The
    early "return -EINVAL" leaves the cleared structure, flags included.  An
    index below 0 would be a read outside the table. *)
Definition ohno2014 (a : uv T) (o : cct T) : outcome (Z * cct T) :=
  let! iu := flag (fu a) in
  let! i := if iu then Ok true else flag (fv a) in
  if i then Ok ((- EINVAL)%Z, Cct (ct o) (duv o) (Some 1) (Some 1))%Z
  else
    let! (_, k) := nearest a in
    let! (tk, _, _) := ct_uv k in
    let! (t1, _, _) := ct_uv 1 in
    let! (tl, _, _) := ct_uv (304 - 2) in
    if (tk <? t1) || (tk >? tl) then Ok ((- EINVAL)%Z, Cct f0 f0 (Some 0) (Some 0))%Z
    else if (k =? 0)%nat then UB OOBRead
    else
      let! d_prev := dist_uv (k - 1) a in
      let! d_next := dist_uv (k + 1) a in
      let! (tp, up, vp) := ct_uv (k - 1) in
      let! (tn, un, vn) := ct_uv (k + 1) in
      let! l := fsqrt ((un - up) * (un - up) + (vn - vp) * (vn - vp)) in
      let! x := fdiv (d_prev * d_prev - d_next * d_next + l * l) (flit 20 1 * l) in
      let! xl := fdiv x l in
      let t := tp + (tn - tp) * xl in
      let du := cu a - flit 292 3 in
      let dv := cv a - flit 24 2 in
      let! l_fp := fsqrt (du * du + dv * dv) in
      let! q := fdiv du l_fp in
      let! al := facos q in
      let! l_bb := poly6 (map (fun m => flit m ohno2014_tab_e) ohno2014_tab) al in
      Ok (0%Z, Cct t (l_fp - l_bb) (Some 0%Z) (Some 0%Z)).

(** zsl_clr_conv_uv60_cct, src/colorimetry/conv.c:1158-1173 *)
Definition uv60_cct (method : Z) (a : uv T) (o : cct T) : outcome (Z * cct T) :=
  if (method =? 0)%Z then mccamy a o
  else if (method =? 1)%Z then ohno2011 a o
  else ohno2014 a o.

End Color.
