(** Model of src/interp.c.

    A table is a list of points; n is its length, as the callers pass it.
    Indices of type int are integers; tables of more than INT_MAX points (for
    which the conversion of n to int is implementation-defined) are not
    modelled. *)
From Coq Require Import List Arith ZArith Bool.
From Verif Require Import Base Libm Out.
Import ListNotations.
Set Implicit Arguments.
Local Open Scope num_scope.

Section Interp.
Context {T : Type} {N : Num T}.

(** UINT_MAX + 1 *)
Definition UINT : Z := 4294967296.

(** zsl_interp_lerp, src/interp.c:13-30 *)
Definition interp_lerp (v0 v1 t : T) : outcome (Z * out T) :=
  if (t <? f0) || (t >? flit 10 1) then Ok ((- EINVAL)%Z, NaN)
  else Ok (0%Z, Set_ ((flit 10 1 - t) * v0 + t * v1)).

(** xy[i] *)
Definition point (A : Type) (xy : list A) (i : Z) : outcome A :=
  if (i <? 0)%Z then UB OOBRead
  else match nth_error xy (Z.to_nat i) with Some p => Ok p | None => UB OOBRead end.

(** zsl_interp_find_x, src/interp.c:32-97.  The sum of the limits is taken
    modulo 2^32, as unsigned arithmetic does. *)
Definition interp_find_x (fuel : nat) (xy : list (T * T)) (x : T) : outcome (Z * Z) :=
  let n := Z.of_nat (length xy) in
  if (n <? 2)%Z then Ok ((- EINVAL)%Z, (-1)%Z)
  else
    let! (xn, _) := point xy (n - 1) in
    let! (x0, _) := point xy 0 in
    let order := xn >=? x0 in
    if ((x >? xn) && order) || ((x <? xn) && negb order) then Ok ((- EINVAL)%Z, n)
    else if ((x <? x0) && order) || ((x >? x0) && negb order) then Ok ((- EINVAL)%Z, (-1)%Z)
    else
      let! lower := while_ fuel (fun '(lower, upper) =>
          if ((upper - lower) mod UINT >? 1)%Z then
            let mid := Z.shiftr ((upper + lower) mod UINT) 1 in
            let! (xm, _) := point xy mid in
            if ((x >=? xm) && order) || ((x <=? xm) && negb order)
            then Ok (inl (mid, upper)) else Ok (inl (lower, mid))
          else Ok (inr lower)) (0%Z, (n mod UINT)%Z) in
      if x =? x0 then Ok (0%Z, 0%Z)
      else if x =? xn then Ok (0%Z, (n - 2)%Z)
      else Ok (0%Z, lower).

(** delta < 1E-6 && -delta < 1E-6 *)
Definition no_delta (a b : T) : bool :=
  let delta := b - a in (delta <? flit 1 6) && (- delta <? flit 1 6).

(** zsl_interp_nn, src/interp.c:99-126 *)
Definition interp_nn (xy1 xy3 : T * T) (x2 : T) : outcome (Z * out T) :=
  let (x1, y1) := xy1 in
  let (x3, y3) := xy3 in
  if no_delta x1 x3 then Ok ((- EINVAL)%Z, NaN)
  else if (x2 <? x1) || (x2 >? x3) then Ok ((- EINVAL)%Z, Kept)
  else Ok (0%Z, Set_ (if x2 >=? x1 * flit 15 1 then y3 else y1)).

(** zsl_interp_lin_y, src/interp.c:154-187 *)
Definition interp_lin_y (xy1 xy3 : T * T) (x2 : T) : outcome (Z * out T) :=
  let (x1, y1) := xy1 in
  let (x3, y3) := xy3 in
  if no_delta x1 x3 then Ok ((- EINVAL)%Z, NaN)
  else if (x2 <? x1) || (x2 >? x3) then Ok ((- EINVAL)%Z, NaN)
  else
    let! q := fdiv ((x2 - x1) * (y3 - y1)) (x3 - x1) in
    Ok (0%Z, Set_ (q + y1)).

(** zsl_interp_nn_arr (src/interp.c:128-152) and zsl_interp_lin_y_arr
    (src/interp.c:189-213), which differ in the function f *)
Definition interp_arr (f : T * T -> T * T -> T -> outcome (Z * out T))
  (fuel : nat) (xy : list (T * T)) (x : T) : outcome (Z * out T) :=
  let! (rc, idx) := interp_find_x fuel xy x in
  if negb (rc =? 0)%Z then Ok (rc, NaN)
  else
    let! p := point xy idx in
    let! q := point xy (idx + 1) in
    let! (rc, y) := f p q x in
    if negb (rc =? 0)%Z then Ok (rc, NaN) else Ok (0%Z, y).

Definition interp_nn_arr := interp_arr interp_nn.
Definition interp_lin_y_arr := interp_arr interp_lin_y.

(** zsl_interp_lin_x, src/interp.c:215-251 *)
Definition interp_lin_x (xy1 xy3 : T * T) (y2 : T) : outcome (Z * out T) :=
  let (x1, y1) := xy1 in
  let (x3, y3) := xy3 in
  if no_delta x1 x3 then Ok ((- EINVAL)%Z, NaN)
  else
    let min := if y1 <? y3 then y1 else y3 in
    let max := if y1 <? y3 then y3 else y1 in
    if (y2 <? min) || (y2 >? max) then Ok ((- EINVAL)%Z, NaN)
    else
      let! q := fdiv ((y3 - y2) * x1 + (y2 - y1) * x3) (y3 - y1) in
      Ok (0%Z, Set_ q).

(** zsl_interp_cubic_calc, src/interp.c:253-318.  The abscissae and ordinates
    of the table are xs and ys, the second derivatives the buffer y2; alloc
    tells whether k_malloc succeeds.  [None]: y2 is not written. *)
Definition interp_cubic_calc (alloc : bool) (xs ys : list T) (y2 : buf T) (yp1 ypn : T)
  : outcome (Z * buf T) :=
  let n := length xs in
  let X := rd (cells xs) in
  let Y := rd (cells ys) in
  if (n <? 3)%nat then Ok ((- EINVAL)%Z, y2)
  else if negb alloc then Ok ((- ENOMEM)%Z, y2)
  else
    let u := fresh (n - 1) in
    let! (y2, u) := (
      if yp1 >? flit 99 (-28) then
        let! u := wr u 0 f0 in
        let! y2 := wr y2 0 f0 in
        Ok (y2, u)
      else
        let! y2 := wr y2 0 (- flit 5 1) in
        let! x1 := X 1%nat in let! x0 := X 0%nat in
        let! yy1 := Y 1%nat in let! yy0 := Y 0%nat in
        let! a := fdiv (flit 30 1) (x1 - x0) in
        let! b := fdiv (yy1 - yy0) (x1 - x0) in
        let! u := wr u 0 (a * (b - yp1)) in
        Ok (y2, u)) in
    let! (y2, u) := for_ (n - 2) 1 (fun i '(y2, u) =>
        let! xi := X i in let! xm := X (i - 1)%nat in let! xp := X (i + 1)%nat in
        let! yi := Y i in let! ym := Y (i - 1)%nat in let! yp := Y (i + 1)%nat in
        let x_i_im1 := xi - xm in
        let x_ip1_im1 := xp - xm in
        let! sigma := fdiv x_i_im1 x_ip1_im1 in
        let! z := rd y2 (i - 1) in
        let p := sigma * z + flit 20 1 in
        let! q := fdiv (sigma - flit 10 1) p in
        let! y2 := wr y2 i q in
        let! a := fdiv (yp - yi) (xp - xi) in
        let! b := fdiv (yi - ym) x_i_im1 in
        let ui := a - b in
        let! um := rd u (i - 1) in
        let! c := fdiv (flit 60 1 * ui) x_ip1_im1 in
        let! d := fdiv (c - sigma * um) p in
        let! u := wr u i d in
        Ok (y2, u)) (y2, u) in
    let! (qn, un) := (
      if ypn >? flit 99 (-28) then Ok (f0, f0)
      else
        let! xn := X (n - 1)%nat in let! xm := X (n - 2)%nat in
        let! yn := Y (n - 1)%nat in let! ym := Y (n - 2)%nat in
        let! a := fdiv (flit 30 1) (xn - xm) in
        let! b := fdiv (yn - ym) (xn - xm) in
        Ok (flit 5 1, a * (ypn - b))) in
    let! ul := rd u (n - 2) in
    let! yl := rd y2 (n - 2) in
    let! q := fdiv (un - qn * ul) (qn * yl + flit 10 1) in
    let! y2 := wr y2 (n - 1) q in
    let! y2 := for_ (n - 1) 0 (fun j y2 =>
        let k := (n - 2 - j)%nat in
        let! a := rd y2 k in
        let! b := rd y2 (k + 1) in
        let! c := rd u k in
        wr y2 k (a * b + c)) y2 in
    Ok (0%Z, y2).

(** zsl_interp_cubic_arr, src/interp.c:320-399.  The statics pklo and pkhi are
    reset to 0 and 1 on entry, so that no state survives a call. *)
Definition interp_cubic_arr (fuel : nat) (xs ys : list T) (y2 : buf T) (x : T)
  : outcome (Z * out T) :=
  let n := length xs in
  let X := rd (cells xs) in
  let Y := rd (cells ys) in
  if (n <? 3)%nat then Ok ((- EINVAL)%Z, Kept)
  else
    let! x0 := X 0%nat in
    let! first := (if x0 <=? x then let! x1 := X 1%nat in Ok (x1 >? x) else Ok false) in
    let! (klo, khi) := (
      if first : bool then Ok (0, 1)%nat
      else while_ fuel (fun '(klo, khi) =>
        if (1 <? khi - klo)%nat then
          let k := ((khi + klo) / 2)%nat in
          let! xk := X k in
          if xk >? x then Ok (inl (klo, k)) else Ok (inl (k, khi))
        else Ok (inr (klo, khi))) (0, n - 1)%nat) in
    let! xh := X khi in
    let! xl := X klo in
    let h := xh - xl in
    if h =? f0 then Ok ((- EINVAL)%Z, Kept)
    else
      let! a := fdiv (xh - x) h in
      let! b := fdiv (x - xl) h in
      let! yl := Y klo in
      let! yh := Y khi in
      let! zl := rd y2 klo in
      let! zh := rd y2 khi in
      let! c := fdiv (((a * a * a - a) * zl + (b * b * b - b) * zh) * (h * h)) (flit 60 1) in
      Ok (0%Z, Set_ (a * yl + b * yh + c)).

End Interp.
