(** Model of src/statistics.c.

    Output parameters are results: [None] means that the function did not
    write through the pointer.  Vectors passed to one call are distinct
    objects. *)
From Coq Require Import List Arith ZArith Bool.
From Verif Require Import Base MVec Libm MMtx.
Import ListNotations.
Set Implicit Arguments.
Local Open Scope num_scope.

Section Stat.
Context {T : Type} {N : Num T} {M : NumM T}.

(** CONFIG_ZSL_BOUNDS_CHECKS; SIZE_MAX + 1; the fuel and the ghost value of
    the sort (see MVec.vec_sort) *)
Variable bc : bool.
Variable W : Z.
Variable fuel : nat.
Variable ghost : option T.

(** ZSL_VECTOR_DEF(name, n), include/zsl/vectors.h: a local vector with
    indeterminate contents *)
Definition vdef (n : nat) : vec T := Vec n (fresh n).

(** (int)x: out of range is undefined (C11 6.3.1.4) *)
Definition f2int (x : T) : outcome Z :=
  let z := ftrunc x in
  if ((- 2147483648 <=? z) && (z <=? 2147483647))%Z%bool then Ok z else UB IntOverflow.

(** b[i] with an index of type int *)
Definition rdz (b : buf T) (i : Z) : outcome T :=
  if (i <? 0)%Z then UB OOBRead else rd b (Z.to_nat i).

(** zsl_sta_mean, src/statistics.c:14-19.  The return code of
    zsl_vec_ar_mean is dropped. *)
Definition sta_mean (v : vec T) : outcome (Z * option T) :=
  let! (_, m) := vec_ar_mean v in Ok (0%Z, m).

(** zsl_sta_percentile, src/statistics.c:158-182 *)
Definition sta_percentile (v : vec T) (p : T) : outcome (Z * option T) :=
  if bc && ((p >? flit 1000 1) || (p <? f0)) then Ok ((- EINVAL)%Z, None)
  else
    let! (_, w) := vec_init (vdef (vsz v)) in
    let! (_, w) := vec_sort fuel ghost v w in
    let! x := fdiv (p * fofZ (Z.of_nat (vsz v))) (flit 100 0) in
    let per := ffloor x in
    let! k := f2int per in
    if x =? per then
      let! a := rdz (vbuf w) k in
      let! b := rdz (vbuf w) (k - 1) in
      let! r := fdiv (a + b) (flit 2 0) in
      Ok (0%Z, Some r)
    else
      let! r := rdz (vbuf w) k in
      Ok (0%Z, Some r).

(** zsl_sta_median, src/statistics.c:184-189 *)
Definition sta_median (v : vec T) : outcome (Z * option T) :=
  let! (_, m) := sta_percentile v (fofZ 50) in Ok (0%Z, m).

(** zsl_sta_quart, src/statistics.c:235-243 *)
Definition sta_quart (v : vec T) : outcome (Z * (option T * option T * option T)) :=
  let! (_, q1) := sta_percentile v (fofZ 25) in
  let! (_, q2) := sta_percentile v (fofZ 50) in
  let! (_, q3) := sta_percentile v (fofZ 75) in
  Ok (0%Z, (q1, q2, q3)).

(** zsl_sta_quart_range, src/statistics.c:245-255 *)
Definition sta_quart_range (v : vec T) : outcome (Z * option T) :=
  let! (_, q1) := sta_percentile v (fofZ 25) in
  let! (_, q3) := sta_percentile v (fofZ 75) in
  let! a := lval q3 in
  let! b := lval q1 in
  Ok (0%Z, Some (a - b)).

(** zsl_sta_trim_mean, src/statistics.c:21-55.  Simplification: when no
    element is counted the array [sub] has zero elements, which ISO C does not
    allow for a variable length array; the model takes it as an empty array. *)
Definition sta_trim_mean (v : vec T) (p : T) : outcome (Z * option T) :=
  if bc && ((p >? flit 500 1) || (p <? f0)) then Ok ((- EINVAL)%Z, None)
  else
    let! (_, pl) := sta_percentile v p in
    let! (_, ph) := sta_percentile v (fofZ 100 - p) in
    let! (_, w) := vec_init (vdef (vsz v)) in
    let! (_, w) := vec_sort fuel ghost v w in
    let! (first, count) := for_ (vsz v) 0 (fun i '(first, count) =>
        let! a := rd (vbuf w) i in
        let! l := lval pl in
        let! c := (if a >=? l then let! h := lval ph in Ok (a <=? h) else Ok false) in
        let count := if c : bool then S count else count in
        Ok (if (count =? 1)%nat then i else first, count)) (0%nat, 0%nat) in
    let! (_, sub) := vec_get_subset bc W w (Z.of_nat first) (Z.of_nat count) (vdef count) in
    let! (_, m) := sta_mean sub in
    Ok (0%Z, match m with Some _ => m | None => Some f0 end).

(** for (i = 0; i < n; i++) s += b[i] *)
Definition sum_buf (n : nat) (b : buf T) : outcome T :=
  for_ n 0 (fun i s => let! a := rd b i in Ok (s + a)) f0.

(** for (i = 0; i < n; i++) if (b[i] < 0.0) return -EINVAL; *)
Definition any_neg (n : nat) (b : buf T) : outcome bool :=
  let! r := for_exit n 0 (fun i (_ : unit) =>
              let! a := rd b i in
              if a <? f0 then Ok (inr tt) else Ok (inl tt)) tt in
  Ok (match r with inl _ => false | inr _ => true end).

(** zsl_sta_weighted_mean, src/statistics.c:57-91.  The weights are added up
    before the sizes are compared. *)
Definition sta_weighted_mean (v w : vec T) : outcome (Z * option T) :=
  let! sumw := sum_buf (vsz v) (vbuf w) in
  let! bad := (if bc then
                 if negb (vsz v =? vsz w)%nat then Ok true else
                 let! neg := any_neg (vsz v) (vbuf w) in
                 if neg : bool then Ok true
                 else Ok (fabs sumw <? flit 1 6)
               else Ok false) in
  if bad : bool then Ok ((- EINVAL)%Z, None)
  else
    let! sumwx := for_ (vsz v) 0 (fun i s =>
        let! a := rd (vbuf w) i in
        let! b := rd (vbuf v) i in
        Ok (s + a * b)) f0 in
    let! m := fdiv sumwx sumw in
    Ok (0%Z, Some m).

(** zsl_sta_time_weighted_mean, src/statistics.c:93-138 *)
Definition sta_time_weighted_mean (v t : vec T) : outcome (Z * option T) :=
  let! bad := (if bc then
                 if negb (vsz v =? vsz t)%nat then Ok true else
                 let! neg := any_neg (vsz v) (vbuf v) in
                 if neg : bool then Ok true else
                 let! r := for_exit (vsz t) 0 (fun i (_ : unit) =>
                     let! a := rd (vbuf t) i in
                     let! c := vec_contains t a (flit 1 6) in
                     if (1 <? c)%nat then Ok (inr tt) else Ok (inl tt)) tt in
                 Ok (match r with inl _ => false | inr _ => true end)
               else Ok false) in
  if bad : bool then Ok ((- EINVAL)%Z, None)
  else
    let! (_, ts) := vec_sort fuel ghost t (vdef (vsz t)) in
    let! vs := for_ (vsz t) 0 (fun i vs =>
        for_ (vsz t) 0 (fun g vs =>
          let! a := rd (vbuf ts) i in
          let! b := rd (vbuf t) g in
          if fabs (a - b) <? flit 1 6 then
            let! c := rd (vbuf v) g in wr vs i c
          else Ok vs) vs) (fresh (vsz v)) in
    let! sum := for_ (vsz t - 1) 1 (fun j s =>
        let! a := rd (vbuf ts) j in
        let! b := rd (vbuf ts) (j - 1) in
        let! c := rd vs j in
        let! d := rd vs (j - 1) in
        let! q := fdiv ((a - b) * (c + d)) (flit 20 1) in
        Ok (s + q)) f0 in
    let! a := rdz (vbuf ts) ((Z.of_nat (vsz t) - 1) mod W) in
    let! b := rd (vbuf ts) 0 in
    let! m := fdiv sum (a - b) in
    Ok (0%Z, Some m).

(** zsl_sta_demean, src/statistics.c:140-156.  With an empty vector the local
    m is never assigned. *)
Definition sta_demean (v w : vec T) : outcome (Z * vec T) :=
  if bc && negb (vsz v =? vsz w)%nat then Ok ((- EINVAL)%Z, w)
  else
    let! (_, w) := vec_copy w v in
    let! (_, m) := sta_mean v in
    let! m := lval m in
    let! (_, w) := vec_scalar_add w (- m) in
    Ok (0%Z, w).

(** while (lsum <= 0.5) { lsum += w->data[i]; i++; }, src/statistics.c:217-220 *)
Fixpoint wmed_loop (n : nat) (b : buf T) (i : nat) (lsum : T) : outcome (nat * T) :=
  match n with
  | O => OutOfFuel
  | S n' =>
      if lsum <=? flit 5 1 then
        let! a := rd b i in wmed_loop n' b (S i) (lsum + a)
      else Ok (i, lsum)
  end.

(** zsl_sta_weighted_median, src/statistics.c:191-233 *)
Definition sta_weighted_median (v w : vec T) : outcome (Z * option T) :=
  let! bad := (if bc then
                 if negb (vsz v =? vsz w)%nat then Ok true else
                 let! r := for_exit (vsz v) 0 (fun i s =>
                     let! a := rd (vbuf w) i in
                     let s := s + a in
                     if a <? f0 then Ok (inr tt) else Ok (inl s)) f0 in
                 match r with
                 | inr _ => Ok true
                 | inl sum => Ok (fabs (sum - flit 10 1) >? flit 1 6)
                 end
               else Ok false) in
  if bad : bool then Ok ((- EINVAL)%Z, None)
  else
    let! (i, lsum) := wmed_loop (S (length (vbuf w))) (vbuf w) 0 f0 in
    let! a := rdz (vbuf w) (Z.of_nat i - 1) in
    let lsum := lsum - a in
    let! (_, vsort) := vec_init (vdef (vsz v)) in
    let! (_, vsort) := vec_sort fuel ghost v vsort in
    if fabs (lsum - flit 5 1) <? flit 1 6 then
      let! a := rdz (vbuf vsort) (Z.of_nat i - 1) in
      let! b := rdz (vbuf vsort) (Z.of_nat i - 2) in
      let! r := fdiv (a + b) (flit 20 1) in
      Ok (0%Z, Some r)
    else
      let! r := rdz (vbuf vsort) (Z.of_nat i - 1) in
      Ok (0%Z, Some r).

(** zsl_sta_mode, src/statistics.c:257-307 *)
Definition sta_mode (v w : vec T) : outcome (Z * vec T) :=
  if bc && negb (vsz v =? vsz w)%nat then Ok ((- EINVAL)%Z, w)
  else
    let n := vsz v in
    let! (_, w) := vec_init w in
    let! (u, maxcount) := for_ n 0 (fun i '(u, maxcount) =>
        let! a := rd (vbuf v) i in
        let! count := vec_contains v a (flit 1 7) in
        let! u := wr u i (fofZ (Z.of_nat count)) in
        Ok (u, if (maxcount <? count)%nat then count else maxcount)) (fresh n, 0%nat) in
    let! (wt, j) := for_ n 0 (fun i '(wt, j) =>
        let! c := rd u i in
        if c =? fofZ (Z.of_nat maxcount) then
          let! a := rd (vbuf v) i in
          let! wt := wr wt j a in
          Ok (wt, S j)
        else Ok (wt, j)) (fresh n, 0%nat) in
    let! (w, count) := for_ j 0 (fun i '(w, count) =>
        let! a := rd wt i in
        if (a >=? flit 1 5) || (a <=? flit 1 5) then
          let! c := vec_contains w a (flit 1 5) in
          if (c =? 0)%nat then
            let! b := wr (vbuf w) count a in
            Ok (Vec (vsz w) b, S count)
          else Ok (w, count)
        else Ok (w, count)) (w, 0%nat) in
    let! c := vec_contains (Vec j wt) f0 (flit 1 5) in
    let count := if (0 <? c)%nat then S count else count in
    Ok (0%Z, Vec count (vbuf w)).

(** zsl_sta_data_range, src/statistics.c:309-318 *)
Definition sta_data_range (v : vec T) : outcome (Z * option T) :=
  let! (_, w) := vec_sort fuel ghost v (vdef (vsz v)) in
  let! a := rdz (vbuf w) ((Z.of_nat (vsz v) - 1) mod W) in
  let! b := rd (vbuf w) 0 in
  Ok (0%Z, Some (a - b)).

(** zsl_sta_mean_abs_dev, src/statistics.c:320-339 *)
Definition sta_mean_abs_dev (v : vec T) : outcome (Z * option T) :=
  if bc && (vsz v =? 0)%nat then Ok ((- EINVAL)%Z, None)
  else
    let! (_, d) := sta_demean v (vdef (vsz v)) in
    let! sum := for_ (vsz v) 0 (fun i s =>
        let! a := rd (vbuf d) i in Ok (s + fabs a)) f0 in
    let! m := fdiv sum (fofZ (Z.of_nat (vsz v))) in
    Ok (0%Z, Some m).

(** zsl_sta_median_abs_dev, src/statistics.c:341-354 *)
Definition sta_median_abs_dev (v : vec T) : outcome (Z * option T) :=
  let! (_, md) := sta_median v in
  let! b := for_ (vsz v) 0 (fun i b =>
      let! a := rd (vbuf v) i in
      let! m := lval md in
      wr b i (fabs (a - m))) (fresh (vsz v)) in
  let! (_, m) := sta_median (Vec (vsz v) b) in
  Ok (0%Z, m).

(** zsl_sta_var, src/statistics.c:356-370 *)
Definition sta_var (v : vec T) : outcome (Z * option T) :=
  let! (_, w) := sta_demean v (vdef (vsz v)) in
  let! s := for_ (vsz v) 0 (fun i s =>
      let! a := rd (vbuf w) i in Ok (s + a * a)) f0 in
  let! r := fdiv s (fofZ ((Z.of_nat (vsz v) - 1) mod W)) in
  Ok (0%Z, Some r).

(** zsl_sta_std_dev, src/statistics.c:372-381 *)
Definition sta_std_dev (v : vec T) : outcome (Z * option T) :=
  let! (_, var) := sta_var v in
  let! var := lval var in
  let! s := fsqrt var in
  Ok (0%Z, Some s).

(** zsl_sta_covar, src/statistics.c:383-406 *)
Definition sta_covar (v w : vec T) : outcome (Z * option T) :=
  if bc && negb (vsz v =? vsz w)%nat then Ok ((- EINVAL)%Z, None)
  else
    let! (_, vd) := sta_demean v (vdef (vsz v)) in
    let! (_, wd) := sta_demean w (vdef (vsz w)) in
    let! c := for_ (vsz v) 0 (fun i s =>
        let! a := rd (vbuf vd) i in
        let! b := rd (vbuf wd) i in
        Ok (s + a * b)) f0 in
    let! r := fdiv c (fofZ ((Z.of_nat (vsz v) - 1) mod W)) in
    Ok (0%Z, Some r).

(** zsl_sta_covar_mtx, src/statistics.c:408-432 *)
Definition sta_covar_mtx (m mc : mtx T) : outcome (Z * mtx T) :=
  if bc && (negb (mrows mc =? mcols mc)%nat || negb (mcols mc =? mcols m)%nat)
  then Ok ((- EINVAL)%Z, mc)
  else
    let k := mcols m in
    let! (_, _, _, b) := for_ k 0 (fun i s =>
        for_ k 0 (fun j '(c, v1, v2, b) =>
          let! (_, v1) := mtx_get_col bc m i v1 in
          let! (_, v2) := mtx_get_col bc m j v2 in
          let! (_, r) := sta_covar (Vec (mrows m) v1) (Vec (mrows m) v2) in
          let c := match r with Some _ => r | None => c end in
          let! x := lval c in
          let! b := wr b (i * k + j) x in
          Ok (c, v1, v2, b)) s)
      (@None T, fresh (mrows m), fresh (mrows m), mbuf mc) in
    Ok (0%Z, Mtx (mrows mc) (mcols mc) b).

(** zsl_sta_linear_reg, src/statistics.c:434-463: (slope, intercept,
    correlation).  The correlation is a value of its own: when it has no real
    value the other two are still there. *)
Definition sta_linear_reg (x y : vec T) : outcome (Z * option (T * T * outcome T)) :=
  if bc && negb (vsz x =? vsz y)%nat then Ok ((- EINVAL)%Z, None)
  else
    let! (sx, sy, sxy, sxx, syy) := for_ (vsz x) 0 (fun i '(sx, sy, sxy, sxx, syy) =>
        let! a := rd (vbuf x) i in
        let! b := rd (vbuf y) i in
        Ok (sx + a, sy + b, sxy + a * b, sxx + a * a, syy + b * b)) (f0, f0, f0, f0, f0) in
    let n := fofZ (Z.of_nat (vsz x)) in
    let! slope := fdiv (n * sxy - sx * sy) (n * sxx - sx * sx) in
    let! intercept := fdiv (sy - slope * sx) n in
    let correlation :=
      let! q := fsqrt ((n * sxx - sx * sx) * (n * syy - sy * sy)) in
      fdiv (n * sxy - sx * sy) q in
    Ok (0%Z, Some (slope, intercept, correlation)).

(** The matrix x_exp: a column of ones, then the columns of x;
    src/statistics.c:487-497 and 569-579. *)
Definition expand_ones (x : mtx T) : outcome (mtx T) :=
  let r := mrows x in
  let c := mcols x in
  let! (_, xe) := mtx_init bc (mtx_def r (c + 1)) None in
  let! v := for_ r 0 (fun i v => wr v i f1) (fresh r) in
  let! (_, xe) := mtx_set_col bc xe 0 v in
  let! (_, xe) := for_ c 0 (fun j '(v, xe) =>
      let! (_, v) := mtx_get_col bc x j v in
      let! (_, xe) := mtx_set_col bc xe (j + 1) v in
      Ok (v, xe)) (v, xe) in
  Ok xe.

(** The goodness of fit, src/statistics.c:519-528 and 602-611: its own value,
    for 1 - e_norm / ysum has no real value when all the y are equal. *)
Definition fit_quality (r : nat) (xe bm ym : mtx T) (y : vec T) : outcome (outcome T) :=
  let! (_, xt2) := mtx_mult bc xe bm (mtx_def r 1) in
  let! (_, em) := mtx_sub bc ym xt2 (mtx_def r 1) in
  let! (_, ymean) := sta_mean y in
  let! (en, ys) := for_ r 0 (fun g '(en, ys) =>
      let! e := rd (mbuf em) g in
      let! a := rd (vbuf y) g in
      let! m := lval ymean in
      Ok (en + e * e, ys + (a - m) * (a - m))) (f0, f0) in
  Ok (let! q := fdiv en ys in Ok (f1 - q)).

(** zsl_sta_mult_linear_reg, src/statistics.c:466-531: (b, r) *)
Definition sta_mult_linear_reg (x : mtx T) (y b : vec T)
  : outcome (Z * (vec T * option (outcome T))) :=
  let r := mrows x in
  let c := mcols x in
  if bc && (negb (r =? vsz y)%nat || negb (c + 1 =? vsz b)%nat)
  then Ok ((- EINVAL)%Z, (b, None))
  else
    let! xe := expand_ones x in
    let! (_, xt) := mtx_trans bc xe (mtx_def (c + 1) r) in
    let! (_, xx) := mtx_mult bc xt xe (mtx_def (c + 1) (c + 1)) in
    let! (_, det) := mtx_deter bc xx in
    let! det := lval det in
    if fabs det <? flit 1 6 then Ok ((- EINVAL)%Z, (b, None))
    else
      let! (_, xi) := mtx_inv bc xx (mtx_def (c + 1) (c + 1)) in
      let! (_, ym) := mtx_from_arr (mtx_def (vsz y) 1) (vbuf y) in
      let! (_, xtmp) := mtx_mult bc xi xt (mtx_def (c + 1) r) in
      let! (_, bm) := mtx_mult bc xtmp ym (mtx_def (c + 1) 1) in
      let! (_, b) := vec_from_arr b (mbuf bm) in
      let! q := fit_quality r xe bm ym y in
      Ok (0%Z, (b, Some q)).

(** zsl_sta_weighted_mult_linear_reg, src/statistics.c:535-614: (w, b, r).
    The caller's w is overwritten by its reciprocals. *)
Definition sta_weighted_mult_linear_reg (x : mtx T) (y w b : vec T)
  : outcome (Z * (vec T * vec T * option (outcome T))) :=
  let r := mrows x in
  let c := mcols x in
  let! bad := (if bc then
                 if negb (r =? vsz y)%nat || negb (c + 1 =? vsz b)%nat
                    || negb (r =? vsz w)%nat then Ok true else
                 let! z := for_exit (vsz w) 0 (fun k (_ : unit) =>
                     let! a := rd (vbuf w) k in
                     if fabs a <? flit 1 6 then Ok (inr tt) else Ok (inl tt)) tt in
                 Ok (match z with inl _ => false | inr _ => true end)
               else Ok false) in
  if bad : bool then Ok ((- EINVAL)%Z, (w, b, None))
  else
    let! (_, idx) := mtx_init bc (mtx_def (vsz w) (vsz w)) (Some (entry_fn_identity bc)) in
    let! (wb, idx) := for_ (vsz w) 0 (fun k '(wb, idx) =>
        let! a := rd wb k in
        let! q := fdiv f1 a in
        let! wb := wr wb k q in
        let! (_, idx) := mtx_scalar_mult_row_d bc idx k q in
        Ok (wb, idx)) (vbuf w, idx) in
    let w := Vec (vsz w) wb in
    let! xe := expand_ones x in
    let! (_, xt) := mtx_trans bc xe (mtx_def (c + 1) r) in
    let! (_, xw) := mtx_mult bc xt idx (mtx_def (c + 1) r) in
    let! (_, xx) := mtx_mult bc xw xe (mtx_def (c + 1) (c + 1)) in
    let! (_, det) := mtx_deter bc xx in
    let! det := lval det in
    if fabs det <? flit 1 6 then Ok ((- EINVAL)%Z, (w, b, None))
    else
      let! (_, xi) := mtx_inv bc xx (mtx_def (c + 1) (c + 1)) in
      let! (_, ym) := mtx_from_arr (mtx_def (vsz y) 1) (vbuf y) in
      let! (_, xtmp) := mtx_mult bc xi xw (mtx_def (c + 1) r) in
      let! (_, bm) := mtx_mult bc xtmp ym (mtx_def (c + 1) 1) in
      let! (_, b) := vec_from_arr b (mbuf bm) in
      let! q := fit_quality r xe bm ym y in
      Ok (0%Z, (w, b, Some q)).

(** One row of the design matrix of zsl_sta_quad_fit, src/statistics.c:634-642 *)
Definition quad_row (a b c : T) : list T :=
  [ a * a; b * b; c * c;
    flit 20 1 * a * b; flit 20 1 * a * c; flit 20 1 * b * c;
    flit 20 1 * a; flit 20 1 * b; flit 20 1 * c ].

(** zsl_sta_quad_fit, src/statistics.c:618-662 *)
Definition sta_quad_fit (m : mtx T) (b : vec T) : outcome (Z * vec T) :=
  if bc && (negb (mcols m =? 3)%nat || negb (vsz b =? 9)%nat) then Ok ((- EINVAL)%Z, b)
  else
    let r := mrows m in
    let! (_, x, y) := for_ r 0 (fun i '(mv, x, y) =>
        let! (_, mv) := mtx_get_row bc m i mv in
        let! p := rd mv 0 in
        let! q := rd mv 1 in
        let! s := rd mv 2 in
        let! (_, x) := mtx_set_row bc x i (cells (quad_row p q s)) in
        let! y := wr y i f1 in
        Ok (mv, x, y)) (fresh 3, mtx_def r 9, fresh r) in
    let y := Mtx r 1 y in
    let! (_, xt) := mtx_trans bc x (mtx_def 9 r) in
    let! (_, xtx) := mtx_mult bc xt x (mtx_def 9 9) in
    let! (_, inv) := mtx_inv bc xtx (mtx_def 9 9) in
    let! (_, xtmp) := mtx_mult bc inv xt (mtx_def 9 r) in
    let! (_, bt) := mtx_mult bc xtmp y (mtx_def 9 1) in
    let! (_, b) := vec_from_arr b (mbuf bt) in
    Ok (0%Z, b).

(** zsl_sta_abs_err, src/statistics.c:665-670 *)
Definition sta_abs_err (val exp_val : T) : outcome (Z * T) :=
  Ok (0%Z, fabs (val - exp_val)).

(** zsl_sta_rel_err, src/statistics.c:672-677 *)
Definition sta_rel_err (val exp_val : T) : outcome (Z * T) :=
  let! r := fdiv (fabs (flit 100 0 * val - flit 100 0 * exp_val)) exp_val in
  Ok (0%Z, r).

(** zsl_sta_sta_err, src/statistics.c:679-693 *)
Definition sta_sta_err (v : vec T) : outcome (Z * option T) :=
  if bc && (vsz v =? 0)%nat then Ok ((- EINVAL)%Z, None)
  else
    let! (_, var) := sta_var v in
    let! var := lval var in
    let! q := fdiv var (fofZ (Z.of_nat (vsz v))) in
    let! s := fsqrt q in
    Ok (0%Z, Some s).

End Stat.
