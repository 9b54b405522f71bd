(** Model of src/matrices.c: Gram-Schmidt, column normalisation, Cholesky,
    balancing, Householder, QR, eigenvalues, eigenvectors, SVD, pseudo-inverse.

    Local objects have indeterminate contents ([fresh], [None]).  Return codes
    the C code ignores are dropped with [_]. *)
From Coq Require Import List Arith ZArith Bool.
From Verif Require Import Base MVec MMtx.
Import ListNotations.
Set Implicit Arguments.
Local Open Scope num_scope.

Section Decomp.
Context {T : Type} {N : Num T}.
Variable bc : bool.

(** ZSL_VECTOR_DEF(name, n), include/zsl/vectors.h:52-58 *)
Definition vec_def (n : nat) : vec T := Vec n (fresh n).

(** zsl_vec_add(&x, &w, &x) and zsl_vec_sub(&x, &w, &x): the first operand is
    the output *)
Definition vec_zip_d (op : T -> T -> T) (x w : vec T) : outcome (Z * vec T) :=
  let! (rc, st) := vec_zip_st bc op [vbuf x; vbuf w] (VR (vsz x) 0) (VR (vsz w) 1) (VR (vsz x) 0) in
  Ok (rc, Vec (vsz x) (nth 0 st [])).

(** zsl_vec_project(&w, &v, &w) *)
Definition vec_project_d (w v : vec T) : outcome (Z * vec T) :=
  let! (rc, st) := vec_project_st bc [vbuf w; vbuf v] (VR (vsz w) 0) (VR (vsz v) 1) (VR (vsz w) 0) in
  Ok (rc, Vec (vsz w) (nth 0 st [])).

(** zsl_mtx_gram_schmidt, src/matrices.c:940-967, distinct matrices.  State:
    mort and the locals v, w; q is initialised in every round. *)
Definition mtx_gram_schmidt (m mort : mtx T) : outcome (Z * mtx T) :=
  let n := mrows m in
  let! (mort, _, _) := for_ (mcols m) 0 (fun t '(mort, v, w) =>
      let! (_, q) := vec_init (vec_def n) in
      let! (_, vb) := mtx_get_col bc m t (vbuf v) in
      let v := Vec n vb in
      let! (w, q) := for_ t 0 (fun g '(w, q) =>
          let! (_, wb) := mtx_get_col bc mort g (vbuf w) in
          let! (_, w) := vec_project_d (Vec n wb) v in
          let! (_, q) := vec_zip_d fadd q w in
          Ok (w, q)) (w, q) in
      let! (_, v) := vec_zip_d fsub v q in
      let! (_, mort) := mtx_set_col bc mort t (vbuf v) in
      Ok (mort, v, w)) (mort, vec_def n, vec_def n) in
  Ok (0%Z, mort).

(** zsl_mtx_cols_norm, src/matrices.c:969-981, distinct matrices *)
Definition mtx_cols_norm (m mnorm : mtx T) : outcome (Z * mtx T) :=
  let n := mrows m in
  let! (mnorm, _) := for_ (mcols m) 0 (fun g '(mnorm, v) =>
      let! (_, vb) := mtx_get_col bc m g (vbuf v) in
      let! (_, v) := vec_to_unit bc (Vec n vb) in
      let! (_, mnorm) := mtx_set_col bc mnorm g (vbuf v) in
      Ok (mnorm, v)) (mnorm, vec_def n) in
  Ok (0%Z, mnorm).

(** The symmetry test of zsl_mtx_cholesky, src/matrices.c:1143-1152 *)
Definition chol_sym (m : mtx T) : outcome bool :=
  let! r := for_exit (mrows m) 0 (fun i s =>
      for_exit (mrows m) 0 (fun j '(a, b) =>
        let! a := lget bc m i j a in
        let! b := lget bc m j i b in
        let! av := lval a in
        let! bv := lval b in
        if fne av bv then Ok (inr false) else Ok (inl (a, b))) s) (None, None) in
  Ok (match r with inl _ => true | inr x => x end).

(** zsl_mtx_cholesky, src/matrices.c:1134-1189, distinct matrices.  State of
    the loops: l and the locals x, y. *)
Definition mtx_cholesky (m l : mtx T) : outcome (Z * mtx T) :=
  if bc && negb (mrows m =? mcols m)%nat then Ok ((- EINVAL)%Z, l)
  else
    let! sym := if bc then chol_sym m else Ok true in
    if negb sym then Ok ((- EINVAL)%Z, l)
    else if bc && (negb (mrows m =? mrows l)%nat || negb (mcols m =? mcols l)%nat)
    then Ok ((- EINVAL)%Z, l)
    else
      let! (_, l) := mtx_init bc l (Some (entry_fn_empty bc)) in
      let! (l, _, _) := for_ (mcols m) 0 (fun j '(l, x, y) =>
          let! (sum, x) := for_ j 0 (fun k '(sum, x) =>
              let! x := lget bc l j k x in
              let! xv := lval x in
              Ok (sum + xv * xv, x)) (f0, x) in
          let! x := lget bc m j j x in
          let! xv := lval x in
          let! s := fsqrt (xv - sum) in
          let! (_, l) := mtx_set bc l j j s in
          for_range (j + 1) (mcols m) (fun i '(l, x, y) =>
              let! (sum, x, y) := for_ j 0 (fun k '(sum, x, y) =>
                  let! x := lget bc l j k x in
                  let! y := lget bc l i k y in
                  let! xv := lval x in
                  let! yv := lval y in
                  Ok (sum + yv * xv, x, y)) (f0, x, y) in
              let! x := lget bc l j j x in
              let! y := lget bc m i j y in
              let! xv := lval x in
              let! yv := lval y in
              let! q := fdiv (yv - sum) xv in
              let! (_, l) := mtx_set bc l i j q in
              Ok (l, x, y)) (l, x, y)) (l, None, None) in
      Ok (0%Z, l).

(** The two scaling loops of zsl_mtx_balance, src/matrices.c:1235-1245: [fuel]
    bounds the number of iterations; answers col2 and col. *)
Definition bal_up (fuel : nat) (col row2 col2 : T) : outcome (T * T) :=
  while_ fuel (fun '(col2, col) =>
    if col <? row2 then Ok (inl (col2 * flit 2 0, col * flit 4 0)) else Ok (inr (col2, col)))
    (col2, col).
Definition bal_down (fuel : nat) (col row2 col2 : T) : outcome (T * T) :=
  while_ fuel (fun '(col2, col) =>
    if col >? row2 then
      let! a := fdiv col2 (flit 2 0) in
      let! b := fdiv col (flit 4 0) in
      Ok (inl (a, b))
    else Ok (inr (col2, col))) (col2, col).

(** One round of the for loop of zsl_mtx_balance, src/matrices.c:1220-1263,
    with the values row and col have on entry. *)
Definition bal_round (fuel : nat) (n : nat) (i : nat) (s : buf T * bool * (option T * option T))
  : outcome (buf T * bool * (option T * option T)) :=
  let '(b, done, (row, col)) := s in
  let! (row, col) := for_ n 0 (fun j '(row, col) =>
      let! rv := lval row in
      let! x := rd b (i * n + j) in
      let! cv := lval col in
      let! y := rd b (j * n + i) in
      Ok (Some (rv + fabs x), Some (cv + fabs y))) (row, col) in
  let! col := lval col in
  let! row := lval row in
  let! (b, done) :=
    if fne col f0 && fne row f0 then
      let! row2 := fdiv row (flit 2 0) in
      let sum := col + row in
      let! (col2, col) := bal_up fuel col row2 f1 in
      let row2 := row * flit 2 0 in
      let! (col2, col) := bal_down fuel col row2 col2 in
      let! t := fdiv (col + row) col2 in
      if t <? flit 95 2 * sum then
        let! row2 := fdiv f1 col2 in
        let! b := for_ n 0 (fun k b =>
            let! x := rd b (i * n + k) in
            let! b := wr b (i * n + k) (x * row2) in
            let! y := rd b (k * n + i) in
            wr b (k * n + i) (y * col2)) b in
        Ok (b, false)
      else Ok (b, done)
    else Ok (b, done) in
  Ok (b, done, (Some f0, Some f0)).

(** zsl_mtx_balance, src/matrices.c:1191-1270, distinct matrices.  The locals
    row and col are not initialised before their first use: [row0] and [col0]
    are their initial values, [None] for an indeterminate one (then the first
    use is undefined behaviour), [Some g] for whatever the machine's register
    or stack slot happens to hold. *)
Definition mtx_balance (fuel : nat) (row0 col0 : option T) (m mout : mtx T)
  : outcome (Z * mtx T) :=
  if negb (mrows m =? mcols m)%nat || negb (mrows mout =? mcols mout)%nat
  then Ok ((- EINVAL)%Z, mout)
  else if bc && (negb (mrows m =? mrows mout)%nat || negb (mcols m =? mcols mout)%nat)
  then Ok ((- EINVAL)%Z, mout)
  else
    let! (rc, mout) := mtx_copy bc mout m in
    if negb (rc =? 0)%Z then Ok (rc, mout)
    else
      let! b := while_ fuel (fun '(b, rowcol) =>
          let! (b, done, rowcol) := for_ (mrows m) 0 (bal_round fuel (mrows m)) (b, true, rowcol) in
          if (done : bool) then Ok (inr b) else Ok (inl (b, rowcol)))
          (mbuf mout, (row0, col0)) in
      Ok (0%Z, Mtx (mrows mout) (mcols mout) b).

(** zsl_mtx_householder, src/matrices.c:1272-1334.  With hessenberg set and no
    rows, size wraps to SIZE_MAX.  1 + size = rows, so the sum computed by
    zsl_vec_get_subset does not wrap and any modulus above rows will do. *)
Definition mtx_householder (m h : mtx T) (hessenberg : bool) : outcome (Z * mtx T) :=
  let n := mrows m in
  if hessenberg && (n =? 0)%nat then UB OOBWrite
  else
    let size := if hessenberg then (n - 1)%nat else n in
    let! (_, e1) := vec_init (vec_def size) in
    let! eb := wr (vbuf e1) 0 f1 in
    let e1 := Vec size eb in
    let! (_, v2b) := mtx_get_col bc m 0 (fresh n) in
    let v2 := Vec n v2b in
    let! (_, v) :=
      if hessenberg
      then vec_get_subset bc (Z.of_nat (S n)) v2 1 (Z.of_nat size) (vec_def size)
      else vec_copy (vec_def size) v2 in
    let! v0 := rd (vbuf v) 0 in
    let sign := if v0 <? f0 then - f1 else f1 in
    let! nv := vec_norm bc v in
    let! (_, e1) := vec_scalar_mult e1 (- sign * nv) in
    let! (_, v) := vec_zip_d fadd v e1 in
    let! nv := vec_norm bc v in
    let! (_, v) := vec_scalar_div v nv in
    let! (_, mv) := mtx_from_arr (mtx_def size 1) (vbuf v) in
    let! (_, mvt) := mtx_trans bc mv (mtx_def 1 size) in
    let! (_, vvt) := mtx_mult bc mv mvt (mtx_def size size) in
    let! (_, id) := mtx_init bc (mtx_def size size) (Some (entry_fn_identity bc)) in
    let! (_, vvt) := mtx_scalar_mult_d vvt (fofZ (-2)) in
    let! (_, h2) := mtx_add bc id vvt (mtx_def size size) in
    let! (_, h) := mtx_augm_diag bc h2 h in
    Ok (0%Z, h).

(** while (zsl_mtx_reduce_iter(r, &mred, &place1, &place2) != 0);
    src/matrices.c:1362 *)
Definition reduce_loop (fuel : nat) (r mred place1 place2 : mtx T) : outcome (mtx T) :=
  while_ fuel (fun '(mred, p1, p2) =>
    let! (rc, s) := mtx_reduce_iter bc r mred p1 p2 in
    let '(mred, p1, p2) := s in
    if (rc =? 0)%Z then Ok (inr mred) else Ok (inl (mred, p1, p2))) (mred, place1, place2).

(** zsl_mtx_qrd, src/matrices.c:1336-1389; m, q and r are distinct.  With no
    rows, sz_rows - 1 wraps; with fewer columns than g, sz_cols - g wraps and
    the local array cannot exist.  The reduction loop removes one row per
    iteration, so sz_rows + 1 iterations are enough when it terminates.
    Answers the code, q and r.  State: h, qt, r, r2, h2, hess. *)
Definition mtx_qrd (m q r : mtx T) (hessenberg : bool) : outcome (Z * (mtx T * mtx T)) :=
  let n := mrows m in
  let c := mcols m in
  let! (_, h) := mtx_init bc (mtx_def n n) None in
  let! (_, qt) := mtx_init bc (mtx_def n n) (Some (entry_fn_identity bc)) in
  let! (_, r) := mtx_copy bc r m in
  match n with
  | O => UB OOBRead
  | S n1 =>
      let! (_, qt, r, _, _, _) := for_ n1 0 (fun g '(h, qt, r, r2, h2, hess) =>
          if (c <? g)%nat then UB OOBWrite
          else
            let! mred := reduce_loop (S (mrows r)) r (mtx_def (n - g) (c - g))
                           (mtx_def (mrows r) (mcols r)) (mtx_def (mrows r) (mcols r)) in
            let! (_, hred) := mtx_householder mred (mtx_def (n - g) (n - g)) hessenberg in
            let! (_, h) := mtx_augm_diag bc hred h in
            let! (_, r2) := mtx_mult bc h r r2 in
            let! (_, h2) := mtx_mult bc h qt h2 in
            let! (_, qt) := mtx_copy bc qt h2 in
            if hessenberg then
              let! (_, hess) := mtx_mult bc r2 h hess in
              let! (_, r) := mtx_copy bc r hess in
              Ok (h, qt, r, r2, h2, hess)
            else
              let! (_, r) := mtx_copy bc r r2 in
              Ok (h, qt, r, r2, h2, hess))
        (h, qt, r, mtx_def n c, mtx_def n n, mtx_def n c) in
      let! (_, q) := mtx_trans bc qt q in
      Ok (0%Z, (q, r))
  end.

(** zsl_mtx_qrd_iter, src/matrices.c:1392-1417, distinct matrices *)
Definition mtx_qrd_iter (m mout : mtx T) (iter : nat) : outcome (Z * mtx T) :=
  let! (rc, mout) := mtx_copy bc mout m in
  if negb (rc =? 0)%Z then Ok ((- EINVAL)%Z, mout)
  else
    let! (mout, _, _) := for_ iter 1 (fun _ '(mout, q, r) =>
        let! (_, qr) := mtx_qrd mout q r false in
        let '(q, r) := qr in
        let! (_, mout) := mtx_mult bc r q mout in
        Ok (mout, q, r)) (mout, mtx_def (mrows m) (mrows m), mtx_def (mrows m) (mrows m)) in
    Ok (0%Z, mout).

(** "(x >= epsilon) || (x <= -epsilon)" on a local that may be unassigned is
    [is_big] of its value.

    The scan of the subdiagonal in zsl_mtx_eigenvalues, src/matrices.c:1481-1495:
    the body increments g once more after a non-zero element.  State: v's
    buffer, real, diag and sdiag. *)
Fixpoint eig_scan (fuel : nat) (mout : mtx T) (n g : nat)
  (s : buf T * nat * option T * option T) : outcome (buf T * nat * option T * option T) :=
  if (g <? n - 1)%nat then
    match fuel with
    | O => OutOfFuel
    | S f =>
        let '(vb, real, diag, sdiag) := s in
        let! sdiag := lget bc mout (g + 1) g sdiag in
        let! sv := lval sdiag in
        if is_big sv then eig_scan f mout n (g + 2) (vb, real, diag, sdiag)
        else
          let! diag := lget bc mout g g diag in
          let! dv := lval diag in
          let! vb := wr vb real dv in
          eig_scan f mout n (g + 1) (vb, S real, diag, sdiag)
    end
  else Ok s.

(** zsl_mtx_eigenvalues, src/matrices.c:1421-1523.  [fuel], [row0] and [col0]
    are zsl_mtx_balance's.  A 1 x 1 matrix is symmetric, and a matrix without
    rows has stopped the QR decomposition, so sz_rows - 2 does not wrap. *)
Definition mtx_eigenvalues (fuel : nat) (row0 col0 : option T) (m : mtx T) (v : vec T) (iter : nat)
  : outcome (Z * vec T) :=
  let n := mrows m in
  let! (_, mtemp) := mtx_balance fuel row0 col0 m (mtx_def n n) in
  let! (_, qr) := mtx_qrd mtemp (mtx_def n n) (mtx_def n n) true in
  let '(mout, mtemp2) := qr in
  let! (_, mout) := mtx_qrd_iter mtemp2 mout iter in
  let! (_, v) := vec_init v in
  let! sym := mtx_is_sym bc m in
  if (sym : bool) then
    let! (vb, _) := for_ n 0 (fun g '(vb, diag) =>
        let! diag := lget bc mout g g diag in
        let! dv := lval diag in
        let! vb := wr vb g dv in
        Ok (vb, diag)) (vbuf v, None) in
    Ok (0%Z, Vec (vsz v) vb)
  else
    let! s := eig_scan n mout n 0 (vbuf v, 0%nat, None, None) in
    let '(vb, real, diag, sdiag) := s in
    let! sdiag := lget bc mout (n - 1) (n - 2) sdiag in
    let! sv := lval sdiag in
    let! (vb, real) :=
      if is_big sv then Ok (vb, real)
      else
        let! diag := lget bc mout (n - 1) (n - 1) diag in
        let! dv := lval diag in
        let! vb := wr vb real dv in
        Ok (vb, S real) in
    let v := Vec real vb in
    if negb (real =? n)%nat then Ok ((- ECOMPLEXVAL)%Z, v)
    else let! (_, v) := vec_zte v in Ok (0%Z, v).

(** zsl_mtx_eigenvectors, src/matrices.c:1527-1671; mev is distinct from m.
    The local matrix mid is handed to zsl_mtx_gauss_reduc without having been
    initialised: [midb] is its initial contents ([fresh (n * n)] for
    indeterminate).  Its values never reach the result.  The code stores into
    mev after setting sz_cols = b, so mev's buffer must hold rows * b numbers.
    State of the outer loop: mid, mi, evec, evec2, mev2, f, b. *)
Definition mtx_eigenvectors (fuel : nat) (row0 col0 : option T) (midb : buf T)
  (m mev : mtx T) (iter : nat) (orthonormal : bool) : outcome (Z * mtx T) :=
  let n := mrows m in
  let! (_, mev2) := mtx_init bc (mtx_def n n) None in
  let! (_, o) := vec_init (vec_def n) in
  let! (_, k) := mtx_eigenvalues fuel row0 col0 m (vec_def n) iter in
  let! (o, e_vals) := for_ n 0 (fun q '(o, e_vals) =>
      let! kq := rd (vbuf k) q in
      if is_big kq then
        let! c := vec_contains o kq (flit 1 6) in
        if (c =? 0)%nat then
          let! ob := wr (vbuf o) e_vals kq in
          Ok (Vec (vsz o) ob, S e_vals)
        else Ok (o, e_vals)
      else Ok (o, e_vals)) (o, 0%nat) in
  let! c := vec_contains k f0 (flit 1 6) in
  let e_vals := if (0 <? c)%nat then S e_vals else e_vals in
  let! (_, _, _, _, mev2, fb, b) := for_ e_vals 0 (fun g '(mid, mi, evec, evec2, mev2, fb, b) =>
      let! (_, id) := mtx_init bc (mtx_def n n) (Some (entry_fn_identity bc)) in
      let! og := rd (vbuf o) g in
      let! (_, id) := mtx_scalar_mult_d id (- og) in
      let! (_, id) := mtx_add_d bc id m in
      let! (_, (mid, mi)) := mtx_gauss_reduc bc id mid mi in
      if orthonormal then
        let! (count, _) := for_ n 0 (fun h '(count, x) =>
            let! x := lget bc mi h h x in
            let! xv := lval x in
            Ok ((if is_tiny xv then S count else count), x)) (0%nat, None) in
        let evec := Mtx n count (mbuf evec) in
        let evec2 := Mtx n count (mbuf evec2) in
        let! (mi, evec, fb, _, _) := for_ n 0 (fun h '(mi, evec, fb, ga, x) =>
            let! x := lget bc mi h h x in
            let! xv := lval x in
            if is_tiny xv then
              let! (_, mi) := mtx_set bc mi h h (fofZ (-1)) in
              let! (_, fb) := mtx_get_col bc mi h fb in
              let! (_, f) := vec_neg (Vec n fb) in
              let! (_, evec) := mtx_set_col bc evec ga (vbuf f) in
              Ok (mi, evec, vbuf f, S ga, x)
            else Ok (mi, evec, fb, ga, x)) (mi, evec, fb, 0%nat, None) in
        let! (_, evec2) := mtx_gram_schmidt evec evec2 in
        let! (_, evec) := mtx_cols_norm evec2 evec in
        let! (mev2, fb, b) := for_ count 0 (fun gi '(mev2, fb, b) =>
            let! (_, fb) := mtx_get_col bc evec gi fb in
            let! (_, mev2) := mtx_set_col bc mev2 b fb in
            Ok (mev2, fb, S b)) (mev2, fb, b) in
        Ok (mid, mi, evec, evec2, mev2, fb, b)
      else
        let! (mi, mev2, fb, b, _) := for_ n 0 (fun h '(mi, mev2, fb, b, x) =>
            let! x := lget bc mi h h x in
            let! xv := lval x in
            if is_tiny xv then
              let! (_, mi) := mtx_set bc mi h h (fofZ (-1)) in
              let! (_, fb) := mtx_get_col bc mi h fb in
              let! (_, f) := vec_neg (Vec n fb) in
              let! (_, mev2) := mtx_set_col bc mev2 b (vbuf f) in
              Ok (mi, mev2, vbuf f, S b, x)
            else Ok (mi, mev2, fb, b, x)) (mi, mev2, fb, b, None) in
        Ok (mid, mi, evec, evec2, mev2, fb, b))
    (Mtx n n midb, mtx_def n n, mtx_def n n, mtx_def n n, mev2, fresh n, 0%nat) in
  let mev := Mtx (mrows mev) b (mbuf mev) in
  let! (mev, _) := for_ b 0 (fun s '(mev, fb) =>
      let! (_, fb) := mtx_get_col bc mev2 s fb in
      let! (_, mev) := mtx_set_col bc mev s fb in
      Ok (mev, fb)) (mev, fb) in
  Ok ((if negb (b =? mcols m)%nat then (- EEIGENSIZE)%Z else 0%Z), mev).

(** zsl_mtx_svd, src/matrices.c:1675-1753; answers the code, u, e, v.  [mida]
    and [midb] are the initial contents of the two eigenvector computations'
    local matrix mid.  min - pu does not wrap: pu counts some of the min
    rounds. *)
Definition mtx_svd (fuel : nat) (row0 col0 : option T) (mida midb : buf T)
  (m u e v : mtx T) (iter : nat) : outcome (Z * (mtx T * mtx T * mtx T)) :=
  let r := mrows m in
  let c := mcols m in
  let! (_, at_) := mtx_trans bc m (mtx_def c r) in
  let! (_, aat) := mtx_mult bc m at_ (mtx_def r r) in
  let! (_, ata) := mtx_mult bc at_ m (mtx_def c c) in
  let min := if (r <=? c)%nat then r else c in
  let! (_, ev) := mtx_eigenvalues fuel row0 col0 (if (min <? c)%nat then aat else ata)
                    (vec_def min) iter in
  let! (_, e) := mtx_init bc e None in
  let! e := for_ min 0 (fun g e =>
      let! x := rd (vbuf ev) g in
      let! s := fsqrt x in
      let! (_, e) := mtx_set bc e g g s in Ok e) e in
  let! (_, v) := mtx_eigenvectors fuel row0 col0 mida ata v iter true in
  let! (u, pu, _, _, _, _) := for_ min 0 (fun i '(u, pu, ui, ui2, ui3, d) =>
      let! (_, ui) := mtx_get_col bc v i ui in
      let! (_, ui2) := mtx_from_arr ui2 ui in
      let! d := lget bc e i i d in
      let! (_, ui3) := mtx_mult bc m ui2 ui3 in
      let! dv := lval d in
      if is_tiny dv then Ok (u, S pu, ui, ui2, ui3, d)
      else
        let! s := fdiv f1 dv in
        let! (_, ui3) := mtx_scalar_mult_d ui3 s in
        let! (_, uv) := vec_from_arr (Vec r ui) (mbuf ui3) in
        let! (_, u) := mtx_set_col bc u i (vbuf uv) in
        Ok (u, pu, vbuf uv, ui2, ui3, d))
    (u, 0%nat, fresh r, mtx_def c 1, mtx_def r 1, None) in
  let! (_, upri) := mtx_eigenvectors fuel row0 col0 midb aat (mtx_def r r) iter true in
  let! (u, _) := for_range (min - pu)%nat r (fun f '(u, hu) =>
      let! (_, hu) := mtx_get_col bc upri f hu in
      let! (_, u) := mtx_set_col bc u f hu in
      Ok (u, hu)) (u, fresh r) in
  Ok (0%Z, (u, e, v)).

(** zsl_mtx_pinv, src/matrices.c:1757-1803 *)
Definition mtx_pinv (fuel : nat) (row0 col0 : option T) (mida midb : buf T)
  (m pinv : mtx T) (iter : nat) : outcome (Z * mtx T) :=
  let r := mrows m in
  let c := mcols m in
  let! (_, uev) := mtx_svd fuel row0 col0 mida midb m (mtx_def r r) (mtx_def r c) (mtx_def c c) iter in
  let '(u, e, v) := uev in
  let! (_, ut) := mtx_trans bc u (mtx_def r r) in
  let min := if (r <=? c)%nat then r else c in
  let! (e, _) := for_ min 0 (fun g '(e, x) =>
      let! x := lget bc e g g x in
      let! xv := lval x in
      if (xv <? flit 1 6) || (xv >? - flit 1 6) then
        let! y := fdiv f1 xv in
        let! (_, e) := mtx_set bc e g g y in
        Ok (e, Some y)
      else Ok (e, x)) (e, None) in
  let! (_, et) := mtx_trans bc e (mtx_def c r) in
  let! (_, pas) := mtx_mult bc v et (mtx_def c r) in
  let! (_, pinv) := mtx_mult bc pas ut pinv in
  Ok (0%Z, pinv).

End Decomp.
