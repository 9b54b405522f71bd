(** Model of src/matrices.c: storage, element-wise operations, products,
    row operations, minors, determinant, adjoint, elimination, inverse. *)
From Coq Require Import List Arith ZArith Bool.
From Verif Require Import Base MVec Libm.
Import ListNotations.
Set Implicit Arguments.
Local Open Scope num_scope.

Section Mtx.
Context {T : Type} {N : Num T}.

(** CONFIG_ZSL_BOUNDS_CHECKS *)
Variable bc : bool.

(** ZSL_MATRIX_DEF(name, r, c), include/zsl/matrices.h:61-67: a local matrix
    with indeterminate contents *)
Definition mtx_def (r c : nat) : mtx T := Mtx r c (fresh (r * c)).

(** A local scalar: [None] until it has been assigned. *)
Definition lval (x : option T) : outcome T :=
  match x with Some v => Ok v | None => UB Uninit end.

(** zsl_mtx_get, src/matrices.c:98-110.  [None]: *x not written. *)
Definition mtx_get (m : mtx T) (i j : nat) : outcome (Z * option T) :=
  if bc && ((mrows m <=? i)%nat || (mcols m <=? j)%nat) then Ok ((- EINVAL)%Z, None)
  else let! v := rd (mbuf m) (i * mcols m + j) in Ok (0%Z, Some v).

(** zsl_mtx_get(m, i, j, &x) with the return code ignored: the new value of
    the local x. *)
Definition lget (m : mtx T) (i j : nat) (x : option T) : outcome (option T) :=
  let! (_, o) := mtx_get m i j in
  Ok (match o with Some v => Some v | None => x end).

(** zsl_mtx_set, src/matrices.c:112-124 *)
Definition mtx_set (m : mtx T) (i j : nat) (x : T) : outcome (Z * mtx T) :=
  if bc && ((mrows m <=? i)%nat || (mcols m <=? j)%nat) then Ok ((- EINVAL)%Z, m)
  else let! b := wr (mbuf m) (i * mcols m + j) x in Ok (0%Z, Mtx (mrows m) (mcols m) b).

(** zsl_mtx_entry_fn_empty, _identity, _random, src/matrices.c:30-47 *)
Definition entry_fn_empty (m : mtx T) (i j : nat) : outcome (Z * mtx T) := mtx_set m i j f0.
Definition entry_fn_identity (m : mtx T) (i j : nat) : outcome (Z * mtx T) :=
  mtx_set m i j (if (i =? j)%nat then f1 else f0).
Definition entry_fn_random (m : mtx T) (i j : nat) : outcome (Z * mtx T) := mtx_set m i j f0.

(** for (i..rows) for (j..cols) { rc = fn(i, j); if (rc) return rc; } return 0; *)
Definition each_entry {S} (rows cols : nat) (fn : nat -> nat -> S -> outcome (Z * S)) (s : S)
  : outcome (Z * S) :=
  let! r := for_exit rows 0 (fun i s =>
              for_exit cols 0 (fun j s =>
                let! (rc, s') := fn i j s in
                if (rc =? 0)%Z then Ok (inl s') else Ok (inr (rc, s'))) s) s in
  Ok (match r with inl s' => (0%Z, s') | inr e => e end).

(** zsl_mtx_init, src/matrices.c:49-70.  [None] is a NULL entry function. *)
Definition mtx_init (m : mtx T) (fn : option (mtx T -> nat -> nat -> outcome (Z * mtx T)))
  : outcome (Z * mtx T) :=
  each_entry (mrows m) (mcols m) (fun i j m =>
    match fn with
    | None => entry_fn_empty m i j
    | Some f => f m i j
    end) m.

(** zsl_mtx_from_arr, src/matrices.c:72-78 *)
Definition mtx_from_arr (m : mtx T) (a : buf T) : outcome (Z * mtx T) :=
  let! b := blit a 0 (mbuf m) 0 (mrows m * mcols m) in
  Ok (0%Z, Mtx (mrows m) (mcols m) b).

(** zsl_mtx_copy, src/matrices.c:80-96 *)
Definition mtx_copy (mdest msrc : mtx T) : outcome (Z * mtx T) :=
  if bc && (negb (mrows mdest =? mrows msrc)%nat || negb (mcols mdest =? mcols msrc)%nat)
  then Ok ((- EINVAL)%Z, mdest)
  else
    let! b := blit (mbuf msrc) 0 (mbuf mdest) 0 (mrows msrc * mcols msrc) in
    Ok (0%Z, Mtx (mrows mdest) (mcols mdest) b).

(** zsl_mtx_get_row, src/matrices.c:126-141; v is the caller's array *)
Definition mtx_get_row (m : mtx T) (i : nat) (v : buf T) : outcome (Z * buf T) :=
  let! r := for_exit (mcols m) 0 (fun j v =>
              let! (rc, x) := mtx_get m i j in
              match x with
              | None => Ok (inr (rc, v))
              | Some x => let! v := wr v j x in Ok (inl v)
              end) v in
  Ok (match r with inl v => (0%Z, v) | inr e => e end).

(** zsl_mtx_set_row, src/matrices.c:143-156 *)
Definition mtx_set_row (m : mtx T) (i : nat) (v : buf T) : outcome (Z * mtx T) :=
  let! r := for_exit (mcols m) 0 (fun j m =>
              let! x := rd v j in
              let! (rc, m') := mtx_set m i j x in
              if (rc =? 0)%Z then Ok (inl m') else Ok (inr (rc, m'))) m in
  Ok (match r with inl m => (0%Z, m) | inr e => e end).

(** zsl_mtx_get_col, src/matrices.c:158-173 *)
Definition mtx_get_col (m : mtx T) (j : nat) (v : buf T) : outcome (Z * buf T) :=
  let! r := for_exit (mrows m) 0 (fun i v =>
              let! (rc, x) := mtx_get m i j in
              match x with
              | None => Ok (inr (rc, v))
              | Some x => let! v := wr v i x in Ok (inl v)
              end) v in
  Ok (match r with inl v => (0%Z, v) | inr e => e end).

(** zsl_mtx_set_col, src/matrices.c:175-188 *)
Definition mtx_set_col (m : mtx T) (j : nat) (v : buf T) : outcome (Z * mtx T) :=
  let! r := for_exit (mrows m) 0 (fun i m =>
              let! x := rd v i in
              let! (rc, m') := mtx_set m i j x in
              if (rc =? 0)%Z then Ok (inl m') else Ok (inr (rc, m'))) m in
  Ok (match r with inl m => (0%Z, m) | inr e => e end).

(** zsl_mtx_unary_func, src/matrices.c:265-283 ([None]: fn is NULL) *)
Definition mtx_unary_func (m : mtx T) (fn : option (mtx T -> nat -> nat -> outcome (Z * mtx T)))
  : outcome (Z * mtx T) :=
  each_entry (mrows m) (mcols m) (fun i j m =>
    match fn with
    | None => Ok (0%Z, m)
    | Some f => f m i j
    end) m.

(** zsl_mtx_binary_func, src/matrices.c:346-372; the callback gets ma and mb
    and may change mc *)
Definition mtx_binary_func (ma mb mc : mtx T)
  (fn : option (mtx T -> mtx T -> mtx T -> nat -> nat -> outcome (Z * mtx T)))
  : outcome (Z * mtx T) :=
  if bc && (negb (mrows ma =? mrows mb)%nat || negb (mrows mb =? mrows mc)%nat
            || negb (mcols ma =? mcols mb)%nat || negb (mcols mb =? mcols mc)%nat)
  then Ok ((- EINVAL)%Z, mc)
  else
    each_entry (mrows ma) (mcols ma) (fun i j mc =>
      match fn with
      | None => Ok (0%Z, mc)
      | Some f => f ma mb mc i j
      end) mc.

(** A matrix whose elements live in buffer [mptr] of a store. *)
Record mref : Type := MR { rrows : nat; rcols : nat; mptr : nat }.

(** The guard and the loop of zsl_mtx_binary_op, src/matrices.c:285-344, for
    the operations that are followed by a break: element i of mc becomes
    op(ma[i], mb[i]). *)
Definition shape_mismatch (ma mb mc : mref) : bool :=
  negb (rrows ma =? rrows mb)%nat || negb (rrows mb =? rrows mc)%nat
  || negb (rcols ma =? rcols mb)%nat || negb (rcols mb =? rcols mc)%nat.

Definition mtx_zip_st (op : T -> T -> outcome T) (st : store T) (ma mb mc : mref)
  : outcome (Z * store T) :=
  if bc && shape_mismatch ma mb mc then Ok ((- EINVAL)%Z, st)
  else
    let! st' := for_ (rcols ma * rrows ma) 0 (fun i st =>
                  let! a := srd st (mptr ma) i in
                  let! b := srd st (mptr mb) i in
                  let! c := op a b in
                  swr st (mptr mc) i c) st in
    Ok (0%Z, st').

Definition op_add (a b : T) : outcome T := Ok (a + b).
Definition op_sub (a b : T) : outcome T := Ok (a - b).
Definition op_mult (a b : T) : outcome T := Ok (a * b).
Definition op_div (a b : T) : outcome T := if b =? f0 then Ok f0 else fdiv a b.

(** Three distinct matrices *)
Definition mtx_zip (op : T -> T -> outcome T) (ma mb mc : mtx T) : outcome (Z * mtx T) :=
  let! (rc, st) := mtx_zip_st op [mbuf ma; mbuf mb; mbuf mc]
       (MR (mrows ma) (mcols ma) 0) (MR (mrows mb) (mcols mb) 1) (MR (mrows mc) (mcols mc) 2) in
  Ok (rc, Mtx (mrows mc) (mcols mc) (nth 2 st [])).

(** Output is the first operand *)
Definition mtx_zip_d (op : T -> T -> outcome T) (ma mb : mtx T) : outcome (Z * mtx T) :=
  let ra := MR (mrows ma) (mcols ma) 0 in
  let! (rc, st) := mtx_zip_st op [mbuf ma; mbuf mb] ra (MR (mrows mb) (mcols mb) 1) ra in
  Ok (rc, Mtx (mrows ma) (mcols ma) (nth 0 st [])).

(** zsl_mtx_add, add_d, sub, sub_d, src/matrices.c:374-384, 421-431 *)
Definition mtx_add := mtx_zip op_add.
Definition mtx_add_d := mtx_zip_d op_add.
Definition mtx_sub := mtx_zip op_sub.
Definition mtx_sub_d := mtx_zip_d op_sub.

(** zsl_mtx_sum_rows_d, src/matrices.c:386-401 *)
Definition mtx_sum_rows_d (m : mtx T) (i j : nat) : outcome (Z * mtx T) :=
  if bc && ((mrows m <=? i)%nat || (mrows m <=? j)%nat) then Ok ((- EINVAL)%Z, m)
  else
    let! b := for_ (mcols m) 0 (fun x b =>
                let! a := rd b (i * mcols m + x) in
                let! c := rd b (j * mcols m + x) in
                wr b (i * mcols m + x) (a + c)) (mbuf m) in
    Ok (0%Z, Mtx (mrows m) (mcols m) b).

(** zsl_mtx_sum_rows_scaled_d, src/matrices.c:403-419.  The second guard
    compares the row index j with sz_cols. *)
Definition mtx_sum_rows_scaled_d (m : mtx T) (i j : nat) (s : T) : outcome (Z * mtx T) :=
  if bc && ((mrows m <=? i)%nat || (mcols m <=? j)%nat) then Ok ((- EINVAL)%Z, m)
  else
    let! b := for_ (mcols m) 0 (fun x b =>
                let! a := rd b (i * mcols m + x) in
                let! c := rd b (j * mcols m + x) in
                wr b (i * mcols m + x) (a + c * s)) (mbuf m) in
    Ok (0%Z, Mtx (mrows m) (mcols m) b).

(** The body of zsl_mtx_mult after its guards and copies,
    src/matrices.c:452-464: mc is written through a buffer; ma and mb are the
    local copies. *)
Definition mult_body (ma mb : mtx T) (cb : buf T) : outcome (buf T) :=
  for_ (mrows ma) 0 (fun i cb =>
    for_ (mcols mb) 0 (fun j cb =>
      let! cb := wr cb (j + i * mcols mb) f0 in
      for_ (mcols ma) 0 (fun k cb =>
        let! c := rd cb (j + i * mcols mb) in
        let! a := rd (mbuf ma) (k + i * mcols ma) in
        let! b := rd (mbuf mb) (j + k * mcols mb) in
        wr cb (j + i * mcols mb) (c + a * b)) cb) cb) cb.

(** zsl_mtx_mult, src/matrices.c:433-465.  The operands are copied before mc
    is written, so this also models calls where mc is ma or mb ([mtx_mult ma
    mb ma]). *)
Definition mtx_mult (ma mb mc : mtx T) : outcome (Z * mtx T) :=
  if bc && (negb (mcols ma =? mrows mb)%nat
            || negb (mrows mc =? mrows ma)%nat || negb (mcols mc =? mcols mb)%nat)
  then Ok ((- EINVAL)%Z, mc)
  else
    let! (_, ca) := mtx_copy (mtx_def (mrows ma) (mcols ma)) ma in
    let! (_, cb) := mtx_copy (mtx_def (mrows mb) (mcols mb)) mb in
    let! b := mult_body ca cb (mbuf mc) in
    Ok (0%Z, Mtx (mrows mc) (mcols mc) b).

(** zsl_mtx_mult_d, src/matrices.c:467-485: the result of zsl_mtx_mult is
    ignored *)
Definition mtx_mult_d (ma mb : mtx T) : outcome (Z * mtx T) :=
  if bc && (negb (mcols ma =? mrows mb)%nat || negb (mrows mb =? mcols mb)%nat)
  then Ok ((- EINVAL)%Z, ma)
  else
    let! (_, m) := mtx_mult ma mb ma in Ok (0%Z, m).

(** zsl_mtx_scalar_mult_d, src/matrices.c:487-495 *)
Definition mtx_scalar_mult_d (m : mtx T) (s : T) : outcome (Z * mtx T) :=
  let! b := for_ (mrows m * mcols m) 0 (fun i b =>
              let! a := rd b i in wr b i (a * s)) (mbuf m) in
  Ok (0%Z, Mtx (mrows m) (mcols m) b).

(** zsl_mtx_scalar_mult_row_d, src/matrices.c:497-511 *)
Definition mtx_scalar_mult_row_d (m : mtx T) (i : nat) (s : T) : outcome (Z * mtx T) :=
  if bc && (mrows m <=? i)%nat then Ok ((- EINVAL)%Z, m)
  else
    let! b := for_ (mcols m) 0 (fun k b =>
                let! a := rd b (i * mcols m + k) in
                wr b (i * mcols m + k) (a * s)) (mbuf m) in
    Ok (0%Z, Mtx (mrows m) (mcols m) b).

(** zsl_mtx_trans, src/matrices.c:513-531, distinct matrices.  Return codes of
    get_row and set_col are ignored. *)
Definition mtx_trans (ma mb : mtx T) : outcome (Z * mtx T) :=
  if bc && (negb (mrows ma =? mcols mb)%nat || negb (mcols ma =? mrows mb)%nat)
  then Ok ((- EINVAL)%Z, mb)
  else
    let! (mb', _) := for_ (mrows ma) 0 (fun i '(mb, d) =>
                       let! (_, d) := mtx_get_row ma i d in
                       let! (_, mb) := mtx_set_col mb i d in
                       Ok (mb, d)) (mb, fresh (mcols ma)) in
    Ok (0%Z, mb').

(** zsl_mtx_trans(m, m): the same matrix is read and written *)
Definition mtx_trans_self (m : mtx T) : outcome (Z * mtx T) :=
  if bc && negb (mrows m =? mcols m)%nat then Ok ((- EINVAL)%Z, m)
  else
    let! (m', _) := for_ (mrows m) 0 (fun i '(m, d) =>
                       let! (_, d) := mtx_get_row m i d in
                       let! (_, m) := mtx_set_col m i d in
                       Ok (m, d)) (m, fresh (mcols m)) in
    Ok (0%Z, m').

(** zsl_mtx_adjoint_3x3, src/matrices.c:533-569, over a store: pm and pa may
    be the same buffer *)
Definition adjoint_3x3_st (st : store T) (m ma : mref) : outcome (Z * store T) :=
  if negb (rrows m =? rcols m)%nat || negb (rrows ma =? rcols ma)%nat
  then Ok ((- EINVAL)%Z, st)
  else if bc && (negb (rrows m =? 3)%nat || negb (rrows ma =? 3)%nat)
  then Ok ((- EINVAL)%Z, st)
  else
    let step (st : store T) '(k, (a, b), (c, d)) :=
      let! xa := srd st (mptr m) a in
      let! xb := srd st (mptr m) b in
      let! xc := srd st (mptr m) c in
      let! xd := srd st (mptr m) d in
      swr st (mptr ma) k (xa * xb - xc * xd) in
    let! st := step st (0, (4, 8), (7, 5)) in
    let! st := step st (1, (7, 2), (1, 8)) in
    let! st := step st (2, (1, 5), (4, 2)) in
    let! st := step st (3, (6, 5), (3, 8)) in
    let! st := step st (4, (0, 8), (6, 2)) in
    let! st := step st (5, (3, 2), (0, 5)) in
    let! st := step st (6, (3, 7), (6, 4)) in
    let! st := step st (7, (6, 1), (0, 7)) in
    let! st := step st (8, (0, 4), (3, 1)) in
    Ok (0%Z, st).

Definition mtx_adjoint_3x3 (m ma : mtx T) : outcome (Z * mtx T) :=
  let! (rc, st) := adjoint_3x3_st [mbuf m; mbuf ma]
                     (MR (mrows m) (mcols m) 0) (MR (mrows ma) (mcols ma) 1) in
  Ok (rc, Mtx (mrows ma) (mcols ma) (nth 1 st [])).

(** zsl_mtx_reduce, src/matrices.c:644-677.  With m->sz_rows = 0 the number
    m->sz_rows - 1 is SIZE_MAX, which no matrix has as its number of rows.
    State of the loop: u, x, v. *)
Definition mtx_reduce (m mr : mtx T) (i j : nat) : outcome (Z * mtx T) :=
  if bc && (negb (S (mrows mr) =? mrows m)%nat || negb (S (mcols mr) =? mcols m)%nat
            || (mrows m <=? i)%nat || (mcols m <=? j)%nat)
  then Ok ((- EINVAL)%Z, mr)
  else
    let! (_, _, v) := for_ (mrows m) 0 (fun k s =>
        for_ (mrows m) 0 (fun g '(u, x, v) =>
          if negb (k =? i)%nat && negb (g =? j)%nat then
            let! x := lget m k g x in
            let! y := lval x in
            let! v := wr v u y in
            Ok (S u, x, v)
          else Ok (u, x, v)) s) (0, None, fresh (mrows mr * mrows mr)) in
    let! (_, mr) := mtx_from_arr mr v in
    Ok (0%Z, mr).

(** zsl_mtx_reduce_iter, src/matrices.c:679-712: returns the code and the new
    mred, place1, place2.  place1 is never empty when rows are removed
    (otherwise sz_rows - 1 wraps). *)
Definition mtx_reduce_iter (m mred place1 place2 : mtx T)
  : outcome (Z * (mtx T * mtx T * mtx T)) :=
  let! place1 :=
    if (mrows m =? mrows place1)%nat then let! (_, p) := mtx_copy place1 m in Ok p
    else Ok place1 in
  if (mrows place1 =? mrows mred)%nat then
    let! (_, mred) := mtx_copy mred place1 in
    Ok (0%Z, (mred, Mtx (mrows m) (mcols m) (mbuf place1), Mtx (mrows m) (mcols m) (mbuf place2)))
  else
    match mrows place1, mcols place1 with
    | S r, S c =>
        let place2 := Mtx r c (mbuf place2) in
        let! (_, place2) := mtx_reduce place1 place2 0 0 in
        let place1 := Mtx r c (mbuf place1) in
        let! (_, place1) := mtx_copy place1 place2 in
        Ok ((- EAGAIN)%Z, (mred, place1, place2))
    | _, _ => UB OOBRead
    end.

(** zsl_mtx_augm_diag, src/matrices.c:714-730.  When maug is the smaller
    matrix, diff wraps: rows i below the deficit get a huge index (rejected by
    the bounds checks, out of bounds without them), the others are shifted. *)
Definition mtx_augm_diag (m maug : mtx T) : outcome (Z * mtx T) :=
  let! (_, maug) := mtx_init maug (Some entry_fn_identity) in
  let def := (mrows m - mrows maug)%nat in
  let pos i := if (mrows maug <? mrows m)%nat
               then if (i <? def)%nat then None else Some (i - def)%nat
               else Some (i + (mrows maug - mrows m))%nat in
  let! (maug, _) := for_ (mrows m) 0 (fun i s =>
      for_ (mrows m) 0 (fun j '(maug, x) =>
        let! x := lget m i j x in
        let! v := lval x in
        match pos i, pos j with
        | Some i', Some j' => let! (_, maug) := mtx_set maug i' j' v in Ok (maug, x)
        | _, _ => if bc then Ok (maug, x) else UB OOBWrite
        end) s) (maug, None) in
  Ok (0%Z, maug).

(** zsl_mtx_deter_3x3, src/matrices.c:732-760.  [None]: *d not written. *)
Definition mtx_deter_3x3 (m : mtx T) : outcome (Z * option T) :=
  if negb (mrows m =? mcols m)%nat then Ok ((- EINVAL)%Z, None)
  else if bc && negb (mrows m =? 3)%nat then Ok ((- EINVAL)%Z, None)
  else
    let g := rd (mbuf m) in
    let! m0 := g 0 in let! m1 := g 1 in let! m2 := g 2 in
    let! m3 := g 3 in let! m4 := g 4 in let! m5 := g 5 in
    let! m6 := g 6 in let! m7 := g 7 in let! m8 := g 8 in
    let d := m0 * (m4 * m8 - m7 * m5) in
    let d := d - m3 * (m1 * m8 - m7 * m2) in
    let d := d + m6 * (m1 * m5 - m4 * m2) in
    Ok (0%Z, Some d).

(** zsl_mtx_deter, src/matrices.c:762-825.  [fuel] bounds the recursion depth;
    the minors are one smaller each time, so the number of rows is enough.
    A matrix with no rows: nothing is computed and *d = 0 if it has no
    columns either. *)
Fixpoint deter_f (fuel : nat) (m : mtx T) : outcome (Z * option T) :=
  match mrows m with
  | 1 => let! x := rd (mbuf m) 0 in Ok (0%Z, Some x)
  | 2 =>
      let! m0 := rd (mbuf m) 0 in
      let! m3 := rd (mbuf m) 3 in
      let! m2 := rd (mbuf m) 2 in
      let! m1 := rd (mbuf m) 1 in
      Ok (0%Z, Some (m0 * m3 - m2 * m1))
  | 3 => mtx_deter_3x3 m
  | O =>
      if (mcols m =? 0)%nat then Ok (0%Z, Some f0)
      else if bc then Ok ((- EINVAL)%Z, None) else UB OOBRead
  | S n' =>
      if bc && negb (mrows m =? mcols m)%nat then Ok ((- EINVAL)%Z, None)
      else
        match fuel with
        | O => OutOfFuel
        | S fuel' =>
            let! r := for_exit (mcols m) 0 (fun g '(d, mr, cur) =>
                let! cur := lget m 0 g cur in
                let! (_, mr) := mtx_init mr None in
                let! (_, mr) := mtx_reduce m mr 0 g in
                let! (rc, dtmp) := deter_f fuel' mr in
                if negb (rc =? 0)%Z then Ok (inr ((- EINVAL)%Z, Some d))
                else
                  let! dt := lval dtmp in
                  let! c := lval cur in
                  let sign := if Nat.even g then f1 else - f1 in
                  Ok (inl (d + dt * c * sign, mr, cur)))
              (f0, mtx_def n' n', None) in
            Ok (match r with inl (d, _, _) => (0%Z, Some d) | inr e => e end)
        end
  end.

Definition mtx_deter (m : mtx T) : outcome (Z * option T) := deter_f (mrows m) m.

(** zsl_mtx_adjoint, src/matrices.c:571-604; ma is a distinct matrix.  State:
    ma, the local minor mr and d. *)
Definition mtx_adjoint (m ma : mtx T) : outcome (Z * mtx T) :=
  if (mrows m =? 3)%nat then mtx_adjoint_3x3 m ma
  else if bc && negb (mrows m =? mcols m)%nat then Ok ((- EINVAL)%Z, ma)
  else
    let c1 := (mcols m - 1)%nat in          (* only used when sz_cols > 0 *)
    let! (ma, _, _) := for_ (mcols m) 0 (fun i s =>
        for_ (mcols m) 0 (fun j '(ma, mr, d) =>
          let sign := if Nat.even (i + j) then f1 else - f1 in
          let! (_, mr) := mtx_reduce m mr i j in
          let! (_, d') := mtx_deter mr in
          let! d := lval (match d' with Some v => Some v | None => d end) in
          let d := d * sign in
          let! (_, ma) := mtx_set ma i j d in
          Ok (ma, mr, Some d)) s) (ma, mtx_def c1 c1, None) in
    Ok (0%Z, ma).

(** "(x >= 0 && x < epsilon) || (x <= 0 && x > -epsilon)", epsilon = 1E-6 *)
Definition is_tiny (x : T) : bool :=
  ((x >=? f0) && (x <? flit 1 6)) || ((x <=? f0) && (x >? - flit 1 6)).

(** "(x >= 1E-6) || (x <= -1E-6)" *)
Definition is_big (x : T) : bool := (x >=? flit 1 6) || (x <=? - flit 1 6).

(** The part of zsl_mtx_gauss_elim after the copy, src/matrices.c:842-876.
    The C loop skips row i by incrementing p inside the body, i.e. it visits
    the rows p <> i in order.  Answers the code, mg and mi. *)
Definition gauss_elim_body (mg mi : mtx T) (i j : nat) : outcome (Z * (mtx T * mtx T)) :=
  let! (rc, y) := mtx_get mg i j in
  match y with
  | None => Ok (rc, (mg, mi))
  | Some y =>
      if is_tiny y then Ok (0%Z, (mg, mi))
      else
        let! r := for_exit (mrows mg) 0 (fun p '(mg, mi, x) =>
            if (p =? i)%nat then Ok (inl (mg, mi, x))
            else
              let! x := lget mg p j x in
              let! xv := lval x in
              if is_big xv then
                let! q := fdiv xv y in
                let! (rc, mg) := mtx_sum_rows_scaled_d mg p i (- q) in
                if negb (rc =? 0)%Z then Ok (inr ((- EINVAL)%Z, (mg, mi)))
                else
                  let! (rc, mi) := mtx_sum_rows_scaled_d mi p i (- q) in
                  if negb (rc =? 0)%Z then Ok (inr ((- EINVAL)%Z, (mg, mi)))
                  else Ok (inl (mg, mi, x))
              else Ok (inl (mg, mi, x))) (mg, mi, None) in
        Ok (match r with inl (mg, mi, _) => (0%Z, (mg, mi)) | inr e => e end)
  end.

(** zsl_mtx_gauss_elim, src/matrices.c:827-877 *)
Definition mtx_gauss_elim (m mg mi : mtx T) (i j : nat) : outcome (Z * (mtx T * mtx T)) :=
  let! (rc, mg) := mtx_copy mg m in
  if negb (rc =? 0)%Z then Ok ((- EINVAL)%Z, (mg, mi)) else gauss_elim_body mg mi i j.

(** zsl_mtx_gauss_elim_d, src/matrices.c:879-883: m is copied onto itself *)
Definition mtx_gauss_elim_d (m mi : mtx T) (i j : nat) : outcome (Z * (mtx T * mtx T)) :=
  mtx_gauss_elim m m mi i j.

(** The part of zsl_mtx_norm_elem after the copy, src/matrices.c:997-1018 *)
Definition norm_elem_body (mn mi : mtx T) (i j : nat) : outcome (Z * (mtx T * mtx T)) :=
  let! (rc, x) := mtx_get mn i j in
  match x with
  | None => Ok (rc, (mn, mi))
  | Some x =>
      if is_tiny x then Ok (0%Z, (mn, mi))
      else
        let! s := fdiv f1 x in
        let! (rc, mn) := mtx_scalar_mult_row_d mn i s in
        if negb (rc =? 0)%Z then Ok ((- EINVAL)%Z, (mn, mi))
        else
          let! (rc, mi) := mtx_scalar_mult_row_d mi i s in
          if negb (rc =? 0)%Z then Ok ((- EINVAL)%Z, (mn, mi))
          else Ok (0%Z, (mn, mi))
  end.

(** zsl_mtx_norm_elem, src/matrices.c:983-1019 *)
Definition mtx_norm_elem (m mn mi : mtx T) (i j : nat) : outcome (Z * (mtx T * mtx T)) :=
  let! (rc, mn) := mtx_copy mn m in
  if negb (rc =? 0)%Z then Ok ((- EINVAL)%Z, (mn, mi)) else norm_elem_body mn mi i j.

(** zsl_mtx_norm_elem_d, src/matrices.c:1021-1025 *)
Definition mtx_norm_elem_d (m mi : mtx T) (i j : nat) : outcome (Z * (mtx T * mtx T)) :=
  mtx_norm_elem m m mi i j.

(** zsl_mtx_gauss_reduc, src/matrices.c:885-938.  Answers the code, mi, mg. *)
Definition mtx_gauss_reduc (m mi mg : mtx T) : outcome (Z * (mtx T * mtx T)) :=
  let! (_, mg) := mtx_copy mg m in
  let! (mi, mg, _, _, _) := for_ (mrows m) 0 (fun k '(mi, mg, v, x, y) =>
      let! x := lget mg k k x in
      let! xv := lval x in
      let! (mi, mg, v, y) :=
        if is_tiny xv then
          let! (_, v) := mtx_get_col mg k v in
          let! r := for_exit (mrows m) 0 (fun q y =>
              let! y := lget mg q q y in
              let! vq := rd v q in
              if is_big vq then
                let! keep := if (q <? k)%nat then let! yv := lval y in Ok (is_big yv)
                             else Ok false in
                if (keep : bool) then Ok (inl y)
                else
                  let! (_, mg) := mtx_sum_rows_d mg k q in
                  let! (_, mi) := mtx_sum_rows_d mi k q in
                  Ok (inr (mi, mg, y))
              else Ok (inl y)) y in
          Ok (match r with
              | inl y => (mi, mg, v, y)
              | inr (mi, mg, y) => (mi, mg, v, y)
              end)
        else Ok (mi, mg, v, y) in
      let! (_, (mg, mi)) := mtx_gauss_elim_d mg mi k k in
      let! (_, (mg, mi)) := mtx_norm_elem_d mg mi k k in
      Ok (mi, mg, v, x, y)) (mi, mg, fresh (mrows m), None, None) in
  Ok (0%Z, (mi, mg)).

(** zsl_mtx_inv_3x3, src/matrices.c:1027-1080, distinct matrices *)
Definition mtx_inv_3x3 (m mi : mtx T) : outcome (Z * mtx T) :=
  if negb (mrows m =? mcols m)%nat || negb (mrows mi =? mcols mi)%nat
  then Ok ((- EINVAL)%Z, mi)
  else if bc && (negb (mrows m =? mrows mi)%nat || negb (mcols m =? mcols mi)%nat
                 || negb (mcols m =? 3)%nat || negb (mcols mi =? 3)%nat)
  then Ok ((- EINVAL)%Z, mi)
  else
    let! (rc, d) := mtx_deter_3x3 m in
    if negb (rc =? 0)%Z then Ok (rc, mi)
    else
      let! (rc, mi) := mtx_adjoint_3x3 m mi in
      if negb (rc =? 0)%Z then Ok (rc, mi)
      else
        let! d := lval d in
        if fne d f0 then
          let! s := fdiv f1 d in
          let! (_, mi) := mtx_scalar_mult_d mi s in
          Ok (0%Z, mi)
        else
          let! (rc, mi) := mtx_init mi (Some entry_fn_identity) in
          if negb (rc =? 0)%Z then Ok ((- EINVAL)%Z, mi) else Ok (0%Z, mi).

(** zsl_mtx_inv, src/matrices.c:1082-1132, distinct matrices *)
Definition mtx_inv (m mi : mtx T) : outcome (Z * mtx T) :=
  if (mrows m =? 3)%nat then mtx_inv_3x3 m mi
  else if negb (mrows m =? mcols m)%nat || negb (mrows mi =? mcols mi)%nat
  then Ok ((- EINVAL)%Z, mi)
  else if bc && (negb (mrows m =? mrows mi)%nat || negb (mcols m =? mcols mi)%nat)
  then Ok ((- EINVAL)%Z, mi)
  else
    let! (rc, m_tmp) := mtx_copy (mtx_def (mrows mi) (mcols mi)) m in
    if negb (rc =? 0)%Z then Ok ((- EINVAL)%Z, mi)
    else
      let! (rc, mi) := mtx_init mi (Some entry_fn_identity) in
      if negb (rc =? 0)%Z then Ok ((- EINVAL)%Z, mi)
      else
        let! (_, d') := mtx_deter m in
        let d := match d' with Some v => v | None => f0 end in
        if d =? f0 then Ok (0%Z, mi)
        else
          let! (_, (mi, _)) := mtx_gauss_reduc m mi m_tmp in
          Ok (0%Z, mi).

(** zsl_mtx_vec_wedge, src/matrices.c:607-641 *)
Definition mtx_vec_wedge (m : mtx T) (v : vec T) : outcome (Z * vec T) :=
  if bc && (negb (vsz v =? mcols m)%nat || (vsz v <? 4)%nat || negb (S (mrows m) =? mcols m)%nat)
  then Ok ((- EINVAL)%Z, v)
  else
    let c := mcols m in
    let! (_, A) := mtx_init (mtx_def c c) None in
    let! ab := match (c * c)%nat with O => UB OOBWrite | S l => wr (mbuf A) l f1 end in
    let! (A, _) := for_ (mrows m) 0 (fun i '(A, av) =>
        let! (_, av) := mtx_get_row m i av in
        let! (_, A) := mtx_set_row A i av in
        Ok (A, av)) (Mtx c c ab, fresh c) in
    let! (_, d) := mtx_deter A in
    let! (_, Ai) := mtx_inv A (mtx_def c c) in
    let! (_, b) := mtx_init (mtx_def c 1) None in
    let! dv := lval d in
    let! bb := wr (mbuf b) (c - 1) dv in
    let! (_, b) := mtx_mult Ai (Mtx c 1 bb) (Mtx c 1 bb) in
    let! (_, v) := vec_from_arr v (mbuf b) in
    Ok (0%Z, v).

(** zsl_mtx_min, max, src/matrices.c:1806-1836 *)
Definition mtx_extreme (better : T -> T -> bool) (m : mtx T) : outcome (Z * T) :=
  let! x0 := rd (mbuf m) 0 in
  let! x := for_ (mcols m * mrows m) 0 (fun i best =>
              let! a := rd (mbuf m) i in
              if better a best then Ok a else Ok best) x0 in
  Ok (0%Z, x).
Definition mtx_min := mtx_extreme flt.
Definition mtx_max := mtx_extreme fgt.

(** zsl_mtx_min_idx, max_idx, src/matrices.c:1838-1878 *)
Definition mtx_extreme_idx (better : T -> T -> bool) (m : mtx T) : outcome (Z * (nat * nat)) :=
  let! x0 := rd (mbuf m) 0 in
  let! (_, ij) := for_ (mrows m) 0 (fun i s =>
      for_ (mcols m) 0 (fun j '(best, ij) =>
        let! a := rd (mbuf m) (i * mcols m + j) in
        if better a best then Ok (a, (i, j)) else Ok (best, ij)) s) (x0, (0, 0)) in
  Ok (0%Z, ij).
Definition mtx_min_idx := mtx_extreme_idx flt.
Definition mtx_max_idx := mtx_extreme_idx fgt.

(** zsl_mtx_is_equal, src/matrices.c:1880-1894: memcmp over sz_rows + sz_cols
    elements.  memcmp stops at the first difference it sees; reading an
    indeterminate or missing element before that is undefined. *)
Definition mtx_is_equal (ma mb : mtx T) : outcome bool :=
  if negb (mrows ma =? mrows mb)%nat || negb (mcols ma =? mcols mb)%nat then Ok false
  else
    let! r := for_exit (mrows ma + mcols ma) 0 (fun i (_ : unit) =>
                let! a := rd (mbuf ma) i in
                let! b := rd (mbuf mb) i in
                if fbits a b then Ok (inl tt) else Ok (inr false)) tt in
    Ok (match r with inl _ => true | inr x => x end).

(** zsl_mtx_is_notneg, src/matrices.c:1896-1906 *)
Definition mtx_is_notneg (m : mtx T) : outcome bool :=
  let! r := for_exit (mrows m * mcols m) 0 (fun i (_ : unit) =>
              let! a := rd (mbuf m) i in
              if a <? f0 then Ok (inr false) else Ok (inl tt)) tt in
  Ok (match r with inl _ => true | inr x => x end).

(** zsl_mtx_is_sym, src/matrices.c:1908-1928; x and y are locals that keep
    their value when zsl_mtx_get fails *)
Definition mtx_is_sym (m : mtx T) : outcome bool :=
  let! r := for_exit (mrows m) 0 (fun i s =>
      for_exit (mcols m) 0 (fun j '(x, y) =>
        let! x := lget m i j x in
        let! y := lget m j i y in
        let! xv := lval x in
        let! yv := lval y in
        let diff := xv - yv in
        if (diff >=? flit 1 6) || (diff <=? - flit 1 6) then Ok (inr false)
        else Ok (inl (x, y))) s) (None, None) in
  Ok (match r with inl _ => true | inr x => x end).

End Mtx.

(** ** Component-wise operations selected by an opcode *)
Section MtxOps.
Context {T : Type} {N : Num T} {M : NumM T}.
Variable bc : bool.

(** zsl_mtx_unary_op_t, include/zsl/matrices.h:81-102; [UOther] is any other
    value of the enumeration's integer type *)
Inductive unop : Type :=
| UIncr | UDecr | UNeg | URound | UAbs | UFloor | UCeil | UExp | ULog | ULog10
| USqrt | USin | UCos | UTan | UAsin | UAcos | UAtan | USinh | UCosh | UTanh | UOther.

(** The switch of zsl_mtx_unary_op, src/matrices.c:195-258 *)
Definition unop_fun (op : unop) : option (T -> outcome T) :=
  match op with
  | UIncr => Some (fun x => Ok (x + f1))
  | UDecr => Some (fun x => Ok (x - f1))
  | UNeg => Some (fun x => Ok (- x))
  | URound => Some (fun x => Ok (fround x))
  | UAbs => Some (fun x => Ok (fabs x))
  | UFloor => Some (fun x => Ok (ffloor x))
  | UCeil => Some (fun x => Ok (fceil x))
  | UExp => Some (fun x => Ok (fexp x))
  | ULog => Some flog
  | ULog10 => Some flog10
  | USqrt => Some fsqrt
  | USin => Some (fun x => Ok (fsin x))
  | UCos => Some (fun x => Ok (fcos x))
  | UTan => Some ftan
  | UAsin => Some fasin
  | UAcos => Some facos
  | UAtan => Some (fun x => Ok (fatan x))
  | USinh => Some (fun x => Ok (fsinh x))
  | UCosh => Some (fun x => Ok (fcosh x))
  | UTanh => Some (fun x => Ok (ftanh x))
  | UOther => None
  end.

(** zsl_mtx_unary_op, src/matrices.c:190-263 *)
Definition mtx_unary_op (m : mtx T) (op : unop) : outcome (Z * mtx T) :=
  let! r := for_exit (mcols m * mrows m) 0 (fun i b =>
      match unop_fun op with
      | None => Ok (inr b)
      | Some f =>
          let! a := rd b i in
          let! y := f a in
          let! b := wr b i y in
          Ok (inl b)
      end) (mbuf m) in
  Ok (match r with
      | inl b => (0%Z, Mtx (mrows m) (mcols m) b)
      | inr b => ((- ENOSYS)%Z, Mtx (mrows m) (mcols m) b)
      end).

(** zsl_mtx_binary_op_t, include/zsl/matrices.h:105-120 *)
Inductive binop : Type :=
| BAdd | BSub | BMult | BDiv
| BMean | BExpon | BMin | BMax | BEqual | BNequal | BLess | BGreat | BLeq | BGeq | BOther.

Definition b2f (b : bool) : T := if b then f1 else f0.

(** The case labels without a break, src/matrices.c:315-339: entering at one
    of them runs all the following ones and ends in the default branch. *)
Definition fallthrough : list (binop * (T -> T -> outcome T)) :=
  [ (BMean, fun a b => fdiv (a + b) (flit 2 0));
    (BExpon, fpow);
    (BMin, fun a b => Ok (if a <? b then a else b));
    (BMax, fun a b => Ok (if a >? b then a else b));
    (BEqual, fun a b => Ok (b2f (a =? b)));
    (BNequal, fun a b => Ok (b2f (negb (a =? b))));
    (BLess, fun a b => Ok (b2f (a <? b)));
    (BGreat, fun a b => Ok (b2f (a >? b)));
    (BLeq, fun a b => Ok (b2f (a <=? b)));
    (BGeq, fun a b => Ok (b2f (a >=? b))) ].

Definition binop_rank (op : binop) : nat :=
  match op with
  | BAdd => 0 | BSub => 1 | BMult => 2 | BDiv => 3
  | BMean => 4 | BExpon => 5 | BMin => 6 | BMax => 7 | BEqual => 8 | BNequal => 9
  | BLess => 10 | BGreat => 11 | BLeq => 12 | BGeq => 13 | BOther => 14
  end.

Fixpoint run_cases (l : list (binop * (T -> T -> outcome T))) (st : store T) (pa pb pc : nat)
  : outcome (store T) :=
  match l with
  | [] => Ok st
  | (_, f) :: l' =>
      let! a := srd st pa 0 in
      let! b := srd st pb 0 in
      let! c := f a b in
      let! st := swr st pc 0 c in
      run_cases l' st pa pb pc
  end.

(** zsl_mtx_binary_op, src/matrices.c:285-344.  The operations without a
    break return -ENOSYS in the first iteration (i = 0); with no elements at
    all the loop does not run and 0 is returned. *)
Definition mtx_binary_op_st (st : store T) (ma mb mc : mref) (op : binop)
  : outcome (Z * store T) :=
  match op with
  | BAdd => mtx_zip_st bc op_add st ma mb mc
  | BSub => mtx_zip_st bc op_sub st ma mb mc
  | BMult => mtx_zip_st bc op_mult st ma mb mc
  | BDiv => mtx_zip_st bc op_div st ma mb mc
  | _ =>
      if bc && shape_mismatch ma mb mc then Ok ((- EINVAL)%Z, st)
      else if ((rcols ma * rrows ma)%nat =? 0)%nat then Ok (0%Z, st)
      else
        let! st := run_cases (skipn (binop_rank op - 4) fallthrough) st (mptr ma) (mptr mb) (mptr mc) in
        Ok ((- ENOSYS)%Z, st)
  end.

Definition mtx_binary_op (ma mb mc : mtx T) (op : binop) : outcome (Z * mtx T) :=
  let! (rc, st) := mtx_binary_op_st [mbuf ma; mbuf mb; mbuf mc]
       (MR (mrows ma) (mcols ma) 0) (MR (mrows mb) (mcols mb) 1) (MR (mrows mc) (mcols mc) 2) op in
  Ok (rc, Mtx (mrows mc) (mcols mc) (nth 2 st [])).

End MtxOps.
