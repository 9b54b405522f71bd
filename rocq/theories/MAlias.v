(** Model of calls whose output object is one of the operands: the same code
    as in MVec.v and MMtx.v, with a single object read and written. *)
From Coq Require Import List Arith ZArith Bool.
From Verif Require Import Base MVec MMtx.
Import ListNotations.
Set Implicit Arguments.
Local Open Scope num_scope.

Section Alias.
Context {T : Type} {N : Num T}.
Variable bc : bool.

(** "for (k = 0; k < zsl_vec_contains(v, u.data[i], 1E-5); k++)" with w = v,
    src/vectors.c:506-509: the bound is computed again before every step, from
    the vector being written.  Each step makes one more element of v lie within
    1E-5 of x, so [vsz v + 1] steps are enough. *)
Fixpoint sort_self_reps (fuel k : nat) (n : nat) (b : buf T) (x : T) (count2 : nat)
  : outcome (buf T * nat) :=
  let! reps := vec_contains (Vec n b) x (flit 1 5) in
  if (k <? reps)%nat then
    match fuel with
    | O => OutOfFuel
    | S fuel =>
        let! b := wr b count2 x in
        sort_self_reps fuel (S k) n b x (S count2)
    end
  else Ok (b, count2).

(** zsl_vec_sort(v, v), src/vectors.c:475-513 *)
Definition vec_sort_self (fuel : nat) (ghost : option T) (v : vec T) : outcome (Z * vec T) :=
  let! (_, u) := vec_init (Vec (vsz v) (fresh (vsz v))) in
  let! (u, count) := for_ (vsz v) 0 (fun j '(u, count) =>
      let! a := rd (vbuf v) j in
      if (a >=? flit 1 5) || (a <=? flit 1 5) then
        let! c := vec_contains u a (flit 1 5) in
        if (c =? 0)%nat then
          let! b := wr (vbuf u) count a in
          Ok (Vec (vsz u) b, S count)
        else Ok (u, count)
      else Ok (u, count)) (u, 0) in
  let! c := vec_contains v f0 (flit 1 5) in
  let count := if (0 <? c)%nat then S count else count in
  match count with
  | O => UB OOBRead
  | S high =>
      let! ub := vec_quicksort fuel ghost (vbuf u) 0 high in
      let! (vb, _) := for_ count 0 (fun i '(vb, count2) =>
          let! x := rd ub i in
          sort_self_reps (S (vsz v)) 0 (vsz v) vb x count2) (vbuf v, 0) in
      Ok (0%Z, Vec (vsz v) vb)
  end.

(** zsl_mtx_adjoint_3x3(m, m), src/matrices.c:533-569 *)
Definition mtx_adjoint_3x3_self (m : mtx T) : outcome (Z * mtx T) :=
  let r := MR (mrows m) (mcols m) 0 in
  let! (rc, st) := adjoint_3x3_st bc [mbuf m] r r in
  Ok (rc, Mtx (mrows m) (mcols m) (nth 0 st [])).

(** zsl_mtx_adjoint(m, m), src/matrices.c:571-604.  State: m, the local minor
    mr and d. *)
Definition mtx_adjoint_self (m : mtx T) : outcome (Z * mtx T) :=
  if (mrows m =? 3)%nat then mtx_adjoint_3x3_self m
  else if bc && negb (mrows m =? mcols m)%nat then Ok ((- EINVAL)%Z, m)
  else
    let c1 := (mcols m - 1)%nat in          (* only used when sz_cols > 0 *)
    let! (m, _, _) := for_ (mcols m) 0 (fun i s =>
        for_ (mcols m) 0 (fun j '(m, mr, d) =>
          let sign := if Nat.even (i + j) then f1 else - f1 in
          let! (_, mr) := mtx_reduce bc m mr i j in
          let! (_, d') := mtx_deter bc mr in
          let! d := lval (match d' with Some v => Some v | None => d end) in
          let d := d * sign in
          let! (_, m) := mtx_set bc m i j d in
          Ok (m, mr, Some d)) s) (m, mtx_def c1 c1, None) in
    Ok (0%Z, m).

(** zsl_mtx_inv_3x3(m, m), src/matrices.c:1027-1080: the shapes agree *)
Definition mtx_inv_3x3_self (m : mtx T) : outcome (Z * mtx T) :=
  if negb (mrows m =? mcols m)%nat then Ok ((- EINVAL)%Z, m)
  else if bc && negb (mcols m =? 3)%nat then Ok ((- EINVAL)%Z, m)
  else
    let! (rc, d) := mtx_deter_3x3 bc m in
    if negb (rc =? 0)%Z then Ok (rc, m)
    else
      let! (rc, m) := mtx_adjoint_3x3_self m in
      if negb (rc =? 0)%Z then Ok (rc, m)
      else
        let! d := lval d in
        if fne d f0 then
          let! s := fdiv f1 d in
          let! (_, m) := mtx_scalar_mult_d m s in
          Ok (0%Z, m)
        else
          let! (rc, m) := mtx_init bc m (Some (entry_fn_identity bc)) in
          if negb (rc =? 0)%Z then Ok ((- EINVAL)%Z, m) else Ok (0%Z, m).

(** zsl_mtx_inv(m, m), src/matrices.c:1082-1132.  zsl_mtx_gauss_reduc reads m
    only to copy it, before mi is written. *)
Definition mtx_inv_self (m : mtx T) : outcome (Z * mtx T) :=
  if (mrows m =? 3)%nat then mtx_inv_3x3_self m
  else if negb (mrows m =? mcols m)%nat then Ok ((- EINVAL)%Z, m)
  else
    let! (rc, m_tmp) := mtx_copy bc (mtx_def (mrows m) (mcols m)) m in
    if negb (rc =? 0)%Z then Ok ((- EINVAL)%Z, m)
    else
      let! (rc, m) := mtx_init bc m (Some (entry_fn_identity bc)) in
      if negb (rc =? 0)%Z then Ok ((- EINVAL)%Z, m)
      else
        let! (_, d') := mtx_deter bc m in
        let d := match d' with Some v => v | None => f0 end in
        if d =? f0 then Ok (0%Z, m)
        else
          let! (_, (m, _)) := mtx_gauss_reduc bc m m m_tmp in
          Ok (0%Z, m).

End Alias.
