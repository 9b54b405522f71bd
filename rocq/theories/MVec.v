(** Model of src/vectors.c. *)
From Coq Require Import List Arith ZArith Bool.
From Verif Require Import Base.
Import ListNotations.
Set Implicit Arguments.
Local Open Scope num_scope.

Section Vec.
Context {T : Type} {N : Num T}.

(** CONFIG_ZSL_BOUNDS_CHECKS (Kconfig.zscilib, default y) *)
Variable bc : bool.

(** A vector whose elements live in buffer [rptr] of a store. *)
Record vref : Type := VR { rsz : nat; rptr : nat }.

(** zsl_vec_init, src/vectors.c:19-24 *)
Definition vec_init (v : vec T) : outcome (Z * vec T) :=
  let! b := zero_fill (vbuf v) (vsz v) in
  Ok (0%Z, Vec (vsz v) b).

(** zsl_vec_from_arr, src/vectors.c:26-31 *)
Definition vec_from_arr (v : vec T) (a : buf T) : outcome (Z * vec T) :=
  let! b := blit a 0 (vbuf v) 0 (vsz v) in
  Ok (0%Z, Vec (vsz v) b).

(** zsl_vec_copy, src/vectors.c:33-40, distinct vectors *)
Definition vec_copy (vdest vsrc : vec T) : outcome (Z * vec T) :=
  let! b := blit (vbuf vsrc) 0 (vbuf vdest) 0 (vsz vsrc) in
  Ok (0%Z, Vec (vsz vsrc) b).

(** zsl_vec_get_subset, src/vectors.c:42-68.  [W] is SIZE_MAX + 1; offset and
    len are the caller's size_t values, offset + len is computed modulo W. *)
Definition vec_get_subset (W : Z) (v : vec T) (offset len : Z) (vsub : vec T)
  : outcome (Z * vec T) :=
  let sz := Z.of_nat (vsz v) in
  let fin len :=
    let ssz := if (len <? Z.of_nat (vsz vsub))%Z then Z.to_nat len else vsz vsub in
    if (Z.of_nat (length (vbuf v)) <? offset + len)%Z then UB OOBRead else
    let! b := blit (vbuf v) (Z.to_nat offset) (vbuf vsub) 0 (Z.to_nat len) in
    Ok (0%Z, Vec ssz b) in
  if bc then
    if (sz <=? offset)%Z then Ok ((- EINVAL)%Z, vsub)
    else
      let len := if (sz <=? (offset + len) mod W)%Z then (sz - offset)%Z else len in
      if (Z.of_nat (vsz vsub) <? len)%Z then Ok ((- EINVAL)%Z, vsub)
      else fin len
  else fin len.

(** The common shape of zsl_vec_add and zsl_vec_sub: the three vectors are
    references into a store and may be the same object.
    src/vectors.c:71-85 (add), 88-102 (sub) *)
Definition vec_zip_st (op : T -> T -> T) (st : store T) (v w x : vref)
  : outcome (Z * store T) :=
  if bc && (negb (rsz v =? rsz w)%nat || negb (rsz v =? rsz x)%nat)
  then Ok ((- EINVAL)%Z, st)
  else
    let! st' := for_ (rsz v) 0 (fun i st =>
                  let! a := srd st (rptr v) i in
                  let! b := srd st (rptr w) i in
                  swr st (rptr x) i (op a b)) st in
    Ok (0%Z, st').

(** Distinct vectors: run on a store of three separate buffers. *)
Definition vec_zip (op : T -> T -> T) (v w x : vec T) : outcome (Z * vec T) :=
  let! (rc, st) := vec_zip_st op [vbuf v; vbuf w; vbuf x]
                     (VR (vsz v) 0) (VR (vsz w) 1) (VR (vsz x) 2) in
  Ok (rc, Vec (vsz x) (nth 2 st [])).

(** zsl_vec_add, src/vectors.c:71-85 *)
Definition vec_add_st := vec_zip_st fadd.
Definition vec_add := vec_zip fadd.
(** zsl_vec_sub, src/vectors.c:88-102 *)
Definition vec_sub_st := vec_zip_st fsub.
Definition vec_sub := vec_zip fsub.

(** In-place element-wise loop: for (i = 0; i < v->sz; i++) v->data[i] = f(v->data[i]) *)
Definition vec_map (f : T -> outcome T) (v : vec T) : outcome (vec T) :=
  let! b := for_ (vsz v) 0 (fun i b =>
              let! a := rd b i in
              let! y := f a in
              wr b i y) (vbuf v) in
  Ok (Vec (vsz v) b).

(** zsl_vec_neg, src/vectors.c:104-111 *)
Definition vec_neg (v : vec T) : outcome (Z * vec T) :=
  let! v' := vec_map (fun a => Ok (- a)) v in Ok (0%Z, v').

(** zsl_vec_scalar_add, src/vectors.c:144-151 *)
Definition vec_scalar_add (v : vec T) (s : T) : outcome (Z * vec T) :=
  let! v' := vec_map (fun a => Ok (a + s)) v in Ok (0%Z, v').

(** zsl_vec_scalar_mult, src/vectors.c:155-162 *)
Definition vec_scalar_mult (v : vec T) (s : T) : outcome (Z * vec T) :=
  let! v' := vec_map (fun a => Ok (a * s)) v in Ok (0%Z, v').

(** zsl_vec_scalar_div, src/vectors.c:166-178 *)
Definition vec_scalar_div (v : vec T) (s : T) : outcome (Z * vec T) :=
  if s =? f0 then Ok ((- EINVAL)%Z, v)
  else let! v' := vec_map (fun a => fdiv a s) v in Ok (0%Z, v').

(** zsl_vec_sum, src/vectors.c:113-141.  [v] is the array of vector pointers
    (n may differ from its length); w is a distinct vector. *)
Definition nth_vec (v : list (vec T)) (i : nat) : outcome (vec T) :=
  match nth_error v i with Some x => Ok x | None => UB OOBRead end.

Definition vec_sum (v : list (vec T)) (n : nat) (w : vec T) : outcome (Z * vec T) :=
  if (n =? 0)%nat then Ok ((- EINVAL)%Z, w)
  else
    let! v0 := nth_vec v 0 in
    let sz_last := vsz v0 in
    let! chk :=
      if bc then
        for_exit n 0 (fun i (_ : unit) =>
          let! vi := nth_vec v i in
          if negb (sz_last =? vsz vi)%nat then Ok (inr tt) else Ok (inl tt)) tt
      else Ok (inl tt) in
    match chk with
    | inr _ => Ok ((- EINVAL)%Z, w)
    | inl _ =>
        let! b := for_ n 0 (fun i b =>
                    let! vi := nth_vec v i in
                    for_ sz_last 0 (fun j b =>
                      let! a := rd b j in
                      let! c := rd (vbuf vi) j in
                      wr b j (a + c)) b) (vbuf w) in
        Ok (0%Z, Vec sz_last b)
    end.

(** zsl_vec_mean, src/vectors.c:312-332 *)
Definition vec_mean (v : list (vec T)) (n : nat) (m : vec T) : outcome (Z * vec T) :=
  let! bad :=
    if bc then let! v0 := nth_vec v 0 in Ok (negb (vsz m =? vsz v0)%nat)
    else Ok false in
  if (bad : bool) then Ok ((- EINVAL)%Z, m)
  else
    let! (rc, m') := vec_sum v n m in
    if negb (rc =? 0)%Z then Ok (rc, m')
    else
      let! s := fdiv f1 (fofZ (Z.of_nat n)) in
      let! (_, m'') := vec_scalar_mult m' s in
      Ok (0%Z, m'').

(** zsl_vec_dot, src/vectors.c:199-217.  [None] in the result: *d not written. *)
Definition vec_dot (v w : vec T) : outcome (Z * option T) :=
  if bc && negb (vsz v =? vsz w)%nat then Ok ((- EINVAL)%Z, None)
  else
    let! res := for_ (vsz v) 0 (fun i res =>
                  let! a := rd (vbuf v) i in
                  let! b := rd (vbuf w) i in
                  Ok (res + a * b)) f0 in
    Ok (0%Z, Some res).

(** zsl_vec_sum_of_sqrs, src/vectors.c:303-310 *)
Definition vec_sum_of_sqrs (v : vec T) : outcome T :=
  let! (_, d) := vec_dot v v in
  Ok (match d with Some x => x | None => f0 end).

(** zsl_vec_norm, src/vectors.c:219-228; v = NULL is [None] *)
Definition vec_norm_opt (v : option (vec T)) : outcome T :=
  match v with
  | None => Ok f0
  | Some v => let! s := vec_sum_of_sqrs v in fsqrt s
  end.
Definition vec_norm (v : vec T) : outcome T := vec_norm_opt (Some v).

(** zsl_vec_dist, src/vectors.c:181-197 *)
Definition vec_dist (v w : vec T) : outcome T :=
  let! (_, x) := vec_init (Vec (vsz v) (fresh (vsz v))) in
  let! (rc, x) := vec_sub v w x in
  if negb (rc =? 0)%Z then Ok fnan else vec_norm x.

(** zsl_vec_project, src/vectors.c:230-248, over a store (u and w, or v and w,
    may be the same vector).  memcpy of a buffer onto itself is modelled as
    leaving it unchanged. *)
Definition sdot (st : store T) (n : nat) (p q : nat) : outcome T :=
  for_ n 0 (fun i res =>
    let! a := srd st p i in
    let! b := srd st q i in
    Ok (res + a * b)) f0.

Definition vec_project_st (st : store T) (u v w : vref) : outcome (Z * store T) :=
  if bc && (negb (rsz v =? rsz w)%nat || negb (rsz v =? rsz u)%nat)
  then Ok ((- EINVAL)%Z, st)
  else
    let! st1 := sblit st (rptr u) 0 (rptr w) 0 (rsz u) in
    let! p := sdot st1 (rsz v) (rptr v) (rptr u) in
    let! t := sdot st1 (rsz u) (rptr u) (rptr u) in
    let! s := fdiv p t in
    let! st2 := for_ (rsz u) 0 (fun i st =>
                  let! a := srd st (rptr w) i in
                  swr st (rptr w) i (a * s)) st1 in
    Ok (0%Z, st2).

Definition vec_project (u v w : vec T) : outcome (Z * vec T) :=
  let! (rc, st) := vec_project_st [vbuf u; vbuf v; vbuf w]
                     (VR (vsz u) 0) (VR (vsz v) 1) (VR (vsz w) 2) in
  Ok (rc, Vec (if (rc =? 0)%Z then vsz u else vsz w) (nth 2 st [])).

(** zsl_vec_to_unit, src/vectors.c:250-271 *)
Definition vec_to_unit (v : vec T) : outcome (Z * vec T) :=
  let! norm := vec_norm v in
  if fne norm f0 then
    let! s := fdiv f1 norm in
    let! (_, v') := vec_scalar_mult v s in
    Ok (0%Z, v')
  else
    let! (_, v') := vec_init v in
    let! b := wr (vbuf v') 0 f1 in
    Ok (0%Z, Vec (vsz v') b).

(** zsl_vec_cross, src/vectors.c:273-301, over a store *)
Definition vec_cross_st (st : store T) (v w c : vref) : outcome (Z * store T) :=
  if bc && (negb (rsz v =? 3)%nat || negb (rsz w =? 3)%nat || negb (rsz c =? 3)%nat)
  then Ok ((- EINVAL)%Z, st)
  else
    let comp st k a b :=
      let! va := srd st (rptr v) a in
      let! wb := srd st (rptr w) b in
      let! vb := srd st (rptr v) b in
      let! wa := srd st (rptr w) a in
      swr st (rptr c) k (va * wb - vb * wa) in
    let! st := comp st 0 1 2 in
    let! st := comp st 1 2 0 in
    let! st := comp st 2 0 1 in
    Ok (0%Z, st).

Definition vec_cross (v w c : vec T) : outcome (Z * vec T) :=
  let! (rc, st) := vec_cross_st [vbuf v; vbuf w; vbuf c]
                     (VR (vsz v) 0) (VR (vsz w) 1) (VR (vsz c) 2) in
  Ok (rc, Vec (vsz c) (nth 2 st [])).

(** zsl_vec_ar_mean, src/vectors.c:334-349.  [None]: *m not written. *)
Definition vec_ar_mean (v : vec T) : outcome (Z * option T) :=
  if (vsz v <? 1)%nat then Ok ((- EINVAL)%Z, None)
  else
    let! s := for_ (vsz v) 0 (fun i m =>
                let! a := rd (vbuf v) i in Ok (m + a)) f0 in
    let! m := fdiv s (fofZ (Z.of_nat (vsz v))) in
    Ok (0%Z, Some m).

(** zsl_vec_rev, src/vectors.c:351-366.  With sz = 0 the index [end] wraps to
    SIZE_MAX and the first iteration reads data[0] and data[SIZE_MAX]. *)
Fixpoint rev_loop (fuel start stop : nat) (b : buf T) : outcome (buf T) :=
  if (start <? stop)%nat then
    match fuel with
    | O => OutOfFuel
    | S f =>
        let! t := rd b start in
        let! e := rd b stop in
        let! b := wr b start e in
        let! b := wr b stop t in
        rev_loop f (S start) (stop - 1) b   (* stop > start >= 0 here *)
    end
  else Ok b.

Definition vec_rev (v : vec T) : outcome (Z * vec T) :=
  match vsz v with
  | O => UB OOBRead
  | S e => let! b := rev_loop (S e) 0 e (vbuf v) in Ok (0%Z, Vec (vsz v) b)
  end.

(** zsl_vec_zte, src/vectors.c:368-385.  State: buffer and the counter x. *)
Definition zte_test (a : T) : bool :=
  ((a >=? f0) && (a <? flit 1 6)) || ((a <=? f0) && (a >? flit 1 6)).

Definition vec_zte (v : vec T) : outcome (Z * vec T) :=
  let! (b, _) := for_ (vsz v) 0 (fun g '(b, x) =>
      let! a := rd b (g - x) in                       (* x <= g throughout *)
      if zte_test a then
        let! b := for_range (g - x) (vsz v - 1) (fun p b =>   (* sz >= 1 here *)
                    let! c := rd b (p + 1) in wr b p c) b in
        let! b := wr b (vsz v - 1) f0 in
        Ok (b, S x)
      else Ok (b, x)) (vbuf v, 0) in
  Ok (0%Z, Vec (vsz v) b).

(** zsl_vec_is_equal, src/vectors.c:387-403 *)
Definition vec_is_equal (v w : vec T) (eps : T) : outcome bool :=
  if negb (vsz v =? vsz w)%nat then Ok false
  else
    let! r := for_exit (vsz v) 0 (fun i (_ : unit) =>
                let! a := rd (vbuf v) i in
                let! b := rd (vbuf w) i in
                let c := a - b in
                if (c >=? eps) || ((- c) >=? eps) then Ok (inr false) else Ok (inl tt)) tt in
    Ok (match r with inl _ => true | inr x => x end).

(** zsl_vec_is_nonneg, src/vectors.c:405-414 *)
Definition vec_is_nonneg (v : vec T) : outcome bool :=
  let! r := for_exit (vsz v) 0 (fun i (_ : unit) =>
              let! a := rd (vbuf v) i in
              if a <? f0 then Ok (inr false) else Ok (inl tt)) tt in
  Ok (match r with inl _ => true | inr x => x end).

(** zsl_vec_contains, src/vectors.c:416-429 (the int counter is a nat) *)
Definition vec_contains (v : vec T) (val eps : T) : outcome nat :=
  for_ (vsz v) 0 (fun i count =>
    let! a := rd (vbuf v) i in
    let c := a - val in
    Ok (if (c <? eps) && ((- c) <? eps) then S count else count)) 0.

(** zsl_vec_quicksort, src/vectors.c:440-473.

    The inner loop condition [v->data[i] <= v->data[p] && i <= high] reads
    data[i] before testing i, so it may read one element past the end of the
    array.  [ghost = None] is C's verdict on that (undefined behaviour);
    [ghost = Some g] is the machine's: an arbitrary value g is read. *)
Definition rdg (ghost : option T) (b : buf T) (i : nat) : outcome T :=
  if (i =? length b)%nat then match ghost with Some g => Ok g | None => UB OOBRead end
  else rd b i.

Fixpoint qs_scan_up (fuel : nat) (ghost : option T) (b : buf T) (p high i : nat)
  : outcome nat :=
  match fuel with
  | O => OutOfFuel
  | S f =>
      let! x := rdg ghost b i in
      let! y := rd b p in
      if (x <=? y) && (i <=? high)%nat then qs_scan_up f ghost b p high (S i) else Ok i
  end.

Fixpoint qs_scan_down (fuel : nat) (ghost : option T) (b : buf T) (p low j : nat)
  : outcome nat :=
  match fuel with
  | O => OutOfFuel
  | S f =>
      let! x := rdg ghost b j in
      let! y := rd b p in
      if (x >? y) && (low <=? j)%nat then
        match j with
        | O => UB OOBRead               (* j-- wraps to SIZE_MAX *)
        | S j' => qs_scan_down f ghost b p low j'
        end
      else Ok j
  end.

Definition qs_swap (b : buf T) (i j : nat) : outcome (buf T) :=
  let! t := rd b i in
  let! u := rd b j in
  let! b := wr b i u in
  wr b j t.

Fixpoint qs_partition (fuel : nat) (ghost : option T) (b : buf T) (low high i j : nat)
  : outcome (buf T * nat * nat) :=
  if (i <? j)%nat then
    match fuel with
    | O => OutOfFuel
    | S f =>
        let! i := qs_scan_up (S (S high)) ghost b low high i in
        let! j := qs_scan_down (S (S high)) ghost b low low j in
        let! b := if (i <? j)%nat then qs_swap b i j else Ok b in
        qs_partition f ghost b low high i j
    end
  else Ok (b, i, j).

Fixpoint vec_quicksort (fuel : nat) (ghost : option T) (b : buf T) (low high : nat)
  : outcome (buf T) :=
  if (low <? high)%nat then
    match fuel with
    | O => OutOfFuel
    | S f =>
        let! (b, i, j) := qs_partition (S (S high)) ghost b low high low high in
        let! b := qs_swap b j low in
        match i with
        | O => UB OOBRead               (* i - 1 wraps to SIZE_MAX *)
        | S i' =>
            let! b := vec_quicksort f ghost b low i' in
            vec_quicksort f ghost b (S j) high
        end
    end
  else Ok b.

(** zsl_vec_sort, src/vectors.c:475-513.  [fuel] bounds the recursion depth of
    the quicksort.  v->sz = 0 declares an array of no elements and calls
    quicksort with high = SIZE_MAX, as does a vector of NaNs. *)
Definition vec_sort (fuel : nat) (ghost : option T) (v w : vec T) : outcome (Z * vec T) :=
  let! (_, u) := vec_init (Vec (vsz v) (fresh (vsz v))) in
  let! (u, count) := for_ (vsz v) 0 (fun j '(u, count) =>
      let! a := rd (vbuf v) j in
      if (a >=? flit 1 5) || (a <=? flit 1 5) then
        let! c := vec_contains u a (flit 1 5) in
        if (c =? 0)%nat then
          let! b := wr (vbuf u) count a in
          Ok (Vec (vsz u) b, S count)
        else Ok (u, count)
      else Ok (u, count)) (u, 0) in
  let! c := vec_contains v f0 (flit 1 5) in
  let count := if (0 <? c)%nat then S count else count in
  match count with
  | O => UB OOBRead
  | S high =>
      let! ub := vec_quicksort fuel ghost (vbuf u) 0 high in
      let! (wb, _) := for_ count 0 (fun i '(wb, count2) =>
          let! x := rd ub i in
          let! reps := vec_contains v x (flit 1 5) in
          for_ reps 0 (fun _ '(wb, count2) =>
            let! wb := wr wb count2 x in
            Ok (wb, S count2)) (wb, count2)) (vbuf w, 0) in
      Ok (0%Z, Vec (vsz w) wb)
  end.

End Vec.
