(** Properties C01-C18: vectors (src/vectors.c).

    [vec_of xs tl] is the vector with elements xs in a buffer whose remaining
    cells are tl; [cells xs] are the initialised cells xs.  [bc] is
    CONFIG_ZSL_BOUNDS_CHECKS.  A result [Ok (rc, out)] is the return code and
    the output vector; inputs that are not returned are not written. *)
From Coq Require Import List Arith ZArith Bool Lia Reals Lra Permutation Sorted PrimFloat.
From Verif Require Import Base SpecVec SpecReal NumR NumF MVec PVec PVecR PSort PropVecFacts.
Import ListNotations.

(** * C01 *)

(** Offset in range, offset + len below 2^w: exactly the (clipped) range is copied. *)
Theorem C01_get_subset :
  forall T (N : Num T) W (xs : list T) tx off len ns (bs : buf T),
  (0 <= off < Z.of_nat (length xs))%Z -> (0 <= len)%Z -> (off + len < W)%Z -> ns <= length bs ->
  let l := Nat.min (Z.to_nat len) (length xs - Z.to_nat off) in
  l <= ns ->
  vec_get_subset true W (vec_of xs tx) off len (Vec ns bs)
  = Ok (0%Z, vec_of (firstn l (skipn (Z.to_nat off) xs)) (skipn l bs)).
Proof. intros T N. exact (@vec_get_subset_ok T). Qed.
Print Assumptions C01_get_subset.

(** Every other case is rejected without effect, also when off + len wraps. *)
Theorem C01_get_subset_rejects :
  forall T (N : Num T) W (xs : list T) tx off len ns (bs : buf T),
  (0 <= off < W)%Z -> (0 <= len < W)%Z -> (Z.of_nat (length xs) + Z.of_nat ns <= W)%Z ->
  (Z.of_nat (length xs) <= off)%Z
  \/ (off + len < W)%Z /\ ns < Nat.min (Z.to_nat len) (length xs - Z.to_nat off)
  \/ (W <= off + len)%Z ->
  vec_get_subset true W (vec_of xs tx) off len (Vec ns bs) = Ok ((- EINVAL)%Z, Vec ns bs).
Proof. intros T N. exact (@vec_get_subset_einval T). Qed.
Print Assumptions C01_get_subset_rejects.

Example C01_example :
  vec_get_subset true (2 ^ 32) (vec_of [10; 11; 12; 13]%Z []) 2 7 (Vec 3 (fresh 3))
  = Ok (0%Z, vec_of [12; 13]%Z (fresh 1)).
Proof. reflexivity. Qed.

(** "the clipped range is copied whenever it fits" fails when offset + len
    wraps: offset 1, len SIZE_MAX, the 1-element tail fits, yet -EINVAL. *)
Theorem C01_wrapping_length_refuted :
  exists (xs : list Z) off len,
    (0 <= off < Z.of_nat (length xs))%Z /\ (0 <= len < 2 ^ 32)%Z
    /\ Nat.min (Z.to_nat (Z.of_nat (length xs))) (length xs - Z.to_nat off) <= 1
    /\ vec_get_subset true (2 ^ 32) (vec_of xs []) off len (Vec 1 (fresh 1))
       = Ok ((- EINVAL)%Z, Vec 1 (fresh 1)).
Proof. exists [7; 8]%Z, 1%Z, (2 ^ 32 - 1)%Z. repeat split; try lia; try (vm_compute; auto). Qed.
Print Assumptions C01_wrapping_length_refuted.

(** * C02 *)

Theorem C02_add :
  forall T (N : Num T) bc (xs ys : list T) tx ty (bx : buf T),
  length xs = length ys -> length xs <= length bx ->
  vec_add bc (vec_of xs tx) (vec_of ys ty) (Vec (length xs) bx)
  = Ok (0%Z, vec_of (map2 fadd xs ys) (skipn (length xs) bx)).
Proof. intros T N bc. exact (vec_zip_ok bc fadd). Qed.
Print Assumptions C02_add.

Theorem C02_sub :
  forall T (N : Num T) bc (xs ys : list T) tx ty (bx : buf T),
  length xs = length ys -> length xs <= length bx ->
  vec_sub bc (vec_of xs tx) (vec_of ys ty) (Vec (length xs) bx)
  = Ok (0%Z, vec_of (map2 fsub xs ys) (skipn (length xs) bx)).
Proof. intros T N bc. exact (vec_zip_ok bc fsub). Qed.
Print Assumptions C02_sub.

Theorem C02_add_sub_reject :
  forall T (N : Num T) (v w x : vec T),
  vsz v <> vsz w \/ vsz v <> vsz x ->
  vec_add true v w x = Ok ((- EINVAL)%Z, x) /\ vec_sub true v w x = Ok ((- EINVAL)%Z, x).
Proof. intros T N v w x H. exact (conj (vec_zip_mismatch fadd v w x H) (vec_zip_mismatch fsub v w x H)). Qed.
Print Assumptions C02_add_sub_reject.

Theorem C02_neg :
  forall T (N : Num T) (xs : list T) tl,
  vec_neg (vec_of xs tl) = Ok (0%Z, vec_of (map fneg xs) tl).
Proof. exact @vec_neg_ok. Qed.
Print Assumptions C02_neg.

Theorem C02_scalar_add :
  forall T (N : Num T) (xs : list T) tl s,
  vec_scalar_add (vec_of xs tl) s = Ok (0%Z, vec_of (map (fun x => fadd x s) xs) tl).
Proof. exact @vec_scalar_add_ok. Qed.
Print Assumptions C02_scalar_add.

Theorem C02_scalar_mult :
  forall T (N : Num T) (xs : list T) tl s,
  vec_scalar_mult (vec_of xs tl) s = Ok (0%Z, vec_of (map (fun x => fmul x s) xs) tl).
Proof. exact @vec_scalar_mult_ok. Qed.
Print Assumptions C02_scalar_mult.

Theorem C02_scalar_div :
  forall T (N : Num T) (xs : list T) tl s (quot : T -> T),
  feq s f0 = false -> (forall x, In x xs -> fdiv x s = Ok (quot x)) ->
  vec_scalar_div (vec_of xs tl) s = Ok (0%Z, vec_of (map quot xs) tl).
Proof. exact @vec_scalar_div_ok. Qed.
Print Assumptions C02_scalar_div.

Theorem C02_scalar_div_zero :
  forall T (N : Num T) (v : vec T) s,
  feq s f0 = true -> vec_scalar_div v s = Ok ((- EINVAL)%Z, v).
Proof. exact @vec_scalar_div_zero. Qed.
Print Assumptions C02_scalar_div_zero.

Example C02_example :
  vec_sub true (vec_of [F 1 0; F 2 0] []) (vec_of [F 5 0; nan] []) (Vec 2 (fresh 3))
  = Ok (0%Z, vec_of [F (-4) 0; nan] (fresh 1)).
Proof. vm_compute. reflexivity. Qed.

(** * C03: any of the three buffers may coincide (pv, pw, px name buffers of
    the memory st; the result is st with buffer px overwritten). *)
Theorem C03_in_place :
  forall T (N : Num T) bc (st : store T) pv pw px n (xs ys : list T) tx ty bx,
  nth_error st pv = Some (cells xs ++ tx) -> length xs = n ->
  nth_error st pw = Some (cells ys ++ ty) -> length ys = n ->
  nth_error st px = Some bx -> n <= length bx ->
  vec_add_st bc st (VR n pv) (VR n pw) (VR n px)
    = Ok (0%Z, upd st px (cells (map2 fadd xs ys) ++ skipn n bx))
  /\ vec_sub_st bc st (VR n pv) (VR n pw) (VR n px)
    = Ok (0%Z, upd st px (cells (map2 fsub xs ys) ++ skipn n bx)).
Proof.
  intros T N bc st pv pw px n xs ys tx ty bx H1 H2 H3 H4 H5 H6.
  exact (conj (@vec_zip_st_ok _ bc fadd st pv pw px n xs ys tx ty bx H1 H2 H3 H4 H5 H6)
              (@vec_zip_st_ok _ bc fsub st pv pw px n xs ys tx ty bx H1 H2 H3 H4 H5 H6)).
Qed.
Print Assumptions C03_in_place.

Example C03_example :      (* v - v into v, and w - v into v *)
  vec_sub_st true [cells [F 3 0; F 4 0]; cells [F 1 0; F 2 0]] (VR 2 1) (VR 2 0) (VR 2 0)
  = Ok (0%Z, [cells [F (-2) 0; F (-2) 0]; cells [F 1 0; F 2 0]]).
Proof. vm_compute. reflexivity. Qed.

(** * C04 *)

Theorem C04_dot :
  forall bc (xs ys : list R) tx ty,
  length xs = length ys ->
  vec_dot bc (vec_of xs tx) (vec_of ys ty) = Ok (0%Z, Some (rdot xs ys)).
Proof. exact vec_dot_R. Qed.
Print Assumptions C04_dot.

Theorem C04_dot_laws :
  forall (xs ys zs : list R) k,
  length xs = length ys -> length ys = length zs ->
  rdot xs ys = rdot ys xs
  /\ rdot (map2 Rplus xs ys) zs = (rdot xs zs + rdot ys zs)%R
  /\ rdot (rscale k xs) ys = (k * rdot xs ys)%R
  /\ (0 <= rdot xs xs)%R
  /\ (rdot xs xs = 0%R <-> Forall (fun x => x = 0%R) xs).
Proof. exact dot_laws. Qed.
Print Assumptions C04_dot_laws.

(** Floating point too: the sum of products, left to right. *)
Theorem C04_dot_any_arithmetic :
  forall T (N : Num T) bc (xs ys : list T) tx ty,
  length xs = length ys ->
  vec_dot bc (vec_of xs tx) (vec_of ys ty)
  = Ok (0%Z, Some (fold_left fadd (map2 fmul xs ys) f0)).
Proof. exact @vec_dot_ok. Qed.
Print Assumptions C04_dot_any_arithmetic.

Theorem C04_dot_rejects :
  forall T (N : Num T) (v w : vec T),
  vsz v <> vsz w -> vec_dot true v w = Ok ((- EINVAL)%Z, None).
Proof. exact @vec_dot_mismatch. Qed.
Print Assumptions C04_dot_rejects.

Example C04_example :
  vec_dot true (vec_of [F 1 0; F 2 0; F 3 0] []) (vec_of [F 4 0; F 5 0; F 6 0] [])
  = Ok (0%Z, Some (F 32 0)).
Proof. vm_compute. reflexivity. Qed.

(** * C05 *)

Theorem C05_norm :
  forall bc (xs ys : list R) tx ty t2 t3 k,
  length xs = length ys ->
  exists n m s h,
    vec_norm bc (vec_of xs tx) = Ok n /\ vec_norm bc (vec_of ys ty) = Ok m
    /\ vec_norm bc (vec_of (map2 Rplus xs ys) t2) = Ok s
    /\ vec_norm bc (vec_of (rscale k xs) t3) = Ok h
    /\ vec_sum_of_sqrs bc (vec_of xs tx) = Ok (n * n)%R
    /\ (0 <= n)%R /\ (n = 0%R <-> Forall (fun x => x = 0%R) xs)
    /\ h = (Rabs k * n)%R
    /\ (Rabs (rdot xs ys) <= n * m)%R
    /\ (s <= n + m)%R.
Proof. exact norm_laws. Qed.
Print Assumptions C05_norm.

Example C05_example : length [3; 4]%R = length [1; 1]%R /\ rdot [3; 4]%R [3; 4]%R = 25%R.
Proof. split; auto. cbn. lra. Qed.

(** * C06 *)

Theorem C06_metric :
  forall bc (xs ys zs : list R) tx ty tz,
  length xs = length ys -> length ys = length zs ->
  exists dxy dyx dyz dxz,
    vec_dist bc (vec_of xs tx) (vec_of ys ty) = Ok dxy
    /\ vec_dist bc (vec_of ys ty) (vec_of xs tx) = Ok dyx
    /\ vec_dist bc (vec_of ys ty) (vec_of zs tz) = Ok dyz
    /\ vec_dist bc (vec_of xs tx) (vec_of zs tz) = Ok dxz
    /\ (0 <= dxy)%R /\ dxy = dyx /\ (dxy = 0%R <-> xs = ys) /\ (dxz <= dxy + dyz)%R.
Proof. exact dist_metric. Qed.
Print Assumptions C06_metric.

Theorem C06_value :
  forall bc (xs ys : list R) tx ty,
  length xs = length ys ->
  vec_dist bc (vec_of xs tx) (vec_of ys ty) = Ok (rnorm (map2 Rminus xs ys)).
Proof. exact vec_dist_R. Qed.
Print Assumptions C06_value.

Theorem C06_rejects :
  forall T (N : Num T) (v w : vec T), vsz v <> vsz w -> vec_dist true v w = Ok fnan.
Proof. exact @vec_dist_mismatch. Qed.
Print Assumptions C06_rejects.

Example C06_example :
  vec_dist true (vec_of [F 4 0; F 5 0] []) (vec_of [F 1 0; F 1 0] []) = Ok (F 5 0).
Proof. vm_compute. reflexivity. Qed.

(** * C07 *)

Theorem C07_to_unit :
  forall bc (xs : list R) tx,
  xs <> [] ->
  exists us, vec_to_unit bc (vec_of xs tx) = Ok (0%Z, vec_of us tx)
    /\ vec_norm bc (vec_of us tx) = Ok 1%R
    /\ (Exists (fun x => x <> 0%R) xs -> exists k, (0 < k)%R /\ us = rscale k xs)
    /\ (Forall (fun x => x = 0%R) xs -> us = 1%R :: repeat 0%R (length xs - 1)).
Proof. exact to_unit_full. Qed.
Print Assumptions C07_to_unit.

Example C07_example :
  vec_to_unit true (vec_of [F 0 0; F (-2) 0] [None]) = Ok (0%Z, vec_of [F 0 0; F (-1) 0] [None])
  /\ vec_to_unit true (vec_of [F 0 0; F 0 0] []) = Ok (0%Z, vec_of [F 1 0; F 0 0] []).
Proof. vm_compute. auto. Qed.

(** An empty vector has no direction: element 0 beyond it is written. *)
Theorem C07_empty_refuted :
  vec_to_unit true (vec_of ([] : list float) []) = UB OOBWrite.
Proof. vm_compute. reflexivity. Qed.
Print Assumptions C07_empty_refuted.

(** * C08 *)

Theorem C08_cross :
  forall bc (a1 a2 a3 b1 b2 b3 : R) ta tb tc c1 c2 c3,
  exists p1 p2 p3,
    vec_cross bc (vec_of [a1; a2; a3] ta) (vec_of [b1; b2; b3] tb) (Vec 3 (c1 :: c2 :: c3 :: tc))
    = Ok (0%Z, vec_of [p1; p2; p3] tc)
    /\ vec_cross bc (vec_of [b1; b2; b3] tb) (vec_of [a1; a2; a3] ta) (Vec 3 (c1 :: c2 :: c3 :: tc))
    = Ok (0%Z, vec_of [- p1; - p2; - p3]%R tc)
    /\ rdot [p1; p2; p3] [a1; a2; a3] = 0%R
    /\ rdot [p1; p2; p3] [b1; b2; b3] = 0%R
    /\ rdot [p1; p2; p3] [p1; p2; p3]
       = (rdot [a1; a2; a3] [a1; a2; a3] * rdot [b1; b2; b3] [b1; b2; b3]
          - rdot [a1; a2; a3] [b1; b2; b3] * rdot [a1; a2; a3] [b1; b2; b3])%R
    /\ (a1 * (b2 * p3 - b3 * p2) - a2 * (b1 * p3 - b3 * p1) + a3 * (b1 * p2 - b2 * p1)
        = rdot [p1; p2; p3] [p1; p2; p3])%R.
Proof. exact cross_laws. Qed.
Print Assumptions C08_cross.

Theorem C08_cross_any_arithmetic :
  forall T (N : Num T) bc (a1 a2 a3 b1 b2 b3 : T) ta tb c1 c2 c3 tc,
  vec_cross bc (vec_of [a1; a2; a3] ta) (vec_of [b1; b2; b3] tb) (Vec 3 (c1 :: c2 :: c3 :: tc))
  = Ok (0%Z, vec_of [fsub (fmul a2 b3) (fmul a3 b2);
                     fsub (fmul a3 b1) (fmul a1 b3);
                     fsub (fmul a1 b2) (fmul a2 b1)] tc).
Proof. exact @vec_cross_ok. Qed.
Print Assumptions C08_cross_any_arithmetic.

Theorem C08_cross_rejects :
  forall T (N : Num T) (v w c : vec T),
  vsz v <> 3 \/ vsz w <> 3 \/ vsz c <> 3 -> vec_cross true v w c = Ok ((- EINVAL)%Z, c).
Proof. exact @vec_cross_mismatch. Qed.
Print Assumptions C08_cross_rejects.

(** * C09: the in-place cross product is wrong (x cross y stored in x). *)
Theorem C09_cross_in_place_refuted :
  exists v w v' d : list float,
    vec_cross_st true [cells v; cells w] (VR 3 0) (VR 3 1) (VR 3 0) = Ok (0%Z, [cells v'; cells w])
    /\ vec_cross true (vec_of v []) (vec_of w []) (Vec 3 (fresh 3)) = Ok (0%Z, vec_of d [])
    /\ v' <> d.
Proof.
  exists [F 1 0; F 2 0; F 3 0], [F 4 0; F 5 0; F 6 0].
  eexists [_; _; _], [_; _; _]. split; [vm_compute; reflexivity|].
  split; [vm_compute; reflexivity|].
  intros E. apply (f_equal (fun l => PrimFloat.eqb (nth 1 l nan) (F 6 0))) in E.
  vm_compute in E. discriminate.
Qed.
Print Assumptions C09_cross_in_place_refuted.

(** * C10 *)

Theorem C10_project :
  forall bc (us vs : list R) tu tv (bw : buf R),
  length us = length vs -> (length us <= length bw)%nat ->
  Exists (fun x => x <> 0%R) us ->
  exists k ws,
    vec_project bc (vec_of us tu) (vec_of vs tv) (Vec (length us) bw)
    = Ok (0%Z, vec_of ws (skipn (length us) bw))
    /\ ws = rscale k us
    /\ rdot (map2 Rminus vs ws) us = 0%R.
Proof. exact project_laws. Qed.
Print Assumptions C10_project.

Theorem C10_project_rejects :
  forall T (N : Num T) (u v w : vec T),
  vsz v <> vsz w \/ vsz v <> vsz u -> vec_project true u v w = Ok ((- EINVAL)%Z, w).
Proof. exact @vec_project_mismatch. Qed.
Print Assumptions C10_project_rejects.

Example C10_example :
  vec_project true (vec_of [F 2 0; F 0 0] []) (vec_of [F 3 0; F 5 0] []) (Vec 2 (fresh 2))
  = Ok (0%Z, vec_of [F 3 0; F 0 0] []).
Proof. vm_compute. reflexivity. Qed.

(** * C11 *)

Theorem C11_rev :
  forall T (N : Num T) (xs : list T) tl,
  xs <> [] -> vec_rev (vec_of xs tl) = Ok (0%Z, vec_of (rev xs) tl).
Proof. intros T N. exact (@vec_rev_ok T). Qed.
Print Assumptions C11_rev.

Theorem C11_rev_involutive :
  forall T (N : Num T) (xs : list T) tl,
  xs <> [] -> (let! (_, v) := vec_rev (vec_of xs tl) in vec_rev v) = Ok (0%Z, vec_of xs tl).
Proof. exact @rev_involutive_vec. Qed.
Print Assumptions C11_rev_involutive.

Theorem C11_rev_empty_refuted :
  forall T (N : Num T) (b : buf T), vec_rev (Vec 0 b) = UB OOBRead.
Proof. intros T N. exact (@vec_rev_empty T). Qed.
Print Assumptions C11_rev_empty_refuted.

Example C11_example : vec_rev (vec_of [1; 2; 3; 4]%Z [None]) = Ok (0%Z, vec_of [4; 3; 2; 1]%Z [None]).
Proof. reflexivity. Qed.

(** * C12: values in [0, 1e-6) are moved to the end as zeros; every other
    value, also a tiny negative one, stays, in order.  (The full property asks
    |x| < 1e-6 to be moved; see the refutation below.) *)
Theorem C12_zte_partial :
  forall (xs : list R) tl,
  exists keep k,
    vec_zte (vec_of xs tl) = Ok (0%Z, vec_of (keep ++ repeat 0%R k) tl)
    /\ keep = filter (fun a => if Rlt_dec a 0 then true
                               else if Rlt_dec a (/ 1000000) then false else true) xs
    /\ length keep + k = length xs.
Proof. exact zte_R. Qed.
Print Assumptions C12_zte_partial.

Theorem C12_tiny_negative_refuted :
  exists x, (PrimFloat.abs x <? F 1 6)%float = true
    /\ vec_zte (vec_of [x; F 1 0] []) = Ok (0%Z, vec_of [x; F 1 0] []).
Proof. exists (F (-1) 7). vm_compute. auto. Qed.
Print Assumptions C12_tiny_negative_refuted.

Example C12_example :
  vec_zte (vec_of [F 0 0; F 5 0; F 1 9; F 7 0; F 0 0] []) = Ok (0%Z, vec_of [F 5 0; F 7 0; F 0 0; F 0 0; F 0 0] []).
Proof. vm_compute. reflexivity. Qed.

(** * C13 *)

Theorem C13_is_equal :
  forall (xs ys : list R) tx ty eps,
  exists b, vec_is_equal (vec_of xs tx) (vec_of ys ty) eps = Ok b
    /\ (b = true <-> length xs = length ys
         /\ forall i, i < length xs -> (Rabs (nth i xs 0 - nth i ys 0) < eps)%R).
Proof. exact vec_is_equal_R. Qed.
Print Assumptions C13_is_equal.

Theorem C13_contains :
  forall (xs : list R) tx val eps,
  vec_contains (vec_of xs tx) val eps
  = Ok (length (filter (fun a => if Rlt_dec (Rabs (a - val)) eps then true else false) xs)).
Proof. exact vec_contains_R. Qed.
Print Assumptions C13_contains.

Theorem C13_is_nonneg :
  forall (xs : list R) tx,
  exists b, vec_is_nonneg (vec_of xs tx) = Ok b /\ (b = true <-> forall x, In x xs -> (0 <= x)%R).
Proof. exact vec_is_nonneg_R. Qed.
Print Assumptions C13_is_nonneg.

Example C13_example :
  vec_contains (vec_of [F 1 0; F 2 0; F 1000001 6; F 1 0] []) (F 1 0) (F 1 5) = Ok 3
  /\ vec_is_equal (vec_of [F 1 0; F 2 0] []) (vec_of [F 1 0; F 3 0] []) (F 1 5) = Ok false
  /\ vec_is_nonneg (vec_of [F 1 0; F (-2) 0] []) = Ok false.
Proof. vm_compute. auto. Qed.

(** A NaN element compares equal to everything. *)
Theorem C13_nan_refuted :
  vec_is_equal (vec_of [nan] []) (vec_of [F 1 0] []) (F 1 5) = Ok true.
Proof. vm_compute. reflexivity. Qed.
Print Assumptions C13_nan_refuted.

(** * C14.  [separated xs]: any two elements of xs, and 0, are equal or at
    least 1e-5 apart.  g is whatever lies one past the end of the scratch
    array (read but never used: see C15).  2 * length is enough recursion. *)
Theorem C14_sort :
  forall (g : R) xs tx m (wb : buf R) fuel,
  separated xs -> xs <> [] -> length xs <= length wb -> 2 * length xs <= fuel ->
  exists ys, vec_sort fuel (Some g) (vec_of xs tx) (Vec m wb)
             = Ok (0%Z, Vec m (cells ys ++ skipn (length xs) wb))
    /\ Permutation xs ys /\ StronglySorted Rle ys.
Proof. exact vec_sort_ok. Qed.
Print Assumptions C14_sort.

Example C14_example : separated [3; 1; 3; 0; 2]%R.
Proof.
  unfold separated, apart. intros x y Hx Hy. cbn in Hx, Hy.
  repeat (destruct Hx as [<-|Hx]; [|]); try contradiction;
  repeat (destruct Hy as [<-|Hy]; [|]); try contradiction;
  try (left; reflexivity); right; unfold Rabs; destruct (Rcase_abs _); lra.
Qed.

Example C14_run :
  vec_sort 10 (Some nan) (vec_of [F 3 0; F 1 0; F 3 0; F 0 0; F 2 0] []) (Vec 5 (fresh 5))
  = Ok (0%Z, vec_of [F 0 0; F 1 0; F 2 0; F 3 0; F 3 0] []).
Proof. vm_compute. reflexivity. Qed.

(** Without separation the output is not a permutation. *)
Theorem C14_near_duplicates_refuted :
  vec_sort 10 (Some nan) (vec_of [F 1 6; F 2 6] []) (Vec 2 (fresh 2))
  = Ok (0%Z, vec_of [F 0 0; F 0 0] []).
Proof. vm_compute. reflexivity. Qed.
Print Assumptions C14_near_duplicates_refuted.

(** * C15: three ways out of the buffers *)
Theorem C15_sort_memory_safe_refuted :
  (* the scratch array is read one past its end when the pivot is the maximum *)
  vec_sort 10 None (vec_of [F 2 0; F 1 0] []) (Vec 2 (fresh 2)) = UB OOBRead
  (* a chain of values closer than 1e-5 makes it write 7 elements into 3 *)
  /\ vec_sort 20 (Some nan) (vec_of [F 1000000 6; F 1000009 6; F 1000018 6] []) (Vec 3 (fresh 3))
     = UB OOBWrite
  (* an empty vector *)
  /\ vec_sort 10 (Some nan) (vec_of ([] : list float) []) (Vec 0 (fresh 0)) = UB OOBRead.
Proof. vm_compute. auto. Qed.
Print Assumptions C15_sort_memory_safe_refuted.

(** * C16: with a zeroed output, the sums are right. *)
Theorem C16_vec_sum_partial :
  forall bc (xss : list (list R)) tys tw sz,
  xss <> [] -> length tys = length xss -> Forall (fun xs => length xs = sz) xss ->
  exists s, vec_sum bc (map2 vec_of xss tys) (length xss) (Vec sz (cells (repeat 0%R sz) ++ tw))
            = Ok (0%Z, vec_of s tw)
    /\ length s = sz
    /\ forall i, i < sz -> nth i s 0%R = rsum (map (fun xs => nth i xs 0%R) xss).
Proof. exact vec_sum_R. Qed.
Print Assumptions C16_vec_sum_partial.

Theorem C16_vec_sum_accumulates :
  forall T (N : Num T) bc (xss : list (list T)) tys ws tw n sz,
  xss <> [] -> length tys = length xss -> n = length xss ->
  Forall (fun xs => length xs = sz) xss -> length ws = sz ->
  vec_sum bc (map2 vec_of xss tys) n (Vec sz (cells ws ++ tw))
  = Ok (0%Z, vec_of (fold_left (map2 fadd) xss ws) tw).
Proof. exact @vec_sum_ok. Qed.
Print Assumptions C16_vec_sum_accumulates.

Theorem C16_vec_sum_rejects :
  forall T (N : Num T) (vs : list (vec T)) w n i j,
  n = length vs -> i < n -> j < n -> (forall d, vsz (nth i vs d) <> vsz (nth j vs d)) ->
  vec_sum true vs n w = Ok ((- EINVAL)%Z, w).
Proof. exact @vec_sum_mismatch. Qed.
Print Assumptions C16_vec_sum_rejects.

Theorem C16_vec_mean_partial :
  forall bc (xss : list (list R)) tys tw sz,
  xss <> [] -> length tys = length xss -> Forall (fun xs => length xs = sz) xss ->
  exists s, vec_mean bc (map2 vec_of xss tys) (length xss) (Vec sz (cells (repeat 0%R sz) ++ tw))
            = Ok (0%Z, vec_of s tw)
    /\ length s = sz
    /\ forall i, i < sz ->
         nth i s 0%R = (rsum (map (fun xs => nth i xs 0%R) xss) / INR (length xss))%R.
Proof. exact vec_mean_R. Qed.
Print Assumptions C16_vec_mean_partial.

(** The mean is also wrong for an output that is not zero: its old contents
    take part. *)
Theorem C16_vec_mean_accumulates :
  forall bc (xss : list (list R)) tys ws tw sz,
  xss <> [] -> length tys = length xss -> Forall (fun xs => length xs = sz) xss -> length ws = sz ->
  exists s, vec_mean bc (map2 vec_of xss tys) (length xss) (Vec sz (cells ws ++ tw))
            = Ok (0%Z, vec_of s tw)
    /\ length s = sz
    /\ forall i, i < sz ->
         nth i s 0%R = ((nth i ws 0%R + rsum (map (fun xs => nth i xs 0%R) xss)) / INR (length xss))%R.
Proof. exact vec_mean_accumulates_R. Qed.
Print Assumptions C16_vec_mean_accumulates.

(** Two vectors of two elements: the mean of (1, 2) and (3, 6) is (2, 4). *)
Example C16_mean_run :
  vec_mean true [vec_of [F 1 0; F 2 0] []; vec_of [F 3 0; F 6 0] []] 2 (vec_of [F 0 0; F 0 0] [])
  = Ok (0%Z, vec_of [F 2 0; F 4 0] []).
Proof. vm_compute. reflexivity. Qed.

Theorem C16_vec_sum_dirty_output_refuted :
  vec_sum true [vec_of [F 1 0] []; vec_of [F 2 0] []] 2 (vec_of [F 10 0] [])
  = Ok (0%Z, vec_of [F 13 0] []).
Proof. vm_compute. reflexivity. Qed.
Print Assumptions C16_vec_sum_dirty_output_refuted.

(** * C17 (vectors) *)
Theorem C17_vec_init :
  forall T (N : Num T) n (b : buf T),
  n <= length b -> vec_init (Vec n b) = Ok (0%Z, Vec n (cells (repeat f0 n) ++ skipn n b)).
Proof. exact @vec_init_ok. Qed.
Print Assumptions C17_vec_init.

Theorem C17_vec_from_arr :
  forall T (N : Num T) n (b : buf T) xs ta,
  n = length xs -> n <= length b ->
  vec_from_arr (Vec n b) (cells xs ++ ta) = Ok (0%Z, Vec n (cells xs ++ skipn n b)).
Proof. intros T N. exact (@vec_from_arr_ok T). Qed.
Print Assumptions C17_vec_from_arr.

Theorem C17_vec_copy :
  forall T (N : Num T) n (b : buf T) xs tx,
  length xs <= length b ->
  vec_copy (Vec n b) (vec_of xs tx) = Ok (0%Z, vec_of xs (skipn (length xs) b)).
Proof. intros T N. exact (@vec_copy_ok T). Qed.
Print Assumptions C17_vec_copy.

(** No capacity check: a larger source overruns the destination. *)
Theorem C17_vec_copy_overflow :
  forall T (N : Num T) n (b : buf T) xs tx,
  length b < length xs -> vec_copy (Vec n b) (vec_of xs tx) = UB OOBWrite.
Proof. intros T N. exact (@vec_copy_overflow T). Qed.
Print Assumptions C17_vec_copy_overflow.

(** * C18: for any arithmetic whose division and square root always answer
    (IEEE floats), nothing goes wrong on valid non-empty vectors. *)
Theorem C18_vec_safe :
  forall T (N : Num T) bc (xs ys : list T) tx ty (bx : buf T) val eps,
  length xs = length ys -> length xs <= length bx ->
  (forall a b, exists c, fdiv a b = Ok c) -> (forall a, exists c, fsqrt a = Ok c) -> xs <> [] ->
  (exists r, vec_add bc (vec_of xs tx) (vec_of ys ty) (Vec (length xs) bx) = Ok r)
  /\ (exists r, vec_sub bc (vec_of xs tx) (vec_of ys ty) (Vec (length xs) bx) = Ok r)
  /\ (exists r, vec_neg (vec_of xs tx) = Ok r)
  /\ (exists r, vec_scalar_add (vec_of xs tx) val = Ok r)
  /\ (exists r, vec_scalar_mult (vec_of xs tx) val = Ok r)
  /\ (exists r, vec_dot bc (vec_of xs tx) (vec_of ys ty) = Ok r)
  /\ (exists r, vec_sum_of_sqrs bc (vec_of xs tx) = Ok r)
  /\ (exists r, vec_norm bc (vec_of xs tx) = Ok r)
  /\ (exists r, vec_dist bc (vec_of xs tx) (vec_of ys ty) = Ok r)
  /\ (exists r, vec_to_unit bc (vec_of xs tx) = Ok r)
  /\ (exists r, vec_ar_mean (vec_of xs tx) = Ok r)
  /\ (exists r, vec_rev (vec_of xs tx) = Ok r)
  /\ (exists r, vec_zte (vec_of xs tx) = Ok r)
  /\ (exists r, vec_is_equal (vec_of xs tx) (vec_of ys ty) eps = Ok r)
  /\ (exists r, vec_is_nonneg (vec_of xs tx) = Ok r)
  /\ (exists r, vec_contains (vec_of xs tx) val eps = Ok r).
Proof. exact @vec_functions_safe. Qed.
Print Assumptions C18_vec_safe.

Example C18_example :     (* the hypotheses hold of IEEE binary64 *)
  (forall a b : float, exists c, fdiv a b = Ok c) /\ (forall a : float, exists c, fsqrt a = Ok c).
Proof. split; intros; eexists; reflexivity. Qed.
