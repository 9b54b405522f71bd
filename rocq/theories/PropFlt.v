(** Rounding in the machine arithmetic: zsl_real_t as IEEE-754 binary64, every
    operation rounded to nearest (no contraction to fused multiply-add).
    The theorems of the other files are about the exact-arithmetic instance of
    the same model; these bound how far a machine run is from it. *)
From Coq Require Import Floats.PrimFloat.
From Coq Require Import ZArith Reals Lra Lia List Bool.
From Verif Require Import Base NumF NumR SpecVec SpecReal SpecStat SpecMtx SpecFlt PFlt PFltSum PFltExact PFltUnit PFltVar.
From Verif Require Import Out MVec MMtx MStat MInterp PVec PMtx PMtxOps PMtxR.
Import ListNotations.
Open Scope R_scope.

(** ** C117: dot product *)

(** If the machine result is finite then so were all the inputs, and it is
    within (1+u)^(n+1) - 1 times the sum of the |x_i y_i| (plus a term for
    underflow below 10^-300) of the exact dot product. *)
Theorem C117_dot_rounding :
  forall bc (xs ys : list float) tx ty,
  length xs = length ys ->
  exists r,
    vec_dot bc (vec_of xs tx) (vec_of ys ty) = Ok (0%Z, Some r) /\
    (finite r ->
     Forall finite xs /\ Forall finite ys /\
     Rabs (FR r - rdot (map FR xs) (map FR ys))
       <= dot_bound (length xs) (rdot (map Rabs (map FR xs)) (map Rabs (map FR ys)))).
Proof.
  intros bc xs ys tx ty L. exists (dot xs ys). split; [now apply vec_dot_ok|].
  intros H. rewrite <- abs_products. now apply dot_err.
Qed.
Print Assumptions C117_dot_rounding.

(** The growth factor is what it looks like: about k * 2^-53 *)
Theorem C117_growth :
  forall k : nat, INR k * uu < 1 ->
  INR k * uu <= gam k <= INR k * uu / (1 - INR k * uu).
Proof. exact gam_bounds. Qed.
Print Assumptions C117_growth.

(** ** C118: mean *)
Theorem C118_mean_rounding :
  forall (xs : list float) tx,
  xs <> [] -> (Z.of_nat (length xs) < 2 ^ 53)%Z ->
  exists m,
    vec_ar_mean (vec_of xs tx) = Ok (0%Z, Some m) /\
    sta_mean (vec_of xs tx) = Ok (0%Z, Some m) /\
    (finite m ->
     Forall finite xs /\
     Rabs (FR m - rmean (map FR xs))
       <= gam (S (length xs)) * rmean (map Rabs (map FR xs)) + eta).
Proof.
  intros xs tx Hne Hn. eexists. split; [|split].
  - rewrite vec_ar_mean_ok by auto. cbn [fdiv fofZ NumF bind]. reflexivity.
  - unfold sta_mean. rewrite vec_ar_mean_ok by auto. reflexivity.
  - now apply mean_err.
Qed.
Print Assumptions C118_mean_rounding.

(** With rounding, the mean can leave the range of the data: the machine mean
    of three copies of 0.1 is larger than 0.1. *)
Theorem C118_mean_in_range_refuted :
  exists x m : float,
    vec_ar_mean (vec_of [x; x; x] []) = Ok (0%Z, Some m) /\ finite m /\ FR x < FR m.
Proof.
  exists 0.1%float, 0x1.999999999999bp-4%float.
  split; [vm_compute; reflexivity|]. split; [reflexivity|].
  apply ltb_FR; vm_compute; reflexivity.
Qed.
Print Assumptions C118_mean_in_range_refuted.

(** ** C119: norm and distance *)
Theorem C119_norm_rounding :
  forall bc (xs : list float) tx,
  exists r,
    vec_norm bc (vec_of xs tx) = Ok r /\
    (finite r ->
     Forall finite xs /\
     Rabs (FR r - rnorm (map FR xs))
       <= gam (length xs + 2) * rnorm (map FR xs) + tiny (length xs)).
Proof.
  intros bc xs tx. eexists. split; [rewrite vec_norm_ok; reflexivity|].
  rewrite Nat.add_comm. apply norm_err.
Qed.
Print Assumptions C119_norm_rounding.

Theorem C119_distance_rounding :
  forall bc (xs ys : list float) tx ty,
  length xs = length ys ->
  exists r,
    vec_dist bc (vec_of xs tx) (vec_of ys ty) = Ok r /\
    (finite r ->
     Forall finite xs /\ Forall finite ys /\
     Rabs (FR r - rnorm (map2 Rminus (map FR xs) (map FR ys)))
       <= gam (length xs + 3) * rnorm (map2 Rminus (map FR xs) (map FR ys))
          + tiny (length xs)).
Proof.
  intros bc xs ys tx ty L. eexists. split; [rewrite vec_dist_ok by auto; reflexivity|].
  rewrite Nat.add_comm. now apply dist_err.
Qed.
Print Assumptions C119_distance_rounding.

(** Normalisation: for a vector of at most 2^20 elements whose norm neither
    overflows nor is below 2^-400, every element of the result is finite and
    within (n + 6) units of roundoff of the exact quotient. *)
Theorem C119_to_unit_rounding :
  forall bc (xs : list float) tx r,
  (1 <= length xs)%nat -> INR (length xs) <= 2 ^ 20 ->
  vec_norm bc (vec_of xs tx) = Ok r -> finite r ->
  / 2 ^ 400 <= rnorm (map FR xs) ->
  exists ws,
    vec_to_unit bc (vec_of xs tx) = Ok (0%Z, vec_of ws tx) /\
    length ws = length xs /\
    forall i, (i < length xs)%nat ->
      let x := FR (nth i xs zero) in let w := FR (nth i ws zero) in
      finite (nth i ws zero) /\
      Rabs (w - x / rnorm (map FR xs))
        <= (INR (length xs) + 6) * uu * (Rabs x / rnorm (map FR xs)) + eta.
Proof.
  intros bc xs tx r Hn Hn' Hr Fr HN. rewrite vec_norm_ok in Hr.
  injection Hr as <-.
  destruct (unit_err xs) as (Z & U); auto.
  { eapply Rle_trans; [exact Hn'|]. rewrite pow_IZR. apply IZR_le. discriminate. }
  eexists. split; [|split].
  - rewrite vec_to_unit_eq. cbn [fsqrt NumF bind]. unfold fne. cbn [feq f0 NumF].
    rewrite Z. cbn [negb fdiv NumF bind f1]. reflexivity.
  - now rewrite map_length.
  - intros i Hi. cbv zeta. rewrite nth_indep with (d' := (zero * (one / PrimFloat.sqrt (dot xs xs)))%float)
      by now rewrite map_length.
    rewrite (map_nth (fun x => (x * (one / PrimFloat.sqrt (dot xs xs)))%float)).
    apply U. now apply nth_In.
Qed.
Print Assumptions C119_to_unit_rounding.

(** The requirement that the result be finite is not idle.  The squares are
    summed unscaled, so a vector whose norm is an ordinary machine number (here
    2^600) can still overflow, and a nonzero vector can have norm zero; its
    normalisation is then the first axis, whatever its direction. *)
Theorem C119_norm_overflow_refuted :
  exists x : float,
    finite x /\ FR x = 2 ^ 600 /\
    forall bc tx, vec_norm bc (vec_of [x] tx) = Ok infinity.
Proof.
  exists 0x1p600%float. split; [reflexivity|]. split.
  - unfold FR.
    replace (FloatOps.Prim2SF 0x1p600%float)
      with (SpecFloat.S754_finite false 4503599627370496 548) by (vm_compute; reflexivity).
    change (powerRZ 2 548) with (2 ^ Pos.to_nat 548).
    change (Pos.to_nat 548) with 548%nat.
    replace 4503599627370496 with (2 ^ 52) by (rewrite pow_IZR; reflexivity).
    rewrite Rmult_1_l, <- pow_add. reflexivity.
  - intros bc tx. rewrite vec_norm_ok. vm_compute. reflexivity.
Qed.
Print Assumptions C119_norm_overflow_refuted.

Theorem C119_tiny_direction_refuted :
  exists y : float,
    finite y /\ FR y = / 2 ^ 600 /\
    forall bc tx, vec_to_unit bc (vec_of [zero; y] tx) = Ok (0%Z, vec_of [one; zero] tx).
Proof.
  exists 0x1p-600%float. split; [reflexivity|]. split.
  - unfold FR.
    replace (FloatOps.Prim2SF 0x1p-600%float)
      with (SpecFloat.S754_finite false 4503599627370496 (-652)) by (vm_compute; reflexivity).
    change (powerRZ 2 (-652)) with (/ 2 ^ Pos.to_nat 652).
    change (Pos.to_nat 652) with 652%nat.
    replace 4503599627370496 with (2 ^ 52) by (rewrite pow_IZR; reflexivity).
    rewrite Rmult_1_l. now apply pow_cancel.
  - intros bc tx. rewrite vec_to_unit_eq.
    replace (dot [zero; 0x1p-600%float] [zero; 0x1p-600%float]) with zero by (vm_compute; reflexivity).
    reflexivity.
Qed.
Print Assumptions C119_tiny_direction_refuted.

(** ** C120: matrix product *)
Lemma fold_seq_dot n (a b : nat -> float) :
  msum n (fun k => (a k * b k)%num) = dot (map a (seq 0 n)) (map b (seq 0 n)).
Proof.
  unfold msum, dot. f_equal. generalize 0%nat as s. induction n; intros s; cbn; auto.
  f_equal. apply IHn.
Qed.

Lemma rdot_seq n (a b : nat -> R) :
  rdot (map a (seq 0 n)) (map b (seq 0 n)) = bigsum n (fun k => a k * b k).
Proof.
  induction n; auto. rewrite seq_S, !map_app. cbn [map Nat.add bigsum].
  rewrite <- IHn. generalize (seq 0 n) as l. induction l; cbn; [ring|]. rewrite IHl. ring.
Qed.

Theorem C120_product_rounding :
  forall bc r n c (f g : nat -> nat -> float) ta tb mc,
  room r c mc ->
  exists p,
    mtx_mult bc (mat_of r n f ta) (mat_of n c g tb) mc = Ok (0%Z, mat_of r c p (rest mc)) /\
    forall i j, (i < r)%nat -> (j < c)%nat -> finite (p i j) ->
      (forall k, (k < n)%nat -> finite (f i k) /\ finite (g k j)) /\
      Rabs (FR (p i j) - bigsum n (fun k => FR (f i k) * FR (g k j)))
        <= dot_bound n (bigsum n (fun k => Rabs (FR (f i k)) * Rabs (FR (g k j)))).
Proof.
  intros bc r n c f g ta tb mc Hm. eexists. split; [now apply mtx_mult_ok|].
  intros i j _ _ H. cbv beta in *. rewrite (fold_seq_dot n (f i) (fun k => g k j)) in *.
  apply dot_err in H as (F1 & F2 & B); [|now rewrite !map_length].
  rewrite abs_products, !map_map, !map_length, seq_length, !rdot_seq in B. split; auto.
  intros k Hk. rewrite Forall_map, Forall_forall in F1, F2.
  split; [apply F1|apply F2]; apply in_seq; lia.
Qed.
Print Assumptions C120_product_rounding.

(** ** C121: symmetries that survive rounding exactly *)
Theorem C121_dot_symmetric :
  forall bc (xs ys : list float) tx ty,
  length xs = length ys ->
  vec_dot bc (vec_of xs tx) (vec_of ys ty) = vec_dot bc (vec_of ys ty) (vec_of xs tx).
Proof. intros. now rewrite !vec_dot_ok, dot_F_comm by auto. Qed.
Print Assumptions C121_dot_symmetric.

Theorem C121_distance_symmetric :
  forall bc (xs ys : list float) tx ty,
  length xs = length ys ->
  vec_dist bc (vec_of xs tx) (vec_of ys ty) = vec_dist bc (vec_of ys ty) (vec_of xs tx).
Proof. intros. now rewrite !vec_dist_ok, dot_F_sub by auto. Qed.
Print Assumptions C121_distance_symmetric.

(** (A B)^T and B^T A^T are the same matrix, bit for bit *)
Theorem C121_product_transpose :
  forall bc r n c (f g : nat -> nat -> float) ta tb tc td mc md,
  room r c mc -> room c r md ->
  exists p,
    mtx_mult bc (mat_of r n f ta) (mat_of n c g tb) mc = Ok (0%Z, mat_of r c p (rest mc)) /\
    mtx_mult bc (mat_of c n (fun i j => g j i) tc) (mat_of n r (fun i j => f j i) td) md
    = Ok (0%Z, mat_of c r (fun i j => p j i) (rest md)).
Proof.
  intros bc r n c f g ta tb tc td mc md Hm Hd. eexists. split; [now apply mtx_mult_ok|].
  rewrite mtx_mult_ok by auto. do 2 f_equal. apply mat_ext. intros i j _ _. cbv beta.
  rewrite (fold_seq_dot n (fun k => g k i) (fun k => f j k)).
  rewrite (fold_seq_dot n (fun k => f j k) (fun k => g k i)). apply dot_F_comm.
Qed.
Print Assumptions C121_product_transpose.

(** ** C122: linear interpolation *)
Theorem C122_lerp_endpoints :
  forall v0 v1 : float, finite v0 -> finite v1 ->
  (exists r, interp_lerp v0 v1 zero = Ok (0%Z, Set_ r) /\ finite r /\ FR r = FR v0) /\
  (exists r, interp_lerp v0 v1 one = Ok (0%Z, Set_ r) /\ finite r /\ FR r = FR v1).
Proof.
  intros v0 v1 F0 F1. split; eexists; (split; [vm_compute; reflexivity|]).
  - destruct (mul_exact_one v0 F0) as (A1 & A2). destruct (mul_exact_zero v1 F1) as (A3 & A4).
    apply (add_exact _ _ A1) in A3 as (A5 & A6); [|tauto].
    rewrite A2, A4, Rplus_0_r in A6. auto.
  - destruct (mul_exact_one v1 F1) as (A1 & A2). destruct (mul_exact_zero v0 F0) as (A3 & A4).
    apply (add_exact _ _ A3) in A1 as (A5 & A6); [|tauto].
    rewrite A2, A4, Rplus_0_l in A6. auto.
Qed.
Print Assumptions C122_lerp_endpoints.

Theorem C122_lerp_rounding :
  forall v0 v1 t : float, finite t -> 0 <= FR t <= 1 ->
  exists r,
    interp_lerp v0 v1 t = Ok (0%Z, Set_ r) /\
    (finite r ->
     finite v0 /\ finite v1 /\
     Rabs (FR r - ((1 - FR t) * FR v0 + FR t * FR v1))
       <= gam 3 * ((1 - FR t) * Rabs (FR v0) + FR t * Rabs (FR v1)) + 3 * eta).
Proof.
  intros v0 v1 t Ft Ht. exists ((one - t) * v0 + t * v1)%float. split.
  - unfold interp_lerp.
    change (flit 10 1) with (F_lit 10 1). replace (F_lit 10 1) with one by (vm_compute; reflexivity).
    cbn [flt f0 NumF fsub fmul fadd].
    assert (E1 : (t <? zero)%float = false).
    { apply not_true_is_false. rewrite ltb_FR by (auto; reflexivity). rewrite FR_zero. lra. }
    assert (E2 : (one <? t)%float = false).
    { apply not_true_is_false. rewrite ltb_FR by (auto; reflexivity). rewrite FR_one. lra. }
    change (t >? one)%num with (one <? t)%float. now rewrite E1, E2.
  - intros F. now apply lerp_err.
Qed.
Print Assumptions C122_lerp_rounding.

(** ** C123: sample variance and standard deviation *)

(** The variance that the two-pass formula computes is never negative, so the
    standard deviation is a number; and its error is relative to the variance
    itself, not to the squares of the data: the data's size enters only through
    the square of the error of the mean. *)
Theorem C123_variance_rounding :
  forall bc W (xs : list float) tx,
  let n := length xs in
  let ys := map FR xs in
  let s2 := rdot (dev ys) (dev ys) / (INR n - 1) in
  let b := gam (n + 1) * rmean (map Rabs ys) + eta in
  let c := INR n / (INR n - 1) * (b * b) in
  (2 <= n)%nat -> (Z.of_nat n < 2 ^ 53)%Z -> (Z.of_nat n <= W)%Z ->
  exists v,
    sta_var bc W (vec_of xs tx) = Ok (0%Z, Some v) /\
    (finite v ->
     Forall finite xs /\ 0 <= FR v /\
     Rabs (FR v - s2)
       <= gam (n + 4) * (s2 + c) + c + ((1 + gam n) * INR n + 1) * 2 * eta).
Proof.
  intros bc W xs tx n ys s2 b c Hn Hn' HW.
  eexists. split; [now apply var_F|]. intros Hv.
  pose proof (var_err xs Hn Hn' Hv) as V. cbv zeta in V. fold n ys in V.
  unfold s2, c, b, dev. rewrite sqdev_dev. rewrite Nat.add_1_r. exact V.
Qed.
Print Assumptions C123_variance_rounding.

Theorem C123_std_dev_rounding :
  forall bc W (xs : list float) tx v,
  (2 <= length xs)%nat -> (Z.of_nat (length xs) < 2 ^ 53)%Z -> (Z.of_nat (length xs) <= W)%Z ->
  sta_var bc W (vec_of xs tx) = Ok (0%Z, Some v) -> finite v ->
  exists s,
    sta_std_dev bc W (vec_of xs tx) = Ok (0%Z, Some s) /\ finite s /\
    Rabs (FR s - sqrt (FR v)) <= uu * sqrt (FR v).
Proof.
  intros bc W xs tx v Hn Hn' HW E Fv. unfold sta_std_dev. rewrite E. cbn [bind lval fsqrt NumF].
  eexists. split; [reflexivity|].
  rewrite var_F in E by auto. injection E as E. subst v.
  destruct (var_err xs Hn Hn' Fv) as (_ & P & _).
  pose proof (sqrt_finite _ Fv P) as Fs. split; auto.
  destruct (sqrt_err _ Fs) as (_ & _ & d & Hd & ->).
  match goal with |- Rabs (?a * _ - _) <= _ => replace (a * (1 + d) - a) with (d * a) by ring end.
  rewrite Rabs_mult, (Rabs_pos_eq (sqrt _)) by apply sqrt_pos.
  apply Rmult_le_compat_r; [apply sqrt_pos|auto].
Qed.
Print Assumptions C123_std_dev_rounding.

(** ** The hypotheses are met by ordinary data *)
Definition data : list float := [F 3 0; F 4 0].

Lemma data_FR : map FR data = [3; 4].
Proof.
  unfold data. cbn [map]. replace (F 3 0) with (F_of_Z (Z.of_nat 3)) by (vm_compute; reflexivity).
  replace (F 4 0) with (F_of_Z (Z.of_nat 4)) by (vm_compute; reflexivity).
  rewrite !(fun n H => proj2 (FR_of_nat n H)) by reflexivity. cbn. repeat f_equal; ring.
Qed.

Lemma data_norm : rnorm (map FR data) = 5.
Proof.
  rewrite data_FR. unfold rnorm. cbn [rdot].
  replace (3 * 3 + (4 * 4 + 0)) with (5 * 5) by ring. apply sqrt_square. lra.
Qed.

Example C119_example :
  exists r, vec_norm true (vec_of data []) = Ok r /\ finite r /\
  (1 <= length data)%nat /\ INR (length data) <= 2 ^ 20 /\ / 2 ^ 400 <= rnorm (map FR data).
Proof.
  eexists. split; [vm_compute; reflexivity|]. split; [reflexivity|]. split; [cbn; lia|]. split.
  - cbn [length data]. rewrite pow_IZR, INR_IZR_INZ. apply IZR_le. discriminate.
  - rewrite data_norm. apply Rle_trans with (/ 2 ^ 0); [apply inv_pow_le; lia|]. cbn. lra.
Qed.

Example C117_example :
  exists r, vec_dot true (vec_of data []) (vec_of data []) = Ok (0%Z, Some r) /\ finite r.
Proof. eexists. split; [vm_compute; reflexivity|reflexivity]. Qed.

Example C118_example :
  exists m, vec_ar_mean (vec_of data []) = Ok (0%Z, Some m) /\ finite m.
Proof. eexists. split; [vm_compute; reflexivity|reflexivity]. Qed.

Example C120_example :
  exists p, msum 2 (fun k => (nth k data zero * nth k data zero)%num) = p /\ finite p.
Proof. eexists. split; [vm_compute; reflexivity|reflexivity]. Qed.

Example C122_example :
  finite (F 25 2) /\ 0 <= FR (F 25 2) <= 1 /\
  exists r, interp_lerp (F 3 0) (F 4 0) (F 25 2) = Ok (0%Z, Set_ r) /\ finite r.
Proof.
  split; [reflexivity|]. split.
  - split.
    + apply Rnot_lt_le. rewrite <- FR_zero, <- ltb_FR by reflexivity. vm_compute. discriminate.
    + apply Rnot_lt_le. rewrite <- FR_one, <- ltb_FR by reflexivity. vm_compute. discriminate.
  - eexists. split; [vm_compute; reflexivity|reflexivity].
Qed.

Example C123_example :
  exists v, sta_var true 1000 (vec_of data []) = Ok (0%Z, Some v) /\ finite v.
Proof. eexists. split; [vm_compute; reflexivity|reflexivity]. Qed.
