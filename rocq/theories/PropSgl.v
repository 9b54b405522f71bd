(** Property C166: the configuration CONFIG_ZSL_SINGLE_PRECISION, where
    zsl_real_t is float.  Sums, products and norms in single precision, every
    operation rounded to nearest. *)
From Flocq Require Import Core BinarySingleNaN.
From Coq Require Import ZArith Reals Lra Lia List Bool.
From Verif Require Import Base SpecVec SpecReal SpecStat SpecMtx PFltSum NumS SpecSgl PSgl PSglSum.
From Verif Require Import Out MVec MMtx MStat PVec PMtx PMtxOps PMtxR PropVec.
Import ListNotations.
Open Scope R_scope.

Theorem C166_dot :
  forall bc (xs ys : list single) tx ty,
  length xs = length ys ->
  exists r,
    vec_dot bc (vec_of xs tx) (vec_of ys ty) = Ok (0%Z, Some r) /\
    (finites r ->
     Forall finites xs /\ Forall finites ys /\
     Rabs (SR r - rdot (map SR xs) (map SR ys))
       <= dot_bounds (length xs) (rdot (map Rabs (map SR xs)) (map Rabs (map SR ys)))).
Proof.
  intros bc xs ys tx ty L. exists (dot xs ys). split; [now apply vec_dot_ok|].
  intros H. rewrite <- abs_products. now apply dot_err_s.
Qed.
Print Assumptions C166_dot.

(** (1 + u)^k - 1 is about k u, with u = 2^-24 *)
Theorem C166_growth :
  forall k : nat, INR k * us < 1 -> INR k * us <= gams k <= INR k * us / (1 - INR k * us).
Proof. exact gams_bounds. Qed.
Print Assumptions C166_growth.

Theorem C166_mean :
  forall (xs : list single) tx,
  xs <> [] -> (Z.of_nat (length xs) < 2 ^ 24)%Z ->
  exists m,
    vec_ar_mean (vec_of xs tx) = Ok (0%Z, Some m) /\
    sta_mean (vec_of xs tx) = Ok (0%Z, Some m) /\
    (finites m ->
     Forall finites xs /\
     Rabs (SR m - rmean (map SR xs))
       <= gams (S (length xs)) * rmean (map Rabs (map SR xs)) + etas).
Proof.
  intros xs tx Hne Hn. eexists. split; [|split].
  - rewrite vec_ar_mean_ok by auto. cbn [fdiv fofZ NumS bind]. reflexivity.
  - unfold sta_mean. rewrite vec_ar_mean_ok by auto. reflexivity.
  - now apply mean_err_s.
Qed.
Print Assumptions C166_mean.

Theorem C166_norm :
  forall bc (xs : list single) tx,
  exists r,
    vec_norm bc (vec_of xs tx) = Ok r /\
    (finites r ->
     Forall finites xs /\
     Rabs (SR r - rnorm (map SR xs))
       <= gams (length xs + 2) * rnorm (map SR xs) + tinys (length xs)).
Proof.
  intros bc xs tx. eexists. split; [rewrite vec_norm_ok; reflexivity|].
  rewrite Nat.add_comm. apply norm_err_s.
Qed.
Print Assumptions C166_norm.

Theorem C166_distance :
  forall bc (xs ys : list single) tx ty,
  length xs = length ys ->
  exists r,
    vec_dist bc (vec_of xs tx) (vec_of ys ty) = Ok r /\
    (finites r ->
     Forall finites xs /\ Forall finites ys /\
     Rabs (SR r - rnorm (map2 Rminus (map SR xs) (map SR ys)))
       <= gams (length xs + 3) * rnorm (map2 Rminus (map SR xs) (map SR ys))
          + tinys (length xs)).
Proof.
  intros bc xs ys tx ty L. eexists. split; [rewrite vec_dist_ok by auto; reflexivity|].
  rewrite Nat.add_comm. now apply dist_err_s.
Qed.
Print Assumptions C166_distance.

Lemma fold_seq_dot_s n (a b : nat -> single) :
  msum n (fun k => (a k * b k)%num) = dot (map a (seq 0 n)) (map b (seq 0 n)).
Proof.
  unfold msum, dot. f_equal. generalize 0%nat as s. induction n; intros s; cbn [seq map map2]; auto.
  f_equal. apply IHn.
Qed.

Lemma rdot_seq n (a b : nat -> R) :
  rdot (map a (seq 0 n)) (map b (seq 0 n)) = bigsum n (fun k => a k * b k).
Proof.
  induction n; auto. rewrite seq_S, !map_app. cbn [map Nat.add bigsum].
  rewrite <- IHn. generalize (seq 0 n) as l. induction l; cbn; [ring|]. rewrite IHl. ring.
Qed.

Theorem C166_product :
  forall bc r n c (f g : nat -> nat -> single) ta tb mc,
  room r c mc ->
  exists p,
    mtx_mult bc (mat_of r n f ta) (mat_of n c g tb) mc = Ok (0%Z, mat_of r c p (rest mc)) /\
    forall i j, (i < r)%nat -> (j < c)%nat -> finites (p i j) ->
      (forall k, (k < n)%nat -> finites (f i k) /\ finites (g k j)) /\
      Rabs (SR (p i j) - bigsum n (fun k => SR (f i k) * SR (g k j)))
        <= dot_bounds n (bigsum n (fun k => Rabs (SR (f i k)) * Rabs (SR (g k j)))).
Proof.
  intros bc r n c f g ta tb mc Hm. eexists. split; [now apply mtx_mult_ok|].
  intros i j _ _ H. cbv beta in *. rewrite (fold_seq_dot_s n (f i) (fun k => g k j)) in *.
  apply dot_err_s in H as (F1 & F2 & B); [|now rewrite !map_length].
  rewrite abs_products, !map_map, !map_length, seq_length, !rdot_seq in B. split; auto.
  intros k Hk. rewrite Forall_map, Forall_forall in F1, F2.
  split; [apply F1|apply F2]; apply in_seq; lia.
Qed.
Print Assumptions C166_product.

(** Adding, subtracting and scaling: each component that does not overflow is
    within one rounding of the exact one *)
Theorem C166_elementwise :
  forall bc (xs ys : list single) tx ty (bx : buf single) (s : single),
  length xs = length ys -> (length xs <= length bx)%nat ->
  exists ss ds ms,
    vec_add bc (vec_of xs tx) (vec_of ys ty) (Vec (length xs) bx) = Ok (0%Z, vec_of ss (skipn (length xs) bx))
    /\ vec_sub bc (vec_of xs tx) (vec_of ys ty) (Vec (length xs) bx) = Ok (0%Z, vec_of ds (skipn (length xs) bx))
    /\ vec_scalar_mult (vec_of xs tx) s = Ok (0%Z, vec_of ms tx)
    /\ length ss = length xs /\ length ds = length xs /\ length ms = length xs
    /\ forall i z, (i < length xs)%nat -> let x := SR (nth i xs z) in let y := SR (nth i ys z) in
       (finites (nth i ss z) -> Rabs (SR (nth i ss z) - (x + y)) <= us * Rabs (x + y))
       /\ (finites (nth i ds z) -> Rabs (SR (nth i ds z) - (x - y)) <= us * Rabs (x - y))
       /\ (finites (nth i ms z) -> Rabs (SR (nth i ms z) - x * SR s) <= us * Rabs (x * SR s) + etas).
Proof.
  intros bc xs ys tx ty bx s L Lb. do 3 eexists. rewrite C02_add, C02_sub, C02_scalar_mult by assumption.
  split; [reflexivity|]. split; [reflexivity|]. split; [reflexivity|].
  rewrite !map2_length, map_length by exact L. do 3 (split; [reflexivity|]).
  intros i z Hi. cbv zeta.
  assert (M : forall op : single -> single -> single, nth i (map2 op xs ys) z = op (nth i xs z) (nth i ys z)).
  { intros op. clear -L Hi. revert ys i L Hi. induction xs as [|x xs IH]; intros [|y ys] [|i] L Hi; cbn in *; try lia; auto.
    apply IH; lia. }
  assert (M' : nth i (map (fun x => fmul x s) xs) z = fmul (nth i xs z) s).
  { rewrite (nth_indep _ z (fmul z s)) by (rewrite map_length; exact Hi). apply (map_nth (fun x => fmul x s)). }
  rewrite !M, M'.
  cbn [fadd fsub fmul NumS]. refine (conj _ (conj _ _)); intros F.
  - apply add_err_s in F as (_ & _ & d & Hd & ->).
    match goal with |- Rabs (?a * (1 + d) - ?a) <= _ => replace (a * (1 + d) - a) with (d * a) by ring end.
    rewrite !Rabs_mult. apply Rmult_le_compat_r; [apply Rabs_pos|exact Hd].
  - apply sub_err_s in F as (_ & _ & d & Hd & ->).
    match goal with |- Rabs (?a * (1 + d) - ?a) <= _ => replace (a * (1 + d) - a) with (d * a) by ring end.
    rewrite !Rabs_mult. apply Rmult_le_compat_r; [apply Rabs_pos|exact Hd].
  - apply mul_err_s in F as (_ & _ & d & e & Hd & He & ->).
    match goal with |- Rabs (?a * (1 + d) + e - ?a) <= _ => replace (a * (1 + d) + e - a) with (d * a + e) by ring end.
    eapply Rle_trans; [apply Rabs_triang|]. apply Rplus_le_compat; [|exact He].
    rewrite Rabs_mult. apply Rmult_le_compat_r; [apply Rabs_pos|exact Hd].
Qed.
Print Assumptions C166_elementwise.

(** Squares overflow early: a vector of length 2^64, about 1.8e19, has an
    infinite norm, and one of length 2^-76 has norm 0 *)
Theorem C166_norm_range_refuted :
  exists big small : single,
    SR big = 2 ^ 64 /\ SR small = / 2 ^ 76 /\ finites big /\ finites small
    /\ forall bc tx, vec_norm bc (vec_of [big] tx) = Ok (B754_infinity false)
       /\ exists z, vec_norm bc (vec_of [small] tx) = Ok z /\ SR z = 0.
Proof.
  exists (S_of_Z (2 ^ 64)), (S_div (S_of_Z 1) (S_of_Z (2 ^ 76))).
  assert (A : B2SF (S_of_Z (2 ^ 64)) = SpecFloat.S754_finite false 8388608 41) by (vm_compute; reflexivity).
  assert (B : B2SF (S_div (S_of_Z 1) (S_of_Z (2 ^ 76))) = SpecFloat.S754_finite false 8388608 (-99)) by (vm_compute; reflexivity).
  assert (E : forall x m e, B2SF x = SpecFloat.S754_finite false m e -> SR x = 1 * IZR (Zpos m) * powerRZ 2 e /\ finites x).
  { intros x m e H. destruct x; try discriminate H. cbn in H. injection H as -> -> ->. now split. }
  destruct (E _ _ _ A) as (A1 & A2). destruct (E _ _ _ B) as (B1 & B2).
  assert (P23 : 8388608 = 2 ^ 23) by (cbn; lra).
  refine (conj _ (conj _ (conj A2 (conj B2 _)))).
  - rewrite A1, P23, Rmult_1_l. change (powerRZ 2 41) with (2 ^ 41). rewrite <- pow_add. reflexivity.
  - rewrite B1, P23, Rmult_1_l. change (powerRZ 2 (-99)) with (/ 2 ^ 99). replace 99%nat with (23 + 76)%nat by reflexivity.
    rewrite pow_add. field.
  - intros bc tx. split.
    + rewrite vec_norm_ok. cbn [fsqrt NumS]. vm_compute. reflexivity.
    + eexists. rewrite vec_norm_ok. split; [reflexivity|].
      match goal with |- SR ?x = 0 => assert (Z : B2SF x = SpecFloat.S754_zero false) by (vm_compute; reflexivity); destruct x; try discriminate Z; reflexivity end.
Qed.
Print Assumptions C166_norm_range_refuted.

(** Integers are counted up to 2^24 only: adding 1 to 2^24 changes nothing *)
Theorem C166_count_refuted :
  exists r, vec_dot true (vec_of [S_of_Z (2 ^ 24); S_of_Z 1] []) (vec_of [S_of_Z 1; S_of_Z 1] []) = Ok (0%Z, Some r)
  /\ B2SF r = B2SF (S_of_Z (2 ^ 24)).
Proof. eexists. split; [apply vec_dot_ok; reflexivity|]. vm_compute. reflexivity. Qed.
Print Assumptions C166_count_refuted.

Example C166_example :
  exists r, vec_dot true (vec_of [S_of_Z 3; S_of_Z 4] []) (vec_of [S_of_Z 3; S_of_Z 4] []) = Ok (0%Z, Some r)
  /\ finites r /\ B2SF r = B2SF (S_of_Z 25)
  /\ vec_norm true (vec_of [S_of_Z 3; S_of_Z 4] []) = Ok (S_sqrt r) /\ B2SF (S_sqrt r) = B2SF (S_of_Z 5).
Proof.
  eexists. split; [apply vec_dot_ok; reflexivity|]. refine (conj _ (conj _ (conj _ _))).
  - vm_compute. reflexivity.
  - vm_compute. reflexivity.
  - rewrite vec_norm_ok. reflexivity.
  - vm_compute. reflexivity.
Qed.
