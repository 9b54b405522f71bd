(** Property C156: element-wise arithmetic on vectors and matrices in double
    precision (zsl_vec_add, _sub, _neg, _scalar_add, _scalar_mult, _scalar_div,
    zsl_mtx_add, _sub, _scalar_mult_d, zsl_mtx_binary_op).

    Every entry of the result is the machine number closest to the exact one:
    one rounding per entry and no other error.  [FR x] is the real value of a
    double, [finite x] says that it is neither infinite nor NaN. *)
From Coq Require Import Floats.PrimFloat.
From Flocq Require Import Core BinarySingleNaN PrimFloat.
From Coq Require Import ZArith Reals Lra Lia List Bool Arith.
From Verif Require Import Base BaseFacts NumF Libm SpecVec SpecMtx SpecFlt MVec MMtx PVec PMtx PMtxOps PFlt PFltUnit PFltVar PFltQuat PRgbFlt PFltStat PropVec PropMtx PPoly.
Import ListNotations.
Open Scope R_scope.

(** [r] is as good a machine number for the real number [x] as there is: no
    other one is closer; and it is finite unless [x] is astronomical. *)
Definition best (r : double) (x : R) : Prop :=
  (Rabs x <= 2 ^ 1000 -> finite r) /\
  (finite r -> forall z : double, finite z -> Rabs (FR r - x) <= Rabs (FR z - x)).

Lemma rnd_best r x : (Rabs x <= 2 ^ 1000 -> finite r) -> (finite r -> FR r = rnd64 x) -> best r x.
Proof.
  intros F E. split; [exact F|]. intros Fr z _. rewrite (E Fr).
  destruct (@round_N_pt radix2 fexp64 (fexp_correct FloatOps.prec FloatOps.emax Hprec) (fun x => negb (Z.even x)) x) as (_ & H).
  apply H, FR_format.
Qed.

Lemma best_add x y : finite x -> finite y -> best (x + y)%float (FR x + FR y).
Proof. intros Hx Hy. apply rnd_best; [now apply add_finite|]. intros F. now apply add_rnd in F as (_ & _ & ->). Qed.
Lemma best_sub x y : finite x -> finite y -> best (x - y)%float (FR x - FR y).
Proof. intros Hx Hy. apply rnd_best; [now apply sub_finite|]. intros F. now apply sub_rnd in F as (_ & _ & ->). Qed.
Lemma best_mul x y : finite x -> finite y -> best (x * y)%float (FR x * FR y).
Proof. intros Hx Hy. apply rnd_best; [now apply mul_finite|]. intros F. now apply mul_rnd in F as (_ & _ & ->). Qed.
Lemma best_div x y : finite x -> FR y <> 0 -> best (x / y)%float (FR x / FR y).
Proof. intros Hx Hy. apply rnd_best; [now apply div_finite|]. intros F. apply div_rnd in F as (_ & ->); auto. Qed.

Lemma nth_map2 (g : double -> double -> double) xs : forall ys i, length xs = length ys -> (i < length xs)%nat ->
  nth i (map2 g xs ys) 0%float = g (nth i xs 0%float) (nth i ys 0%float).
Proof.
  induction xs as [|x xs IH]; intros [|y ys] i L Hi; try discriminate; [cbn in Hi; lia|].
  destruct i as [|i]; [reflexivity|]. cbn [map2 nth]. apply IH; cbn in *; lia.
Qed.

Lemma nth_map1 (g : double -> double) xs i : (i < length xs)%nat -> nth i (map g xs) 0%float = g (nth i xs 0%float).
Proof. intros H. rewrite (nth_indep _ 0%float (g 0%float)) by now rewrite map_length. apply map_nth. Qed.

Definition all_finite (xs : list double) : Prop := forall x, In x xs -> finite x.
Lemma nth_fin xs i : all_finite xs -> (i < length xs)%nat -> finite (nth i xs 0%float).
Proof. intros H Hi. apply H, nth_In, Hi. Qed.

(** * Vectors *)
Theorem C156_vec_add_sub :
  forall bc (xs ys : list double) tx ty (bx : buf double),
  length xs = length ys -> (length xs <= length bx)%nat -> all_finite xs -> all_finite ys ->
  exists ss ds,
     vec_add bc (vec_of xs tx) (vec_of ys ty) (Vec (length xs) bx) = Ok (0%Z, vec_of ss (skipn (length xs) bx))
  /\ vec_sub bc (vec_of xs tx) (vec_of ys ty) (Vec (length xs) bx) = Ok (0%Z, vec_of ds (skipn (length xs) bx))
  /\ length ss = length xs /\ length ds = length xs
  /\ forall i, (i < length xs)%nat ->
       best (nth i ss 0%float) (FR (nth i xs 0%float) + FR (nth i ys 0%float))
    /\ best (nth i ds 0%float) (FR (nth i xs 0%float) - FR (nth i ys 0%float)).
Proof.
  intros bc xs ys tx ty bx L Lb Fx Fy. do 2 eexists. rewrite C02_add, C02_sub by assumption.
  split; [reflexivity|]. split; [reflexivity|]. rewrite !map2_length by exact L. split; [reflexivity|]. split; [reflexivity|].
  intros i Hi. rewrite !nth_map2 by assumption. split; [apply best_add|apply best_sub]; apply nth_fin; auto; lia.
Qed.
Print Assumptions C156_vec_add_sub.

Theorem C156_vec_scalar :
  forall (xs : list double) tl (s : double), all_finite xs -> finite s ->
  (exists rs, vec_scalar_add (vec_of xs tl) s = Ok (0%Z, vec_of rs tl) /\ length rs = length xs
     /\ forall i, (i < length xs)%nat -> best (nth i rs 0%float) (FR (nth i xs 0%float) + FR s))
  /\ (exists rs, vec_scalar_mult (vec_of xs tl) s = Ok (0%Z, vec_of rs tl) /\ length rs = length xs
     /\ forall i, (i < length xs)%nat -> best (nth i rs 0%float) (FR (nth i xs 0%float) * FR s))
  /\ (FR s <> 0 -> exists rs, vec_scalar_div (vec_of xs tl) s = Ok (0%Z, vec_of rs tl) /\ length rs = length xs
     /\ forall i, (i < length xs)%nat -> best (nth i rs 0%float) (FR (nth i xs 0%float) / FR s))
  /\ (FR s = 0 -> vec_scalar_div (vec_of xs tl) s = Ok ((- EINVAL)%Z, vec_of xs tl))
  /\ (exists rs, vec_neg (vec_of xs tl) = Ok (0%Z, vec_of rs tl) /\ length rs = length xs
     /\ forall i, (i < length xs)%nat -> finite (nth i rs 0%float) /\ FR (nth i rs 0%float) = - FR (nth i xs 0%float)).
Proof.
  intros xs tl s Fx Fs.
  assert (Z : feq s f0 = if Req_EM_T (FR s) 0 then true else false).
  { change (feq s f0) with (PrimFloat.eqb s zero). rewrite eqb_dec by (auto; reflexivity). now rewrite FR_zero. }
  split; [|split; [|split; [|split]]].
  - eexists. rewrite C02_scalar_add. split; [reflexivity|]. rewrite map_length. split; [reflexivity|].
    intros i Hi. rewrite nth_map1 by exact Hi. apply best_add; auto. now apply nth_fin.
  - eexists. rewrite C02_scalar_mult. split; [reflexivity|]. rewrite map_length. split; [reflexivity|].
    intros i Hi. rewrite nth_map1 by exact Hi. apply best_mul; auto. now apply nth_fin.
  - intros Ns. exists (map (fun x => (x / s)%float) xs). rewrite C02_scalar_div with (quot := fun x => (x / s)%float); [|rewrite Z; now destruct Req_EM_T|reflexivity].
    split; [reflexivity|]. rewrite map_length. split; [reflexivity|].
    intros i Hi. rewrite nth_map1 by exact Hi. apply best_div; auto. now apply nth_fin.
  - intros Es. apply C02_scalar_div_zero. rewrite Z. now destruct Req_EM_T.
  - eexists. rewrite C02_neg. split; [reflexivity|]. rewrite map_length. split; [reflexivity|].
    intros i Hi. rewrite nth_map1 by exact Hi. split; [apply opp_finite, nth_fin; auto|apply opp_FR].
Qed.
Print Assumptions C156_vec_scalar.

(** * Matrices *)
Definition mtx_finite r c (f : nat -> nat -> double) : Prop := forall i j, (i < r)%nat -> (j < c)%nat -> finite (f i j).

Theorem C156_mtx_add_sub :
  forall bc r c (f g : nat -> nat -> double) ta tb mc, room r c mc -> mtx_finite r c f -> mtx_finite r c g ->
  exists s d,
     mtx_add bc (mat_of r c f ta) (mat_of r c g tb) mc = Ok (0%Z, mat_of r c s (rest mc))
  /\ mtx_sub bc (mat_of r c f ta) (mat_of r c g tb) mc = Ok (0%Z, mat_of r c d (rest mc))
  /\ mtx_add_d bc (mat_of r c f ta) (mat_of r c g tb) = Ok (0%Z, mat_of r c s ta)
  /\ mtx_sub_d bc (mat_of r c f ta) (mat_of r c g tb) = Ok (0%Z, mat_of r c d ta)
  /\ forall i j, (i < r)%nat -> (j < c)%nat ->
       best (s i j) (FR (f i j) + FR (g i j)) /\ best (d i j) (FR (f i j) - FR (g i j)).
Proof.
  intros bc r c f g ta tb mc Hm Ff Fg. exists (fun i j => (f i j + g i j)%float), (fun i j => (f i j - g i j)%float).
  destruct (C22_add_sub_in_place _ _ bc r c f g ta tb) as (A & B).
  split; [now apply C22_add|]. split; [now apply C22_sub|]. split; [exact A|]. split; [exact B|].
  intros i j Hi Hj. split; [apply best_add|apply best_sub]; auto.
Qed.
Print Assumptions C156_mtx_add_sub.

Theorem C156_mtx_scalar_mult :
  forall r c (f : nat -> nat -> double) tl (s : double), mtx_finite r c f -> finite s ->
  exists g, mtx_scalar_mult_d (mat_of r c f tl) s = Ok (0%Z, mat_of r c g tl)
  /\ forall i j, (i < r)%nat -> (j < c)%nat -> best (g i j) (FR (f i j) * FR s).
Proof.
  intros r c f tl s Ff Fs. eexists. split; [apply C27_scalar_mult|]. intros i j Hi Hj. apply best_mul; auto.
Qed.
Print Assumptions C156_mtx_scalar_mult.

(** Multiplication and division element by element; a zero divisor gives 0. *)
Theorem C156_mtx_binary_op :
  forall (M : NumM double) bc (st : store double) pa pb pc r c f g ta tb mc,
  nth_error st pa = Some (mbuf (mat_of r c f ta)) ->
  nth_error st pb = Some (mbuf (mat_of r c g tb)) ->
  nth_error st pc = Some (mbuf mc) -> room r c mc -> mtx_finite r c f -> mtx_finite r c g ->
  (exists h, mtx_binary_op_st bc st (MR r c pa) (MR r c pb) (MR r c pc) BMult
     = Ok (0%Z, upd st pc (mbuf (mat_of r c h (rest mc))))
     /\ forall i j, (i < r)%nat -> (j < c)%nat -> best (h i j) (FR (f i j) * FR (g i j)))
  /\ (exists h, mtx_binary_op_st bc st (MR r c pa) (MR r c pb) (MR r c pc) BDiv
     = Ok (0%Z, upd st pc (mbuf (mat_of r c h (rest mc))))
     /\ forall i j, (i < r)%nat -> (j < c)%nat ->
          (FR (g i j) <> 0 -> best (h i j) (FR (f i j) / FR (g i j))) /\ (FR (g i j) = 0 -> FR (h i j) = 0)).
Proof.
  intros M bc st pa pb pc r c f g ta tb mc Ha Hb Hc Hm Ff Fg. split.
  - exists (fun i j => (f i j * g i j)%float). split; [|intros; apply best_mul; auto].
    eapply C22_binary_op; eauto. cbn; tauto.
  - exists (fun i j => if PrimFloat.eqb (g i j) zero then zero else (f i j / g i j)%float). split.
    + eapply C22_binary_op; eauto; [|cbn; tauto]. intros i j _ _. cbn [op_of feq f0 fdiv NumF]. now destruct PrimFloat.eqb.
    + intros i j Hi Hj. rewrite eqb_dec by (auto; reflexivity). rewrite FR_zero. destruct Req_EM_T as [E|E].
      * split; [contradiction|]. intros _. apply FR_zero.
      * split; [|contradiction]. intros _. apply best_div; auto.
Qed.
Print Assumptions C156_mtx_binary_op.

Example C156_example :
  vec_add true (vec_of [0.1%float; 1e300%float] []) (vec_of [0.2%float; 1%float] []) (Vec 2 (fresh 2))
  = Ok (0%Z, vec_of [0.30000000000000004%float; 1e300%float] [])
  /\ vec_scalar_div (vec_of [1%float; (-7)%float] []) 3%float
  = Ok (0%Z, vec_of [0.33333333333333331%float; (-2.3333333333333335)%float] []).
Proof. vm_compute. split; reflexivity. Qed.
