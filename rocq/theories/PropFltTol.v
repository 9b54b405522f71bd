(** Property C155: the comparisons within a tolerance in double precision
    (zsl_vec_is_equal, zsl_vec_contains, zsl_vec_is_nonneg, zsl_mtx_is_notneg,
    zsl_mtx_is_sym).  The difference is rounded before it is compared, and yet a
    positive answer is right exactly; only a pair whose distance is within one
    unit roundoff of the tolerance may be turned down.

    [FR x] is the real value of a double, [finite x] says that it is neither
    infinite nor NaN, [uu] is the unit roundoff 2^-53 and [gap (a, b)] is the
    exact distance |a - b|.  Differences that overflow are included. *)
From Coq Require Import Floats.PrimFloat.
From Coq Require Import ZArith Reals Lra Lia List Bool Arith.
From Verif Require Import Base BaseFacts NumF NumR SpecVec SpecMtx SpecFlt MVec MMtx PVec PMtx PMtxOps PFlt PFltUnit PFltQuat PRgbFlt PNanQuat PFltCmp PFltTol PPoly.
Import ListNotations.
Open Scope R_scope.

(** * Equality of vectors *)
Theorem C155_equal :
  forall (xs ys : list double) tx ty (eps : double), length xs = length ys ->
  (forall x, In x xs -> finite x) -> (forall y, In y ys -> finite y) -> finite eps -> 0 <= FR eps ->
  exists b, vec_is_equal (vec_of xs tx) (vec_of ys ty) eps = Ok b
  /\ (b = true -> forall p, In p (combine xs ys) -> gap p < FR eps)
  /\ ((forall p, In p (combine xs ys) -> gap p * (1 + uu) < FR eps) -> b = true).
Proof. exact vec_is_equal_F. Qed.
Print Assumptions C155_equal.

(** * How many entries are near a value *)
(** the number of entries whose distance to [val], times [k], is below [eps] *)
Definition nearer (k : R) (val eps : double) (xs : list double) : nat :=
  length (filter (fun a => if Rlt_dec (gap (a, val) * k) (FR eps) then true else false) xs).

Theorem C155_contains :
  forall (xs : list double) tx (val eps : double),
  (forall x, In x xs -> finite x) -> finite val -> finite eps -> 0 <= FR eps ->
  exists n, vec_contains (vec_of xs tx) val eps = Ok n
  /\ (nearer (1 + uu) val eps xs <= n <= nearer 1 val eps xs)%nat.
Proof.
  intros xs tx val eps Fx Fv Fe He. rewrite vec_contains_ok. eexists. split; [reflexivity|]. unfold nearer.
  induction xs as [|a l IH]; [split; apply le_n|]. destruct IH as (A & B); [intros; apply Fx; now right|].
  destruct (near_F (Fx a (or_introl eq_refl)) Fv Fe He) as (C & D). rewrite <- (Rmult_1_r (gap (a, val))) in C. cbn [filter].
  split; repeat destruct Rlt_dec; destruct (PVec.near val eps a) eqn:E; cbn [length]; try lia;
    exfalso; match goal with H : ~ _ |- _ => now apply H, C | _ => now specialize (D ltac:(assumption)) end.
Qed.
Print Assumptions C155_contains.

(** * Signs: exact *)
Theorem C155_nonneg :
  forall (xs : list double) tx, (forall x, In x xs -> finite x) ->
  exists b, vec_is_nonneg (vec_of xs tx) = Ok b /\ (b = true <-> forall x, In x xs -> 0 <= FR x).
Proof.
  intros xs tx Fx. rewrite vec_is_nonneg_ok. eexists. split; [reflexivity|]. rewrite forallb_forall.
  split; intros H x Hx; specialize (H x Hx).
  - apply negb_true_iff in H. change (flt x f0) with (PrimFloat.ltb x 0) in H. rewrite ltb_dec in H by (auto; reflexivity).
    change 0%float with zero in H; rewrite FR_zero in H. destruct Rlt_dec; [discriminate|lra].
  - apply negb_true_iff. change (flt x f0) with (PrimFloat.ltb x 0). rewrite ltb_dec by (auto; reflexivity).
    change 0%float with zero; rewrite FR_zero. destruct Rlt_dec; [lra|reflexivity].
Qed.
Print Assumptions C155_nonneg.

Theorem C155_notneg :
  forall r c (f : nat -> nat -> double) tl, (forall i j, (i < r)%nat -> (j < c)%nat -> finite (f i j)) ->
  exists b, mtx_is_notneg (mat_of r c f tl) = Ok b
  /\ (b = true <-> forall i j, (i < r)%nat -> (j < c)%nat -> 0 <= FR (f i j)).
Proof.
  intros r c f tl Ff. rewrite mtx_is_notneg_ok. eexists. split; [reflexivity|]. rewrite forallb_elems.
  split; intros H i j Hi Hj; specialize (H i j Hi Hj).
  - apply negb_true_iff in H. change (flt (f i j) f0) with (PrimFloat.ltb (f i j) 0) in H. rewrite ltb_dec in H by (auto; reflexivity).
    change 0%float with zero in H; rewrite FR_zero in H. destruct Rlt_dec; [discriminate|lra].
  - apply negb_true_iff. change (flt (f i j) f0) with (PrimFloat.ltb (f i j) 0). rewrite ltb_dec by (auto; reflexivity).
    change 0%float with zero; rewrite FR_zero. destruct Rlt_dec; [lra|reflexivity].
Qed.
Print Assumptions C155_notneg.

(** * Symmetry, within 1e-6 *)
Theorem C155_symmetric :
  forall bc n (f : nat -> nat -> double) tl, (forall i j, (i < n)%nat -> (j < n)%nat -> finite (f i j)) ->
  exists b, mtx_is_sym bc (mat_of n n f tl) = Ok b
  /\ (b = true -> forall i j, (i < n)%nat -> (j < n)%nat -> gap (f i j, f j i) < 1000001 / 1000000000000)
  /\ ((forall i j, (i < n)%nat -> (j < n)%nat -> gap (f i j, f j i) < 999998 / 1000000000000) -> b = true).
Proof.
  intros bc n f tl Ff. destruct (mtx_is_sym_ok bc n f tl) as (b & E & H). exists b. split; [exact E|].
  destruct lit_tiny as (_ & L1 & L2). rewrite H. split; intros A i j Hi Hj; specialize (A i j Hi Hj);
    destruct (asym_F (Ff i j Hi Hj) (Ff j i Hj Hi)) as (C & D).
  - apply C in A. lra.
  - apply D. assert (U : 0 < uu <= / 1000000000) by (rewrite uu_val; lra).
    assert (G : 0 <= gap (f i j, f j i)) by apply Rabs_pos. set (g := gap (f i j, f j i)) in *.
    assert (g * uu <= g * / 1000000000) by (apply Rmult_le_compat_l; lra). lra.
Qed.
Print Assumptions C155_symmetric.

(** * NaN compares equal to everything, is never found, and has no sign *)
Theorem C155_nan_refuted :
  forall (xs ys : list double) tx ty (eps : double),
  (forall x, In x xs -> nanf x) -> length xs = length ys ->
  vec_is_equal (vec_of xs tx) (vec_of ys ty) eps = Ok true
  /\ vec_contains (vec_of xs tx) eps eps = Ok 0%nat
  /\ vec_is_nonneg (vec_of xs tx) = Ok true
  /\ (forall bc n (f : nat -> nat -> double) tl,
        (forall i j, (i < n)%nat -> (j < n)%nat -> i <> j -> nanf (f i j)) ->
        (forall i, (i < n)%nat -> finite (f i i)) ->
        mtx_is_sym bc (mat_of n n f tl) = Ok true).
Proof.
  intros xs ys tx ty eps Hx L. repeat match goal with |- _ /\ _ => split end.
  - rewrite vec_is_equal_ok by exact L. f_equal. revert ys L. induction xs as [|x xs IH]; intros [|y ys] L; try discriminate; [reflexivity|].
    injection L as L. cbn [map2 forallb]. rewrite (IH (fun z H => Hx z (or_intror H)) ys L), andb_true_r.
    assert (Nx : nanf (x - y)%float) by (apply nan_sub_l, Hx; now left).
    change (negb (PrimFloat.leb eps (x - y)%float || PrimFloat.leb eps (- (x - y))%float) = true).
    apply is_nan_nanf in Nx. destruct (nan_le _ eps Nx) as (_ & ->).
    apply is_nan_nanf, nan_opp, is_nan_nanf in Nx. destruct (nan_le _ eps Nx) as (_ & ->). reflexivity.
  - rewrite vec_contains_ok. f_equal. induction xs as [|x xs IH]; [reflexivity|]. cbn [filter].
    assert (Nx : nanf (x - eps)%float) by (apply nan_sub_l, Hx; now left).
    change (PVec.near eps eps x) with (PrimFloat.ltb (x - eps)%float eps && PrimFloat.ltb (- (x - eps))%float eps)%bool.
    rewrite (nan_ltb_l _ Nx). cbn [andb]. destruct ys; [discriminate|]. injection L as L.
    clear -Hx. assert (H : forall z, In z xs -> nanf z) by (intros; apply Hx; now right). clear Hx.
    induction xs as [|z zs IHz]; [reflexivity|]. cbn [filter].
    change (PVec.near eps eps z) with (PrimFloat.ltb (z - eps)%float eps && PrimFloat.ltb (- (z - eps))%float eps)%bool.
    rewrite (nan_ltb_l _ (nan_sub_l _ (H z (or_introl eq_refl)))). cbn [andb]. apply IHz. intros; apply H; now right.
  - rewrite vec_is_nonneg_ok. f_equal. apply forallb_forall. intros x Hi.
    change (flt x f0) with (PrimFloat.ltb x 0). now rewrite (nan_ltb_l _ (Hx x Hi)).
  - intros bc n f tl Hn Hd. destruct (mtx_is_sym_ok bc n f tl) as (b & E & H). rewrite E. f_equal. apply H.
    intros i j Hi Hj. destruct (Nat.eq_dec i j) as [<-|Ne].
    + apply (asym_F (Hd i Hi) (Hd i Hi)). destruct lit_tiny as (_ & L1 & _). unfold gap; cbn [fst snd].
      replace (FR (f i i) - FR (f i i)) with 0 by ring. rewrite Rabs_R0. lra.
    + assert (Nx : nanf (f i j - f j i)%float) by (apply nan_sub_l; auto). apply is_nan_nanf in Nx.
      change (asym (f i j) (f j i)) with (PrimFloat.leb (F_lit 1 6) (f i j - f j i)%float || PrimFloat.leb (f i j - f j i)%float (- F_lit 1 6)%float)%bool.
      destruct (nan_le _ (F_lit 1 6) Nx) as (_ & ->). destruct (nan_le _ (- F_lit 1 6)%float Nx) as (-> & _). reflexivity.
Qed.
Print Assumptions C155_nan_refuted.

Example C155_example :
  vec_is_equal (vec_of [1%float; 2%float] []) (vec_of [1%float; 2.25%float] []) 0.5%float = Ok true
  /\ vec_is_equal (vec_of [1%float; 2%float] []) (vec_of [1%float; 2.5%float] []) 0.5%float = Ok false
  /\ vec_contains (vec_of [1%float; 2%float; 1.25%float] []) 1%float 0.5%float = Ok 2%nat
  /\ vec_is_nonneg (vec_of [(-0)%float; 3%float] []) = Ok true
  /\ mtx_is_sym true (mat_of 2 2 (fun i j => if Nat.eqb i j then 1%float else 7%float) []) = Ok true.
Proof. vm_compute. repeat split. Qed.

