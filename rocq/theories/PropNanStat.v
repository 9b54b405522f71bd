(** Property C161: one NaN among the data reaches every mean, product, norm,
    variance and regression computed from them; it may disappear from the
    median and from the range. *)
From Coq Require Import Floats.PrimFloat.
From Coq Require Import ZArith Bool List Lia.
From Verif Require Import Base NumF BaseFacts Libm SpecVec SpecFltNan MVec MMtx MStat PVec PBal PFltVar PNanQuat PNanPhys PNanStat PropNanPhys PPoly.
Import ListNotations.

(** * Products, norms, distances, directions *)
Theorem C161_vectors :
  forall bc (xs ys : list double) tx ty, length xs = length ys ->
  (nan_among xs \/ nan_among ys ->
   (exists d, vec_dot bc (vec_of xs tx) (vec_of ys ty) = Ok (0%Z, Some d) /\ is_nan d = true)
   /\ (exists d, vec_dist bc (vec_of xs tx) (vec_of ys ty) = Ok d /\ is_nan d = true))
  /\ (nan_among xs ->
      (exists r, vec_norm bc (vec_of xs tx) = Ok r /\ is_nan r = true)
      /\ (exists us, vec_to_unit bc (vec_of xs tx) = Ok (0%Z, vec_of us tx) /\ length us = length xs
                     /\ Forall (fun u => is_nan u = true) us)).
Proof.
  intros bc xs ys tx ty L. split; intros H.
  - split.
    + exists (dot xs ys). split; [now apply vec_dot_ok|]. apply is_nan_nanf. now apply nan_dots.
    + eexists. split; [rewrite vec_dist_ok by exact L; reflexivity|]. apply is_nan_nanf, nan_sqrt, nan_dots; auto.
      left. now apply nan_among_map2_sub.
  - assert (Nn : nanf (PrimFloat.sqrt (dot xs xs))) by (apply nan_sqrt, nan_dots; auto).
    split.
    + eexists. split; [rewrite vec_norm_ok; reflexivity|]. now apply is_nan_nanf.
    + rewrite vec_to_unit_eq. cbn [fsqrt NumF bind].
      assert (E : fne (PrimFloat.sqrt (dot xs xs)) f0 = true).
      { unfold fne. cbn [feq NumF f0]. rewrite FloatAxioms.eqb_spec, Nn. reflexivity. }
      rewrite E. cbn [fdiv NumF bind]. eexists. split; [reflexivity|]. split; [apply map_length|].
      apply Forall_forall. intros u I. apply in_map_iff in I. destruct I as (x & <- & _).
      apply is_nan_nanf, nan_mul_r, nan_div_r, Nn.
Qed.
Print Assumptions C161_vectors.

(** * Means, deviations, variance *)
Theorem C161_summaries :
  forall bc W (xs : list double) tx, nan_among xs -> (2 <= length xs)%nat -> (Z.of_nat (length xs) <= W)%Z ->
  (exists m, sta_mean (vec_of xs tx) = Ok (0%Z, Some m) /\ is_nan m = true)
  /\ (exists ds, sta_demean bc (vec_of xs tx) (vdef (length xs)) = Ok (0%Z, vec_of ds []) /\ length ds = length xs
                 /\ Forall (fun d => is_nan d = true) ds)
  /\ (exists s, sta_var bc W (vec_of xs tx) = Ok (0%Z, Some s) /\ is_nan s = true)
  /\ (exists s, sta_std_dev bc W (vec_of xs tx) = Ok (0%Z, Some s) /\ is_nan s = true)
  /\ (exists s, sta_mean_abs_dev bc (vec_of xs tx) = Ok (0%Z, Some s) /\ is_nan s = true).
Proof.
  intros bc W xs tx H L HW. pose proof (nan_nonempty xs H) as NE.
  assert (V : nanf (dot (fdev xs) (fdev xs) / F_of_Z (Z.of_nat (length xs - 1)))%float)
    by (apply nan_div_l, nan_dots; auto; left; now apply fdev_among).
  refine (conj _ (conj _ (conj _ (conj _ _)))).
  - eexists. unfold sta_mean. rewrite vec_ar_mean_ok by exact NE. split; [reflexivity|]. apply is_nan_nanf. now apply (nan_mean xs).
  - exists (fdev xs). split; [now apply demean_F|]. split; [apply fdev_length|].
    eapply Forall_impl; [|now apply nan_fdev]. intros a. apply is_nan_nanf.
  - eexists. split; [now apply var_F|]. now apply is_nan_nanf.
  - eexists. unfold sta_std_dev. rewrite var_F by assumption. split; [reflexivity|]. now apply is_nan_nanf, nan_sqrt.
  - unfold sta_mean_abs_dev. change (vsz (vec_of xs tx)) with (length xs).
    replace (length xs =? 0)%nat with false by (symmetry; apply Nat.eqb_neq; lia). rewrite andb_false_r.
    rewrite demean_F by exact NE. cbn [bind].
    destruct (@for_inv _ (fun i s => (0 < i)%nat -> nanf s) (length xs) 0%nat
      (fun i s => let! a := rd (vbuf (vec_of (fdev xs) [])) i in Ok (fadd s (fabs a))) f0) as (s & E & P).
    + lia.
    + intros i s Hi IH. cbn [vbuf vec_of]. rewrite (rd_cells_app (fdev xs) [] zero) by (rewrite fdev_length; lia). cbn [bind].
      eexists. split; [reflexivity|]. intros _. apply nan_add_r, nan_abs.
      pose proof (nan_fdev xs H) as F. rewrite Forall_forall in F. apply F, nth_In. rewrite fdev_length. lia.
    + rewrite E. cbn [bind fdiv NumF]. eexists. split; [reflexivity|]. apply is_nan_nanf, nan_div_l, P. lia.
Qed.
Print Assumptions C161_summaries.

(** * Two series *)
Theorem C161_covariance :
  forall bc W (xs ys : list double) tx ty, length xs = length ys -> nan_among xs \/ nan_among ys ->
  exists s, sta_covar bc W (vec_of xs tx) (vec_of ys ty) = Ok (0%Z, Some s) /\ is_nan s = true.
Proof.
  intros bc W xs ys tx ty L H. assert (xs <> []) by (intros ->; destruct ys; [|discriminate L]; destruct H as [H|H]; inversion H).
  assert (ys <> []) by (intros ->; destruct xs; [auto|discriminate L]).
  unfold sta_covar. change (vsz (vec_of xs tx)) with (length xs). change (vsz (vec_of ys ty)) with (length ys).
  replace (length xs =? length ys)%nat with true by (symmetry; now apply Nat.eqb_eq). rewrite andb_false_r. rewrite !demean_F by assumption. cbn [bind].
  rewrite (dot_loop (fdev xs) (fdev ys) [] [] (n := length xs)) by (rewrite fdev_length; lia). cbn [bind fdiv NumF].
  eexists. split; [reflexivity|]. apply is_nan_nanf, nan_div_l, nan_dots; [rewrite !fdev_length; lia|].
  destruct H; [left|right]; now apply fdev_among.
Qed.
Print Assumptions C161_covariance.

Theorem C161_weighted_mean :
  forall bc (xs ws : list double) tx tw rc o, length xs = length ws -> nan_among xs \/ nan_among ws ->
  sta_weighted_mean bc (vec_of xs tx) (vec_of ws tw) = Ok (rc, o) ->
  (rc = (- EINVAL)%Z /\ o = None) \/ (rc = 0%Z /\ exists m, o = Some m /\ is_nan m = true).
Proof.
  intros bc xs ws tx tw rc o L H E. unfold sta_weighted_mean in E.
  change (vsz (vec_of xs tx)) with (length xs) in E.
  apply bind_ok in E. destruct E as (sw & _ & E). apply bind_ok in E. destruct E as (bad & _ & E).
  destruct bad; [left; split; congruence|]. right. apply bind_ok in E. destruct E as (s & S & E).
  cbn [fdiv NumF bind] in E. injection E as <- <-. split; [reflexivity|]. eexists. split; [reflexivity|].
  cbn [vbuf vec_of] in S. rewrite (dot_loop ws xs tw tx (n := length xs)) in S by lia.
  injection S as <-. apply is_nan_nanf, nan_div_l, nan_dots; [lia | tauto].
Qed.
Print Assumptions C161_weighted_mean.

(** slope, intercept and correlation *)
Theorem C161_regression :
  forall bc (xs ys : list double) tx ty, length xs = length ys -> nan_among xs \/ nan_among ys ->
  exists a b r, sta_linear_reg bc (vec_of xs tx) (vec_of ys ty) = Ok (0%Z, Some (a, b, Ok r))
    /\ is_nan a = true /\ is_nan b = true /\ is_nan r = true.
Proof.
  intros bc xs ys tx ty L H. unfold sta_linear_reg. change (vsz (vec_of xs tx)) with (length xs). change (vsz (vec_of ys ty)) with (length ys).
  rewrite <- L, Nat.eqb_refl, andb_false_r.
  assert (X : exists k, (k < length xs)%nat /\ (nanf (nth k xs zero) \/ nanf (nth k ys zero))).
  { destruct H as [H|H]; apply nan_among_nanf, Exists_exists in H; destruct H as (x & I & Nx);
      apply (In_nth _ _ zero) in I; destruct I as (k & K & <-); exists k; split; auto; lia. }
  destruct X as (k & K & X).
  match goal with |- context [for_ ?n ?l ?b ?s0] =>
    destruct (@for_inv _ (fun i (s : double * double * double * double * double) => (k < i)%nat ->
      let '(sx, sy, sxy, sxx, syy) := s in nanf sxy) n l b s0) as (((((sx & sy) & sxy) & sxx) & syy) & E & P) end.
  - lia.
  - intros i ((((sx & sy) & sxy) & sxx) & syy) Hi IH. cbn [vbuf vec_of].
    rewrite (rd_cells_app xs tx zero), (rd_cells_app ys ty zero) by lia. cbn [bind].
    eexists. split; [reflexivity|]. intros J. cbn [fadd fmul NumF].
    destruct (Nat.eq_dec i k) as [->|Ne].
    + apply nan_add_r. destruct X; [now apply nan_mul_l | now apply nan_mul_r].
    + apply nan_add_l, IH. lia.
  - specialize (P ltac:(lia)). cbn beta iota in P. rewrite E. cbn [bind fdiv fsqrt NumF].
    assert (Nm : nanf (fofZ (Z.of_nat (length xs)) * sxy - sx * sy)%float) by (apply nan_sub_l, nan_mul_r, P).
    do 3 eexists. split; [reflexivity|]. cbn [fsub fmul NumF] in *.
    refine (conj _ (conj _ _)); apply is_nan_nanf.
    + apply nan_div_l, Nm.
    + apply nan_div_l, nan_sub_r, nan_mul_l, nan_div_l, Nm.
    + apply nan_div_l, Nm.
Qed.
Print Assumptions C161_regression.

(** * Where it is lost: the order statistics.  The sort drops the NaN, and its
    place at the end of the work array is not written *)

(** the range reads the place that was never written *)
Theorem C161_range_refuted :
  forall ghost, sta_data_range 18446744073709551616 20 ghost (vec_of [1; 3; nan]%float []) = UB Uninit.
Proof. intros g. vm_compute. reflexivity. Qed.
Print Assumptions C161_range_refuted.

(** the median is taken of the values left and of a zero that was not there *)
Theorem C161_median_refuted :
  forall (M : NumM double), ffloor 1.5%float = 1%float -> ftrunc 1%float = 1%Z ->
  sta_median (M := M) true 20 (Some nan) (vec_of [1; 3; nan]%float []) = Ok (0%Z, Some 3%float).
Proof.
  intros M F1 T1. unfold sta_median, sta_percentile.
  match goal with |- context [if ?b then _ else _] => replace b with false by (vm_compute; reflexivity) end.
  replace (vec_init (vdef (vsz (vec_of [1; 3; nan]%float [])))) with (Ok (0%Z, vec_of [zero; zero; zero] [])) by reflexivity. cbn [bind].
  replace (vec_sort 20 (Some nan) (vec_of [1; 3; nan]%float []) (vec_of [zero; zero; zero] []))
    with (Ok (0%Z, vec_of [1; 3; 0]%float [])) by (vm_compute; reflexivity). cbn [bind].
  match goal with |- context [fdiv ?a ?b] => replace (fdiv a b) with (Ok 1.5%float) by (vm_compute; reflexivity) end. cbn [bind].
  rewrite F1. unfold f2int. rewrite T1. vm_compute. reflexivity.
Qed.
Print Assumptions C161_median_refuted.

(** the hypotheses are met *)
Example C161_example :
  nan_among [1; nan; 3]%float /\ (2 <= length [1; nan; 3]%float)%nat
  /\ sta_weighted_mean true (vec_of [1; nan; 3]%float []) (vec_of [1; 1; 2]%float []) = Ok (0%Z, Some nan).
Proof.
  split; [apply Exists_cons_tl, Exists_cons_hd; vm_compute; reflexivity|]. split; [cbn; lia|]. vm_compute. reflexivity.
Qed.
