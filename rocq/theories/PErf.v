(** The Gauss integral: erf x ^ 2 = 1 - 4/pi * int_0^1 exp (- x^2 (1+t^2)) / (1+t^2) dt. *)
From Coq Require Import Reals Lra Lia.
From Coquelicot Require Import Coquelicot.
From Verif Require Import Base Libm ErfR.
Set Implicit Arguments.
Local Open Scope R_scope.

Definition gint (x : R) : R := RInt (fun t => exp (- (t * t))) 0 x.
Definition comp_ (x t : R) : R := exp (- (x * x) * (1 + t * t)) / (1 + t * t).
Definition gcomp (x : R) : R := RInt (comp_ x) 0 1.

Lemma one_sq_pos t : 0 < 1 + t * t.
Proof. nra. Qed.

Lemma gint_derive x : is_derive gint x (exp (- (x * x))).
Proof.
  apply (@is_derive_RInt R_CompleteNormedModule (fun t => exp (- (t * t))) gint 0).
  - exists (mkposreal 1 Rlt_0_1). intros y _. apply (@RInt_correct R_CompleteNormedModule). apply gauss_ex.
  - apply gauss_cont.
Qed.

Lemma comp_derive x t : is_derive (fun u => comp_ u t) x (- 2 * x * exp (- (x * x) * (1 + t * t))).
Proof. pose proof (one_sq_pos t). unfold comp_. auto_derive; [lra|]. field. lra. Qed.

Lemma comp_cont x t : continuous (comp_ x) t.
Proof. pose proof (one_sq_pos t). apply (@ex_derive_continuous R_AbsRing R_NormedModule). unfold comp_. auto_derive. lra. Qed.

Lemma comp_ex x a b : ex_RInt (comp_ x) a b.
Proof. apply (@ex_RInt_continuous R_CompleteNormedModule). intros z _. apply comp_cont. Qed.

Lemma gcomp_derive x : is_derive gcomp x (- 2 * exp (- (x * x)) * gint x).
Proof.
  evar_last.
  - apply (is_derive_RInt_param comp_ 0 1 x).
    + exists (mkposreal 1 Rlt_0_1). intros y _ t _. eexists. apply comp_derive.
    + intros t _. apply continuity_2d_pt_ext with (f := fun u v => - 2 * u * exp (- (u * u) * (1 + v * v))).
      { intros u v. symmetry. apply is_derive_unique, comp_derive. }
      apply continuity_2d_pt_mult.
      * apply continuity_2d_pt_mult; [apply continuity_2d_pt_const|apply continuity_2d_pt_id1].
      * apply (continuity_1d_2d_pt_comp exp (fun u v => - (u * u) * (1 + v * v))).
        { apply derivable_continuous_pt, derivable_pt_exp. }
        apply continuity_2d_pt_mult.
        -- apply continuity_2d_pt_opp, continuity_2d_pt_mult; apply continuity_2d_pt_id1.
        -- apply continuity_2d_pt_plus; [apply continuity_2d_pt_const|]. apply continuity_2d_pt_mult; apply continuity_2d_pt_id2.
    + exists (mkposreal 1 Rlt_0_1). intros y _. apply comp_ex.
  - transitivity (RInt (fun t => scal (- 2 * exp (- (x * x))) (scal x (exp (- ((x * t + 0) * (x * t + 0)))))) 0 1).
    + apply RInt_ext. intros t _. transitivity (- 2 * x * exp (- (x * x) * (1 + t * t))); [apply is_derive_unique, comp_derive|].
      unfold scal; cbn; unfold mult; cbn.
      replace (- (x * x) * (1 + t * t)) with (- (x * x) + - ((x * t + 0) * (x * t + 0))) by ring. rewrite exp_plus. ring.
    + pose proof (@RInt_comp_lin R_CompleteNormedModule (fun t => exp (- (t * t))) x 0 0 1) as E.
      assert (X : ex_RInt (fun t => scal x (exp (- ((x * t + 0) * (x * t + 0))))) 0 1).
      { apply (@ex_RInt_continuous R_CompleteNormedModule). intros z _. apply (@ex_derive_continuous R_AbsRing R_NormedModule).
        unfold scal; cbn; unfold mult; cbn. auto_derive. exact I. }
      etransitivity; [exact (@RInt_scal R_CompleteNormedModule _ 0 1 (- 2 * exp (- (x * x))) X)|].
      specialize (E (gauss_ex _ _)). cbv beta in E. etransitivity; [apply f_equal; exact E|]. unfold gint.
      rewrite Rmult_0_r, Rmult_1_r, !Rplus_0_r. reflexivity.
Qed.

Lemma gcomp_0 : gcomp 0 = PI / 4.
Proof.
  unfold gcomp. rewrite (RInt_ext _ (fun t => / (1 + Rsqr t))).
  - apply is_RInt_unique. replace (PI / 4) with (minus (atan 1) (atan 0)) by (unfold minus, plus, opp; cbn; rewrite atan_1, atan_0; lra).
    apply (@is_RInt_derive R_CompleteNormedModule atan).
    + intros t _. apply is_derive_atan.
    + intros t _. apply (@ex_derive_continuous R_AbsRing R_NormedModule). unfold Rsqr. auto_derive. nra.
  - intros t _. unfold comp_. replace (- (0 * 0) * (1 + t * t)) with 0 by ring. rewrite exp_0. exact (Rmult_1_l _).
Qed.

Theorem gauss_square x : gint x * gint x + gcomp x = PI / 4.
Proof.
  assert (D : forall y, is_derive (fun z => gint z * gint z + gcomp z) y 0).
  { intros y. evar_last.
    - apply (@is_derive_plus R_AbsRing R_NormedModule); [|apply gcomp_derive].
      apply (is_derive_mult gint gint); [apply gint_derive|apply gint_derive|intros; apply Rmult_comm].
    - unfold plus, mult; cbn. ring. }
  transitivity (gint 0 * gint 0 + gcomp 0).
  - destruct (Req_dec x 0) as [->|Hx]; [reflexivity|].
    destruct (MVT_gen (fun z => gint z * gint z + gcomp z) 0 x (fun _ => 0)) as (c & _ & E).
    + intros z _. apply D.
    + intros z _. apply derivable_continuous_pt. exists 0. apply is_derive_Reals, D.
    + cbv beta in E. lra.
  - rewrite gcomp_0. unfold gint. rewrite RInt_point. unfold zero; cbn. ring.
Qed.

Lemma gcomp_bounds x : exp (- 2 * (x * x)) * (PI / 4) <= gcomp x <= exp (- (x * x)) * (PI / 4).
Proof.
  rewrite <- gcomp_0. unfold gcomp.
  rewrite <- !(@RInt_scal R_CompleteNormedModule (comp_ 0)) by apply comp_ex.
  assert (X : forall k, ex_RInt (fun t => scal k (comp_ 0 t)) 0 1) by (intros k; apply (@ex_RInt_scal R_NormedModule), comp_ex).
  assert (P : forall t, 0 < / (1 + t * t)) by (intros t; apply Rinv_0_lt_compat, one_sq_pos).
  assert (Z : forall t, comp_ 0 t = / (1 + t * t)).
  { intros t. unfold comp_. replace (- (0 * 0) * (1 + t * t)) with 0 by ring. rewrite exp_0. unfold Rdiv. ring. }
  assert (M : forall a b, a <= b -> exp a <= exp b).
  { intros a b [L|E]; [left; now apply exp_increasing|right; now f_equal]. }
  split; apply RInt_le; try lra; auto using comp_ex; intros t Ht; unfold scal; cbn; unfold mult; cbn; rewrite Z; unfold comp_, Rdiv;
    (apply Rmult_le_compat_r; [left; apply P|]); apply M;
    assert (0 <= x * x) by nra; assert (0 <= t * t <= 1) by nra; nra.
Qed.

Lemma erf_gint x : Rerf x = 2 / sqrt PI * gint x.
Proof. reflexivity. Qed.

Theorem erf_square x : 1 - exp (- (x * x)) <= Rerf x * Rerf x <= 1 - exp (- 2 * (x * x)).
Proof.
  pose proof (gauss_square x) as G. pose proof (gcomp_bounds x) as B. pose proof PI_RGT_0 as HP.
  assert (E : Rerf x * Rerf x = 4 / PI * (gint x * gint x)).
  { rewrite erf_gint. replace (2 / sqrt PI * gint x * (2 / sqrt PI * gint x)) with (4 / (sqrt PI * sqrt PI) * (gint x * gint x)).
    - now rewrite sqrt_sqrt by lra.
    - field. apply Rgt_not_eq, sqrt_lt_R0, HP. }
  rewrite E. replace (gint x * gint x) with (PI / 4 - gcomp x) by lra.
  replace (4 / PI * (PI / 4 - gcomp x)) with (1 - 4 / PI * gcomp x) by (field; lra).
  assert (Q : 0 < 4 / PI) by (apply Rdiv_lt_0_compat; lra).
  assert (U : 4 / PI * gcomp x <= 4 / PI * (exp (- (x * x)) * (PI / 4))) by (apply Rmult_le_compat_l; lra).
  assert (L : 4 / PI * (exp (- 2 * (x * x)) * (PI / 4)) <= 4 / PI * gcomp x) by (apply Rmult_le_compat_l; lra).
  replace (4 / PI * (exp (- (x * x)) * (PI / 4))) with (exp (- (x * x))) in U by (field; lra).
  replace (4 / PI * (exp (- 2 * (x * x)) * (PI / 4))) with (exp (- 2 * (x * x))) in L by (field; lra). lra.
Qed.

Theorem erf_bounds x : -1 < Rerf x < 1.
Proof. pose proof (erf_square x). pose proof (exp_pos (- 2 * (x * x))). nra. Qed.

Lemma erf_pos x : 0 <= x -> 0 <= Rerf x.
Proof. intros [H|<-]; [|rewrite Rerf_0; lra]. pose proof (Rerf_incr _ _ H) as J. rewrite Rerf_0 in J. lra. Qed.

(** The tail: 1 - exp (-x^2) <= erf x *)
Theorem erf_tail x : 0 <= x -> 1 - exp (- (x * x)) <= Rerf x.
Proof.
  intros H. pose proof (erf_square x). pose proof (erf_pos H). pose proof (erf_bounds x). nra.
Qed.

Theorem erf_limit : is_lim Rerf p_infty 1.
Proof.
  apply is_lim_le_le_loc with (f := fun x => 1 - exp (- x)) (g := fun _ => 1).
  - exists 1. intros x Hx. split; [|left; apply erf_bounds].
    pose proof (@erf_tail x ltac:(lra)). assert (exp (- (x * x)) <= exp (- x)); [|lra].
    left. apply exp_increasing. nra.
  - evar_last.
    + apply is_lim_minus'; [apply is_lim_const|]. apply is_lim_comp with (l := m_infty); [apply is_lim_exp_m| |].
      * apply (is_lim_opp (fun x => x) p_infty p_infty), is_lim_id.
      * exists 0. intros y _. discriminate.
    + cbn. f_equal. ring.
  - apply is_lim_const.
Qed.

(** Polya's bound, by Jensen's inequality *)
Theorem erf_polya x : Rerf x * Rerf x <= 1 - exp (- (4 / PI) * (x * x)).
Proof.
  pose proof PI_RGT_0 as HP. set (z0 := - (4 / PI) * (x * x)).
  assert (J : exp z0 * (PI / 4) <= gcomp x).
  { apply Rle_trans with (RInt (fun t => exp z0 * ((1 - x * x - z0) * comp_ 0 t + - (x * x) * (t * t * comp_ 0 t))) 0 1).
    - assert (Z : forall t, comp_ 0 t = / (1 + t * t)).
      { intros t. unfold comp_. replace (- (0 * 0) * (1 + t * t)) with 0 by ring. rewrite exp_0. unfold Rdiv. ring. }
      right. symmetry. apply is_RInt_unique.
      evar_last.
      + apply (@is_RInt_derive R_CompleteNormedModule (fun t => exp z0 * ((1 - x * x - z0) * atan t + - (x * x) * (t - atan t)))).
        * intros t _. evar_last.
          -- apply is_derive_scal. apply (@is_derive_plus R_AbsRing R_NormedModule); apply is_derive_scal; [apply is_derive_atan|].
             apply (@is_derive_minus R_AbsRing R_NormedModule); [apply @is_derive_id|apply is_derive_atan].
          -- unfold plus, minus, opp, one; cbn. unfold plus; cbn. rewrite Z. unfold Rsqr. pose proof (one_sq_pos t). field. lra.
        * intros t _. apply (@ex_derive_continuous R_AbsRing R_NormedModule). unfold comp_. auto_derive. pose proof (one_sq_pos t). lra.
      + unfold minus, plus, opp; cbn. rewrite atan_1, atan_0. unfold z0. field. lra.
    - apply RInt_le; [lra| |apply comp_ex|].
      + apply (@ex_RInt_continuous R_CompleteNormedModule). intros t _. apply (@ex_derive_continuous R_AbsRing R_NormedModule).
        unfold comp_. auto_derive. pose proof (one_sq_pos t). lra.
      + intros t _. unfold comp_. replace (- (0 * 0) * (1 + t * t)) with 0 by ring. rewrite exp_0. pose proof (one_sq_pos t) as Q.
        replace (exp z0 * ((1 - x * x - z0) * (1 / (1 + t * t)) + - (x * x) * (t * t * (1 / (1 + t * t)))))
          with (exp z0 * (1 + (- (x * x) * (1 + t * t) - z0)) / (1 + t * t)) by (field; lra).
        apply Rmult_le_compat_r; [left; now apply Rinv_0_lt_compat|].
        replace (exp (- (x * x) * (1 + t * t))) with (exp z0 * exp (- (x * x) * (1 + t * t) - z0)).
        * apply Rmult_le_compat_l; [left; apply exp_pos|apply exp_ineq1_le].
        * rewrite <- exp_plus. f_equal. ring. }
  pose proof (gauss_square x) as G.
  assert (E : Rerf x * Rerf x = 4 / PI * (gint x * gint x)).
  { rewrite erf_gint. replace (2 / sqrt PI * gint x * (2 / sqrt PI * gint x)) with (4 / (sqrt PI * sqrt PI) * (gint x * gint x)).
    - now rewrite sqrt_sqrt by lra.
    - field. apply Rgt_not_eq, sqrt_lt_R0, HP. }
  rewrite E. replace (gint x * gint x) with (PI / 4 - gcomp x) by lra.
  assert (Q : 0 < 4 / PI) by (apply Rdiv_lt_0_compat; lra).
  assert (U : 4 / PI * (exp z0 * (PI / 4)) <= 4 / PI * gcomp x) by (apply Rmult_le_compat_l; lra).
  replace (4 / PI * (exp z0 * (PI / 4))) with (exp z0) in U by (field; lra).
  replace (4 / PI * (PI / 4 - gcomp x)) with (1 - 4 / PI * gcomp x) by (field; lra). lra.
Qed.
