(** The error function over the reals: erf x = 2/sqrt(pi) * integral of
    exp(-t^2) from 0 to x. *)
From Coq Require Import Reals Lra.
From Coquelicot Require Import Coquelicot.
From Verif Require Import Base NumR Libm LibmR MProb.
Local Open Scope R_scope.

Definition Rerf (x : R) : R := 2 / sqrt PI * RInt (fun t => exp (- (t * t))) 0 x.

#[global] Instance NumErfR : NumErf R := { ferf := Rerf }.

Lemma gauss_cont x : continuous (fun t => exp (- (t * t))) x.
Proof.
  apply (@ex_derive_continuous R_AbsRing R_NormedModule). auto_derive. exact I.
Qed.
Lemma gauss_ex a b : ex_RInt (fun t => exp (- (t * t))) a b.
Proof. apply (@ex_RInt_continuous R_CompleteNormedModule). intros z _. apply gauss_cont. Qed.

Lemma Rerf_derive x : is_derive Rerf x (2 / sqrt PI * exp (- (x * x))).
Proof.
  unfold Rerf. apply is_derive_scal. apply (@is_derive_RInt R_CompleteNormedModule (fun t => exp (- (t * t))) (fun y => RInt (fun t => exp (- (t * t))) 0 y) 0).
  - exists (mkposreal 1 Rlt_0_1). intros y _. apply (@RInt_correct R_CompleteNormedModule). apply gauss_ex.
  - apply gauss_cont.
Qed.

Lemma Rerf_0 : Rerf 0 = 0.
Proof. unfold Rerf. rewrite RInt_point. apply Rmult_0_r. Qed.

Lemma Rerf_odd x : Rerf (- x) = - Rerf x.
Proof.
  unfold Rerf.
  pose proof (@RInt_comp_lin R_CompleteNormedModule (fun t => exp (- (t * t))) (-1) 0 0 x) as E.
  replace (-1 * 0 + 0) with 0 in E by ring. replace (-1 * x + 0) with (- x) in E by ring.
  specialize (E (gauss_ex 0 (- x))). rewrite <- E.
  rewrite (@RInt_ext R_CompleteNormedModule _ (fun t => opp (exp (- (t * t))))).
  - rewrite (@RInt_opp R_CompleteNormedModule) by apply gauss_ex. unfold opp; cbn. ring.
  - intros t _. unfold opp, scal; cbn. unfold mult; cbn.
    replace ((-1 * t + 0) * (-1 * t + 0)) with (t * t) by ring. ring.
Qed.

Lemma Rerf_incr x y : x < y -> Rerf x < Rerf y.
Proof.
  intros H. apply (incr_function Rerf m_infty p_infty (fun x => 2 / sqrt PI * exp (- (x * x)))); try easy.
  - intros z _ _. apply Rerf_derive.
  - intros z _ _. apply Rmult_lt_0_compat; [|apply exp_pos].
    apply Rdiv_lt_0_compat; [lra|]. apply sqrt_lt_R0, PI_RGT_0.
Qed.
