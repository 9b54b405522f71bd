(** Bounds on the base of the exponential. *)
From Coq Require Import ZArith Reals Lra Lia.
From Coquelicot Require Import Coquelicot.
Local Open Scope R_scope.

Fixpoint zfact (n : nat) : Z := match n with O => 1%Z | S m => (Z.of_nat n * zfact m)%Z end.
Lemma zfact_fact n : INR (fact n) = IZR (zfact n).
Proof.
  induction n as [|n IH]; [reflexivity|].
  change (fact (S n)) with (S n * fact n)%nat. rewrite mult_INR, IH. cbn [zfact].
  rewrite mult_IZR, <- INR_IZR_INZ. reflexivity.
Qed.
Lemma is_derive_n_exp n x : is_derive_n exp n x (exp x).
Proof.
  revert x. induction n as [|n IH]; intros x; [reflexivity|]. cbn.
  apply (is_derive_ext exp).
  - intros t. symmetry. exact (is_derive_n_unique _ _ _ _ (IH t)).
  - apply is_derive_exp.
Qed.

Lemma e_bounds : 27182818284590 / 10000000000000 < exp 1 < 27182818284592 / 10000000000000.
Proof.
  destruct (Taylor_Lagrange exp 15 0 1 ltac:(lra)) as (z & Z & E).
  { intros t _ k _. destruct k; [exact I|]. exists (exp t). exact (is_derive_n_exp (S k) t). }
  assert (D : forall m x, Derive_n exp m x = exp x) by (intros; apply is_derive_n_unique, is_derive_n_exp).
  rewrite D in E.
  rewrite (sum_eq _ (fun m => / IZR (zfact m))) in E.
  2: { intros i _. rewrite D, exp_0, zfact_fact, Rminus_0_r, pow1. unfold Rdiv. ring. }
  rewrite zfact_fact in E. rewrite Rminus_0_r, pow1 in E.
  assert (B : 1 <= exp z <= 3).
  { split.
    - rewrite <- exp_0. apply Rlt_le, exp_increasing. lra.
    - apply Rle_trans with (exp 1); [|apply exp_le_3]. apply Rlt_le, exp_increasing. lra. }
  cbn [sum_f_R0] in E.
  repeat match type of E with
  | context [zfact ?n] => let v := eval vm_compute in (zfact n) in change (zfact n) with v in E
  end.
  lra.
Qed.
