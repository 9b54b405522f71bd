(** Tactics for models read in real arithmetic. *)
From Coq Require Import ZArith Reals Lra Bool Lia.
From Verif Require Import Base NumR Libm LibmR.
Local Open Scope R_scope.

Lemma Rlit_div m k d : (0 <= k)%Z -> (10 ^ k)%Z = d -> Rlit m k = IZR m / IZR d.
Proof.
  intros Hk <-. rewrite <- (Z2Nat.id k) at 1 by exact Hk. rewrite Rlit_frac.
  f_equal. rewrite pow_IZR. f_equal. now rewrite Z2Nat.id.
Qed.
Lemma Rlit_mul m k d : (k <= 0)%Z -> (10 ^ (- k))%Z = d -> Rlit m k = IZR m * IZR d.
Proof.
  intros Hk <-. unfold Rlit. f_equal. rewrite <- (Z2Nat.id (- k)) by lia.
  rewrite <- pow_powerRZ, pow_IZR. reflexivity.
Qed.

(** decimal literals to fractions of integers *)
Ltac lits :=
  repeat match goal with
  | |- context [Rlit ?m ?k] =>
      let s := eval vm_compute in (Z.leb 0 k) in
      lazymatch s with
      | true => let d := eval vm_compute in (10 ^ k)%Z in
          rewrite (Rlit_div m k d ltac:(discriminate) eq_refl)
      | false => let d := eval vm_compute in (10 ^ (- k))%Z in
          rewrite (Rlit_mul m k d ltac:(discriminate) eq_refl)
      end
  end.

(** the operations of [Num] to those of R *)
Ltac rops :=
  cbv [fgt fge fne]; cbn [f0 f1 fadd fsub fmul fneg fabs fdiv fsqrt flt fle feq flit fofZ NumR
    fexp flog flog10 fpow fsin fcos ftan fasin facos fatan fatan2 fsinh fcosh ftanh ffloor fceil
    fround ftrunc NumMR]; lits.

(** case analysis on the real comparisons in the goal *)
Ltac rcases :=
  repeat (match goal with
  | |- context [Rltb ?x ?y] => destruct (Rltb_spec x y)
  | |- context [Rleb ?x ?y] => destruct (Rleb_spec x y)
  | |- context [Reqb ?x ?y] => destruct (Reqb_spec x y)
  end; cbn [andb orb negb bind] in *; try lra).

Lemma Rlog_ok x : 0 < x -> Rlog x = Ok (ln x).
Proof. intros H. unfold Rlog. destruct (Rlt_dec 0 x); [reflexivity | contradiction]. Qed.
Lemma Rlog_bad x : x <= 0 -> Rlog x = NotReal.
Proof. intros H. unfold Rlog. destruct (Rlt_dec 0 x); [lra | reflexivity]. Qed.
Lemma Rpow_pos x y : 0 < x -> Rpow x y = Ok (Rpower x y).
Proof. intros H. unfold Rpow. destruct (Rlt_dec 0 x); [reflexivity | contradiction]. Qed.
Lemma Rpow_nat x n : 0 <= x -> Rpow x (IZR (Z.of_nat n)) = Ok (x ^ n).
Proof.
  intros H. rewrite <- INR_IZR_INZ. destruct (Rle_lt_or_eq_dec 0 x H) as [P|E].
  - rewrite Rpow_pos by exact P. now rewrite Rpower_pow.
  - subst x. unfold Rpow. destruct (Rlt_dec 0 0); [lra|]. destruct (Req_EM_T 0 0); [|lra].
    destruct n as [|n].
    + cbn [INR pow]. destruct (Req_EM_T 0 0); [reflexivity|lra].
    + destruct (Req_EM_T (INR (S n)) 0) as [E|E]; [now apply not_0_INR in E|].
      destruct (Rlt_dec 0 (INR (S n))) as [L|L]; [|exfalso; apply L; apply lt_0_INR; lia].
      rewrite pow_i by lia. reflexivity.
Qed.
Lemma Rpow_int x n : (0 < n)%nat -> Rpow x (IZR (Z.of_nat n)) = Ok (x ^ n).
Proof.
  intros H. destruct (Rle_or_lt 0 x) as [P|P]; [now apply Rpow_nat|].
  unfold Rpow. destruct (Rlt_dec 0 x); [lra|]. destruct (Req_EM_T x 0); [lra|].
  assert (I : Int_part (IZR (Z.of_nat n)) = Z.of_nat n).
  { unfold Int_part. rewrite <- (up_tech (IZR (Z.of_nat n)) (Z.of_nat n)); [lia|lra|].
    rewrite plus_IZR. lra. }
  rewrite I. destruct (Req_EM_T _ _) as [_|B]; [|now contradict B]. now rewrite <- pow_powerRZ.
Qed.
