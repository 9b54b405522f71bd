(** Exact arithmetic: the [Num] instance over Coq's real numbers. *)
From Coq Require Import ZArith Reals Lra Bool.
From Verif Require Import Base.
Local Open Scope R_scope.

Definition Rltb (x y : R) : bool := if Rlt_dec x y then true else false.
Definition Rleb (x y : R) : bool := if Rle_dec x y then true else false.
Definition Reqb (x y : R) : bool := if Req_EM_T x y then true else false.

(** x / y has a real result only when y <> 0 *)
Definition Rdivo (x y : R) : outcome R :=
  if Req_EM_T y 0 then NotReal else Ok (x / y).

(** sqrt x has a real result only when 0 <= x *)
Definition Rsqrto (x : R) : outcome R :=
  if Rle_dec 0 x then Ok (sqrt x) else NotReal.

(** The decimal number m * 10^-e *)
Definition Rlit (m e : Z) : R := IZR m * powerRZ 10 (- e).

(** There is no NaN among the reals.  [fnan] is only ever the value of an
    output parameter next to an error code; no theorem about R looks at it. *)
#[global] Instance NumR : Num R := {
  f0 := 0;
  f1 := 1;
  fadd := Rplus;
  fsub := Rminus;
  fmul := Rmult;
  fdiv := Rdivo;
  fneg := Ropp;
  fabs := Rabs;
  fsqrt := Rsqrto;
  flt := Rltb;
  fle := Rleb;
  feq := Reqb;
  fbits := Reqb;
  flit := Rlit;
  fofZ := IZR;
  fnan := 0
}.

Lemma Rltb_spec x y : reflect (x < y) (Rltb x y).
Proof. unfold Rltb; destruct (Rlt_dec x y); constructor; assumption. Qed.
Lemma Rleb_spec x y : reflect (x <= y) (Rleb x y).
Proof. unfold Rleb; destruct (Rle_dec x y); constructor; assumption. Qed.
Lemma Reqb_spec x y : reflect (x = y) (Reqb x y).
Proof. unfold Reqb; destruct (Req_EM_T x y); constructor; assumption. Qed.

Lemma Rltb_true x y : x < y -> Rltb x y = true.
Proof. intros H; destruct (Rltb_spec x y); [reflexivity | contradiction]. Qed.
Lemma Rltb_false x y : y <= x -> Rltb x y = false.
Proof. intros H; destruct (Rltb_spec x y); [lra | reflexivity]. Qed.
Lemma Rleb_true x y : x <= y -> Rleb x y = true.
Proof. intros H; destruct (Rleb_spec x y); [reflexivity | contradiction]. Qed.
Lemma Rleb_false x y : y < x -> Rleb x y = false.
Proof. intros H; destruct (Rleb_spec x y); [lra | reflexivity]. Qed.
Lemma Reqb_true x y : x = y -> Reqb x y = true.
Proof. intros H; destruct (Reqb_spec x y); [reflexivity | contradiction]. Qed.
Lemma Reqb_false x y : x <> y -> Reqb x y = false.
Proof. intros H; destruct (Reqb_spec x y); [contradiction | reflexivity]. Qed.

Lemma Rdivo_ok x y : y <> 0 -> Rdivo x y = Ok (x / y).
Proof. intros H; unfold Rdivo; destruct (Req_EM_T y 0); [contradiction | reflexivity]. Qed.
Lemma Rdivo_0 x : Rdivo x 0 = NotReal.
Proof. unfold Rdivo; destruct (Req_EM_T 0 0); [reflexivity | contradiction]. Qed.
Lemma Rdivo_inv x y z : Rdivo x y = Ok z -> y <> 0 /\ z = x / y.
Proof. unfold Rdivo; destruct (Req_EM_T y 0); [discriminate|]. intros [= <-]; auto. Qed.
Lemma Rsqrto_ok x : 0 <= x -> Rsqrto x = Ok (sqrt x).
Proof. intros H; unfold Rsqrto; destruct (Rle_dec 0 x); [reflexivity | contradiction]. Qed.

(** Decimal literals as plain fractions. *)
Lemma Rlit_frac m (k : nat) : Rlit m (Z.of_nat k) = IZR m / 10 ^ k.
Proof.
  unfold Rlit. destruct k as [|k].
  - cbn. unfold Rdiv. now rewrite Rinv_1.
  - rewrite powerRZ_neg'. rewrite <- pow_powerRZ. reflexivity.
Qed.

Lemma Rlit_pos m e : (0 < m)%Z -> 0 < Rlit m e.
Proof.
  intros H. unfold Rlit. apply Rmult_lt_0_compat; [now apply IZR_lt|].
  apply powerRZ_lt; lra.
Qed.
