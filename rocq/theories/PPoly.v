(** Sums, differences and products of machine numbers: the error of any such
    expression, bounded by its size with all terms taken positive. *)
From Coq Require Import Floats.PrimFloat.
From Coq Require Import ZArith Reals Lra Lia List.
From Verif Require Import SpecFlt PFlt PFltSum.
Open Scope R_scope.

Notation double := PrimFloat.float.

Inductive pexp : Type :=
| PV (x : double)
| PA (a b : pexp)
| PS (a b : pexp)
| PM (a b : pexp).

Fixpoint machine (e : pexp) : double :=
  match e with
  | PV x => x
  | PA a b => machine a + machine b
  | PS a b => machine a - machine b
  | PM a b => machine a * machine b
  end%float.

Fixpoint exactv (e : pexp) : R :=
  match e with
  | PV x => FR x
  | PA a b => exactv a + exactv b
  | PS a b => exactv a - exactv b
  | PM a b => exactv a * exactv b
  end.

(** all terms positive *)
Fixpoint mag (e : pexp) : R :=
  match e with
  | PV x => Rabs (FR x)
  | PA a b | PS a b => mag a + mag b
  | PM a b => mag a * mag b
  end.

(** number of roundings a term goes through *)
Fixpoint ops (e : pexp) : nat :=
  match e with
  | PV _ => 0
  | PA a b | PS a b => S (Nat.max (ops a) (ops b))
  | PM a b => S (ops a + ops b)
  end.

(** underflow *)
Fixpoint under (e : pexp) : R :=
  match e with
  | PV _ => 0
  | PA a b | PS a b => (1 + uu) * (under a + under b)
  | PM a b => (1 + uu) * ((1 + gam (ops a)) * mag a * under b + under a * ((1 + gam (ops b)) * mag b) + under a * under b) + eta
  end.

Lemma mag_nonneg e : 0 <= mag e.
Proof. induction e; cbn [mag]; [apply Rabs_pos|lra|lra|now apply Rmult_le_pos]. Qed.

Lemma mag_ge e : Rabs (exactv e) <= mag e.
Proof.
  induction e as [x|a Ia b Ib|a Ia b Ib|a Ia b Ib]; cbn [mag exactv].
  - lra.
  - pose proof (Rabs_triang (exactv a) (exactv b)). lra.
  - unfold Rminus. pose proof (Rabs_triang (exactv a) (- exactv b)) as H. rewrite Rabs_Ropp in H. lra.
  - rewrite Rabs_mult. apply Rmult_le_compat; auto using Rabs_pos.
Qed.

Lemma under_nonneg e : 0 <= under e.
Proof.
  pose proof uu_pos as U. pose proof eta_pos as E.
  induction e as [x|a Ia b Ib|a Ia b Ib|a Ia b Ib]; cbn [under].
  - lra.
  - apply Rmult_le_pos; lra.
  - apply Rmult_le_pos; lra.
  - pose proof (gam_nonneg (ops a)). pose proof (gam_nonneg (ops b)). pose proof (mag_nonneg a). pose proof (mag_nonneg b).
    assert (0 <= (1 + gam (ops a)) * mag a) by (apply Rmult_le_pos; lra).
    assert (0 <= (1 + gam (ops b)) * mag b) by (apply Rmult_le_pos; lra).
    pose proof (Rmult_le_pos _ _ H3 Ib). pose proof (Rmult_le_pos _ _ Ia H4). pose proof (Rmult_le_pos _ _ Ia Ib).
    pose proof (Rmult_le_pos (1 + uu) _ ltac:(lra) (Rplus_le_le_0_compat _ _ (Rplus_le_le_0_compat _ _ H5 H6) H7)). lra.
Qed.

(** a sum of two inexact numbers, rounded *)
Lemma round_sum x y X Y ex ey d : Rabs (x - X) <= ex -> Rabs (y - Y) <= ey -> Rabs d <= uu ->
  Rabs ((x + y) * (1 + d) - (X + Y)) <= (1 + uu) * (ex + ey) + uu * Rabs (X + Y).
Proof.
  intros Hx Hy Hd. pose proof uu_pos as U.
  replace ((x + y) * (1 + d) - (X + Y)) with ((1 + d) * ((x - X) + (y - Y)) + d * (X + Y)) by ring.
  eapply Rle_trans; [apply Rabs_triang|]. rewrite !Rabs_mult.
  apply Rplus_le_compat; [|apply Rmult_le_compat_r; auto using Rabs_pos].
  apply Rmult_le_compat; auto using Rabs_pos.
  - eapply Rle_trans; [apply Rabs_triang|]. rewrite Rabs_R1. lra.
  - eapply Rle_trans; [apply Rabs_triang|]. lra.
Qed.

Lemma round_prod x y X Y A B gx gy ux uy d e :
  Rabs (x - X) <= gx * A + ux -> Rabs (y - Y) <= gy * B + uy -> Rabs X <= A -> Rabs Y <= B ->
  0 <= gx -> 0 <= gy -> 0 <= ux -> 0 <= uy -> Rabs d <= uu -> Rabs e <= eta ->
  Rabs (x * y * (1 + d) + e - X * Y) <=
    ((1 + uu) * (1 + gx) * (1 + gy) - 1) * (A * B) +
    ((1 + uu) * ((1 + gx) * A * uy + ux * ((1 + gy) * B) + ux * uy) + eta).
Proof.
  intros Hx Hy HX HY Gx Gy Ux Uy Hd He. pose proof uu_pos as U.
  assert (PA : 0 <= A) by (eapply Rle_trans; [apply Rabs_pos|exact HX]).
  assert (PB : 0 <= B) by (eapply Rle_trans; [apply Rabs_pos|exact HY]).
  replace (x * y * (1 + d) + e - X * Y)
    with (((x - X) * (y - Y) + X * (y - Y) + (x - X) * Y) * (1 + d) + X * Y * d + e) by ring.
  assert (H1 : Rabs ((x - X) * (y - Y) + X * (y - Y) + (x - X) * Y) <=
               (gx * A + ux) * (gy * B + uy) + A * (gy * B + uy) + (gx * A + ux) * B).
  { eapply Rle_trans; [apply Rabs_triang|]. apply Rplus_le_compat.
    - eapply Rle_trans; [apply Rabs_triang|]. rewrite !Rabs_mult.
      apply Rplus_le_compat; apply Rmult_le_compat; auto using Rabs_pos.
    - rewrite Rabs_mult. apply Rmult_le_compat; auto using Rabs_pos. }
  assert (H2 : Rabs (1 + d) <= 1 + uu) by (eapply Rle_trans; [apply Rabs_triang|]; rewrite Rabs_R1; lra).
  assert (H3 : Rabs (X * Y * d) <= A * B * uu).
  { rewrite !Rabs_mult. apply Rmult_le_compat; auto using Rabs_pos; [apply Rmult_le_pos; apply Rabs_pos|].
    apply Rmult_le_compat; auto using Rabs_pos. }
  eapply Rle_trans; [apply Rabs_triang|]. eapply Rle_trans; [apply Rplus_le_compat; [apply Rabs_triang|exact He]|].
  rewrite Rabs_mult.
  assert (H4 := Rmult_le_compat _ _ _ _ (Rabs_pos _) (Rabs_pos _) H1 H2).
  eapply Rle_trans; [apply Rplus_le_compat_r, Rplus_le_compat; [exact H4|exact H3]|].
  apply Req_le. ring.
Qed.

Theorem poly_err e : finite (machine e) ->
  Rabs (FR (machine e) - exactv e) <= gam (ops e) * mag e + under e.
Proof.
  pose proof uu_pos as U.
  induction e as [x|a Ia b Ib|a Ia b Ib|a Ia b Ib]; cbn [machine exactv mag ops under]; intros H.
  - rewrite gam_0. replace (FR x - FR x) with 0 by ring. rewrite Rabs_R0. lra.
  - destruct (add_err _ _ H) as (Fa & Fb & d & Hd & E). rewrite E.
    eapply Rle_trans; [apply (round_sum _ _ _ _ _ _ _ (Ia Fa) (Ib Fb) Hd)|].
    rewrite gam_S. pose proof (gam_le (j := ops a) (k := Nat.max (ops a) (ops b)) ltac:(lia)) as Ga.
    pose proof (gam_le (j := ops b) (k := Nat.max (ops a) (ops b)) ltac:(lia)) as Gb.
    set (g := gam (Nat.max (ops a) (ops b))) in *. pose proof (mag_nonneg a) as Pa. pose proof (mag_nonneg b) as Pb.
    pose proof (Rmult_le_compat_r _ _ _ Pa Ga). pose proof (Rmult_le_compat_r _ _ _ Pb Gb).
    pose proof (mag_ge (PA a b)) as Mg. cbn [mag exactv] in Mg.
    assert (uu * Rabs (exactv a + exactv b) <= uu * (mag a + mag b)) by (apply Rmult_le_compat_l; lra).
    assert ((1 + uu) * (gam (ops a) * mag a + under a + (gam (ops b) * mag b + under b))
            <= (1 + uu) * (g * mag a + under a + (g * mag b + under b))) by (apply Rmult_le_compat_l; lra).
    lra.
  - destruct (sub_err _ _ H) as (Fa & Fb & d & Hd & E). rewrite E.
    assert (Ib' : Rabs (- FR (machine b) - - exactv b) <= gam (ops b) * mag b + under b).
    { replace (- FR (machine b) - - exactv b) with (- (FR (machine b) - exactv b)) by ring. rewrite Rabs_Ropp. auto. }
    eapply Rle_trans; [apply (round_sum _ _ _ _ _ _ _ (Ia Fa) Ib' Hd)|].
    rewrite gam_S. pose proof (gam_le (j := ops a) (k := Nat.max (ops a) (ops b)) ltac:(lia)) as Ga.
    pose proof (gam_le (j := ops b) (k := Nat.max (ops a) (ops b)) ltac:(lia)) as Gb.
    set (g := gam (Nat.max (ops a) (ops b))) in *. pose proof (mag_nonneg a) as Pa. pose proof (mag_nonneg b) as Pb.
    pose proof (Rmult_le_compat_r _ _ _ Pa Ga). pose proof (Rmult_le_compat_r _ _ _ Pb Gb).
    pose proof (mag_ge (PS a b)) as Mg. cbn [mag exactv] in Mg.
    assert (uu * Rabs (exactv a + - exactv b) <= uu * (mag a + mag b)) by (apply Rmult_le_compat_l; unfold Rminus in Mg; lra).
    assert ((1 + uu) * (gam (ops a) * mag a + under a + (gam (ops b) * mag b + under b))
            <= (1 + uu) * (g * mag a + under a + (g * mag b + under b))) by (apply Rmult_le_compat_l; lra).
    lra.
  - destruct (mul_err _ _ H) as (Fa & Fb & d & e & Hd & He & E). rewrite E.
    eapply Rle_trans; [apply (round_prod _ _ _ _ (mag a) (mag b) (gam (ops a)) (gam (ops b)) (under a) (under b) _ _ (Ia Fa) (Ib Fb)); auto using mag_ge, gam_nonneg, under_nonneg|].
    apply Rplus_le_compat_r. apply Req_le. f_equal. rewrite gam_S. rewrite <- (gam_pow (ops a)), <- (gam_pow (ops b)).
    rewrite Rmult_assoc, <- pow_add. unfold gam. ring.
Qed.

(** every operand of a finite expression is finite *)
Fixpoint leaves (e : pexp) (P : double -> Prop) : Prop :=
  match e with PV x => P x | PA a b | PS a b | PM a b => leaves a P /\ leaves b P end.
Lemma poly_finite e : finite (machine e) -> leaves e finite.
Proof.
  induction e as [x|a Ia b Ib|a Ia b Ib|a Ia b Ib]; cbn [machine leaves]; intros H; auto.
  - destruct (add_err _ _ H) as (Fa & Fb & _). auto.
  - destruct (sub_err _ _ H) as (Fa & Fb & _). auto.
  - destruct (mul_err _ _ H) as (Fa & Fb & _). auto.
Qed.
