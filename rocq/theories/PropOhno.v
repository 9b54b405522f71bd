(** C108, the third method: the polynomials of Ohno (2011). *)
From Coq Require Import List Arith ZArith Bool Reals Lra Lia.
From Verif Require Import Base BaseFacts SpecReal SpecColor NumR Libm LibmR Out RTac
  MColorTab MColor RPi PropColor PropColor2 PropColor3.
Import ListNotations.
Set Implicit Arguments.
Local Open Scope R_scope.

(** ** The published formulae, in the order of the paper *)

(** row i of the table of coefficients, read as decimals *)
Definition krow (i : nat) : list R := map (fun m => IZR m / 10 ^ 10) (nth i ohno2011_tab []).

(** M_PI: pi to 20 decimals *)
Definition pi20 : R := 314159265358979323846 / 10 ^ 20.

(** distance and direction of the colour seen from (0.292, 0.24) *)
Definition ray (u v : R) : R := sqrt ((u - 292 / 1000) ^ 2 + (v - 24 / 100) ^ 2).
Definition slope (u v : R) : R := (v - 24 / 100) / (u - 292 / 1000).
Definition bearing (u v : R) : R := if Rle_dec 0 (atan (slope u v)) then atan (slope u v) else atan (slope u v) + pi20.

(** distance from the locus *)
Definition lbb (u v : R) : R := poly_val (krow 0) (bearing u v).
Definition duv11 (u v : R) : R := ray u v - lbb u v.

(** first estimate, and its correction off the locus *)
Definition cool (u v : R) : Prop := bearing u v < 254 / 100.
Definition t1_of (low : bool) (u v : R) : R := 1 / poly_val (krow (if low then 1 else 2)) (bearing u v).
Definition t2_of (low : bool) (u v : R) : R :=
  t1_of low u v
  - poly_val (krow (if low then 3 else 4)) (bearing u v) * (lbb u v + 1 / 100) / ray u v * duv11 u v / (1 / 100).

(** second correction, a function of log10 of the second estimate *)
Definition cct11 (low : bool) (u v : R) : R :=
  let c := ln (t2_of low u v) / ln 10 in
  t2_of low u v -
  (if Rle_dec 0 (duv11 u v) then poly_val (krow 5) c else poly_val (krow 6) c * (duv11 u v / (3 / 100)) ^ 2).

(** ** What the code computes *)
Lemma k2011_ok i : (i < 7)%nat -> k2011 i = Ok (krow i) /\ length (krow i) = 7%nat.
Proof.
  intros H. split.
  - unfold k2011, elt, krow. destruct (nth_error ohno2011_tab i) as [l|] eqn:E;
      [|apply nth_error_None in E; cbn in E; lia].
    rewrite (nth_error_nth _ _ _ E). reflexivity.
  - unfold krow. rewrite map_length. do 7 (destruct i as [|i]; [reflexivity|]). lia.
Qed.

(** With clear flags, off the line u = 0.292, the answer is the published one
    as long as the first estimate has a denominator and the second is a
    positive temperature. *)
Theorem C108_ohno2011 (a : uv R) (o : cct R) low :
  clear (fu a) -> clear (fv a) -> cu a <> 292 / 1000 ->
  (low = true <-> cool (cu a) (cv a)) ->
  poly_val (krow (if low then 1 else 2)) (bearing (cu a) (cv a)) <> 0 ->
  0 < t2_of low (cu a) (cv a) ->
  uv60_cct 1 a o = Ok (0%Z, Cct (cct11 low (cu a) (cv a)) (duv11 (cu a) (cv a)) (Some 0%Z) (Some 0%Z)).
Proof.
  intros Fu Fv Nu Hl Hp Ht. unfold clear in Fu, Fv. unfold uv60_cct. cbn [Z.eqb Pos.eqb]. unfold ohno2011. rewrite Fu, Fv.
  cbn [flag Z.eqb negb bind]. num.
  replace (Rlit 292 3) with (292 / 1000) by (lits; lra). replace (Rlit 24 2) with (24 / 100) by (lits; lra).
  set (u := cu a) in *. set (v := cv a) in *.
  replace ((u - 292 / 1000) * (u - 292 / 1000) + (v - 24 / 100) * (v - 24 / 100)) with ((u - 292 / 1000) ^ 2 + (v - 24 / 100) ^ 2) by ring.
  assert (Pole : 0 < (u - 292 / 1000) ^ 2 + (v - 24 / 100) ^ 2).
  { pose proof (pow2_ge_0 (v - 24 / 100)). assert (0 < (u - 292 / 1000) ^ 2); [|lra]. replace ((u - 292 / 1000) ^ 2) with (Rsqr (u - 292 / 1000)) by (unfold Rsqr; ring). apply Rsqr_pos_lt. lra. }
  rewrite Rsqrto_ok by lra. cbn [bind]. fold (ray u v). assert (RP : 0 < ray u v) by now apply sqrt_lt_R0.
  rewrite Rdivo_ok by lra. cbn [bind fatan NumMR]. fold (slope u v).
  assert (EA : (if Rleb 0 (atan (slope u v)) then atan (slope u v) else atan (slope u v) + Rlit 314159265358979323846 20) = bearing u v).
  { unfold bearing. destruct (Rleb_spec 0 (atan (slope u v))), (Rle_dec 0 (atan (slope u v))); try lra; reflexivity. }
  rewrite EA. set (al := bearing u v) in *.
  destruct (@k2011_ok 0) as (K0 & L0); [lia|]. rewrite K0. cbn [bind]. rewrite poly6_ok by exact L0. cbn [bind].
  change (poly_val (krow 0) al) with (lbb u v). fold (duv11 u v).
  assert (EL : Rltb al (Rlit 254 2) = low).
  { replace (Rlit 254 2) with (254 / 100) by (lits; lra). unfold cool in Hl. fold al in Hl.
    destruct (Rltb_spec al (254 / 100)) as [H|H]; destruct low; try reflexivity; [symmetry; now apply Hl|].
    assert (al < 254 / 100) by now apply Hl. lra. }
  rewrite EL.
  destruct (@k2011_ok (if low then 1 else 2)%nat) as (K1 & L1); [destruct low; lia|]. rewrite K1. cbn [bind].
  destruct (@k2011_ok (if low then 3 else 4)%nat) as (K3 & L3); [destruct low; lia|]. rewrite K3. cbn [bind].
  rewrite !poly6_ok by assumption. cbn [bind]. rewrite Rdivo_ok by exact Hp. cbn [bind].
  rewrite Rdivo_ok by lra. cbn [bind]. replace (Rlit 1 2) with (1 / 100) by (lits; lra). rewrite Rdivo_ok by lra. cbn [bind].
  change (1 / poly_val (krow (if low then 1 else 2)%nat) al) with (t1_of low u v).
  change (t1_of low u v - poly_val (krow (if low then 3 else 4)) al * (lbb u v + 1 / 100) / ray u v * duv11 u v / (1 / 100)) with (t2_of low u v).
  cbn [flog10 NumMR]. unfold Rlog10. destruct (Rlt_dec 0 (t2_of low u v)); [|contradiction]. cbn [bind].
  unfold cct11. set (c := ln (t2_of low u v) / ln 10).
  destruct (@k2011_ok 5) as (K5 & L5); [lia|]. destruct (@k2011_ok 6) as (K6 & L6); [lia|].
  destruct (Rleb_spec 0 (duv11 u v)) as [Hd|Hd]; destruct (Rle_dec 0 (duv11 u v)); try lra.
  - rewrite K5. cbn [bind]. rewrite poly6_ok by exact L5. reflexivity.
  - rewrite K6. cbn [bind]. rewrite poly6_ok by exact L6. cbn [bind].
    replace (Rlit 3 2) with (3 / 100) by (lits; lra). rewrite Rdivo_ok by lra. cbn [bind fpow NumMR].
    change 2 with (IZR (Z.of_nat 2)) at 1. rewrite Rpow_int by lia. reflexivity.
Qed.
Print Assumptions C108_ohno2011.

(** The bearing is the direction of the colour: above the level v = 0.24 it is
    its polar angle (up to the error of M_PI to the left of the pole). *)
Theorem C108_bearing u v : u <> 292 / 1000 -> 24 / 100 < v ->
  let b := if Rlt_dec (292 / 1000) u then bearing u v else bearing u v - pi20 + PI in
  u - 292 / 1000 = ray u v * cos b /\ v - 24 / 100 = ray u v * sin b.
Proof.
  intros Nu Hv. cbv zeta. unfold bearing. set (x := u - 292 / 1000). set (y := v - 24 / 100).
  assert (Hx : x <> 0) by (unfold x; lra). assert (Hy : 0 < y) by (unfold y; lra).
  assert (R : forall s, 0 < s * x -> s ^ 2 = 1 -> ray u v = s * x * sqrt (1 + (slope u v) ^ 2)).
  { intros s Hs S2. unfold ray, slope. fold x y. rewrite <- (sqrt_pow2 (s * x)) by lra. rewrite <- sqrt_mult_alt by apply pow2_ge_0.
    f_equal. replace ((s * x) ^ 2) with (s ^ 2 * x ^ 2) by ring. rewrite S2. field. exact Hx. }
  assert (P : 0 < 1 + slope u v ^ 2) by (pose proof (pow2_ge_0 (slope u v)); lra).
  assert (Q : sqrt (1 + slope u v ^ 2) <> 0) by (apply Rgt_not_eq; now apply sqrt_lt_R0).
  assert (SX : slope u v * x = y) by (unfold slope; fold x y; field; exact Hx).
  assert (C : cos (atan (slope u v)) = 1 / sqrt (1 + slope u v ^ 2)) by (rewrite cos_atan; unfold Rsqr; f_equal; f_equal; ring).
  assert (S : sin (atan (slope u v)) = slope u v / sqrt (1 + slope u v ^ 2)) by (rewrite sin_atan; unfold Rsqr; f_equal; f_equal; ring).
  destruct (Rlt_dec (292 / 1000) u) as [G|G].
  - assert (X : 0 < x) by (unfold x; lra). assert (0 <= atan (slope u v)).
    { rewrite <- atan_0. apply Rlt_le, atan_increasing. unfold slope. fold x y. apply Rdiv_lt_0_compat; lra. }
    destruct Rle_dec; [|lra]. rewrite C, S. rewrite (R 1) by lra. rewrite <- SX. split; field; exact Q.
  - assert (X : x < 0) by (unfold x; lra). assert (L : atan (slope u v) < 0).
    { rewrite <- atan_0. apply atan_increasing. unfold slope. fold x y. unfold Rdiv. apply Ropp_lt_cancel. rewrite Ropp_0, Ropp_mult_distr_r.
      apply Rmult_lt_0_compat; [lra|]. pose proof (Rinv_lt_0_compat x X). lra. }
    destruct Rle_dec; [lra|]. replace (atan (slope u v) + pi20 - pi20 + PI) with (atan (slope u v) + PI) by ring.
    rewrite neg_cos, neg_sin, C, S. rewrite (R (-1)) by lra. rewrite <- SX. split; field; exact Q.
Qed.
Print Assumptions C108_bearing.

(** There is no check before the logarithm or the divisions.  On the level
    v = 0.24 the second estimate is negative for every u, and the code takes
    its logarithm (in C: a NaN with status 0); on the line u = 0.292 it divides
    by zero. *)
Theorem C108_ohno2011_level_refuted (a : uv R) (o : cct R) :
  clear (fu a) -> clear (fv a) -> cu a <> 292 / 1000 -> cv a = 24 / 100 -> uv60_cct 1 a o = NotReal.
Proof.
  intros Fu Fv Nu Ev. unfold clear in Fu, Fv. unfold uv60_cct. cbn [Z.eqb Pos.eqb]. unfold ohno2011. rewrite Fu, Fv.
  cbn [flag Z.eqb negb bind]. num.
  replace (Rlit 292 3) with (292 / 1000) by (lits; lra). replace (Rlit 24 2) with (24 / 100) by (lits; lra). rewrite Ev.
  set (x := cu a - 292 / 1000). assert (Hx : x <> 0) by (unfold x; lra).
  replace (x * x + (24 / 100 - 24 / 100) * (24 / 100 - 24 / 100)) with (Rsqr x) by (unfold Rsqr; ring).
  rewrite Rsqrto_ok by apply Rle_0_sqr. rewrite sqrt_Rsqr_abs. cbn [bind]. assert (RP : 0 < Rabs x) by now apply Rabs_pos_lt.
  rewrite Rdivo_ok by exact Hx. cbn [bind fatan NumMR].
  replace ((24 / 100 - 24 / 100) / x) with 0 by (field; exact Hx). rewrite atan_0.
  destruct (Rleb_spec 0 0) as [_|H]; [|lra].
  destruct (@k2011_ok 0) as (K0 & L0); [lia|]. rewrite K0. cbn [bind]. rewrite poly6_ok by exact L0. cbn [bind].
  destruct (Rltb_spec 0 (Rlit 254 2)) as [_|H]; [|exfalso; revert H; lits; lra].
  destruct (@k2011_ok 1) as (K1 & L1); [lia|]. rewrite K1. cbn [bind].
  destruct (@k2011_ok 3) as (K3 & L3); [lia|]. rewrite K3. cbn [bind].
  assert (V : forall k, poly_val k 0 = nth 0 k 0) by (intros k; unfold poly_val; ring).
  rewrite !poly6_ok by assumption. cbn [bind]. rewrite !V.
  change (nth 0 (krow 0) 0) with (-1773480000 / 10 ^ 10). change (nth 0 (krow 1) 0) with (5308409 / 10 ^ 10).
  change (nth 0 (krow 3) 0) with (-2327502700000 / 10 ^ 10).
  rewrite Rdivo_ok by lra. cbn [bind]. rewrite Rdivo_ok by lra. cbn [bind].
  replace (Rlit 1 2) with (1 / 100) by (lits; lra). rewrite Rdivo_ok by lra. cbn [bind].
  cbn [flog10 NumMR]. unfold Rlog10. destruct Rlt_dec as [H|_]; [exfalso|reflexivity].
  assert (IP : 0 < / Rabs x) by now apply Rinv_0_lt_compat. assert (I1 : Rabs x * / Rabs x = 1) by (apply Rinv_r; lra).
  revert H. apply Rle_not_lt. unfold Rdiv. set (r := Rabs x) in *. set (w := / r) in *. 
  replace (1 * / (5308409 * / 10 ^ 10)) with (10 ^ 10 / 5308409) by (field; lra).
  replace (-2327502700000 * / 10 ^ 10 * (-1773480000 * / 10 ^ 10 + 1 * / 100) * w * (r - -1773480000 * / 10 ^ 10) * / (1 * / 100))
    with (-2327502700000 / 10 ^ 10 * (-1773480000 / 10 ^ 10 + 1 / 100) * 100 * (r * w + 1773480000 / 10 ^ 10 * w)) by (field; lra).
  rewrite I1. lra.
Qed.
Print Assumptions C108_ohno2011_level_refuted.

Theorem C108_ohno2011_line_refuted (a : uv R) (o : cct R) :
  clear (fu a) -> clear (fv a) -> cu a = 292 / 1000 -> uv60_cct 1 a o = NotReal.
Proof.
  intros Fu Fv Nu. unfold clear in Fu, Fv. unfold uv60_cct. cbn [Z.eqb Pos.eqb]. unfold ohno2011. rewrite Fu, Fv.
  cbn [flag Z.eqb negb bind]. num.
  replace (Rlit 292 3) with (292 / 1000) by (lits; lra). rewrite Nu. replace (292 / 1000 - 292 / 1000) with 0 by ring.
  rewrite Rsqrto_ok by (set (y := cv a - _); pose proof (Rle_0_sqr y); unfold Rsqr in *; lra). cbn [bind].
  unfold Rdivo. destruct Req_EM_T; [reflexivity|contradiction].
Qed.
Print Assumptions C108_ohno2011_line_refuted.

(** *** Non-vacuity: the colour at 135 degrees that lies on the locus *)
Definition deg135 : R := pi20 - PI / 4.

Lemma deg135_powers :
  let lo := 2356194490 / 10 ^ 9 in let hi := 2356194491 / 10 ^ 9 in
  lo <= deg135 <= hi /\ (forall n, lo ^ n <= deg135 ^ n <= hi ^ n).
Proof.
  cbv zeta.
  assert (B : 2356194490 / 10 ^ 9 <= deg135 <= 2356194491 / 10 ^ 9).
  { pose proof PI_bounds. unfold deg135, pi20. lra. }
  split; [exact B|]. intros n. split; apply pow_incr; lra.
Qed.

Lemma deg135_locus : 0 < poly_val (krow 0) deg135 /\ 0 < poly_val (krow 1) deg135.
Proof.
  destruct deg135_powers as (B & P). unfold poly_val, krow. cbn [nth ohno2011_tab map].
  pose proof (P 2%nat) as P2. pose proof (P 3%nat) as P3. pose proof (P 4%nat) as P4. pose proof (P 5%nat) as P5. pose proof (P 6%nat) as P6.
  clear P. set (x := deg135) in *. revert P2 P3 P4 P5 P6.
  generalize (x ^ 2) (x ^ 3) (x ^ 4) (x ^ 5) (x ^ 6). intros x2 x3 x4 x5 x6. intros. split; lra.
Qed.

Example C108_ohno2011_case :
  let l := poly_val (krow 0) deg135 in
  let a := Uv (292 / 1000 - l / sqrt 2) (24 / 100 + l / sqrt 2) 0 0 (Some 0%Z) (Some 0%Z) in
  clear (fu a) /\ clear (fv a) /\ cu a <> 292 / 1000 /\ cool (cu a) (cv a)
  /\ poly_val (krow 1) (bearing (cu a) (cv a)) <> 0 /\ 0 < t2_of true (cu a) (cv a) /\ duv11 (cu a) (cv a) = 0.
Proof.
  cbv zeta. destruct deg135_locus as (H0 & H1). set (l := poly_val (krow 0) deg135) in *. cbn [cu cv fu fv].
  assert (S2 : 0 < sqrt 2) by (apply sqrt_lt_R0; lra). assert (SS : sqrt 2 * sqrt 2 = 2) by (apply sqrt_sqrt; lra).
  set (w := l / sqrt 2). assert (W : 0 < w) by (apply Rdiv_lt_0_compat; assumption).
  assert (WW : w * sqrt 2 = l) by (unfold w; field; lra).
  set (u := 292 / 1000 - w). set (v := 24 / 100 + w).
  assert (ES : slope u v = -1) by (unfold slope, u, v; field; lra).
  assert (EB : bearing u v = deg135).
  { unfold bearing. rewrite ES. replace (-1) with (- (1)) by ring. rewrite atan_opp, atan_1. pose proof PI_bounds. destruct Rle_dec; [lra|]. unfold deg135. ring. }
  assert (ER : ray u v = l).
  { unfold ray, u, v. rewrite <- WW. rewrite <- (sqrt_pow2 (w * sqrt 2)) by (apply Rmult_le_pos; lra). f_equal.
    replace ((w * sqrt 2) ^ 2) with (w ^ 2 * (sqrt 2 * sqrt 2)) by ring. rewrite SS. ring. }
  assert (ED : duv11 u v = 0) by (unfold duv11, lbb; rewrite ER, EB; unfold l; ring).
  split; [reflexivity|]. split; [reflexivity|]. split; [unfold u; lra|].
  split; [unfold cool; rewrite EB; destruct deg135_powers as (B & _); lra|].
  split; [rewrite EB; lra|]. split; [|exact ED].
  unfold t2_of. rewrite ED. unfold t1_of. rewrite EB, ER. unfold Rdiv. rewrite Rmult_0_r, Rmult_0_l, Rminus_0_r.
  apply Rmult_lt_0_compat; [lra|]. now apply Rinv_0_lt_compat.
Qed.
