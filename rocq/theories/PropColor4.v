(** Colorimetry: the black-body locus (C110) and colours at a distance from it
    (C109). *)
From Coq Require Import List Arith ZArith Bool Reals Lra Lia.
From Verif Require Import Base BaseFacts SpecReal SpecMtx SpecColor NumR Libm LibmR Out RTac
  MVec MMtx PMtxR PStat PStatReg MColorTab MColor PropColor PropColor2 PLocus.
From Coquelicot Require Rcomplements.
Import ListNotations.
Set Implicit Arguments.
Local Open Scope R_scope.

(** ** C110: hotter is bluer *)

(** At equal luminance a hotter black body has strictly more Z: every pair of
    positive temperatures for the 10-degree observer, and every pair from
    1000 K on for the 2-degree observer ([covered]). *)
Theorem C110_hotter_bluer obs t1 t2 :
  covered obs t1 -> t1 < t2 ->
  exists a b, ct_xyz t1 obs = Ok (0%Z, a) /\ ct_xyz t2 obs = Ok (0%Z, b)
    /\ cY a = 1 /\ cY b = 1 /\ cZ a < cZ b.
Proof.
  intros C H. destruct (covered_known C) as [Ho Ht].
  destruct (@C110_black_body t1 obs ltac:(lra) Ho) as (E1 & _).
  destruct (@C110_black_body t2 obs ltac:(lra) Ho) as (E2 & _).
  do 2 eexists. split; [exact E1|]. split; [exact E2|]. split; [reflexivity|]. split; [reflexivity|].
  now apply hotter_bluer.
Qed.

(** so two temperatures never share a chromaticity *)
Theorem C110_distinct obs t1 t2 o1 o2 :
  covered obs t1 -> covered obs t2 -> t1 <> t2 ->
  exists a b, ct_uv60 t1 obs o1 = Ok (0%Z, a) /\ ct_uv60 t2 obs o2 = Ok (0%Z, b)
    /\ (cu a <> cu b \/ cv a <> cv b).
Proof.
  intros C1 C2 N. destruct (covered_known C1) as [Ho H1]. destruct (covered_known C2) as [_ H2].
  do 2 eexists. split; [apply C110_uv; [lra|exact Ho]|]. split; [apply C110_uv; [lra|exact Ho]|].
  cbn [cu cv].
  destruct (@glow_signs t1 obs ltac:(lra) Ho) as (X1 & Y1 & Z1).
  destruct (@glow_signs t2 obs ltac:(lra) Ho) as (X2 & Y2 & Z2).
  assert (D : glow (zbar obs) t1 / glow (ybar obs) t1 <> glow (zbar obs) t2 / glow (ybar obs) t2).
  { destruct (Rtotal_order t1 t2) as [L|[L|L]]; [|contradiction|].
    - pose proof (hotter_bluer C1 L). lra.
    - pose proof (hotter_bluer C2 L). lra. }
  set (x1 := glow (xbar obs) t1) in *. set (y1 := glow (ybar obs) t1) in *. set (z1 := glow (zbar obs) t1) in *.
  set (x2 := glow (xbar obs) t2) in *. set (y2 := glow (ybar obs) t2) in *. set (z2 := glow (zbar obs) t2) in *.
  assert (0 < x1) by nra. assert (0 < y1) by nra. assert (0 < z1) by nra.
  assert (0 < x2) by nra. assert (0 < y2) by nra. assert (0 < z2) by nra.
  clearbody x1 y1 z1 x2 y2 z2.
  destruct (Req_EM_T (4 * x1 / (x1 + 15 * y1 + 3 * z1)) (4 * x2 / (x2 + 15 * y2 + 3 * z2))) as [Eu|Nu]; [|now left].
  right. intros Ev. apply D.
  set (s1 := x1 + 15 * y1 + 3 * z1) in *. set (s2 := x2 + 15 * y2 + 3 * z2) in *.
  assert (S1 : 0 < s1) by (unfold s1; lra). assert (S2 : 0 < s2) by (unfold s2; lra).
  assert (Ex : x1 * s2 = x2 * s1).
  { apply (f_equal (fun r => r * (s1 * s2))) in Eu.
    replace (4 * x1 / s1 * (s1 * s2)) with (4 * (x1 * s2)) in Eu by (field; lra).
    replace (4 * x2 / s2 * (s1 * s2)) with (4 * (x2 * s1)) in Eu by (field; lra). lra. }
  assert (Ey : y1 * s2 = y2 * s1).
  { apply (f_equal (fun r => r * (s1 * s2))) in Ev.
    replace (6 * y1 / s1 * (s1 * s2)) with (6 * (y1 * s2)) in Ev by (field; lra).
    replace (6 * y2 / s2 * (s1 * s2)) with (6 * (y2 * s1)) in Ev by (field; lra). lra. }
  assert (Ez : z1 * s2 = z2 * s1).
  { assert (3 * (z1 * s2) = 3 * (z2 * s1)); [|lra].
    replace (3 * (z1 * s2)) with (s1 * s2 - x1 * s2 - 15 * (y1 * s2)) by (unfold s1; ring).
    replace (3 * (z2 * s1)) with (s2 * s1 - x2 * s1 - 15 * (y2 * s1)) by (unfold s2; ring). lra. }
  apply Rmult_eq_reg_r with (y1 * s2 * y2);
    [|repeat apply Rmult_integral_contrapositive_currified; lra].
  replace (z1 / y1 * (y1 * s2 * y2)) with (z1 * s2 * y2) by (field; lra).
  replace (z2 / y2 * (y1 * s2 * y2)) with (z2 * (y1 * s2)) by (field; lra).
  rewrite Ez, Ey. ring.
Qed.

Example C110_covered_case : covered 0 2856 /\ covered 0 6504 /\ covered 1 50 /\ 2856 <> 6504.
Proof. unfold covered. repeat split; try lra; [left|left|right]; split; auto; lra. Qed.

(** ** C109: a colour at a given distance from the locus *)

(** Let p and q be the (u, v) chromaticities of the black body at the wanted
    temperature and 0.01 K above.  The answer's own chromaticity s is at
    distance |Duv| from p, at right angles to p - q, on the left of p - q when
    Duv is positive. *)
Definition offset_of (p q s : uv R) (d : R) : Prop :=
  (cu s - cu p) ^ 2 + (cv s - cv p) ^ 2 = d ^ 2
  /\ (cu s - cu p) * (cu p - cu q) + (cv s - cv p) * (cv p - cv q) = 0
  /\ 0 <= d * ((cu p - cu q) * (cv s - cv p) - (cv p - cv q) * (cu s - cu p)).

Lemma xyz_uv60_local t obs : t <> 0 -> known obs ->
  exists x, ct_xyz t obs = Ok (0%Z, x)
    /\ xyz_uv60 x uv_local = ct_uv60 t obs uv_local.
Proof.
  intros Ht Ho. destruct (C110_black_body Ht Ho) as (E & PX & PZ). eexists. split; [exact E|].
  unfold ct_uv60. rewrite E. cbn [bind Z.eqb negb]. rewrite xyz_uv60_eq; colr; [reflexivity|lra|lra].
Qed.

(** the locus lies above the line on which u, v have no x, y *)
Lemma locus_line t obs p :
  t <> 0 -> known obs -> ct_uv60 t obs uv_local = Ok (0%Z, p) -> 8 / 10 <= 2 * cu p - 8 * cv p + 4.
Proof.
  intros Ht Ho E. rewrite C110_uv in E by assumption.
  apply (f_equal (fun o => match o with Ok (_, p) => (cu p, cv p) | _ => (0, 0) end)) in E.
  injection E as <- <-. cbn [cu cv].
  destruct (glow_signs Ht Ho) as (X & Y & Z).
  set (x := glow (xbar obs) t) in *. set (y := glow (ybar obs) t) in *. set (z := glow (zbar obs) t) in *.
  assert (S : x + 15 * y + 3 * z <> 0) by (intros S; assert (t * (x + 15 * y + 3 * z) = 0) by (rewrite S; ring); lra).
  replace (2 * (4 * x / (x + 15 * y + 3 * z)) - 8 * (6 * y / (x + 15 * y + 3 * z)) + 4)
    with (12 * (x + y + z) / (x + 15 * y + 3 * z)) by (field; exact S).
  replace (12 * (x + y + z) / (x + 15 * y + 3 * z)) with (12 * (t * (x + y + z)) / (t * (x + 15 * y + 3 * z)))
    by (field; split; [exact S|exact Ht]).
  apply Rmult_le_reg_r with (t * (x + 15 * y + 3 * z)); [lra|].
  unfold Rdiv at 2. rewrite Rmult_assoc, Rinv_l by lra. lra.
Qed.

Theorem C109_offset (c : cct R) obs :
  covered obs (ct c) -> Rabs (duv c) <= 9 / 100 ->
  exists p q r s,
    ct_uv60 (ct c) obs uv_local = Ok (0%Z, p)
    /\ ct_uv60 (ct c + 1 / 100) obs uv_local = Ok (0%Z, q)
    /\ cct_xyy c obs = Ok (0%Z, r) /\ pY r = 1
    /\ xyy_uv60 r uv_local = Ok (0%Z, s) /\ offset_of p q s (duv c).
Proof.
  intros C D. destruct (covered_known C) as [Ho Ht].
  assert (C' : covered obs (ct c + 1 / 100)).
  { destruct C as [[-> H]|[-> H]]; [left|right]; split; auto; lra. }
  destruct (@C110_distinct obs (ct c) (ct c + 1 / 100) uv_local uv_local C C' ltac:(lra)) as (p & q & Ep & Eq & N).
  destruct (@xyz_uv60_local (ct c) obs ltac:(lra) Ho) as (x0 & X0 & U0).
  destruct (@xyz_uv60_local (ct c + 1 / 100) obs ltac:(lra) Ho) as (x1 & X1 & U1).
  rewrite Ep in U0. rewrite Eq in U1.
  exists p, q.
  pose proof (@locus_line (ct c) obs p ltac:(lra) Ho Ep) as L.
  set (du := cu p - cu q). set (dv := cv p - cv q).
  assert (H2 : 0 < du * du + dv * dv).
  { unfold du, dv. destruct N as [N|N].
    - assert (0 < (cu p - cu q) * (cu p - cu q)) by (apply Rsqr_pos_lt; lra).
      pose proof (Rle_0_sqr (cv p - cv q)) as Q. unfold Rsqr in Q. lra.
    - assert (0 < (cv p - cv q) * (cv p - cv q)) by (apply Rsqr_pos_lt; lra).
      pose proof (Rle_0_sqr (cu p - cu q)) as Q. unfold Rsqr in Q. lra. }
  set (h := sqrt (du * du + dv * dv)). assert (Hh : 0 < h) by now apply sqrt_lt_R0.
  assert (HH : h * h = du * du + dv * dv) by (apply sqrt_sqrt; lra).
  set (s := dv / h). set (k := du / h).
  assert (SK : s * s + k * k = 1).
  { unfold s, k. replace (dv / h * (dv / h) + du / h * (du / h)) with ((du * du + dv * dv) / (h * h)) by (field; lra).
    rewrite HH. field. lra. }
  set (u := cu p - duv c * s). set (v := cv p + duv c * k).
  assert (Den : 2 * u - 8 * v + 4 <> 0).
  { assert (B : Rabs (duv c * (2 * s + 8 * k)) <= 9 / 100 * (83 / 10)).
    { rewrite Rabs_mult. apply Rmult_le_compat; try apply Rabs_pos; [exact D|].
      assert (Q : (2 * s + 8 * k) ^ 2 <= 68).
      { replace ((2 * s + 8 * k) ^ 2) with (68 * (s * s + k * k) - (8 * s - 2 * k) ^ 2) by ring.
        rewrite SK. pose proof (pow2_ge_0 (8 * s - 2 * k)). lra. }
      set (w := 2 * s + 8 * k) in *. clearbody w. apply Rabs_le. split; nra. }
    apply Rcomplements.Rabs_le_between in B.
    replace (2 * u - 8 * v + 4) with (2 * cu p - 8 * cv p + 4 - duv c * (2 * s + 8 * k)) by (unfold u, v; ring).
    lra. }
  set (r := Xyy (3 * u / (2 * u - 8 * v + 4)) (2 * v / (2 * u - 8 * v + 4)) 1 obs 0 (Some 0%Z) (Some 0%Z) (Some 0%Z)).
  assert (Er : cct_xyy c obs = Ok (0%Z, r)).
  { unfold cct_xyy. rewrite X0. cbn [bind]. rewrite U0. cbn [bind].
    replace (ct c + flit 1 2)%num with (ct c + 1 / 100) by (num; replace (Rlit 1 2) with (1 / 100) by (lits; lra); reflexivity).
    rewrite X1. cbn [bind]. rewrite U1. cbn [bind]. num. fold du dv.
    rewrite Rsqrto_ok by lra. cbn [bind]. fold h. rewrite !Rdivo_ok by lra. cbn [bind]. fold s k. fold u v.
    replace (Rlit 90 1) with 9 by (lits; lra). replace (Rlit 60 1) with 6 by (lits; lra).
    replace (Rlit 160 1) with 16 by (lits; lra). replace (Rlit 15 1) with (3 / 2) by (lits; lra).
    replace (Rlit 120 1) with 12 by (lits; lra). replace (Rlit 20 1) with 2 by (lits; lra).
    replace (Rlit 30 1) with 3 by (lits; lra). replace (Rlit 80 1) with 8 by (lits; lra).
    replace (6 * u - 16 * v * (3 / 2) + 12) with (3 * (2 * u - 8 * v + 4)) by field.
    replace (3 * u - 8 * v * (3 / 2) + 6) with (3 / 2 * (2 * u - 8 * v + 4)) by field.
    rewrite !Rdivo_ok by lra. cbn [bind]. unfold r. do 3 f_equal; field; lra. }
  exists r.
  assert (Den' : -2 * px r + 12 * py r + 3 <> 0).
  { unfold r. cbn [px py].
    replace (-2 * (3 * u / (2 * u - 8 * v + 4)) + 12 * (2 * v / (2 * u - 8 * v + 4)) + 3)
      with (12 / (2 * u - 8 * v + 4)) by (field; exact Den).
    intros Z. apply div0 in Z; [lra|exact Den]. }
  rewrite (xyy_uv60_eq r uv_local Den'). eexists. split; [exact Ep|]. split; [exact Eq|].
  split; [exact Er|]. split; [reflexivity|]. split; [reflexivity|].
  unfold offset_of. cbn [cu cv].
  assert (Eu : 4 * px r / (-2 * px r + 12 * py r + 3) = u).
  { unfold r. cbn [px py]. field. split; [exact Den|].
    replace (-2 * (3 * u) + 12 * (2 * v) + 3 * (2 * u - 8 * v + 4)) with 12 by ring. lra. }
  assert (Ev : 6 * py r / (-2 * px r + 12 * py r + 3) = v).
  { unfold r. cbn [px py]. field. split; [exact Den|].
    replace (-2 * (3 * u) + 12 * (2 * v) + 3 * (2 * u - 8 * v + 4)) with 12 by ring. lra. }
  rewrite Eu, Ev. fold du dv. unfold u, v.
  assert (Es : s * h = dv) by (unfold s; field; lra). assert (Ek : k * h = du) by (unfold k; field; lra).
  split; [|split].
  - replace ((cu p - duv c * s - cu p) ^ 2 + (cv p + duv c * k - cv p) ^ 2) with (duv c ^ 2 * (s * s + k * k)) by ring.
    rewrite SK. ring.
  - rewrite <- Es, <- Ek. ring.
  - rewrite <- Es, <- Ek.
    replace (duv c * (k * h * (cv p + duv c * k - cv p) - s * h * (cu p - duv c * s - cu p)))
      with (duv c ^ 2 * h * (s * s + k * k)) by ring.
    rewrite SK. pose proof (pow2_ge_0 (duv c)). nra.
Qed.

Example C109_case : covered 0 (ct (Cct 3000 (3 / 1000) None None)) /\ Rabs (duv (Cct 3000 (3 / 1000) None None)) <= 9 / 100.
Proof. cbn [ct duv]. split; [left; split; [reflexivity|lra]|]. rewrite Rabs_pos_eq; lra. Qed.

(** Zero kelvin and unknown observers are not rejected. *)
Theorem C109_guards_refuted (c : cct R) obs :
  (ct c = 0 -> cct_xyy c obs = NotReal) /\ (ct c <> 0 -> ~ known obs -> cct_xyy c obs = UB Uninit).
Proof.
  split.
  - intros H. unfold cct_xyy. rewrite H. now rewrite C110_zero_refuted.
  - intros H Ho. unfold cct_xyy. now rewrite C110_unknown_observer_refuted.
Qed.

Print Assumptions C110_hotter_bluer.
Print Assumptions C110_distinct.
Print Assumptions C109_offset.
Print Assumptions C109_guards_refuted.
