(** Linear interpolation in double precision *)
From Coq Require Import Floats.PrimFloat.
From Coq Require Import ZArith Reals Lra Lia Psatz List Bool.
From Flocq Require Import Core.
From Verif Require Import Base BaseFacts NumF NumR Out SpecInterp SpecFlt MInterp PInterp PFlt PFltSum PFltUnit PFltQuat PFltChol PRgbFlt PFltCmp PPoly.
Import ListNotations.
Set Implicit Arguments.
Open Scope R_scope.

(** The straight line through two points *)
Definition line (x1 y1 x3 y3 x : R) : R := y1 + (x - x1) * (y3 - y1) / (x3 - x1).

Lemma abs_one d k : Rabs (d - 1) <= gam k -> Rabs d <= 1 + gam k.
Proof. intros H. apply Rabs_le_inv in H. apply Rabs_le. pose proof (gam_nonneg k). lra. Qed.

(** The error, given that nothing overflows *)
Lemma line_err (x1 y1 x3 y3 x : double) : 
  1001 / 1000000000 <= FR x3 - FR x1 -> finite ((x - x1) * (y3 - y1) / (x3 - x1) + y1)%float -> finite (x3 - x1)%float ->
  Rabs (FR ((x - x1) * (y3 - y1) / (x3 - x1) + y1)%float - line (FR x1) (FR y1) (FR x3) (FR y3) (FR x))
  <= gam 6 * (Rabs (FR y1) + Rabs ((FR x - FR x1) * (FR y3 - FR y1) / (FR x3 - FR x1))) + 2 ^ 21 * eta.
Proof.
  intros Hh HF Hd. apply add_err in HF as (Fq & Fy & d6 & H6 & ->).
  apply sub_back in Hd as (_ & _ & d4 & H4 & E4). set (h := FR x3 - FR x1) in *.
  assert (N : FR (x3 - x1)%float <> 0) by (intros Z; rewrite Z in E4; lra).
  apply (div_err _ _ N) in Fq as (Fp & d5 & e5 & H5 & He5 & ->).
  apply mul_err in Fp as (F1 & F2 & d3 & e3 & H3 & He3 & ->).
  apply sub_err in F1 as (_ & _ & d1 & H1 & ->). apply sub_err in F2 as (_ & _ & d2 & H2 & ->).
  set (a := FR x - FR x1). set (b := FR y3 - FR y1). set (S0 := a * b / h).
  assert (IV : / FR (x3 - x1)%float = (1 + d4) / h) by (rewrite E4; field; split; [intros Z; rewrite Z, Rmult_0_r in E4; lra|exact N]).
  unfold Rdiv at 1. rewrite IV. unfold line. fold a b h. fold S0.
  set (P5 := (1 + d5) * ((1 + d4) * ((1 + d3) * ((1 + d2) * (1 + d1))))).
  assert (G6 : Rabs ((1 + d6) * P5 - 1) <= gam 6) by (unfold P5; repeat (apply one_more; auto); now apply one_rnd).
  replace (((a * (1 + d1) * (b * (1 + d2)) * (1 + d3) + e3) * ((1 + d4) / h) * (1 + d5) + e5 + FR y1) * (1 + d6) - (FR y1 + S0))
    with (S0 * ((1 + d6) * P5 - 1) + FR y1 * d6 + (e3 * (/ h * ((1 + d6) * ((1 + d5) * (1 + d4)))) + e5 * (1 + d6)))
    by (unfold S0, P5; field; lra).
  pose proof uu_pos as U. pose proof uu_small as U8. pose proof eta_pos as EP.
  assert (Hu : uu <= gam 6) by (eapply Rle_trans; [|apply (@gam_le 1 6); lia]; rewrite gam_S, gam_0; lra).
  assert (T1 : Rabs (S0 * ((1 + d6) * P5 - 1)) <= gam 6 * Rabs S0) by (rewrite Rabs_mult; pose proof (Rabs_pos S0); nra).
  assert (T2 : Rabs (FR y1 * d6) <= gam 6 * Rabs (FR y1)) by (rewrite Rabs_mult; pose proof (Rabs_pos (FR y1)); nra).
  assert (B : forall d, Rabs d <= uu -> Rabs (1 + d) <= 9 / 8) by (intros d Hdd; apply Rabs_le_inv in Hdd; apply Rabs_le; lra).
  assert (IH : Rabs (/ h) <= 1000000).
  { rewrite Rabs_pos_eq by (left; apply Rinv_0_lt_compat; lra). replace 1000000 with (/ (1 / 1000000)) by field; apply Rinv_le_contravar; lra. }
  assert (T3 : Rabs (/ h * ((1 + d6) * ((1 + d5) * (1 + d4)))) <= 1500000).
  { rewrite !Rabs_mult. pose proof (B _ H4). pose proof (B _ H5). pose proof (B _ H6).
    pose proof (Rabs_pos (/ h)). pose proof (Rabs_pos (1 + d4)). pose proof (Rabs_pos (1 + d5)). pose proof (Rabs_pos (1 + d6)).
    assert (Rabs (1 + d5) * Rabs (1 + d4) <= 9 / 8 * (9 / 8)) by (apply Rmult_le_compat; auto).
    assert (Rabs (1 + d6) * (Rabs (1 + d5) * Rabs (1 + d4)) <= 9 / 8 * (9 / 8 * (9 / 8))) by (apply Rmult_le_compat; auto; nra).
    apply Rle_trans with (1000000 * (9 / 8 * (9 / 8 * (9 / 8)))); [|lra]. apply Rmult_le_compat; auto. repeat apply Rmult_le_pos; auto. }
  assert (T4 : Rabs (e3 * (/ h * ((1 + d6) * ((1 + d5) * (1 + d4)))) + e5 * (1 + d6)) <= 2 ^ 21 * eta).
  { eapply Rle_trans; [apply Rabs_triang|]. rewrite (Rabs_mult e3), (Rabs_mult e5).
    set (w := Rabs (/ h * ((1 + d6) * ((1 + d5) * (1 + d4))))) in *. pose proof (B _ H6).
    assert (Rabs e3 * w <= eta * 1500000) by (apply Rmult_le_compat; auto; apply Rabs_pos).
    assert (Rabs e5 * Rabs (1 + d6) <= eta * (9 / 8)) by (apply Rmult_le_compat; auto; apply Rabs_pos). nra. }
  eapply Rle_trans; [apply Rabs_triang|]. eapply Rle_trans; [apply Rplus_le_compat_r, Rabs_triang|]. lra.
Qed.

Definition lim : R := 2 ^ 400.

Lemma le_big n r : (n <= 1000)%nat -> Rabs r <= 2 ^ n -> Rabs r <= big.
Proof. intros Hn Hr. eapply Rle_trans; [exact Hr|]. unfold big. apply Rle_pow; [lra|auto]. Qed.

Lemma sub_lim x y n : finite x -> finite y -> (n <= 998)%nat -> Rabs (FR x) <= 2 ^ n -> Rabs (FR y) <= 2 ^ n ->
  finite (x - y)%float /\ Rabs (FR (x - y)%float) <= 2 ^ S (S n).
Proof.
  intros Fx Fy Hn Hx Hy. assert (P : 0 < 2 ^ n) by (apply pow_lt; lra). assert (A : Rabs (FR x - FR y) <= 2 ^ S n).
  { cbn [pow]. apply Rabs_le_inv in Hx, Hy. apply Rabs_le. lra. }
  assert (F : finite (x - y)%float) by (apply sub_finite; auto; eapply le_big; [|exact A]; lia).
  split; [exact F|]. apply sub_err in F as (_ & _ & d & Hd & ->). rewrite Rabs_mult.
  assert (Rabs (1 + d) <= 2) by (pose proof uu_small; apply Rabs_le_inv in Hd; apply Rabs_le; lra).
  change (2 ^ S (S n)) with (2 * 2 ^ S n). rewrite Rmult_comm. apply Rmult_le_compat; auto using Rabs_pos.
Qed.

Lemma lin_y_flt (x1 y1 x3 y3 x : double) :
  finite x1 -> finite y1 -> finite x3 -> finite y3 -> finite x ->
  Rabs (FR x1) <= lim -> Rabs (FR y1) <= lim -> Rabs (FR x3) <= lim -> Rabs (FR y3) <= lim ->
  1001 / 1000000000 <= FR x3 - FR x1 -> FR x1 <= FR x <= FR x3 ->
  let r := ((x - x1) * (y3 - y1) / (x3 - x1) + y1)%float in
  interp_lin_y (x1, y1) (x3, y3) x = Ok (0%Z, Set_ r) /\ finite r /\
  Rabs (FR r - line (FR x1) (FR y1) (FR x3) (FR y3) (FR x)) <= gam 6 * (Rabs (FR y1) + Rabs (FR y3 - FR y1)) + 2 ^ 21 * eta.
Proof.
  intros Fx1 Fy1 Fx3 Fy3 Fx B1 B2 B3 B4 Hh Hx r. unfold lim in *.
  assert (Bx : Rabs (FR x) <= 2 ^ 400) by (apply Rabs_le_inv in B1, B3; apply Rabs_le; lra).
  destruct (@sub_lim x x1 400 Fx Fx1 ltac:(lia) Bx B1) as (Fa & Ba). destruct (@sub_lim y3 y1 400 Fy3 Fy1 ltac:(lia) B4 B2) as (Fb & Bb).
  destruct (@sub_lim x3 x1 400 Fx3 Fx1 ltac:(lia) B3 B1) as (Fh & Bh).
  pose proof uu_pos as U. pose proof uu_small as U8. pose proof eta_pos as EP.
  assert (Dh : 10009 / 10000000000 <= FR (x3 - x1)%float).
  { destruct (sub_err _ _ Fh) as (_ & _ & d & Hd & ->). apply Rabs_le_inv in Hd. rewrite uu_val in Hd. nra. }
  assert (Fm : finite ((x - x1) * (y3 - y1))%float /\ Rabs (FR ((x - x1) * (y3 - y1))%float) <= 2 ^ 806).
  { assert (A : Rabs (FR (x - x1)%float * FR (y3 - y1)%float) <= 2 ^ 804).
    { rewrite Rabs_mult. change 804%nat with (402 + 402)%nat. rewrite pow_add. apply Rmult_le_compat; auto using Rabs_pos. }
    assert (F : finite ((x - x1) * (y3 - y1))%float) by (apply mul_finite; auto; eapply le_big; [|exact A]; lia).
    split; [exact F|]. destruct (mul_err _ _ F) as (_ & _ & d & e & Hd & He & ->).
    assert (Rabs (1 + d) <= 2) by (apply Rabs_le_inv in Hd; apply Rabs_le; lra).
    eapply Rle_trans; [apply Rabs_triang|]. rewrite Rabs_mult.
    assert (Rabs (FR (x - x1)%float * FR (y3 - y1)%float) * Rabs (1 + d) <= 2 ^ 804 * 2) by (apply Rmult_le_compat; auto using Rabs_pos).
    assert (eta <= 2 ^ 804). { apply Rle_trans with 1; [unfold eta; rewrite <- Rinv_1; apply Rinv_le_contravar; [lra|apply pow_R1_Rle; lra]|apply pow_R1_Rle; lra]. }
    change 806%nat with (2 + 804)%nat. rewrite pow_add. cbn [pow]. lra. }
  destruct Fm as (Fm & Bm).
  assert (N : FR (x3 - x1)%float <> 0) by lra.
  assert (Fq : finite ((x - x1) * (y3 - y1) / (x3 - x1))%float /\ Rabs (FR ((x - x1) * (y3 - y1) / (x3 - x1))%float) <= 2 ^ 828).
  { assert (A : Rabs (FR ((x - x1) * (y3 - y1))%float / FR (x3 - x1)%float) <= 2 ^ 826).
    { unfold Rdiv. rewrite Rabs_mult. change 826%nat with (806 + 20)%nat. rewrite pow_add. apply Rmult_le_compat; auto using Rabs_pos.
      rewrite Rabs_pos_eq by (left; apply Rinv_0_lt_compat; lra). apply Rle_trans with (/ (1 / 1000000)); [apply Rinv_le_contravar; lra|].
      replace (/ (1 / 1000000)) with 1000000 by field. rewrite pow_IZR. cbn. lra. }
    assert (F : finite ((x - x1) * (y3 - y1) / (x3 - x1))%float) by (apply div_finite; auto; eapply le_big; [|exact A]; lia).
    split; [exact F|]. destruct (div_err _ _ N F) as (_ & d & e & Hd & He & ->).
    assert (Rabs (1 + d) <= 2) by (apply Rabs_le_inv in Hd; apply Rabs_le; lra).
    eapply Rle_trans; [apply Rabs_triang|]. rewrite Rabs_mult.
    assert (Rabs (FR ((x - x1) * (y3 - y1))%float / FR (x3 - x1)%float) * Rabs (1 + d) <= 2 ^ 826 * 2) by (apply Rmult_le_compat; auto using Rabs_pos).
    assert (eta <= 2 ^ 826). { apply Rle_trans with 1; [unfold eta; rewrite <- Rinv_1; apply Rinv_le_contravar; [lra|apply pow_R1_Rle; lra]|apply pow_R1_Rle; lra]. }
    change 828%nat with (2 + 826)%nat. rewrite pow_add. cbn [pow]. lra. }
  destruct Fq as (Fq & Bq).
  assert (Fr : finite r).
  { apply add_finite; auto. eapply (@le_big 830); [lia|]. eapply Rle_trans; [apply Rabs_triang|].
    assert (2 ^ 400 <= 2 ^ 828) by (apply Rle_pow; [lra|lia]). change 830%nat with (2 + 828)%nat. rewrite pow_add. cbn [pow]. lra. }
  split; [|split; [exact Fr|]].
  - unfold interp_lin_y, no_delta, fgt. cbn [flt fsub fneg NumF fdiv fmul fadd bind].
    change (flit 1 6) with (F_lit 1 6). destruct lit_tiny as (FL & L). rewrite (@ltb_dec (x3 - x1)%float) by auto.
    destruct Rlt_dec; [lra|]. cbn [andb]. rewrite !ltb_dec by auto. do 2 (destruct Rlt_dec; [lra|]). reflexivity.
  - eapply Rle_trans; [apply line_err; auto|]. apply Rplus_le_compat_r, Rmult_le_compat_l; [apply gam_nonneg|]. apply Rplus_le_compat_l.
    replace ((FR x - FR x1) * (FR y3 - FR y1) / (FR x3 - FR x1)) with ((FR x - FR x1) / (FR x3 - FR x1) * (FR y3 - FR y1)) by (field; lra).
    rewrite Rabs_mult. assert (T : 0 <= (FR x - FR x1) / (FR x3 - FR x1) <= 1).
    { split; [apply Rmult_le_pos; [lra|left; apply Rinv_0_lt_compat; lra]|]. apply Rmult_le_reg_r with (FR x3 - FR x1); [lra|]. unfold Rdiv. rewrite Rmult_assoc, Rinv_l by lra. lra. }
    rewrite Rabs_pos_eq by apply T. pose proof (Rabs_pos (FR y3 - FR y1)). nra.
Qed.

Lemma line_left (x1 y1 x3 y3 x : double) : FR x = FR x1 -> FR (x3 - x1)%float <> 0 ->
  finite ((x - x1) * (y3 - y1) / (x3 - x1) + y1)%float -> FR ((x - x1) * (y3 - y1) / (x3 - x1) + y1)%float = FR y1.
Proof.
  intros Hx N F. apply add_rnd in F as (Fq & Fy & ->). apply (div_rnd _ _ N) in Fq as (Fp & ->).
  apply mul_rnd in Fp as (Fa & Fb & ->). apply sub_err in Fa as (_ & _ & d & _ & ->).
  replace ((FR x - FR x1) * (1 + d) * FR (y3 - y1)%float) with 0 by (rewrite Hx; ring).
  assert (Z : rnd64 0 = 0) by (unfold rnd64; apply round_0; apply valid_rnd_N).
  rewrite Z. unfold Rdiv. rewrite Rmult_0_l, Z, Rplus_0_l. unfold rnd64.
  apply round_generic; [apply valid_rnd_N|apply FR_format].
Qed.

(** ** Tables *)
Definition pt (xy : list (double * double)) (i : nat) : double * double := nth i xy (PrimFloat.zero, PrimFloat.zero).
Lemma FR2_nth xy i : nth i (map FR2 xy) (0, 0) = FR2 (pt xy i).
Proof. unfold pt. rewrite <- (map_nth FR2). unfold FR2. cbn [fst snd]. now rewrite FR_zero. Qed.
Lemma X_pt xy i : X (map FR2 xy) i = FR (fst (pt xy i)).
Proof. unfold X. rewrite FR2_nth. reflexivity. Qed.
Lemma Y_pt xy i : Y (map FR2 xy) i = FR (snd (pt xy i)).
Proof. unfold Y. rewrite FR2_nth. reflexivity. Qed.
Lemma point_pt xy i : (i < length xy)%nat -> point xy (Z.of_nat i) = Ok (pt xy i).
Proof.
  intros Hi. unfold point, pt. destruct (Z.ltb_spec (Z.of_nat i) 0); [lia|]. rewrite Nat2Z.id. now rewrite (nth_error_nth' xy (PrimFloat.zero, PrimFloat.zero) Hi).
Qed.

Definition tame (xy : list (double * double)) : Prop :=
  forall p, In p xy -> finite (fst p) /\ finite (snd p) /\ Rabs (FR (fst p)) <= lim /\ Rabs (FR (snd p)) <= lim.

Lemma lin_y_arr_at fuel xy x i : tame xy -> finite x ->
  interp_find_x fuel xy x = Ok (0%Z, Z.of_nat i) -> (S i < length xy)%nat ->
  1001 / 1000000000 <= X (map FR2 xy) (S i) - X (map FR2 xy) i ->
  X (map FR2 xy) i <= FR x <= X (map FR2 xy) (S i) ->
  exists r, interp_lin_y_arr fuel xy x = Ok (0%Z, Set_ r) /\ finite r
  /\ Rabs (FR r - line (X (map FR2 xy) i) (Y (map FR2 xy) i) (X (map FR2 xy) (S i)) (Y (map FR2 xy) (S i)) (FR x))
     <= gam 6 * (Rabs (Y (map FR2 xy) i) + Rabs (Y (map FR2 xy) (S i) - Y (map FR2 xy) i)) + 2 ^ 21 * eta
  /\ (FR x = X (map FR2 xy) i -> FR r = Y (map FR2 xy) i).
Proof.
  intros HT Fx E Hi G B. rewrite !X_pt, !Y_pt in *.
  assert (I1 : In (pt xy i) xy) by (apply nth_In; lia). assert (I2 : In (pt xy (S i)) xy) by (apply nth_In; lia).
  apply HT in I1, I2. unfold interp_lin_y_arr, interp_arr. rewrite E. cbn [bind]. change (negb (0 =? 0)%Z) with false. cbv iota.
  rewrite point_pt by lia. replace (Z.of_nat i + 1)%Z with (Z.of_nat (S i)) by lia. rewrite point_pt by lia. cbn [bind].
  destruct (pt xy i) as [x1 y1], (pt xy (S i)) as [x3 y3]. cbn [fst snd] in *.
  destruct I1 as (F1 & F2 & B1 & B2), I2 as (F3 & F4 & B3 & B4).
  destruct (@lin_y_flt x1 y1 x3 y3 x F1 F2 F3 F4 Fx B1 B2 B3 B4 G B) as (-> & Fr & Er). cbn [bind].
  eexists. split; [reflexivity|]. split; [exact Fr|]. split; [exact Er|]. intros Hx. apply line_left; auto.
  apply add_rnd in Fr as (Fq & _). intros Z.
  destruct (@sub_lim x3 x1 400 F3 F1 ltac:(lia) B3 B1) as (Fh & _). apply sub_back in Fh as (_ & _ & d & _ & Ed). rewrite Z in Ed. lra.
Qed.
