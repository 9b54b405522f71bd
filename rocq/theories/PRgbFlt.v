(** Limiting a machine number to [0, 1] and scaling it to 255 *)
From Coq Require Import Floats.PrimFloat.
From Flocq Require Import Core BinarySingleNaN PrimFloat.
From Coq Require Import ZArith Reals Lra Lia List Bool.
From Verif Require Import Base NumF SpecVec SpecReal SpecFlt SpecColor PFlt PFltSum PFltUnit PFltVar PSafeFlt PNanQuat MColor.
Import ListNotations.
Open Scope R_scope.

Lemma float_cases s : nanf s \/ finite s \/ s = infinity \/ s = neg_infinity.
Proof.
  unfold nanf. rewrite finite_B, <- B2SF_Prim2B.
  destruct (Prim2B s) as [b|b| |b m e H] eqn:E; cbn; auto.
  right. right. destruct b; [right|left]; apply FloatAxioms.Prim2SF_inj;
    rewrite <- (B2SF_Prim2B s), E; vm_compute; reflexivity.
Qed.

Lemma nan_not_finite s : nanf s -> ~ finite s.
Proof.
  unfold nanf. rewrite finite_B, <- B2SF_Prim2B. destruct (Prim2B s); cbn; congruence.
Qed.

Lemma leb_FR x y : finite x -> finite y -> ((x <=? y)%float = true <-> FR x <= FR y).
Proof.
  rewrite !finite_B, !FR_B2R, leb_equiv. intros Hx Hy.
  rewrite Bleb_correct by auto. split; [intros H|apply Rle_bool_true].
  destruct (Rle_bool_spec (B2R (Prim2B x)) (B2R (Prim2B y))); [auto|discriminate].
Qed.
Lemma ltb_dec x y : finite x -> finite y -> (x <? y)%float = if Rlt_dec (FR x) (FR y) then true else false.
Proof.
  intros Hx Hy. destruct (Rlt_dec (FR x) (FR y)) as [H|H].
  - now apply ltb_FR.
  - apply ltb_FR'; auto. lra.
Qed.
Lemma leb_dec x y : finite x -> finite y -> (x <=? y)%float = if Rle_dec (FR x) (FR y) then true else false.
Proof.
  intros Hx Hy. destruct (Rle_dec (FR x) (FR y)) as [H|H].
  - now apply leb_FR.
  - apply not_true_is_false. rewrite leb_FR; auto.
Qed.

Lemma nan_ltb_l s y : nanf s -> (s <? y)%float = false.
Proof. unfold nanf. rewrite FloatAxioms.ltb_spec. intros ->. reflexivity. Qed.
Lemma nan_ltb_r s y : nanf s -> (y <? s)%float = false.
Proof. unfold nanf. rewrite FloatAxioms.ltb_spec. intros ->. now destruct (FloatOps.Prim2SF y) as [[]|[]| |[] ? ?]. Qed.
Lemma nan_leb_r s y : nanf s -> (y <=? s)%float = false.
Proof. unfold nanf. rewrite FloatAxioms.leb_spec. intros ->. now destruct (FloatOps.Prim2SF y) as [[]|[]| |[] ? ?]. Qed.

Lemma clamp01_close x y : Rabs (clamp01 x - clamp01 y) <= Rabs (x - y).
Proof.
  unfold clamp01, Rmin, Rmax. destruct (Rle_dec 0 x), (Rle_dec 0 y);
    repeat destruct (Rle_dec _ _); unfold Rabs; repeat destruct (Rcase_abs _); lra.
Qed.

Lemma clamp01_in x : 0 <= clamp01 x <= 1.
Proof. unfold clamp01, Rmin, Rmax. destruct (Rle_dec 0 x), (Rle_dec _ _); lra. Qed.

Lemma FR_255 : FR (F_lit 2550 1) = 255.
Proof.
  unfold FR. replace (FloatOps.Prim2SF (F_lit 2550 1)) with (SpecFloat.S754_finite false 8972014882652160 (-45))
    by (vm_compute; reflexivity).
  change (powerRZ 2 (-45)) with (/ 2 ^ 45). lra.
Qed.

Definition limited (cap : bool) (s : double) : double := cap8 cap (fst (channel cap s)).

Lemma clamp01_cases x : clamp01 x = if Rlt_dec x 0 then 0 else if Rle_dec 1 x then 1 else x.
Proof.
  unfold clamp01, Rmin, Rmax. destruct (Rlt_dec x 0), (Rle_dec 0 x); try lra;
    repeat destruct (Rle_dec _ _); lra.
Qed.

Lemma limited_finite cap s : finite s ->
  finite (limited cap s) /\ FR (limited cap s) = clamp01 (FR s) /\
  ((in_gamut (FR s) /\ snd (channel cap s) = Some 0%Z) \/ (~ in_gamut (FR s) /\ snd (channel cap s) = Some 1%Z)).
Proof.
  intros F. unfold limited, cap8, channel, in_gamut, fge, fgt. cbn [fst snd flt fle NumF f0 flit].
  assert (F1 : finite (F_lit 10 1)) by reflexivity. pose proof finite_zero as F0.
  rewrite clamp01_cases. rewrite !(ltb_dec s zero) by auto. rewrite FR_zero.
  destruct (Rlt_dec (FR s) 0) as [N|N], cap; cbn [andb orb].
  - rewrite leb_dec by auto. rewrite FR_zero, FR_lit1. destruct (Rle_dec 1 0); [lra|]. cbn [andb orb].
    split; [auto|]. split; [auto using FR_zero|]. right. split; [lra|reflexivity].
  - rewrite !andb_false_r. rewrite (ltb_dec (F_lit 10 1) s) by auto. rewrite FR_lit1.
    destruct (Rlt_dec 1 (FR s)); [lra|]. rewrite ltb_dec by auto. rewrite FR_zero. destruct (Rlt_dec (FR s) 0); [|lra].
    split; [auto|]. split; [auto using FR_zero|]. right. split; [lra|reflexivity].
  - rewrite leb_dec by auto. rewrite FR_lit1. destruct (Rle_dec 1 (FR s)); cbn [andb orb].
    + split; [auto|]. split; [auto using FR_lit1|]. right. split; [lra|reflexivity].
    + split; [auto|]. split; [auto|]. left. split; [lra|reflexivity].
  - rewrite !andb_false_r. rewrite (ltb_dec (F_lit 10 1) s) by auto. rewrite leb_dec by auto. rewrite !FR_lit1.
    destruct (Rlt_dec 1 (FR s)).
    + rewrite ltb_dec by auto. rewrite FR_zero, FR_lit1.
      destruct (Rlt_dec 1 0); [lra|]. destruct (Rle_dec 1 (FR s)); [|lra].
      split; [auto|]. split; [auto using FR_lit1|]. right. split; [lra|reflexivity].
    + rewrite ltb_dec by auto. rewrite FR_zero. destruct (Rlt_dec (FR s) 0); [lra|].
      split; [auto|]. destruct (Rle_dec 1 (FR s)); (split; [lra|]); [right|left]; (split; [lra|reflexivity]).
Qed.

Lemma limited_nan cap s : nanf s -> limited cap s = s.
Proof.
  intros H. unfold limited, cap8, channel, fge, fgt. cbn [fst flt fle NumF f0 flit].
  rewrite !nan_ltb_l by auto. cbn [andb]. rewrite !nan_leb_r by auto. cbn [andb].
  destruct cap; [auto|]. rewrite (nan_ltb_r s (F_lit 10 1)) by auto. now rewrite nan_ltb_l by auto.
Qed.

Lemma scaled w : finite w -> 0 <= FR w <= 1 ->
  finite (w * F_lit 2550 1)%float /\ 0 <= FR (w * F_lit 2550 1)%float <= 255 /\
  Rabs (FR (w * F_lit 2550 1)%float - 255 * FR w) <= 256 * uu.
Proof.
  intros F W. assert (F1 : finite (F_lit 2550 1)) by reflexivity.
  assert (G : finite (w * F_lit 2550 1)%float).
  { apply mul_finite; auto. rewrite FR_255, Rabs_right by lra. pose proof big1.
    apply Rle_trans with 255; [lra|]. unfold big. apply Rle_trans with (2 ^ 8); [lra|].
    apply Rle_pow; [lra|]. lia. }
  split; [exact G|]. pose proof (mul_err w _ G) as (_ & _ & d & e & D & E' & X).
  pose proof (mul_rnd w _ G) as (_ & _ & Y).
  split.
  - rewrite Y. split.
    + apply rnd_nonneg. rewrite FR_255. lra.
    + rewrite <- FR_255 at 1. apply rnd_leF. rewrite FR_255. lra.
  - rewrite X, FR_255. replace (FR w * 255 * (1 + d) + e - 255 * FR w) with (255 * FR w * d + e) by ring.
    eapply Rle_trans; [apply Rabs_triang|]. rewrite Rabs_mult, (Rabs_right (255 * FR w)) by lra.
    assert (eta <= uu).
    { unfold eta, uu. apply Rinv_le_contravar; [apply pow_lt; lra|]. apply Rle_pow; [lra|lia]. }
    pose proof uu_pos. assert (255 * FR w * Rabs d <= 255 * 1 * uu).
    { apply Rmult_le_compat; [lra|apply Rabs_pos|lra|exact D]. }
    lra.
Qed.
