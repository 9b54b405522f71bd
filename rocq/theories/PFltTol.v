(** Tolerance tests on machine numbers *)
From Coq Require Import Floats.PrimFloat.
From Coq Require Import ZArith Reals Lra Lia Psatz List Bool.
From Flocq Require Import Core BinarySingleNaN PrimFloat.
From Verif Require Import Base BaseFacts NumF NumR SpecVec SpecMtx SpecFlt MVec MMtx PVec PMtx PMtxOps PFlt PFltUnit PFltVar PFltAng PFltQuat PFltSort PFltStat PFltChol PRgbFlt PFltCmp PNanQuat PPoly.
Import ListNotations.
Set Implicit Arguments.
Open Scope R_scope.

Lemma sub_finite_lt x y : finite x -> finite y -> Rabs (rnd64 (FR x - FR y)) < 2 ^ 1024 -> finite (x - y)%float.
Proof.
  rewrite !finite_B, !FR_B2R, sub_equiv. intros Hx Hy H.
  pose proof (Bminus_correct _ _ Hprec Hmax mode_NE (Prim2B x) (Prim2B y) Hx Hy) as C.
  change (round_mode mode_NE) with ZnearestE in C. rewrite Rlt_bool_true in C; [tauto|].
  replace (bpow radix2 FloatOps.emax) with (2 ^ 1024); [exact H|].
  change FloatOps.emax with 1024%Z. rewrite <- (IZR_Zpower radix2) by lia. now rewrite pow_IZR.
Qed.

(** e <= a - b, and e <= b - a, computed *)
Lemma diff_cases (a b e : double) : finite a -> finite b -> finite e -> 0 <= FR e ->
  let far := (PrimFloat.leb e (a - b) || PrimFloat.leb e (- (a - b)))%float in
  let near := (PrimFloat.ltb (a - b) e && PrimFloat.ltb (- (a - b)) e)%float in
  near = negb far /\
  (FR e <= Rabs (FR a - FR b) -> far = true) /\ (Rabs (FR a - FR b) * (1 + uu) < FR e -> far = false).
Proof.
  intros Fa Fb Fe He. cbv zeta. pose proof uu_pos as U. set (d := FR a - FR b).
  destruct (sub_cases a b Fa Fb) as [(Fs & Es)|HI].
  - assert (Fo : finite (- (a - b))%float) by now apply opp_finite.
    rewrite !leb_dec, !ltb_dec by auto. rewrite opp_FR, Es. fold d.
    assert (E : Rabs (rnd64 d) <= Rabs d * (1 + uu)).
    { unfold d. rewrite <- Es. destruct (sub_err _ _ Fs) as (_ & _ & t & Ht & ->). fold d. rewrite Rabs_mult. apply Rmult_le_compat_l; [apply Rabs_pos|].
      eapply Rle_trans; [apply Rabs_triang|]. rewrite Rabs_R1. lra. }
    split; [|split].
    + repeat destruct Rle_dec; repeat destruct Rlt_dec; cbn; auto; lra.
    + intros H. destruct (Rle_dec 0 d) as [P|P].
      * rewrite Rabs_pos_eq in H by exact P. destruct Rle_dec as [|N]; [reflexivity|]. exfalso. apply N. rewrite <- (round_FR e). now apply rnd_le.
      * rewrite Rabs_left in H by lra. destruct (Rle_dec (FR e) (- rnd64 d)) as [|N]; [apply orb_true_r|]. exfalso. apply N.
        rewrite <- rnd_opp, <- (round_FR e). now apply rnd_le.
    + intros H. assert (B : Rabs (rnd64 d) < FR e) by lra. unfold Rabs in B. repeat destruct Rle_dec; cbn; auto; destruct Rcase_abs in B; lra.
  - assert (T : Rabs d * (1 + uu) < FR e -> False).
    { intros H. assert (Fs : finite (a - b)%float).
      { apply sub_finite_lt; auto. fold d. apply Rle_lt_trans with (FR e).
        - assert (Go : generic_format radix2 fexp64 (- FR b)) by (apply generic_format_opp, FR_format).
          destruct (rnd_plus _ _ (FR_format a) Go) as (t & Ht & Ex). change (FR a + - FR b) with d in Ex. rewrite Ex. rewrite Rabs_mult.
          apply Rle_trans with (Rabs d * (1 + uu)); [|lra]. apply Rmult_le_compat_l; [apply Rabs_pos|].
          eapply Rle_trans; [apply Rabs_triang|]. rewrite Rabs_R1. lra.
        - eapply Rle_lt_trans; [apply Rle_abs|]. now apply FR_max. }
      destruct HI as [(E & _)|(E & _)]; rewrite E in Fs; discriminate. }
    assert (LI : PrimFloat.leb e infinity = true /\ PrimFloat.ltb infinity e = false /\ PrimFloat.leb e neg_infinity = false /\ PrimFloat.ltb neg_infinity e = true).
    { clear -Fe. apply finite_B in Fe. rewrite !leb_equiv, !ltb_equiv.
      rewrite infinity_equiv, neg_infinity_equiv, !Prim2B_B2Prim.
      destruct (Prim2B e) as [s| | |s m x H]; try discriminate; destruct s; repeat split; reflexivity. }
    destruct LI as (L1 & L2 & L3 & L4).
    destruct HI as [(E & _)|(E & _)]; rewrite E.
    + change (- infinity)%float with neg_infinity. rewrite L1, L2, L3, L4. cbn. repeat split; auto. intros H; destruct (T H).
    + change (- neg_infinity)%float with infinity. rewrite L1, L2, L3, L4. cbn. repeat split; auto. intros H; destruct (T H).
Qed.

Lemma leb_flip (a b e : double) : finite a -> finite b -> finite e ->
  PrimFloat.leb (a - b)%float (- e)%float = PrimFloat.leb e (- (a - b))%float.
Proof.
  intros Fa Fb Fe. assert (Fo : finite (- e)%float) by now apply opp_finite.
  destruct (sub_cases a b Fa Fb) as [(Fs & _)|[(E & _)|(E & _)]].
  - assert (Fm : finite (- (a - b))%float) by now apply opp_finite. rewrite !leb_dec by auto. rewrite !opp_FR.
    repeat destruct Rle_dec; auto; lra.
  - rewrite E. clear -Fe Fo. apply finite_B in Fe, Fo. change (- infinity)%float with neg_infinity. rewrite !leb_equiv.
    rewrite infinity_equiv, neg_infinity_equiv, !Prim2B_B2Prim.
    destruct (Prim2B e) as [s| | |s m x H], (Prim2B (- e)%float) as [s'| | |s' m' x' H']; try discriminate; destruct s, s'; reflexivity.
  - rewrite E. clear -Fe Fo. apply finite_B in Fe, Fo. change (- neg_infinity)%float with infinity. rewrite !leb_equiv.
    rewrite infinity_equiv, neg_infinity_equiv, !Prim2B_B2Prim.
    destruct (Prim2B e) as [s| | |s m x H], (Prim2B (- e)%float) as [s'| | |s' m' x' H']; try discriminate; destruct s, s'; reflexivity.
Qed.

Definition gap (p : double * double) : R := Rabs (FR (fst p) - FR (snd p)).

Lemma vec_is_equal_F (xs ys : list double) tx ty (eps : double) :
  length xs = length ys -> (forall x, In x xs -> finite x) -> (forall y, In y ys -> finite y) -> finite eps -> 0 <= FR eps ->
  exists b, vec_is_equal (vec_of xs tx) (vec_of ys ty) eps = Ok b /\
    (b = true -> forall p, In p (combine xs ys) -> gap p < FR eps) /\
    ((forall p, In p (combine xs ys) -> gap p * (1 + uu) < FR eps) -> b = true).
Proof.
  intros L Fx Fy Fe He. rewrite vec_is_equal_ok by exact L. eexists. split; [reflexivity|].
  revert ys L Fy. induction xs as [|x xs IH]; intros [|y ys] L Fy; try discriminate; [cbn; split; [tauto|reflexivity]|].
  injection L as L. destruct (IH (fun z H => Fx z (or_intror H)) ys L (fun z H => Fy z (or_intror H))) as (A & B).
  cbn [map2 forallb combine]. change (@fge double _) with (fun a b : double => PrimFloat.leb b a). cbn [fsub fneg NumF].
  destruct (@diff_cases x y eps) as (_ & C & D); [apply Fx|apply Fy|..]; auto; try now left. cbv zeta in C, D. split.
  - intros H. apply andb_true_iff in H. destruct H as (H1 & H2). intros p [<-|Hp]; [|now apply A].
    unfold gap; cbn [fst snd]. apply Rnot_le_lt. intros Hc. apply C in Hc.
    change (negb (PrimFloat.leb eps (x - y)%float || PrimFloat.leb eps (- (x - y))%float) = true) in H1. rewrite Hc in H1. discriminate.
  - intros H. apply andb_true_iff. split; [|apply B; intros p Hp; apply H; now right].
    change (negb (PrimFloat.leb eps (x - y)%float || PrimFloat.leb eps (- (x - y))%float) = true). rewrite D; auto. apply (H (x, y)). now left.
Qed.

Lemma near_F (val eps a : double) : finite a -> finite val -> finite eps -> 0 <= FR eps ->
  (PVec.near val eps a = true -> gap (a, val) < FR eps) /\ (gap (a, val) * (1 + uu) < FR eps -> PVec.near val eps a = true).
Proof.
  intros Fa Fv Fe He. destruct (@diff_cases a val eps) as (A & C & D); auto. cbv zeta in A, C, D.
  change (PVec.near val eps a) with (PrimFloat.ltb (a - val)%float eps && PrimFloat.ltb (- (a - val))%float eps)%bool. rewrite A. unfold gap; cbn [fst snd]. split.
  - intros H. apply Rnot_le_lt. intros Hc. apply C in Hc. rewrite Hc in H. discriminate.
  - intros H. now rewrite D.
Qed.

Lemma asym_F (a b : double) : finite a -> finite b ->
  (asym a b = false -> gap (a, b) < FR (F_lit 1 6)) /\ (gap (a, b) * (1 + uu) < FR (F_lit 1 6) -> asym a b = false).
Proof.
  intros Fa Fb. destruct lit_tiny as (FL & BL). destruct (@diff_cases a b (F_lit 1 6)) as (_ & C & D); auto; [lra|]. cbv zeta in C, D.
  assert (E : asym a b = (PrimFloat.leb (F_lit 1 6) (a - b)%float || PrimFloat.leb (F_lit 1 6) (- (a - b))%float)%bool).
  { rewrite <- (leb_flip Fa Fb FL). reflexivity. }
  rewrite E. unfold gap; cbn [fst snd]. split.
  - intros H. apply Rnot_le_lt. intros Hc. apply C in Hc. congruence.
  - exact D.
Qed.

Lemma nan_opp x : nanf x -> nanf (- x)%float.
Proof. unfold nanf. rewrite FloatAxioms.opp_spec. intros ->. reflexivity. Qed.
