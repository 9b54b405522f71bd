(** A NaN among the readings given to a fusion filter *)
From Coq Require Import Floats.PrimFloat.
From Coq Require Import ZArith Reals List Bool Lia.
From Verif Require Import Base BaseFacts NumF Libm Out SpecVec SpecFlt SpecFltQuat SpecFusion SpecSafe SpecSafeFus MVec MMtx MQuat MAhrs MFusion PSafeFlt PFltQuat PFltAng PUnitised PNanQuat.
Import ListNotations.
Notation double := PrimFloat.float.
Set Implicit Arguments.
Unset Strict Implicit.

Lemma filled3 (v : vec double) : vec_filled 3 v -> exists a b c tl, v = Vec 3 (Some a :: Some b :: Some c :: tl).
Proof.
  destruct v as [n b]. intros (E & F). cbn [vsz vbuf] in *. subst n.
  destruct (F 0%nat ltac:(lia)) as (x & Hx). destruct (F 1%nat ltac:(lia)) as (y & Hy). destruct (F 2%nat ltac:(lia)) as (z & Hz).
  destruct b as [|[b0|] b]; try discriminate Hx. destruct b as [|[b1|] b]; try discriminate Hy.
  destruct b as [|[b2|] b]; try discriminate Hz. eauto.
Qed.
Lemma nan_in3 a b c tl : nan_in (Vec 3 (Some a :: Some b :: Some c :: tl)) -> nanf a \/ nanf b \/ nanf c.
Proof.
  intros (i & x & Hi & E & Hn). apply is_nan_nanf in Hn. cbn [vbuf] in E.
  destruct i as [|[|[|i]]]; [| | |lia]; injection E as ->; auto.
Qed.

Section Nan.
Context {M : NumM double}.
Variable bc : bool.
Variable freq : Z.
Hypothesis Hf : (0 <= freq < 2 ^ 32)%Z.

Ltac step :=
  match goal with
  | H : Ok _ = Ok _ |- _ => injection H as; subst; cbn [sq sa sm sg fst snd]
  | H : bind ?m _ = Ok _ |- _ => apply bindE in H; destruct H as (? & ? & H); cbv beta in H
  | H : (if ?b then _ else _) = Ok _ |- _ => destruct b
  | H : (let (_, _) := ?x in _) = Ok _ |- _ => destruct x
  | H : match ?x with Some _ => _ | None => _ end = Ok _ |- _ => destruct x
  end.

Lemma period_pos (t : double) : period freq = Ok t -> (t <? zero)%float = false.
Proof. unfold period. intros [= <-]. now apply Fperiod. Qed.

(** a rate of rotation that is not a number *)
Lemma ang_rate_nan a b c tl q t rc o : nanf a \/ nanf b \/ nanf c -> (t <? zero)%float = false ->
  quat_from_ang_vel bc (Vec 3 (Some a :: Some b :: Some c :: tl)) q t = Ok (rc, o) -> exists p, o = Some p /\ each_nan p.
Proof.
  intros Hn Ht. unfold quat_from_ang_vel. cbn [vsz Nat.eqb negb orb flt f0 NumF]. rewrite Ht, andb_false_r.
  cbn [rd vbuf nth_error]. unfold bind at 1 2 3. change zero with (f0 : double). rewrite ang_tail. intros [= <- <-].
  eexists. split; [reflexivity|]. apply funit_nan, fstep_rate_nan, Hn.
Qed.
Lemma ang__rate_nan a b c tl q t p : nanf a \/ nanf b \/ nanf c -> (t <? zero)%float = false ->
  ang_vel_ bc (Vec 3 (Some a :: Some b :: Some c :: tl)) q t = Ok p -> each_nan p.
Proof.
  intros Hn Ht H. unfold ang_vel_ in H. apply bindE in H. destruct H as ((rc & o) & H & E).
  destruct (ang_rate_nan Hn Ht H) as (p' & -> & Np). injection E as <-. exact Np.
Qed.

Lemma madg_update_r beta a b c tl gr q q' : nanf a \/ nanf b \/ nanf c ->
  madg_update bc freq beta (Vec 3 (Some a :: Some b :: Some c :: tl)) gr q = Ok q' -> each_nan q'.
Proof.
  unfold madg_update. intros Hn H. apply bindE in H. destruct H as (t & Ht & H). apply period_pos in Ht.
  apply bindE in H. destruct H as (q1 & H1 & H). repeat step. eapply unit_nan; eauto.
  apply (ang__rate_nan Hn Ht) in H1. left. cbn [qr]. apply nan_sub_l, H1.
Qed.
Lemma mahn_update_r a b c tl q q' : nanf a \/ nanf b \/ nanf c ->
  mahn_update bc freq (Vec 3 (Some a :: Some b :: Some c :: tl)) q = Ok q' -> each_nan q'.
Proof.
  unfold mahn_update. intros Hn H. apply bindE in H. destruct H as (t & Ht & H). apply period_pos in Ht.
  apply bindE in H. destruct H as (q1 & H1 & H). eapply unit_nan; eauto. apply (ang__rate_nan Hn Ht) in H1. now apply each_some.
Qed.
Lemma feedback_r t c (e : vec double) a b d tl c' g' : nanf a \/ nanf b \/ nanf d ->
  feedback t c e (Vec 3 (Some a :: Some b :: Some d :: tl)) = Ok (c', g') ->
  exists a' b' d', g' = Vec 3 (Some a' :: Some b' :: Some d' :: tl) /\ (nanf a' \/ nanf b' \/ nanf d').
Proof.
  unfold feedback. intros Hn H. apply bindE in H. destruct H as (((e0 & e1) & e2) & _ & H).
  apply bindE in H. destruct H as (((i0 & i1) & i2) & _ & H). cbv zeta in H.
  apply bindE in H. destruct H as (b0 & _ & H). apply bindE in H. destruct H as (b1 & _ & H).
  apply bindE in H. destruct H as (b2 & _ & H).
  unfold rd3, wr in H. cbn [rd vbuf nth_error bind length Nat.ltb Nat.leb upd vsz] in H. injection H as _ <-.
  do 3 eexists. split; [reflexivity|]. cbn [fadd NumF].
  destruct Hn as [H|[H|H]]; [left|right; left|right; right]; apply nan_add_l, nan_add_l, H.
Qed.

Definition success (rc : Z) : Prop := rc = 0%Z.

Ltac refused := solve [let H := fresh in intros H; discriminate H | discriminate].

Lemma madgwick_imu_r beta a b c tl sa' sm' q s' : nanf a \/ nanf b \/ nanf c ->
  madgwick_imu bc freq beta (Sens sa' sm' (Some (Vec 3 (Some a :: Some b :: Some c :: tl))) q) = Ok (0%Z, s') -> each_nan (sq s').
Proof.
  unfold madgwick_imu. cbn [deref sg sa sm sq bind]. intros Hn H. step; [discriminate|].
  apply bindE in H. destruct H as (mag & _ & H). step; [discriminate|].
  repeat step; eapply madg_update_r; eauto.
Qed.
Lemma madgwick_r beta incl a b c tl sa' sm' q s' : nanf a \/ nanf b \/ nanf c ->
  madgwick bc freq beta incl (Sens sa' sm' (Some (Vec 3 (Some a :: Some b :: Some c :: tl))) q) = Ok (0%Z, s') -> each_nan (sq s').
Proof.
  unfold madgwick. cbn [deref sg sa sm sq]. unfold bind at 1. intros Hn H. step; [discriminate|].
  apply bindE in H. destruct H as (mag & _ & H). step; [discriminate|].
  apply bindE in H. destruct H as (ms & _ & H). step; [eapply madgwick_imu_r; eauto|].
  repeat step; eapply madg_update_r; eauto.
Qed.
Lemma mahony_imu_r c a b d tl sa' sm' q s' c' : nanf a \/ nanf b \/ nanf d ->
  mahony_imu bc freq c (Sens sa' sm' (Some (Vec 3 (Some a :: Some b :: Some d :: tl))) q) = Ok (0%Z, s', c') -> each_nan (sq s').
Proof.
  unfold mahony_imu. cbn [deref sg sa sm sq]. unfold bind at 1. intros Hn H. step; [discriminate|].
  apply bindE in H. destruct H as (mag & _ & H). step; [discriminate|].
  apply bindE in H. destruct H as ([v|] & _ & H).
  - repeat step.
    match goal with F : feedback _ _ _ _ = Ok _ |- _ => destruct (feedback_r Hn F) as (a' & b' & d' & -> & Hn') end.
    eapply mahn_update_r; eauto.
  - repeat step. eapply mahn_update_r; eauto.
Qed.
Lemma mahony_r incl c a b d tl sa' sm' q s' c' : nanf a \/ nanf b \/ nanf d ->
  mahony bc freq incl c (Sens sa' sm' (Some (Vec 3 (Some a :: Some b :: Some d :: tl))) q) = Ok (0%Z, s', c') -> each_nan (sq s').
Proof.
  unfold mahony. cbn [deref sg sa sm sq]. unfold bind at 1. intros Hn H. step; [discriminate|].
  apply bindE in H. destruct H as (mag & _ & H). step; [discriminate|].
  apply bindE in H. destruct H as (ms & _ & H). step; [eapply mahony_imu_r; eauto|].
  apply bindE in H. destruct H as ([v|] & _ & H).
  - repeat step.
    match goal with F : feedback _ _ _ _ = Ok _ |- _ => destruct (feedback_r Hn F) as (a' & b' & d' & -> & Hn') end.
    eapply mahn_update_r; eauto.
  - repeat step. eapply mahn_update_r; eauto.
Qed.

Lemma comp_r al a b d tl sa' sm' q s' : nanf a \/ nanf b \/ nanf d ->
  fus_comp bc freq al (Sens sa' sm' (Some (Vec 3 (Some a :: Some b :: Some d :: tl))) q) = Ok (0%Z, s') -> each_nan (sq s').
Proof.
  unfold fus_comp. cbn [deref sg sa sm sq]. unfold bind at 1. intros Hn H.
  match goal with H : (if ?b then _ else _) = _ |- _ => destruct b eqn:Ec end; [discriminate|].
  assert (Ea : bc && ((al <? f0) || (al >? flit 10 1))%num = false).
  { destruct bc; [|reflexivity]. cbn [andb] in *. apply orb_false_iff in Ec. destruct Ec as (Ec & E2).
    apply orb_false_iff in Ec. destruct Ec as (_ & E1). rewrite E1, E2. reflexivity. }
  apply bindE in H. destruct H as (mag & _ & H). step; [discriminate|].
  apply bindE in H. destruct H as (u & Hu & H). apply bindE in H. destruct H as (t & Ht & H). apply period_pos in Ht.
  apply bindE in H. destruct H as ((rc1 & o) & Ho & H). destruct (ang_rate_nan Hn Ht Ho) as (qw & -> & Nw).
  cbn [local] in H. unfold bind at 1 in H.
  apply bindE in H. destruct H as (mv & _ & H). apply bindE in H. destruct H as (av & _ & H).
  assert (D : (let! q := quat_to_unit qw in Ok (0%Z, Sens sa' sm' (Some (Vec 3 (Some a :: Some b :: Some d :: tl))) q)) = Ok (0%Z, s') -> each_nan (sq s')).
  { clear H. intros H. repeat step. eapply unit_nan; eauto using each_some. }
  destruct mv as [m|]; [|now apply D]. destruct av as [v|]; [|now apply D]. clear D.
  apply bindE in H. destruct H as ((rc2 & att) & _ & H). destruct (att_to_euler att) as (rc3 & e).
  destruct (quat_from_euler e) as (rc4 & qam). apply bindE in H. destruct H as ((rc5 & o2) & H2 & H).
  repeat step. eapply unit_nan; eauto. destruct o2 as [p|].
  - eapply each_some, lerp_nan; eauto using each_some.
  - exfalso. revert H2. unfold quat_lerp. rewrite Ea. clear. intros H. repeat step. discriminate.
Qed.

Lemma scale3 (a b c : double) tl s : vec_scalar_mult (Vec 3 (Some a :: Some b :: Some c :: tl)) s
  = Ok (0%Z, Vec 3 (Some (a * s)%float :: Some (b * s)%float :: Some (c * s)%float :: tl)).
Proof. reflexivity. Qed.

Lemma aqua_r cf a b d tl sa' sm' q s' : nanf a \/ nanf b \/ nanf d ->
  fus_aqua bc freq cf (Sens sa' sm' (Some (Vec 3 (Some a :: Some b :: Some d :: tl))) q) = Ok (0%Z, s') -> each_nan (sq s').
Proof.
  unfold fus_aqua. cbn [deref sg sa sm sq]. unfold bind at 1. intros Hn H. step; [discriminate|].
  apply bindE in H. destruct H as (mag & _ & H). step; [discriminate|].
  apply bindE in H. destruct H as (u & Hu & H). rewrite scale3 in H. unfold bind at 1 in H.
  apply bindE in H. destruct H as (t & Ht & H). apply period_pos in Ht.
  apply bindE in H. destruct H as (q1 & H1 & H).
  assert (N1 : each_nan q1).
  { eapply ang__rate_nan; [|exact Ht|exact H1]. destruct Hn as [A|[A|A]]; auto using nan_mul_l. }
  clear H1 Hn Hu. apply bindE in H. destruct H as (av & _ & H). destruct av as [v|].
  - repeat (apply bindE in H; destruct H as (? & ?F & H); cbv beta iota in H; try (step; [])).
    all: repeat step.
    all: repeat match goal with F : quat_mult ?x _ = Ok _, N : each_nan ?x |- _ => apply (mult_nan_l F) in N; clear F end.
    all: eapply unit_nan; [eassumption|]; apply each_some; assumption.
  - repeat step. eapply unit_nan; eauto using each_some.
Qed.

Lemma kalman_r incl c a b d tl sa' sm' q s' c' : nanf a \/ nanf b \/ nanf d ->
  fus_kalman bc freq incl c (Sens sa' sm' (Some (Vec 3 (Some a :: Some b :: Some d :: tl))) q) = Ok (0%Z, s', c') -> each_nan (sq s').
Proof.
  unfold fus_kalman. intros Hn H.
  match goal with H : (if ?b then _ else _) = _ |- _ => destruct b end; [discriminate|].
  cbn [deref sg sa sm sq] in H. apply bindE in H. destruct H as (if2 & _ & H). unfold bind at 1 in H.
  apply bindE in H. destruct H as (((g0 & g1) & g2) & _ & H). apply bindE in H. destruct H as (F & _ & H).
  apply bindE in H. destruct H as (W & _ & H). apply bindE in H. destruct H as (P & _ & H).
  apply bindE in H. destruct H as (t & Ht & H). apply period_pos in Ht.
  apply bindE in H. destruct H as (q1 & H1 & H). apply (ang__rate_nan Hn Ht) in H1.
  repeat step.
  match goal with F : quat_to_unit (Quat (qr _ + _)%num _ _ _) = Ok _ |- _ => eapply unit_nan; [exact F|] end.
  left. cbn [qr]. apply nan_add_l, H1.
Qed.

(** a NaN acceleration is taken for no acceleration *)
Lemma valid_nan a b c tl : nanf a \/ nanf b \/ nanf c ->
  valid bc (Some (Vec 3 (Some a :: Some b :: Some c :: tl))) = Ok None.
Proof.
  intros Hn. unfold valid, vec_norm, vec_norm_opt, vec_sum_of_sqrs, vec_dot. cbn [vsz Nat.eqb negb]. rewrite andb_false_r.
  cbn [for_ rd vbuf nth_error bind fmul fadd fsqrt f0 NumF]. cbn [fabs flt flit NumF].
  unfold fgt. cbn [flt NumF].
  rewrite nan_ltb_r; [reflexivity|]. apply nan_abs, nan_sqrt. destruct Hn as [H|[H|H]].
  - apply nan_add_l, nan_add_l, nan_add_r, nan_mul_l, H.
  - apply nan_add_l, nan_add_r, nan_mul_l, H.
  - apply nan_add_r, nan_mul_l, H.
Qed.
End Nan.

Section Accel.
Context {M : NumM double}.
Variable bc : bool.
Variables (a b c : double) (tl : buf double).
Hypothesis Hn : nanf a \/ nanf b \/ nanf c.
Let v := Some (Vec 3 (Some a :: Some b :: Some c :: tl)).

Lemma bind_ext A B (m : outcome A) (k k' : A -> outcome B) : (forall x, k x = k' x) -> bind m k = bind m k'.
Proof. intros H. destruct m; cbn; auto. Qed.
Lemma bind_assoc A B C (m : outcome A) (k : A -> outcome B) (l : B -> outcome C) :
  bind (bind m k) l = bind m (fun x => bind (k x) l).
Proof. destruct m; reflexivity. Qed.

Definition view (r : outcome (Z * sens)) : outcome (Z * quat double) := let! (rc, s) := r in Ok (rc, sq s).

Ltac down := rewrite ?bind_assoc; apply bind_ext; intros ?.

Lemma madg_imu_a freq beta m g q :
  view (madgwick_imu bc freq beta (Sens v m g q)) = view (madgwick_imu bc freq beta (Sens None m g q)).
Proof.
  unfold view, madgwick_imu. cbn [sa sm sg sq]. down. cbn [bad3 vsz Nat.eqb negb orb v].
  destruct (bc && _); [reflexivity|]. down. destruct (bc && _); [reflexivity|]. down. down. destruct x2.
  unfold v at 1. rewrite (valid_nan bc _ Hn). cbn [valid bind]. down. reflexivity.
Qed.
Lemma madg_a freq beta incl m g q :
  view (madg_feed bc freq beta incl (Sens v m g q)) = view (madg_feed bc freq beta incl (Sens None m g q)).
Proof.
  unfold madg_feed. destruct (_ <? _)%num; [reflexivity|].
  pose proof (madg_imu_a freq beta m g q) as I. unfold view, madgwick in *. cbn [sa sm sg sq]. down. cbn [bad3 vsz Nat.eqb negb orb v].
  destruct (bc && _); [reflexivity|]. down. destruct (bc && _); [reflexivity|]. down. destruct x1; [exact I|].
  down. down. destruct x2.
  unfold v at 1. rewrite (valid_nan bc _ Hn). cbn [valid bind]. down. reflexivity.
Qed.

Definition view3 C (r : outcome (Z * sens * C)) : outcome (Z * (C * quat double)) := let! ((rc, s), c) := r in Ok (rc, (c, sq s)).
Lemma mahn_imu_a freq k m g q :
  view3 (mahony_imu bc freq k (Sens v m g q)) = view3 (mahony_imu bc freq k (Sens None m g q)).
Proof.
  unfold view3, mahony_imu. cbn [sa sm sg sq]. down. cbn [bad3 vsz Nat.eqb negb orb v].
  destruct (bc && _); [reflexivity|]. down. destruct (bc && _); [reflexivity|].
  unfold v at 1. rewrite (valid_nan bc _ Hn). cbn [valid bind]. down. reflexivity.
Qed.
Lemma mahn_a freq incl k m g q :
  view3 (mahn_feed bc freq incl k (Sens v m g q)) = view3 (mahn_feed bc freq incl k (Sens None m g q)).
Proof.
  unfold mahn_feed. destruct (_ || _)%num; [reflexivity|].
  pose proof (mahn_imu_a freq k m g q) as I. unfold view3, mahony in *. cbn [sa sm sg sq]. down. cbn [bad3 vsz Nat.eqb negb orb v].
  destruct (bc && _); [reflexivity|]. down. destruct (bc && _); [reflexivity|]. down. destruct x1; [exact I|].
  unfold v at 1. rewrite (valid_nan bc _ Hn). cbn [valid bind]. down. reflexivity.
Qed.
Lemma comp_a freq al m g q :
  view (comp_feed bc freq al (Sens v m g q)) = view (comp_feed bc freq al (Sens None m g q)).
Proof.
  unfold comp_feed. destruct (_ || _)%num; [reflexivity|].
  unfold view, fus_comp. cbn [sa sm sg sq]. down. cbn [bad3 vsz Nat.eqb negb orb v].
  destruct (bc && _); [reflexivity|]. down. destruct (bc && _); [reflexivity|]. down. down. down. destruct x3.
  down. down. destruct x4.
  - unfold v at 1. rewrite (valid_nan bc _ Hn). cbn [valid bind]. down. reflexivity.
  - cbn [bind]. down. reflexivity.
Qed.
End Accel.
