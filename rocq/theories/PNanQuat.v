(** A NaN in the orientation of a fusion filter stays there *)
From Coq Require Import Floats.PrimFloat.
From Coq Require Import ZArith Reals List Bool Lia.
From Verif Require Import Base BaseFacts NumF Libm Out SpecVec SpecFlt SpecFltQuat SpecFusion SpecSafe SpecSafeFus MVec MMtx MQuat MAhrs MFusion PFltQuat PFltAng PUnitised.
Import ListNotations.
Notation double := PrimFloat.float.
Set Implicit Arguments.
Unset Strict Implicit.

Definition nanf (x : double) : Prop := FloatOps.Prim2SF x = SpecFloat.S754_nan.

Lemma is_nan_nanf x : is_nan x = true <-> nanf x.
Proof.
  unfold is_nan, nanf. rewrite FloatAxioms.eqb_spec. unfold SpecFloat.SFeqb. split.
  - intros Hn. destruct (FloatOps.Prim2SF x) as [[]|[]| |[] m e]; cbn in Hn; try discriminate Hn; try reflexivity;
      rewrite Z.compare_refl, Pos.compare_cont_refl in Hn; discriminate Hn.
  - intros ->. reflexivity.
Qed.
Lemma nan_add_l x y : nanf x -> nanf (x + y)%float.
Proof. unfold nanf. rewrite FloatAxioms.add_spec. intros ->. reflexivity. Qed.
Lemma nan_add_r x y : nanf y -> nanf (x + y)%float.
Proof. unfold nanf. rewrite FloatAxioms.add_spec. intros ->. now destruct (FloatOps.Prim2SF x). Qed.
Lemma nan_sub_l x y : nanf x -> nanf (x - y)%float.
Proof. unfold nanf. rewrite FloatAxioms.sub_spec. intros ->. reflexivity. Qed.
Lemma nan_sub_r x y : nanf y -> nanf (x - y)%float.
Proof. unfold nanf. rewrite FloatAxioms.sub_spec. intros ->. now destruct (FloatOps.Prim2SF x). Qed.
Lemma nan_mul_l x y : nanf x -> nanf (x * y)%float.
Proof. unfold nanf. rewrite FloatAxioms.mul_spec. intros ->. reflexivity. Qed.
Lemma nan_mul_r x y : nanf y -> nanf (x * y)%float.
Proof. unfold nanf. rewrite FloatAxioms.mul_spec. intros ->. now destruct (FloatOps.Prim2SF x). Qed.
Lemma nan_div_r x y : nanf y -> nanf (x / y)%float.
Proof. unfold nanf. rewrite FloatAxioms.div_spec. intros ->. now destruct (FloatOps.Prim2SF x). Qed.
Lemma nan_sqrt x : nanf x -> nanf (PrimFloat.sqrt x).
Proof. unfold nanf. rewrite FloatAxioms.sqrt_spec. intros ->. reflexivity. Qed.
Lemma nan_abs x : nanf x -> nanf (abs x).
Proof. unfold nanf. rewrite FloatAxioms.abs_spec. intros ->. reflexivity. Qed.
Lemma nan_ltb_l x y : nanf x -> (x <? y)%float = false.
Proof. unfold nanf. rewrite FloatAxioms.ltb_spec. intros ->. reflexivity. Qed.
Lemma nan_ltb_r x y : nanf y -> (x <? y)%float = false.
Proof. unfold nanf. rewrite FloatAxioms.ltb_spec. intros ->. now destruct (FloatOps.Prim2SF x). Qed.

Definition some_nan (q : quat double) : Prop := nanf (qr q) \/ nanf (qi q) \/ nanf (qj q) \/ nanf (qk q).
Definition each_nan (q : quat double) : Prop := nanf (qr q) /\ nanf (qi q) /\ nanf (qj q) /\ nanf (qk q).

Lemma has_some q : has_nan q <-> some_nan q.
Proof. unfold has_nan, some_nan. rewrite !is_nan_nanf. tauto. Qed.
Lemma all_each q : all_nan q <-> each_nan q.
Proof. unfold all_nan, each_nan. rewrite !is_nan_nanf. tauto. Qed.
Lemma each_some q : each_nan q -> some_nan q.
Proof. intros (H & _). left. exact H. Qed.

Lemma funit_nan q : some_nan q -> each_nan (funit q).
Proof.
  intros H. assert (HM : nanf (fmagn q)).
  { unfold fmagn, fsq4. apply nan_sqrt. destruct H as [H|[H|[H|H]]].
    - apply nan_add_l, nan_add_l, nan_add_l, nan_mul_l, H.
    - apply nan_add_l, nan_add_l, nan_add_r, nan_mul_l, H.
    - apply nan_add_l, nan_add_r, nan_mul_l, H.
    - apply nan_add_r, nan_mul_l, H. }
  unfold funit. rewrite (nan_ltb_l (F_lit 1 6) (nan_abs HM)).
  repeat split; apply nan_div_r, HM.
Qed.

Lemma unit_nan q q' : quat_to_unit q = Ok q' -> some_nan q -> each_nan q'.
Proof. rewrite to_unit_F. intros [= <-]. apply funit_nan. Qed.

(** a product with a factor full of NaNs *)
Lemma mult_nan_l c d p : quat_mult c d = Ok p -> each_nan c -> each_nan p.
Proof.
  rewrite mult_F. intros [= <-] (H1 & H2 & H3 & H4). repeat split; cbn [fmul4 qr qi qj qk].
  - apply nan_sub_l, nan_sub_l, nan_sub_l, nan_mul_l, H1.
  - apply nan_sub_l, nan_add_l, nan_add_l, nan_mul_l, H1.
  - apply nan_add_l, nan_add_l, nan_sub_l, nan_mul_l, H1.
  - apply nan_add_l, nan_sub_l, nan_add_l, nan_mul_l, H1.
Qed.

Lemma scale_F q s p : quat_scale q s = Ok p -> p = Quat (qr q * s)%float (qi q * s)%float (qj q * s)%float (qk q * s)%float.
Proof. destruct q as [a b c d]. intros [= <-]. reflexivity. Qed.

Section Nan.
Context {M : NumM double}.
Variable bc : bool.

Lemma ang_tail a b c (q : quat double) (t : double) :
  (let! qin2 := quat_to_unit q in
   let! wq := quat_mult (Quat f0 a b c) qin2 in
   let! (_, st) := quat_scale_d_st [wq] 0 (flit 5 1 * t)%num in
   let! wq := qget st 0 in
   let! q := quat_to_unit (Quat (qr qin2 + qr wq)%num (qi qin2 + qi wq)%num (qj qin2 + qj wq)%num
                                (qk qin2 + qk wq)%num) in
   Ok (0%Z, Some q)) = Ok (0%Z, Some (funit (fstep a b c t (funit q)))).
Proof.
  rewrite to_unit_F. cbn [bind].
  rewrite mult_F. cbn [bind]. unfold quat_scale_d_st, quat_scale_st, set_r, set_i, set_j, set_k, qget.
  cbn [nth_error bind upd qr qi qj qk]. rewrite to_unit_F. reflexivity.
Qed.

Lemma ang_inv g q t rc o : quat_from_ang_vel bc g q t = Ok (rc, o) -> o = None \/
  exists a b c, rd (vbuf g) 0 = Ok a /\ rd (vbuf g) 1 = Ok b /\ rd (vbuf g) 2 = Ok c
    /\ o = Some (funit (fstep a b c t (funit q))).
Proof.
  unfold quat_from_ang_vel. destruct (_ && _); [intros [= <- <-]; now left|]. intros H. right.
  apply bindE in H. destruct H as (a & Ha & H). apply bindE in H. destruct H as (b & Hb & H).
  apply bindE in H. destruct H as (c & Hc & H). rewrite ang_tail in H. injection H as <- <-.
  exists a, b, c. auto.
Qed.

Lemma fstep_nan a b c t u : each_nan u -> some_nan (fstep a b c t u).
Proof. intros (H & _). left. cbn [fstep qr]. apply nan_add_l, H. Qed.

Lemma fstep_rate_nan a b c t u : nanf a \/ nanf b \/ nanf c -> some_nan (fstep a b c t u).
Proof.
  intros H. left. cbn [fstep fmul4 qr qi qj qk]. apply nan_add_r, nan_mul_l.
  destruct H as [H|[H|H]].
  - apply nan_sub_l, nan_sub_l, nan_sub_r, nan_mul_l, H.
  - apply nan_sub_l, nan_sub_r, nan_mul_l, H.
  - apply nan_sub_r, nan_mul_l, H.
Qed.

Lemma ang_nan g q t rc p : quat_from_ang_vel bc g q t = Ok (rc, Some p) -> some_nan q -> each_nan p.
Proof.
  intros H Hq. apply ang_inv in H. destruct H as [H|(a & b & c & _ & _ & _ & [= ->])]; [discriminate|].
  apply funit_nan, fstep_nan, funit_nan, Hq.
Qed.
Lemma ang__nan g q t p : ang_vel_ bc g q t = Ok p -> some_nan q -> some_nan p.
Proof.
  unfold ang_vel_. intros H Hq. apply bindE in H. destruct H as ((rc & [o|]) & H & E); injection E as <-; auto.
  eapply each_some, ang_nan; eauto.
Qed.
Lemma ang__each g q t p : ang_vel_ bc g q t = Ok p -> each_nan q -> each_nan p.
Proof.
  unfold ang_vel_. intros H Hq. apply bindE in H. destruct H as ((rc & [o|]) & H & E); injection E as <-; auto.
  eapply ang_nan; eauto using each_some.
Qed.

Ltac step :=
  match goal with
  | H : Ok _ = Ok _ |- _ => injection H as; subst; cbn [sq sa sm sg fst snd]
  | H : bind ?m _ = Ok _ |- _ => apply bindE in H; destruct H as (? & ? & H); cbv beta in H
  | H : (if ?b then _ else _) = Ok _ |- _ => destruct b
  | H : (let (_, _) := ?x in _) = Ok _ |- _ => destruct x
  | H : match ?x with Some _ => _ | None => _ end = Ok _ |- _ => destruct x
  end.

(** what a feed leaves when there is a NaN in the orientation it got *)
Definition stuck (q q' : quat double) : Prop := some_nan q -> q' = q \/ each_nan q'.
Lemma stuck_refl q : stuck q q. Proof. now left. Qed.

Lemma madg_update_n freq beta g gr q q' : madg_update bc freq beta g gr q = Ok q' -> some_nan q -> each_nan q'.
Proof.
  unfold madg_update. intros H Hq. apply bindE in H. destruct H as (t & _ & H).
  apply bindE in H. destruct H as (q1 & H1 & H). repeat step. eapply unit_nan; eauto.
  apply (ang__nan H1) in Hq. unfold some_nan in *. cbn [qr qi qj qk] in *.
  destruct Hq as [A|[A|[A|A]]]; [left|right; left|right; right; left|right; right; right]; apply nan_sub_l, A.
Qed.
Lemma mahn_update_n freq g q q' : mahn_update bc freq g q = Ok q' -> some_nan q -> each_nan q'.
Proof.
  unfold mahn_update. intros H Hq. apply bindE in H. destruct H as (t & _ & H).
  apply bindE in H. destruct H as (q1 & H1 & H). eapply unit_nan; eauto. eapply ang__nan; eauto.
Qed.

Lemma madgwick_imu_n freq beta s rc s' : madgwick_imu bc freq beta s = Ok (rc, s') -> stuck (sq s) (sq s').
Proof.
  unfold madgwick_imu. intros H. apply bindE in H. destruct H as (g & _ & H). step; [step; apply stuck_refl|].
  apply bindE in H. destruct H as (mag & _ & H). step; [step; apply stuck_refl|].
  apply bindE in H. destruct H as (u & Hu & H). intros Hq. right. pose proof (each_some (unit_nan Hu Hq)) as Nu.
  repeat step; eapply madg_update_n; eauto.
Qed.
Lemma madgwick_n freq beta incl s rc s' : madgwick bc freq beta incl s = Ok (rc, s') -> stuck (sq s) (sq s').
Proof.
  unfold madgwick. intros H. apply bindE in H. destruct H as (g & _ & H). step; [step; apply stuck_refl|].
  apply bindE in H. destruct H as (mag & _ & H). step; [step; apply stuck_refl|].
  apply bindE in H. destruct H as (ms & _ & H). step; [eapply madgwick_imu_n; eauto|].
  apply bindE in H. destruct H as (u & Hu & H). intros Hq. right. pose proof (each_some (unit_nan Hu Hq)) as Nu.
  repeat step; eapply madg_update_n; eauto.
Qed.
Lemma mahony_imu_n freq c s rc s' c' : mahony_imu bc freq c s = Ok (rc, s', c') -> stuck (sq s) (sq s').
Proof.
  unfold mahony_imu. intros H. repeat step; try apply stuck_refl; intros Hq; right; eapply mahn_update_n; eauto.
Qed.
Lemma mahony_n freq incl c s rc s' c' : mahony bc freq incl c s = Ok (rc, s', c') -> stuck (sq s) (sq s').
Proof.
  unfold mahony. intros H. apply bindE in H. destruct H as (g & _ & H). step; [step; apply stuck_refl|].
  apply bindE in H. destruct H as (mag & _ & H). step; [step; apply stuck_refl|].
  apply bindE in H. destruct H as (ms & _ & H). step; [eapply mahony_imu_n; eauto|].
  intros Hq. right. repeat step; eapply mahn_update_n; eauto.
Qed.

Lemma lerp_nan qa qb t rc p : quat_lerp bc qa qb t = Ok (rc, Some p) -> some_nan qa -> each_nan p.
Proof.
  unfold quat_lerp. destruct (_ && _); [discriminate|]. intros H Hq.
  apply bindE in H. destruct H as (ua & Ha & H). apply bindE in H. destruct H as (ub & Hb & H).
  apply bindE in H. destruct H as (q1 & H1 & H). apply bindE in H. destruct H as (q2 & H2 & H).
  apply scale_F in H1. apply (unit_nan Ha) in Hq. destruct Hq as (N1 & _).
  apply bindE in H. destruct H as ((rc1 & st) & Hs & H). apply bindE in H. destruct H as (r & Hr & H).
  injection H as <- <-.
  set (w := Quat (qr q1 + qr q2)%num (qi q1 + qi q2)%num (qj q1 + qj q2)%num (qk q1 + qk q2)%num) in *.
  assert (E : quat_to_unit_d_st [w] 0 = Ok (0%Z, [funit w])).
  { unfold quat_to_unit_d_st. clear. destruct w as [a b c d]. unfold quat_to_unit_st, qget, set_r, set_i, set_j, set_k, quat_magn.
    cbn [nth_error bind qr qi qj qk fsqrt fmul fadd fdiv fabs flt flit f0 NumF upd].
    unfold funit, fmagn, fsq4. cbn [qr qi qj qk].
    destruct (_ <? _)%float; cbn [nth_error bind qr qi qj qk fsqrt fmul fadd fdiv fabs flt flit f0 NumF upd snd];
      reflexivity. }
  rewrite E in Hs. injection Hs as <- <-. cbn [qget nth_error] in Hr. injection Hr as <-.
  apply funit_nan. left. unfold w. cbn [qr]. subst q1. cbn [qr fadd NumF]. apply nan_add_l, nan_mul_l, N1.
Qed.

Lemma comp_n freq al s rc s' : fus_comp bc freq al s = Ok (rc, s') -> stuck (sq s) (sq s').
Proof.
  unfold fus_comp. intros H. apply bindE in H. destruct H as (g & _ & H). step; [step; apply stuck_refl|].
  apply bindE in H. destruct H as (mag & _ & H). step; [step; apply stuck_refl|].
  apply bindE in H. destruct H as (u & Hu & H). intros Hq. right. pose proof (unit_nan Hu Hq) as Nu.
  apply bindE in H. destruct H as (t & _ & H). apply bindE in H. destruct H as ((rc1 & o) & Ho & H).
  apply bindE in H. destruct H as (qw & Hw & H). destruct o as [qw'|]; [|discriminate Hw]. injection Hw as ->.
  pose proof (ang_nan Ho (each_some Nu)) as Nw.
  apply bindE in H. destruct H as (mv & _ & H). apply bindE in H. destruct H as (av & _ & H).
  assert (D : (let! q := quat_to_unit qw in Ok (0%Z, Sens (sa s) (sm s) (sg s) q)) = Ok (rc, s') -> each_nan (sq s')).
  { clear H. intros H. repeat step. eapply unit_nan; eauto using each_some. }
  destruct mv as [m|]; [|now apply D]. destruct av as [a|]; [|now apply D]. clear D.
  apply bindE in H. destruct H as ((rc2 & att) & _ & H). destruct (att_to_euler att) as (rc3 & e).
  destruct (quat_from_euler e) as (rc4 & qam). apply bindE in H. destruct H as ((rc5 & o2) & H2 & H).
  repeat step. eapply unit_nan; eauto. destruct o2 as [p|]; [|now apply each_some].
  eapply each_some, lerp_nan; eauto using each_some.
Qed.

Lemma aqua_n freq c s rc s' : fus_aqua bc freq c s = Ok (rc, s') -> stuck (sq s) (sq s').
Proof.
  unfold fus_aqua. intros H. apply bindE in H. destruct H as (g & _ & H). step; [step; apply stuck_refl|].
  apply bindE in H. destruct H as (mag & _ & H). step; [step; apply stuck_refl|].
  apply bindE in H. destruct H as (u & Hu & H). intros Hq. right. pose proof (unit_nan Hu Hq) as Nu. clear Hq Hu.
  apply bindE in H. destruct H as ((rc1 & g1) & _ & H). apply bindE in H. destruct H as (t & _ & H).
  apply bindE in H. destruct H as (q1 & H1 & H). pose proof (ang__each H1 Nu) as N1. clear H1 Nu.
  apply bindE in H. destruct H as (av & _ & H). destruct av as [a|].
  - repeat (apply bindE in H; destruct H as (? & ?F & H); cbv beta iota in H; try (step; [])).
    all: repeat step.
    all: repeat match goal with F : quat_mult ?x _ = Ok _, N : each_nan ?x |- _ => apply (mult_nan_l F) in N; clear F end.
    all: eapply unit_nan; [eassumption|]; apply each_some; assumption.
  - repeat step. eapply unit_nan; eauto using each_some.
Qed.

Lemma kalman_n freq incl c s rc s' c' : fus_kalman bc freq incl c s = Ok (rc, s', c') -> stuck (sq s) (sq s').
Proof.
  unfold fus_kalman. intros H.
  match goal with H : (if ?b then _ else _) = _ |- _ => destruct b end; [step; apply stuck_refl|].
  intros Hq. right. repeat step.
  match goal with F : ang_vel_ _ _ _ _ = Ok ?q1 |- _ => apply (ang__nan F) in Hq end.
  match goal with F : quat_to_unit (Quat (qr _ + _)%num _ _ _) = Ok _ |- _ => eapply unit_nan; [exact F|] end.
  unfold some_nan in *. cbn [qr qi qj qk] in *.
  destruct Hq as [A|[A|[A|A]]]; [left|right; left|right; right; left|right; right; right]; apply nan_add_l, A.
Qed.

Lemma stuck_trans q1 q2 q3 : stuck q1 q2 -> stuck q2 q3 -> stuck q1 q3.
Proof.
  intros H1 H2 Hq. destruct (H1 Hq) as [->|E]; [now apply H2|]. destruct (H2 (each_some E)) as [->|E2]; auto.
Qed.
Lemma history_n I S (f : I -> S -> outcome (Z * S)) (g : S -> quat double) (P : S -> Prop) :
  (forall i s rc s', P s -> f i s = Ok (rc, s') -> stuck (g s) (g s') /\ P s') ->
  forall l s s', P s -> history f l s = Ok s' -> stuck (g s) (g s').
Proof.
  intros Hf. induction l as [|i l IH]; intros s s' HP H; cbn [history] in H.
  - injection H as <-. apply stuck_refl.
  - apply bindE in H. destruct H as ((rc & s1) & H1 & H2). cbn [snd] in H2.
    destruct (Hf _ _ _ _ HP H1) as (A & B). eapply stuck_trans; eauto.
Qed.

Theorem madg_history_n freq beta incl l q q' : history (madg_run bc freq beta incl) l q = Ok q' -> stuck q q'.
Proof.
  apply (@history_n _ _ (madg_run bc freq beta incl) (fun q => q) (fun _ => True)); auto. clear.
  intros i q rc q' _ H. split; auto. unfold madg_run in H.
  apply bindE in H. destruct H as ((rc1 & s) & H & E). injection E as <- <-. unfold madg_feed in H.
  step; [step; apply stuck_refl|]. apply madgwick_n in H. exact H.
Qed.
Theorem mahn_history_n freq incl l c q c' q' : history (mahn_run bc freq incl) l (c, q) = Ok (c', q') -> stuck q q'.
Proof.
  intros H. change (stuck (snd (c, q)) (snd (c', q'))). revert H.
  apply (@history_n _ _ (mahn_run bc freq incl) snd (fun _ => True)); auto. clear. intros i q rc q' _ H. split; auto.
  unfold mahn_run in H.
  apply bindE in H. destruct H as (((rc1 & s) & c1) & H & E). injection E as <- <-. unfold mahn_feed in H.
  step; [step; apply stuck_refl|]. apply mahony_n in H. exact H.
Qed.
Theorem comp_history_n freq al l q q' : history (comp_run bc freq al) l q = Ok q' -> stuck q q'.
Proof.
  apply (@history_n _ _ (comp_run bc freq al) (fun q => q) (fun _ => True)); auto. clear. intros i q rc q' _ H. split; auto.
  unfold comp_run in H.
  apply bindE in H. destruct H as ((rc1 & s) & H & E). injection E as <- <-. unfold comp_feed in H.
  step; [step; apply stuck_refl|]. apply comp_n in H. exact H.
Qed.
Theorem aqua_history_n freq l ini c q ini' c' q' :
  history (aqua_run bc freq) l (ini, c, q) = Ok (ini', c', q') -> stuck q q'.
Proof.
  intros H. change (stuck (snd (ini, c, q)) (snd (ini', c', q'))). revert H.
  apply (@history_n _ _ (aqua_run bc freq) snd (fun _ => True)); auto. clear. intros i q rc q' _ H. split; auto.
  unfold aqua_run in H.
  apply bindE in H. destruct H as ((((rc1 & s) & c1) & ini) & H & E). injection E as <- <-. unfold aqua_feed in H.
  step; [step; apply stuck_refl|]. apply bindE in H. destruct H as ((c2 & ini2) & _ & H). apply bindE in H.
  destruct H as ((rc2 & s2) & H & E). injection E as <- <- <- <-. apply aqua_n in H. exact H.
Qed.
Theorem kalm_history_n freq incl l ini c q ini' c' q' : ini <> 0%Z ->
  history (kalm_run bc freq incl) l (ini, c, q) = Ok (ini', c', q') -> stuck q q'.
Proof.
  intros Hi H. change (stuck (snd (ini, c, q)) (snd (ini', c', q'))). revert H.
  apply (@history_n _ _ (kalm_run bc freq incl) snd (fun s => fst (fst s) <> 0%Z)); auto. clear.
  intros i q rc q' Hi H. unfold kalm_run in H.
  apply bindE in H. destruct H as ((((rc1 & s) & c1) & ini) & H & E). injection E as <- <-. unfold kalm_feed in H.
  step; [step; split; [apply stuck_refl|exact Hi]|]. apply Z.eqb_neq in Hi. rewrite Hi in H. cbn [bind] in H.
  apply bindE in H. destruct H as (((rc3 & s3) & c3) & H & E). injection E as <- <- <- <-.
  apply kalman_n in H. split; [exact H|]. cbn [fst]. now apply Z.eqb_neq.
Qed.
End Nan.
