(** The quaternion functions and the fusion filters never divide by zero nor
    take the root of a negative number: their runs are those of the total
    arithmetic. *)
From Coq Require Import List Arith ZArith Bool Lia Reals Lra.
From Verif Require Import Base BaseFacts NumR Libm LibmR RTac Out SpecVec SpecMtx SpecSafe MVec MMtx MQuat MAhrs MFusion
  PVec PMtx PMtxOps PSafe PSafeMx PropSafe PRTotal.
Import ListNotations.
Set Implicit Arguments.
Local Open Scope R_scope.

Lemma bind_ext2 A B (m m' : outcome A) (k k' : A -> outcome B) : m = m' -> (forall a, k a = k' a) -> bind m k = bind m' k'.
Proof. intros -> H. destruct m'; cbn; auto. Qed.
Lemma bind_extv A B (m m' : outcome A) (k k' : A -> outcome B) :
  m = m' -> (forall a, m' = Ok a -> k a = k' a) -> bind m k = bind m' k'.
Proof. intros -> H. destruct m'; cbn; auto. Qed.
Lemma Rsqrto_Rt x : 0 <= x -> Rsqrto x = Ok (sqrt x).
Proof. intros H. unfold Rsqrto. destruct (Rle_dec 0 x); [reflexivity|contradiction]. Qed.

Create HintDb rt.
Section X.
Variable bc : bool.
Implicit Types (q p : quat R) (v w : vec R).

Lemma sq4 q : 0 <= qr q * qr q + qi q * qi q + qj q * qj q + qk q * qk q.
Proof. pose proof (Rle_0_sqr (qr q)). pose proof (Rle_0_sqr (qi q)). pose proof (Rle_0_sqr (qj q)). pose proof (Rle_0_sqr (qk q)). unfold Rsqr in *. lra. Qed.
Lemma magn_Rt q : quat_magn (N := NumR) q = quat_magn (N := NumRt) q.
Proof. unfold quat_magn. cbn [fsqrt fadd fmul NumR NumRt]. apply Rsqrto_Rt, sq4. Qed.
Lemma not_small (m : R) : (fabs m <? flit 1 6)%num = false -> m <> 0.
Proof. rops. intros H ->. revert H. rewrite Rabs_R0. rcases; discriminate. Qed.

Lemma unit_st_Rt st a b : quat_to_unit_st (N := NumR) st a b = quat_to_unit_st (N := NumRt) st a b.
Proof.
  unfold quat_to_unit_st. apply bind_ext2; [reflexivity|]. intros v. apply bind_ext2; [apply magn_Rt|]. intros m.
  change (fabs (Num := NumRt) m <? flit 1 6)%num with (fabs (Num := NumR) m <? flit 1 6)%num.
  destruct (fabs m <? flit 1 6)%num eqn:E; [reflexivity|]. apply not_small in E.
  cbn [fdiv NumR NumRt]. 
  do 4 (apply bind_ext2; [reflexivity|]; intros ?; rewrite Rdivo_Rt by exact E; cbn [bind]; apply bind_ext2; [reflexivity|]; intros ?).
  reflexivity.
Qed.
Lemma unit_Rt q : quat_to_unit (N := NumR) q = quat_to_unit (N := NumRt) q.
Proof. unfold quat_to_unit. apply bind_ext2; [apply unit_st_Rt|reflexivity]. Qed.
Lemma inv_st_Rt st a b : quat_inv_st (N := NumR) st a b = quat_inv_st (N := NumRt) st a b.
Proof.
  unfold quat_inv_st. apply bind_ext2; [reflexivity|]. intros v. apply bind_ext2; [apply magn_Rt|]. intros m.
  change (fabs (Num := NumRt) m <? flit 1 6)%num with (fabs (Num := NumR) m <? flit 1 6)%num.
  destruct (fabs m <? flit 1 6)%num eqn:E; [reflexivity|]. apply not_small in E.
  cbn [fdiv fmul fneg NumR NumRt]. cbv zeta. assert (E2 : m * m <> 0) by (intros H; apply Rmult_integral in H; tauto).
  assert (E3 : - (m * m) <> 0) by lra.
  do 4 (apply bind_ext2; [reflexivity|]; intros ?; rewrite Rdivo_Rt by assumption; cbn [bind]; apply bind_ext2; [reflexivity|]; intros ?).
  reflexivity.
Qed.
Lemma qinv_Rt q : quat_inv (N := NumR) q = quat_inv (N := NumRt) q.
Proof. unfold quat_inv. apply bind_ext2; [apply inv_st_Rt|reflexivity]. Qed.

Ltac go := repeat first
  [ reflexivity
  | match goal with
    | |- bind _ _ = bind _ _ => apply bind_ext2; [first [solve [auto with rt nocore] | reflexivity]|]; intros
    | |- context [let '(_, _) := ?p in _] => is_var p; destruct p
    | |- (match ?a with pair _ _ => _ end) = _ => is_var a; destruct a
    | |- (if ?a then _ else _) = (if ?b then _ else _) => change b with a; destruct a
    | |- (match ?a with Some _ => _ | None => _ end) = _ => is_var a; destruct a
    end
  | solve [auto with rt nocore] ].

Hint Resolve magn_Rt unit_st_Rt unit_Rt qinv_Rt : rt.
Lemma qrot_Rt q p : quat_rot (N := NumR) bc q p = quat_rot (N := NumRt) bc q p.
Proof. unfold quat_rot. go. Qed.
Hint Resolve qrot_Rt : rt.
Lemma rot__Rt q p : rot_ (N := NumR) bc q p = rot_ (N := NumRt) bc q p.
Proof. unfold rot_. go. Qed.
Lemma lerp_Rt q p t : quat_lerp (N := NumR) bc q p t = quat_lerp (N := NumRt) bc q p t.
Proof. unfold quat_lerp, quat_to_unit_d_st. go. Qed.
Lemma angv_Rt v q t : quat_from_ang_vel (N := NumR) bc v q t = quat_from_ang_vel (N := NumRt) bc v q t.
Proof. unfold quat_from_ang_vel. go. Qed.
Hint Resolve rot__Rt lerp_Rt angv_Rt : rt.
Lemma angv__Rt v q t : ang_vel_ (N := NumR) bc v q t = ang_vel_ (N := NumRt) bc v q t.
Proof. unfold ang_vel_. go. Qed.
Hint Resolve angv__Rt : rt.

(** vectors *)
Lemma dot_nonneg v rc x : vec_dot (N := NumR) bc v v = Ok (rc, Some x) -> 0 <= x.
Proof.
  unfold vec_dot. destruct (bc && _); [discriminate|].
  assert (G : forall n lo s r, 0 <= s -> for_ n lo (fun i res => let! a := rd (vbuf v) i in let! b := rd (vbuf v) i in Ok (res + a * b)) s = Ok r -> 0 <= r).
  { intros n. induction n as [|n IH]; intros lo s r Hs E; [now injection E as <-|]. cbn [for_] in E.
    destruct (rd (vbuf v) lo) as [a| | |]; try discriminate. cbn [bind] in E. apply IH in E; auto.
    pose proof (Rle_0_sqr a). unfold Rsqr in *. lra. }
  cbn [fadd fmul f0 NumR]. destruct (for_ _ _ _ _) as [r| | |] eqn:E; try discriminate. cbn [bind].
  intros [= _ <-]. eapply G; [|exact E]. lra.
Qed.
Lemma norm_Rt v : vec_norm (N := NumR) bc v = vec_norm (N := NumRt) bc v.
Proof.
  unfold vec_norm, vec_norm_opt. change (vec_sum_of_sqrs (N := NumRt) bc v) with (vec_sum_of_sqrs (N := NumR) bc v).
  apply bind_extv; [reflexivity|]. intros s. unfold vec_sum_of_sqrs.
  destruct (vec_dot bc v v) as [[rc [x|]]| | |] eqn:E; try discriminate; cbn [bind]; intros [= <-]; cbn [fsqrt NumR NumRt]; apply Rsqrto_Rt.
  - now apply dot_nonneg in E.
  - cbn. lra.
Qed.
Hint Resolve norm_Rt : rt.
Lemma tounit_Rt v : vec_to_unit (N := NumR) bc v = vec_to_unit (N := NumRt) bc v.
Proof.
  unfold vec_to_unit. apply bind_ext2; [apply norm_Rt|]. intros n.
  change (fne (N := NumRt) n f0) with (fne (N := NumR) n f0).
  destruct (fne n f0) eqn:E; [|reflexivity]. cbn [fdiv f1 NumR NumRt]. rewrite Rdivo_Rt; [reflexivity|].
  revert E. unfold fne. cbn [feq f0 NumR]. destruct (Reqb_spec n 0); [discriminate|auto].
Qed.
Hint Resolve tounit_Rt : rt.
Lemma valid_Rt (p : option (vec R)) : valid (N := NumR) bc p = valid (N := NumRt) bc p.
Proof. destruct p as [v|]; [|reflexivity]. cbn [valid]. go. Qed.
Lemma missing_Rt (p : option (vec R)) : missing (N := NumR) bc p = missing (N := NumRt) bc p.
Proof. destruct p as [v|]; [|reflexivity]. cbn [missing]. go. Qed.
Hint Resolve valid_Rt missing_Rt : rt.

Lemma field_Rt q i x y z : earth_field (N := NumR) bc q i x y z = earth_field (N := NumRt) bc q i x y z.
Proof.
  unfold earth_field. destruct i as [i|].
  - cbn [fdiv NumR NumRt]. rewrite Rdivo_Rt; [reflexivity|]. rops. lra.
  - apply bind_ext2; [apply rot__Rt|]. intros h. cbn [fsqrt fadd fmul NumR NumRt]. rewrite Rsqrto_Rt; [reflexivity|].
    pose proof (Rle_0_sqr (qi h)). pose proof (Rle_0_sqr (qj h)). unfold Rsqr in *. lra.
Qed.
Hint Resolve field_Rt : rt.

Lemma accel_Rt v a : att_from_accel (N := NumR) bc v a = att_from_accel (N := NumRt) bc v a.
Proof.
  unfold att_from_accel. destruct (_ && _); [reflexivity|]. apply bind_ext2; [reflexivity|]. intros (? & u).
  apply bind_ext2; [apply tounit_Rt|]. intros (? & u'). do 3 (apply bind_ext2; [reflexivity|]; intros ?).
  cbv zeta. cbn [fsqrt fadd fmul NumR NumRt]. rewrite Rsqrto_Rt; [reflexivity|].
  pose proof (Rle_0_sqr a1). pose proof (Rle_0_sqr a2). unfold Rsqr in *. lra.
Qed.
Hint Resolve accel_Rt : rt.
Lemma accelmag_Rt v w a : att_from_accelmag (N := NumR) bc v w a = att_from_accelmag (N := NumRt) bc v w a.
Proof. unfold att_from_accelmag. go. Qed.
Hint Resolve accelmag_Rt : rt.

Variable freq : Z.
Hypothesis Hf : (0 < freq)%Z.
Lemma IZR_freq : IZR freq <> 0.
Proof. apply not_0_IZR. lia. Qed.
Lemma period_Rt : period (N := NumR) freq = period (N := NumRt) freq.
Proof. unfold period. cbn [fdiv fofZ NumR NumRt]. apply Rdivo_Rt, IZR_freq. Qed.
Hint Resolve period_Rt : rt.

Lemma madg_update_Rt b g gr q : madg_update (N := NumR) bc freq b g gr q = madg_update (N := NumRt) bc freq b g gr q.
Proof. unfold madg_update. go. Qed.
Hint Resolve madg_update_Rt : rt.
Lemma madg_imu_Rt b s : madgwick_imu (N := NumR) bc freq b s = madgwick_imu (N := NumRt) bc freq b s.
Proof. unfold madgwick_imu. go. Qed.
Hint Resolve madg_imu_Rt : rt.
Lemma madg_Rt b i s : madg_feed (N := NumR) bc freq b i s = madg_feed (N := NumRt) bc freq b i s.
Proof. unfold madg_feed. change (b <? f0 (Num := NumRt))%num with (b <? f0 (Num := NumR))%num. destruct (b <? f0)%num; [reflexivity|]. unfold madgwick. go. Qed.

Lemma mahn_update_Rt g q : mahn_update (N := NumR) bc freq g q = mahn_update (N := NumRt) bc freq g q.
Proof. unfold mahn_update. go. Qed.
Hint Resolve mahn_update_Rt : rt.
Lemma mahn_imu_Rt c s : mahony_imu (N := NumR) bc freq c s = mahony_imu (N := NumRt) bc freq c s.
Proof. unfold mahony_imu. go. Qed.
Hint Resolve mahn_imu_Rt : rt.
Lemma mahn_Rt i c s : mahn_feed (N := NumR) bc freq i c s = mahn_feed (N := NumRt) bc freq i c s.
Proof. unfold mahn_feed. match goal with |- (if ?a then _ else _) = (if ?b then _ else _) => change b with a; destruct a; [reflexivity|] end. unfold mahony. go. Qed.

Lemma comp_Rt al s : comp_feed (N := NumR) bc freq al s = comp_feed (N := NumRt) bc freq al s.
Proof.
  unfold comp_feed. match goal with |- (if ?a then _ else _) = (if ?b then _ else _) => change b with a; destruct a; [reflexivity|] end.
  unfold fus_comp. go.
  destruct a4 as [m|]; cbn [bind]; [|go]. apply bind_ext2; [apply valid_Rt|]. intros [v|]; [|go].
  apply bind_ext2; [apply accelmag_Rt|]. intros (? & att0). 
  destruct (att_to_euler att0) as (? & e). destruct (quat_from_euler e) as (? & qa).
  go.
Qed.

Lemma kalm_h_Rt q p : kalm_h (N := NumR) bc q p = kalm_h (N := NumRt) bc q p.
Proof. unfold kalm_h. go. Qed.
Lemma kalm_correct_Rt z h H V P : kalm_correct (N := NumR) bc z h H V P = kalm_correct (N := NumRt) bc z h H V P.
Proof.
  unfold kalm_correct. do 5 (apply bind_ext2; [reflexivity|]; intros ?).
  apply bind_ext2; [apply inv_Rt|]. intros ?. reflexivity.
Qed.
Hint Resolve kalm_h_Rt kalm_correct_Rt : rt.
Lemma kalman_Rt i c s : fus_kalman (N := NumR) bc freq i c s = fus_kalman (N := NumRt) bc freq i c s.
Proof.
  unfold fus_kalman. match goal with |- (if ?a then _ else _) = (if ?b then _ else _) => change b with a; destruct a; [reflexivity|] end.
  cbn [fdiv NumR NumRt]. pose proof IZR_freq. rewrite Rdivo_Rt.
  - cbn [bind]. go.
  - rops. intros E. apply Rmult_integral in E as [E|E]; [lra|contradiction].
Qed.
End X.
