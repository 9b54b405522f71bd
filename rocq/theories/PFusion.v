(** Proofs about the sensor fusion filters. *)
From Coq Require Import List Arith ZArith Bool Reals Lra Lia.
From Verif Require Import Base BaseFacts NumR Libm LibmR RTac RAtan2 Out MVec SpecVec SpecReal PVec PVecR
  MMtx SpecMtx PMtx PMtxOps MDecomp MStat MQuat SpecQuat PQuat PQuatRot PQuatTrig PQuatEul MAhrs MFusion
  SpecFusion.
Import ListNotations.
Local Open Scope R_scope.
Implicit Types (p q u : quat R) (v w : v3).

(** a vector object holding the reading v *)
Definition hold (v : v3) (tl : buf R) : vec R := vec_of [coord 0 v; coord 1 v; coord 2 v] tl.
Definition hold_opt (v : option v3) (tl : buf R) : option (vec R) :=
  match v with Some v => Some (hold v tl) | None => None end.

Lemma coords v : (coord 0 v, coord 1 v, coord 2 v) = v.
Proof. now destruct v as [[x y] z]. Qed.
Lemma hold_3 x y z tl : hold (x, y, z) tl = vec_of [x; y; z] tl.
Proof. reflexivity. Qed.

Lemma period_ok freq : (0 < freq)%Z -> period freq = Ok (/ IZR freq).
Proof.
  intros H. unfold period. rops. rewrite Rdivo_ok by (apply not_0_IZR; lia). f_equal. field.
  apply not_0_IZR; lia.
Qed.

Lemma rot_ok bc u v : unit_quat u -> rot_ bc u (pure v) = Ok (pure (rotate u v)).
Proof.
  intros Hu. unfold rot_, pure. destruct v as [[x y] z].
  rewrite quat_rot_ok.
  - cbn [bind local]. unfold mkq, re, im. cbn [qr qi qj qk].
    rewrite unitised_of_unit by exact Hu. reflexivity.
  - right. unfold mkq, re. cbn. rewrite Rabs_R0. lra.
  - rewrite qnorm_unit by exact Hu. lra.
Qed.

Lemma norm_hold bc v tl : vec_norm bc (hold v tl) = Ok (vlen v).
Proof. unfold hold. rewrite vec_norm_R. f_equal. rewrite rnorm3. now rewrite coords. Qed.

Lemma valid_ok bc a tl : valid bc (hold_opt a tl) = Ok (hold_opt (usable a) tl).
Proof.
  destruct a as [v|]; [|reflexivity]. cbn [hold_opt valid usable]. rewrite norm_hold. cbn [bind].
  rops. rewrite Rabs_right by (apply Rle_ge, vlen_nonneg).
  destruct (Rltb_spec (1 / 1000000) (vlen v)), (Rlt_dec (/ 1000000) (vlen v)); try lra; reflexivity.
Qed.

Lemma missing_ok bc m tl :
  missing bc (hold_opt m tl) = Ok (match present m with Some _ => false | None => true end).
Proof.
  destruct m as [v|]; [|reflexivity]. cbn [hold_opt missing present]. rewrite norm_hold. cbn [bind].
  rops. rewrite Rabs_right by (apply Rle_ge, vlen_nonneg).
  destruct (Rltb_spec (vlen v) (1 / 1000000)), (Rlt_dec (vlen v) (/ 1000000)); try lra; reflexivity.
Qed.

Lemma unit_hold bc v tl :
  vlen v <> 0 -> vec_to_unit bc (hold v tl) = Ok (0%Z, hold (vnormalise v) tl).
Proof.
  intros H. unfold hold. assert (E : rnorm [coord 0 v; coord 1 v; coord 2 v] = vlen v)
    by (rewrite rnorm3; now rewrite coords).
  rewrite vec_to_unit_R by (rewrite E; exact H). rewrite E. destruct v as [[x y] z].
  reflexivity.
Qed.

Lemma rd3_hold v tl : rd3 (hold v tl) = Ok v.
Proof. destruct v as [[x y] z]. reflexivity. Qed.

Lemma usable_len a v : usable a = Some v -> a = Some v /\ / 1000000 < vlen v.
Proof.
  destruct a as [x|]; [|discriminate]. cbn. destruct (Rlt_dec (/ 1000000) (vlen x)); [|discriminate].
  intros E. injection E as <-. now split.
Qed.
Lemma present_len a v : present a = Some v -> a = Some v /\ / 1000000 <= vlen v.
Proof.
  destruct a as [x|]; [|discriminate]. cbn. destruct (Rlt_dec (vlen x) (/ 1000000)); [discriminate|].
  intros E. injection E as <-. split; [reflexivity|lra].
Qed.

Lemma unitised_normalise q : / 1000000 <= qnorm q -> unitised q = qnormalise q.
Proof. intros H. now rewrite unitised_big. Qed.
Lemma qnormalise_unit q : qnorm q <> 0 -> unit_quat (qnormalise q).
Proof.
  intros H. unfold unit_quat, qnormalise. rewrite qdot_scale, <- qnorm_sqr. field. exact H.
Qed.

Lemma spin_inner t w q :
  qnorm q <> 0 ->
  1 <= qnorm (qplus (qnormalise q) (qscale (t / 2) (hprod (pure w) (qnormalise q)))).
Proof.
  intros H. destruct w as [[x y] z]. unfold qnorm at 1. unfold pure, mkq.
  rewrite ang_vel_norm by now apply qnormalise_unit.
  rewrite <- sqrt_1 at 1. apply sqrt_le_1; [lra| |]; nra.
Qed.
Lemma spin_unit t w q : qnorm q <> 0 -> unit_quat (spin t w q).
Proof. intros H. apply qnormalise_unit. pose proof (spin_inner t w q H). lra. Qed.

Lemma ang_vel_ok bc w tl q t :
  0 <= t -> / 1000000 <= qnorm q ->
  ang_vel_ bc (hold w tl) q t = Ok (spin t w q).
Proof.
  intros Ht Hq. unfold ang_vel_, hold. rewrite from_ang_vel_ok by auto. cbn [bind].
  f_equal. unfold spin. rewrite (unitised_normalise q) by exact Hq.
  replace (Quat 0 (coord 0 w) (coord 1 w) (coord 2 w)) with (pure w) by now destruct w as [[x y] z].
  apply unitised_normalise. pose proof (spin_inner t w q ltac:(lra)). lra.
Qed.

(** ** Madgwick *)
Lemma gradient_run bc (j00 j01 j02 j10 j11 j12 j20 j21 j22 j30 j31 j32 a b c : R) :
  gradient bc (map Some [j00; j01; j02; j10; j11; j12; j20; j21; j22; j30; j31; j32]) (col3 a b c)
  = Ok (mat_of 4 1 (fun i _ => nth i [j00 * a + j01 * b + j02 * c; j10 * a + j11 * b + j12 * c;
                                      j20 * a + j21 * b + j22 * c; j30 * a + j31 * b + j32 * c] 0) []).
Proof.
  unfold gradient.
  change (map Some [j00; j01; j02; j10; j11; j12; j20; j21; j22; j30; j31; j32]) with
    (cells [j00; j01; j02; j10; j11; j12; j20; j21; j22; j30; j31; j32]).
  rewrite <- (app_nil_r (cells _)).
  rewrite (@mtx_from_arr_ok _ 4 3) by (try reflexivity; unfold room; cbn; auto).
  cbn [bind].
  set (J := fun i k => nth (i * 3 + k) [j00; j01; j02; j10; j11; j12; j20; j21; j22; j30; j31; j32] 0).
  change (Mtx 4 3 _) with (mat_of 4 3 J []).
  change (col3 a b c) with (mat_of 3 1 (fun i _ => nth i [a; b; c] 0) []).
  rewrite mtx_mult_ok by (unfold room; cbn; auto).
  cbn [bind]. f_equal.
  unfold mat_of, J. cbn. repeat (f_equal; try ring).
Qed.

Definition hold4 (g : quat R) : vec R := vec_of [qr g; qi g; qj g; qk g] [].

Lemma unit_hold4 bc g : vec_to_unit bc (hold4 g) = Ok (0%Z, hold4 (qdir g)).
Proof.
  unfold hold4, qdir. assert (E : rnorm [qr g; qi g; qj g; qk g] = qnorm g).
  { unfold rnorm, qnorm, qdot, re, im, vdot. cbn [rdot]. f_equal. ring. }
  destruct (Req_EM_T (qnorm g) 0) as [Z|Z].
  - assert (F : Forall (fun x => x = 0) [qr g; qi g; qj g; qk g])
      by (apply rnorm_zero; now rewrite E).
    rewrite vec_to_unit_R0 by exact F. reflexivity.
  - rewrite vec_to_unit_R by (rewrite E; exact Z). rewrite E. reflexivity.
Qed.

Lemma qdir_unit g : unit_quat (qdir g).
Proof.
  unfold qdir. destruct (Req_EM_T (qnorm g) 0).
  - unfold unit_quat, qdot, qone, mkq, re, im, vdot. cbn. ring.
  - now apply qnormalise_unit.
Qed.

Lemma madg_update_ok bc freq beta w tl n q :
  (0 < freq)%Z -> / 1000000 <= qnorm q ->
  madg_update bc freq beta (hold w tl) (hold4 n) q
  = Ok (unitised (qplus (spin (/ IZR freq) w q) (qscale (- (beta / IZR freq)) n))).
Proof.
  intros Hf Hq. unfold madg_update. rewrite period_ok by exact Hf. cbn [bind].
  assert (0 < IZR freq) by now apply IZR_lt.
  rewrite ang_vel_ok; [|left; now apply Rinv_0_lt_compat|exact Hq]. cbn [bind].
  unfold hold4. cbn [vec_of vbuf cells map app rd nth_error bind].
  rewrite quat_to_unit_ok. f_equal. f_equal. rops.
  unfold qplus, qscale, mkq, re, im, vadd, vscale. cbn [qr qi qj qk].
  f_equal; field; lra.
Qed.

Lemma hold4_init : vec_init (Vec 4 (fresh 4)) = Ok (0%Z, hold4 qzero).
Proof. reflexivity. Qed.

Lemma gradient_g bc u f0_ f1_ f2_ :
  gradient bc (jt_g u) (col3 f0_ f1_ f2_)
  = Ok (mat_of 4 1 (fun i _ => nth i [qr (gravity_grad u (f0_, f1_, f2_)); qi (gravity_grad u (f0_, f1_, f2_));
         qj (gravity_grad u (f0_, f1_, f2_)); qk (gravity_grad u (f0_, f1_, f2_))] 0) []).
Proof.
  unfold jt_g. rops. rewrite gradient_run. f_equal. unfold mat_of. f_equal. f_equal. f_equal.
  unfold gravity_grad, dot_rows, qplus, qscale, mkq, re, im, vadd, vscale, coord. cbn.
  repeat (f_equal; try field).
Qed.

Lemma gradient_b bc u bx bz f0_ f1_ f2_ :
  gradient bc (jt_b u bx bz) (col3 f0_ f1_ f2_)
  = Ok (mat_of 4 1 (fun i _ => nth i [qr (field_grad u bx bz (f0_, f1_, f2_)); qi (field_grad u bx bz (f0_, f1_, f2_));
         qj (field_grad u bx bz (f0_, f1_, f2_)); qk (field_grad u bx bz (f0_, f1_, f2_))] 0) []).
Proof.
  unfold jt_b. rops. rewrite gradient_run. f_equal. unfold mat_of. f_equal. f_equal. f_equal.
  unfold field_grad, dot_rows, qplus, qscale, mkq, re, im, vadd, vscale, coord. cbn.
  repeat (f_equal; try field).
Qed.

Lemma bad3_hold a tl : bad3 (hold_opt a tl) = false.
Proof. now destruct a. Qed.

Lemma magn_small bc q : / 1000000 <= qnorm q -> bc && Rltb (Rabs (qnorm q)) (1 / 1000000) = false.
Proof.
  intros H. rewrite Rabs_right by (apply Rle_ge, qnorm_nonneg).
  rewrite Rltb_false by lra. now rewrite andb_false_r.
Qed.

Lemma madgwick_imu_ok bc freq beta a m w q ta tg :
  (0 < freq)%Z -> / 1000000 <= qnorm q ->
  madgwick_imu bc freq beta (Sens (hold_opt a ta) m (Some (hold w tg)) q)
  = Ok (0%Z, Sens (match usable a with Some v => Some (hold (vnormalise v) ta) | None => hold_opt a ta end)
               m (Some (hold w tg))
               (unitised (qplus (spin (/ IZR freq) w q)
                  (qscale (- (beta / IZR freq)) (madg_dir (qnormalise q) None a None))))).
Proof.
  intros Hf Hq. unfold madgwick_imu. cbn [sg sa sm sq deref bind].
  rewrite bad3_hold. change (vsz (hold w tg)) with 3%nat. cbn [Nat.eqb negb orb].
  rewrite andb_false_r. rewrite quat_magn_ok. cbn [bind]. rops. rewrite magn_small by exact Hq.
  rewrite quat_to_unit_ok. cbn [bind]. rewrite hold4_init. cbn [bind].
  rewrite valid_ok. cbn [bind]. rewrite unitised_normalise by exact Hq.
  set (u := qnormalise q). assert (Hu : unit_quat u) by (apply qnormalise_unit; lra).
  assert (Su : forall t, spin t w u = spin t w q).
  { intros t. unfold spin. replace (qnormalise u) with u; [reflexivity|].
    unfold qnormalise at 1. rewrite (qnorm_unit u Hu), Rinv_1. symmetry. apply qscale_1. }
  assert (Nu : / 1000000 <= qnorm u) by (rewrite (qnorm_unit u Hu); lra).
  unfold madg_dir. destruct (usable a) as [v|] eqn:Ua.
  - destruct (usable_len _ _ Ua) as [-> Lv]. cbn [hold_opt].
    rewrite unit_hold by lra. cbn [bind].
    change (Quat 0 0 0 1) with (pure (0, 0, 1)). rewrite rot_ok by exact Hu. cbn [bind].
    rewrite rd3_hold. destruct (vnormalise v) as [[a0 a1] a2]. cbn [bind].
    rewrite gradient_g. cbn [bind].
    replace (_, _, _) with (vsub (rotate u (0, 0, 1)) (a0, a1, a2)).
    2:{ destruct (rotate u (0, 0, 1)) as [[x y] z].
        unfold vsub, vadd, vscale, pure, mkq. cbn [qi qj qk]. f_equal; [f_equal|]; ring. }
    set (g := gravity_grad u _).
    change (mbuf (mat_of 4 1 _ [])) with (cells [qr g; qi g; qj g; qk g] ++ []).
    unfold hold4 at 1. unfold vec_of. rewrite vec_from_arr_ok by (cbn; lia). cbn [bind].
    change (Vec _ _) with (hold4 g) at 1. rewrite unit_hold4. cbn [bind].
    rewrite madg_update_ok by assumption. rewrite Su. reflexivity.
  - cbn [hold_opt]. rewrite madg_update_ok by assumption. rewrite Su. reflexivity.
Qed.

Lemma madgwick_ok bc freq beta incl a m w q ta tm tg :
  (0 < freq)%Z -> / 1000000 <= qnorm q ->
  madgwick bc freq beta incl (Sens (hold_opt a ta) (hold_opt m tm) (Some (hold w tg)) q)
  = Ok (0%Z, Sens (match usable a with Some v => Some (hold (vnormalise v) ta) | None => hold_opt a ta end)
               (match usable a, present m with
                | Some _, Some v => Some (hold (vnormalise v) tm)
                | _, _ => hold_opt m tm end)
               (Some (hold w tg))
               (unitised (qplus (spin (/ IZR freq) w q)
                  (qscale (- (beta / IZR freq)) (madg_dir (qnormalise q) incl a m))))).
Proof.
  intros Hf Hq. unfold madgwick. cbn [sg sa sm sq deref bind].
  rewrite !bad3_hold. change (vsz (hold w tg)) with 3%nat. cbn [Nat.eqb negb orb].
  rewrite andb_false_r. rewrite quat_magn_ok. cbn [bind]. rops. rewrite magn_small by exact Hq.
  rewrite missing_ok. cbn [bind]. destruct (present m) as [mv|] eqn:Pm.
  2:{ rewrite madgwick_imu_ok by assumption. unfold madg_dir. rewrite Pm.
      destruct (usable a); reflexivity. }
  destruct (present_len _ _ Pm) as [-> Lm].
  rewrite quat_to_unit_ok. cbn [bind]. rewrite hold4_init. cbn [bind].
  rewrite valid_ok. cbn [bind]. rewrite unitised_normalise by exact Hq.
  set (u := qnormalise q). assert (Hu : unit_quat u) by (apply qnormalise_unit; lra).
  assert (Su : forall t, spin t w u = spin t w q).
  { intros t. unfold spin. replace (qnormalise u) with u; [reflexivity|].
    unfold qnormalise at 1. rewrite (qnorm_unit u Hu), Rinv_1. symmetry. apply qscale_1. }
  assert (Nu : / 1000000 <= qnorm u) by (rewrite (qnorm_unit u Hu); lra).
  unfold madg_dir. rewrite Pm. destruct (usable a) as [v|] eqn:Ua.
  - destruct (usable_len _ _ Ua) as [-> Lv]. cbn [hold_opt deref bind].
    rewrite unit_hold by lra. cbn [bind]. rewrite unit_hold by lra. cbn [bind].
    change (Quat 0 0 0 1) with (pure (0, 0, 1)). rewrite rot_ok by exact Hu. cbn [bind].
    rewrite !rd3_hold. destruct (vnormalise v) as [[a0 a1] a2]. cbn [bind].
    rewrite gradient_g. cbn [bind].
    replace (_, _, _) with (vsub (rotate u (0, 0, 1)) (a0, a1, a2)).
    2:{ destruct (rotate u (0, 0, 1)) as [[x y] z].
        unfold vsub, vadd, vscale, pure, mkq. cbn [qi qj qk]. f_equal; [f_equal|]; ring. }
    set (g := gravity_grad u _).
    destruct (vnormalise mv) as [[m0 m1] m2]. cbn [bind].
    assert (F : earth_field bc u incl m0 m1 m2 = Ok (field u incl (m0, m1, m2))).
    { unfold earth_field, field, ZSL_PI. destruct incl as [i|].
      - rops. rewrite Rdivo_ok by lra. cbn [bind].
        replace (1800 / 10) with 180 by field. reflexivity.
      - change (Quat f0 m0 m1 m2) with (pure (m0, m1, m2)). rewrite rot_ok by exact Hu. cbn [bind].
        destruct (rotate u (m0, m1, m2)) as [[x y] z]. unfold pure, mkq. cbn [qi qj qk coord]. rops.
        rewrite Rsqrto_ok by nra. reflexivity. }
    rewrite F. cbn [bind]. destruct (field u incl (m0, m1, m2)) as [bx bz].
    change (Quat 0 bx 0 bz) with (pure (bx, 0, bz)). rewrite rot_ok by exact Hu. cbn [bind].
    rewrite gradient_b. cbn [bind].
    replace (_, _, _) with (vsub (rotate u (bx, 0, bz)) (m0, m1, m2)).
    2:{ destruct (rotate u (bx, 0, bz)) as [[x y] z].
        unfold vsub, vadd, vscale, pure, mkq. cbn [qi qj qk]. f_equal; [f_equal|]; ring. }
    set (h := field_grad u bx bz _).
    change (mbuf (mat_of 4 1 (fun i _ => nth i [qr g; qi g; qj g; qk g] 0) [])) with (cells [qr g; qi g; qj g; qk g] ++ []).
    change (mbuf (mat_of 4 1 (fun i _ => nth i [qr h; qi h; qj h; qk h] 0) [])) with (cells [qr h; qi h; qj h; qk h] ++ []).
    unfold hold4 at 1. cbn [vec_of vbuf cells map app for_ rd nth_error bind wr upd length Nat.ltb Nat.leb].
    change (Vec 4 _) with (hold4 (qplus g h)). rewrite unit_hold4. cbn [bind].
    rewrite madg_update_ok by assumption. rewrite Su. reflexivity.
  - cbn [hold_opt]. rewrite madg_update_ok by assumption. rewrite Su. reflexivity.
Qed.

Lemma rot_any_ok bc q v : / 1000000 <= qnorm q -> rot_ bc q (pure v) = Ok (pure (rotate (qnormalise q) v)).
Proof.
  intros Hq. unfold rot_, pure. destruct v as [[x y] z].
  rewrite quat_rot_ok; [|right; unfold mkq, re; cbn; rewrite Rabs_R0; lra|exact Hq].
  cbn [bind local]. unfold mkq, re, im. cbn [qr qi qj qk].
  rewrite unitised_normalise by exact Hq. reflexivity.
Qed.

Lemma earth_field_ok bc q incl m :
  / 1000000 <= qnorm q ->
  earth_field bc q incl (coord 0 m) (coord 1 m) (coord 2 m) = Ok (field (qnormalise q) incl m).
Proof.
  intros Hq. unfold earth_field, field, ZSL_PI. destruct incl as [i|].
  - rops. rewrite Rdivo_ok by lra. cbn [bind].
    replace (1800 / 10) with 180 by field. reflexivity.
  - replace (Quat f0 (coord 0 m) (coord 1 m) (coord 2 m)) with (pure m) by now destruct m as [[x y] z].
    rewrite rot_any_ok by exact Hq. cbn [bind].
    destruct (rotate (qnormalise q) m) as [[x y] z]. unfold pure, mkq. cbn [qi qj qk coord]. rops.
    rewrite Rsqrto_ok by nra. reflexivity.
Qed.

(** ** Mahony *)
Lemma cross_hold bc (u v : v3) tu tv :
  vec_cross bc (hold u tu) (hold v tv) (Vec 3 (fresh 3)) = Ok (0%Z, hold (vcross u v) []).
Proof.
  unfold hold. change (fresh 3) with ([None; None; None] ++ [] : buf R). cbn [app].
  rewrite vec_cross_ok. destruct u as [[x y] z], v as [[x' y'] z']. reflexivity.
Qed.
Lemma add_hold bc (u v : v3) tu tv :
  vec_add bc (hold u tu) (hold v tv) (Vec 3 (fresh 3)) = Ok (0%Z, hold (vadd u v) []).
Proof.
  unfold hold, vec_add.
  etransitivity; [exact (vec_zip_ok bc fadd [coord 0 u; coord 1 u; coord 2 u]
    [coord 0 v; coord 1 v; coord 2 v] tu tv (fresh 3) eq_refl (le_n 3))|].
  destruct u as [[x y] z], v as [[x' y'] z']. reflexivity.
Qed.

Lemma integrate_ok (x e t lim : R) : integrate x e t lim = clamp lim (x + e * t).
Proof.
  unfold integrate, clamp. rops.
  destruct (Rltb_spec lim (x + e * t)), (Rlt_dec lim (x + e * t)); try lra.
  destruct (Rltb_spec (x + e * t) (- lim)), (Rlt_dec (x + e * t) (- lim)); lra.
Qed.

Definition next_fb (lim t : R) (fb e : v3) : v3 := vmap (clamp lim) (vadd fb (vscale t e)).
Definition next_rate (kp_ ki_ : R) (w fb e : v3) : v3 := vadd w (vadd (vscale ki_ fb) (vscale kp_ e)).

Lemma feedback_ok (t kp_ ki_ lim : R) (fb e w : v3) ti te tg :
  feedback t (Mahn kp_ ki_ lim (hold fb ti)) (hold e te) (hold w tg)
  = Ok (Mahn kp_ ki_ lim (hold (next_fb lim t fb e) ti),
        hold (next_rate kp_ ki_ w (next_fb lim t fb e) e) tg).
Proof.
  unfold feedback. cbn [kp ki ilim intfb]. rewrite !rd3_hold.
  destruct fb as [[i0 i1] i2], e as [[e0 e1] e2], w as [[w0 w1] w2]. cbn [bind].
  rewrite !integrate_ok.
  unfold hold. cbn [vec_of vbuf cells map app wr upd length Nat.ltb Nat.leb bind coord vsz].
  unfold next_fb, next_rate, vadd, vscale, vmap. cbn [coord].
  rewrite (Rmult_comm t e0), (Rmult_comm t e1), (Rmult_comm t e2).
  unfold vec_of. cbn [cells map app length].
  do 3 f_equal; cbn [cells map app]; repeat (f_equal; try (rops; ring)).
Qed.

Lemma mahn_update_ok bc freq w tl q :
  (0 < freq)%Z -> / 1000000 <= qnorm q ->
  mahn_update bc freq (hold w tl) q = Ok (spin (/ IZR freq) w q).
Proof.
  intros Hf Hq. unfold mahn_update. rewrite period_ok by exact Hf. cbn [bind].
  assert (0 < IZR freq) by now apply IZR_lt.
  rewrite ang_vel_ok; [|left; now apply Rinv_0_lt_compat|exact Hq]. cbn [bind].
  rewrite quat_to_unit_ok. f_equal. apply unitised_of_unit, spin_unit. lra.
Qed.

Lemma as_hold x y z tl : Vec 3 (Some x :: Some y :: Some z :: tl) = hold (x, y, z) tl.
Proof. reflexivity. Qed.

Lemma mahony_imu_ok bc freq kp_ ki_ lim fb ti a m w q ta tg :
  (0 < freq)%Z -> / 1000000 <= qnorm q ->
  mahony_imu bc freq (Mahn kp_ ki_ lim (hold fb ti)) (Sens (hold_opt a ta) m (Some (hold w tg)) q)
  = Ok (match usable a with
        | None => (0%Z, Sens (hold_opt a ta) m (Some (hold w tg)) (spin (/ IZR freq) w q),
                   Mahn kp_ ki_ lim (hold fb ti))
        | Some v =>
            let e := mahn_error (qnormalise q) None v None in
            let fb' := next_fb lim (/ IZR freq) fb e in
            let w' := next_rate kp_ ki_ w fb' e in
            (0%Z, Sens (Some (hold (vnormalise v) ta)) m (Some (hold w' tg)) (spin (/ IZR freq) w' q),
             Mahn kp_ ki_ lim (hold fb' ti))
        end).
Proof.
  intros Hf Hq. unfold mahony_imu. cbn [sg sa sm sq deref bind intfb].
  rewrite bad3_hold. change (vsz (hold w tg)) with 3%nat. change (vsz (hold fb ti)) with 3%nat.
  cbn [Nat.eqb negb orb].
  rewrite andb_false_r. rewrite quat_magn_ok. cbn [bind]. rops. rewrite magn_small by exact Hq.
  rewrite valid_ok. cbn [bind]. destruct (usable a) as [v|] eqn:Ua.
  - destruct (usable_len _ _ Ua) as [-> Lv]. cbn [hold_opt].
    rewrite unit_hold by lra. cbn [bind].
    change (Quat 0 0 0 1) with (pure (0, 0, 1)). rewrite rot_any_ok by exact Hq. cbn [bind].
    rewrite as_hold. unfold pure, mkq at 1. cbv zeta. unfold mahn_error. cbn [present].
    destruct (rotate (qnormalise q) (0, 0, 1)) as [[x y] z]. cbn [qi qj qk mkq].
    rewrite cross_hold. cbn [bind]. rewrite period_ok by exact Hf. cbn [bind].
    rewrite feedback_ok. cbn [bind]. rewrite mahn_update_ok by assumption. reflexivity.
  - cbn [hold_opt]. rewrite mahn_update_ok by assumption. reflexivity.
Qed.

Lemma mahony_ok bc freq incl kp_ ki_ lim fb ti a m w q ta tm tg :
  (0 < freq)%Z -> / 1000000 <= qnorm q ->
  mahony bc freq incl (Mahn kp_ ki_ lim (hold fb ti))
    (Sens (hold_opt a ta) (hold_opt m tm) (Some (hold w tg)) q)
  = Ok (match usable a with
        | None => (0%Z, Sens (hold_opt a ta) (hold_opt m tm) (Some (hold w tg)) (spin (/ IZR freq) w q),
                   Mahn kp_ ki_ lim (hold fb ti))
        | Some v =>
            let e := mahn_error (qnormalise q) incl v m in
            let fb' := next_fb lim (/ IZR freq) fb e in
            let w' := next_rate kp_ ki_ w fb' e in
            (0%Z, Sens (Some (hold (vnormalise v) ta))
                       (match present m with Some v => Some (hold (vnormalise v) tm) | None => hold_opt m tm end)
                       (Some (hold w' tg)) (spin (/ IZR freq) w' q),
             Mahn kp_ ki_ lim (hold fb' ti))
        end).
Proof.
  intros Hf Hq. unfold mahony. cbn [sg sa sm sq deref bind intfb].
  rewrite !bad3_hold. change (vsz (hold w tg)) with 3%nat. change (vsz (hold fb ti)) with 3%nat.
  cbn [Nat.eqb negb orb].
  rewrite andb_false_r. rewrite quat_magn_ok. cbn [bind]. rops. rewrite magn_small by exact Hq.
  rewrite missing_ok. cbn [bind]. destruct (present m) as [mv|] eqn:Pm.
  2:{ rewrite mahony_imu_ok by assumption. unfold mahn_error. rewrite Pm. destruct (usable a); reflexivity. }
  destruct (present_len _ _ Pm) as [-> Lm].
  rewrite valid_ok. cbn [bind]. destruct (usable a) as [v|] eqn:Ua.
  - destruct (usable_len _ _ Ua) as [-> Lv]. cbn [hold_opt deref bind].
    rewrite unit_hold by lra. cbn [bind]. rewrite unit_hold by lra. cbn [bind].
    change (Quat 0 0 0 1) with (pure (0, 0, 1)). rewrite rot_any_ok by exact Hq. cbn [bind].
    cbv zeta. unfold mahn_error. rewrite Pm.
    rewrite as_hold. unfold pure at 1 2 3, mkq at 1 2 3.
    destruct (rotate (qnormalise q) (0, 0, 1)) as [[x y] z]. cbn [qi qj qk mkq].
    rewrite cross_hold. cbn [bind].
    rewrite rd3_hold. pose proof (earth_field_ok bc q incl (vnormalise mv) Hq) as F.
    destruct (vnormalise mv) as [[m0 m1] m2]. cbn [bind]. cbn [coord] in F. rewrite F. cbn [bind].
    destruct (field (qnormalise q) incl (m0, m1, m2)) as [bx bz].
    change (Quat 0 bx 0 bz) with (pure (bx, 0, bz)). rewrite rot_any_ok by exact Hq. cbn [bind].
    rewrite as_hold.
    unfold pure at 1 2 3, mkq at 1 2 3.
    destruct (rotate (qnormalise q) (bx, 0, bz)) as [[x' y'] z']. cbn [qi qj qk mkq].
    rewrite cross_hold. cbn [bind]. rewrite add_hold. cbn [bind].
    rewrite period_ok by exact Hf. cbn [bind].
    rewrite feedback_ok. cbn [bind]. rewrite mahn_update_ok by assumption. reflexivity.
  - cbn [hold_opt]. rewrite mahn_update_ok by assumption. reflexivity.
Qed.
