(** Properties C81, C99, C100, C104 and C105: calibration corrections,
    equilibria and gradients of the filters, and what the drivers have in
    common. *)
From Coquelicot Require Import Coquelicot.
From Coq Require Import List Arith ZArith Bool Reals Lra Lia.
From Verif Require Import Base BaseFacts NumR Libm LibmR RTac RAtan2 Out MVec SpecVec SpecReal PVec PVecR
  MMtx SpecMtx PMtx PMtxOps PMtxR MDecomp MStat MQuat SpecQuat PQuat PQuatRot PQuatTrig PQuatEul MAhrs MFusion
  SpecFusion PFusion PFusion2 PFusion3 PStatMult PropFusion.
Import ListNotations.
Local Open Scope R_scope.
Implicit Types (p q u d : quat R) (v w : v3).

(** ** C81: corrections and rotations of samples *)
Theorem C81_corr_scalar (d k b : R) : cal_corr_scalar d k b = (0%Z, k * (d + b)).
Proof. reflexivity. Qed.
Print Assumptions C81_corr_scalar.

(** K (v + b), for every dimension *)
Theorem C81_corr_vec bc n (xs bs : list R) (K : nat -> nat -> R) tx tb tk (ob : buf R) :
  length xs = n -> length bs = n -> (n <= length ob)%nat ->
  cal_corr_vec bc (vec_of xs tx) (mat_of n n K tk) (vec_of bs tb) (Vec n ob)
  = Ok (0%Z, vec_of (map (fun i => bigsum n (fun j => K i j * (nth j xs 0 + nth j bs 0))) (seq 0 n))
                    (skipn n ob)).
Proof.
  intros Hx Hb Ho. unfold cal_corr_vec. cbn [vsz mrows mcols mat_of].
  change (vsz (vec_of xs tx)) with (length xs). change (vsz (vec_of bs tb)) with (length bs).
  rewrite Hx, Hb, !Nat.eqb_refl. cbn [negb orb]. rewrite andb_false_r.
  change (Mtx n n _) with (mat_of n n K tk).
  assert (A : vec_add bc (vec_of xs tx) (vec_of bs tb) (Vec n (fresh n))
              = Ok (0%Z, vec_of (map2 Rplus xs bs) [])).
  { pose proof (vec_zip_ok bc (@fadd R _) xs bs tx tb (fresh n)) as Z.
    rewrite Hx, Hb in Z. unfold vec_add. unfold fresh in *. rewrite Z by (rewrite ?repeat_length; lia).
    now rewrite skipn_all2 by (rewrite repeat_length; lia). }
  rewrite A. cbn [bind].
  assert (L : length (map2 Rplus xs bs) = n) by (rewrite map2_length; lia).
  change (vbuf (vec_of (map2 Rplus xs bs) [])) with (cells (map2 Rplus xs bs) ++ []).
  rewrite (@mtx_from_arr_ok R n 1) by (rewrite ?L; try lia; apply room_def). rewrite rest_def. cbn [bind].
  unfold buf in *. rewrite col_mat by exact L. rewrite mtx_mult_R by apply room_def. rewrite rest_def. cbn [bind].
  unfold vec_from_arr. cbn [vbuf vsz]. rewrite mat_col.
  set (ys := map _ (seq 0 n)).
  assert (Ly : length ys = n) by (unfold ys; now rewrite map_length, seq_length).
  pose proof (vec_from_arr_ok ob ys [] (eq_sym Ly) Ho) as V. unfold vec_from_arr in V. cbn [vsz vbuf] in V.
  unfold buf in *. rewrite V. cbn [bind]. do 2 f_equal. unfold vec_of.
  set (zs := map (fun i => bigsum n _) (seq 0 n)).
  assert (YZ : ys = zs).
  { unfold ys, zs. apply map_ext. intros i. unfold mmul. apply bigsum_ext. intros j Hj.
    f_equal. apply (@nth_map2 _ _ _ Rplus); lia. }
  now rewrite <- YZ, Ly.
Qed.
Print Assumptions C81_corr_vec.
Example C81_corr_vec_case :
  cal_corr_vec true (vec_of [1; 2] []) (mat_of 2 2 (fun i j => if (i =? j)%nat then 2 else 1) [])
    (vec_of [3; 5] []) (Vec 2 (fresh 2)) = Ok (0%Z, vec_of [15; 18] []).
Proof.
  rewrite C81_corr_vec by (cbn; lia). cbn. do 2 f_equal. apply f_equal2; [|reflexivity].
  repeat (apply f_equal2; [f_equal; ring|]). reflexivity.
Qed.

Theorem C81_corr_vec_rejects (v b o : vec R) (K : mtx R) :
  vsz v <> vsz o \/ vsz v <> mrows K \/ vsz v <> mcols K \/ vsz v <> vsz b ->
  cal_corr_vec true v K b o = Ok ((- EINVAL)%Z, o).
Proof.
  intros H. unfold cal_corr_vec.
  replace (true && _) with true; [reflexivity|]. symmetry. cbn [andb].
  destruct H as [H|[H|[H|H]]]; apply Nat.eqb_neq in H; rewrite H; cbn [negb orb]; now rewrite ?orb_true_r.
Qed.
Print Assumptions C81_corr_vec_rejects.

Lemma col3_buf (f : nat -> nat -> R) :
  mbuf (mat_of 3 1 f []) = cells [f 0%nat 0%nat; f 1%nat 0%nat; f 2%nat 0%nat] ++ [].
Proof. reflexivity. Qed.

Lemma cal_rot_mtx_ok bc v tv (K : nat -> nat -> R) tk (ob : buf R) :
  (3 <= length ob)%nat ->
  cal_rot_mtx bc (hold v tv) (mat_of 3 3 K tk) (Vec 3 ob) = Ok (0%Z, hold (mapply K v) (skipn 3 ob)).
Proof.
  intros Ho. unfold cal_rot_mtx. change (vsz (hold v tv)) with 3%nat.
  cbn [vsz mrows mcols mat_of Nat.eqb negb orb]. rewrite andb_false_r.
  change (Mtx 3 3 _) with (mat_of 3 3 K tk).
  change (vbuf (hold v tv)) with (cells [coord 0 v; coord 1 v; coord 2 v] ++ tv).
  rewrite (@mtx_from_arr_ok R 3 1) by (try reflexivity; apply room_def). rewrite rest_def. cbn [bind].
  unfold buf in *. rewrite col_mat by reflexivity. rewrite mtx_mult_R by apply room_def. rewrite rest_def.
  cbn [bind]. rewrite col3_buf.
  pose proof (@vec_from_arr_ok R 3 ob [mmul 3 K (fun i _ => nth i [coord 0 v; coord 1 v; coord 2 v] 0) 0 0;
    mmul 3 K (fun i _ => nth i [coord 0 v; coord 1 v; coord 2 v] 0) 1 0;
    mmul 3 K (fun i _ => nth i [coord 0 v; coord 1 v; coord 2 v] 0) 2 0] [] eq_refl Ho) as V.
  unfold buf in *. rewrite V. cbn [bind]. do 2 f_equal. destruct v as [[x y] z].
  unfold hold, vec_of, mapply, mmul. cbn.
  apply f_equal. repeat (apply f_equal2; [f_equal; ring|]). reflexivity.
Qed.

Theorem C81_rot_mtx bc v tv (K : nat -> nat -> R) tk (ob : buf R) :
  (3 <= length ob)%nat ->
  cal_rot_mtx bc (hold v tv) (mat_of 3 3 K tk) (Vec 3 ob) = Ok (0%Z, hold (mapply K v) (skipn 3 ob)).
Proof. apply cal_rot_mtx_ok. Qed.
Print Assumptions C81_rot_mtx.

(** Rotation about an axis: Rodrigues' formula; lengths and angles between
    samples are kept.  An axis shorter than 1e-6 leaves the sample alone. *)
Theorem C81_rot_axis_angle bc v tv a ta (b : R) (ob : buf R) :
  (3 <= length ob)%nat ->
  exists v', cal_rot_axis_angle bc (hold v tv) (hold a ta) b (Vec 3 ob) = Ok (0%Z, hold v' (skipn 3 ob)) /\
    vlen v' = vlen v /\
    (/ 1000000 <= vlen a -> v' = rodrigues (vnormalise a) b v) /\
    (vlen a < / 1000000 -> v' = v).
Proof.
  intros Ho. unfold cal_rot_axis_angle. change (vsz (hold v tv)) with 3%nat.
  change (vsz (hold a ta)) with 3%nat. cbn [vsz Nat.eqb negb orb]. rewrite andb_false_r.
  destruct (Rle_or_lt (/ 1000000) (vlen a)) as [H|H].
  - assert (E : exists q, quat_from_axis_angle bc (hold a ta) b = Ok (0%Z, Some q) /\ unit_quat q /\
                 forall v, rotate q v = rodrigues (vnormalise a) b v).
    { destruct a as [[x y] z]. rewrite hold_3, from_axis_angle_ok by exact H. eexists. split; [reflexivity|].
      assert (U : vdot (vnormalise (x, y, z)) (vnormalise (x, y, z)) = 1) by (apply vnormalise_unit; lra).
      split; [apply cis_unit; exact U|]. intros v0. apply rotate_cis. exact U. }
    destruct E as (q & E & U & Er). rewrite E. cbn [bind local].
    rewrite quat_to_rot_mtx_ok by apply room_def. cbn [bind]. rewrite cal_rot_mtx_ok by auto. cbn [bind].
    eexists. split; [reflexivity|].
    assert (M : mapply (rotm q) v = rotate q v).
    { destruct v as [[x y] z]. unfold rotm, rotate, basis, coord, mapply, re, im, vadd, vscale, vcross. cbn.
      f_equal; [f_equal|]; ring. }
    rewrite M. split; [|split; [intros _; apply Er|lra]].
    unfold vlen. f_equal. now apply rotate_len.
  - assert (E : quat_from_axis_angle bc (hold a ta) b = Ok (0%Z, Some qzero)).
    { destruct a as [[x y] z]. rewrite hold_3. now apply from_axis_angle_zero. }
    rewrite E. cbn [bind local].
    rewrite quat_to_rot_mtx_ok by apply room_def. cbn [bind]. rewrite cal_rot_mtx_ok by auto. cbn [bind].
    eexists. split; [reflexivity|].
    assert (M : mapply (rotm qzero) v = v).
    { destruct v as [[x y] z]. unfold rotm, rotate, basis, coord, mapply, qzero, re, im, vadd, vscale, vcross. cbn.
      f_equal; [f_equal|]; ring. }
    rewrite M. split; [reflexivity|]. split; [lra|auto].
Qed.
Print Assumptions C81_rot_axis_angle.
Example C81_rot_axis_angle_case : / 1000000 <= vlen (0, 3, 4).
Proof. unfold vlen, vdot. replace (0 * 0 + 3 * 3 + 4 * 4) with (5 * 5) by ring. rewrite sqrt_square; lra. Qed.

Theorem C81_rot_rejects (v a o : vec R) (m : mtx R) (b : R) :
  (vsz v <> 3%nat \/ vsz o <> 3%nat \/ mrows m <> 3%nat \/ mcols m <> 3%nat ->
   cal_rot_mtx true v m o = Ok ((- EINVAL)%Z, o)) /\
  (vsz v <> 3%nat \/ vsz o <> 3%nat \/ vsz a <> 3%nat ->
   cal_rot_axis_angle true v a b o = Ok ((- EINVAL)%Z, o)).
Proof.
  split; intros H; unfold cal_rot_mtx, cal_rot_axis_angle;
    (replace (true && _) with true; [reflexivity|]); symmetry; cbn [andb].
  - destruct H as [H|[H|[H|H]]]; apply Nat.eqb_neq in H; rewrite H; cbn [negb orb]; now rewrite ?orb_true_r.
  - destruct H as [H|[H|H]]; apply Nat.eqb_neq in H; rewrite H; cbn [negb orb]; now rewrite ?orb_true_r.
Qed.
Print Assumptions C81_rot_rejects.

(** ** C99: equilibrium of the Mahony filter *)
Lemma vcross_scale_self c v : vcross (vscale c v) v = (0, 0, 0).
Proof. destruct v as [[x y] z]. unfold vcross, vscale. f_equal; [f_equal|]; ring. Qed.
Lemma vlen_scale (c : R) v : vlen (vscale c v) = Rabs c * vlen v.
Proof.
  unfold vlen. destruct v as [[x y] z].
  replace (vdot (vscale c (x, y, z)) (vscale c (x, y, z))) with (c * c * vdot (x, y, z) (x, y, z))
    by (unfold vdot, vscale; ring).
  rewrite sqrt_mult_alt by (apply Rle_0_sqr). f_equal. apply sqrt_Rsqr_abs.
Qed.
Lemma vnormalise_scale (c : R) v : 0 < c -> vdot v v = 1 -> vnormalise (vscale c v) = v.
Proof.
  intros Hc Hv. unfold vnormalise. rewrite vlen_scale, (unit_len _ Hv), Rabs_right by lra.
  destruct v as [[x y] z]. unfold vscale. f_equal; [f_equal|]; field; lra.
Qed.
Lemma usable_scale (c : R) v : vdot v v = 1 -> / 1000000 < c -> usable (Some (vscale c v)) = Some (vscale c v).
Proof.
  intros Hv Hc. cbn [usable]. rewrite vlen_scale, (unit_len _ Hv), Rabs_right by lra.
  destruct (Rlt_dec _ _); [reflexivity|lra].
Qed.
Lemma present_scale (c : R) v : vdot v v = 1 -> / 1000000 < c -> present (Some (vscale c v)) = Some (vscale c v).
Proof.
  intros Hv Hc. cbn [present]. rewrite vlen_scale, (unit_len _ Hv), Rabs_right by lra.
  destruct (Rlt_dec _ _); [lra|reflexivity].
Qed.
Lemma clamp_id lim x : Rabs x <= lim -> clamp lim x = x.
Proof.
  intros H. apply Rabs_le_between in H. unfold clamp.
  destruct (Rlt_dec lim x); [lra|]. destruct (Rlt_dec x (- lim)); lra.
Qed.
Lemma next_fb_rest lim t fb : within lim fb -> next_fb lim t fb (0, 0, 0) = fb.
Proof.
  intros (X & Y & Z). destruct fb as [[x y] z]. unfold next_fb, vmap, vadd, vscale. cbn in X, Y, Z.
  rewrite !Rmult_0_r, !Rplus_0_r, !clamp_id by assumption. reflexivity.
Qed.

(** With a known inclination and readings, of any length, that point where the
    orientation says they should, the feed leaves the integral feedback alone
    and integrates the angular velocity plus that feedback. *)
Theorem C99_equilibrium bc freq (i : R) kp_ ki_ lim fb ti c c' w q ta tm tg :
  (0 < freq)%Z -> unit_quat q -> 0 <= kp_ -> 0 <= ki_ -> within lim fb ->
  / 1000000 < c -> / 1000000 < c' ->
  let dip := i * (314159265359 / 100000000000) / 180 in
  let a := rotate q (0, 0, 1) in
  let m := rotate q (cos dip, 0, sin dip) in
  let w' := vadd w (vscale ki_ fb) in
  mahn_feed bc freq (Some i) (Mahn kp_ ki_ lim (hold fb ti))
    (Sens (Some (hold (vscale c a) ta)) (Some (hold (vscale c' m) tm)) (Some (hold w tg)) q)
  = Ok (0%Z, Sens (Some (hold a ta)) (Some (hold m tm)) (Some (hold w' tg)) (spin (/ IZR freq) w' q),
        Mahn kp_ ki_ lim (hold fb ti)).
Proof.
  intros Hf U Hp Hi Hw Hc Hd dip a m w'.
  assert (Ua : vdot a a = 1) by (unfold a; rewrite rotate_len by exact U; cbn; ring).
  assert (Um : vdot m m = 1).
  { unfold m. rewrite rotate_len by exact U. unfold vdot. pose proof (sin2_cos2 dip) as S. unfold Rsqr in S. lra. }
  unfold mahn_feed. cbn [kp ki]. rops. rewrite !Rltb_false by lra. cbn [orb].
  pose proof (mahony_ok bc freq (Some i) kp_ ki_ lim fb ti (Some (vscale c a)) (Some (vscale c' m)) w q ta tm tg
    Hf (unit_norm _ U)) as E. cbn [hold_opt] in E. rewrite E.
  rewrite usable_scale by auto. rewrite present_scale by auto. cbv zeta.
  assert (E0 : mahn_error (qnormalise q) (Some i) (vscale c a) (Some (vscale c' m)) = (0, 0, 0)).
  { unfold mahn_error. rewrite present_scale by auto. rewrite qnormalise_of_unit by exact U.
    rewrite !vnormalise_scale by (auto; lra). cbn [field]. fold dip. fold m. fold a.
    rewrite <- (vnormalise_scale 1 a) at 1 by (auto; lra).
    replace (vcross (vnormalise (vscale 1 a)) a) with (0, 0, 0).
    2: { rewrite vnormalise_scale by (auto; lra). rewrite <- (vcross_scale_self 1 a). f_equal.
         destruct a as [[? ?] ?]. unfold vscale. f_equal; [f_equal|]; ring. }
    replace (vcross m m) with (0, 0, 0).
    2: { rewrite <- (vcross_scale_self 1 m). f_equal. destruct m as [[? ?] ?]. unfold vscale. f_equal; [f_equal|]; ring. }
    unfold vadd. f_equal; [f_equal|]; ring. }
  rewrite E0, next_fb_rest by exact Hw.
  assert (W : next_rate kp_ ki_ w fb (0, 0, 0) = w').
  { unfold next_rate, w'. destruct w as [[? ?] ?], fb as [[? ?] ?]. unfold vadd, vscale. f_equal; [f_equal|]; ring. }
  rewrite W, !vnormalise_scale by (auto; lra). reflexivity.
Qed.
Print Assumptions C99_equilibrium.

(** The same without a magnetometer. *)
Theorem C99_equilibrium_imu bc freq incl kp_ ki_ lim fb ti c w q ta tg :
  (0 < freq)%Z -> unit_quat q -> 0 <= kp_ -> 0 <= ki_ -> within lim fb -> / 1000000 < c ->
  let a := rotate q (0, 0, 1) in
  let w' := vadd w (vscale ki_ fb) in
  mahn_feed bc freq incl (Mahn kp_ ki_ lim (hold fb ti))
    (Sens (Some (hold (vscale c a) ta)) None (Some (hold w tg)) q)
  = Ok (0%Z, Sens (Some (hold a ta)) None (Some (hold w' tg)) (spin (/ IZR freq) w' q),
        Mahn kp_ ki_ lim (hold fb ti)).
Proof.
  intros Hf U Hp Hi Hw Hc a w'.
  assert (Ua : vdot a a = 1) by (unfold a; rewrite rotate_len by exact U; cbn; ring).
  unfold mahn_feed. cbn [kp ki]. rops. rewrite !Rltb_false by lra. cbn [orb].
  pose proof (mahony_ok bc freq incl kp_ ki_ lim fb ti (Some (vscale c a)) None w q ta [] tg
    Hf (unit_norm _ U)) as E. cbn [hold_opt] in E. rewrite E.
  rewrite usable_scale by auto. cbv zeta.
  assert (E0 : mahn_error (qnormalise q) incl (vscale c a) None = (0, 0, 0)).
  { unfold mahn_error. cbn [present]. rewrite qnormalise_of_unit by exact U.
    rewrite !vnormalise_scale by (auto; lra). fold a.
    rewrite <- (vcross_scale_self 1 a). f_equal. destruct a as [[? ?] ?]. unfold vscale. f_equal; [f_equal|]; ring. }
  rewrite E0, next_fb_rest by exact Hw.
  assert (W : next_rate kp_ ki_ w fb (0, 0, 0) = w').
  { unfold next_rate, w'. destruct w as [[? ?] ?], fb as [[? ?] ?]. unfold vadd, vscale. f_equal; [f_equal|]; ring. }
  rewrite W, !vnormalise_scale by (auto; lra). reflexivity.
Qed.
Print Assumptions C99_equilibrium_imu.
Example C99_equilibrium_case : unit_quat (Quat (3 / 5) (4 / 5) 0 0) /\ within 1 (1 / 2, -1, 0).
Proof. split; [unfold unit_quat, qdot, re, im, vdot; cbn [qr qi qj qk]; lra|]. unfold within. cbn [coord]. rewrite Rabs_R0. repeat split; try apply Rabs_le; lra. Qed.

(** Without an inclination the field is estimated with the wrong rotation:
    readings that agree exactly with a field pointing north and down produce an
    error, so the feed changes the integral feedback. *)
Theorem C99_no_inclination_refuted bc :
  let q := Quat (3 / 5) (4 / 5) 0 0 in
  let a := rotate q (0, 0, 1) in
  let m := rotate q (3 / 5, 0, 4 / 5) in
  exists s fb, mahn_feed bc 1 None (Mahn 0 0 1 (hold (0, 0, 0) []))
    (Sens (Some (hold a [])) (Some (hold m [])) (Some (hold (0, 0, 0) [])) q)
  = Ok (0%Z, s, Mahn 0 0 1 (hold fb [])) /\ fb <> (0, 0, 0).
Proof.
  intros q a m.
  assert (U : unit_quat q) by (unfold unit_quat, q, qdot, re, im, vdot; cbn [qr qi qj qk]; lra).
  assert (Ua : vdot a a = 1) by (unfold a; rewrite rotate_len by exact U; cbn; ring).
  assert (Um : vdot m m = 1) by (unfold m; rewrite rotate_len by exact U; unfold vdot; lra).
  assert (Pa : usable (Some a) = Some a).
  { cbn [usable]. rewrite (unit_len _ Ua). destruct (Rlt_dec _ _); [reflexivity|lra]. }
  assert (Pm : present (Some m) = Some m).
  { cbn [present]. rewrite (unit_len _ Um). destruct (Rlt_dec _ _); [lra|reflexivity]. }
  destruct (C79_integral_step bc 1 None 0 0 1 (0, 0, 0) [] (Some a) (Some m) a (0, 0, 0) q [] [] []
    ltac:(lia) (unit_norm _ U) ltac:(lra) ltac:(lra) Pa) as (s & E). cbn [hold_opt] in E.
  exists s. eexists. split; [exact E|].
  assert (Er : mahn_error (qnormalise q) None a (Some m)
               = vcross m (rotate q (fst (field q None m), 0, snd (field q None m)))).
  { unfold mahn_error. rewrite Pm, qnormalise_of_unit by exact U.
    rewrite (normalise_unit_id _ Ua), (normalise_unit_id _ Um). destruct (field q None m) as [bx bz].
    cbn [fst snd]. fold a. destruct a as [[? ?] ?], (rotate q (bx, 0, bz)) as [[? ?] ?], m as [[? ?] ?].
    unfold vcross, vadd. f_equal; [f_equal|]; ring. }
  rewrite Er. set (bx := fst (field q None m)). set (bz := snd (field q None m)).
  assert (Bx : 0 <= bx) by (unfold bx, field; apply sqrt_pos).
  assert (Bz : bz = - (2108 / 3125)).
  { unfold bz, field, m, q, rotate, coord, re, im, vadd, vscale, vcross. cbn. field. }
  intros H. apply (f_equal (coord 2)) in H.
  assert (Z : coord 2 (vcross m (rotate q (bx, 0, bz))) = 96 / 125 * bx - 72 / 125 * bz).
  { unfold m, q, rotate, re, im, vadd, vscale, vcross. cbn. field. }
  destruct (vcross m (rotate q (bx, 0, bz))) as [[x y] z]. cbn [coord] in Z. cbn in H. unfold clamp in H.
  replace (0 + / 1 * z) with z in H by field.
  clearbody bx bz. repeat destruct (Rlt_dec _ _); lra.
Qed.
Print Assumptions C99_no_inclination_refuted.

(** ** C100: the gradient step of the Madgwick filter *)
(** The correction for a gravity residual f is the gradient, with respect to
    the four components of the orientation, of f . (gravity seen from the
    body), i.e. the transposed Jacobian of that function applied to f. *)
Theorem C100_gravity_jacobian bc u x y z :
  exists g, gradient bc (jt_g u) (col3 x y z) = Ok (mat_of 4 1 (fun i _ => qcomp i g) []) /\
  forall p, is_derive (fun s => vdot (x, y, z) (rotate (qconj (qplus u (qscale s p))) (0, 0, 1))) 0 (qdot g p).
Proof.
  exists (gravity_grad u (x, y, z)). split.
  - rewrite gradient_g. apply (f_equal Ok), mat_ext. intros i j Hi _.
    do 4 (destruct i as [|i]; [reflexivity|]). lia.
  - intros p. destruct u as [a b c e], p as [a' b' c' e'].
    unfold rotate, qconj, qplus, qscale, mkq, re, im, vdot, vadd, vscale, vcross. cbn [qr qi qj qk].
    auto_derive; [exact I|].
    unfold gravity_grad, dot_rows, qdot, qplus, qscale, mkq, re, im, vdot, vadd, vscale. cbn. ring.
Qed.
Print Assumptions C100_gravity_jacobian.
Example C100_gravity_jacobian_case :
  exists g, gradient true (jt_g (Quat 1 2 3 4)) (col3 1 0 0) = Ok (mat_of 4 1 (fun i _ => qcomp i g) []) /\
            g = Quat (-6) 8 (-2) 4.
Proof.
  exists (gravity_grad (Quat 1 2 3 4) (1, 0, 0)). split.
  - rewrite gradient_g. apply (f_equal Ok), mat_ext. intros i j Hi _.
    do 4 (destruct i as [|i]; [reflexivity|]). lia.
  - unfold gravity_grad, dot_rows, qplus, qscale, mkq, re, im, vadd, vscale. cbn. f_equal; ring.
Qed.

(** For the magnetic field three entries of the Jacobian are wrong; this is the
    exact difference between the correction and the gradient. *)
Theorem C100_field_jacobian_partial bc u bx bz x y z :
  exists g, gradient bc (jt_b u bx bz) (col3 x y z) = Ok (mat_of 4 1 (fun i _ => qcomp i g) []) /\
  forall p, is_derive (fun s => vdot (x, y, z) (rotate (qconj (qplus u (qscale s p))) (bx, 0, bz))) 0
                      (qdot g p + 2 * (bx - bz) * qj u * y * qi p
                       + (4 * bz * qk u * y - 2 * bz * qj u * z) * qj p).
Proof.
  exists (field_grad u bx bz (x, y, z)). split.
  - rewrite gradient_b. apply (f_equal Ok), mat_ext. intros i j Hi _.
    do 4 (destruct i as [|i]; [reflexivity|]). lia.
  - intros p. destruct u as [a b c e], p as [a' b' c' e'].
    unfold rotate, qconj, qplus, qscale, mkq, re, im, vdot, vadd, vscale, vcross. cbn [qr qi qj qk].
    auto_derive; [exact I|].
    unfold field_grad, dot_rows, qdot, qplus, qscale, mkq, re, im, vdot, vadd, vscale. cbn. ring.
Qed.
Print Assumptions C100_field_jacobian_partial.

Theorem C100_field_jacobian_refuted :
  exists u p g, unit_quat u /\
    gradient true (jt_b u 1 0) (col3 0 1 0) = Ok (mat_of 4 1 (fun i _ => qcomp i g) []) /\
    ~ is_derive (fun s => vdot (0, 1, 0) (rotate (qconj (qplus u (qscale s p))) (1, 0, 0))) 0 (qdot g p).
Proof.
  destruct (C100_field_jacobian_partial true (Quat 0 0 1 0) 1 0 0 1 0) as (g & E & D).
  exists (Quat 0 0 1 0), (Quat 0 1 0 0), g. split; [unfold unit_quat, qdot, re, im, vdot; cbn [qr qi qj qk]; lra|]. split; [exact E|].
  intros D'. specialize (D (Quat 0 1 0 0)). apply is_derive_unique in D. apply is_derive_unique in D'.
  rewrite D in D'. cbn [qj qi] in D'. lra.
Qed.
Print Assumptions C100_field_jacobian_refuted.

(** The residual is formed with the rotation opposite to the one that was
    differentiated.  At a tilt of about 45 degrees a steady level reading then
    turns the orientation further away from level, for every gain and every
    frequency. *)
Theorem C100_level_reading_refuted bc freq beta incl :
  (0 < freq)%Z -> 0 < beta ->
  let q := Quat (12 / 13) (5 / 13) 0 0 in
  let level v := coord 2 v in
  exists s, madg_feed bc freq beta incl
    (Sens (Some (hold (0, 0, 1) [])) None (Some (hold (0, 0, 0) [])) q) = Ok (0%Z, s) /\
  unit_quat q /\ unit_quat (sq s) /\
  level (rotate (sq s) (0, 0, 1)) < level (rotate q (0, 0, 1)) /\
  level (rotate (qconj (sq s)) (0, 0, 1)) < level (rotate (qconj q) (0, 0, 1)).
Proof.
  intros Hf Hb q level.
  assert (U : unit_quat q) by (unfold unit_quat, q, qdot, re, im, vdot; cbn [qr qi qj qk]; lra).
  assert (Uz : vdot (0, 0, 1) (0, 0, 1) = 1) by (cbn; ring).
  assert (Pa : usable (Some (0, 0, 1)) = Some (0, 0, 1)).
  { cbn [usable]. rewrite (unit_len _ Uz). destruct (Rlt_dec _ _); [reflexivity|lra]. }
  unfold madg_feed. rops. rewrite Rltb_false by lra.
  pose proof (madgwick_ok bc freq beta incl (Some (0, 0, 1)) None (0, 0, 0) q [] [] [] Hf (unit_norm _ U)) as E.
  cbn [hold_opt] in E. rewrite E. eexists. split; [reflexivity|]. cbn [sq].
  set (t := beta / IZR freq).
  assert (Ht : 0 < t) by (apply Rdiv_lt_0_compat; [exact Hb|now apply IZR_lt]).
  set (n := sqrt (60 * 60 + 94 * 94)).
  assert (Hn : 0 < n) by (apply sqrt_lt_R0; lra).
  assert (Hn2 : n * n = 60 * 60 + 94 * 94) by (apply sqrt_sqrt; lra).
  assert (G : gravity_grad q (vsub (rotate q (0, 0, 1)) (0, 0, 1)) = qscale (20 / 2197) (Quat (-60) (-94) 0 0)).
  { unfold gravity_grad, dot_rows, q, vsub, rotate, qplus, qscale, mkq, re, im, vadd, vscale, vcross. cbn.
    f_equal; field. }
  assert (N : qnorm (qscale (20 / 2197) (Quat (-60) (-94) 0 0)) = 20 / 2197 * n).
  { unfold qnorm. replace (qdot _ _) with ((20 / 2197 * n) * (20 / 2197 * n)).
    - apply sqrt_square. nra.
    - unfold qdot, qscale, mkq, re, im, vscale, vdot. cbn [qr qi qj qk].
      replace (20 / 2197 * n * (20 / 2197 * n)) with (20 / 2197 * (20 / 2197) * (n * n)) by ring.
      rewrite Hn2. field. }
  assert (D : madg_dir (qnormalise q) incl (Some (0, 0, 1)) None = Quat (- 60 / n) (- 94 / n) 0 0).
  { unfold madg_dir. rewrite Pa. cbn [present]. rewrite qnormalise_of_unit by exact U.
    rewrite (normalise_unit_id _ Uz), G. unfold qdir. rewrite N.
    destruct (Req_EM_T _ _) as [Z|_]; [nra|]. unfold qnormalise. rewrite N.
    unfold qscale, mkq, re, im, vscale. cbn. f_equal; field; lra. }
  rewrite D. replace (spin (/ IZR freq) (0, 0, 0) q) with q.
  2: { pose proof (spin_rest (/ IZR freq) q U) as S. replace (vscale (-1) (0, 0, 0)) with ((0, 0, 0) : v3) in S; [auto|].
       unfold vscale. f_equal; [f_equal|]; ring. }
  set (l := t / n). assert (Hl : 0 < l) by (apply Rdiv_lt_0_compat; lra).
  assert (Q : qplus q (qscale (- t) (Quat (- 60 / n) (- 94 / n) 0 0)) = Quat (12 / 13 + 60 * l) (5 / 13 + 94 * l) 0 0).
  { unfold qplus, qscale, q, mkq, re, im, vadd, vscale, l. cbn. f_equal; field; lra. }
  rewrite Q. clear Q D G N E. set (Q := Quat _ _ 0 0).
  assert (NQ : 1 <= qdot Q Q).
  { unfold Q, qdot, re, im, vdot. cbn [qr qi qj qk]. nra. }
  assert (NQ' : / 1000000 <= qnorm Q).
  { unfold qnorm. rewrite <- sqrt_1 in NQ at 1. apply Rle_trans with 1; [lra|].
    rewrite <- sqrt_1. apply sqrt_le_1_alt. rewrite sqrt_1 in NQ. exact NQ. }
  rewrite unitised_normalise by exact NQ'.
  assert (Z : qnorm Q <> 0) by lra.
  split; [exact U|]. split; [now apply qnormalise_unit|].
  pose proof (qnormalise_unit Q Z) as UQ.
  assert (Lv : forall p, unit_quat p -> qj p = 0 -> qk p = 0 ->
    coord 2 (rotate p (0, 0, 1)) = 1 - 2 * (qi p * qi p) /\
    coord 2 (rotate (qconj p) (0, 0, 1)) = 1 - 2 * (qi p * qi p)).
  { intros [a b c e] _ J K. cbn in J, K. subst c e.
    unfold rotate, qconj, mkq, re, im, vadd, vscale, vcross. cbn. split; ring. }
  destruct (Lv q U eq_refl eq_refl) as [L1 L2].
  destruct (Lv (qnormalise Q) UQ) as [L3 L4].
  { unfold qnormalise, qscale, Q, mkq, re, im, vscale. cbn. ring. }
  { unfold qnormalise, qscale, Q, mkq, re, im, vscale. cbn. ring. }
  unfold level. rewrite L1, L2, L3, L4.
  assert (K : qi q * qi q < qi (qnormalise Q) * qi (qnormalise Q)).
  { set (r := / qnorm Q). assert (R2 : r * r * qdot Q Q = 1).
    { unfold r. rewrite <- (sqrt_sqrt (qdot Q Q)) by lra. fold (qnorm Q). field. exact Z. }
    assert (Ei : qi (qnormalise Q) = r * (5 / 13 + 94 * l)).
    { unfold qnormalise, qscale, Q, mkq, re, im, vscale. cbn. reflexivity. }
    rewrite Ei. cbn [qi q].
    assert (Rp : 0 < r * r) by (assert (0 < r) by (apply Rinv_0_lt_compat; lra); nra).
    assert (Dq : qdot Q Q = (12 / 13 + 60 * l) * (12 / 13 + 60 * l) + (5 / 13 + 94 * l) * (5 / 13 + 94 * l)).
    { unfold Q, qdot, re, im, vdot. cbn [qr qi qj qk]. ring. }
    assert (Hd : 0 < (5 / 13 + 94 * l) * (5 / 13 + 94 * l) - 25 / 169 * qdot Q Q).
    { rewrite Dq. nra. }
    assert (0 < r * r * ((5 / 13 + 94 * l) * (5 / 13 + 94 * l) - 25 / 169 * qdot Q Q)) by (now apply Rmult_lt_0_compat).
    nra. }
  split; lra.
Qed.
Print Assumptions C100_level_reading_refuted.

(** With readings that agree exactly with the orientation the gradient is zero,
    but its direction comes out as (1, 0, 0, 0): the orientation of a level
    sensor at rest turns. *)
Theorem C100_equilibrium_refuted bc incl :
  let q := Quat (3 / 5) 0 0 (4 / 5) in
  rotate q (0, 0, 1) = (0, 0, 1) /\
  madg_feed bc 10 6 incl (Sens (Some (hold (0, 0, 1) [])) None (Some (hold (0, 0, 0) [])) q)
  = Ok (0%Z, Sens (Some (hold (0, 0, 1) [])) None (Some (hold (0, 0, 0) [])) (Quat 0 0 0 1)).
Proof.
  intros q.
  assert (U : unit_quat q) by (unfold unit_quat, q, qdot, re, im, vdot; cbn [qr qi qj qk]; lra).
  assert (Uz : vdot (0, 0, 1) (0, 0, 1) = 1) by (cbn; ring).
  assert (Rz : rotate q (0, 0, 1) = (0, 0, 1)).
  { unfold q, rotate, re, im, vadd, vscale, vcross. cbn. f_equal; [f_equal|]; field. }
  split; [exact Rz|].
  assert (Pa : usable (Some (0, 0, 1)) = Some (0, 0, 1)).
  { cbn [usable]. rewrite (unit_len _ Uz). destruct (Rlt_dec _ _); [reflexivity|lra]. }
  unfold madg_feed. rops. rewrite Rltb_false by lra.
  pose proof (madgwick_ok bc 10 6 incl (Some (0, 0, 1)) None (0, 0, 0) q [] [] [] ltac:(lia) (unit_norm _ U)) as E.
  cbn [hold_opt] in E. rewrite E, Pa. cbn [present]. rewrite (normalise_unit_id _ Uz). do 3 f_equal.
  assert (D : madg_dir (qnormalise q) incl (Some (0, 0, 1)) None = qone).
  { unfold madg_dir. rewrite Pa. cbn [present]. rewrite qnormalise_of_unit by exact U.
    rewrite (normalise_unit_id _ Uz), Rz.
    replace (gravity_grad q (vsub (0, 0, 1) (0, 0, 1))) with qzero.
    - unfold qdir. rewrite qnorm_zero. destruct (Req_EM_T 0 0); [reflexivity|lra].
    - unfold gravity_grad, dot_rows, q, vsub, qzero, qplus, qscale, mkq, re, im, vadd, vscale. cbn. f_equal; ring. }
  rewrite D. replace (spin (/ 10) (0, 0, 0) q) with q.
  2: { pose proof (spin_rest (/ 10) q U) as S. replace (vscale (-1) (0, 0, 0)) with ((0, 0, 0) : v3) in S; [auto|].
       unfold vscale. f_equal; [f_equal|]; ring. }
  set (Q := qplus _ _). assert (EQ : Q = Quat 0 0 0 (4 / 5)).
  { unfold Q, q, qone, qplus, qscale, mkq, re, im, vadd, vscale. cbn. f_equal; field. }
  assert (NQ : qnorm Q = 4 / 5).
  { rewrite EQ. unfold qnorm. replace (qdot _ _) with (4 / 5 * (4 / 5)).
    - apply sqrt_square. lra.
    - unfold qdot, re, im, vdot. cbn [qr qi qj qk]. ring. }
  rewrite unitised_normalise by lra. unfold qnormalise. rewrite NQ, EQ.
  unfold qscale, mkq, re, im, vscale. cbn. f_equal; field.
Qed.
Print Assumptions C100_equilibrium_refuted.

(** ** C104: the filters agree when there is only a gyroscope *)
Theorem C104_gyro_only bc freq beta incl kp_ ki_ lim fb ti al w q tg :
  (0 < freq)%Z -> / 1000000 <= qnorm q -> 0 <= beta -> 0 <= kp_ -> 0 <= ki_ -> 0 <= al <= 1 ->
  let s := Sens None None (Some (hold w tg)) q in
  let s' := Sens None None (Some (hold w tg)) (spin (/ IZR freq) w q) in
  madg_feed bc freq beta incl s = Ok (0%Z, s') /\
  mahn_feed bc freq incl (Mahn kp_ ki_ lim (hold fb ti)) s = Ok (0%Z, s', Mahn kp_ ki_ lim (hold fb ti)) /\
  comp_feed bc freq al s = Ok (0%Z, s').
Proof.
  intros Hf Hq Hb Hp Hi Ha s s'. unfold s, s'. clear s s'.
  assert (N : qnorm q <> 0) by lra.
  pose proof (spin_unit (/ IZR freq) w q N) as U.
  split; [|split].
  - unfold madg_feed. rops. rewrite Rltb_false by lra.
    pose proof (madgwick_ok bc freq beta incl None None w q [] [] tg Hf Hq) as E. cbn [hold_opt usable present] in E.
    rewrite E. do 3 f_equal. unfold madg_dir. cbn [usable].
    replace (qplus _ _) with (spin (/ IZR freq) w q).
    + now apply unitised_of_unit.
    + destruct (spin (/ IZR freq) w q). unfold qplus, qscale, qzero, mkq, re, im, vadd, vscale. cbn. f_equal; ring.
  - unfold mahn_feed. cbn [kp ki]. rops. rewrite !Rltb_false by lra. cbn [orb].
    pose proof (mahony_ok bc freq incl kp_ ki_ lim fb ti None None w q [] [] tg Hf Hq) as E.
    cbn [hold_opt usable] in E. exact E.
  - unfold comp_feed. rops. replace (10 / 10) with 1 by field. rewrite !Rltb_false by lra. cbn [orb].
    destruct (fus_comp_ok bc freq al None None w q [] [] tg Hf Hq Ha) as (q' & E & H).
    cbn [hold_opt usable] in E, H. subst q'. exact E.
Qed.
Print Assumptions C104_gyro_only.
Example C104_gyro_only_case : / 1000000 <= qnorm (Quat 1 1 1 1).
Proof.
  unfold qnorm, qdot, re, im, vdot. cbn [qr qi qj qk].
  replace (1 * 1 + (1 * 1 + 1 * 1 + 1 * 1)) with (2 * 2) by ring. rewrite sqrt_square; lra.
Qed.

(** AQUA turns the other way. *)
Theorem C104_aqua_opposite bc freq ini c w q tg :
  (0 < freq)%Z -> (0 < ini)%Z -> / 1000000 <= qnorm q -> 0 <= alpha c <= 1 -> 0 <= MFusion.beta c <= 1 ->
  aqua_feed bc freq ini c (Sens None None (Some (hold w tg)) q)
  = Ok (0%Z, Sens None None (Some (hold (vscale (-1) w) tg)) (spin (/ IZR freq) (vscale (-1) w) q), c, ini).
Proof.
  intros Hf Hini Hq Ha Hb. unfold aqua_feed. rops. replace (10 / 10) with 1 by field.
  rewrite !Rltb_false by lra. cbn [orb].
  replace (ini =? 0)%Z with false by (symmetry; apply Z.eqb_neq; lia). cbn [bind].
  pose proof (fus_aqua_ok bc freq c None None w q [] [] tg Hf Hq Ha Hb) as F. cbv zeta in F.
  cbn [usable hold_opt] in F. rewrite F. reflexivity.
Qed.
Print Assumptions C104_aqua_opposite.

Theorem C104_aqua_refuted bc :
  exists s s', comp_feed bc 1 1 (Sens None None (Some (hold (2, 0, 0) [])) qone) = Ok (0%Z, s) /\
    aqua_feed bc 1 1 (Aqua 1 1 1 1) (Sens None None (Some (hold (2, 0, 0) [])) qone)
    = Ok (0%Z, s', Aqua 1 1 1 1, 1%Z) /\
    0 < qi (sq s) /\ qi (sq s') < 0.
Proof.
  destruct (C104_gyro_only bc 1 0 None 0 0 0 (0, 0, 0) [] 1 (2, 0, 0) qone []) as (_ & _ & E);
    try lia; try lra; [apply unit_norm, qone_unit|].
  pose proof (C104_aqua_opposite bc 1 1 (Aqua 1 1 1 1) (2, 0, 0) qone [] ltac:(lia) ltac:(lia)
    (unit_norm _ qone_unit) ltac:(cbn; lra) ltac:(cbn; lra)) as F.
  cbv zeta in E. eexists. eexists. split; [exact E|]. split; [exact F|]. cbn [sq].
  unfold spin. rewrite !(qnormalise_of_unit _ qone_unit).
  assert (P : forall x, 1 <= qnorm (qplus qone (qscale (/ 1 / 2) (hprod (pure (x, 0, 0)) qone)))).
  { intros x. rewrite <- (qnormalise_of_unit _ qone_unit). apply spin_inner.
    pose proof (unit_norm _ qone_unit). lra. }
  split.
  - specialize (P 2). set (Q := qplus _ _) in *. assert (qi Q = 1).
    { unfold Q, qplus, qscale, hprod, pure, qone, mkq, re, im, vdot, vadd, vscale, vcross. cbn. field. }
    clearbody Q. unfold qnormalise, qscale, mkq, re, im, vscale. cbn. rewrite H, Rmult_1_r. apply Rinv_0_lt_compat. lra.
  - replace (vscale (-1) (2, 0, 0)) with (-2, 0, 0) by (unfold vscale; f_equal; [f_equal|]; ring).
    specialize (P (-2)). set (Q := qplus _ _) in *. assert (qi Q = -1).
    { unfold Q, qplus, qscale, hprod, pure, qone, mkq, re, im, vdot, vadd, vscale, vcross. cbn. field. }
    clearbody Q. unfold qnormalise, qscale, mkq, re, im, vscale. cbn. rewrite H.
    assert (0 < / qnorm Q) by (apply Rinv_0_lt_compat; lra). lra.
Qed.
Print Assumptions C104_aqua_refuted.

(** ** C105: what a feed does to the caller's readings *)
(** what becomes of an accelerometer or magnetometer reading *)
Definition same_or_unit (o o' : option (vec R)) : Prop :=
  o' = o \/ exists v tl, o = Some (hold v tl) /\ / 1000000 <= vlen v /\ o' = Some (hold (vnormalise v) tl).

Lemma sou_opt (a : option v3) ta :
  same_or_unit (hold_opt a ta)
    (match usable a with Some v => Some (hold (vnormalise v) ta) | None => hold_opt a ta end).
Proof.
  destruct (usable a) as [v|] eqn:E; [|now left]. destruct (usable_len _ _ E) as [-> L].
  right. exists v, ta. cbn. repeat split; lra.
Qed.
Lemma sou_opt_p (m : option v3) tm :
  same_or_unit (hold_opt m tm)
    (match present m with Some v => Some (hold (vnormalise v) tm) | None => hold_opt m tm end).
Proof.
  destruct (present m) as [v|] eqn:E; [|now left]. destruct (present_len _ _ E) as [-> L].
  right. exists v, tm. cbn. repeat split; lra.
Qed.

(** The accelerometer and magnetometer vectors are at most normalised; Madgwick
    leaves the gyroscope alone and the complementary filter changes nothing. *)
Theorem C105_readings bc freq beta incl kp_ ki_ lim fb ti al (a m : option v3) w q ta tm tg :
  (0 < freq)%Z -> / 1000000 <= qnorm q -> 0 <= beta -> 0 <= kp_ -> 0 <= ki_ -> 0 <= al <= 1 ->
  let s := Sens (hold_opt a ta) (hold_opt m tm) (Some (hold w tg)) q in
  (exists s', madg_feed bc freq beta incl s = Ok (0%Z, s') /\
     same_or_unit (sa s) (sa s') /\ same_or_unit (sm s) (sm s') /\ sg s' = sg s) /\
  (exists s' c', mahn_feed bc freq incl (Mahn kp_ ki_ lim (hold fb ti)) s = Ok (0%Z, s', c') /\
     same_or_unit (sa s) (sa s') /\ same_or_unit (sm s) (sm s') /\
     kp c' = kp_ /\ ki c' = ki_ /\ ilim c' = lim) /\
  (exists s', comp_feed bc freq al s = Ok (0%Z, s') /\ sa s' = sa s /\ sm s' = sm s /\ sg s' = sg s).
Proof.
  intros Hf Hq Hb Hp Hi Ha s. unfold s. clear s. split; [|split].
  - unfold madg_feed. rops. rewrite Rltb_false by lra.
    rewrite madgwick_ok by assumption. eexists. split; [reflexivity|]. cbn [sa sm sg].
    split; [apply sou_opt|]. split; [|reflexivity].
    destruct (usable a); [apply sou_opt_p|now left].
  - unfold mahn_feed. cbn [kp ki]. rops. rewrite !Rltb_false by lra. cbn [orb].
    rewrite mahony_ok by assumption.
    pose proof (sou_opt a ta) as S. pose proof (sou_opt_p m tm) as S'.
    destruct (usable a) as [va|]; cbv zeta; eexists; eexists; (split; [reflexivity|]); cbn [sa sm sg kp ki ilim].
    + auto.
    + split; [now left|]. split; [now left|auto].
  - unfold comp_feed. rops. replace (10 / 10) with 1 by field. rewrite !Rltb_false by lra. cbn [orb].
    destruct (fus_comp_ok bc freq al a m w q ta tm tg Hf Hq Ha) as (q' & E & _).
    rewrite E. eexists. split; [reflexivity|auto].
Qed.
Print Assumptions C105_readings.

(** Mahony and AQUA write to the gyroscope reading: fed twice with the same
    vectors they see different angular velocities. *)
Theorem C105_gyroscope_refuted bc :
  (exists s c, mahn_feed bc 1 None (Mahn 0 1 1 (hold (1, 0, 0) []))
     (Sens (Some (hold (0, 0, 1) [])) None (Some (hold (0, 0, 0) [])) qone) = Ok (0%Z, s, c) /\
     sg s = Some (hold (1, 0, 0) [])) /\
  (exists s c ini, aqua_feed bc 1 1 (Aqua 1 1 1 1) (Sens None None (Some (hold (2, 0, 0) [])) qone)
     = Ok (0%Z, s, c, ini) /\ sg s = Some (hold (-2, 0, 0) [])).
Proof.
  split.
  - assert (Wi : within 1 (1, 0, 0)).
    { unfold within. cbn [coord]. rewrite Rabs_R0, Rabs_R1. lra. }
    pose proof (C99_equilibrium_imu bc 1 None 0 1 1 (1, 0, 0) [] 1 (0, 0, 0) qone [] [] ltac:(lia) qone_unit
      ltac:(lra) ltac:(lra) Wi ltac:(lra)) as E. cbv zeta in E.
    assert (Rz : rotate qone (0, 0, 1) = (0, 0, 1)).
    { unfold qone, rotate, mkq, re, im, vadd, vscale, vcross. cbn. f_equal; [f_equal|]; ring. }
    rewrite Rz in E. replace (vscale 1 (0, 0, 1)) with ((0, 0, 1) : v3) in E
      by (unfold vscale; f_equal; [f_equal|]; ring).
    eexists. eexists. split; [exact E|]. cbn [sg]. do 2 f_equal.
    unfold vadd, vscale. f_equal; [f_equal|]; ring.
  - eexists. eexists. eexists. split.
    + apply C104_aqua_opposite; try lia; cbn [alpha MFusion.beta]; try lra. apply unit_norm, qone_unit.
    + cbn [sg]. do 2 f_equal. unfold vscale. f_equal; [f_equal|]; ring.
Qed.
Print Assumptions C105_gyroscope_refuted.
