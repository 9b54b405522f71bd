(** C103: the Kalman filter (real arithmetic). *)
From Coquelicot Require Import Coquelicot.
From Coq Require Import List Arith ZArith Bool Reals Lra Lia.
From Verif Require Import Base BaseFacts NumR Libm LibmR RTac RAtan2 Out MVec SpecVec SpecReal PVec PVecR
  MMtx SpecMtx PMtx PMtxOps PMtxR SpecGauss MQuat SpecQuat PQuat PQuatRot PQuatTrig PQuatEul MAhrs MFusion SpecFusion
  PStatReg PFusion PFusion2 PFusion3 PKalman PropReg PropFusion.
Import ListNotations.
Local Open Scope R_scope.
Implicit Types (p q u : quat R) (v w : v3).

(** ** The predicted and corrected covariances *)
Lemma qform_ext n f g x : (forall i j, (i < n)%nat -> (j < n)%nat -> f i j = g i j) -> qform n f x = qform n g x.
Proof.
  intros H. unfold qform. apply bigsum_ext. intros i Hi. apply bigsum_ext. intros j Hj. now rewrite H.
Qed.
Lemma qform_add n f g x : qform n (fun i j => f i j + g i j) x = qform n f x + qform n g x.
Proof.
  unfold qform. rewrite <- bigsum_plus. apply bigsum_ext. intros i _. rewrite <- bigsum_plus.
  apply bigsum_ext. intros j _. ring.
Qed.
Lemma qform_scale n f k x : qform n (fun i j => f i j * k) x = k * qform n f x.
Proof.
  unfold qform. rewrite bigsum_mult_l. apply bigsum_ext. intros i _. rewrite bigsum_mult_l.
  apply bigsum_ext. intros j _. ring.
Qed.
Lemma qform_mid n x : 0 <= qform n mid x.
Proof.
  unfold qform. apply bigsum_nonneg. intros i Hi.
  rewrite (@bigsum_ext n _ (fun j => if (j =? i)%nat then x i * x i else 0)).
  - rewrite (bigsum_delta n (fun _ => x i * x i) i Hi). apply Rle_0_sqr.
  - intros j _. unfold mid. rewrite Nat.eqb_sym. destruct (Nat.eqb_spec j i) as [->|]; cbn; ring.
Qed.
Lemma mmul_mid n f i j : (j < n)%nat -> mmul n f mid i j = f i j.
Proof.
  intros Hj. unfold mmul. rewrite (@bigsum_ext n _ (fun k => if (k =? j)%nat then f i k else 0)).
  - now rewrite (bigsum_delta n (f i) j Hj).
  - intros k _. unfold mid. destruct (k =? j)%nat; cbn; ring.
Qed.
Lemma mmul_ext n f f' g g' i j : (forall k, (k < n)%nat -> f i k = f' i k) -> (forall k, (k < n)%nat -> g k j = g' k j) ->
  mmul n f g i j = mmul n f' g' i j.
Proof. intros H H'. unfold mmul. apply bigsum_ext. intros k Hk. now rewrite H, H'. Qed.

Lemma gram_psd n k A : psd n (mmul k A (mtr A)).
Proof.
  intros x. rewrite (@qform_ext n _ (mmul k (mmul k A mid) (mtr A))).
  - change (mtr A) with (fun i j => A j i). rewrite qform_congr. apply qform_mid.
  - intros i j _ _. apply mmul_ext; [|reflexivity]. intros l Hl. now rewrite mmul_mid.
Qed.
Lemma gram_sym n k A : sym n (mmul k A (mtr A)).
Proof. intros i j _ _. unfold mmul, mtr. apply bigsum_ext. intros. ring. Qed.

Lemma pred_psd t vg w q P : 0 <= vg -> psd 4 P -> psd 4 (kPred t vg w q P).
Proof.
  intros Hv H x. unfold kPred. rewrite qform_add, qform_scale. apply Rplus_le_le_0_compat.
  - change (mtr (kF t w)) with (fun i j => kF t w j i). rewrite qform_congr. apply H.
  - apply Rmult_le_pos; [|apply gram_psd]. rewrite Rmult_assoc. apply Rmult_le_pos; [exact Hv|apply Rle_0_sqr].
Qed.
Lemma pred_sym t vg w q P : sym 4 P -> sym 4 (kPred t vg w q P).
Proof.
  intros H i j Hi Hj. unfold kPred. f_equal; [now apply (@sym_congr 4 4 (kF t w) P)|]. f_equal. now apply (gram_sym 4 3 (kW q)).
Qed.

Lemma noise_form va vm y : qform 6 (kR va vm) y
  = va * (y 0%nat * y 0%nat + y 1%nat * y 1%nat + y 2%nat * y 2%nat)
    + vm * (y 3%nat * y 3%nat + y 4%nat * y 4%nat + y 5%nat * y 5%nat).
Proof. unfold qform, kR. cbn. ring. Qed.
Lemma noise_psd va vm : 0 <= va -> 0 <= vm -> psd 6 (kR va vm).
Proof.
  intros Ha Hm y. rewrite noise_form.
  apply Rplus_le_le_0_compat; apply Rmult_le_pos; auto;
    repeat apply Rplus_le_le_0_compat; apply Rle_0_sqr.
Qed.
Lemma noise_sym va vm : sym 6 (kR va vm).
Proof.
  intros i j _ _. unfold kR. rewrite Nat.eqb_sym. destruct (Nat.eqb_spec j i) as [->|]; reflexivity.
Qed.

(** With positive variances and a positive semi-definite covariance the matrix
    S that has to be inverted is invertible. *)
Lemma S_inverse va vm H P : 0 < va -> 0 < vm -> psd 4 P -> exists h, inverse_of 6 (kS H (kR va vm) P) h.
Proof.
  intros Ha Hm HP. apply pd_inverse. intros x (i & Hi & Hx). unfold kS. rewrite qform_add.
  change (mtr H) with (fun i j => H j i). rewrite qform_congr. apply Rplus_le_lt_0_compat; [apply HP|].
  rewrite noise_form.
  assert (N : forall k, 0 <= x k * x k) by (intros; apply Rle_0_sqr).
  assert (Q : 0 < x i * x i) by (apply Rsqr_pos_lt; exact Hx).
  pose proof (N 0%nat). pose proof (N 1%nat). pose proof (N 2%nat).
  pose proof (N 3%nat). pose proof (N 4%nat). pose proof (N 5%nat).
  set (A := x 0%nat * x 0%nat + _ + _). set (B := x 3%nat * x 3%nat + _ + _).
  assert (0 <= A) by (unfold A; lra). assert (0 <= B) by (unfold B; lra).
  assert (0 < A \/ 0 < B) as [K|K].
  { do 6 (destruct i as [|i]; [unfold A, B; lra|]). lia. }
  - apply Rplus_lt_le_0_compat; [now apply Rmult_lt_0_compat|apply Rmult_le_pos; lra].
  - apply Rplus_le_lt_0_compat; [apply Rmult_le_pos; lra|now apply Rmult_lt_0_compat].
Qed.

Lemma new_psd va vm H P Si : 0 <= va -> 0 <= vm -> psd 4 P -> inverse_of 6 (kS H (kR va vm) P) Si ->
  psd 4 (kPnew (kK H P Si) H P).
Proof.
  intros Ha Hm HP HS x. rewrite (@qform_ext 4 _ _ x (joseph HS)), qform_add.
  rewrite !qform_congr. apply Rplus_le_le_0_compat; [apply HP|now apply noise_psd].
Qed.
Lemma new_sym va vm H P Si : sym 4 P -> inverse_of 6 (kS H (kR va vm) P) Si ->
  sym 4 (kPnew (kK H P Si) H P).
Proof.
  intros HP HS i j Hi Hj. rewrite !(joseph HS) by assumption. cbv zeta. f_equal.
  - now apply (@sym_congr 4 4).
  - apply (@sym_congr 4 6); auto. apply noise_sym.
Qed.

(** the reference field is a unit vector, so it is used as it is *)
Lemma field_unit u incl m : unit_quat u -> vdot m m = 1 ->
  let (bx, bz) := field u incl m in bx * bx + bz * bz = 1.
Proof.
  intros U M. unfold field. destruct incl as [i|].
  - cbv zeta. match goal with |- context [cos ?d] => pose proof (sin2_cos2 d) as S end. unfold Rsqr in S. lra.
  - cbv zeta. pose proof (rotate_len u m U) as N. rewrite M in N.
    destruct (rotate u m) as [[x y] z]. cbn [coord vdot] in *.
    rewrite sqrt_sqrt; [lra|]. apply Rplus_le_le_0_compat; apply Rle_0_sqr.
Qed.
Lemma kfield_eq u incl m : unit_quat u -> vdot m m = 1 ->
  kfield u incl m = pure (fst (field u incl m), 0, snd (field u incl m)).
Proof.
  intros U M. unfold kfield. pose proof (field_unit u incl m U M) as N.
  destruct (field u incl m) as [bx bz]. cbn [fst snd]. apply unitised_of_unit.
  unfold unit_quat, pure, mkq, qdot, re, im, vdot. cbn [qr qi qj qk]. lra.
Qed.

(** ** One feed
    For readings a, m, w of the three sensors and an initialised filter with
    positive accelerometer and magnetometer variances, whose covariance P is
    positive semi-definite: one feed is exactly the update of the extended
    Kalman filter, and leaves a covariance that is again positive
    semi-definite, and symmetric if P was.  The hypothesis [gj_clear] excludes
    the matrices S on which the library's inversion meets a number smaller
    than 1e-6 but not zero (see C34). *)
Theorem C103_update bc freq ini incl vg va vm P tp a m w q ta tm tg :
  (0 < freq)%Z -> ini <> 0%Z -> / 1000000 <= qnorm q -> vlen a <> 0 -> vlen m <> 0 ->
  0 <= vg -> 0 < va -> 0 < vm -> psd 4 P ->
  let t := / IZR freq in
  let qp := spin t w q in
  let f := field qp incl (vnormalise m) in
  let b := pure (fst f, 0, snd f) in
  let Pm := kPred t vg w q P in
  let H := kH qp b in
  let S := kS H (kR va vm) Pm in
  gj_clear 6 S ->
  exists Si, inverse_of 6 S Si /\
  let K := kK H Pm Si in
  let q' := kq qp K (kz (vnormalise a) (vnormalise m)) (kh qp b) in
  kalm_feed bc freq ini incl (Kalm vg va vm (mat_of 4 4 P tp))
    (Sens (Some (hold a ta)) (Some (hold m tm)) (Some (hold w tg)) q)
  = Ok (0%Z, Sens (Some (hold (vnormalise a) ta)) (Some (hold (vnormalise m) tm)) (Some (hold w tg))
               (if Rlt_dec (qnorm q') (/ 1000000) then qzero else qnormalise q'),
        Kalm vg va vm (mat_of 4 4 (kPnew K H Pm) tp), ini) /\
  psd 4 (kPnew K H Pm) /\ (sym 4 P -> sym 4 (kPnew K H Pm)).
Proof.
  intros Hf Hi Hq Ha Hm Hg Hva Hvm HP t qp f b Pm H S HC.
  assert (Pp : psd 4 Pm) by (now apply pred_psd).
  assert (U : unit_quat qp).
  { apply spin_unit. pose proof (Rinv_0_lt_compat 1000000 ltac:(lra)). lra. }
  assert (M1 : vdot (vnormalise m) (vnormalise m) = 1) by (now apply vnormalise_unit).
  assert (Eb : kfield qp incl (vnormalise m) = b) by (now apply kfield_eq).
  destruct (@inv_clear bc 6 S [] (mtx_def 6 6) ltac:(lia) ltac:(lia) (room_def 6 6)
             (S_inverse va vm H Pm Hva Hvm Pp) HC) as (Si & Ei & HI).
  exists Si. split; [exact HI|]. cbv zeta. split; [|split].
  - unfold kalm_feed. cbn [var_g var_a var_m kP]. rops. rewrite !Rltb_false by lra. cbn [orb].
    destruct (Z.eqb_spec ini 0) as [E|_]; [contradiction|]. cbn [bind].
    rewrite rest_def in Ei.
    pose proof (fus_kalman_ok bc freq incl vg va vm P tp a m w q ta tm tg Si Hf Hq Ha Hm) as E.
    cbv zeta in E. fold t in E. fold qp in E. rewrite Eb in E. specialize (E Ei). rewrite E. reflexivity.
  - apply new_psd with va vm; auto; lra.
  - intros HS. apply new_sym with va vm; auto. now apply pred_sym.
Qed.
Print Assumptions C103_update.

(** ** The matrices of the update *)
(** H is the derivative, with respect to the four components of the
    orientation, of the two earth vectors (gravity and field) seen from the
    body. *)
Theorem C103_H_jacobian q b i j :
  (i < 6)%nat -> (j < 4)%nat ->
  is_derive (fun s => coord (i mod 3) (rotate (qconj (qplus q (qscale s (qbasis j))))
                                              (if (i <? 3)%nat then (0, 0, -1) else im b))) 0 (kH q b i j).
Proof.
  intros Hi Hj. destruct q as [a c d e], b as [a' c' d' e'].
  do 6 (destruct i as [|i]; [do 4 (destruct j as [|j];
    [unfold kH, seen_d, rotate, qconj, qplus, qscale, qbasis, mkq, re, im, vadd, vscale, vcross;
     cbn [Nat.ltb Nat.leb Nat.modulo Nat.divmod snd Nat.sub qr qi qj qk coord];
     auto_derive; [exact I|ring]|]); lia|]). lia.
Qed.
Print Assumptions C103_H_jacobian.
Example C103_H_case : kH (Quat 1 0 0 0) (pure (1, 0, 0)) 0 2 = 2 /\ kH (Quat 1 0 0 0) (pure (1, 0, 0)) 4 3 = -2.
Proof.
  unfold kH, seen_d, pure, qbasis, mkq, re, im, vadd, vscale, vcross.
  cbn [Nat.ltb Nat.leb Nat.sub qr qi qj qk coord]. split; ring.
Qed.

(** It is not the derivative of the prediction h used for the innovation:
    h is twice the earth vectors turned the other way. *)
Theorem C103_h_jacobian_refuted :
  exists q b, unit_quat q /\ vdot (im b) (im b) = 1 /\
  ~ is_derive (fun s => kh (qplus q (qscale s (qbasis 2))) b 0 0) 0 (kH q b 0 2).
Proof.
  exists qone, (pure (1, 0, 0)). split; [apply qone_unit|]. split; [cbn; ring|].
  intros D. set (g := fun s => kh _ _ 0 0) in D.
  assert (D' : is_derive g 0 (-4)).
  { unfold g, kh, qone, pure, rotate, qplus, qscale, qbasis, mkq, re, im, vadd, vscale, vcross.
    cbn [Nat.ltb Nat.leb qr qi qj qk coord]. auto_derive; [exact I|ring]. }
  apply is_derive_unique in D. apply is_derive_unique in D'. rewrite D in D'.
  unfold kH, seen_d, qone, pure, qbasis, mkq, re, im, vadd, vscale, vcross in D'.
  cbn [Nat.ltb Nat.leb qr qi qj qk coord] in D'. lra.
Qed.
Print Assumptions C103_h_jacobian_refuted.

(** The innovation z - h is never zero, whatever the orientation and the unit
    readings: the predictions have length 2. *)
Theorem C103_innovation_refuted q b a m :
  unit_quat q -> vdot a a = 1 -> exists i, (i < 3)%nat /\ kz a m i 0 - kh q b i 0 <> 0.
Proof.
  intros U A. pose proof (rotate_len q (0, 0, -1) U) as L.
  destruct (rotate q (0, 0, -1)) as [[x y] z] eqn:E. destruct a as [[a0 a1] a2]. cbn [vdot] in *.
  destruct (Req_dec (a0 - 2 * x) 0) as [X|X]; [|exists 0%nat; split; [lia|]; unfold kz, kh; rewrite E; exact X].
  destruct (Req_dec (a1 - 2 * y) 0) as [Y|Y]; [|exists 1%nat; split; [lia|]; unfold kz, kh; rewrite E; exact Y].
  exists 2%nat. split; [lia|]. unfold kz, kh. rewrite E. cbn [Nat.ltb Nat.leb coord]. intros Z.
  assert (a0 = 2 * x) as -> by lra. assert (a1 = 2 * y) as -> by lra. assert (a2 = 2 * z) as -> by lra. lra.
Qed.
Print Assumptions C103_innovation_refuted.

(** F is not the derivative of the prediction of the orientation: the state is
    advanced by (1 + t/2 w) q, the covariance by q (1 + t/2 w). *)
Theorem C103_F_refuted t : t <> 0 ->
  exists w q, unit_quat q /\
    (exists i, (i < 4)%nat /\
       bigsum 4 (fun j => kF t w i j * qcomp j q)
       <> qcomp i (qplus q (qscale (t / 2) (hprod (pure w) q)))) /\
    spin t w q = qnormalise (qplus q (qscale (t / 2) (hprod (pure w) q))).
Proof.
  intros Ht. exists (1, 0, 0), (Quat 0 0 1 0).
  assert (U : unit_quat (Quat 0 0 1 0)) by (unfold unit_quat, qdot, re, im, vdot; cbn [qr qi qj qk]; lra).
  split; [exact U|]. split.
  - exists 3%nat. split; [lia|]. unfold kF, pure, hprod, qplus, qscale, qbasis, mkq, re, im, vdot, vadd, vscale, vcross.
    cbn [bigsum qcomp qr qi qj qk]. intros E. apply Ht. lra.
  - unfold spin. now rewrite (qnormalise_of_unit _ U).
Qed.
Print Assumptions C103_F_refuted.

(** ** The first feed *)
(** The covariance starts as the identity, for every 4 x 4 matrix given by the
    caller, and a matrix of another size is rejected. *)
Theorem C103_P_init bc ini (P : mtx R) :
  room 4 4 P -> kalm_P_init bc ini P = Ok (0%Z, mat_of 4 4 mid (rest P), 1%Z).
Proof.
  intros Hr. unfold kalm_P_init. rewrite (mtx_init_identity bc Hr). destruct Hr as (-> & -> & Hl).
  cbn [Nat.eqb negb orb]. now rewrite andb_false_r.
Qed.
Print Assumptions C103_P_init.
Theorem C103_P_init_rejects ini (P : mtx R) :
  mrows P <> 4%nat \/ mcols P <> 4%nat -> kalm_P_init true ini P = Ok ((- EINVAL)%Z, P, ini).
Proof.
  intros H. unfold kalm_P_init. cbn [andb].
  destruct H as [H|H]; apply Nat.eqb_neq in H; rewrite H; cbn [negb orb]; rewrite ?orb_true_r; reflexivity.
Qed.
Print Assumptions C103_P_init_rejects.

(** A refused first feed initialises nothing but the covariance, yet leaves the
    filter marked as initialised: the orientation is never taken from the first
    complete readings. *)
Theorem C103_first_feed_null_refuted freq incl c s :
  (sa s = None \/ sm s = None) -> 0 <= var_g c -> 0 <= var_a c -> 0 <= var_m c -> room 4 4 (kP c) ->
  exists c', kalm_feed true freq 0 incl c s = Ok ((- EINVAL)%Z, s, c', 1%Z).
Proof.
  intros Hn Hg Ha Hm HP. unfold kalm_feed. rops.
  destruct (Rltb_spec (var_g c) 0) as [|_]; [lra|]. destruct (Rltb_spec (var_a c) 0) as [|_]; [lra|].
  destruct (Rltb_spec (var_m c) 0) as [|_]; [lra|]. cbn [orb Z.eqb].
  assert (B : forall A (x y : outcome A), (if true && (match sa s with None => true | Some a => negb (vsz a =? 3)%nat end
            || match sm s with None => true | Some m => negb (vsz m =? 3)%nat end) then x else y) = x).
  { intros A x y. destruct Hn as [->| ->]; [reflexivity|]. now rewrite orb_true_r. }
  unfold kalm_quat_init. rewrite B. cbn [bind]. rewrite C103_P_init by exact HP. cbn [bind].
  unfold fus_kalman. cbn [sa sm sg]. destruct s as [a m g q]. cbn [sa sm sg sq] in *.
  eexists. destruct Hn as [->| ->]; cbn [orb andb]; rewrite ?orb_true_r; reflexivity.
Qed.
Print Assumptions C103_first_feed_null_refuted.
Example C103_first_feed_null_ex : exists c', kalm_feed true 100 0 None (Kalm 1 1 1 (mtx_def 4 4))
  (Sens None None (Some (vec_of [0; 0; 0] [])) qone) = Ok ((- EINVAL)%Z, Sens None None (Some (vec_of [0; 0; 0] [])) qone, c', 1%Z).
Proof. apply C103_first_feed_null_refuted; cbn; try lra; [now left|apply room_def]. Qed.

(** ** Readings that agree with the orientation
    A sensor at rest, turned by a quarter turn about the x axis, whose
    readings are exactly the earth's gravity and field (inclination 0) seen
    from that orientation, and whose filter already has that orientation: the
    hypotheses of C103_update hold, and the feed moves the orientation so that
    it no longer explains the readings. *)
Definition agree_S (i j : nat) : R :=
  nth j (nth i [[5; 0; 0; 0; 4; 0]; [0; 5; -4; 0; 0; 0]; [0; -4; 9; 0; 0; 0];
                [0; 0; 0; 1; 0; 0]; [4; 0; 0; 0; 5; 0]; [0; 0; 0; 0; 0; 5]] []) 0.
Definition agree_1 (i j : nat) : R :=
  nth j (nth i [[1; 0; 0; 0; 4 / 5; 0]; [0; 5; -4; 0; 0; 0]; [0; -4; 9; 0; 0; 0];
                [0; 0; 0; 1; 0; 0]; [0; 0; 0; 0; 9 / 5; 0]; [0; 0; 0; 0; 0; 5]] []) 0.
Definition agree_2 (i j : nat) : R :=
  nth j (nth i [[1; 0; 0; 0; 4 / 5; 0]; [0; 1; -(4 / 5); 0; 0; 0]; [0; 0; 29 / 5; 0; 0; 0];
                [0; 0; 0; 1; 0; 0]; [0; 0; 0; 0; 9 / 5; 0]; [0; 0; 0; 0; 0; 5]] []) 0.
Definition agree_3 (i j : nat) : R :=
  nth j (nth i [[1; 0; 0; 0; 4 / 5; 0]; [0; 1; 0; 0; 0; 0]; [0; 0; 1; 0; 0; 0];
                [0; 0; 0; 1; 0; 0]; [0; 0; 0; 0; 9 / 5; 0]; [0; 0; 0; 0; 0; 5]] []) 0.
Definition agree_5 (i j : nat) : R :=
  nth j (nth i [[1; 0; 0; 0; 0; 0]; [0; 1; 0; 0; 0; 0]; [0; 0; 1; 0; 0; 0];
                [0; 0; 0; 1; 0; 0]; [0; 0; 0; 0; 1; 0]; [0; 0; 0; 0; 0; 5]] []) 0.

Ltac six i :=
  destruct i as [|i]; [|destruct i as [|i]; [|destruct i as [|i]; [|destruct i as [|i]; [|
  destruct i as [|i]; [|destruct i as [|i]; [|exfalso; lia]]]]]].
Ltac step_tac a b :=
  intros a b Ha Hb Hn; six a; six b; try (exfalso; lia);
  cbv [agree_S agree_1 agree_2 agree_3 agree_5 nth Nat.eqb]; field.

Lemma agree_clear f : (forall i j, (i < 6)%nat -> (j < 6)%nat -> f i j = agree_S i j) -> gj_clear 6 f.
Proof.
  intros H0.
  assert (G0 : forall a b, (a < 6)%nat -> (0 <= b)%nat -> (b < 6)%nat -> gj 6 0 f a b = agree_S a b)
    by (intros; now apply H0).
  assert (G1 := gj_step 6 0 f agree_S agree_1 ltac:(lia) ltac:(cbv [agree_S nth]; lra) G0 ltac:(step_tac a b)).
  assert (G2 := gj_step 6 1 f agree_1 agree_2 ltac:(lia) ltac:(cbv [agree_1 nth]; lra) G1 ltac:(step_tac a b)).
  assert (G3 := gj_step 6 2 f agree_2 agree_3 ltac:(lia) ltac:(cbv [agree_2 nth]; lra) G2 ltac:(step_tac a b)).
  assert (G4 := gj_step 6 3 f agree_3 agree_3 ltac:(lia) ltac:(cbv [agree_3 nth]; lra) G3 ltac:(step_tac a b)).
  assert (G5 := gj_step 6 4 f agree_3 agree_5 ltac:(lia) ltac:(cbv [agree_3 nth]; lra) G4 ltac:(step_tac a b)).
  assert (Z : forall x, x = 0 \/ / 1000000 <= x \/ / 1000000 <= - x -> x = 0 \/ / 1000000 <= Rabs x).
  { intros x [X|[X|X]]; [now left|right..]; unfold Rabs; destruct (Rcase_abs x); lra. }
  intros k i Hk Hi. six k;
    [rewrite G0 by lia|rewrite G1 by lia|rewrite G2 by lia|rewrite G3 by lia|rewrite G4 by lia|rewrite G5 by lia];
    apply Z; six i; cbv [agree_S agree_1 agree_2 agree_3 agree_5 nth]; lra.
Qed.

Theorem C103_agree_refuted bc freq ini :
  (0 < freq)%Z -> ini <> 0%Z ->
  exists q b q' P', unit_quat q /\
  let a := rotate (qconj q) (0, 0, -1) in
  let m := rotate (qconj q) b in
  kalm_feed bc freq ini (Some 0) (Kalm 0 1 1 (mat_of 4 4 mid []))
    (Sens (Some (hold a [])) (Some (hold m [])) (Some (hold (0, 0, 0) [])) q)
  = Ok (0%Z, Sens (Some (hold a [])) (Some (hold m [])) (Some (hold (0, 0, 0) [])) q', Kalm 0 1 1 P', ini) /\
  b = (cos 0, 0, sin 0) /\ rotate (qconj q') (0, 0, -1) <> a.
Proof.
  intros Hf Hi. set (s := sqrt (1 / 2)).
  assert (Hs : s * s = 1 / 2) by (apply sqrt_sqrt; lra).
  assert (Ps : 0 < s) by (apply sqrt_lt_R0; lra).
  clearbody s. set (q := Quat s s 0 0).
  assert (U : unit_quat q) by (unfold unit_quat, q, qdot, re, im, vdot; cbn [qr qi qj qk]; lra).
  assert (Ea : rotate (qconj q) (0, 0, -1) = (0, -1, 0)).
  { unfold q, rotate, qconj, mkq, re, im, vadd, vscale, vcross. cbn [qr qi qj qk].
    f_equal; [f_equal|]; try ring; nra. }
  assert (Em : rotate (qconj q) (cos 0, 0, sin 0) = (1, 0, 0)).
  { rewrite cos_0, sin_0. unfold q, rotate, qconj, mkq, re, im, vadd, vscale, vcross. cbn [qr qi qj qk].
    f_equal; [f_equal|]; ring. }
  assert (Ua : vdot (0, -1, 0) (0, -1, 0) = 1) by (cbn; ring).
  assert (Um : vdot (1, 0, 0) (1, 0, 0) = 1) by (cbn; ring).
  assert (Esp : spin (/ IZR freq) (0, 0, 0) q = q).
  { pose proof (spin_rest (/ IZR freq) q U) as E. replace (vscale (-1) (0, 0, 0)) with ((0, 0, 0) : v3) in E; auto.
    unfold vscale. f_equal; [f_equal|]; ring. }
  assert (Efl : field q (Some 0) (1, 0, 0) = (1, 0)).
  { unfold field. cbv zeta. replace (0 * (314159265359 / 100000000000) / 180) with 0 by field.
    now rewrite cos_0, sin_0. }
  pose proof (C103_update bc freq ini (Some 0) 0 1 1 mid [] (0, -1, 0) (1, 0, 0) (0, 0, 0) q [] [] []
    Hf Hi ltac:(now apply unit_norm) ltac:(rewrite (unit_len _ Ua); lra) ltac:(rewrite (unit_len _ Um); lra)
    ltac:(lra) ltac:(lra) ltac:(lra) (qform_mid 4)) as T. cbv zeta in T.
  rewrite (normalise_unit_id _ Ua), (normalise_unit_id _ Um), Esp, Efl in T. cbn [fst snd] in T.
  set (b := pure (1, 0, 0)) in T. set (Pm := kPred _ _ _ _ _) in T.
  assert (EP : forall i j, (i < 4)%nat -> (j < 4)%nat -> Pm i j = mid i j).
  { intros i j Hi' Hj'. unfold Pm, kPred, mmul, mtr, mid, kF, pure, hprod, qplus, qscale, qbasis, mkq, re, im, vdot, vadd, vscale, vcross.
    do 4 (destruct i as [|i]; [do 4 (destruct j as [|j]; [cbn; field; apply not_0_IZR; lia|]); lia|]). lia. }
  set (H := kH q b) in T.
  assert (EPH : forall i r, (i < 4)%nat -> mmul 4 Pm (mtr H) i r = H r i).
  { intros i r Hi'. rewrite (@mmul_ext 4 Pm mid (mtr H) (mtr H)); auto.
    unfold mmul, mtr, mid. do 4 (destruct i as [|i]; [cbn; ring|]). lia. }
  pose (Ht := fun r i : nat => nth i (nth r [[0; 0; 2 * s; -(2 * s)]; [-(2 * s); -(2 * s); 0; 0]; [0; 4 * s; 0; 0];
      [0; 0; 0; 0]; [0; 0; 2 * s; -(2 * s)]; [0; 0; 2 * s; 2 * s]] []) 0).
  assert (EH : forall r i, (r < 6)%nat -> (i < 4)%nat -> H r i = Ht r i).
  { intros r i Hr Hi'. unfold H, kH, seen_d, q, b, pure, qbasis, Ht, mkq, re, im, vadd, vscale, vcross.
    do 6 (destruct r as [|r]; [do 4 (destruct i as [|i]; [cbn; ring|]); lia|]). lia. }
  assert (ES : forall i j, (i < 6)%nat -> (j < 6)%nat -> kS H (kR 1 1) Pm i j = agree_S i j).
  { intros i j Hi' Hj'. unfold kS.
    rewrite (@mmul_ext 4 (mmul 4 H Pm) Ht (mtr H) (mtr Ht)).
    - unfold mmul, mtr, Ht, kR, agree_S.
      do 6 (destruct i as [|i]; [do 6 (destruct j as [|j]; [cbn; nra|]); lia|]). lia.
    - intros k Hk. rewrite <- EH by assumption. rewrite (@mmul_ext 4 H H Pm mid); auto. now apply mmul_mid.
    - intros k Hk. unfold mtr. now apply EH. }
  destruct (T (agree_clear _ ES)) as (Si & HI & E & _). clear T.
  assert (W : forall i c, (i < 6)%nat -> (c < 6)%nat -> bigsum 6 (fun k => agree_S i k * Si k c) = (if (i =? c)%nat then 1 else 0)).
  { intros i c Hi' Hc. rewrite <- (proj1 (HI i c Hi' Hc)). apply bigsum_ext. intros k Hk. now rewrite ES. }
  set (q1 := kq _ _ _ _) in E.
  assert (Eq1 : q1 = qscale (s / 29) (Quat 83 35 0 0)).
  { pose proof (fun i => W i 1%nat) as W1. pose proof (fun i => W i 3%nat) as W3. clear W.
    pose proof (W1 0%nat ltac:(lia) ltac:(lia)) as A0. pose proof (W1 1%nat ltac:(lia) ltac:(lia)) as A1.
    pose proof (W1 2%nat ltac:(lia) ltac:(lia)) as A2. pose proof (W1 3%nat ltac:(lia) ltac:(lia)) as A3.
    pose proof (W1 4%nat ltac:(lia) ltac:(lia)) as A4. pose proof (W1 5%nat ltac:(lia) ltac:(lia)) as A5.
    pose proof (W3 0%nat ltac:(lia) ltac:(lia)) as B0. pose proof (W3 1%nat ltac:(lia) ltac:(lia)) as B1.
    pose proof (W3 2%nat ltac:(lia) ltac:(lia)) as B2. pose proof (W3 3%nat ltac:(lia) ltac:(lia)) as B3.
    pose proof (W3 4%nat ltac:(lia) ltac:(lia)) as B4. pose proof (W3 5%nat ltac:(lia) ltac:(lia)) as B5.
    cbv [agree_S bigsum nth Nat.eqb] in A0, A1, A2, A3, A4, A5, B0, B1, B2, B3, B4, B5.
    clear W1 W3.
    assert (Kv : forall i, (i < 4)%nat ->
       mmul 6 (kK H Pm Si) (fun i j => kz (0, -1, 0) (1, 0, 0) i j - kh q b i j) i 0
       = nth i [54 / 29 * s; 6 / 29 * s; 0; 0] 0).
    { intros i Hi'.
      rewrite (@mmul_ext 6 (kK H Pm Si) (mmul 6 (mtr Ht) Si) _ (fun i _ => nth i [0; -3; 0; -1; 0; 0] 0)).
      - unfold mmul, mtr, Ht.
        assert (Si 0%nat 1%nat = 0) as X0 by lra. assert (Si 1%nat 1%nat = 9 / 29) as X1 by lra.
        assert (Si 2%nat 1%nat = 4 / 29) as X2 by lra. assert (Si 3%nat 1%nat = 0) as X3 by lra.
        assert (Si 4%nat 1%nat = 0) as X4 by lra. assert (Si 5%nat 1%nat = 0) as X5 by lra.
        assert (Si 0%nat 3%nat = 0) as Y0 by lra. assert (Si 1%nat 3%nat = 0) as Y1 by lra.
        assert (Si 2%nat 3%nat = 0) as Y2 by lra. assert (Si 3%nat 3%nat = 1) as Y3 by lra.
        assert (Si 4%nat 3%nat = 0) as Y4 by lra. assert (Si 5%nat 3%nat = 0) as Y5 by lra.
        do 4 (destruct i as [|i]; [cbn [bigsum nth]; rewrite X0, X1, X2, X3, X4, X5, Y0, Y1, Y2, Y3, Y4, Y5; field|]). lia.
      - intros k Hk. unfold kK. apply mmul_ext; auto. intros l Hl. rewrite EPH by assumption. unfold mtr. now apply EH.
      - intros k Hk. unfold kz, kh, q, b, pure, rotate, mkq, re, im, vadd, vscale, vcross. clear - Hs Hk.
        do 6 (destruct k as [|k]; [cbn; nra|]). lia. }
    unfold q1, kq. cbv zeta. rewrite !Kv by lia. unfold q, qplus, qscale, mkq, re, im, vadd, vscale.
    cbn [nth qr qi qj qk]. f_equal; field. }
  clearbody q1. clear HI W ES EH EPH EP.
  pose (n := sqrt 4057 / 29).
  assert (Hn : qnorm q1 = n).
  { rewrite Eq1. unfold qnorm, n. replace (qdot _ _) with (4057 / (29 * 29)).
    - rewrite sqrt_div by lra. now rewrite sqrt_square by lra.
    - unfold qdot, qscale, mkq, re, im, vdot, vscale. cbn [qr qi qj qk].
      transitivity ((s * s) * (8114 / (29 * 29))); [rewrite Hs|]; field. }
  assert (Hsq : sqrt 4057 * sqrt 4057 = 4057) by (apply sqrt_sqrt; lra).
  assert (Psq : 0 < sqrt 4057) by (apply sqrt_lt_R0; lra).
  assert (Bn : 1 < n). { unfold n. assert (60 < sqrt 4057) by nra. lra. }
  exists q, (cos 0, 0, sin 0), (qnormalise q1). eexists. split; [exact U|]. cbv zeta. rewrite Ea, Em.
  split; [|split; [reflexivity|]].
  - rewrite E. rewrite Hn. destruct (Rlt_dec n _) as [L|_]; [exfalso; clear - Bn L; clearbody n; lra|]. reflexivity.
  - unfold qnormalise. rewrite Hn, Eq1. intros A. apply (f_equal (coord 1)) in A. revert A.
    unfold rotate, qconj, qscale, mkq, re, im, vadd, vscale, vcross. cbn [qr qi qj qk coord].
    assert (N2 : / n * (s / 29) * (/ n * (s / 29)) = 1 / 8114).
    { unfold n. replace (/ (sqrt 4057 / 29) * (s / 29) * (/ (sqrt 4057 / 29) * (s / 29)))
        with ((s * s) / (sqrt 4057 * sqrt 4057)) by (field; lra). rewrite Hs, Hsq. field. }
    set (k := / n * (s / 29)) in *.
    replace (/ n * (s / 29 * 83)) with (k * 83) by (unfold k; ring).
    replace (/ n * (s / 29 * 35)) with (k * 35) by (unfold k; ring).
    replace (/ n * (s / 29 * 0)) with 0 by ring. clearbody k. clear - N2. intros A. nra.
Qed.
Print Assumptions C103_agree_refuted.
