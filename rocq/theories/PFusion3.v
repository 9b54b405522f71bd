(** Proofs about the Kalman filter and the calibration functions. *)
From Coq Require Import List Arith ZArith Bool Reals Lra Lia.
From Verif Require Import Base BaseFacts NumR Libm LibmR RTac RAtan2 Out MVec SpecVec SpecReal PVec PVecR
  MMtx SpecMtx PMtx PMtxOps PMtxR MDecomp MStat MQuat SpecQuat PQuat PQuatRot PQuatTrig PQuatEul MAhrs MFusion
  SpecFusion PFusion PFusion2.
Import ListNotations.
Local Open Scope R_scope.
Implicit Types (p q u d : quat R) (v w a m : v3).

Lemma arr_mat r c (xs : list R) (f : nat -> nat -> R) :
  length xs = (r * c)%nat ->
  xs = map (fun k => f (k / c)%nat (k mod c)%nat) (seq 0 (r * c)) ->
  mtx_from_arr (mtx_def r c) (map Some xs) = Ok (0%Z, mat_of r c f []).
Proof.
  intros L E. rewrite <- (app_nil_r (map Some xs)).
  pose proof (@mtx_from_arr_ok R r c (mtx_def r c) xs [] (@room_def R r c) L) as H.
  unfold cells in H. unfold buf in *. rewrite H. rewrite rest_def. unfold mat_of, cells. now rewrite <- E.
Qed.

Lemma kalm_F_ok if2 w :
  kalm_F if2 (coord 0 w) (coord 1 w) (coord 2 w) = Ok (mat_of 4 4 (kF (2 * if2) w) []).
Proof.
  unfold kalm_F. erewrite arr_mat with (f := kF (2 * if2) w).
  - reflexivity.
  - reflexivity.
  - destruct w as [[x y] z]. cbn [coord].
    lazy -[Rplus Rminus Rmult Rdiv Ropp IZR Rinv Rlit]. rops.
    replace (10 / 10) with 1 by field.
    repeat (apply f_equal2; [field|]). reflexivity.
Qed.
Lemma kalm_W_ok q : kalm_W q = Ok (mat_of 4 3 (kW q) []).
Proof.
  unfold kalm_W. erewrite arr_mat with (f := kW q).
  - reflexivity.
  - reflexivity.
  - destruct q as [r i j k]. 
    lazy -[Rplus Rminus Rmult Rdiv Ropp IZR Rinv Rlit]. 
    repeat (apply f_equal2; [field|]). reflexivity.
Qed.

Lemma kalm_predict_ok bc if2 vg w q P tp :
  kalm_predict bc if2 vg (mat_of 4 4 (kF (2 * if2) w) []) (mat_of 4 3 (kW q) []) (mat_of 4 4 P tp)
  = Ok (mat_of 4 4 (kPred (2 * if2) vg w q P) tp).
Proof.
  unfold kalm_predict.
  rewrite mtx_trans_ok by apply room_def. rewrite rest_def. cbn [bind snd].
  rewrite mtx_trans_ok by apply room_def. rewrite rest_def. cbn [bind snd].
  rewrite mtx_mult_R by apply room_def. rewrite rest_def. cbn [bind snd].
  rewrite mtx_scalar_mult_d_ok. cbn [bind snd].
  rewrite mtx_mult_R by apply room_def. rewrite rest_def. cbn [bind snd].
  rewrite mtx_mult_R by apply mat_room. rewrite mat_rest. cbn [bind snd].
  unfold mtx_add_d. rewrite mtx_zip_d_ok with (h := kPred (2 * if2) vg w q P); [reflexivity|].
  intros i j _ _. unfold op_add, kPred. rops. do 2 f_equal.
  replace (2 * if2 / 2) with if2 by field. reflexivity.
Qed.

Lemma arr_col (xs : list R) (f : nat -> nat -> R) n :
  xs = map (fun k => f (k / 1)%nat (k mod 1)%nat) (seq 0 (n * 1)) ->
  Mtx n 1 (map Some xs) = mat_of n 1 f [].
Proof. intros ->. unfold mat_of, cells. now rewrite app_nil_r. Qed.

Lemma kalm_h_ok bc q b :
  unit_quat q -> qr b = 0 -> kalm_h bc q b = Ok (mat_of 6 1 (kh q b) []).
Proof.
  intros U B. unfold kalm_h. rops. replace (- (10 / 10)) with (-1) by field.
  change (Quat 0 0 0 (-1)) with (pure (0, 0, -1)). rewrite rot_ok by exact U. cbn [bind].
  replace b with (pure (im b)) at 1 by (destruct b; cbn in *; now subst).
  rewrite rot_ok by exact U. cbn [bind].
  f_equal. apply arr_col. destruct (rotate q (0, 0, -1)) as [[x y] z] eqn:E1.
  destruct (rotate q (im b)) as [[x' y'] z'] eqn:E2. unfold kh. rewrite E1, E2.
  replace (20 / 10) with 2 by field. reflexivity.
Qed.

Lemma kalm_H_ok q b :
  qj b = 0 -> kalm_H q b = Ok (mat_of 6 4 (kH q b) []).
Proof.
  intros B. unfold kalm_H. rops. replace (20 / 10) with 2 by field.
  erewrite arr_mat with (f := fun i j => kH q b i j / 2).
  - cbn [bind snd]. rewrite mtx_scalar_mult_d_ok. cbn [bind snd]. f_equal.
    apply mat_ext. intros i j _ _. rops. field.
  - reflexivity.
  - destruct q as [r i j k], b as [b0 b1 b2 b3]. cbn in B. subst b2.
    lazy -[Rplus Rminus Rmult Rdiv Ropp IZR Rinv Rlit]. 
    repeat (apply f_equal2; [field|]). reflexivity.
Qed.

Lemma kalm_R_ok bc va vm : kalm_R bc va vm = Ok (mat_of 6 6 (kR va vm) []).
Proof.
  unfold kalm_R. rewrite mtx_init_identity with (r := 6%nat) (c := 6%nat) by apply room_def. rewrite rest_def.
  cbn [bind snd].
  do 6 (rewrite mtx_set_mat by lia; cbn [bind snd]).
  reflexivity.
Qed.

Lemma kalm_correct_ok bc (z h H V P Si : nat -> nat -> R) tp :
  mtx_inv bc (mat_of 6 6 (kS H V P) []) (mtx_def 6 6) = Ok (0%Z, mat_of 6 6 Si []) ->
  kalm_correct bc (mat_of 6 1 z []) (mat_of 6 1 h []) (mat_of 6 4 H []) (mat_of 6 6 V []) (mat_of 4 4 P tp)
  = Ok (mat_of 4 4 (kPnew (kK H P Si) H P) tp,
        mat_of 4 1 (mmul 6 (kK H P Si) (fun i j => z i j - h i j)) []).
Proof.
  intros I. unfold kalm_correct.
  rewrite mtx_trans_ok by apply room_def. rewrite rest_def. cbn [bind snd].
  unfold mtx_sub. rewrite mtx_zip_ok with (h := fun i j => z i j - h i j); [|apply room_def|reflexivity].
  rewrite rest_def. cbn [bind snd].
  rewrite mtx_mult_R by apply room_def. rewrite rest_def. cbn [bind snd].
  rewrite mtx_mult_R by apply room_def. rewrite rest_def. cbn [bind snd].
  unfold mtx_add. rewrite mtx_zip_ok with (h := kS H V P); [|apply room_def|reflexivity].
  rewrite rest_def. cbn [bind snd]. rewrite I. cbn [bind snd].
  rewrite mtx_mult_R by apply room_def. rewrite rest_def. cbn [bind snd].
  rewrite mtx_mult_R by apply room_def. rewrite rest_def. cbn [bind snd].
  rewrite mtx_init_identity with (r := 4%nat) (c := 4%nat) by apply room_def. rewrite rest_def.
  cbn [bind snd].
  rewrite mtx_mult_R by apply room_def. rewrite rest_def. cbn [bind snd].
  unfold mtx_sub_d. rewrite mtx_zip_d_ok with (h := fun i j => mid i j - mmul 6 (kK H P Si) H i j); [|reflexivity].
  cbn [bind snd].
  rewrite mtx_mult_R by apply mat_room. rewrite mat_rest. cbn [bind snd].
  rewrite mtx_mult_R by apply room_def. rewrite rest_def. cbn [bind snd].
  reflexivity.
Qed.

Lemma mat_col4 (g : nat -> nat -> R) :
  mbuf (mat_of 4 1 g [])
  = [Some (g 0%nat 0%nat); Some (g 1%nat 0%nat); Some (g 2%nat 0%nat); Some (g 3%nat 0%nat)].
Proof. reflexivity. Qed.

(** the magnetic field of the earth's frame, as a pure unit quaternion *)
Definition kfield (u : quat R) (incl : option R) (m : v3) : quat R :=
  let (bx, bz) := field u incl m in unitised (pure (bx, 0, bz)).

Lemma fus_kalman_ok bc freq incl vg va vm P tp a m w q ta tm tg Si :
  (0 < freq)%Z -> / 1000000 <= qnorm q -> vlen a <> 0 -> vlen m <> 0 ->
  let qp := spin (/ IZR freq) w q in
  let b := kfield qp incl (vnormalise m) in
  let Pm := kPred (/ IZR freq) vg w q P in
  let H := kH qp b in
  let K := kK H Pm Si in
  mtx_inv bc (mat_of 6 6 (kS H (kR va vm) Pm) []) (mtx_def 6 6) = Ok (0%Z, mat_of 6 6 Si []) ->
  fus_kalman bc freq incl (Kalm vg va vm (mat_of 4 4 P tp))
    (Sens (Some (hold a ta)) (Some (hold m tm)) (Some (hold w tg)) q)
  = Ok (0%Z, Sens (Some (hold (vnormalise a) ta)) (Some (hold (vnormalise m) tm)) (Some (hold w tg))
               (unitised (kq qp K (kz (vnormalise a) (vnormalise m)) (kh qp b))),
        Kalm vg va vm (mat_of 4 4 (kPnew K H Pm) tp)).
Proof.
  intros Hf Hq Ha Hm. cbv zeta. intros I.
  assert (Pf : 0 < IZR freq) by now apply IZR_lt.
  unfold fus_kalman. cbn [sa sm sg sq deref kP var_g var_a var_m].
  change (vsz (hold a ta)) with 3%nat. change (vsz (hold m tm)) with 3%nat.
  change (vsz (hold w tg)) with 3%nat. cbn [Nat.eqb negb orb]. rewrite andb_false_r. rops.
  replace (10 / 10) with 1 by field. replace (20 / 10) with 2 by field.
  rewrite Rdivo_ok by lra. cbn [bind]. rewrite rd3_hold.
  replace w with (coord 0 w, coord 1 w, coord 2 w) at 1 by apply coords. cbn [bind].
  rewrite kalm_F_ok. cbn [bind]. rewrite kalm_W_ok. cbn [bind]. rewrite kalm_predict_ok. cbn [bind].
  replace (2 * (1 / (2 * IZR freq))) with (/ IZR freq) by (field; lra).
  rewrite period_ok by exact Hf. cbn [bind].
  rewrite ang_vel_ok; [|left; now apply Rinv_0_lt_compat|exact Hq]. cbn [bind].
  set (qp := spin (/ IZR freq) w q) in *.
  assert (U : unit_quat qp) by (apply spin_unit; lra).
  rewrite unit_hold by exact Ha. cbn [bind]. rewrite unit_hold by exact Hm. cbn [bind].
  rewrite !rd3_hold.
  replace (vnormalise a) with (coord 0 (vnormalise a), coord 1 (vnormalise a), coord 2 (vnormalise a)) at 1 by apply coords.
  cbn [bind].
  replace (vnormalise m) with (coord 0 (vnormalise m), coord 1 (vnormalise m), coord 2 (vnormalise m)) at 1 by apply coords.
  cbn [bind].
  rewrite earth_field_ok by now apply unit_norm_big. rewrite (qnormalise_of_unit qp U).
  unfold kfield in *. destruct (field qp incl (vnormalise m)) as [bx bz]. cbn [bind].
  rewrite quat_to_unit_ok. cbn [bind]. change (Quat 0 bx 0 bz) with (pure (bx, 0, bz)).
  set (b := unitised (pure (bx, 0, bz))) in *.
  assert (B : qr b = 0 /\ qj b = 0).
  { unfold b, unitised. destruct (Rlt_dec _ _); cbn; split; ring. }
  rewrite kalm_h_ok by (try exact U; apply B). cbn [bind].
  rewrite kalm_H_ok by apply B. cbn [bind]. rewrite kalm_R_ok. cbn [bind].
  rewrite (arr_col _ (kz (vnormalise a) (vnormalise m))).
  2:{ destruct (vnormalise a) as [[? ?] ?], (vnormalise m) as [[? ?] ?]. reflexivity. }
  rewrite (kalm_correct_ok _ _ _ _ _ _ _ _ I). cbn [bind].
  rewrite mat_col4. cbn [rd nth_error bind].
  rewrite quat_to_unit_ok. cbn [bind]. reflexivity.
Qed.
