(** Properties C124 and C125: the two magnetometer calibrations
    (src/orientation/fusion/calibration.c), in real arithmetic.

    Vocabulary (SpecCal): the readings are the rows of p; [on_ellipsoid M c x]:
    (x - c)^T M (x - c) = 1; [on_sphere c rho x]: x is at distance rho of c;
    [reaches_poles]: on an axis some reading is at each end of the sphere;
    [field_of me]: the magnitude me, or 50 for a null pointer.
    [gj_clear]: the elimination meets no non-zero number below 1e-6 (C34). *)
From Coq Require Import List Arith ZArith QArith Qreals Bool Lia Reals Lra.
From Verif Require Import Base BaseFacts RTac SpecVec SpecReal SpecMtx SpecStat SpecDecomp SpecCal SpecGauss NumR
  MVec MMtx MDecomp MStat MFusion MCal PVec PVecR PMtx PMtxOps PMtxR PGauss PChol PSort PCal PCalMx PCalFast PropFusion2 QWit.
Import ListNotations.
Set Implicit Arguments.
Local Close Scope Q_scope.
Local Open Scope R_scope.

(** * C124: the least-squares calibration *)

(** On readings of an ellipsoid that contains the origin, b is exactly minus
    its centre, and correcting with K and b any point of the ellipsoid gives a
    vector of one and the same magnitude. *)
Theorem C124_fast_fit bc r p tl me K bb M c :
  (forall i j, M i j = M j i) -> positive_definite 3 M -> quad_at M c (fun _ => 0) < 1 ->
  0 <= field_of me -> room 3 3 K -> (3 <= length bb)%nat ->
  (forall i, (i < r)%nat -> on_ellipsoid M c (p i)) ->
  independent_columns r 9 (design p) -> gj_clear 9 (gram r (fun _ => 1) (design p)) ->
  exists K' b',
    cal_magn_fast bc (mat_of r 3 p tl) me K (Vec 3 bb) = Ok (0%Z, (K', b')) /\
    b' = vec_of [- c 0%nat; - c 1%nat; - c 2%nat] (skipn 3 bb) /\
    forall x tx ob, on_ellipsoid M c x -> (3 <= length ob)%nat -> exists ys,
      cal_corr_vec bc (vec_of [x 0%nat; x 1%nat; x 2%nat] tx) K' b' (Vec 3 ob)
      = Ok (0%Z, vec_of ys (skipn 3 ob)) /\
      rnorm ys = field_of me / sqrt (1 - quad_at M c (fun _ => 0)).
Proof.
  intros Sy PD Hq Hme HK Hb Ho Hi Hg.
  destruct (@cal_magn_fast_ok M c Sy PD bc r p tl me K bb HK Hb Hme Hq Ho Hi Hg) as (k & E & _ & _ & G).
  exists (mat_of 3 3 k (rest K)), (vec_of [- c 0%nat; - c 1%nat; - c 2%nat] (skipn 3 bb)).
  split; [exact E|split; [reflexivity|]]. intros x tx ob Hx Hl.
  eexists. split; [apply C81_corr_vec; auto|].
  assert (Hk : 0 < 1 - quad_at M c (fun _ => 0)) by lra.
  unfold rnorm. cbn [seq map rdot].
  rewrite <- (sqrt_square (field_of me)) by auto. rewrite <- sqrt_div_alt by auto. f_equal.
  pose proof (@norm_of_corrected M c k (field_of me * field_of me) x G Hx) as Nc.
  rewrite <- Nc. cbn. ring.
Qed.
Print Assumptions C124_fast_fit.

(** * The readings of the examples: nine points of a sphere of radius 3, of
    centre (1+s, 0, 0), sheared along the first axis *)
Definition nine : list (list Z) :=
  [[-2; 0; 0]; [1; -3; 0]; [1; 0; -3]; [1; 0; 3]; [1; 3; 0]; [4; 0; 0]; [-1; 1; -2]; [3; -1; -2]; [-1; -1; -2]]%Z.
Definition nineZ (i j : nat) : Z := nth j (nth i nine []) 0%Z.
Definition shearedZ (s : Z) (i j : nat) : Z :=
  if (j =? 0)%nat then (nineZ i 0 + nineZ i 1 + s)%Z else nineZ i j.
Definition sheared s i j := IZR (shearedZ s i j).
Definition shear_shape (i j : nat) : R :=
  match i, j with
  | O, O => / 9 | O, S O | S O, O => - / 9 | S O, S O => 2 / 9 | S (S O), S (S O) => / 9 | _, _ => 0
  end.
Definition shear_centre (s : R) (i : nat) : R := if (i =? 0)%nat then 1 + s else 0.

Lemma shear_sym i j : shear_shape i j = shear_shape j i.
Proof. destruct i as [|[|[|i]]], j as [|[|[|j]]]; reflexivity. Qed.

Lemma shear_pd : positive_definite 3 shear_shape.
Proof.
  intros x (i & Hi & Nz). cbn [bigsum shear_shape].
  set (a := x 0%nat). set (b := x 1%nat). set (d := x 2%nat).
  assert (E : (a - b) * (a - b) + b * b + d * d > 0).
  { pose proof (Rle_0_sqr (a - b)) as S1. pose proof (Rle_0_sqr b) as S2. pose proof (Rle_0_sqr d) as S3.
    unfold Rsqr in *. destruct (Req_dec b 0) as [Zb|Zb].
    - destruct (Req_dec d 0) as [Zd|Zd].
      + assert (Na : a <> 0) by (destruct i as [|[|[|i]]]; [exact Nz|contradiction|contradiction|lia]).
        rewrite Zb in *. pose proof (Rsqr_pos_lt a Na). unfold Rsqr in *. nra.
      + pose proof (Rsqr_pos_lt d Zd). unfold Rsqr in *. lra.
    - pose proof (Rsqr_pos_lt b Zb). unfold Rsqr in *. lra. }
  lra.
Qed.

Lemma sheared_on s i : (i < 9)%nat -> on_ellipsoid shear_shape (shear_centre (IZR s)) (sheared s i).
Proof.
  intros Hi. unfold on_ellipsoid, quad_at. cbn [bigsum shear_shape shear_centre Nat.eqb].
  unfold sheared, shearedZ, nineZ.
  do 9 (destruct i as [|i]; [cbn [nth nine Nat.eqb]; rewrite ?plus_IZR; lra|]). lia.
Qed.

Definition termsZ (x y z : Z) : list Z := [x * x; y * y; z * z; 2 * x * y; 2 * x * z; 2 * y * z; 2 * x; 2 * y; 2 * z]%Z.
Definition designQ (P : nat -> nat -> Z) (i j : nat) : Q := inject_Z (nth j (termsZ (P i 0%nat) (P i 1%nat) (P i 2%nat)) 0%Z).

Lemma design_Q (P : nat -> nat -> Z) i j : design (fun i j => IZR (P i j)) i j = Q2R (designQ P i j).
Proof.
  unfold designQ, design. replace (Q2R (inject_Z (nth j (termsZ (P i 0%nat) (P i 1%nat) (P i 2%nat)) 0%Z)))
    with (IZR (nth j (termsZ (P i 0%nat) (P i 1%nat) (P i 2%nat)) 0%Z)) by (unfold Q2R, inject_Z; cbn [Qnum Qden]; field).
  do 9 (destruct j as [|j]; [cbn [nth termsZ quad_terms]; rewrite ?mult_IZR; ring|]).
  destruct j; reflexivity.
Qed.

Lemma sheared_clear s : s = 0%Z \/ s = 4%Z -> gj_clear 9 (gram 9 (fun _ => 1) (design (sheared s))).
Proof.
  intros Hs. apply gj_clear_Q with (F := fun a b => sumq 9 (fun i => (designQ (shearedZ s) i a * designQ (shearedZ s) i b)%Q)).
  - intros a b Ha Hb. apply gram_Q. intros i j Hi. apply design_Q.
  - destruct Hs as [-> | ->]; vm_compute; reflexivity.
Qed.

Open Scope Q_scope.
Definition left0 : list (list Q) :=
  [[1 # 12; 0 # 1; 0 # 1; 0 # 1; 0 # 1; 1 # 24; 0 # 1; 0 # 1; 0 # 1];
   [0 # 1; 1 # 36; (-5) # 18; 1 # 18; 1 # 36; (-1) # 12; 1 # 4; 1 # 4; 0 # 1];
   [1 # 36; 0 # 1; 1 # 18; 1 # 18; 0 # 1; (-1) # 72; 0 # 1; 0 # 1; 0 # 1];
   [(-1) # 36; 1 # 72; 5 # 36; (-1) # 36; 1 # 72; 1 # 72; (-1) # 8; (-1) # 8; 0 # 1];
   [(-5) # 72; (-1) # 144; (-5) # 72; 1 # 72; (-1) # 144; 1 # 72; 1 # 16; 0 # 1; 1 # 16];
   [1 # 72; (-7) # 144; (-5) # 72; 1 # 72; 5 # 144; (-5) # 72; (-1) # 16; 1 # 8; 1 # 16];
   [(-1) # 6; 0 # 1; 0 # 1; 0 # 1; 0 # 1; 1 # 24; 0 # 1; 0 # 1; 0 # 1];
   [1 # 9; (-7) # 72; (-5) # 36; 1 # 36; 5 # 72; (-7) # 72; 1 # 8; 1 # 8; 0 # 1];
   [5 # 72; 1 # 144; (-1) # 72; 5 # 72; 1 # 144; (-1) # 72; (-1) # 16; 0 # 1; (-1) # 16]].
Definition left4 : list (list Q) :=
  [[(-1) # 12; 0 # 1; 0 # 1; 0 # 1; 0 # 1; 1 # 48; 0 # 1; 0 # 1; 0 # 1];
   [(-1) # 3; 1 # 36; (-5) # 18; 1 # 18; 1 # 36; (-1) # 8; 1 # 4; 1 # 4; 0 # 1];
   [(-5) # 36; 0 # 1; 1 # 18; 1 # 18; 0 # 1; (-5) # 144; 0 # 1; 0 # 1; 0 # 1];
   [5 # 36; 1 # 72; 5 # 36; (-1) # 36; 1 # 72; 5 # 144; (-1) # 8; (-1) # 8; 0 # 1];
   [(-5) # 72; (-1) # 144; (-5) # 72; 1 # 72; (-1) # 144; 1 # 72; 1 # 16; 0 # 1; 1 # 16];
   [1 # 72; (-7) # 144; (-5) # 72; 1 # 72; 5 # 144; (-5) # 72; (-1) # 16; 1 # 8; 1 # 16];
   [1 # 3; 0 # 1; 0 # 1; 0 # 1; 0 # 1; (-1) # 48; 0 # 1; 0 # 1; 0 # 1];
   [(-11) # 18; (-11) # 72; (-25) # 36; 5 # 36; 1 # 72; (-37) # 144; 5 # 8; 5 # 8; 0 # 1];
   [25 # 72; 5 # 144; 19 # 72; 1 # 72; 5 # 144; (-5) # 72; (-5) # 16; 0 # 1; (-5) # 16]].
Close Scope Q_scope.

Lemma sheared_independent s : s = 0%Z \/ s = 4%Z -> independent_columns 9 9 (design (sheared s)).
Proof.
  intros Hs. apply independent_Q with (F := designQ (shearedZ s)) (Y := ent (if (s =? 0)%Z then left0 else left4)).
  - intros i j Hi Hj. apply design_Q.
  - destruct Hs as [-> | ->]; vm_compute; reflexivity.
Qed.

Lemma sheared_q0 s : quad_at shear_shape (shear_centre s) (fun _ => 0) = (1 + s) * (1 + s) / 9.
Proof. unfold quad_at. cbn [bigsum shear_shape shear_centre Nat.eqb]. field. Qed.

Example C124_fast_fit_case : exists K',
  cal_magn_fast true (mat_of 9 3 (sheared 0) []) None (mtx_def 3 3) (Vec 3 (fresh 3))
  = Ok (0%Z, (K', vec_of [-1; 0; 0] [])) /\
  exists ys, cal_corr_vec true (vec_of [4; 3; 0] []) K' (vec_of [-1; 0; 0] []) (Vec 3 (fresh 3))
    = Ok (0%Z, vec_of ys []) /\ rnorm ys = 50 / sqrt (8 / 9).
Proof.
  assert (Q0 : quad_at shear_shape (shear_centre 0) (fun _ => 0) = / 9) by (rewrite sheared_q0; lra).
  destruct (@C124_fast_fit true 9 (sheared 0) [] None (mtx_def 3 3) (fresh 3) shear_shape (shear_centre 0))
    as (K' & b' & E & Eb & H).
  - apply shear_sym.
  - apply shear_pd.
  - rewrite Q0. lra.
  - cbn. lra.
  - apply room_def.
  - cbn. lia.
  - intros i Hi. apply (sheared_on 0). exact Hi.
  - apply sheared_independent. auto.
  - apply sheared_clear. auto.
  - assert (B : vec_of [- shear_centre 0 0; - shear_centre 0 1; - shear_centre 0 2]%nat (skipn 3 (fresh 3)) = vec_of [-1; 0; 0] []).
    { cbn. unfold vec_of, cells. cbn. repeat f_equal; lra. }
    rewrite B in Eb. subst b'. exists K'. split; [exact E|].
    destruct (H (sheared 0 4%nat) [] (fresh 3)) as (ys & E1 & E2); [apply (sheared_on 0); lia|cbn; lia|].
    exists ys. split; [exact E1|]. rewrite E2, Q0. cbn [field_of]. do 2 f_equal. lra.
Qed.

(** The promised magnitude is me; with a hard-iron offset it never is: *)
Theorem C124_fast_magnitude_refuted bc r p tl me K bb M c :
  (forall i j, M i j = M j i) -> positive_definite 3 M -> quad_at M c (fun _ => 0) < 1 ->
  0 < field_of me -> room 3 3 K -> (3 <= length bb)%nat ->
  (forall i, (i < r)%nat -> on_ellipsoid M c (p i)) ->
  independent_columns r 9 (design p) -> gj_clear 9 (gram r (fun _ => 1) (design p)) ->
  (exists i, (i < 3)%nat /\ c i <> 0) ->
  exists K' b', cal_magn_fast bc (mat_of r 3 p tl) me K (Vec 3 bb) = Ok (0%Z, (K', b')) /\
  forall x tx ob, on_ellipsoid M c x -> (3 <= length ob)%nat -> exists ys,
      cal_corr_vec bc (vec_of [x 0%nat; x 1%nat; x 2%nat] tx) K' b' (Vec 3 ob)
      = Ok (0%Z, vec_of ys (skipn 3 ob)) /\ field_of me < rnorm ys.
Proof.
  intros Sy PD Hq Hme HK Hb Ho Hi Hg (i & Hi3 & Nc).
  destruct (@C124_fast_fit bc r p tl me K bb M c) as (K' & b' & E & _ & H); auto; [lra|].
  exists K', b'. split; [exact E|]. intros x tx ob Hx Hl.
  destruct (H x tx ob Hx Hl) as (ys & E1 & E2). exists ys. split; [exact E1|]. rewrite E2.
  assert (Q : 0 < quad_at M c (fun _ => 0)).
  { eapply Rlt_le_trans; [apply (PD (fun i => - c i)); exists i; split; [auto|lra]|].
    right. unfold quad_at. apply bigsum_ext. intros a Ha. apply bigsum_ext. intros b Hb'. ring. }
  assert (S1 : 0 < sqrt (1 - quad_at M c (fun _ => 0))) by (apply sqrt_lt_R0; lra).
  assert (S2 : sqrt (1 - quad_at M c (fun _ => 0)) < 1) by (rewrite <- sqrt_1 at 2; apply sqrt_lt_1; lra).
  apply Rmult_lt_reg_r with (sqrt (1 - quad_at M c (fun _ => 0))); auto.
  unfold Rdiv. rewrite Rmult_assoc, Rinv_l by lra.
  apply Rmult_lt_compat_l with (r := field_of me) in S2; lra.
Qed.
Print Assumptions C124_fast_magnitude_refuted.

(** The documentation calls K symmetric: it is upper triangular, and symmetric
    only when the ellipsoid is aligned with the axes. *)
Theorem C124_fast_symmetric_refuted bc r p tl me K bb M c :
  (forall i j, M i j = M j i) -> positive_definite 3 M -> quad_at M c (fun _ => 0) < 1 ->
  0 < field_of me -> room 3 3 K -> (3 <= length bb)%nat ->
  (forall i, (i < r)%nat -> on_ellipsoid M c (p i)) ->
  independent_columns r 9 (design p) -> gj_clear 9 (gram r (fun _ => 1) (design p)) ->
  exists k b', cal_magn_fast bc (mat_of r 3 p tl) me K (Vec 3 bb) = Ok (0%Z, (mat_of 3 3 k (rest K), b')) /\
    (forall i j, (j < i < 3)%nat -> k i j = 0) /\
    ((forall i j, (i < 3)%nat -> (j < 3)%nat -> k i j = k j i) ->
     forall i j, (i < 3)%nat -> (j < 3)%nat -> i <> j -> M i j = 0).
Proof.
  intros Sy PD Hq Hme HK Hb Ho Hi Hg.
  destruct (@cal_magn_fast_ok M c Sy PD bc r p tl me K bb HK Hb ltac:(lra) Hq Ho Hi Hg) as (k & E & Up & Dg & G).
  exists k. eexists. split; [exact E|split; [intros; apply Up; lia|]].
  intros Sk i j Hi3 Hj3 Nij.
  assert (Hm : 0 < field_of me * field_of me) by (apply Rmult_lt_0_compat; auto).
  assert (Z : bigsum 3 (fun a => k a i * k a j) = 0).
  { assert (O : forall a b, (a < 3)%nat -> (b < 3)%nat -> a <> b -> k a b = 0).
    { intros a b Ha Hb' Nab. destruct (Nat.lt_ge_cases b a); [now apply Up|rewrite Sk by auto; apply Up; lia]. }
    rewrite <- (bigsum_0 3). apply bigsum_ext. intros a Ha.
    destruct (Nat.eq_dec a i) as [->|Ni]; [rewrite (O i j) by auto; ring|rewrite (O a i) by auto; ring]. }
  rewrite G in Z by auto. apply Rmult_integral in Z. destruct Z as [Z|Z]; [lra|].
  unfold Rdiv in Z. apply Rmult_integral in Z. destruct Z as [Z|Z]; auto.
  exfalso. apply (Rinv_neq_0_compat (1 - quad_at M c (fun _ => 0))); auto. lra.
Qed.
Print Assumptions C124_fast_symmetric_refuted.
Example C124_fast_symmetric_refuted_case : exists k b',
  cal_magn_fast true (mat_of 9 3 (sheared 0) []) None (mtx_def 3 3) (Vec 3 (fresh 3))
  = Ok (0%Z, (mat_of 3 3 k [], b')) /\
  ~ (forall i j, (i < 3)%nat -> (j < 3)%nat -> k i j = k j i).
Proof.
  assert (Q0 : quad_at shear_shape (shear_centre 0) (fun _ => 0) = / 9) by (rewrite sheared_q0; lra).
  destruct (@C124_fast_symmetric_refuted true 9 (sheared 0) [] None (mtx_def 3 3) (fresh 3) shear_shape (shear_centre 0))
    as (k & b' & E & _ & H).
  - apply shear_sym.
  - apply shear_pd.
  - rewrite Q0. lra.
  - cbn. lra.
  - apply room_def.
  - cbn. lia.
  - intros i Hi. apply (sheared_on 0). exact Hi.
  - apply sheared_independent. auto.
  - apply sheared_clear. auto.
  - exists k, b'. split; [exact E|]. intros Sk. specialize (H Sk 0%nat 1%nat ltac:(lia) ltac:(lia) ltac:(lia)).
    cbn in H. lra.
Qed.

(** When the offset is so large that the ellipsoid does not contain the origin
    the factorisation takes the root of a negative number. *)
Theorem C124_fast_outside_refuted bc r p tl me K bb M c :
  (forall i j, M i j = M j i) -> positive_definite 3 M -> 1 < quad_at M c (fun _ => 0) ->
  0 <= field_of me -> room 3 3 K ->
  (forall i, (i < r)%nat -> on_ellipsoid M c (p i)) ->
  independent_columns r 9 (design p) -> gj_clear 9 (gram r (fun _ => 1) (design p)) ->
  cal_magn_fast bc (mat_of r 3 p tl) me K (Vec 3 bb) = NotReal.
Proof. intros Sy PD Hq Hme HK Ho Hi Hg. apply cal_magn_fast_outside with (M := M) (c := c); auto. Qed.
Print Assumptions C124_fast_outside_refuted.
Example C124_fast_outside_refuted_case :
  cal_magn_fast true (mat_of 9 3 (sheared 4) []) (Some 44) (mtx_def 3 3) (Vec 3 (fresh 3)) = NotReal.
Proof.
  apply C124_fast_outside_refuted with (M := shear_shape) (c := shear_centre 4).
  - apply shear_sym.
  - apply shear_pd.
  - rewrite sheared_q0. lra.
  - cbn. lra.
  - apply room_def.
  - intros i Hi. now apply sheared_on.
  - apply sheared_independent. auto.
  - apply sheared_clear. auto.
Qed.

Theorem C124_fast_rejects (m : mtx R) me K b :
  mcols m <> 3%nat \/ mrows K <> 3%nat \/ mcols K <> 3%nat \/ vsz b <> 3%nat \/ field_of me < 0 ->
  cal_magn_fast true m me K b = Ok ((- EINVAL)%Z, (K, b)).
Proof.
  intros H. unfold cal_magn_fast.
  replace (match me with Some x => x | None => flit 500 1 end) with (field_of me).
  2: { destruct me; [reflexivity|]. cbn [flit NumR field_of]. lits. lra. }
  replace (true && _) with true; [reflexivity|]. symmetry. cbn [andb flt f0 NumR].
  destruct H as [H|[H|[H|[H|H]]]].
  5: { destruct (Rltb_spec (field_of me) 0); [|lra]. now rewrite !orb_true_r. }
  all: apply Nat.eqb_neq in H; rewrite H; cbn [negb orb]; now rewrite ?orb_true_r.
Qed.
Print Assumptions C124_fast_rejects.
Example C124_fast_rejects_case (m : mtx R) K b :
  cal_magn_fast true m (Some (-1)) K b = Ok ((- EINVAL)%Z, (K, b)).
Proof. apply C124_fast_rejects. cbn. lra. Qed.

(** * C125: the Levenberg-Marquardt calibration *)

(** Perfect readings (a sphere, its two ends on each axis among them) are
    answered with their centre and no soft-iron correction; *l grows by a
    factor mu for every reading after the first. *)
Theorem C125_magn_sphere bc fuel g n p tl l mu K bb c rho :
  (2 * n <= fuel)%nat -> room 3 3 K -> (3 <= length bb)%nat -> 1 <= mu -> 0 < rho ->
  (forall j, (j < 3)%nat -> separated (col_of n p j)) ->
  (forall j, (j < 3)%nat -> reaches_poles n p c rho j) ->
  (forall i, (i < n)%nat -> on_sphere c rho (p i)) ->
  cal_magn bc fuel (Some g) (mat_of n 3 p tl) l mu K (Vec 3 bb)
  = Ok (0%Z, (l * mu ^ (n - 1), mat_of 3 3 (fun i j => if (i =? j)%nat then 1 else 0) (rest K),
              vec_of [- c 0%nat; - c 1%nat; - c 2%nat] (skipn 3 bb))).
Proof. apply cal_magn_sphere. Qed.
Print Assumptions C125_magn_sphere.

(** ... so that correcting a reading gives back a vector of magnitude rho. *)
Theorem C125_corrected bc fuel g n p tl l mu K bb c rho :
  (2 * n <= fuel)%nat -> room 3 3 K -> (3 <= length bb)%nat -> 1 <= mu -> 0 < rho ->
  (forall j, (j < 3)%nat -> separated (col_of n p j)) ->
  (forall j, (j < 3)%nat -> reaches_poles n p c rho j) ->
  (forall i, (i < n)%nat -> on_sphere c rho (p i)) ->
  exists l' K' b',
    cal_magn bc fuel (Some g) (mat_of n 3 p tl) l mu K (Vec 3 bb) = Ok (0%Z, (l', K', b')) /\
    forall x tx ob, on_sphere c rho x -> (3 <= length ob)%nat -> exists ys,
      cal_corr_vec bc (vec_of [x 0%nat; x 1%nat; x 2%nat] tx) K' b' (Vec 3 ob)
      = Ok (0%Z, vec_of ys (skipn 3 ob)) /\ rnorm ys = rho.
Proof.
  intros Hf HK Hb Hm Hr Hs Hp Ho. do 3 eexists. split; [apply (@C125_magn_sphere bc fuel g n p tl l mu K bb c rho); assumption|].
  intros x tx ob Hx Hl.
  eexists. split; [apply C81_corr_vec; auto|]. cbn [seq map]. unfold rnorm.
  rewrite <- (sqrt_square rho) by lra. f_equal. unfold on_sphere in Hx. rewrite <- Hx. cbn. ring.
Qed.
Print Assumptions C125_corrected.

Lemma separated_IZR n (P : nat -> nat -> Z) j : separated (col_of n (fun i j => IZR (P i j)) j).
Proof.
  assert (Hc : forall x, In x (0 :: col_of n (fun i j => IZR (P i j)) j) -> exists z, x = IZR z).
  { intros x [<-|Hx]; [now exists 0%Z|]. unfold col_of in Hx. apply in_map_iff in Hx. destruct Hx as (a & <- & _). eauto. }
  intros x y Hx Hy. apply Hc in Hx, Hy. destruct Hx as (a & ->), Hy as (b & ->).
  destruct (Z.eq_dec a b) as [->|N]; [now left|right].
  rewrite <- minus_IZR, <- abs_IZR. assert (H : (1 <= Z.abs (a - b))%Z) by lia.
  apply IZR_le in H. lra.
Qed.
Example C125_magn_sphere_case :
  cal_magn true 18 (Some 0) (mat_of 9 3 (fun i j => IZR (nineZ i j)) []) 1 10 (mtx_def 3 3) (Vec 3 (fresh 3))
  = Ok (0%Z, (1 * 10 ^ 8, mat_of 3 3 (fun i j => if (i =? j)%nat then 1 else 0) [], vec_of [-1; -0; -0] [])).
Proof.
  apply (@C125_magn_sphere true 18 0 9 _ [] 1 10 (mtx_def 3 3) (fresh 3) (fun i => if (i =? 0)%nat then 1 else 0) 3).
  - lia.
  - apply room_def.
  - cbn. lia.
  - lra.
  - lra.
  - intros j _. apply separated_IZR.
  - intros j Hj. unfold reaches_poles, nineZ. destruct j as [|[|[|j]]]; [| | |lia].
    + split; [exists 5%nat|exists 0%nat]; (split; [lia|cbn; lra]).
    + split; [exists 4%nat|exists 1%nat]; (split; [lia|cbn; lra]).
    + split; [exists 3%nat|exists 2%nat]; (split; [lia|cbn; lra]).
  - intros i Hi. unfold on_sphere, nineZ. cbn [bigsum Nat.eqb].
    do 9 (destruct i as [|i]; [cbn [nth nine]; lra|]). lia.
Qed.

(** In every arithmetic, whatever the readings: an accepted call answers 0 with
    a symmetric K (the cells beyond its nine kept). *)
Theorem C125_magn_symmetric (T : Type) (N : Num T) bc fuel ghost (m : mtx T) l mu K b r :
  room 3 3 K ->
  cal_magn bc fuel ghost m l mu K b = Ok r ->
  r = ((- EINVAL)%Z, (l, K, b)) \/
  exists l' k b', r = (0%Z, (l', mat_of 3 3 k (rest K), b')) /\ forall i j, k i j = k j i.
Proof.
  intros HK E. unfold cal_magn in E. destruct (bc && _); [left; congruence|right].
  destruct (magn_start bc fuel ghost m (vbuf b)) as [[bb R]| | |]; try discriminate E. cbn [bind] in E.
  destruct (magn_sphere bc m l mu R _) as [[R' b']| | |]; try discriminate E. cbn [bind] in E.
  rewrite mtx_init_identity with (r := 3%nat) (c := 3%nat) in E by auto. cbn [bind] in E.
  destruct (magn_ellipsoid bc m l mu R' b') as [[g l']| | |]; try discriminate E. cbn [bind] in E.
  destruct (magn_sym (mbuf g) _) as [Kb| | |] eqn:Es; try discriminate E. cbn [bind] in E.
  apply (@magn_sym_shape T N) in Es. destruct Es as (k & -> & Sk).
  match type of E with context [for_ 3 0 ?B ?s] => destruct (for_ 3 0 B s) as [b2| | |]; try discriminate E end.
  cbn [bind] in E. injection E as <-. exists l', k, (Vec (vsz b') b2). split; auto.
Qed.
Print Assumptions C125_magn_symmetric.

Theorem C125_magn_rejects bc' fuel g (m : mtx R) l mu K b : bc' = true ->
  mcols m <> 3%nat \/ mrows K <> 3%nat \/ mcols K <> 3%nat \/ vsz b <> 3%nat \/ mu < 1 ->
  cal_magn bc' fuel g m l mu K b = Ok ((- EINVAL)%Z, (l, K, b)).
Proof.
  intros -> H. unfold cal_magn.
  assert (E1 : (flit 10 1 : R) = 1) by (cbn [flit NumR]; lits; lra). rewrite E1.
  replace (true && _) with true; [reflexivity|]. symmetry. cbn [andb flt NumR].
  destruct H as [H|[H|[H|[H|H]]]].
  5: { destruct (Rltb_spec mu 1); [|lra]. now rewrite !orb_true_r. }
  all: apply Nat.eqb_neq in H; rewrite H; cbn [negb orb]; now rewrite ?orb_true_r.
Qed.
Print Assumptions C125_magn_rejects.
Example C125_magn_rejects_case fuel g (m : mtx R) K b :
  cal_magn true fuel g m 1 (/ 2) K b = Ok ((- EINVAL)%Z, (1, K, b)).
Proof. apply C125_magn_rejects; auto. right; right; right; right. lra. Qed.

(** A single reading divides zero by zero instead of being refused. *)
Theorem C125_one_reading_refuted bc fuel g p tl l mu K bb :
  (2 <= fuel)%nat -> room 3 3 K -> (3 <= length bb)%nat -> 1 <= mu ->
  (forall j, (j < 3)%nat -> separated (col_of 1 p j)) ->
  cal_magn bc fuel (Some g) (mat_of 1 3 p tl) l mu K (Vec 3 bb) = NotReal.
Proof.
  intros Hf HK Hb Hmu Hs. pose proof HK as (Kr & Kc & _). unfold cal_magn. rewrite Kr, Kc.
  change (mcols (mat_of 1 3 p tl)) with 3%nat. cbn [vsz Nat.eqb negb orb].
  replace (mu <? flit 10 1)%num with false.
  2: { assert (E : (flit 10 1 : R) = 1) by (cbn [flit NumR]; lits; lra). rewrite E. cbn [flt NumR]. destruct (Rltb_spec mu 1); auto; lra. }
  rewrite andb_false_r.
  erewrite bind_eq.
  2: { apply magn_start_ok with (c := fun j => p 0%nat j) (rho := 0); auto.
       - intros j _. split; exists 0%nat; (split; [lia|lra]).
       - intros i j Hi Hj. replace i with 0%nat by lia. lra. }
  cbv beta iota. cbn [vbuf].
  change (Vec (vsz (Vec 3 bb)) (cells [- p 0%nat 0%nat; - p 0%nat 1%nat; - p 0%nat 2%nat] ++ skipn 3 bb))
    with (vec_of [- p 0%nat 0%nat; - p 0%nat 1%nat; - p 0%nat 2%nat] (skipn 3 bb)).
  unfold magn_sphere.
  rewrite mtx_init_identity with (r := 4%nat) (c := 4%nat) by apply room_def.
  cbn [bind].
  change (mrows (mat_of 1 3 p tl)) with 1%nat. cbn [for_].
  assert (Z : rnorm [p 0%nat 0%nat + - p 0%nat 0%nat; p 0%nat 1%nat + - p 0%nat 1%nat; p 0%nat 2%nat + - p 0%nat 2%nat] = 0).
  { unfold rnorm. rewrite <- sqrt_0. f_equal. cbn. ring. }
  assert (J : magn_jac_shp bc (mat_of 1 3 p tl)
                (vec_of [- p 0%nat 0%nat; - p 0%nat 1%nat; - p 0%nat 2%nat] (skipn 3 bb)) = NotReal).
  { unfold magn_jac_shp. rewrite mtx_init_empty with (r := 1%nat) (c := 4%nat) by apply room_def.
    cbn [bind]. change (mrows (mat_of 1 3 p tl)) with 1%nat. cbn [for_].
    rewrite magn_row_ok by lia. cbn [bind].
    rewrite magn_f_shp_ok. cbn [bind]. rewrite Z.
    cbn -[fdiv]. now rewrite Rdivo_0. }
  change (vec_of [- p 0%nat 0%nat; - p 0%nat 1%nat; - p 0%nat 2%nat] (skipn 3 bb))
    with (Vec 3 (cells [- p 0%nat 0%nat; - p 0%nat 1%nat; - p 0%nat 2%nat] ++ skipn 3 bb)) in J.
  rewrite J. reflexivity.
Qed.
Print Assumptions C125_one_reading_refuted.
Example C125_one_reading_refuted_case :
  cal_magn true 2 (Some 0) (mat_of 1 3 (fun _ j => IZR (Z.of_nat j)) []) 1 10 (mtx_def 3 3) (Vec 3 (fresh 3)) = NotReal.
Proof.
  apply C125_one_reading_refuted; try (cbn; lia || lra); [apply room_def|].
  intros j _. apply (@separated_IZR 1 (fun _ j => Z.of_nat j)).
Qed.
