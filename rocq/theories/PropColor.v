(** Colorimetry: conversions between colour spaces, RGB output, tables
    (C82, C83, C91, C106). *)
From Coq Require Import List Arith ZArith Bool Reals Lra Lia.
From Verif Require Import Base BaseFacts SpecReal SpecMtx SpecColor NumR Libm LibmR Out RTac
  MVec MMtx PMtx PMtxOps PMtxR MColorTab MColor.
Import ListNotations.
Set Implicit Arguments.
Local Open Scope R_scope.

Implicit Types (bc cap : bool).

(** ** C82: conversions *)

Lemma lit_10_1 : Rlit 10 1 = 1.
Proof. lits. lra. Qed.

Lemma div0 a b : b <> 0 -> a / b = 0 -> a = 0.
Proof. intros H E. apply (f_equal (fun z => z * b)) in E. unfold Rdiv in E.
  rewrite Rmult_assoc, Rinv_l, Rmult_1_r, Rmult_0_l in E by exact H. exact E. Qed.

Ltac colr := cbn [px py pY yobs yill fx fy fYY cX cY cZ xobs xill fX fY fZ cu cv uobs uill fu fv
  bind fst snd] in *.
Ltac num := cbv [fgt fge fne]; cbn [f0 f1 fadd fsub fmul fneg fabs fdiv fsqrt flt fle feq flit fofZ NumR].

Lemma xyy_xyz_eq (a : xyy R) o :
  py a <> 0 ->
  xyy_xyz a o = Ok (0%Z, Xyz (px a * pY a / py a) (pY a) ((1 - px a - py a) * pY a / py a)
                          (yobs a) (yill a) (fX o) (fY o) (fZ o)).
Proof. intros H. unfold xyy_xyz. num. rewrite !Rdivo_ok by exact H. reflexivity. Qed.

Lemma xyz_xyy_eq (a : xyz R) o :
  cX a + cY a + cZ a <> 0 ->
  xyz_xyy a o = Ok (0%Z, Xyy (cX a / (cX a + cY a + cZ a)) (cY a / (cX a + cY a + cZ a)) (cY a)
                          (xobs a) (xill a) (fx o) (fy o) (fYY o)).
Proof. intros H. unfold xyz_xyy. num. rewrite !Rdivo_ok by exact H. reflexivity. Qed.

Lemma xyy_uv60_eq (a : xyy R) o :
  -2 * px a + 12 * py a + 3 <> 0 ->
  xyy_uv60 a o = Ok (0%Z, Uv (4 * px a / (-2 * px a + 12 * py a + 3))
                             (6 * py a / (-2 * px a + 12 * py a + 3))
                             (yobs a) (yill a) (fu o) (fv o)).
Proof.
  intros H. unfold xyy_uv60. num. rewrite lit_10_1.
  replace (2 * px a * - (1) + 12 * py a + 3) with (-2 * px a + 12 * py a + 3) by ring.
  rewrite !Rdivo_ok by exact H. reflexivity.
Qed.

Lemma uv60_xyy_eq (a : uv R) :
  2 * cu a - 8 * cv a + 4 <> 0 ->
  uv60_xyy a = Ok (0%Z, Xyy (3 * cu a / (2 * cu a - 8 * cv a + 4))
                            (2 * cv a / (2 * cu a - 8 * cv a + 4)) 1
                            (uobs a) (uill a) (Some 0%Z) (Some 0%Z) (Some 0%Z)).
Proof.
  intros H. unfold uv60_xyy. num.
  replace (Rlit 20 1) with 2 by (lits; lra). replace (Rlit 80 1) with 8 by (lits; lra).
  replace (Rlit 40 1) with 4 by (lits; lra). replace (Rlit 30 1) with 3 by (lits; lra).
  rewrite !Rdivo_ok by exact H. reflexivity.
Qed.

(** xyY to XYZ and back: every chromaticity with y <> 0 and Y <> 0, whatever
    the output structures held *)
Theorem C82_xyY_XYZ_xyY (a : xyy R) (o : xyz R) (o' : xyy R) :
  py a <> 0 -> pY a <> 0 ->
  exists b c, xyy_xyz a o = Ok (0%Z, b) /\ xyz_xyy b o' = Ok (0%Z, c)
    /\ px c = px a /\ py c = py a /\ pY c = pY a /\ yobs c = yobs a /\ yill c = yill a.
Proof.
  intros Hy HY. eexists. eexists. split; [now apply xyy_xyz_eq|].
  assert (D : px a * pY a / py a + pY a + (1 - px a - py a) * pY a / py a = pY a / py a) by (field; exact Hy).
  split. { apply xyz_xyy_eq. colr. rewrite D. intros E. apply HY. exact (div0 Hy E). }
  colr. rewrite D. repeat split; field; auto.
Qed.

Example C82_case1 : py (Xyy (3127 / 10000) (3290 / 10000) 1 0 0 None None None) <> 0.
Proof. cbn [py]. lra. Qed.

(** XYZ to xyY and back *)
Theorem C82_XYZ_xyY_XYZ (a : xyz R) (o : xyy R) (o' : xyz R) :
  cY a <> 0 -> cX a + cY a + cZ a <> 0 ->
  exists b c, xyz_xyy a o = Ok (0%Z, b) /\ xyy_xyz b o' = Ok (0%Z, c)
    /\ cX c = cX a /\ cY c = cY a /\ cZ c = cZ a /\ xobs c = xobs a /\ xill c = xill a.
Proof.
  intros HY HS. eexists. eexists. split; [now apply xyz_xyy_eq|].
  split. { apply xyy_xyz_eq. colr. intros E. apply HY. exact (div0 HS E). }
  colr. repeat split; field; auto.
Qed.

(** CIE 1960 (u, v) to (x, y) and back: the luminance is set to 1 *)
Theorem C82_uv60_xy_uv60 (a o : uv R) :
  2 * cu a - 8 * cv a + 4 <> 0 ->
  exists b c, uv60_xyy a = Ok (0%Z, b) /\ pY b = 1 /\ xyy_uv60 b o = Ok (0%Z, c)
    /\ cu c = cu a /\ cv c = cv a /\ uobs c = uobs a /\ uill c = uill a.
Proof.
  intros H. eexists. eexists. split; [now apply uv60_xyy_eq|]. split; [reflexivity|].
  assert (D : -2 * (3 * cu a / (2 * cu a - 8 * cv a + 4)) + 12 * (2 * cv a / (2 * cu a - 8 * cv a + 4)) + 3
     = 12 / (2 * cu a - 8 * cv a + 4)) by (field; exact H).
  split. { apply xyy_uv60_eq. colr. rewrite D. intros E.
    apply div0 in E; [lra|exact H]. }
  colr. rewrite D. repeat split; field; auto.
Qed.

Example C82_case2 : 2 * (1978 / 10000) - 8 * (3122 / 10000) + 4 <> 0.
Proof. lra. Qed.

(** (x, y) to CIE 1960 (u, v) and back *)
Theorem C82_xy_uv60_xy (a : xyy R) (o : uv R) :
  -2 * px a + 12 * py a + 3 <> 0 ->
  exists b c, xyy_uv60 a o = Ok (0%Z, b) /\ uv60_xyy b = Ok (0%Z, c)
    /\ px c = px a /\ py c = py a /\ pY c = 1 /\ yobs c = yobs a /\ yill c = yill a.
Proof.
  intros H. eexists. eexists. split; [now apply xyy_uv60_eq|].
  set (d := -2 * px a + 12 * py a + 3) in *.
  assert (D : 2 * (4 * px a / d) - 8 * (6 * py a / d) + 4 = 12 / d)
    by (unfold d; field; exact H).
  split. { apply uv60_xyy_eq. colr. fold d. rewrite D. intros E.
    apply div0 in E; [lra|exact H]. }
  colr. fold d. rewrite D. repeat split; field; auto.
Qed.

(** CIE 1960 (u, v) to CIE 1976 (u', v') and back, and the other way round:
    every colour, members and flags alike *)
Theorem C82_uv60_uv76 (a : uv R) :
  exists b, uv60_uv76 a = Ok (0%Z, b) /\ uv76_uv60 b = Ok (0%Z, a)
    /\ cu b = cu a /\ cv b = 3 / 2 * cv a.
Proof.
  eexists. split; [reflexivity|]. unfold uv76_uv60. num. colr.
  replace (Rlit 15 1) with (3 / 2) by (lits; lra).
  rewrite Rdivo_ok by lra. cbn [bind]. split; [|split; [reflexivity|ring]].
  destruct a; colr. do 3 f_equal. field.
Qed.
Theorem C82_uv76_uv60 (a : uv R) :
  exists b, uv76_uv60 a = Ok (0%Z, b) /\ uv60_uv76 b = Ok (0%Z, a)
    /\ cu b = cu a /\ cv b = 2 / 3 * cv a.
Proof.
  eexists. unfold uv76_uv60, uv60_uv76. num. replace (Rlit 15 1) with (3 / 2) by (lits; lra).
  rewrite Rdivo_ok by lra. cbn [bind]. split; [reflexivity|]. colr.
  split; [|split; [reflexivity|field]].
  destruct a; colr. do 3 f_equal. field.
Qed.

Lemma xyz_uv60_eq (a : xyz R) o :
  cX a + cY a + cZ a <> 0 -> cX a + 15 * cY a + 3 * cZ a <> 0 ->
  xyz_uv60 a o = Ok (0%Z, Uv (4 * cX a / (cX a + 15 * cY a + 3 * cZ a))
                             (6 * cY a / (cX a + 15 * cY a + 3 * cZ a))
                             (xobs a) (xill a) (fu o) (fv o)).
Proof.
  intros H1 H2. unfold xyz_uv60. rewrite xyz_xyy_eq by exact H1. cbn [bind].
  assert (D : -2 * (cX a / (cX a + cY a + cZ a)) + 12 * (cY a / (cX a + cY a + cZ a)) + 3
     = (cX a + 15 * cY a + 3 * cZ a) / (cX a + cY a + cZ a)) by (field; exact H1).
  rewrite xyy_uv60_eq; colr; rewrite D.
  - do 3 f_equal; field; auto.
  - intros E. apply div0 in E; [contradiction|exact H1].
Qed.

(** XYZ to (u, v): u = 4X / (X + 15Y + 3Z), v = 6Y / (X + 15Y + 3Z), and back
    to the tristimulus divided by its luminance *)
Theorem C82_XYZ_uv60_XYZ (a : xyz R) (o : uv R) (o' : xyz R) :
  cY a <> 0 -> cX a + cY a + cZ a <> 0 -> cX a + 15 * cY a + 3 * cZ a <> 0 ->
  exists b c, xyz_uv60 a o = Ok (0%Z, b) /\ uv60_xyz b o' = Ok (0%Z, c)
    /\ cu b = 4 * cX a / (cX a + 15 * cY a + 3 * cZ a)
    /\ cv b = 6 * cY a / (cX a + 15 * cY a + 3 * cZ a)
    /\ cX c = cX a / cY a /\ cY c = 1 /\ cZ c = cZ a / cY a
    /\ xobs c = xobs a /\ xill c = xill a.
Proof.
  intros HY H1 H2. eexists. eexists. split; [now apply xyz_uv60_eq|].
  set (s := cX a + 15 * cY a + 3 * cZ a) in *.
  assert (D : 2 * (4 * cX a / s) - 8 * (6 * cY a / s) + 4 = 12 * (cX a + cY a + cZ a) / s)
    by (unfold s; field; exact H2).
  unfold uv60_xyz. split.
  { rewrite uv60_xyy_eq; colr; fold s; rewrite D.
    - rewrite xyy_xyz_eq; colr; [reflexivity|].
      intros E. apply HY.
      replace (2 * (6 * cY a / s) / (12 * (cX a + cY a + cZ a) / s)) with (cY a / (cX a + cY a + cZ a)) in E
        by (field; auto).
      exact (div0 H1 E).
    - intros E. apply div0 in E; [lra|exact H2]. }
  colr. split; [reflexivity|]. split; [reflexivity|]. unfold s in *. repeat split; field; auto.
Qed.

Example C82_case3 :
  cY (Xyz (9505 / 10000) 1 (10888 / 10000) 0 0 None None None) <> 0
  /\ 9505 / 10000 + 1 + 10888 / 10000 <> 0 /\ 9505 / 10000 + 15 * 1 + 3 * (10888 / 10000) <> 0.
Proof. cbn [cY]. lra. Qed.

(** Not every colour converts: black, (0, 0, 0), has no chromaticity, and the
    functions divide by zero instead of answering an error. *)
Theorem C82_black_refuted (o : xyy R) (o' : uv R) obs ill f1 f2 f3 :
  xyz_xyy (Xyz 0 0 0 obs ill f1 f2 f3) o = NotReal
  /\ xyz_uv60 (Xyz 0 0 0 obs ill f1 f2 f3) o' = NotReal.
Proof.
  assert (E : forall o, xyz_xyy (Xyz 0 0 0 obs ill f1 f2 f3) o = NotReal).
  { intros p. unfold xyz_xyy. num. colr. replace (0 + 0 + 0) with 0 by ring.
    now rewrite Rdivo_0. }
  split; [apply E|]. unfold xyz_uv60. now rewrite E.
Qed.

(** The invalid flags of the input are dropped: whatever colour is converted,
    the flags of the result are those its structure held before. *)
Theorem C82_invalid_flags_refuted (a : xyz R) (b : xyy R) ox oy ou r :
  (xyz_xyy a oy = Ok r -> fx (snd r) = fx oy /\ fy (snd r) = fy oy /\ fYY (snd r) = fYY oy)
  /\ (forall r, xyy_xyz b ox = Ok r -> fX (snd r) = fX ox /\ fY (snd r) = fY ox /\ fZ (snd r) = fZ ox)
  /\ (forall r, xyy_uv60 b ou = Ok r -> fu (snd r) = fu ou /\ fv (snd r) = fv ou)
  /\ (forall r, xyz_uv60 a ou = Ok r -> fu (snd r) = fu ou /\ fv (snd r) = fv ou).
Proof.
  assert (U : forall c r, xyy_uv60 c ou = Ok r -> fu (snd r) = fu ou /\ fv (snd r) = fv ou).
  { intros c s. unfold xyy_uv60.
    destruct (fdiv _ _) as [? | | | ]; cbn [bind]; try discriminate.
    destruct (fdiv _ _) as [? | | | ]; cbn [bind]; try discriminate. intros [= <-]. now cbn. }
  repeat split.
  - revert H. unfold xyz_xyy. destruct (fdiv _ _) as [? | | | ]; cbn [bind]; try discriminate.
    destruct (fdiv _ _) as [? | | | ]; cbn [bind]; try discriminate. intros [= <-]. now cbn.
  - revert H. unfold xyz_xyy. destruct (fdiv _ _) as [? | | | ]; cbn [bind]; try discriminate.
    destruct (fdiv _ _) as [? | | | ]; cbn [bind]; try discriminate. intros [= <-]. now cbn.
  - revert H. unfold xyz_xyy. destruct (fdiv _ _) as [? | | | ]; cbn [bind]; try discriminate.
    destruct (fdiv _ _) as [? | | | ]; cbn [bind]; try discriminate. intros [= <-]. now cbn.
  - revert H. unfold xyy_xyz. destruct (fdiv _ _) as [? | | | ]; cbn [bind]; try discriminate.
    destruct (fdiv _ _) as [? | | | ]; cbn [bind]; try discriminate. intros [= <-]. now cbn.
  - revert H. unfold xyy_xyz. destruct (fdiv _ _) as [? | | | ]; cbn [bind]; try discriminate.
    destruct (fdiv _ _) as [? | | | ]; cbn [bind]; try discriminate. intros [= <-]. now cbn.
  - revert H. unfold xyy_xyz. destruct (fdiv _ _) as [? | | | ]; cbn [bind]; try discriminate.
    destruct (fdiv _ _) as [? | | | ]; cbn [bind]; try discriminate. intros [= <-]. now cbn.
  - now apply U in H.
  - now apply U in H.
  - revert H. unfold xyz_uv60. destruct (xyz_xyy _ _) as [[? c] | | | ]; cbn [bind]; try discriminate.
    destruct (xyy_uv60 c ou) as [[? ?] | | | ] eqn:E; cbn [bind]; try discriminate.
    intros [= <-]. now apply U in E.
  - revert H. unfold xyz_uv60. destruct (xyz_xyy _ _) as [[? c] | | | ]; cbn [bind]; try discriminate.
    destruct (xyy_uv60 c ou) as [[? ?] | | | ] eqn:E; cbn [bind]; try discriminate.
    intros [= <-]. now apply U in E.
Qed.

(** ** C83: RGB output *)

Lemma clamp01_range v : 0 <= clamp01 v <= 1.
Proof. unfold clamp01, Rmin, Rmax. destruct (Rle_dec 0 v), (Rle_dec _ _); lra. Qed.

Lemma channel_spec cap v : channel_of cap v (fst (channel cap v)) (snd (channel cap v)).
Proof.
  unfold channel, channel_of, in_gamut, clamp01. num. rewrite lit_10_1. cbn [fst snd].
  destruct (Rltb_spec v 0), cap; cbn [andb orb].
  - destruct (Rleb_spec 1 0); [lra|]. cbn [andb orb]. split.
    + unfold Rmin, Rmax. destruct (Rle_dec 0 v), (Rle_dec _ _); lra.
    + right. split; [lra|reflexivity].
  - destruct (Rleb_spec 1 v); [lra|]. cbn [andb orb]. split; [reflexivity|].
    right. split; [lra|reflexivity].
  - destruct (Rleb_spec 1 v); cbn [andb orb]; (split;
      [unfold Rmin, Rmax; destruct (Rle_dec 0 v), (Rle_dec _ _); lra|]).
    + right. split; [lra|reflexivity].
    + left. split; [lra|reflexivity].
  - destruct (Rleb_spec 1 v); cbn [andb orb]; (split; [reflexivity|]).
    + right. split; [lra|reflexivity].
    + left. split; [lra|reflexivity].
Qed.

Definition col3 (x y z : R) (i _j : nat) : R :=
  match i with 0%nat => x | 1%nat => y | _ => z end.

Lemma rgbf_mult bc (a : xyz R) f tl :
  exists om, mtx_mult bc (mat_of 3 3 f tl) (Mtx 3 1 (cells [cX a; cY a; cZ a]))
    (mat_of 3 1 (fun _ _ => 0) []) = Ok (0%Z, om)
  /\ rd (mbuf om) 0 = Ok (row3 f 0 (cX a) (cY a) (cZ a))
  /\ rd (mbuf om) 1 = Ok (row3 f 1 (cX a) (cY a) (cZ a))
  /\ rd (mbuf om) 2 = Ok (row3 f 2 (cX a) (cY a) (cZ a)).
Proof.
  replace (Mtx 3 1 (cells [cX a; cY a; cZ a])) with (mat_of 3 1 (col3 (cX a) (cY a) (cZ a)) []) by reflexivity.
  rewrite mtx_mult_R by (unfold room; cbn; auto). eexists. split; [reflexivity|].
  unfold row3. cbn [mat_of mbuf]. split; [|split]; cbn; f_equal; unfold mmul; cbn [bigsum col3]; ring.
Qed.

Lemma xyz_rgbf_eq bc cap (a : xyz R) f tl :
  xyz_rgbf bc cap a (mat_of 3 3 f tl) =
  Ok (0%Z, let c i := channel cap (row3 f i (cX a) (cY a) (cZ a)) in
           Rgbf (fst (c 0%nat)) (fst (c 1%nat)) (fst (c 2%nat)) 1
                (snd (c 0%nat)) (snd (c 1%nat)) (snd (c 2%nat)) (Some 0%Z)).
Proof.
  unfold xyz_rgbf. rewrite !mtx_init_empty with (r := 3%nat) (c := 1%nat) by (apply room_def).
  cbn [bind]. rewrite rest_def.
  destruct (rgbf_mult bc a f tl) as (om & E & E0 & E1 & E2).
  replace (mat_of 3 1 (fun _ _ => f0) []) with (mat_of 3 1 (fun _ _ => 0) []) by reflexivity.
  set (z := mat_of 3 1 (fun _ _ => 0) []) in *. unfold wr at 1 2 3. unfold z at 1 2 3. cbn [mat_of mbuf].
  cbn -[mtx_mult channel rd z]. unfold z in *. unfold cells in E. cbn [map] in E. rewrite E.
  cbn [bind Z.eqb negb]. rewrite E0, E1, E2. cbn [bind].
  destruct (channel cap _), (channel cap _), (channel cap _). reflexivity.
Qed.

(** Every tristimulus and every 3 x 3 matrix, with either setting of the cap:
    status 0, and each channel is the matrix product, limited to [0, 1] when
    capping is on, with its flag raised exactly outside the gamut. *)
Theorem C83_rgbf bc cap (a : xyz R) f tl :
  exists o, xyz_rgbf bc cap a (mat_of 3 3 f tl) = Ok (0%Z, o)
    /\ channel_of cap (row3 f 0 (cX a) (cY a) (cZ a)) (rr o) (fr o)
    /\ channel_of cap (row3 f 1 (cX a) (cY a) (cZ a)) (rg o) (fg o)
    /\ channel_of cap (row3 f 2 (cX a) (cY a) (cZ a)) (rb o) (fb o)
    /\ ra o = 1 /\ fa o = Some 0%Z
    /\ (cap = true -> 0 <= rr o <= 1 /\ 0 <= rg o <= 1 /\ 0 <= rb o <= 1).
Proof.
  eexists. split; [apply xyz_rgbf_eq|]. cbn [rr rg rb ra fr fg fb fa].
  split; [apply channel_spec|]. split; [apply channel_spec|]. split; [apply channel_spec|].
  split; [reflexivity|]. split; [reflexivity|]. intros ->.
  destruct (channel_spec true (row3 f 0 (cX a) (cY a) (cZ a))) as [-> _].
  destruct (channel_spec true (row3 f 1 (cX a) (cY a) (cZ a))) as [-> _].
  destruct (channel_spec true (row3 f 2 (cX a) (cY a) (cZ a))) as [-> _].
  split; [|split]; apply clamp01_range.
Qed.

Lemma trunc_nonneg x : 0 <= x -> IZR (RtruncZ x) <= x < IZR (RtruncZ x) + 1.
Proof.
  intros H. unfold RtruncZ. destruct (Rle_dec 0 x); [|lra].
  destruct (base_Int_part x). lra.
Qed.

Lemma to_u8_spec cap v :
  exists k, to_u8 (cap8 cap (fst (channel cap v))) = Ok k
    /\ channel8_of v k (snd (channel cap v)).
Proof.
  destruct (channel_spec cap v) as [E F].
  assert (C : cap8 cap (fst (channel cap v)) = clamp01 v).
  { unfold cap8. rewrite E. destruct cap; [reflexivity|]. num. rewrite lit_10_1.
    unfold clamp01, Rmin, Rmax. destruct (Rltb_spec 1 v).
    - destruct (Rltb_spec 1 0); [lra|]. destruct (Rle_dec 0 v), (Rle_dec _ _); lra.
    - destruct (Rltb_spec v 0); destruct (Rle_dec 0 v), (Rle_dec _ _); lra. }
  rewrite C. unfold to_u8. num. replace (Rlit 2550 1) with 255 by (lits; lra).
  pose proof (clamp01_range v) as B. set (w := clamp01 v) in *. cbn [ftrunc NumMR].
  destruct (@trunc_nonneg (w * 255)) as [T1 T2]; [lra|]. set (k := RtruncZ (w * 255)) in *.
  assert (K : (0 <= k <= 255)%Z).
  { split.
    - apply Z.lt_succ_r. apply lt_IZR. unfold Z.succ. rewrite plus_IZR. lra.
    - apply le_IZR. lra. }
  destruct (Z.leb_spec 0 k); [|lia]. destruct (Z.leb_spec k 255); [|lia]. cbn [andb].
  exists k. split; [reflexivity|]. split; [exact K|]. split; [fold w; lra|exact F].
Qed.

(** Eight-bit output: every channel lies in 0..255 and is the clamped value
    scaled to 255 and rounded down, whatever the cap setting, so the
    conversion to uint8_t is always defined. *)
Theorem C83_rgb8 bc cap (a : xyz R) f tl o :
  exists o', xyz_rgb8 bc cap a (mat_of 3 3 f tl) o = Ok (0%Z, o')
    /\ channel8_of (row3 f 0 (cX a) (cY a) (cZ a)) (r8 o') (fr8 o')
    /\ channel8_of (row3 f 1 (cX a) (cY a) (cZ a)) (g8 o') (fg8 o')
    /\ channel8_of (row3 f 2 (cX a) (cY a) (cZ a)) (b8 o') (fb8 o')
    /\ a8 o' = 255%Z.
Proof.
  unfold xyz_rgb8. rewrite xyz_rgbf_eq. cbn [bind Z.eqb negb rr rg rb fr fg fb].
  destruct (to_u8_spec cap (row3 f 0 (cX a) (cY a) (cZ a))) as (k0 & -> & H0).
  destruct (to_u8_spec cap (row3 f 1 (cX a) (cY a) (cZ a))) as (k1 & -> & H1).
  destruct (to_u8_spec cap (row3 f 2 (cX a) (cY a) (cZ a))) as (k2 & -> & H2).
  cbn [bind]. eexists. split; [reflexivity|]. cbn. auto.
Qed.

(** A matrix of another shape is rejected when bounds checks are on: every
    flag is raised and no eight-bit channel is changed. *)
Theorem C83_rejects cap (a : xyz R) (m : mtx R) o :
  (mrows m <> 3 \/ mcols m <> 3)%nat ->
  (exists p, xyz_rgbf true cap a m = Ok ((- EINVAL)%Z, p)
     /\ fr p = Some 1%Z /\ fg p = Some 1%Z /\ fb p = Some 1%Z /\ fa p = Some 1%Z)
  /\ (exists p, xyz_rgb8 true cap a m o = Ok ((- EINVAL)%Z, p)
     /\ fr8 p = Some 1%Z /\ fg8 p = Some 1%Z /\ fb8 p = Some 1%Z /\ fa8 p = Some 1%Z
     /\ r8 p = r8 o /\ g8 p = g8 o /\ b8 p = b8 o /\ a8 p = a8 o).
Proof.
  intros H.
  assert (E : exists p, xyz_rgbf true cap a m = Ok ((- EINVAL)%Z, p)
     /\ fr p = Some 1%Z /\ fg p = Some 1%Z /\ fb p = Some 1%Z /\ fa p = Some 1%Z).
  { unfold xyz_rgbf. rewrite !mtx_init_empty with (r := 3%nat) (c := 1%nat) by (apply room_def).
    cbn [bind]. rewrite rest_def. cbn -[mtx_mult channel rd].
    rewrite mtx_mult_bad; [cbn; eauto 10|reflexivity|]. cbn [mrows mcols mat_of]. lia. }
  split; [exact E|]. destruct E as (p & E & _). unfold xyz_rgb8. rewrite E. cbn. eexists. split; [reflexivity|].
  cbn. auto 10.
Qed.

(** Without the cap the floating-point channels are not confined to [0, 1]. *)
Theorem C83_uncapped_refuted bc :
  exists (a : xyz R) f o, xyz_rgbf bc false a (mat_of 3 3 f []) = Ok (0%Z, o) /\ rr o = 2 /\ rg o = -1.
Proof.
  exists (Xyz 2 (-1) 0 0 0 None None None), mid. eexists. split; [apply xyz_rgbf_eq|].
  destruct (channel_spec false (row3 mid 0 2 (-1) 0)) as [E1 _].
  destruct (channel_spec false (row3 mid 1 2 (-1) 0)) as [E2 _].
  cbn [rr rg cX cY cZ]. rewrite E1, E2. unfold row3, mid. cbn. lra.
Qed.

(** Full scale, 1.0 exactly, is flagged as out of gamut. *)
Theorem C83_white_refuted bc cap :
  exists (a : xyz R) f o, xyz_rgbf bc cap a (mat_of 3 3 f []) = Ok (0%Z, o)
    /\ rr o = 1 /\ fr o = Some 1%Z.
Proof.
  exists (Xyz 1 1 1 0 0 None None None), mid. eexists. split; [apply xyz_rgbf_eq|].
  destruct (channel_spec cap (row3 mid 0 1 1 1)) as [E1 E2].
  cbn [rr fr cX cY cZ]. replace (row3 mid 0 1 1 1) with 1 in * by (unfold row3, mid; cbn; ring).
  rewrite E1. split.
  - destruct cap; [|reflexivity]. unfold clamp01, Rmin, Rmax. destruct (Rle_dec 0 1), (Rle_dec _ _); lra.
  - destruct E2 as [[G _]|[_ G]]; [unfold in_gamut in G; lra|exact G].
Qed.

(** ** C106: the RGB matrices *)

(** entry (i, j) of a matrix of the table *)
Definition ccm_entry (k i j : nat) : R := IZR (nth (3 * i + j) (nth k ccm_tab []) 0%Z) / 10 ^ 12.

Lemma ccm_shape : forallb (fun l => Nat.eqb (length l) 9) ccm_tab = true.
Proof. reflexivity. Qed.
Lemma ccm_count : length ccm_tab = 13%nat.
Proof. reflexivity. Qed.

Lemma lit12 m : Rlit m 12 = IZR m / 10 ^ 12.
Proof. rewrite (Rlit_div m 12 1000000000000) by (reflexivity || discriminate). f_equal. lra. Qed.

Lemma rgbccm_get_eq k :
  (k < 13)%nat -> rgbccm_get k = Ok (mat_of 3 3 (ccm_entry k) []).
Proof.
  intros H. unfold rgbccm_get, elt.
  destruct (nth_error ccm_tab k) as [l|] eqn:E;
    [|apply nth_error_None in E; rewrite ccm_count in E; lia].
  cbn [bind]. f_equal. pose proof (nth_error_In _ _ E) as I.
  pose proof ccm_shape as S. rewrite forallb_forall in S. specialize (S l I). apply Nat.eqb_eq in S.
  unfold mat_of. f_equal.
  destruct l as [|a0 [|a1 [|a2 [|a3 [|a4 [|a5 [|a6 [|a7 [|a8 [|? ?]]]]]]]]]]; try discriminate S.
  cbn [map cells].
  assert (G : forall i j m, nth (3 * i + j) [a0; a1; a2; a3; a4; a5; a6; a7; a8] 0%Z = m ->
     ccm_entry k i j = Rlit m 12).
  { intros i j m <-. rewrite lit12. unfold ccm_entry. now rewrite (nth_error_nth _ _ _ E). }
  cbn. unfold ccm_tab_e.
  rewrite (G 0 0 a0 eq_refl)%nat, (G 0 1 a1 eq_refl)%nat, (G 0 2 a2 eq_refl)%nat,
    (G 1 0 a3 eq_refl)%nat, (G 1 1 a4 eq_refl)%nat, (G 1 2 a5 eq_refl)%nat,
    (G 2 0 a6 eq_refl)%nat, (G 2 1 a7 eq_refl)%nat, (G 2 2 a8 eq_refl)%nat. reflexivity.
Qed.

Definition detZ (l : list Z) : Z :=
  let e i := nth i l 0%Z in
  (e 0%nat * (e 4%nat * e 8%nat - e 5%nat * e 7%nat) - e 1%nat * (e 3%nat * e 8%nat - e 5%nat * e 6%nat)
   + e 2%nat * (e 3%nat * e 7%nat - e 4%nat * e 6%nat))%Z.
Lemma ccm_dets : forallb (fun l => negb (Z.eqb (detZ l) 0)) ccm_tab = true.
Proof. vm_compute. reflexivity. Qed.

(** determinant of three rows *)
Definition det3 (f : nat -> nat -> R) : R :=
  f 0%nat 0%nat * (f 1%nat 1%nat * f 2%nat 2%nat - f 1%nat 2%nat * f 2%nat 1%nat)
  - f 0%nat 1%nat * (f 1%nat 0%nat * f 2%nat 2%nat - f 1%nat 2%nat * f 2%nat 0%nat)
  + f 0%nat 2%nat * (f 1%nat 0%nat * f 2%nat 1%nat - f 1%nat 1%nat * f 2%nat 0%nat).

Lemma ccm_det k : (k < 13)%nat -> det3 (ccm_entry k) <> 0.
Proof.
  intros H. pose proof ccm_dets as D. rewrite forallb_forall in D.
  assert (I : In (nth k ccm_tab []) ccm_tab) by (apply nth_In; rewrite ccm_count; exact H).
  specialize (D _ I). apply negb_true_iff, Z.eqb_neq in D.
  set (l := nth k ccm_tab []) in *.
  assert (E : det3 (ccm_entry k) = IZR (detZ l) / (10 ^ 36)).
  { unfold det3, detZ, ccm_entry. fold l. cbn [Nat.mul Nat.add].
    rewrite !plus_IZR, !minus_IZR, !mult_IZR, !minus_IZR, !mult_IZR. field. }
  rewrite E. intros E'. apply div0 in E'; [|apply pow_nonzero; lra].
  apply D. now apply eq_IZR.
Qed.

Lemma solve3 f x y z :
  det3 f <> 0 -> row3 f 0 x y z = 0 -> row3 f 1 x y z = 0 -> row3 f 2 x y z = 0 -> x = 0 /\ y = 0 /\ z = 0.
Proof.
  unfold row3. intros D E0 E1 E2.
  assert (X : det3 f * x = 0).
  { transitivity ((f 1%nat 1%nat * f 2%nat 2%nat - f 1%nat 2%nat * f 2%nat 1%nat) * 0
      - (f 0%nat 1%nat * f 2%nat 2%nat - f 0%nat 2%nat * f 2%nat 1%nat) * 0
      + (f 0%nat 1%nat * f 1%nat 2%nat - f 0%nat 2%nat * f 1%nat 1%nat) * 0); [|ring].
    rewrite <- E0 at 1. rewrite <- E1 at 1. rewrite <- E2 at 1. unfold det3. ring. }
  assert (Y : det3 f * y = 0).
  { transitivity (- (f 1%nat 0%nat * f 2%nat 2%nat - f 1%nat 2%nat * f 2%nat 0%nat) * 0
      + (f 0%nat 0%nat * f 2%nat 2%nat - f 0%nat 2%nat * f 2%nat 0%nat) * 0
      - (f 0%nat 0%nat * f 1%nat 2%nat - f 0%nat 2%nat * f 1%nat 0%nat) * 0); [|ring].
    rewrite <- E0 at 1. rewrite <- E1 at 1. rewrite <- E2 at 1. unfold det3. ring. }
  assert (Z : det3 f * z = 0).
  { transitivity ((f 1%nat 0%nat * f 2%nat 1%nat - f 1%nat 1%nat * f 2%nat 0%nat) * 0
      - (f 0%nat 0%nat * f 2%nat 1%nat - f 0%nat 1%nat * f 2%nat 0%nat) * 0
      + (f 0%nat 0%nat * f 1%nat 1%nat - f 0%nat 1%nat * f 1%nat 0%nat) * 0); [|ring].
    rewrite <- E0 at 1. rewrite <- E1 at 1. rewrite <- E2 at 1. unfold det3. ring. }
  apply Rmult_integral in X, Y, Z. intuition.
Qed.

(** Every matrix of the table is a 3 x 3 matrix, accepted by the conversions,
    and distinct tristimulus values give distinct linear RGB values. *)
Theorem C106_injective bc k (a b : xyz R) :
  (k < 13)%nat ->
  exists m o1 o2, rgbccm_get k = Ok m /\ mrows m = 3%nat /\ mcols m = 3%nat
    /\ xyz_rgbf bc false a m = Ok (0%Z, o1) /\ xyz_rgbf bc false b m = Ok (0%Z, o2)
    /\ (rr o1 = rr o2 -> rg o1 = rg o2 -> rb o1 = rb o2 ->
        cX a = cX b /\ cY a = cY b /\ cZ a = cZ b).
Proof.
  intros H. exists (mat_of 3 3 (ccm_entry k) []). do 2 eexists.
  split; [now apply rgbccm_get_eq|]. split; [reflexivity|]. split; [reflexivity|].
  split; [apply xyz_rgbf_eq|]. split; [apply xyz_rgbf_eq|]. cbn [rr rg rb].
  assert (C : forall v, fst (channel false v) = v) by (intros v; apply (channel_spec false v)).
  rewrite !C. intros E0 E1 E2.
  destruct (@solve3 (ccm_entry k) (cX a - cX b) (cY a - cY b) (cZ a - cZ b)) as (X & Y & Z).
  - now apply ccm_det.
  - unfold row3 in *. lra.
  - unfold row3 in *. lra.
  - unfold row3 in *. lra.
  - lra.
Qed.

(** An identifier outside the enumeration reads outside the table. *)
Theorem C106_unknown_refuted k : (13 <= k)%nat -> @rgbccm_get R _ k = UB OOBRead.
Proof.
  intros H. unfold rgbccm_get, elt. destruct (nth_error ccm_tab k) eqn:E; [|reflexivity].
  assert (L : nth_error ccm_tab k <> None) by congruence. apply nth_error_Some in L.
  rewrite ccm_count in L. lia.
Qed.

(** ** C91: illuminants *)

(** Only the 2 degree observer has white points; identifiers 0 to 7 with that
    observer find their own entry, every other request is rejected. *)
Theorem C91_found illum :
  (0 <= illum <= 7)%Z ->
  illum_get 0 illum = (0%Z, Some (Z.to_nat illum))
  /\ nth (Z.to_nat illum) illum_ids (-1, -1)%Z = (illum, 0%Z).
Proof.
  intros H. assert (C : (illum = 0 \/ illum = 1 \/ illum = 2 \/ illum = 3 \/ illum = 4 \/ illum = 5
    \/ illum = 6 \/ illum = 7)%Z) by lia.
  destruct C as [->|[->|[->|[->|[->|[->|[->| ->]]]]]]]; split; reflexivity.
Qed.

Theorem C91_rejects obs illum :
  ~ (obs = 0 /\ 0 <= illum <= 7)%Z -> illum_get obs illum = ((- EINVAL)%Z, None).
Proof.
  intros H. unfold illum_get. destruct (find _ _) as [i|] eqn:E; [|reflexivity]. exfalso.
  apply find_some in E. destruct E as [I E]. apply in_seq in I. change (length illum_ids) with 8%nat in I.
  assert (B : nth i illum_ids (-1, -1)%Z = (Z.of_nat i, 0%Z)).
  { destruct i as [|[|[|[|[|[|[|[|i]]]]]]]]; try reflexivity; lia. }
  rewrite B in E. apply andb_true_iff in E. destruct E as [E1 E2].
  apply Z.eqb_eq in E1, E2. apply H. lia.
Qed.

(** Every white point has luminance 1 and positive X and Z. *)
Theorem C91_white_points i :
  (i < 8)%nat ->
  exists x z, @illum_xyz R _ i = Ok (x, 1, z) /\ 0 < x < 3 / 2 /\ 0 < z < 3 / 2.
Proof.
  intros H. destruct i as [|[|[|[|[|[|[|[|i]]]]]]]]; try lia; clear H; unfold illum_xyz, illum_tab_e;
    cbn [elt nth_error illum_tab bind]; num;
    (eexists; eexists; split; [f_equal; f_equal; f_equal; lits; lra|]); lits; lra.
Qed.

(** White maps to white: the tristimulus of a matrix's own illuminant, at any
    luminance s, gives three equal channels, to 2 parts in 10000.  (Matrix,
    illuminant): sRGB D65, sRGB D50, Adobe RGB, S-Gamut3, NTSC, PAL, BT.709,
    BT.2020, CIE RGB. *)
Definition ccm_white : list (nat * nat) :=
  [(0, 5); (1, 3); (2, 5); (3, 5); (4, 2); (5, 5); (6, 5); (7, 5); (12, 6)]%nat.

Theorem C106_white bc s k w x z :
  In (k, w) ccm_white -> @illum_xyz R _ w = Ok (x, 1, z) ->
  exists m o, rgbccm_get k = Ok m
    /\ xyz_rgbf bc false (Xyz (s * x) s (s * z) 0 0 None None None) m = Ok (0%Z, o)
    /\ Rabs (rr o - s) <= 2 / 10000 * Rabs s /\ Rabs (rg o - s) <= 2 / 10000 * Rabs s
    /\ Rabs (rb o - s) <= 2 / 10000 * Rabs s.
Proof.
  intros H E. exists (mat_of 3 3 (ccm_entry k) []). eexists.
  assert (K : (k < 13)%nat).
  { unfold ccm_white in H. cbn [In] in H. repeat destruct H as [[= <- <-]|H]; try lia. }
  split; [now apply rgbccm_get_eq|]. split; [apply xyz_rgbf_eq|]. cbn [rr rg rb cX cY cZ].
  assert (C : forall v, fst (channel false v) = v) by (intros v; apply (channel_spec false v)).
  rewrite !C.
  assert (F : forall i, row3 (ccm_entry k) i (s * x) s (s * z) - s = (row3 (ccm_entry k) i x 1 z - 1) * s)
    by (intros; unfold row3; ring).
  rewrite !F, !Rabs_mult.
  assert (G : forall i, (i < 3)%nat -> Rabs (row3 (ccm_entry k) i x 1 z - 1) <= 2 / 10000).
  { clear F C K s. intros i Hi. revert E. unfold ccm_white in H. cbn [In] in H.
    repeat destruct H as [[= <- <-]|H]; try contradiction;
    unfold illum_xyz, illum_tab_e; cbn [elt nth_error illum_tab bind]; num; intros [= <- _ <-];
    unfold row3, ccm_entry; destruct i as [|[|[|i]]]; try lia; clear Hi;
    cbn [ccm_tab nth Nat.mul Nat.add]; lits; apply Rabs_le; lra. }
  split; [|split]; apply Rmult_le_compat_r; try apply Rabs_pos; apply G; lia.
Qed.

Example C106_white_case : exists x z, In (0, 5)%nat ccm_white /\ @illum_xyz R _ 5 = Ok (x, 1, z).
Proof.
  destruct (@C91_white_points 5) as (x & z & E & _); [lia|]. exists x, z. split; [|exact E]. now left.
Qed.

Print Assumptions C82_xyY_XYZ_xyY.
Print Assumptions C82_XYZ_xyY_XYZ.
Print Assumptions C82_uv60_xy_uv60.
Print Assumptions C82_xy_uv60_xy.
Print Assumptions C82_uv60_uv76.
Print Assumptions C82_uv76_uv60.
Print Assumptions C82_XYZ_uv60_XYZ.
Print Assumptions C82_black_refuted.
Print Assumptions C82_invalid_flags_refuted.
Print Assumptions C83_rgbf.
Print Assumptions C83_rgb8.
Print Assumptions C83_rejects.
Print Assumptions C83_uncapped_refuted.
Print Assumptions C83_white_refuted.
Print Assumptions C106_injective.
Print Assumptions C106_unknown_refuted.
Print Assumptions C91_found.
Print Assumptions C91_rejects.
Print Assumptions C91_white_points.
Print Assumptions C106_white.
