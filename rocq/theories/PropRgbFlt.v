(** Eight-bit colours in double precision (C144): what the conversion to
    uint8_t makes of machine numbers, infinities and NaN. *)
From Coq Require Import Floats.PrimFloat.
From Coq Require Import ZArith Reals Lra Lia List Bool.
From Verif Require Import Base BaseFacts NumF NumR Libm LibmR SpecVec SpecReal SpecMtx SpecFlt SpecColor PFlt PFltSum PFltExact PFltUnit PFltVar PFltQuat PSafeFlt PNanQuat PRgbFlt PropSafeFus.
From Verif Require Import Out MVec MMtx MColorTab MColor PVec PMtx PMtxOps PMtxR PropFlt.
Import ListNotations.
Open Scope R_scope.

(** The integer part of a real number, towards zero *)
Definition toward_zero (x : R) (k : Z) : Prop :=
  (0 <= x /\ IZR k <= x < IZR k + 1) \/ (x < 0 /\ IZR k - 1 < x <= IZR k).

(** The only thing assumed of the processor's conversion of a floating-point
    number to an integer: C's rule for finite numbers (C11 6.3.1.4p1; the model
    checks the range of the type itself).  For infinities and NaN the
    conversion is undefined, which shows in the model as a value out of range. *)
Definition casts (M : NumM double) : Prop :=
  (forall x : double, finite x -> toward_zero (FR x) (ftrunc x)) /\
  (forall x : double, ~ finite x -> (ftrunc x < 0)%Z).

(** Row i of the matrix applied to (X, Y, Z) by the machine, and the exact
    value with its error bound on the scale of the eight-bit output *)
Definition mach (f : nat -> nat -> double) (i : nat) (a : xyz double) : double :=
  (zero + f i 0%nat * cX a + f i 1%nat * cY a + f i 2%nat * cZ a)%float.
Definition exact (f : nat -> nat -> double) (i : nat) (a : xyz double) : R :=
  row3 (fun i j => FR (f i j)) i (FR (cX a)) (FR (cY a)) (FR (cZ a)).
Definition tol8 (f : nat -> nat -> double) (i : nat) (a : xyz double) : R :=
  255 * dot_bound 3 (row3 (fun i j => Rabs (FR (f i j))) i (Rabs (FR (cX a))) (Rabs (FR (cY a))) (Rabs (FR (cZ a))))
  + 256 * uu.

(** What an eight-bit channel must be for the machine's value s of the exact
    value x: in range always; x limited to [0, 1], scaled and rounded down, up
    to the rounding errors; saturated for infinities; flagged outside [0, 1). *)
Definition byte_of (s : double) (x tol : R) (k : Z) (fl : option Z) : Prop :=
  (0 <= k <= 255)%Z /\
  (finite s -> IZR k - tol <= 255 * clamp01 x <= IZR k + 1 + tol) /\
  (s = infinity -> k = 255%Z) /\ (s = neg_infinity -> k = 0%Z) /\
  ((finite s /\ in_gamut (FR s) /\ fl = Some 0%Z) \/ (~ (finite s /\ in_gamut (FR s)) /\ fl = Some 1%Z)).

Lemma not_finite_inf : ~ finite infinity /\ ~ finite neg_infinity.
Proof. split; intros H; vm_compute in H; discriminate. Qed.

Lemma inf_neq : infinity <> neg_infinity.
Proof. intros H. apply (f_equal (fun x => (x <? zero)%float)) in H. vm_compute in H. discriminate H. Qed.

Lemma mach_err f i a : finite (mach f i a) -> Rabs (FR (mach f i a) - exact f i a) <= (tol8 f i a - 256 * uu) / 255.
Proof.
  intros H.
  assert (E : mach f i a = dot [f i 0%nat; f i 1%nat; f i 2%nat] [cX a; cY a; cZ a]) by reflexivity.
  rewrite E in *. apply dot_err in H as (_ & _ & B); [|reflexivity].
  rewrite abs_products in B. unfold tol8, exact, row3. cbn [map length rdot] in B.
  replace ((255 * dot_bound 3 (Rabs (FR (f i 0%nat)) * Rabs (FR (cX a)) + Rabs (FR (f i 1%nat)) * Rabs (FR (cY a)) +
    Rabs (FR (f i 2%nat)) * Rabs (FR (cZ a))) + 256 * uu - 256 * uu) / 255)
    with (dot_bound 3 (Rabs (FR (f i 0%nat)) * Rabs (FR (cX a)) + Rabs (FR (f i 1%nat)) * Rabs (FR (cY a)) +
    Rabs (FR (f i 2%nat)) * Rabs (FR (cZ a)))) by (field).
  match goal with |- Rabs (_ - ?x) <= dot_bound 3 ?y =>
    match type of B with Rabs (_ - ?x') <= dot_bound 3 ?y' =>
      replace x with x' by ring; replace y with y' by ring end end.
  exact B.
Qed.

Lemma u8_double M cap s x tol :
  casts M -> is_nan s = false ->
  (finite s -> 255 * Rabs (FR s - x) + 256 * uu <= tol) ->
  exists k, to_u8 (cap8 cap (fst (channel cap s))) = Ok k /\ byte_of s x tol k (snd (channel cap s)).
Proof.
  intros (Cf & _) Nn Ht. destruct (float_cases s) as [N|[F|[-> | ->]]].
  - apply is_nan_nanf in N. congruence.
  - specialize (Ht F). destruct (limited_finite cap s F) as (G & E & Fl).
    fold (limited cap s). pose proof (clamp01_in (FR s)) as W. rewrite <- E in W.
    destruct (scaled _ G W) as (G2 & B & D). unfold to_u8. cbn [fmul flit NumF].
    set (p := (limited cap s * F_lit 2550 1)%float) in *.
    destruct (Cf p G2) as [(_ & K)|(K & _)]; [|lra]. set (k := ftrunc p) in *.
    assert (Kr : (0 <= k <= 255)%Z).
    { split.
      - apply Z.lt_succ_r. apply lt_IZR. unfold Z.succ. rewrite plus_IZR. lra.
      - apply le_IZR. lra. }
    destruct (Z.leb_spec 0 k); [|lia]. destruct (Z.leb_spec k 255); [|lia]. cbn [andb].
    exists k. split; [reflexivity|]. split; [exact Kr|].
    split; [|split; [|split]].
    + intros _. pose proof (clamp01_close (FR s) x) as Cc. rewrite <- E in Cc.
      set (c := clamp01 x) in *. set (l := FR (limited cap s)) in *. set (q := FR p) in *.
      assert (D' : - (256 * uu) <= q - 255 * l <= 256 * uu)
        by (revert D; unfold Rabs; destruct (Rcase_abs _); lra).
      assert (T : 255 * Rabs (l - c) + 256 * uu <= tol) by lra.
      unfold Rabs in T at 1. destruct (Rcase_abs (l - c)) in T; lra.
    + intros ->. destruct (proj1 not_finite_inf F).
    + intros ->. destruct (proj2 not_finite_inf F).
    + destruct Fl as [(I & ->)|(I & ->)]; [left|right]; tauto.
  - exists 255%Z. split.
    + replace (cap8 cap (fst (channel cap infinity))) with one by (destruct cap; vm_compute; reflexivity).
      unfold to_u8. set (p := (one * flit 2550 1)%num).
      assert (Fp : finite p) by reflexivity.
      assert (Ep : FR p = 255) by (replace p with (F_lit 2550 1) by (vm_compute; reflexivity); apply FR_255).
      destruct (Cf p Fp) as [(_ & K)|(K & _)]; rewrite Ep in *; [|lra].
      assert (ftrunc p = 255%Z) as ->; [|reflexivity].
      assert (255 < ftrunc p + 1)%Z by (apply lt_IZR; rewrite plus_IZR; lra).
      assert (ftrunc p <= 255)%Z by (apply le_IZR; lra). lia.
    + split; [lia|]. split; [intros H; destruct (proj1 not_finite_inf H)|]. split; [auto|].
      split; [intros H; destruct (inf_neq H)|].
      right. split; [intros (H & _); destruct (proj1 not_finite_inf H)|]. destruct cap; vm_compute; reflexivity.
  - exists 0%Z. split.
    + replace (cap8 cap (fst (channel cap neg_infinity))) with zero by (destruct cap; vm_compute; reflexivity).
      unfold to_u8. set (p := (zero * flit 2550 1)%num).
      assert (Fp : finite p) by reflexivity.
      assert (Ep : FR p = 0) by (replace p with zero by (vm_compute; reflexivity); apply FR_zero).
      destruct (Cf p Fp) as [(_ & K)|(K & _)]; rewrite Ep in *; [|lra].
      assert (ftrunc p = 0%Z) as ->; [|reflexivity].
      assert (0 < ftrunc p + 1)%Z by (apply lt_IZR; rewrite plus_IZR; lra).
      assert (ftrunc p <= 0)%Z by (apply le_IZR; lra). lia.
    + split; [lia|]. split; [intros H; destruct (proj2 not_finite_inf H)|].
      split; [intros H; destruct (inf_neq (eq_sym H))|]. split; [auto|].
      right. split; [intros (H & _); destruct (proj2 not_finite_inf H)|]. destruct cap; vm_compute; reflexivity.
Qed.

(** ** C144 *)
Lemma xyz_rgbf_double bc cap (a : xyz double) f tl :
  xyz_rgbf bc cap a (mat_of 3 3 f tl) =
  Ok (0%Z, let c i := channel cap (mach f i a) in
           Rgbf (fst (c 0%nat)) (fst (c 1%nat)) (fst (c 2%nat)) one
                (snd (c 0%nat)) (snd (c 1%nat)) (snd (c 2%nat)) (Some 0%Z)).
Proof.
  unfold xyz_rgbf. rewrite !mtx_init_empty with (r := 3%nat) (c := 1%nat) by (apply room_def).
  cbn [bind]. rewrite rest_def.
  set (z := mat_of 3 1 (fun _ _ => f0) []).
  assert (E : exists om, mtx_mult bc (mat_of 3 3 f tl) (Mtx 3 1 [Some (cX a); Some (cY a); Some (cZ a)]) z = Ok (0%Z, om) /\
      rd (mbuf om) 0 = Ok (mach f 0 a) /\ rd (mbuf om) 1 = Ok (mach f 1 a) /\ rd (mbuf om) 2 = Ok (mach f 2 a)).
  { exists (mat_of 3 1 (fun i _ => mach f i a) []). split; [|auto].
    change (Mtx 3 1 [Some (cX a); Some (cY a); Some (cZ a)]) with
      (mat_of 3 1 (fun i _ => match i with 0%nat => cX a | 1%nat => cY a | _ => cZ a end) []).
    rewrite mtx_mult_ok by (unfold room; cbn; auto). reflexivity. }
  destruct E as (om & E & E0 & E1 & E2).
  change (wr (mbuf z) 0 (cX a)) with (Ok [Some (cX a); Some f0; Some f0] : outcome (buf double)). cbn [bind].
  change (wr [Some (cX a); Some f0; Some f0] 1 (cY a)) with (Ok [Some (cX a); Some (cY a); Some f0] : outcome (buf double)). cbn [bind].
  change (wr [Some (cX a); Some (cY a); Some f0] 2 (cZ a)) with (Ok [Some (cX a); Some (cY a); Some (cZ a)] : outcome (buf double)). cbn [bind].
  rewrite E. cbn [bind Z.eqb negb]. rewrite E0, E1, E2. cbn [bind].
  destruct (channel cap _), (channel cap _), (channel cap _). reflexivity.
Qed.

(** Every tristimulus and every 3 x 3 matrix for which the machine's product
    has no NaN, with either setting of the cap: status 0 and three bytes that
    are the exact colour, limited, scaled and rounded down, up to the stated
    rounding errors. *)
Theorem C144_rgb8_double :
  forall M, casts M ->
  forall bc cap (a : xyz double) f tl o,
  (forall i, (i < 3)%nat -> is_nan (mach f i a) = false) ->
  exists o', xyz_rgb8 bc cap a (mat_of 3 3 f tl) o = Ok (0%Z, o')
    /\ byte_of (mach f 0 a) (exact f 0 a) (tol8 f 0 a) (r8 o') (fr8 o')
    /\ byte_of (mach f 1 a) (exact f 1 a) (tol8 f 1 a) (g8 o') (fg8 o')
    /\ byte_of (mach f 2 a) (exact f 2 a) (tol8 f 2 a) (b8 o') (fb8 o')
    /\ a8 o' = 255%Z.
Proof.
  intros M HM bc cap a f tl o Hn. unfold xyz_rgb8. rewrite xyz_rgbf_double.
  cbn [bind Z.eqb negb rr rg rb fr fg fb].
  assert (T : forall i, finite (mach f i a) -> 255 * Rabs (FR (mach f i a) - exact f i a) + 256 * uu <= tol8 f i a).
  { intros i F. apply mach_err in F. lra. }
  destruct (u8_double M cap (mach f 0 a) (exact f 0 a) (tol8 f 0 a) HM (Hn 0%nat ltac:(lia)) (T 0%nat)) as (k0 & -> & H0).
  destruct (u8_double M cap (mach f 1 a) (exact f 1 a) (tol8 f 1 a) HM (Hn 1%nat ltac:(lia)) (T 1%nat)) as (k1 & -> & H1).
  destruct (u8_double M cap (mach f 2 a) (exact f 2 a) (tol8 f 2 a) HM (Hn 2%nat ltac:(lia)) (T 2%nat)) as (k2 & -> & H2).
  cbn [bind]. eexists. split; [reflexivity|]. cbn [r8 g8 b8 a8 fr8 fg8 fb8]. auto.
Qed.
Print Assumptions C144_rgb8_double.

Lemma no_value {A} (m : outcome A) x : match m with Ok _ => False | _ => True end -> m <> Ok x.
Proof. intros H ->. exact H. Qed.

(** Conversely a NaN in any channel makes the conversion undefined. *)
Theorem C144_nan_refuted :
  forall M, casts M ->
  forall bc cap (a : xyz double) f tl o,
  (exists i, (i < 3)%nat /\ is_nan (mach f i a) = true) ->
  forall x, xyz_rgb8 bc cap a (mat_of 3 3 f tl) o <> Ok x.
Proof.
  intros M (_ & HM) bc cap a f tl o (i & Hi & Hn) x. unfold xyz_rgb8. rewrite xyz_rgbf_double.
  cbn [bind Z.eqb negb rr rg rb fr fg fb].
  assert (U : to_u8 (cap8 cap (fst (channel cap (mach f i a)))) = NotReal).
  { apply is_nan_nanf in Hn. fold (limited cap (mach f i a)). rewrite limited_nan by exact Hn.
    unfold to_u8. assert (L : (ftrunc (mach f i a * flit 2550 1)%num < 0)%Z).
    { apply HM. apply nan_not_finite. now apply nan_mul_l. }
    destruct (Z.leb_spec 0 (ftrunc (mach f i a * flit 2550 1)%num)); [lia|reflexivity]. }
  destruct i as [|[|[|i]]]; [| | |lia].
  - rewrite U. apply no_value. exact I.
  - rewrite U. clear U. apply no_value. destruct (to_u8 _); exact I.
  - rewrite U. clear U. apply no_value. destruct (to_u8 _); cbn [bind]; try exact I. destruct (to_u8 _); exact I.
Qed.
Print Assumptions C144_nan_refuted.

(** Black, given as chromaticity and luminance (0, 0, 0), is such a colour: the
    conversion to XYZ reports success and divides 0 by 0, and the conversion of
    its result to eight bits is undefined with every matrix. *)
Theorem C144_black_refuted :
  forall M, casts M ->
  forall bc cap ob il o8 f tl o,
  exists a, xyy_xyz (Xyy zero zero zero ob il (Some 0) (Some 0) (Some 0))%Z o = Ok (0%Z, a) /\
    forall x, xyz_rgb8 bc cap a (mat_of 3 3 f tl) o8 <> Ok x.
Proof.
  intros M HM bc cap ob il o8 f tl o. eexists. split; [reflexivity|].
  apply C144_nan_refuted; auto. exists 0%nat. split; [lia|]. apply is_nan_nanf. unfold mach. cbn [cX].
  apply nan_add_l, nan_add_l, nan_add_r, nan_mul_r. vm_compute. reflexivity.
Qed.
Print Assumptions C144_black_refuted.

(** A conversion as assumed exists, and the sRGB matrix with a colour outside
    the gamut and an overflowing one meet the hypotheses. *)
Definition libm_cast : NumM double := {|
  fexp := fun x => x; flog := @Ok _; flog10 := @Ok _; fpow := fun x _ => Ok x; fsin := fun x => x; fcos := fun x => x;
  ftan := @Ok _; fasin := @Ok _; facos := @Ok _; fatan := fun x => x; fatan2 := fun x _ => x;
  fsinh := fun x => x; fcosh := fun x => x; ftanh := fun x => x; ffloor := fun x => x; fceil := fun x => x;
  fround := fun x => x; ftrunc := fun x => if is_finite x then RtruncZ (FR x) else (-1)%Z |}.

Example C144_casts : casts libm_cast.
Proof.
  split; cbn [ftrunc libm_cast].
  - intros x F. rewrite F. unfold toward_zero, RtruncZ. destruct (Rle_dec 0 (FR x)).
    + left. destruct (base_Int_part (FR x)). lra.
    + right. destruct (base_Int_part (- FR x)). rewrite opp_IZR. lra.
  - intros x F. unfold finite in F. destruct (is_finite x); [congruence|lia].
Qed.

Definition srgb (i j : nat) : double := F_lit (nth (3 * i + j) (nth 0 ccm_tab []) 0%Z) 12.
Example C144_case : forall i, (i < 3)%nat ->
  is_nan (mach srgb i (Xyz 0.3 0.6 0.1 0 0 None None None)%float) = false /\
  finite (mach srgb i (Xyz 0.3 0.6 0.1 0 0 None None None)%float) /\
  is_nan (mach srgb i (Xyz 1e308 0.5 0.5 0 0 None None None)%float) = false /\
  is_nan (mach srgb 0 (Xyz 1.5e308 1.5e308 0 0 0 None None None)%float) = true.
Proof. intros i Hi. destruct i as [|[|[|i]]]; [..|lia]; (split; [|split; [|split]]); vm_compute; reflexivity. Qed.
