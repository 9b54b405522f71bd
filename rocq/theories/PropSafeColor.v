(** Property C154: the colour functions: nothing outside the tables, the
    spectrum or the matrix is read and nothing indeterminate is used, in any
    arithmetic, whatever the numbers are.

    [lawful], [lawful_libm], [safe]: SpecSafe, SpecSafeVec (a call is safe when
    it has no undefined behaviour, ends, and answers when the arithmetic is
    total, as IEEE 754's is).  [flagged a]: both "invalid" members of a have
    values.  [ends_apart]: the arithmetic tells the two first and the two last
    temperatures of Ohno's table from each other. *)
From Coq Require Import Floats.PrimFloat.
From Coq Require Import List Arith ZArith Bool Lia Reals Lra.
From Verif Require Import Base BaseFacts NumR NumF Libm LibmR RTac SpecVec SpecMtx SpecSafe SpecSafeVec
  MVec MMtx MColorTab MColor PSafe PropSafe PropSafeFus PropSafeVec PSafeColor.
Import ListNotations.
Set Implicit Arguments.
Notation double := PrimFloat.float.

Definition observer (obs : Z) : Prop := obs = 0%Z \/ obs = 1%Z.

Ltac split_and := match goal with |- _ /\ _ => split end.

Section Any.
Context {T : Type} {N : Num T} {M : NumM T}.
Variables bc cap : bool.
Hypothesis L : lawful N.
Hypothesis LM : lawful_libm N M.

(** ** Spectra *)
Theorem C154_spectrum s obs : (ssize s <= length (scomps s))%nat ->
  (observer obs -> safe N (@anything _) (spd_xyz s obs)) /\
  safe N (fun r => ssize (snd r) = ssize s /\ length (scomps (snd r)) = length (scomps s)) (norm_spd s).
Proof. intros Hs. split; [intros Ho|]; apply wp_safe; [now apply wp_spd|now apply wp_norm]. Qed.

(** Any wavelength, any code for the function *)
Theorem C154_luminous_efficiency lef nm : safe N (@anything _) (lef_lerp lef nm).
Proof. apply wp_safe. now apply wp_lef. Qed.

(** ** Conversions between coordinates *)
Theorem C154_coordinates (x : xyz T) (y : xyy T) (u : uv T) :
  safe N (@anything _) (xyy_xyz y x) /\ safe N (@anything _) (xyz_xyy x y) /\
  safe N (@anything _) (xyy_uv60 y u) /\ safe N (@anything _) (xyz_uv60 x u) /\
  safe N (@anything _) (uv60_xyy u) /\ safe N (@anything _) (uv60_xyz u x) /\
  safe N (@anything _) (uv60_uv76 u) /\ safe N (@anything _) (uv76_uv60 u).
Proof.
  repeat split_and; apply wp_safe; auto using wp_xyy_xyz, wp_xyz_xyy, wp_xyy_uv60, wp_xyz_uv60, wp_uv60_xyy, wp_uv60_xyz, wp_uv76_uv60.
  exact I.
Qed.

(** ** Colour temperatures *)
Theorem C154_temperature t (c : cct T) obs (x : xyz T) (u : uv T) : observer obs ->
  safe N (@anything _) (ct_xyz t obs) /\ safe N (@anything _) (ct_uv60 t obs u) /\
  safe N (@anything _) (cct_xyy c obs) /\ safe N (@anything _) (cct_xyz c obs x).
Proof. intros Ho. repeat split_and; apply wp_safe; auto using wp_ct_xyz, wp_ct_uv60, wp_cct_xyy, wp_cct_xyz. Qed.

Theorem C154_correlated method (u : uv T) o : ends_apart -> flagged u -> safe N (@anything _) (uv60_cct method u o).
Proof.
  intros HE HU. apply wp_safe. unfold uv60_cct.
  destruct (method =? 0)%Z; [now apply wp_mccamy|]. destruct (method =? 1)%Z; [now apply wp_ohno2011|now apply wp_ohno2014].
Qed.

(** ** RGB *)
Theorem C154_rgb (x : xyz T) t obs m (o : rgbf T) (o8 : rgb8) : mtx_filled 3 3 m ->
  safe N (@anything _) (xyz_rgbf bc cap x m) /\ never_ub (xyz_rgb8 bc cap x m o8) /\
  (observer obs -> safe N (@anything _) (ct_rgbf bc cap t obs m o) /\ never_ub (ct_rgb8 bc cap t obs m o8)).
Proof.
  intros Hm. apply (filled_ism N) in Hm. assert (R : forall OF y, wp (~ total N) OF (fun _ => True) (xyz_rgbf bc cap y m)) by (intros; eapply wp_rgbf; eauto).
  assert (R8 : forall y, wp True False (fun _ => True) (xyz_rgb8 bc cap y m o8)).
  { intros y. unfold xyz_rgb8.
    eapply wp_bind; [eapply wp_weaken; [| |apply (R False y)]; auto|]. intros [rc f] _. destruct (negb _); [exact I|].
    assert (U : forall v, wp True False (fun _ => True) (to_u8 v)) by (intros v; unfold to_u8; cbv zeta; destruct (_ && _)%bool; exact I).
    do 3 (eapply wp_bind; [apply U|intros ? _]). exact I. }
  split; [apply wp_safe, R|]. split; [eapply wp_never_ub, R8|]. intros Ho. split.
  - apply wp_safe. unfold ct_rgbf. eapply wp_bind; [apply (wp_ct_xyz _ L); exact Ho|]. intros [rc y] _. destruct (negb _); [exact I|apply R].
  - apply (@wp_never_ub True False _ (fun _ => True)). unfold ct_rgb8.
    eapply wp_bind; [eapply wp_weaken; [| |apply (wp_ct_xyz False L); exact Ho]; auto|]. intros [rc y] _. destruct (negb _); [exact I|apply R8].
Qed.
End Any.

(** ** The arithmetics in question *)
Lemma C154_ends_doubles : @ends_apart double _.
Proof.
  intros t0 t1 t2 t3 E0 E1 E2 E3. vm_compute in E0, E1, E2, E3.
  injection E0 as <-. injection E1 as <-. injection E2 as <-. injection E3 as <-. split; reflexivity.
Qed.
Lemma C154_ends_reals : @ends_apart R _.
Proof.
  intros t0 t1 t2 t3 E0 E1 E2 E3.
  change (@Ok (R * R * R) (Rlit 990000000 6, Rlit 45042258 8, Rlit 35439942 8) = Ok t0) in E0.
  change (@Ok (R * R * R) (Rlit 1000000000 6, Rlit 44806562 8, Rlit 35460468 8) = Ok t1) in E1.
  change (@Ok (R * R * R) (Rlit 19986350925 6, Rlit 18391028 8, Rlit 27712917 8) = Ok t2) in E2.
  change (@Ok (R * R * R) (Rlit 20186214434 6, Rlit 18386072 8, Rlit 27697712 8) = Ok t3) in E3.
  injection E0 as <-. injection E1 as <-. injection E2 as <-. injection E3 as <-. cbn [fst]. 
  change (Rltb (Rlit 990000000 6) (Rlit 1000000000 6) = true /\ Rltb (Rlit 19986350925 6) (Rlit 20186214434 6) = true).
  lits. split; apply Rltb_true; lra.
Qed.

(** In double precision every colour temperature query answers: for any
    coordinates, infinities and NaNs included, no index leaves the table. *)
Theorem C154_doubles (M : NumM double) method (u : uv double) o :
  lawful_libm NumF M -> flagged u -> exists r, uv60_cct method u o = Ok r.
Proof.
  intros LM HU. destruct (C154_correlated lawful_F LM method o C154_ends_doubles HU) as (_ & _ & _ & H). apply H. exact total_F.
Qed.

(** Without values in its "invalid" members the answer is undefined, in any
    arithmetic; and the conversions leave those of their output as they were. *)
Theorem C154_unset_refuted {T} {N : Num T} {M : NumM T} method (a : xyy T) (o : cct T) :
  (forall u, fu u = None -> uv60_cct method u o = UB Uninit) /\
  (forall u, xyy_uv60 a uv_local = Ok (0%Z, u) -> uv60_cct method u o = UB Uninit).
Proof.
  assert (H : forall u, fu u = None -> uv60_cct method u o = UB Uninit).
  { intros u Hu. unfold uv60_cct, mccamy, ohno2011, ohno2014. rewrite Hu. now destruct (method =? 0)%Z, (method =? 1)%Z. }
  split; [exact H|]. intros u E. apply H. unfold xyy_uv60 in E. cbv zeta in E.
  destruct (fdiv _ _) in E; [|discriminate..]. cbn [bind] in E. destruct (fdiv _ _) in E; [|discriminate..]. cbn [bind] in E. injection E as <-. reflexivity.
Qed.

Definition C154_odd : uv double := Uv PrimFloat.nan PrimFloat.infinity 0 0 (Some 0%Z) (Some 0%Z).
Example C154_example : lawful_libm NumF libm0 /\ flagged C154_odd /\ observer 1 /\
  uv60_cct (M := libm0) 2 C154_odd (Cct 1 2 None None)%float = Ok ((- EINVAL)%Z, Cct 0 0 (Some 0%Z) (Some 0%Z))%float.
Proof.
  destruct (@C148_doubles libm0) as (A & B & C); try (intros; eexists; reflexivity).
  split; [exact C|]. split; [split; eexists; reflexivity|]. split; [now right|]. vm_compute. reflexivity.
Qed.

Print Assumptions C154_spectrum.
Print Assumptions C154_luminous_efficiency.
Print Assumptions C154_coordinates.
Print Assumptions C154_temperature.
Print Assumptions C154_correlated.
Print Assumptions C154_rgb.
Print Assumptions C154_doubles.
Print Assumptions C154_unset_refuted.
