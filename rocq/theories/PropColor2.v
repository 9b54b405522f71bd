(** Colorimetry: spectra, black bodies and luminous efficiency
    (C84, C85, C107, C110). *)
From Coq Require Import List Arith ZArith Bool Reals Lra Lia.
From Verif Require Import Base BaseFacts SpecReal SpecMtx SpecColor NumR Libm LibmR Out RTac
  MVec MMtx PMtx PMtxOps PMtxR PVecR PStat PStatReg MColorTab MColor PropColor.
Import ListNotations.
Set Implicit Arguments.
Local Open Scope R_scope.

Implicit Types (bc cap : bool).

(** ** The observer tables *)

Definition known (obs : Z) : Prop := obs = 0%Z \/ obs = 1%Z.

Lemma cmf_lengths : length obs2_tab = 95%nat /\ length obs10_tab = 95%nat.
Proof. split; reflexivity. Qed.

Lemma lit_dec m k d : (10 ^ Z.of_nat k)%Z = d -> Rlit m (Z.of_nat k) = IZR m / IZR d.
Proof. intros <-. apply Rlit_div; lia || reflexivity. Qed.

Lemma obs_elt_ok obs i :
  known obs -> (i < 95)%nat ->
  obs_elt (obs_get obs) i = Ok (xbar obs i, ybar obs i, zbar obs i).
Proof.
  intros [-> | ->] H; unfold obs_get, obs_elt; cbn [Z.eqb];
  unfold xbar, ybar, zbar, cmf, decimals; cbn [Z.eqb Pos.eqb]; unfold elt.
  - destruct (nth_error obs2_tab i) as [[[x y] z]|] eqn:E;
      [|apply nth_error_None in E; destruct cmf_lengths; lia].
    rewrite (nth_error_nth _ _ _ E). cbn [bind fst snd]. unfold obs2_tab_e. num.
    rewrite !(Rlit_div _ 8 100000000) by (reflexivity || discriminate).
    replace (10 ^ 8) with 100000000 by lra. reflexivity.
  - destruct (nth_error obs10_tab i) as [[[x y] z]|] eqn:E;
      [|apply nth_error_None in E; destruct cmf_lengths; lia].
    rewrite (nth_error_nth _ _ _ E). cbn [bind fst snd]. unfold obs10_tab_e. num.
    rewrite !(Rlit_div _ 12 1000000000000) by (reflexivity || discriminate).
    replace (10 ^ 12) with 1000000000000 by lra. reflexivity.
Qed.

Lemma obs_elt_bad obs i : ~ known obs -> @obs_elt R _ (obs_get obs) i = UB Uninit.
Proof.
  intros H. unfold known in H. unfold obs_get.
  destruct (Z.eqb_spec obs 1); [tauto|]. destruct (Z.eqb_spec obs 0); [tauto|]. reflexivity.
Qed.

Lemma cmf_signs :
  forallb (fun p => let '(x, y, z) := p in ((0 <=? x) && (0 <? y) && (0 <=? z))%Z) obs2_tab = true
  /\ forallb (fun p => let '(x, y, z) := p in ((0 <=? x) && (0 <? y) && (0 <=? z))%Z) obs10_tab = true.
Proof. split; vm_compute; reflexivity. Qed.

Lemma decimals_pos obs : 0 < decimals obs.
Proof. unfold decimals. destruct (obs =? 1)%Z; lra. Qed.

Lemma bar_signs obs i : (i < 95)%nat -> 0 <= xbar obs i /\ 0 < ybar obs i /\ 0 <= zbar obs i.
Proof.
  intros H. pose proof (decimals_pos obs) as D. unfold xbar, ybar, zbar, cmf.
  set (tab := if (obs =? 1)%Z then obs10_tab else obs2_tab).
  assert (L : length tab = 95%nat) by (unfold tab; destruct (obs =? 1)%Z; reflexivity).
  assert (S : forallb (fun p => let '(x, y, z) := p in ((0 <=? x) && (0 <? y) && (0 <=? z))%Z) tab = true)
    by (unfold tab; destruct (obs =? 1)%Z; apply cmf_signs).
  rewrite forallb_forall in S. specialize (S (nth i tab (0, 0, 0)%Z)).
  destruct (nth i tab (0, 0, 0)%Z) as [[x y] z] eqn:E.
  assert (I : In (x, y, z) tab) by (rewrite <- E; apply nth_In; lia). specialize (S I).
  apply andb_true_iff in S. destruct S as [S S3]. apply andb_true_iff in S. destruct S as [S1 S2].
  apply Z.leb_le in S1, S3. apply Z.ltb_lt in S2. cbn [fst snd].
  apply IZR_le in S1, S3. apply IZR_lt in S2.
  split; [|split].
  - apply Rmult_le_pos; [exact S1|]. left. now apply Rinv_0_lt_compat.
  - apply Rmult_lt_0_compat; [exact S2|]. now apply Rinv_0_lt_compat.
  - apply Rmult_le_pos; [exact S3|]. left. now apply Rinv_0_lt_compat.
Qed.

(** ** C84: spectra *)

Definition usable (s : list (Z * R)) : nat := length (filter (fun p => visible (fst p)) s).

Lemma visible_range nm : visible nm = ((359 <? nm) && (nm <? 831))%Z.
Proof.
  unfold visible. destruct (Z.leb_spec 360 nm), (Z.leb_spec nm 830), (Z.ltb_spec 359 nm), (Z.ltb_spec nm 831);
    reflexivity || lia.
Qed.

Lemma sample_range nm : visible nm = true -> (sample nm < 95)%nat.
Proof.
  unfold visible, sample. intros H. apply andb_true_iff in H. destruct H as [H1 H2].
  apply Z.leb_le in H1, H2.
  assert (0 <= (nm - 360) / 5 < 95)%Z.
  { split; [apply Z.div_pos; lia|]. apply Z.div_lt_upper_bound; lia. }
  lia.
Qed.

Lemma tristim_snoc bar s nm v :
  tristim bar (s ++ [(nm, v)]) = tristim bar s + (if visible nm then v * bar (sample nm) else 0).
Proof. unfold tristim. rewrite map_app, rsum_app. cbn [map rsum fst snd]. ring. Qed.

Lemma usable_snoc s nm v :
  usable (s ++ [(nm, v)]) = (usable s + if visible nm then 1 else 0)%nat.
Proof.
  unfold usable. rewrite filter_app, app_length. cbn [filter fst].
  destruct (visible nm); reflexivity.
Qed.

Lemma nth_error_firstn' A (l : list A) n i : (i < n)%nat -> nth_error (firstn n l) i = nth_error l i.
Proof.
  revert n l; induction i as [|i IH]; intros [|n] l H; try lia; destruct l; cbn; auto. apply IH. lia.
Qed.

Lemma spd_loop (s : spd R) obs :
  (known obs \/ usable (firstn (ssize s) (scomps s)) = 0%nat) -> (ssize s <= length (scomps s))%nat ->
  let l := firstn (ssize s) (scomps s) in
  for_ (ssize s) 0 (fun i a =>
        let '(x, y, z, k) := a in
        let! (nm, v) := elt (scomps s) i in
        if (359 <? nm)%Z && (nm <? 831)%Z then
          let! (ox, oy, oz) := obs_elt (obs_get obs) (Z.to_nat ((nm - 360) / 5)) in
          Ok (x + v * ox, y + v * oy, z + v * oz, (k + 1)%Z)%num
        else Ok a) (f0, f0, f0, 0%Z)
  = Ok (tristim (xbar obs) l, tristim (ybar obs) l, tristim (zbar obs) l, Z.of_nat (usable l)).
Proof.
  intros Ho Hs l.
  set (g := fun i => let l := firstn i (scomps s) in
    (tristim (xbar obs) l, tristim (ybar obs) l, tristim (zbar obs) l, Z.of_nat (usable l))).
  change (Ok (tristim (xbar obs) l, tristim (ybar obs) l, tristim (zbar obs) l, Z.of_nat (usable l)))
    with (Ok (g (0 + ssize s)%nat)).
  replace (f0, f0, f0, 0%Z) with (g 0%nat) by reflexivity.
  apply for_fun. intros i Hi. unfold g at 1. cbv zeta.
  unfold elt. destruct (nth_error (scomps s) i) as [[nm v]|] eqn:E; [|apply nth_error_None in E; lia].
  cbn [bind]. rewrite <- visible_range.
  assert (F : firstn (Datatypes.S i) (scomps s) = firstn i (scomps s) ++ [(nm, v)]).
  { rewrite (@firstn_snoc _ (scomps s) i (0%Z, 0)) by lia. now rewrite (nth_error_nth _ _ _ E). }
  unfold g. cbv zeta. rewrite F, !tristim_snoc, usable_snoc.
  destruct (visible nm) eqn:V.
  - assert (K : known obs).
    { destruct Ho as [K|U]; [exact K|exfalso]. unfold usable in U.
      apply length_zero_iff_nil in U.
      assert (I : In (nm, v) (filter (fun p => visible (fst p)) (firstn (ssize s) (scomps s)))).
      { apply filter_In. split; [|exact V]. apply nth_error_In with (n := i).
        rewrite <- E. apply nth_error_firstn'. lia. }
      rewrite U in I. contradiction. }
    fold (sample nm). rewrite obs_elt_ok by (exact K || now apply sample_range).
    cbn [bind]. num. rewrite Nat2Z.inj_add. reflexivity.
  - rewrite !Rplus_0_r, Nat.add_0_r. reflexivity.
Qed.

(** Every spectrum: with no usable wavelength the result is -EINVAL with every
    flag raised, whatever the observer.  Otherwise the sums over the samples of
    the observer are scaled to luminance 1.  No access leaves a table. *)
Theorem C84_none (s : spd R) obs :
  (ssize s <= length (scomps s))%nat -> usable (firstn (ssize s) (scomps s)) = 0%nat ->
  exists o, spd_xyz s obs = Ok ((- EINVAL)%Z, o)
    /\ fX o = Some 1%Z /\ fY o = Some 1%Z /\ fZ o = Some 1%Z.
Proof.
  intros Hs U. unfold spd_xyz. destruct (Nat.ltb_spec (ssize s) 1); [eexists; split; [reflexivity|cbn; auto]|].
  pose proof (@spd_loop s obs (or_intror U) Hs) as L. cbv zeta in L. cbv zeta. rewrite L. cbn [bind].
  rewrite U. cbn. eexists; split; [reflexivity|cbn; auto].
Qed.

Theorem C84_sum (s : spd R) obs :
  known obs -> (ssize s <= length (scomps s))%nat ->
  let l := firstn (ssize s) (scomps s) in
  (usable l > 0)%nat ->
  (tristim (ybar obs) l <> 0 ->
   spd_xyz s obs = Ok (0%Z, Xyz (tristim (xbar obs) l / tristim (ybar obs) l) 1
     (tristim (zbar obs) l / tristim (ybar obs) l) obs 0 (Some 0%Z) (Some 0%Z) (Some 0%Z)))
  /\ (tristim (ybar obs) l = 0 -> spd_xyz s obs = NotReal).
Proof.
  intros Ho Hs l U. unfold spd_xyz.
  destruct (Nat.ltb_spec (ssize s) 1) as [Z|Z].
  { exfalso. unfold l in U. replace (ssize s) with 0%nat in U by lia. cbn in U. lia. }
  pose proof (@spd_loop s obs (or_introl Ho) Hs) as L. cbv zeta in L. cbv zeta. rewrite L. cbn [bind].
  fold l. destruct (Z.eqb_spec (Z.of_nat (usable l)) 0); [lia|]. num.
  assert (K : IZR (Z.of_nat (usable l)) <> 0) by (apply not_0_IZR; exact n).
  set (k := IZR (Z.of_nat (usable l))) in *.
  rewrite !Rdivo_ok by exact K. cbn [bind]. split; intros H.
  - assert (D : tristim (ybar obs) l / k <> 0) by (intros E; apply div0 in E; auto).
    rewrite !Rdivo_ok by exact D. cbn [bind]. do 3 f_equal; field; auto.
  - rewrite H. replace (0 / k) with 0 by (field; exact K). now rewrite Rdivo_0.
Qed.

Lemma tristim_nonneg bar s :
  (forall i, (i < 95)%nat -> 0 <= bar i) -> Forall (fun p => 0 <= snd p) s -> 0 <= tristim bar s.
Proof.
  intros Hb Hs. unfold tristim. apply rsum_nonneg. apply Forall_map. eapply Forall_impl; [|exact Hs].
  intros [nm v] H. cbn [fst snd] in *. destruct (visible nm) eqn:V; [|lra].
  apply Rmult_le_pos; [exact H|]. apply Hb. now apply sample_range.
Qed.

Lemma tristim_pos bar s nm v :
  (forall i, (i < 95)%nat -> 0 < bar i) -> Forall (fun p => 0 <= snd p) s ->
  In (nm, v) s -> visible nm = true -> 0 < v -> 0 < tristim bar s.
Proof.
  intros Hb Hs I V P. apply in_split in I. destruct I as (s1 & s2 & ->).
  unfold tristim. rewrite map_app, rsum_app. cbn [map rsum fst snd]. rewrite V.
  apply Forall_app in Hs. destruct Hs as [H1 H2]. inversion H2 as [|? ? _ H3]; subst.
  assert (N : forall s, Forall (fun p => 0 <= snd p) s -> 0 <= tristim bar s).
  { intros t Ht. apply tristim_nonneg; [|exact Ht]. intros i Hi. left. now apply Hb. }
  pose proof (N _ H1) as N1. pose proof (N _ H3) as N3. unfold tristim in N1, N3.
  assert (0 < v * bar (sample nm)) by (apply Rmult_lt_0_compat; [exact P|apply Hb; now apply sample_range]).
  lra.
Qed.

Lemma usable_pos s nm v : In (nm, v) s -> visible nm = true -> (usable s > 0)%nat.
Proof.
  intros I V. unfold usable. assert (J : In (nm, v) (filter (fun p => visible (fst p)) s))
    by (apply filter_In; auto). destruct (filter _ s); [contradiction|cbn; lia].
Qed.

(** Physical spectra: no negative value, and light at some visible wavelength.
    The conversion succeeds, with luminance 1 and X, Z >= 0. *)
Theorem C84_physical (s : spd R) obs nm v :
  known obs -> (ssize s <= length (scomps s))%nat ->
  Forall (fun p => 0 <= snd p) (firstn (ssize s) (scomps s)) ->
  In (nm, v) (firstn (ssize s) (scomps s)) -> (360 <= nm <= 830)%Z -> 0 < v ->
  exists o, spd_xyz s obs = Ok (0%Z, o) /\ 0 <= cX o /\ cY o = 1 /\ 0 <= cZ o /\ xobs o = obs
    /\ fX o = Some 0%Z /\ fY o = Some 0%Z /\ fZ o = Some 0%Z.
Proof.
  intros Ho Hs F I R P.
  assert (V : visible nm = true) by (unfold visible; apply andb_true_iff; split; apply Z.leb_le; lia).
  assert (Y : 0 < tristim (ybar obs) (firstn (ssize s) (scomps s))).
  { eapply tristim_pos; eauto. intros i Hi. now apply bar_signs. }
  eexists. split.
  { apply C84_sum; auto; [eapply usable_pos; eauto|lra]. }
  cbn. repeat split; auto.
  - apply Rmult_le_pos; [|left; now apply Rinv_0_lt_compat]. apply tristim_nonneg; auto.
    intros i Hi. now apply bar_signs.
  - apply Rmult_le_pos; [|left; now apply Rinv_0_lt_compat]. apply tristim_nonneg; auto.
    intros i Hi. now apply bar_signs.
Qed.

Example C84_case :
  let s := Spd 3 [(350%Z, 1); (450%Z, 2); (620%Z, 0)] in
  (ssize s <= length (scomps s))%nat /\ Forall (fun p => 0 <= snd p) (firstn (ssize s) (scomps s))
  /\ In (450%Z, 2) (firstn (ssize s) (scomps s)).
Proof. cbn. split; [lia|]. split; [repeat constructor; cbn; lra|auto]. Qed.

(** A spectrum and its multiples have the same tristimulus. *)
Theorem C84_scale n (c : list (Z * R)) obs k :
  known obs -> (n <= length c)%nat -> k <> 0 ->
  spd_xyz (Spd n (map (fun p => (fst p, k * snd p)) c)) obs = spd_xyz (Spd n c) obs.
Proof.
  intros Ho Hn Hk. set (h := fun p : Z * R => (fst p, k * snd p)).
  assert (T : forall bar s, tristim bar (map h s) = k * tristim bar s).
  { intros bar s. unfold tristim. induction s as [|[nm v] s IH]; cbn [map rsum fst snd h]; [ring|].
    rewrite IH. destruct (visible nm); ring. }
  assert (U : forall s, usable (map h s) = usable s).
  { intros s. unfold usable. induction s as [|[nm v] s IH]; cbn [map filter fst h]; [reflexivity|].
    destruct (visible nm); cbn [length]; auto. }
  set (l := firstn n c).
  assert (F : firstn n (map h c) = map h l) by (unfold l; apply firstn_map).
  assert (Hn' : (n <= length (map h c))%nat) by (rewrite map_length; exact Hn).
  destruct (Nat.eq_dec (usable l) 0) as [Z|Z].
  - unfold spd_xyz. cbn [ssize scomps]. destruct (Nat.ltb_spec n 1); [reflexivity|].
    pose proof (@spd_loop (Spd n c) obs (or_introl Ho) Hn) as L1.
    pose proof (@spd_loop (Spd n (map h c)) obs (or_introl Ho) Hn') as L2.
    cbv zeta in L1, L2. cbn [ssize scomps] in L1, L2. cbv zeta. rewrite L1, L2. cbn [bind].
    rewrite F. fold l. rewrite U, Z. cbn [Z.eqb Z.of_nat].
    assert (N : forall bar, tristim bar l = 0).
    { intros bar. clear - Z. unfold usable, tristim in *. induction l as [|[nm v] s IH]; [reflexivity|].
      cbn [map filter rsum fst snd] in *. destruct (visible nm); [discriminate|]. rewrite IH by exact Z. ring. }
    now rewrite !T, !N, !Rmult_0_r.
  - pose proof (@C84_sum (Spd n c) obs Ho Hn) as A1. pose proof (@C84_sum (Spd n (map h c)) obs Ho Hn') as A2.
    cbn [ssize scomps] in A1, A2. cbv zeta in A1, A2. rewrite F in A2. fold l in A1. rewrite U, !T in A2.
    destruct A1 as [A1 B1]; [lia|]. destruct A2 as [A2 B2]; [lia|].
    destruct (Req_dec (tristim (ybar obs) l) 0) as [E|E].
    + rewrite B1, B2; auto. rewrite E. ring.
    + rewrite A1 by exact E. rewrite A2. { do 3 f_equal; field; auto. }
      intros G. apply Rmult_integral in G. tauto.
Qed.

(** An observer outside the enumeration: the table pointer is never set, so
    any spectrum with a usable wavelength reads an indeterminate pointer. *)
Theorem C84_unknown_observer_refuted obs nm v :
  ~ known obs -> (360 <= nm <= 830)%Z -> @spd_xyz R _ (Spd 1 [(nm, v)]) obs = UB Uninit.
Proof.
  intros H V. unfold spd_xyz. cbn [ssize scomps Nat.ltb Nat.leb for_ elt nth_error bind].
  destruct (Z.ltb_spec 359 nm); [|lia]. destruct (Z.ltb_spec nm 831); [|lia]. cbn [andb].
  now rewrite obs_elt_bad.
Qed.

(** The wavelength is rounded down to a multiple of 5 nm, not to the nearest
    one: 364 nm is taken for 360 nm. *)
Theorem C84_nearest_refuted obs :
  known obs -> spd_xyz (Spd 1 [(364%Z, 1)]) obs = spd_xyz (Spd 1 [(360%Z, 1)]) obs.
Proof.
  intros [-> | ->]; unfold spd_xyz; cbn [ssize scomps Nat.ltb Nat.leb for_ elt nth_error bind];
  reflexivity.
Qed.

(** The z curve of the 2 degree observer is not smooth: one sample, 380 nm, is
    ten times too small, so it falls and rises again before its peak. *)
Theorem C84_zbar_dip_refuted : zbar 0 4 < zbar 0 3 /\ zbar 0 4 < zbar 0 5.
Proof. unfold zbar, cmf, decimals. cbn. lra. Qed.

(** ** C110: black bodies *)

Lemma Rmult_pos_neg' a b : 0 < a -> b < 0 -> a * b < 0.
Proof. intros. nra. Qed.

Lemma planck_pos t l : 0 < t -> 0 < l -> 0 < planck t l.
Proof.
  intros Ht Hl. unfold planck.
  assert (A : 0 < planck_c2 / (l * t)).
  { apply Rdiv_lt_0_compat; [unfold planck_c2; lra|now apply Rmult_lt_0_compat]. }
  apply exp_increasing in A. rewrite exp_0 in A.
  apply Rdiv_lt_0_compat; [unfold planck_c1; lra|]. apply Rmult_lt_0_compat; [now apply pow_lt|lra].
Qed.

Lemma planck_neg t l : t < 0 -> 0 < l -> planck t l < 0.
Proof.
  intros Ht Hl. unfold planck.
  assert (A : planck_c2 / (l * t) < 0).
  { unfold Rdiv. apply Rmult_pos_neg'; [unfold planck_c2; lra|].
    apply Rinv_lt_0_compat. apply Rmult_pos_neg'; assumption. }
  apply exp_increasing in A. rewrite exp_0 in A.
  unfold Rdiv. apply Rmult_pos_neg'; [unfold planck_c1; lra|]. apply Rinv_lt_0_compat.
  apply Rmult_pos_neg'; [now apply pow_lt|lra].
Qed.

Lemma exp_m1_nz x : x <> 0 -> exp x - 1 <> 0.
Proof.
  intros H E. apply H. apply exp_inv. rewrite exp_0. lra.
Qed.

Lemma wavelength_pos i : 0 < wavelength i.
Proof. unfold wavelength. pose proof (pos_INR i). apply Rdiv_lt_0_compat; lra. Qed.

(** the radiance the code computes is Planck's law in SI units *)
Lemma bbody_planck t i :
  t <> 0 -> bbody t (360 + 5 * Z.of_nat i) = Ok (planck t (wavelength i)).
Proof.
  intros Ht. unfold bbody, expm1. num. cbn [fexp NumMR].
  rewrite plus_IZR, mult_IZR, <- INR_IZR_INZ.
  replace (Rlit 10 4) with (1 / 1000) by (lits; lra).
  replace (Rlit 10 13) with (1 / 10 ^ 12) by (lits; lra).
  replace (Rlit 374183162616761619 15) with (planck_c1 * 10 ^ 18) by (unfold planck_c1; lits; lra).
  replace (Rlit 14387863142323088 15) with (planck_c2 * 1000) by (unfold planck_c2; lits; lra).
  pose proof (wavelength_pos i) as P.
  replace (360 + 5 * INR i) with (wavelength i * 10 ^ 9) by (unfold wavelength; field).
  set (l := wavelength i) in *. clearbody l.
  assert (D : t * (l * 10 ^ 9 * (1 / 1000)) * (1 / 1000) <> 0).
  { replace (t * (l * 10 ^ 9 * (1 / 1000)) * (1 / 1000)) with (1000 * (t * l)) by field.
    apply Rmult_integral_contrapositive_currified; [lra|].
    apply Rmult_integral_contrapositive_currified; lra. }
  rewrite (Rdivo_ok _ _ D). cbn [bind].
  replace (planck_c2 * 1000 / (t * (l * 10 ^ 9 * (1 / 1000)) * (1 / 1000))) with (planck_c2 / (l * t))
    by (field; lra).
  assert (X : planck_c2 / (l * t) <> 0).
  { intros E. apply div0 in E; [unfold planck_c2 in E; lra|].
    apply Rmult_integral_contrapositive_currified; lra. }
  apply exp_m1_nz in X. set (e := exp (planck_c2 / (l * t)) - 1) in *.
  rewrite Rdivo_ok.
  - f_equal. unfold planck. fold e. field. split; [exact X|lra].
  - intros E. apply X. 
    assert (G : l ^ 5 * e = 0).
    { apply (f_equal (fun z => z / 10 ^ 18)) in E.
      replace (l ^ 5 * e) with (l * 10 ^ 9 * (1 / 1000) * (l * 10 ^ 9 * (1 / 1000)) * (l * 10 ^ 9 * (1 / 1000)) *
        (l * 10 ^ 9 * (1 / 1000)) * (l * 10 ^ 9 * (1 / 1000)) * (1 / 10 ^ 12) * e / 10 ^ 18) by field.
      rewrite E. field. }
    apply Rmult_integral in G. destruct G as [G|G]; [|exact G].
    exfalso. pose proof (pow_lt l 5 P). lra.
Qed.

(** tristimulus sum of the black body at t kelvin *)
Definition glow (bar : nat -> R) (t : R) : R := bigsum 95 (fun i => planck t (wavelength i) * bar i).

Lemma ct_loop t obs :
  t <> 0 -> known obs ->
  for_ 95 0 (fun i a =>
      let '(x, y, z) := a in
      let! b := bbody t (360 + 5 * Z.of_nat i) in
      let! (ox, oy, oz) := obs_elt (obs_get obs) i in
      Ok (x + b * ox, y + b * oy, z + b * oz)%num) (f0, f0, f0)
  = Ok (glow (xbar obs) t, glow (ybar obs) t, glow (zbar obs) t).
Proof.
  intros Ht Ho.
  set (g := fun n => (bigsum n (fun i => planck t (wavelength i) * xbar obs i),
    bigsum n (fun i => planck t (wavelength i) * ybar obs i),
    bigsum n (fun i => planck t (wavelength i) * zbar obs i))).
  change (Ok (glow (xbar obs) t, glow (ybar obs) t, glow (zbar obs) t)) with (Ok (g (0 + 95)%nat)).
  replace (f0, f0, f0) with (g 0%nat) by reflexivity.
  apply for_fun. intros i Hi. unfold g at 1. rewrite bbody_planck by exact Ht.
  rewrite obs_elt_ok by (exact Ho || lia). cbn [bind]. reflexivity.
Qed.

Lemma glow_sign (bar : nat -> R) t (k : nat) :
  (forall i, (i < 95)%nat -> 0 <= bar i) -> (k < 95)%nat -> 0 < bar k -> t <> 0 -> 0 < glow bar t * t.
Proof.
  intros Hb Hk P Ht. unfold glow. rewrite Rmult_comm, bigsum_mult_l.
  assert (S : forall i, 0 < t * planck t (wavelength i)).
  { intros i. pose proof (wavelength_pos i) as W. destruct (Rlt_or_le 0 t) as [A|A].
    - pose proof (planck_pos A W). now apply Rmult_lt_0_compat.
    - assert (B : t < 0) by lra. pose proof (planck_neg B W). nra. }
  assert (G : forall n, (forall i, (i < n)%nat -> 0 <= bar i) ->
     0 <= bigsum n (fun j => t * (planck t (wavelength j) * bar j))
     /\ (forall k, (k < n)%nat -> t * (planck t (wavelength k) * bar k)
         <= bigsum n (fun j => t * (planck t (wavelength j) * bar j)))).
  { clear - S. induction n as [|n IH]; intros Hb; [split; [cbn; lra|lia]|].
    destruct IH as [I1 I2]; [intros; apply Hb; lia|]. cbn [bigsum].
    assert (N : 0 <= t * (planck t (wavelength n) * bar n)).
    { rewrite <- Rmult_assoc. apply Rmult_le_pos; [left; apply S|apply Hb; lia]. }
    split; [lra|]. intros k Hk. destruct (Nat.eq_dec k n) as [->|E]; [lra|].
    specialize (I2 k ltac:(lia)). lra. }
  destruct (G 95%nat Hb) as [_ H]. eapply Rlt_le_trans; [|apply (H k Hk)].
  rewrite <- Rmult_assoc. now apply Rmult_lt_0_compat.
Qed.

Lemma known_bars obs : known obs -> 0 < xbar obs 20 /\ 0 < zbar obs 20.
Proof. intros [-> | ->]; unfold xbar, zbar, cmf, decimals; cbn; lra. Qed.

Lemma glow_signs t obs :
  t <> 0 -> known obs -> 0 < glow (xbar obs) t * t /\ 0 < glow (ybar obs) t * t /\ 0 < glow (zbar obs) t * t.
Proof.
  intros Ht Ho. destruct (known_bars Ho) as [A B]. split; [|split]; apply (@glow_sign _ _ 20); auto; try lia;
    try (intros i Hi; destruct (@bar_signs obs i Hi) as (? & ? & ?); lra).
  destruct (@bar_signs obs 20) as (? & ? & ?); [lia|lra].
Qed.

Lemma quot_pos a b t : 0 < a * t -> 0 < b * t -> 0 < a / b.
Proof.
  intros A B. assert (b <> 0) by (intros ->; lra). assert (t <> 0) by (intros ->; lra).
  replace (a / b) with ((a * t) / (b * t)) by (field; auto). now apply Rdiv_lt_0_compat.
Qed.

(** Every temperature but 0 and both observers: the result is the tristimulus
    of Planck's law over the samples, scaled to luminance 1, with X and Z
    positive and every flag clear. *)
Theorem C110_black_body t obs :
  t <> 0 -> known obs ->
  ct_xyz t obs = Ok (0%Z, Xyz (glow (xbar obs) t / glow (ybar obs) t) 1
    (glow (zbar obs) t / glow (ybar obs) t) obs 0 (Some 0%Z) (Some 0%Z) (Some 0%Z))
  /\ 0 < glow (xbar obs) t / glow (ybar obs) t /\ 0 < glow (zbar obs) t / glow (ybar obs) t.
Proof.
  intros Ht Ho. destruct (glow_signs Ht Ho) as (SX & SY & SZ).
  assert (Y : glow (ybar obs) t <> 0) by (intros E; rewrite E in SY; lra).
  split; [|split; eapply quot_pos; eauto].
  unfold ct_xyz. rewrite ct_loop by auto. cbn [bind]. num.
  rewrite !Rdivo_ok by exact Y. reflexivity.
Qed.

(** Zero kelvin divides by zero, and nothing rejects it. *)
Theorem C110_zero_refuted obs : @ct_xyz R _ _ 0 obs = NotReal.
Proof.
  unfold ct_xyz. cbn [for_]. unfold bbody at 1. num. rewrite !Rmult_0_l. now rewrite Rdivo_0.
Qed.

(** Negative temperatures are accepted with status 0. *)
Theorem C110_negative_refuted : exists o, @ct_xyz R _ _ (-300) 0 = Ok (0%Z, o) /\ fX o = Some 0%Z.
Proof. eexists. split; [apply C110_black_body; [lra|now left]|reflexivity]. Qed.

(** An observer outside the enumeration reads an indeterminate pointer. *)
Theorem C110_unknown_observer_refuted t obs : t <> 0 -> ~ known obs -> ct_xyz t obs = UB Uninit.
Proof.
  intros Ht Ho. unfold ct_xyz. cbn [for_].
  rewrite bbody_planck by exact Ht. cbn [bind]. now rewrite obs_elt_bad.
Qed.

(** From a temperature straight to eight-bit RGB: defined for every non-zero
    temperature, both observers and every matrix of the table, with every
    channel in range. *)
Theorem C110_rgb8 bc cap t obs k o :
  t <> 0 -> known obs -> (k < 13)%nat ->
  exists m o', rgbccm_get k = Ok m /\ ct_rgb8 bc cap t obs m o = Ok (0%Z, o')
    /\ (0 <= r8 o' <= 255)%Z /\ (0 <= g8 o' <= 255)%Z /\ (0 <= b8 o' <= 255)%Z /\ a8 o' = 255%Z.
Proof.
  intros Ht Ho Hk. destruct (C110_black_body Ht Ho) as [E _].
  set (x := Xyz _ _ _ _ _ _ _ _) in E.
  destruct (@C83_rgb8 bc cap x (ccm_entry k) [] o) as (o' & E' & (H0 & _) & (H1 & _) & (H2 & _) & H3).
  exists (mat_of 3 3 (ccm_entry k) []), o'. split; [now apply rgbccm_get_eq|].
  split; [|auto]. unfold ct_rgb8. rewrite E. cbn [bind Z.eqb negb]. exact E'.
Qed.

(** the chromaticity of the black body *)
Theorem C110_uv t obs o :
  t <> 0 -> known obs ->
  let X := glow (xbar obs) t in let Y := glow (ybar obs) t in let Z := glow (zbar obs) t in
  ct_uv60 t obs o = Ok (0%Z, Uv (4 * X / (X + 15 * Y + 3 * Z)) (6 * Y / (X + 15 * Y + 3 * Z))
                            obs 0 (fu o) (fv o)).
Proof.
  intros Ht Ho X Y Z. destruct (C110_black_body Ht Ho) as (E & PX & PZ).
  fold X Y Z in E, PX, PZ. destruct (glow_signs Ht Ho) as (SX & SY & SZ).
  assert (HY : Y <> 0) by (intros E0; unfold Y in E0; rewrite E0 in SY; lra).
  unfold ct_uv60. rewrite E. cbn [bind Z.eqb negb]. rewrite xyz_uv60_eq; colr; [|lra|lra].
  cbn [Z.eqb negb].
  assert (S : X + 15 * Y + 3 * Z <> 0).
  { intros E0. assert (0 < (X + 15 * Y + 3 * Z) * t) by (unfold X, Y, Z; nra). rewrite E0 in H. lra. }
  do 3 f_equal; field; auto.
Qed.

(** ** C85: luminous efficiency *)

Definition lef_tab (lef : Z) : list (Z * Z) := if (lef =? 1)%Z then scotopic_tab else photopic_tab.

Lemma lef_tab_check :
  forallb (fun i => Z.eqb (fst (nth i photopic_tab (0, 0)%Z)) (380 + 5 * Z.of_nat i)
                 && Z.eqb (fst (nth i scotopic_tab (0, 0)%Z)) (380 + 5 * Z.of_nat i)) (seq 0 81) = true
  /\ length photopic_tab = 81%nat /\ length scotopic_tab = 81%nat.
Proof. split; [vm_compute; reflexivity|]. split; reflexivity. Qed.

Lemma lef_elt lef i :
  (i < 81)%nat -> elt (scomps (@lef_get R _ lef)) i = Ok ((380 + 5 * Z.of_nat i)%Z, lum lef i).
Proof.
  intros H. destruct lef_tab_check as (C & L1 & L2). rewrite forallb_forall in C.
  specialize (C i). rewrite in_seq in C. specialize (C ltac:(lia)). apply andb_true_iff in C.
  destruct C as [C1 C2]. apply Z.eqb_eq in C1, C2.
  unfold lef_get, lum, elt. destruct (lef =? 1)%Z; cbn [scomps]; rewrite nth_error_map.
  - destruct (nth_error scotopic_tab i) as [[n v]|] eqn:E; [|apply nth_error_None in E; lia].
    rewrite (nth_error_nth _ _ _ E) in C2 |- *. cbn [option_map fst snd] in *. subst n. do 2 f_equal.
  - destruct (nth_error photopic_tab i) as [[n v]|] eqn:E; [|apply nth_error_None in E; lia].
    rewrite (nth_error_nth _ _ _ E) in C1 |- *. cbn [option_map fst snd] in *. subst n. do 2 f_equal.
Qed.

Lemma lef_size lef : ssize (@lef_get R _ lef) = 81%nat.
Proof. unfold lef_get. destruct (lef =? 1)%Z; reflexivity. Qed.

Lemma for_exit_at S A (body : nat -> S -> outcome (S + A)) s x n lo k :
  (lo <= k < lo + n)%nat ->
  (forall i, (lo <= i < k)%nat -> body i s = Ok (inl s)) -> body k s = Ok (inr x) ->
  for_exit n lo body s = Ok (inr x).
Proof.
  revert lo; induction n as [|n IH]; intros lo H B X; [lia|]. cbn [for_exit].
  destruct (Nat.eq_dec lo k) as [->|E].
  - rewrite X. reflexivity.
  - rewrite B by lia. cbn [bind]. apply IH; [lia| |exact X]. intros i Hi. apply B. lia.
Qed.

(** Every wavelength: 0 outside 380..780 nm, and inside the linear
    interpolation between the two samples around it, which at a sample is the
    tabulated value. *)
Theorem C85_lerp lef nm :
  (0 <= nm < 2 ^ 32)%Z ->
  ((nm < 380 \/ 780 < nm)%Z -> @lef_lerp R _ lef nm = Ok (0%Z, 0))
  /\ (forall (i : nat) (r : Z), (i < 81)%nat -> (0 <= r < 5)%Z -> (nm = 380 + 5 * Z.of_nat i + r)%Z -> (nm <= 780)%Z ->
      @lef_lerp R _ lef nm
      = Ok (0%Z, lum lef i + IZR r / 5 * (lum lef (Datatypes.S i) - lum lef i))).
Proof.
  intros Hn. unfold lef_lerp. rewrite lef_size. rewrite !lef_elt by lia.
  change (380 + 5 * Z.of_nat 0)%Z with 380%Z. change (380 + 5 * Z.of_nat (81 - 1))%Z with 780%Z.
  cbn [bind]. split.
  - intros [H|H]; destruct (Z.ltb_spec nm 380), (Z.ltb_spec 780 nm); try lia; reflexivity.
  - intros i r Hi Hr En Hm. subst nm. set (nm := (380 + 5 * Z.of_nat i + r)%Z) in *.
    destruct (Z.ltb_spec nm 380); [lia|]. destruct (Z.ltb_spec 780 nm); [lia|]. cbn [orb].
    set (body := fun i s => _).
    assert (Low : forall j, (0 <= j < (if (r =? 0)%Z then i else Datatypes.S i))%nat -> body j tt = Ok (inl tt)).
    { intros j Hj. unfold body. rewrite lef_elt by (destruct (r =? 0)%Z; lia). cbn [bind].
      destruct (Z.eqb_spec r 0); destruct (Z.eqb_spec nm (380 + 5 * Z.of_nat j)); try lia;
      destruct (Z.ltb_spec nm (380 + 5 * Z.of_nat j)); try lia; reflexivity. }
    destruct (Z.eqb_spec r 0) as [->|R0].
    + rewrite (@for_exit_at _ _ body tt (inl (lum lef i)) 81 0 i); [|lia|exact Low|].
      * cbn [bind]. do 2 f_equal. unfold Rdiv. ring.
      * unfold body. rewrite lef_elt by lia. cbn [bind].
        destruct (Z.eqb_spec nm (380 + 5 * Z.of_nat i)); [reflexivity|lia].
    + assert (Hi' : (Datatypes.S i < 81)%nat) by lia.
      rewrite (@for_exit_at _ _ body tt (inr (Datatypes.S i, i)) 81 0 (Datatypes.S i)); [|lia|exact Low|].
      * cbn [bind]. rewrite !lef_elt by lia. cbn [bind]. num.
        replace (Rlit 50 1) with 5 by (lits; lra). rewrite Rdivo_ok by lra. cbn [bind].
        replace (nm - (380 + 5 * Z.of_nat i))%Z with r by lia.
        rewrite Z.mod_small by lia. do 2 f_equal. field.
      * unfold body. rewrite lef_elt by lia. cbn [bind].
        destruct (Z.eqb_spec nm (380 + 5 * Z.of_nat (Datatypes.S i))); [lia|].
        destruct (Z.ltb_spec nm (380 + 5 * Z.of_nat (Datatypes.S i))); [|lia].
        cbn [Nat.eqb]. now rewrite Nat.sub_succ, Nat.sub_0_r.
Qed.

(** largest tabulated efficiency *)
Definition lum_top (lef : Z) : Z := if (lef =? 1)%Z then 998%Z else 1%Z.

Lemma lum_check lef :
  forallb (fun p => ((0 <=? snd p) && (snd p <=? lum_top lef * 10000000))%Z)
    (if (lef =? 1)%Z then scotopic_tab else photopic_tab) = true.
Proof. unfold lum_top. destruct (lef =? 1)%Z; vm_compute; reflexivity. Qed.

Lemma lum_range lef i : 0 <= lum lef i <= IZR (lum_top lef).
Proof.
  unfold lum. pose proof (lum_check lef) as C.
  set (tab := if (lef =? 1)%Z then scotopic_tab else photopic_tab) in *.
  destruct (Nat.ltb_spec i (length tab)) as [H|H].
  - rewrite forallb_forall in C. specialize (C _ (nth_In tab (0, 0)%Z H)).
    apply andb_true_iff in C. destruct C as [C1 C2]. apply Z.leb_le in C1, C2. apply IZR_le in C1, C2.
    rewrite mult_IZR in C2. lra.
  - rewrite nth_overflow by exact H. cbn [snd]. unfold lum_top. destruct (lef =? 1)%Z; lra.
Qed.

(** So the value lies between those of its neighbours for every wavelength, and
    in [0, 1] for the photopic function. *)
Theorem C85_between lef nm :
  (0 <= nm < 2 ^ 32)%Z ->
  exists v, @lef_lerp R _ lef nm = Ok (0%Z, v) /\ 0 <= v /\ (lef <> 1%Z -> v <= 1)
    /\ ((380 <= nm <= 780)%Z ->
        let i := Z.to_nat ((nm - 380) / 5) in
        Rmin (lum lef i) (lum lef (Datatypes.S i)) <= v <= Rmax (lum lef i) (lum lef (Datatypes.S i))).
Proof.
  intros Hn. destruct (C85_lerp lef Hn) as [A B].
  destruct (Z_lt_dec nm 380) as [L|L]; [exists 0; split; [apply A; lia|]; split; [lra|split; [lra|lia]]|].
  destruct (Z_lt_dec 780 nm) as [U|U]; [exists 0; split; [apply A; lia|]; split; [lra|split; [lra|lia]]|].
  set (i := Z.to_nat ((nm - 380) / 5)).
  pose proof (Z.div_mod (nm - 380) 5 ltac:(lia)) as DM. pose proof (Z.mod_pos_bound (nm - 380) 5 ltac:(lia)) as MB.
  assert (P : (0 <= (nm - 380) / 5 <= 80)%Z).
  { split; [apply Z.div_pos; lia|]. apply Z.lt_succ_r. apply Z.div_lt_upper_bound; lia. }
  set (r := ((nm - 380) mod 5)%Z) in *.
  assert (E : Z.of_nat i = ((nm - 380) / 5)%Z) by (unfold i; lia).
  eexists. split; [apply (B i r); lia|].
  pose proof (lum_range lef i) as R1. pose proof (lum_range lef (Datatypes.S i)) as R2.
  assert (R0 : 0 <= IZR r / 5 <= 1).
  { assert (0 <= IZR r) by (apply IZR_le; lia). assert (IZR r <= 5) by (apply IZR_le; lia). lra. }
  cbv zeta. fold i. set (w := IZR r / 5) in *. set (a := lum lef i) in *. set (b := lum lef (Datatypes.S i)) in *.
  clearbody w a b. split; [nra|]. split.
  { intros Hl. unfold lum_top in R1, R2. apply Z.eqb_neq in Hl. rewrite Hl in R1, R2. nra. }
  intros _. unfold Rmin, Rmax.
  destruct (Rle_dec a b); split; nra.
Qed.

(** The two functions do not have the same unit: the scotopic one goes up to
    998 instead of 1. *)
Theorem C85_scotopic_unit_refuted : @lef_lerp R _ 1 505 = Ok (0%Z, 998).
Proof.
  destruct (@C85_lerp 1 505 ltac:(lia)) as [_ B]. rewrite (B 25%nat 0%Z) by (lia || reflexivity).
  do 2 f_equal. unfold lum. cbn. lra.
Qed.

Lemma firstn_app_all' A n (l r : list A) : length l = n -> firstn n (l ++ r) = l.
Proof. intros <-. rewrite firstn_app, Nat.sub_diag, firstn_all. apply app_nil_r. Qed.

(** ** C107: normalising a spectrum *)

(** Largest of 0 and the values of a spectrum *)
Fixpoint top (l : list (Z * R)) : R :=
  match l with [] => 0 | p :: l' => Rmax (snd p) (top l') end.

Lemma top_snoc l p : top (l ++ [p]) = Rmax (top l) (snd p).
Proof.
  induction l as [|q l IH]; cbn [app top].
  - apply Rmax_comm.
  - rewrite IH. apply Rmax_assoc.
Qed.
Lemma top_ge l p : In p l -> snd p <= top l.
Proof.
  induction l as [|q l IH]; [contradiction|]. intros [->|H]; cbn [top].
  - apply Rmax_l.
  - eapply Rle_trans; [apply IH, H|apply Rmax_r].
Qed.
Lemma top_0 l : 0 <= top l.
Proof. induction l; cbn [top]; [lra|]. eapply Rle_trans; [eassumption|apply Rmax_r]. Qed.
Lemma top_in l : top l = 0 \/ exists p, In p l /\ snd p = top l.
Proof.
  induction l as [|q l IH]; [now left|]. cbn [top]. unfold Rmax at 1 2.
  destruct (Rle_dec (snd q) (top l)).
  - destruct IH as [->|(p & I & E)]; [now left|]. right. exists p. split; [now right|exact E].
  - right. exists q. split; [now left|reflexivity].
Qed.

Definition scaled (m : R) (p : Z * R) : Z * R := (fst p, snd p / m).

Lemma norm_loop1 (s : spd R) :
  (ssize s <= length (scomps s))%nat ->
  for_ (ssize s) 0 (fun i mx => let! (_, v) := elt (scomps s) i in
                     Ok (if (mx <? v)%num then v else mx)) f0
  = Ok (top (firstn (ssize s) (scomps s))).
Proof.
  intros H. change (top (firstn (ssize s) (scomps s))) with ((fun i => top (firstn i (scomps s))) (0 + ssize s)%nat).
  replace f0 with ((fun i => top (firstn i (scomps s))) 0%nat) by reflexivity.
  apply (@for_fun _ (fun i => top (firstn i (scomps s)))). intros i Hi.
  unfold elt. destruct (nth_error (scomps s) i) as [[nm v]|] eqn:E; [|apply nth_error_None in E; lia].
  cbn [bind]. rewrite (@firstn_snoc _ (scomps s) i (0%Z, 0)) by lia. rewrite (nth_error_nth _ _ _ E), top_snoc.
  num. cbn [snd]. unfold Rmax. destruct (Rltb_spec (top (firstn i (scomps s))) v);
    destruct (Rle_dec (top (firstn i (scomps s))) v); f_equal; lra.
Qed.

Lemma norm_loop2 m n (c : list (Z * R)) :
  m <> 0 -> (n <= length c)%nat ->
  for_ n 0 (fun i c => let! (k, v) := elt c i in let! q := fdiv v m in Ok (upd c i (k, q))) c
  = Ok (map (scaled m) (firstn n c) ++ skipn n c).
Proof.
  intros Hm Hn. set (g := fun i => map (scaled m) (firstn i c) ++ skipn i c).
  change (map (scaled m) (firstn n c) ++ skipn n c) with (g (0 + n)%nat).
  replace c with (g 0%nat) at 2 by reflexivity.
  apply (@for_fun _ g). intros i Hi. unfold g.
  assert (L : length (map (scaled m) (firstn i c)) = i) by (rewrite map_length, firstn_length; lia).
  rewrite (@skipn_cons_nth _ c i (0%Z, 0)) by lia. unfold elt.
  rewrite nth_error_app2 by lia. rewrite L, Nat.sub_diag. cbn [nth_error].
  rewrite (@firstn_snoc _ c i (0%Z, 0)) by lia. rewrite map_app, <- app_assoc. cbn [map app].
  destruct (nth i c (0%Z, 0)) as [k v]. cbn [bind]. num. rewrite Rdivo_ok by exact Hm. cbn [bind].
  f_equal. set (h := map (scaled m) (firstn i c)) in *. set (t := skipn (Datatypes.S i) c).
  change (upd (h ++ (k, v) :: t) i (k, v / m) = h ++ (k, v / m) :: t).
  rewrite <- L. apply upd_app_mid.
Qed.

(** Every spectrum: rejected, unchanged, exactly when no value is positive.
    Otherwise every value is divided by the largest, so that the largest
    becomes 1; wavelengths and the memory behind the spectrum stay. *)
Theorem C107_rejects (s : spd R) :
  (ssize s <= length (scomps s))%nat ->
  (norm_spd s = Ok ((- EINVAL)%Z, s) <-> Forall (fun p => snd p <= 0) (firstn (ssize s) (scomps s))).
Proof.
  intros H. unfold norm_spd. rewrite norm_loop1 by exact H. cbn [bind]. num.
  destruct (Reqb_spec (top (firstn (ssize s) (scomps s))) 0) as [E|E].
  - split; [|reflexivity]. intros _. apply Forall_forall. intros p I. rewrite <- E. now apply top_ge.
  - split; [|intros F; exfalso; apply E].
    + rewrite norm_loop2 by auto. cbn [bind]. intros X. discriminate X.
    + destruct (top_in (firstn (ssize s) (scomps s))) as [Z|(p & I & Ep)]; [exact Z|].
      rewrite Forall_forall in F. specialize (F p I). pose proof (top_0 (firstn (ssize s) (scomps s))). lra.
Qed.

Theorem C107_scales (s : spd R) nm v :
  (ssize s <= length (scomps s))%nat ->
  In (nm, v) (firstn (ssize s) (scomps s)) -> 0 < v ->
  exists m c, norm_spd s = Ok (0%Z, Spd (ssize s) c) /\ 0 < m
    /\ (exists nm', In (nm', m) (firstn (ssize s) (scomps s)))
    /\ Forall (fun p => snd p <= m) (firstn (ssize s) (scomps s))
    /\ c = map (fun p => (fst p, snd p / m)) (firstn (ssize s) (scomps s)) ++ skipn (ssize s) (scomps s)
    /\ (exists nm', In (nm', 1) (firstn (ssize s) c))
    /\ Forall (fun p => snd p <= 1) (firstn (ssize s) c).
Proof.
  intros H I P. remember (firstn (ssize s) (scomps s)) as l eqn:El.
  assert (M : 0 < top l) by (eapply Rlt_le_trans; [exact P|exact (top_ge _ _ I)]).
  exists (top l). eexists. split.
  { unfold norm_spd. rewrite norm_loop1 by exact H. cbn [bind]. num. rewrite <- El.
    destruct (Reqb_spec (top l) 0) as [e|e]; [exfalso; clear - M e; lra|].
    rewrite norm_loop2 by assumption. rewrite <- El. reflexivity. }
  split; [exact M|]. unfold scaled.
  assert (W : exists nm', In (nm', top l) l).
  { destruct (top_in l) as [Z|([nm' w] & J & E)]; [lra|]. cbn [snd] in E. subst w. eauto. }
  assert (B : Forall (fun p => snd p <= top l) l) by (apply Forall_forall; intros; now apply top_ge).
  split; [exact W|]. split; [exact B|]. split; [reflexivity|].
  assert (F : firstn (ssize s) (map (fun p => (fst p, snd p / top l)) l ++ skipn (ssize s) (scomps s))
    = map (fun p => (fst p, snd p / top l)) l).
  { apply firstn_app_all'. rewrite map_length. rewrite El, firstn_length. lia. }
  rewrite F. split.
  - destruct W as (nm' & J). exists nm'. apply in_map_iff. exists (nm', top l). split; [|exact J].
    cbn [fst snd]. f_equal. field. lra.
  - apply Forall_map. eapply Forall_impl; [|exact B]. intros p Hp. cbn [snd].
    apply Rmult_le_reg_r with (top l); [exact M|]. unfold Rdiv. rewrite Rmult_assoc, Rinv_l by lra. lra.
Qed.

Example C107_case : let s := Spd 2 [(500%Z, 3); (600%Z, -1)] in
  (ssize s <= length (scomps s))%nat /\ In (500%Z, 3) (firstn (ssize s) (scomps s)).
Proof. cbn. split; [lia|auto]. Qed.

(** Normalising twice is normalising once. *)
Theorem C107_idempotent (s s' : spd R) :
  (ssize s <= length (scomps s))%nat -> norm_spd s = Ok (0%Z, s') -> norm_spd s' = Ok (0%Z, s').
Proof.
  intros H E.
  destruct (Forall_dec (fun p : Z * R => snd p <= 0) (fun p => Rle_dec (snd p) 0) (firstn (ssize s) (scomps s))) as [F|F].
  { apply C107_rejects in F; [|exact H]. rewrite F in E. discriminate E. }
  apply neg_Forall_Exists_neg in F; [|intros p; destruct (Rle_dec (snd p) 0); auto].
  apply Exists_exists in F. destruct F as ([nm v] & I & P). cbn [snd] in P.
  destruct (@C107_scales s nm v H I ltac:(lra)) as (m & c & E1 & M & W & B & C & (nm' & J) & B').
  rewrite E1 in E. injection E as <-.
  assert (L : (ssize s <= length c)%nat).
  { rewrite C, app_length, map_length, firstn_length, skipn_length. lia. }
  assert (T : top (firstn (ssize s) c) = 1).
  { apply Rle_antisym.
    - destruct (top_in (firstn (ssize s) c)) as [Z|(p & K & <-)]; [lra|].
      rewrite Forall_forall in B'. now apply B'.
    - apply (top_ge _ _ J). }
  unfold norm_spd. rewrite norm_loop1 by exact L. cbn [bind ssize scomps]. rewrite T. num.
  destruct (Reqb_spec 1 0); [lra|]. rewrite norm_loop2 by (lra || exact L). cbn [bind].
  do 3 f_equal. transitivity (firstn (ssize s) c ++ skipn (ssize s) c); [|apply firstn_skipn]. f_equal.
  transitivity (map (fun p : Z * R => p) (firstn (ssize s) c)); [|apply map_id].
  apply map_ext. intros [k w]. unfold scaled. cbn. f_equal. field.
Qed.

Print Assumptions C84_none.
Print Assumptions C84_sum.
Print Assumptions C84_physical.
Print Assumptions C84_scale.
Print Assumptions C84_unknown_observer_refuted.
Print Assumptions C84_nearest_refuted.
Print Assumptions C84_zbar_dip_refuted.
Print Assumptions C110_black_body.
Print Assumptions C110_zero_refuted.
Print Assumptions C110_negative_refuted.
Print Assumptions C110_unknown_observer_refuted.
Print Assumptions C110_rgb8.
Print Assumptions C110_uv.
Print Assumptions C85_lerp.
Print Assumptions C85_between.
Print Assumptions C85_scotopic_unit_refuted.
Print Assumptions C107_rejects.
Print Assumptions C107_scales.
Print Assumptions C107_idempotent.
