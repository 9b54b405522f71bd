(** The colour functions in the safety logic *)
From Coq Require Import List Arith ZArith Bool Lia.
From Verif Require Import Base BaseFacts Libm SpecVec SpecMtx SpecSafe SpecSafeVec MVec MMtx MColorTab MColor PVec PMtx PMtxOps PSafe.
Import ListNotations.
Set Implicit Arguments.
Local Open Scope num_scope.

Lemma elt_ok A (l : list A) i : (i < length l)%nat -> exists x, elt l i = Ok x.
Proof. intros H. unfold elt. destruct (nth_error l i) eqn:E; eauto. apply nth_error_None in E. lia. Qed.

Section Color.
Context {T : Type} {N : Num T} {M : NumM T}.
Variables bc cap : bool.
Variable OF : Prop.
Hypothesis L : lawful N.
Hypothesis LM : lawful_libm N M.
Notation NR := (~ total N).
Notation "'WP' P m" := (wp NR OF P m) (at level 10, P at level 9, m at level 9).
Notation top := (fun _ => True).

Lemma wp_ans m : answers_or_none N m -> WP top m.
Proof. intros [(x & ->)|(-> & H)]; cbn; auto. Qed.
Lemma wp_pow x y : WP top (fpow x y).
Proof. apply wp_ans. now apply LM. Qed.
Lemma wp_acos x : WP top (facos x).
Proof. apply wp_ans. now apply LM. Qed.
Lemma wp_log10 x : WP top (flog10 x).
Proof. apply wp_ans. now apply LM. Qed.
Lemma wp_elt A (l : list A) i : (i < length l)%nat -> WP top (elt l i).
Proof. intros H. destruct (elt_ok l H) as (x & ->). exact I. Qed.

Ltac leaf := first [apply (@wp_div T N OF L) | apply (@wp_sqrt T N OF L) | apply wp_pow | apply wp_acos | apply wp_log10 | apply wp_elt; cbn; lia].
Ltac step := match goal with
  | |- wp _ _ _ (let! _ := _ in _) => eapply wp_bind; [leaf|]; intros; try match goal with x : (_ * _)%type |- _ => destruct x end
  | |- wp _ _ _ (Ok _) => exact I
  | |- wp _ _ _ (let (_, _) := ?x in _) => destruct x
  end.
Ltac steps := repeat step.

Lemma wp_obs obs i : obs = 0%Z \/ obs = 1%Z -> (i < 95)%nat -> WP top (obs_elt (obs_get obs) i).
Proof.
  intros H Hi. unfold obs_elt, obs_get.
  destruct H as [-> | ->]; cbn [Z.eqb Pos.eqb]; (eapply wp_bind; [apply wp_elt; change (i < 95)%nat; exact Hi|]); intros [[? ?] ?] _; exact I.
Qed.

Lemma wp_spd s obs : (ssize s <= length (scomps s))%nat -> obs = 0%Z \/ obs = 1%Z -> WP top (spd_xyz s obs).
Proof.
  intros Hs Ho. unfold spd_xyz. cbv zeta. destruct (_ <? _)%nat; [exact I|].
  eapply wp_bind; [apply (@wp_for0 NR OF _ (top)); [exact I|]|].
  - intros i [[[x y] z] k] Hi _. eapply wp_bind; [apply wp_elt; lia|]. intros [nm v] _.
    destruct (Z.ltb_spec 359 nm); [|exact I]. destruct (Z.ltb_spec nm 831); [|exact I]. cbn [andb].
    eapply wp_bind; [apply wp_obs; auto|intros [[? ?] ?] _; exact I].
    assert (0 <= (nm - 360) / 5 < 95)%Z by (split; [apply Z.div_pos; lia|apply Z.div_lt_upper_bound; lia]). lia.
  - intros [[[x y] z] k] _. destruct (_ =? _)%Z; [exact I|]. steps.
Qed.

Lemma wp_norm s : (ssize s <= length (scomps s))%nat -> WP (fun r => ssize (snd r) = ssize s /\ length (scomps (snd r)) = length (scomps s)) (norm_spd s).
Proof.
  intros Hs. unfold norm_spd. eapply wp_bind; [apply (@wp_for0 NR OF _ (top)); [exact I|]|].
  - intros i mx Hi _. eapply wp_bind; [apply wp_elt; lia|]. intros [? ?] _. exact I.
  - intros mx _. destruct (mx =? f0); [now split|].
    eapply wp_bind; [apply (@wp_for0 NR OF _ (fun c => length c = length (scomps s))); [reflexivity|]|].
    + intros i c Hi Hc. eapply wp_bind; [apply wp_elt; lia|]. intros [n v] _. eapply wp_bind; [apply (@wp_div T N OF L)|]. intros q _.
      cbn. now rewrite upd_length.
    + intros c Hc. now split.
Qed.

Lemma wp_lef lef nm : WP top (lef_lerp lef nm).
Proof.
  unfold lef_lerp. cbv zeta.
  assert (HS : ssize (lef_get lef) = 81%nat) by (unfold lef_get; now destruct (_ =? _)%Z).
  assert (HL : length (scomps (lef_get lef)) = 81%nat) by (unfold lef_get; destruct (_ =? _)%Z; cbn [scomps]; rewrite map_length; reflexivity).
  generalize dependent (lef_get lef). intros d HS HL.
  eapply wp_bind; [apply wp_elt; lia|]. intros [nm0 ?] _. eapply wp_bind; [apply wp_elt; lia|]. intros [nm1 ?] _.
  destruct (_ || _)%bool; [exact I|].
  eapply wp_bind; [apply (@wp_for_exit NR OF _ _ top (fun r => match r with inl _ => True | inr (a, b) => (a < 81 /\ b < 81)%nat end)); [exact I|]|].
  - intros i s Hi _. eapply wp_bind; [apply wp_elt; lia|]. intros [n v] _. destruct (_ =? _)%Z; [exact I|]. destruct (_ <? _)%Z; [|exact I].
    cbn. destruct (_ =? _)%nat; lia.
  - intros r Hr. destruct r as [u|[v|[a b]]]; [|exact I|].
    + eapply wp_bind; [apply wp_elt; lia|]. intros [? ?] _. eapply wp_bind; [apply wp_elt; lia|]. intros [? ?] _. steps.
    + eapply wp_bind; [apply wp_elt; lia|]. intros [? ?] _. eapply wp_bind; [apply wp_elt; lia|]. intros [? ?] _. steps.
Qed.

Lemma wp_xyy_xyz a o : WP top (xyy_xyz a o).
Proof. unfold xyy_xyz. steps. Qed.
Lemma wp_xyz_xyy a o : WP top (xyz_xyy a o).
Proof. unfold xyz_xyy. steps. Qed.
Lemma wp_xyy_uv60 a o : WP top (xyy_uv60 a o).
Proof. unfold xyy_uv60. cbv zeta. steps. Qed.
Lemma wp_xyz_uv60 a o : WP top (xyz_uv60 a o).
Proof. unfold xyz_uv60. eapply wp_bind; [apply wp_xyz_xyy|]. intros [? ?] _. eapply wp_bind; [apply wp_xyy_uv60|]. intros [? ?] _. exact I. Qed.
Lemma wp_uv60_xyy a : WP top (uv60_xyy a).
Proof. unfold uv60_xyy. cbv zeta. steps. Qed.
Lemma wp_uv60_xyz a o : WP top (uv60_xyz a o).
Proof. unfold uv60_xyz. eapply wp_bind; [apply wp_uv60_xyy|]. intros [? ?] _. eapply wp_bind; [apply wp_xyy_xyz|]. intros [? ?] _. exact I. Qed.
Lemma wp_uv76_uv60 a : WP top (uv76_uv60 a).
Proof. unfold uv76_uv60. steps. Qed.
Lemma wp_bbody t nm : WP top (bbody t nm).
Proof. unfold bbody. cbv zeta. eapply wp_bind; [leaf|]. intros. leaf. Qed.

Lemma wp_ct_xyz t obs : obs = 0%Z \/ obs = 1%Z -> WP top (ct_xyz t obs).
Proof.
  intros Ho. unfold ct_xyz. cbv zeta. eapply wp_bind; [apply (@wp_for0 NR OF _ (top)); [exact I|]|].
  - intros i [[x y] z] Hi _. eapply wp_bind; [apply wp_bbody|]. intros b _. eapply wp_bind; [apply wp_obs; auto; lia|]. intros [[? ?] ?] _. exact I.
  - intros [[x y] z] _. steps.
Qed.

Lemma wp_ct_uv60 t obs o : obs = 0%Z \/ obs = 1%Z -> WP top (ct_uv60 t obs o).
Proof.
  intros Ho. unfold ct_uv60. eapply wp_bind; [now apply wp_ct_xyz|]. intros [rc x] _. destruct (negb _); [exact I|].
  eapply wp_bind; [apply wp_xyz_uv60|]. intros [rc' u] _. destruct (negb _); exact I.
Qed.

Lemma wp_rgbf a tl m : ism 3 3 tl m -> WP top (xyz_rgbf bc cap a m).
Proof.
  intros Hm. unfold xyz_rgbf.
  eapply wp_bind; [apply (@wp_init0 T N bc OF 3 1)|]. { split; [reflexivity|split; [reflexivity|cbn; lia]]. }
  intros [rc xm] (_ & (f & E)). cbn [snd] in E.
  eapply wp_bind; [apply (@wp_init0 T N bc OF 3 1)|]. { split; [reflexivity|split; [reflexivity|cbn; lia]]. }
  intros [rc2 om] (_ & Hom). cbn [snd] in Hom. rewrite E. generalize (rest (mtx_def (T := T) 3 1)). clear E. intros tl'.
  cbn -[mtx_mult channel mtx_def].
  eapply wp_bind; [eapply (@wp_mult T N bc OF 3 3 1); [exact Hm| |eapply ism_room; exact Hom]|].
  { exists (fun i _ => match i with O => cX a | 1%nat => cY a | _ => cZ a end). reflexivity. }
  intros [rc3 om3] (_ & H3). cbn [snd] in H3. destruct (negb _); [exact I|].
  do 3 (eapply wp_bind; [eapply (@wp_rd_m T N OF 3 1); [exact H3|lia]|intros ? _]).
  repeat step.
Qed.

Lemma wp_flags a (Q : bool -> outcome (Z * cct T)) : (exists z, fu a = Some z) -> (exists z, fv a = Some z) ->
  (forall b, WP top (Q b)) -> WP top (let! iu := flag (fu (T := T) a) in let! i := if iu then Ok true else flag (fv a) in Q i).
Proof.
  intros (z & E) (z' & E') HQ. rewrite E, E'. unfold flag at 1. cbn [bind]. destruct (negb _); cbn [bind]; [apply HQ|]. unfold flag. cbn [bind]. apply HQ.
Qed.

Definition flagged (a : uv T) : Prop := (exists z, fu a = Some z) /\ (exists z, fv a = Some z).

Lemma wp_mccamy a o : flagged a -> WP top (mccamy a o).
Proof.
  intros (H1 & H2). unfold mccamy. apply (@wp_flags a (fun i => if i then _ else _)); auto. intros [|]; [exact I|].
  eapply wp_bind; [apply wp_uv60_xyy|]. intros [? ?] _. steps.
Qed.

Lemma wp_poly6 k x : length k = 7%nat -> WP top (poly6 k x).
Proof. intros H. unfold poly6. repeat (eapply wp_bind; [first [apply wp_pow|apply wp_elt; rewrite H; lia]|intros ? _]). exact I. Qed.
Lemma wp_k2011 i : (i < 7)%nat -> WP (fun l => length l = 7%nat) (k2011 i).
Proof.
  intros H. unfold k2011, elt. do 7 (destruct i as [|i]; [cbn; reflexivity|]). lia.
Qed.

Lemma wp_ohno2011 a o : flagged a -> WP top (ohno2011 a o).
Proof.
  intros (H1 & H2). unfold ohno2011. apply (@wp_flags a (fun i => if i then _ else _)); auto. intros [|]; [exact I|]. cbv zeta.
  eapply wp_bind; [leaf|intros l_fp _]. eapply wp_bind; [leaf|intros q _].
  eapply wp_bind; [apply wp_k2011; lia|intros k0 K0]. eapply wp_bind; [now apply wp_poly6|intros lbb _].
  eapply wp_bind; [apply wp_k2011; destruct (_ <? _); lia|intros kt Kt]. eapply wp_bind; [apply wp_k2011; destruct (_ <? _); lia|intros kd Kd].
  eapply wp_bind; [now apply wp_poly6|intros pt _]. eapply wp_bind; [leaf|intros t1 _]. eapply wp_bind; [now apply wp_poly6|intros pd _].
  eapply wp_bind; [leaf|intros q1 _]. eapply wp_bind; [leaf|intros dt1 _]. eapply wp_bind; [leaf|intros c _].
  eapply wp_bind with (P := top); [|intros; exact I].
  destruct (_ >=? _).
  - eapply wp_bind; [apply wp_k2011; lia|intros k5 K5]. now apply wp_poly6.
  - eapply wp_bind; [apply wp_k2011; lia|intros k6 K6]. eapply wp_bind; [now apply wp_poly6|intros p _]. steps.
Qed.

(** The nearest entry of Ohno's table: the arithmetic need only tell the two
    ends of the table from their neighbours *)
Definition ends_apart : Prop := forall t0 t1 t2 t3 : T * T * T,
  ct_uv 0 = Ok t0 -> ct_uv 1 = Ok t1 -> ct_uv 302 = Ok t2 -> ct_uv 303 = Ok t3 ->
  fst (fst t0) <? fst (fst t1) = true /\ fst (fst t2) <? fst (fst t3) = true.

Lemma ct_len : length ct_uv_tab = 304%nat.
Proof. reflexivity. Qed.
Lemma ct_uv_ok i : (i < 304)%nat -> exists t, ct_uv (T := T) i = Ok t.
Proof. intros H. unfold ct_uv. rewrite <- ct_len in H. destruct (elt_ok _ H) as ([[? ?] ?] & ->). cbn. eauto. Qed.

Lemma wp_ct_uv i : (i < 304)%nat -> WP (fun t => ct_uv i = Ok t) (ct_uv i).
Proof. intros H. destruct (ct_uv_ok H) as (t & E). eapply wp_eq; eauto. Qed.
Lemma wp_dist i a : (i < 304)%nat -> WP top (dist_uv i a).
Proof. intros H. unfold dist_uv. eapply wp_bind; [now apply wp_ct_uv|]. intros [[? ?] ?] _. exact I. Qed.

Lemma wp_ohno2014 a o : ends_apart -> flagged a -> WP top (ohno2014 a o).
Proof.
  intros HE (H1 & H2). unfold ohno2014. apply (@wp_flags a (fun i => if i then _ else _)); auto. intros [|]; [exact I|].
  eapply wp_bind with (P := fun s => (snd s < 304)%nat).
  { unfold nearest. apply (@wp_for0 NR OF _ (fun s => (snd s < 304)%nat)); [cbn; lia|]. intros i [best k] Hi Hk.
    eapply wp_bind; [apply wp_dist; lia|]. intros d _. cbn. destruct (_ <? _); cbn in *; lia. }
  intros [best k] Hk. cbn [snd] in Hk.
  eapply wp_bind; [now apply wp_ct_uv|]. intros [[tk uk] vk] Ek.
  eapply wp_bind; [apply wp_ct_uv; lia|]. intros [[t1 u1] v1] E1.
  eapply wp_bind; [apply wp_ct_uv; lia|]. intros [[t2 u2] v2] E2.
  destruct (@ct_uv_ok 0 ltac:(lia)) as (p0 & E0). destruct (@ct_uv_ok 303 ltac:(lia)) as (p3 & E3).
  destruct (HE _ _ _ _ E0 E1 E2 E3) as (B1 & B2). cbn [fst snd] in B1, B2.
  destruct ((tk <? t1) || (tk >? t2))%bool eqn:EO; [exact I|]. apply orb_false_iff in EO as (O1 & O2).
  destruct (Nat.eqb_spec k 0) as [->|K0].
  { rewrite Ek in E0. injection E0 as <-. cbn [fst] in B1. congruence. }
  destruct (Nat.eq_dec k 303) as [->|K3].
  { rewrite Ek in E3. injection E3 as <-. cbn [fst] in B2. unfold fgt in O2. congruence. }
  eapply wp_bind; [apply wp_dist; lia|intros dp _]. eapply wp_bind; [apply wp_dist; lia|intros dn _].
  eapply wp_bind; [apply wp_ct_uv; lia|]. intros [[tp up] vp] _. eapply wp_bind; [apply wp_ct_uv; lia|]. intros [[tn un] vn] _.
  eapply wp_bind; [leaf|intros l _]. eapply wp_bind; [leaf|intros x _]. eapply wp_bind; [leaf|intros xl _]. cbv zeta.
  eapply wp_bind; [leaf|intros lfp _]. eapply wp_bind; [leaf|intros q _]. eapply wp_bind; [leaf|intros al _].
  eapply wp_bind; [apply wp_poly6; rewrite map_length; reflexivity|intros; exact I].
Qed.

Lemma wp_cct_xyy c obs : obs = 0%Z \/ obs = 1%Z -> WP top (cct_xyy c obs).
Proof.
  intros Ho. unfold cct_xyy. eapply wp_bind; [now apply wp_ct_xyz|]. intros [? x0] _. eapply wp_bind; [apply wp_xyz_uv60|]. intros [? uv0] _.
  eapply wp_bind; [now apply wp_ct_xyz|]. intros [? x1] _. eapply wp_bind; [apply wp_xyz_uv60|]. intros [? uv1] _. cbv zeta. steps.
Qed.
Lemma wp_cct_xyz c obs o : obs = 0%Z \/ obs = 1%Z -> WP top (cct_xyz c obs o).
Proof. intros Ho. unfold cct_xyz. eapply wp_bind; [now apply wp_cct_xyy|]. intros [? y] _. eapply wp_bind; [apply wp_xyy_xyz|]. intros [? ?] _. exact I. Qed.
End Color.
