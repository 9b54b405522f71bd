(** Lemmas on the black-body locus: the ratio Z / Y of a black body grows with
    its temperature. *)
From Coq Require Import List Arith ZArith Bool Reals Lra Lia.
From Coquelicot Require Import Coquelicot.
From Verif Require Import Base BaseFacts SpecReal SpecMtx SpecColor NumR Libm LibmR Out RTac
  MVec MMtx PMtxR PStat PStatReg MColorTab MColor PropColor PropColor2.
Import ListNotations.
Set Implicit Arguments.
Local Open Scope R_scope.

Implicit Types (i j k : nat).

(** ** (e^(a s) - 1) / (e^(b s) - 1) increases with s for 0 < b < a *)

Lemma em_pos x : 0 < x -> 0 < exp x - 1.
Proof. intros H. apply exp_increasing in H. rewrite exp_0 in H. lra. Qed.

Lemma bracket_pos a b s : 0 < b < a -> 0 < s -> 0 < (a - b) - a * exp (- (b * s)) + b * exp (- (a * s)).
Proof.
  intros Hb Hs.
  destruct (MVT_cor2 (fun s => (a - b) - a * exp (- (b * s)) + b * exp (- (a * s)))
    (fun s => a * b * (exp (- (b * s)) - exp (- (a * s)))) 0 s Hs) as (c & E & C).
  - intros c _. apply is_derive_Reals. auto_derive; [exact I|]. ring.
  - cbv beta in E. rewrite !Rmult_0_r, Ropp_0, exp_0 in E.
    assert (P : 0 < a * b * (exp (- (b * c)) - exp (- (a * c)))).
    { apply Rmult_lt_0_compat; [nra|]. apply Rlt_Rminus, exp_increasing. nra. }
    assert (0 < a * b * (exp (- (b * c)) - exp (- (a * c))) * (s - 0)) by (apply Rmult_lt_0_compat; lra).
    lra.
Qed.

Lemma ratio_incr a b s s' :
  0 < b < a -> 0 < s < s' ->
  (exp (a * s) - 1) / (exp (b * s) - 1) < (exp (a * s') - 1) / (exp (b * s') - 1).
Proof.
  intros Hb Hs.
  destruct (MVT_cor2 (fun s => (exp (a * s) - 1) / (exp (b * s) - 1))
    (fun s => exp ((a + b) * s) * ((a - b) - a * exp (- (b * s)) + b * exp (- (a * s))) / (exp (b * s) - 1) ^ 2)
    s s' (proj2 Hs)) as (c & E & C).
  - intros c Hc. assert (P : 0 < exp (b * c) - 1) by (apply em_pos; nra).
    apply is_derive_Reals. auto_derive; [lra|].
    replace ((a + b) * c) with (a * c + b * c) by ring. rewrite exp_plus, !exp_Ropp.
    pose proof (exp_pos (a * c)). pose proof (exp_pos (b * c)). field. lra.
  - cbv beta in E.
    assert (P : 0 < exp ((a + b) * c) * ((a - b) - a * exp (- (b * c)) + b * exp (- (a * c))) / (exp (b * c) - 1) ^ 2).
    { apply Rdiv_lt_0_compat; [apply Rmult_lt_0_compat; [apply exp_pos|apply bracket_pos; lra]|].
      apply pow_lt, em_pos. nra. }
    assert (0 < exp ((a + b) * c) * ((a - b) - a * exp (- (b * c)) + b * exp (- (a * c)))
      / (exp (b * c) - 1) ^ 2 * (s' - s)) by (apply Rmult_lt_0_compat; lra).
    lra.
Qed.

(** ** Planck's law at two temperatures *)

Notation P t i := (planck t (wavelength i)).

Lemma wavelength_lt i j : (i < j)%nat -> wavelength i < wavelength j.
Proof. intros H. apply lt_INR in H. unfold wavelength. lra. Qed.

Lemma planck_quot t1 t2 l :
  0 < t1 -> 0 < t2 -> 0 < l ->
  planck t2 l / planck t1 l = (exp (planck_c2 / t1 * / l) - 1) / (exp (planck_c2 / t2 * / l) - 1).
Proof.
  intros H1 H2 Hl. unfold planck.
  replace (planck_c2 / (l * t1)) with (planck_c2 / t1 * / l) by (field; lra).
  replace (planck_c2 / (l * t2)) with (planck_c2 / t2 * / l) by (field; lra).
  assert (C : 0 < planck_c2) by (unfold planck_c2; lra).
  pose proof (Rinv_0_lt_compat _ Hl) as L. pose proof (Rinv_0_lt_compat _ H1). pose proof (Rinv_0_lt_compat _ H2).
  assert (A1 : 0 < exp (planck_c2 / t1 * / l) - 1)
    by (apply em_pos; apply Rmult_lt_0_compat; [now apply Rdiv_lt_0_compat|exact L]).
  assert (A2 : 0 < exp (planck_c2 / t2 * / l) - 1)
    by (apply em_pos; apply Rmult_lt_0_compat; [now apply Rdiv_lt_0_compat|exact L]).
  assert (planck_c1 <> 0) by (unfold planck_c1; lra).
  field. repeat split; try lra.
Qed.

(** The hotter body gains more at the shorter wavelength. *)
Lemma planck_shift t1 t2 i j :
  0 < t1 < t2 -> (i < j)%nat -> P t2 j / P t1 j < P t2 i / P t1 i.
Proof.
  intros Ht Hij. rewrite !planck_quot by (apply wavelength_pos || lra).
  assert (C : 0 < planck_c2) by (unfold planck_c2; lra).
  pose proof (wavelength_pos i). pose proof (wavelength_pos j). pose proof (wavelength_lt Hij).
  apply ratio_incr.
  - split; [apply Rdiv_lt_0_compat; lra|]. apply Rmult_lt_compat_l; [exact C|].
    apply Rinv_lt_contravar; [apply Rmult_lt_0_compat; lra|lra].
  - split; [now apply Rinv_0_lt_compat|]. apply Rinv_lt_contravar; [now apply Rmult_lt_0_compat|assumption].
Qed.

(** ** Sums with one change of sign *)

Lemma cross_sum n (m w r : nat -> R) rho :
  (forall i, (i < n)%nat -> 0 <= m i * w i * (r i - rho)) ->
  rho * bigsum n (fun i => m i * w i) <= bigsum n (fun i => r i * m i * w i).
Proof.
  intros H. rewrite bigsum_mult_l.
  assert (G : 0 <= bigsum n (fun i => r i * m i * w i - rho * (m i * w i))).
  { apply bigsum_nonneg. intros k Hk. specialize (H k Hk). lra. }
  rewrite bigsum_minus in G. lra.
Qed.

Lemma cross_sum_strict n (m w r : nat -> R) rho k :
  (forall i, (i < n)%nat -> 0 <= m i * w i * (r i - rho)) ->
  (k < n)%nat -> 0 < m k * w k * (r k - rho) ->
  rho * bigsum n (fun i => m i * w i) < bigsum n (fun i => r i * m i * w i).
Proof.
  intros H Hk S. rewrite bigsum_mult_l.
  set (g := fun i => r i * m i * w i - rho * (m i * w i)).
  assert (G : g k <= bigsum n g).
  { assert (N : forall i, (i < n)%nat -> 0 <= g i) by (intros i Hi; specialize (H i Hi); unfold g; lra).
    clear - N Hk. induction n as [|n IH]; [lia|]. cbn [bigsum].
    destruct (Nat.eq_dec k n) as [->|E].
    - assert (0 <= bigsum n g) by (apply bigsum_nonneg; intros; apply N; lia). lra.
    - assert (g k <= bigsum n g) by (apply IH; [lia|intros; apply N; lia]). pose proof (N n ltac:(lia)). lra. }
  unfold g in G at 2. rewrite bigsum_minus in G. unfold g in G. lra.
Qed.

(** ** The ratio of the z and y matching functions falls with the wavelength *)

(** bounds, in ten thousandths, between which the tables behave *)
Definition loN (obs : Z) : Z := if (obs =? 1)%Z then 0 else 19.
Definition hiN (obs : Z) : Z := if (obs =? 1)%Z then 390000 else 160000.
Definition cy (obs : Z) i : Z := snd (fst (cmf obs i)).
Definition cz (obs : Z) i : Z := snd (cmf obs i).

Definition pair_ok (obs : Z) i j : bool :=
  ((cz obs j * cy obs i <=? cz obs i * cy obs j)
   || (10000 * cz obs j <=? loN obs * cy obs j)
   || (hiN obs * cy obs i <=? 10000 * cz obs i))%Z.
Definition pairs_ok (obs : Z) : bool :=
  forallb (fun j => forallb (fun i => pair_ok obs i j) (seq 0 j)) (seq 0 95).
Lemma pairs_check : pairs_ok 0 = true /\ pairs_ok 1 = true.
Proof. split; vm_compute; reflexivity. Qed.

Lemma y_pos obs i : known obs -> (i < 95)%nat -> 0 < IZR (cy obs i).
Proof.
  intros Ho Hi. destruct (@bar_signs obs i Hi) as (_ & B & _). unfold ybar in B. fold (cy obs i) in B.
  pose proof (decimals_pos obs) as D. pose proof (Rinv_0_lt_compat _ D). unfold Rdiv in B. nra.
Qed.

(** gamma strictly between the bounds: above an entry with z > gamma y every
    shorter wavelength has z >= gamma y *)
Lemma one_change obs g i j :
  known obs -> IZR (loN obs) / 10000 <= g < IZR (hiN obs) / 10000 -> (i < j < 95)%nat ->
  g * IZR (cy obs j) < IZR (cz obs j) -> g * IZR (cy obs i) <= IZR (cz obs i).
Proof.
  intros Ho Hg Hij W.
  assert (C : pair_ok obs i j = true).
  { assert (C : pairs_ok obs = true) by (destruct Ho as [-> | ->]; apply pairs_check).
    unfold pairs_ok in C. rewrite forallb_forall in C. specialize (C j). rewrite in_seq in C.
    specialize (C ltac:(lia)). rewrite forallb_forall in C. apply C. rewrite in_seq. lia. }
  pose proof (@y_pos obs i Ho ltac:(lia)) as Yi. pose proof (@y_pos obs j Ho ltac:(lia)) as Yj.
  unfold pair_ok in C. rewrite !orb_true_iff, !Z.leb_le in C. destruct C as [[C|C]|C]; apply IZR_le in C;
    rewrite !mult_IZR in C.
  - apply Rmult_le_reg_r with (IZR (cy obs j)); [exact Yj|].
    apply Rle_trans with (IZR (cz obs j) * IZR (cy obs i)); [|exact C].
    apply Rlt_le. replace (g * IZR (cy obs i) * IZR (cy obs j)) with (g * IZR (cy obs j) * IZR (cy obs i)) by ring.
    apply Rmult_lt_compat_r; assumption.
  - exfalso. assert (IZR (loN obs) / 10000 * IZR (cy obs j) <= g * IZR (cy obs j))
      by (apply Rmult_le_compat_r; lra). lra.
  - assert (g * IZR (cy obs i) <= IZR (hiN obs) / 10000 * IZR (cy obs i)) by (apply Rmult_le_compat_r; lra). lra.
Qed.

Lemma least (p : nat -> Prop) n :
  (forall i, p i \/ ~ p i) -> p n -> exists k, (k <= n)%nat /\ p k /\ forall i, (i < k)%nat -> ~ p i.
Proof.
  intros D. induction n as [n IH] using lt_wf_ind. intros Pn.
  destruct (le_lt_dec n 0) as [L|L].
  - exists n. split; [lia|]. split; [exact Pn|]. intros; lia.
  - assert (E : (exists m, (m < n)%nat /\ p m) \/ forall i, (i < n)%nat -> ~ p i).
    { clear - D. induction n as [|n IHn]; [right; lia|]. destruct IHn as [(m & L & Pm)|N]; [left; exists m; auto|].
      destruct (D n) as [Pn|Nn]; [left; exists n; auto|]. right. intros i Hi.
      destruct (Nat.eq_dec i n) as [->|E]; [exact Nn|]. apply N. lia. }
    destruct E as [(m & L' & Pm)|N].
    + destruct (IH m L' Pm) as (k & K & Pk & F). exists k. split; [lia|auto].
    + exists n. split; [lia|auto].
Qed.

(** where z - gamma y changes its sign *)
Lemma change_point obs g :
  known obs -> IZR (loN obs) / 10000 <= g < IZR (hiN obs) / 10000 -> 0 < g ->
  exists k, (k <= 93)%nat
    /\ (forall i, (i < k)%nat -> 0 <= IZR (cz obs i) - g * IZR (cy obs i))
    /\ (forall i, (k <= i < 95)%nat -> IZR (cz obs i) - g * IZR (cy obs i) <= 0)
    /\ IZR (cz obs 94) - g * IZR (cy obs 94) < 0.
Proof.
  intros Ho Hg G.
  assert (E : cz obs 93 = 0%Z /\ cz obs 94 = 0%Z) by (destruct Ho as [-> | ->]; split; vm_compute; reflexivity).
  destruct E as [E3 E4].
  pose proof (@y_pos obs 93 Ho ltac:(lia)) as Y3. pose proof (@y_pos obs 94 Ho ltac:(lia)) as Y4.
  destruct (@least (fun i => IZR (cz obs i) - g * IZR (cy obs i) < 0) 93) as (k & K & N & F).
  - intros i. destruct (Rlt_dec (IZR (cz obs i) - g * IZR (cy obs i)) 0); auto.
  - cbv beta. rewrite E3. nra.
  - exists k. split; [exact K|]. split; [|split].
    + intros i Hi. specialize (F i Hi). lra.
    + intros i Hi. destruct (Nat.eq_dec i k) as [->|Ne]; [lra|].
      apply Rnot_lt_le. intros A. assert (g * IZR (cy obs k) <= IZR (cz obs k)); [|lra].
      apply (@one_change obs g k i); [exact Ho|exact Hg|lia|lra].
    + rewrite E4. nra.
Qed.

(** blue excess of the black body over the ratio gamma *)
Definition excess (obs : Z) (g t : R) : R :=
  bigsum 95 (fun i => P t i * (IZR (cz obs i) - g * IZR (cy obs i))).

Lemma excess_glow obs g t :
  excess obs g t = (glow (zbar obs) t - g * glow (ybar obs) t) * decimals obs.
Proof.
  unfold excess, glow. pose proof (decimals_pos obs) as D.
  rewrite bigsum_mult_l, <- bigsum_minus, bigsum_mult_r. apply bigsum_ext. intros k _.
  unfold zbar, ybar. fold (cz obs k) (cy obs k). field. lra.
Qed.

(** A black body at least as blue as gamma gets strictly bluer when heated. *)
Lemma excess_grows obs g t1 t2 :
  known obs -> IZR (loN obs) / 10000 <= g < IZR (hiN obs) / 10000 -> 0 < g -> 0 < t1 < t2 ->
  0 <= excess obs g t1 -> 0 < excess obs g t2.
Proof.
  intros Ho Hg G Ht E. destruct (change_point Ho Hg G) as (k & K & F1 & F2 & F3).
  assert (PP : forall t i, 0 < t -> 0 < P t i) by (intros; apply planck_pos; [assumption|apply wavelength_pos]).
  set (r := fun i => P t2 i / P t1 i).
  assert (Eq : excess obs g t2 = bigsum 95 (fun i => r i * P t1 i * (IZR (cz obs i) - g * IZR (cy obs i)))).
  { apply bigsum_ext. intros i _. unfold r. pose proof (PP t1 i ltac:(lra)). field. lra. }
  rewrite Eq. apply Rle_lt_trans with (r k * excess obs g t1).
  - apply Rmult_le_pos; [|exact E]. left. apply Rdiv_lt_0_compat; apply PP; lra.
  - apply (@cross_sum_strict 95 (fun i => P t1 i) (fun i => IZR (cz obs i) - g * IZR (cy obs i)) r (r k) 94).
    + intros i Hi. pose proof (PP t1 i ltac:(lra)) as Pi. destruct (lt_eq_lt_dec i k) as [[L|L]|L].
      * pose proof (@planck_shift t1 t2 i k Ht L) as S. fold (r k) (r i) in S. specialize (F1 i L).
        apply Rmult_le_pos; [apply Rmult_le_pos|]; lra.
      * rewrite L. replace (r k - r k) with 0 by ring. lra.
      * pose proof (@planck_shift t1 t2 k i Ht L) as S. fold (r k) (r i) in S.
        specialize (F2 i ltac:(lia)).
        replace (P t1 i * (IZR (cz obs i) - g * IZR (cy obs i)) * (r i - r k))
          with (P t1 i * (- (IZR (cz obs i) - g * IZR (cy obs i))) * (r k - r i)) by ring.
        apply Rmult_le_pos; [apply Rmult_le_pos|]; lra.
    + lia.
    + pose proof (PP t1 94%nat ltac:(lra)) as Pi.
      pose proof (@planck_shift t1 t2 k 94 Ht ltac:(lia)) as S. fold (r k) (r 94%nat) in S.
      replace (P t1 94 * (IZR (cz obs 94) - g * IZR (cy obs 94)) * (r 94%nat - r k))
        with (P t1 94 * (- (IZR (cz obs 94) - g * IZR (cy obs 94))) * (r k - r 94%nat)) by ring.
      apply Rmult_lt_0_compat; [apply Rmult_lt_0_compat|]; lra.
Qed.

(** ** Numeric bounds on the ratio *)

Fixpoint zsum (n : nat) (f : nat -> Z) : Z := match n with O => 0%Z | S n' => (zsum n' f + f n')%Z end.
Lemma bigsum_IZR n f : bigsum n (fun i => IZR (f i)) = IZR (zsum n f).
Proof. induction n as [|n IH]; cbn [bigsum zsum]; [reflexivity|]. now rewrite plus_IZR, IH. Qed.

Lemma bigsum_le n f g : (forall i, (i < n)%nat -> f i <= g i) -> bigsum n f <= bigsum n g.
Proof.
  intros H. assert (0 <= bigsum n (fun i => g i - f i)) as G
    by (apply bigsum_nonneg; intros k Hk; specialize (H k Hk); lra).
  rewrite bigsum_minus in G. lra.
Qed.

(** 72 + i: the wavelength in units of 5 nm *)
Definition wl i : Z := (72 + Z.of_nat i)%Z.
Lemma wl_pos i : 0 < IZR (wl i).
Proof. apply IZR_lt. unfold wl. lia. Qed.
Lemma wavelength_wl i : wavelength i = IZR (wl i) * 5 / 10 ^ 9.
Proof. unfold wavelength, wl. rewrite plus_IZR, <- INR_IZR_INZ. lra. Qed.

(** 10^30 / wl^5, rounded down *)
Definition dw i : Z := (10 ^ 30 / wl i ^ 5)%Z.
Lemma dw_bounds i : IZR (dw i) / 10 ^ 30 <= / IZR (wl i) ^ 5 <= IZR (dw i + 1) / 10 ^ 30.
Proof.
  pose proof (wl_pos i) as W. assert (W5 : 0 < IZR (wl i) ^ 5) by now apply pow_lt.
  assert (Q : (0 < wl i ^ 5)%Z) by (apply Z.pow_pos_nonneg; unfold wl; lia).
  pose proof (Z.mul_div_le (10 ^ 30) (wl i ^ 5) Q) as L.
  pose proof (Z.mul_succ_div_gt (10 ^ 30) (wl i ^ 5) Q) as U.
  fold (dw i) in L, U. apply IZR_le in L. apply IZR_lt in U.
  change (wl i ^ 5)%Z with (wl i ^ Z.of_nat 5)%Z in L, U.
  rewrite mult_IZR, <- pow_IZR in L, U. change (IZR (10 ^ 30)) with 1000000000000000000000000000000 in L, U.
  unfold Z.succ in U.
  split; apply Rmult_le_reg_r with (IZR (wl i) ^ 5 * 10 ^ 30); try (apply Rmult_lt_0_compat; lra).
  - replace (IZR (dw i) / 10 ^ 30 * (IZR (wl i) ^ 5 * 10 ^ 30)) with (IZR (wl i) ^ 5 * IZR (dw i)) by field.
    replace (/ IZR (wl i) ^ 5 * (IZR (wl i) ^ 5 * 10 ^ 30)) with (10 ^ 30) by (field; lra). lra.
  - replace (IZR (dw i + 1) / 10 ^ 30 * (IZR (wl i) ^ 5 * 10 ^ 30)) with (IZR (wl i) ^ 5 * IZR (dw i + 1)) by field.
    replace (/ IZR (wl i) ^ 5 * (IZR (wl i) ^ 5 * 10 ^ 30)) with (10 ^ 30) by (field; lra). lra.
Qed.

Lemma z_nonneg obs i : (i < 95)%nat -> 0 <= IZR (cz obs i).
Proof.
  intros Hi. destruct (@bar_signs obs i Hi) as (_ & _ & B). unfold zbar in B. fold (cz obs i) in B.
  pose proof (decimals_pos obs) as D. pose proof (Rinv_0_lt_compat _ D). unfold Rdiv in B. nra.
Qed.

Lemma top_check obs : known obs -> (0 < zsum 95 (fun i => 8 * cy obs i * dw i - cz obs i * (dw i + 1)))%Z.
Proof. intros [-> | ->]; vm_compute; reflexivity. Qed.

(** No black body is bluer than the ratio 8. *)
Lemma excess_top obs t : known obs -> 0 < t -> excess obs 8 t < 0.
Proof.
  intros Ho Ht.
  assert (Hg : IZR (loN obs) / 10000 <= 8 < IZR (hiN obs) / 10000)
    by (destruct Ho as [-> | ->]; cbn [loN hiN Z.eqb Pos.eqb]; lra).
  destruct (change_point Ho Hg ltac:(lra)) as (k & K & F1 & F2 & _).
  set (m := fun i => / IZR (wl i) ^ 5).
  set (w := fun i => 8 * IZR (cy obs i) - IZR (cz obs i)).
  set (r := fun i => P t i * IZR (wl i) ^ 5).
  assert (M : 0 < bigsum 95 (fun i => m i * w i)).
  { pose proof (top_check Ho) as C. apply IZR_lt in C. rewrite <- bigsum_IZR in C.
    apply Rlt_le_trans with (bigsum 95 (fun i => IZR (8 * cy obs i * dw i - cz obs i * (dw i + 1))) * / 10 ^ 30);
      [apply Rmult_lt_0_compat; [exact C|lra]|].
    rewrite bigsum_mult_r. apply bigsum_le. intros i Hi. unfold m, w.
    destruct (dw_bounds i) as [B1 B2]. pose proof (y_pos Ho Hi) as Y. pose proof (z_nonneg obs Hi) as Z.
    rewrite minus_IZR, !mult_IZR.
    replace ((8 * IZR (cy obs i) * IZR (dw i) - IZR (cz obs i) * IZR (dw i + 1)) * / 10 ^ 30)
      with (8 * IZR (cy obs i) * (IZR (dw i) / 10 ^ 30) - IZR (cz obs i) * (IZR (dw i + 1) / 10 ^ 30)) by field.
    replace (/ IZR (wl i) ^ 5 * (8 * IZR (cy obs i) - IZR (cz obs i)))
      with (8 * IZR (cy obs i) * / IZR (wl i) ^ 5 - IZR (cz obs i) * / IZR (wl i) ^ 5) by ring.
    assert (8 * IZR (cy obs i) * (IZR (dw i) / 10 ^ 30) <= 8 * IZR (cy obs i) * / IZR (wl i) ^ 5)
      by (apply Rmult_le_compat_l; lra).
    assert (IZR (cz obs i) * / IZR (wl i) ^ 5 <= IZR (cz obs i) * (IZR (dw i + 1) / 10 ^ 30))
      by (apply Rmult_le_compat_l; lra). lra. }
  assert (R : forall i j, (i < j)%nat -> r i <= r j).
  { intros i j Hij. unfold r, planck. rewrite !wavelength_wl.
    assert (G : forall i, planck_c1 / ((IZR (wl i) * 5 / 10 ^ 9) ^ 5 * (exp (planck_c2 / (IZR (wl i) * 5 / 10 ^ 9 * t)) - 1)) * IZR (wl i) ^ 5
      = planck_c1 / (5 / 10 ^ 9) ^ 5 * / (exp (planck_c2 * 10 ^ 9 / (5 * t) * / IZR (wl i)) - 1)).
    { intros l. pose proof (wl_pos l) as W.
      replace (planck_c2 / (IZR (wl l) * 5 / 10 ^ 9 * t)) with (planck_c2 * 10 ^ 9 / (5 * t) * / IZR (wl l)) by (field; lra).
      assert (0 < exp (planck_c2 * 10 ^ 9 / (5 * t) * / IZR (wl l)) - 1).
      { apply em_pos. apply Rmult_lt_0_compat; [apply Rdiv_lt_0_compat; [unfold planck_c2; lra|lra]|now apply Rinv_0_lt_compat]. }
      field. lra. }
    rewrite !G. apply Rmult_le_compat_l; [apply Rlt_le, Rdiv_lt_0_compat; [unfold planck_c1; lra|lra]|].
    pose proof (wl_pos i) as Wi. pose proof (wl_pos j) as Wj.
    assert (Lt : IZR (wl i) < IZR (wl j)) by (apply IZR_lt; unfold wl; lia).
    assert (C : 0 < planck_c2 * 10 ^ 9 / (5 * t)) by (apply Rdiv_lt_0_compat; [unfold planck_c2; lra|lra]).
    assert (I : / IZR (wl j) < / IZR (wl i)) by (apply Rinv_lt_contravar; [now apply Rmult_lt_0_compat|exact Lt]).
    pose proof (Rinv_0_lt_compat _ Wj).
    apply Rinv_le_contravar.
    - apply em_pos. now apply Rmult_lt_0_compat.
    - apply Rplus_le_compat_r, Rlt_le, exp_increasing. now apply Rmult_lt_compat_l. }
  assert (S : r k * bigsum 95 (fun i => m i * w i) <= bigsum 95 (fun i => r i * m i * w i)).
  { apply cross_sum. intros i Hi. assert (0 < m i) by (unfold m; apply Rinv_0_lt_compat, pow_lt, wl_pos).
    destruct (lt_eq_lt_dec i k) as [[L|L]|L].
    - specialize (F1 i L). specialize (R i k L).
      replace (m i * w i * (r i - r k)) with (m i * (IZR (cz obs i) - 8 * IZR (cy obs i)) * (r k - r i)) by (unfold w; ring).
      apply Rmult_le_pos; [apply Rmult_le_pos|]; lra.
    - rewrite L. replace (r k - r k) with 0 by ring. lra.
    - specialize (F2 i ltac:(lia)). specialize (R k i L). unfold w.
      apply Rmult_le_pos; [apply Rmult_le_pos|]; lra. }
  assert (E : bigsum 95 (fun i => r i * m i * w i) = - excess obs 8 t).
  { unfold excess. rewrite <- (Rmult_1_l (bigsum _ (fun i => P t i * _))), <- Ropp_mult_distr_l_reverse, bigsum_mult_l.
    apply bigsum_ext. intros i Hi. unfold r, m, w. pose proof (wl_pos i). field. lra. }
  assert (0 < r k * bigsum 95 (fun i => m i * w i)).
  { apply Rmult_lt_0_compat; [|exact M]. unfold r. apply Rmult_lt_0_compat; [apply planck_pos; [exact Ht|apply wavelength_pos]|].
    apply pow_lt, wl_pos. }
  lra.
Qed.

(** e^(-1/4) *)
Lemma q_bounds : 7772 / 10000 <= exp (- (1 / 4)) <= 7804 / 10000.
Proof.
  assert (A : exp (1 / 4) = exp (1 / 64) ^ 16).
  { rewrite <- (exp_ln (exp (1 / 64) ^ 16)) by (apply pow_lt, exp_pos). f_equal.
    rewrite ln_pow by apply exp_pos. rewrite ln_exp. cbn [INR]. lra. }
  assert (B : exp (- (1 / 4)) = exp (- (1 / 64)) ^ 16).
  { rewrite <- (exp_ln (exp (- (1 / 64)) ^ 16)) by (apply pow_lt, exp_pos). f_equal.
    rewrite ln_pow by apply exp_pos. rewrite ln_exp. cbn [INR]. lra. }
  split.
  - rewrite B. pose proof (exp_ineq1 (- (1 / 64)) ltac:(lra)) as I.
    apply Rle_trans with ((63 / 64) ^ 16); [lra|]. apply pow_incr. lra.
  - rewrite exp_Ropp, A. pose proof (exp_ineq1 (1 / 64) ltac:(lra)) as I.
    assert (J : (65 / 64) ^ 16 <= exp (1 / 64) ^ 16) by (apply pow_incr; lra).
    assert (J' : 1 / (7804 / 10000) <= (65 / 64) ^ 16) by lra.
    replace (7804 / 10000) with (/ (1 / (7804 / 10000))) by lra.
    apply Rinv_le_contravar; lra.
Qed.

(** quarters of the exponent c2 / (lambda 1000 K), rounded down and up *)
Definition fq i : nat := Z.to_nat (11510 / wl i).
Definition cq i : nat := S (Z.to_nat (11511 / wl i)).

Lemma exp_quarters n : exp (- (INR n / 4)) = exp (- (1 / 4)) ^ n.
Proof.
  rewrite <- (exp_ln (exp (- (1 / 4)) ^ n)) by (apply pow_lt, exp_pos). f_equal.
  rewrite ln_pow by apply exp_pos. rewrite ln_exp. lra.
Qed.

(** the exponent at 1000 K *)
Definition xx i : R := planck_c2 * 10 ^ 9 / 5000 / IZR (wl i).

Lemma xx_bounds i : INR (fq i) / 4 <= xx i <= INR (cq i) / 4.
Proof.
  pose proof (wl_pos i) as W. assert (Q : (0 < wl i)%Z) by (unfold wl; lia).
  pose proof (Z.mul_div_le 11510 (wl i) Q) as L. pose proof (Z.mul_succ_div_gt 11511 (wl i) Q) as U.
  apply IZR_le in L. apply IZR_lt in U. rewrite mult_IZR in L, U. unfold Z.succ in U. rewrite plus_IZR in U.
  assert (Ef : INR (fq i) = IZR (11510 / wl i)).
  { unfold fq. rewrite INR_IZR_INZ, Z2Nat.id; [reflexivity|]. apply Z.div_pos; lia. }
  assert (Ec : INR (cq i) = IZR (11511 / wl i) + 1).
  { unfold cq. rewrite S_INR, INR_IZR_INZ, Z2Nat.id; [reflexivity|]. apply Z.div_pos; lia. }
  rewrite Ef, Ec. unfold xx, planck_c2.
  split; apply Rmult_le_reg_r with (IZR (wl i)); try exact W.
  - replace (14387863142323088 / 10 ^ 18 * 10 ^ 9 / 5000 / IZR (wl i) * IZR (wl i))
      with (14387863142323088 / 10 ^ 18 * 10 ^ 9 / 5000) by (field; lra). lra.
  - replace (14387863142323088 / 10 ^ 18 * 10 ^ 9 / 5000 / IZR (wl i) * IZR (wl i))
      with (14387863142323088 / 10 ^ 18 * 10 ^ 9 / 5000) by (field; lra). lra.
Qed.

Lemma xx_big i : (i < 95)%nat -> 17 <= xx i.
Proof.
  intros H. pose proof (wl_pos i) as W. assert (L : IZR (wl i) <= 166) by (apply IZR_le; unfold wl; lia).
  unfold xx, planck_c2. apply Rmult_le_reg_r with (IZR (wl i)); [exact W|].
  replace (14387863142323088 / 10 ^ 18 * 10 ^ 9 / 5000 / IZR (wl i) * IZR (wl i))
      with (14387863142323088 / 10 ^ 18 * 10 ^ 9 / 5000) by (field; lra). lra.
Qed.

Lemma exp_17 x : 17 <= x -> 1001 <= exp x.
Proof.
  intros H. apply Rle_trans with (exp 17).
  - pose proof (exp_ineq1 1 ltac:(lra)) as I. replace 17 with (INR 17) by (cbn [INR]; lra).
    rewrite <- (Rmult_1_r (INR 17)), <- (ln_exp 1), <- ln_pow by apply exp_pos.
    rewrite exp_ln by apply pow_lt, exp_pos. apply Rle_trans with (2 ^ 17); [lra|]. apply pow_incr. lra.
  - destruct H as [H| <-]; [left; now apply exp_increasing|right; reflexivity].
Qed.

(** Planck's law at 1000 K between rational bounds *)
Definition kap : R := planck_c1 / (5 / 10 ^ 9) ^ 5.
Lemma kap_pos : 0 < kap.
Proof. unfold kap, planck_c1. apply Rdiv_lt_0_compat; lra. Qed.

Lemma planck_1000 i : P 1000 i = kap * (/ IZR (wl i) ^ 5) * / (exp (xx i) - 1).
Proof.
  unfold planck. rewrite wavelength_wl. pose proof (wl_pos i) as W.
  replace (planck_c2 / (IZR (wl i) * 5 / 10 ^ 9 * 1000)) with (xx i) by (unfold xx; field; lra).
  assert (0 < exp (xx i) - 1).
  { apply em_pos. unfold xx, planck_c2. apply Rdiv_lt_0_compat; lra. }
  unfold kap. field. lra.
Qed.

Lemma planck_1000_lo i : kap * (IZR (dw i) / 10 ^ 30) * (7772 / 10000) ^ cq i <= P 1000 i.
Proof.
  rewrite planck_1000. destruct (dw_bounds i) as [B _]. destruct (xx_bounds i) as [_ X].
  pose proof kap_pos as K. destruct q_bounds as [Q _].
  assert (D : 0 <= IZR (dw i) / 10 ^ 30).
  { apply Rmult_le_pos; [|lra]. apply IZR_le. apply Z.div_pos; [lia|]. apply Z.pow_pos_nonneg; unfold wl; lia. }
  assert (X0 : 0 < xx i) by (unfold xx, planck_c2; apply Rdiv_lt_0_compat; [lra|apply wl_pos]).
  pose proof (em_pos X0) as E0.
  apply Rmult_le_compat.
  - apply Rmult_le_pos; lra.
  - apply pow_le. lra.
  - apply Rmult_le_compat_l; lra.
  - apply Rle_trans with (exp (- (INR (cq i) / 4))); [rewrite exp_quarters; apply pow_incr; lra|].
    apply Rle_trans with (exp (- xx i)).
    + destruct X as [X| ->]; [left; apply exp_increasing; lra|lra].
    + rewrite exp_Ropp. apply Rinv_le_contravar; lra.
Qed.

Lemma planck_1000_hi i :
  (i < 95)%nat -> P 1000 i <= kap * (IZR (dw i + 1) / 10 ^ 30) * ((7804 / 10000) ^ fq i * (1001 / 1000)).
Proof.
  intros Hi. rewrite planck_1000. destruct (dw_bounds i) as [_ B]. destruct (xx_bounds i) as [X _].
  pose proof kap_pos as K. destruct q_bounds as [_ Q].
  pose proof (exp_17 (xx_big Hi)) as E.
  pose proof (wl_pos i) as W. assert (W5 : 0 < / IZR (wl i) ^ 5) by now apply Rinv_0_lt_compat, pow_lt.
  apply Rmult_le_compat.
  - apply Rmult_le_pos; lra.
  - left. apply Rinv_0_lt_compat. lra.
  - apply Rmult_le_compat_l; lra.
  - apply Rle_trans with (exp (- xx i) * (1001 / 1000)).
    + rewrite exp_Ropp. set (e := exp (xx i)) in *.
      apply Rmult_le_reg_r with (e * (e - 1)); [nra|].
      replace (/ (e - 1) * (e * (e - 1))) with e by (field; lra).
      replace (/ e * (1001 / 1000) * (e * (e - 1))) with (1001 / 1000 * (e - 1)) by (field; lra). lra.
    + apply Rmult_le_compat_r; [lra|].
      apply Rle_trans with (exp (- (INR (fq i) / 4))).
      * destruct X as [X|X]; [left; apply exp_increasing; lra|rewrite X; lra].
      * rewrite exp_quarters. apply pow_incr. pose proof (exp_pos (- (1 / 4))). lra.
Qed.

(** 10^(4 n) (q / 10^4)^m *)
Definition scaled (q : Z) (n m : nat) : Z := (q ^ Z.of_nat m * 10 ^ (4 * (Z.of_nat n - Z.of_nat m)))%Z.
Lemma scaled_ok q n m : (m <= n)%nat -> (IZR q / 10000) ^ m = IZR (scaled q n m) / 10000 ^ n.
Proof.
  intros H. unfold scaled. rewrite mult_IZR, <- pow_IZR.
  replace (4 * (Z.of_nat n - Z.of_nat m))%Z with (4 * Z.of_nat (n - m))%Z by lia.
  rewrite Z.pow_mul_r by lia. change (10 ^ 4)%Z with 10000%Z. rewrite <- pow_IZR.
  replace (10000 ^ n) with (10000 ^ m * 10000 ^ (n - m)) by (rewrite <- pow_add; f_equal; lia).
  unfold Rdiv. rewrite Rpow_mult_distr, pow_inv.
  assert (10000 ^ m <> 0) by (apply pow_nonzero; lra). assert (10000 ^ (n - m) <> 0) by (apply pow_nonzero; lra).
  field. auto.
Qed.

Definition term i : Z :=
  (cz 0 i * dw i * scaled 7772 200 (cq i) * 10000000
   - 19 * 1001 * cy 0 i * (dw i + 1) * scaled 7804 200 (fq i))%Z.
Lemma bottom_check : (0 <= zsum 95 term)%Z.
Proof. vm_compute. discriminate. Qed.
Lemma sizes_check : forallb (fun i => (fq i <=? 200)%nat && (cq i <=? 200)%nat) (seq 0 95) = true.
Proof. vm_compute. reflexivity. Qed.

(** From 1000 K on, the 2-degree observer sees a ratio above the noise of its
    table. *)
Lemma excess_1000 : 0 <= excess 0 (19 / 10000) 1000.
Proof.
  pose proof bottom_check as C. apply IZR_le in C. rewrite <- bigsum_IZR in C.
  set (s := kap / 10 ^ 30 / 10000 ^ 200 / 10000000).
  assert (S : 0 < s).
  { unfold s. pose proof kap_pos. assert (0 < 10000 ^ 200) by (apply pow_lt; lra).
    repeat apply Rdiv_lt_0_compat; lra. }
  apply Rle_trans with (s * bigsum 95 (fun i => IZR (term i))); [apply Rmult_le_pos; lra|].
  rewrite bigsum_mult_l. apply bigsum_le. intros i Hi.
  pose proof (@y_pos 0 i ltac:(now left) Hi) as Y. pose proof (z_nonneg 0 Hi) as Z.
  pose proof sizes_check as SC. rewrite forallb_forall in SC. specialize (SC i). rewrite in_seq in SC.
  specialize (SC ltac:(lia)). apply andb_true_iff in SC. destruct SC as [S1 S2]. apply Nat.leb_le in S1, S2.
  pose proof (planck_1000_lo i) as Lo. pose proof (planck_1000_hi Hi) as Hi'.
  rewrite (scaled_ok 7772 S2) in Lo. rewrite (scaled_ok 7804 S1) in Hi'.
  unfold term. rewrite minus_IZR, !mult_IZR. unfold s.
  assert (N : 10000 ^ 200 <> 0) by (apply pow_nonzero; lra).
  set (N200 := 10000 ^ 200) in *. clearbody N200.
  assert (A : IZR (cz 0 i) * (kap * (IZR (dw i) / 10 ^ 30) * (IZR (scaled 7772 200 (cq i)) / N200))
              <= IZR (cz 0 i) * P 1000 i) by (apply Rmult_le_compat_l; lra).
  assert (B : 19 / 10000 * IZR (cy 0 i) * P 1000 i
     <= 19 / 10000 * IZR (cy 0 i) * (kap * (IZR (dw i + 1) / 10 ^ 30) * (IZR (scaled 7804 200 (fq i)) / N200 * (1001 / 1000))))
    by (apply Rmult_le_compat_l; lra).
  apply Rle_trans with
    (IZR (cz 0 i) * (kap * (IZR (dw i) / 10 ^ 30) * (IZR (scaled 7772 200 (cq i)) / N200))
     - 19 / 10000 * IZR (cy 0 i) * (kap * (IZR (dw i + 1) / 10 ^ 30) * (IZR (scaled 7804 200 (fq i)) / N200 * (1001 / 1000)))).
  - right. field. exact N.
  - lra.
Qed.

(** ** Hotter is bluer *)

(** temperatures covered: all positive ones for the 10-degree observer, those
    from 1000 K on for the 2-degree observer *)
Definition covered (obs : Z) (t : R) : Prop := (obs = 0%Z /\ 1000 <= t) \/ (obs = 1%Z /\ 0 < t).

Lemma covered_known obs t : covered obs t -> known obs /\ 0 < t.
Proof. intros [[-> H]|[-> H]]; unfold known; split; auto; lra. Qed.

Lemma ratio_range obs t :
  covered obs t ->
  let b := glow (zbar obs) t / glow (ybar obs) t in
  0 < b /\ IZR (loN obs) / 10000 <= b < IZR (hiN obs) / 10000.
Proof.
  intros C b. destruct (covered_known C) as [Ho Ht].
  destruct (@glow_signs t obs ltac:(lra) Ho) as (_ & SY & SZ).
  assert (Y : 0 < glow (ybar obs) t) by nra. assert (Z : 0 < glow (zbar obs) t) by nra.
  assert (B : 0 < b) by now apply Rdiv_lt_0_compat.
  assert (Eb : glow (zbar obs) t = b * glow (ybar obs) t) by (unfold b; field; lra).
  pose proof (decimals_pos obs) as D.
  split; [exact B|]. split.
  - destruct C as [[-> H]|[-> H]]; [|cbn [loN Z.eqb Pos.eqb]; lra].
    change (loN 0) with 19%Z.
    assert (G : 0 <= excess 0 (19 / 10000) t).
    { destruct H as [H| <-]; [|exact excess_1000]. left.
      apply (@excess_grows 0 (19 / 10000) 1000 t); [now left| |lra|lra|exact excess_1000].
      change (loN 0) with 19%Z. change (hiN 0) with 160000%Z. lra. }
    rewrite excess_glow, Eb in G. apply Rnot_lt_le. intros L.
    assert (0 < (19 / 10000 - b) * (glow (ybar 0) t * decimals 0)).
    { apply Rmult_lt_0_compat; [lra|]. now apply Rmult_lt_0_compat. }
    lra.
  - pose proof (excess_top Ho Ht) as G. rewrite excess_glow, Eb in G.
    assert (b < 8).
    { apply Rnot_le_lt. intros L. assert (0 <= (b - 8) * (glow (ybar obs) t * decimals obs)).
      { apply Rmult_le_pos; [lra|]. apply Rmult_le_pos; lra. }
      lra. }
    destruct Ho as [-> | ->]; cbn [hiN Z.eqb Pos.eqb]; lra.
Qed.

Lemma hotter_bluer obs t1 t2 :
  covered obs t1 -> t1 < t2 ->
  glow (zbar obs) t1 / glow (ybar obs) t1 < glow (zbar obs) t2 / glow (ybar obs) t2.
Proof.
  intros C H. destruct (covered_known C) as [Ho Ht]. destruct (ratio_range C) as [B Rg].
  destruct (@glow_signs t1 obs ltac:(lra) Ho) as (_ & SY1 & _).
  destruct (@glow_signs t2 obs ltac:(lra) Ho) as (_ & SY2 & _).
  assert (Y1 : 0 < glow (ybar obs) t1) by nra. assert (Y2 : 0 < glow (ybar obs) t2) by nra.
  set (b := glow (zbar obs) t1 / glow (ybar obs) t1) in *.
  assert (G : 0 < excess obs b t2).
  { apply (@excess_grows obs b t1 t2); auto. rewrite excess_glow. right.
    unfold b. field_simplify; [ring|lra]. }
  rewrite excess_glow in G. pose proof (decimals_pos obs) as D.
  apply Rmult_lt_reg_r with (glow (ybar obs) t2); [exact Y2|].
  unfold Rdiv. rewrite Rmult_assoc, Rinv_l by lra. nra.
Qed.
