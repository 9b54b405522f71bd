(** C78, C103 along histories of readings, for the SAAM, AQUA and Kalman
    filters (exact arithmetic). *)
From Coq Require Import List Arith ZArith Bool Reals Lra Lia.
From Verif Require Import Base BaseFacts NumR Libm LibmR RTac RAtan2 Out MVec SpecVec SpecReal PVec PVecR
  MMtx SpecMtx PMtx PMtxOps PMtxR SpecGauss MQuat SpecQuat PQuat PQuatRot PQuatTrig PQuatEul MAhrs MFusion SpecFusion
  PFusion PFusion2 PFusion3 PKalman PropFusion PropKalman SpecSafe SpecSafeFus PKalInit.
Import ListNotations.
Local Open Scope R_scope.
Implicit Types (p q u : quat R) (v w : v3) (l : list (reading R)).

Lemma given_inv (p : option (vec R)) : given p -> exists v tl, p = Some (hold v tl).
Proof.
  intros ([n b] & -> & (Hn & Hb)). cbn [vsz vbuf] in *. subst n.
  destruct (Hb 0%nat ltac:(lia)) as (x & Ex), (Hb 1%nat ltac:(lia)) as (y & Ey), (Hb 2%nat ltac:(lia)) as (z & Ez).
  destruct b as [|[x'|] [|[y'|] [|[z'|] tl]]]; cbn in Ex, Ey, Ez; try discriminate.
  exists (x', y', z'), tl. reflexivity.
Qed.
Lemma optional_inv (p : option (vec R)) : given_or_null p -> exists o tl, p = hold_opt o tl.
Proof.
  intros [->|H]; [exists None, []; reflexivity|]. destruct (given_inv p H) as (v & tl & ->). exists (Some v), tl. reflexivity.
Qed.

(** ** SAAM: every history is answered, with the orientation it started from, a
    unit quaternion or zero *)
Lemma saam_run_ok bc i q : given (accel i) -> given (magn i) ->
  exists rc q', saam_run bc i q = Ok (rc, q') /\ (q' = q \/ unit_quat q' \/ q' = qzero).
Proof.
  intros Ha Hm. destruct i as ((a & m) & g). cbn [accel magn gyro fst snd] in *.
  destruct (given_inv a Ha) as (va & ta & ->), (given_inv m Hm) as (vm & tm & ->).
  unfold saam_run, the_sens. cbn [accel magn gyro fst snd].
  destruct (Rlt_dec (vlen va) (/ 1000000)) as [L|L]; [|destruct (Rlt_dec (vlen vm) (/ 1000000)) as [M|M]].
  - rewrite (proj1 (C101_saam_rejects (Sens None None None q) bc va vm ta tm g q)) by now left. cbn [bind]. do 2 eexists. split; [reflexivity|]. now left.
  - rewrite (proj1 (C101_saam_rejects (Sens None None None q) bc va vm ta tm g q)) by now right. cbn [bind]. do 2 eexists. split; [reflexivity|]. now left.
  - destruct (C78_saam_feed_partial bc va vm ta tm g q ltac:(lra) ltac:(lra)) as (s & -> & H). cbn [bind].
    do 2 eexists. split; [reflexivity|]. tauto.
Qed.
Theorem C78_saam_history bc l q : Forall (fun i => given (accel i) /\ given (magn i)) l ->
  exists q', history (saam_run bc) l q = Ok q' /\ (q' = q \/ unit_quat q' \/ q' = qzero).
Proof.
  intros Hl. revert q. induction Hl as [|i l (Ha & Hm) Hl IH]; intros q; [exists q; auto|]. cbn [history].
  destruct (saam_run_ok bc i q Ha Hm) as (rc & q1 & -> & H1). cbn [bind snd].
  destruct (IH q1) as (q2 & -> & H2). exists q2. split; [reflexivity|]. destruct H2 as [->|H2]; tauto.
Qed.

(** ** AQUA: whatever the readings and gains, a history that starts from a unit
    orientation and has a defined result ends in a unit orientation *)
Lemma aqua_run_unit bc freq i ini c q rc ini' c' q' :
  (0 < freq)%Z -> (0 <= ini < 2 ^ 32 - 1)%Z -> well_formed i -> unit_quat q ->
  aqua_run bc freq i (ini, c, q) = Ok (rc, (ini', c', q')) -> unit_quat q' /\ (0 <= ini' < 2 ^ 32 - 1)%Z.
Proof.
  intros Hf Hi (Ha & Hm & Hg) U. destruct i as ((a & m) & g). cbn [accel magn gyro fst snd] in *.
  destruct (optional_inv a Ha) as (oa & ta & ->), (optional_inv m Hm) as (om & tm & ->), (given_inv g Hg) as (w & tg & ->).
  unfold aqua_run, the_sens. cbn [accel magn gyro fst snd].
  assert (K : forall ini1 c1, (0 < ini1 < 2 ^ 32 - 1)%Z -> forall s0, sq s0 = q -> s0 = Sens (hold_opt oa ta) (hold_opt om tm) (Some (hold w tg)) q ->
    forall rc1 s1 c2 ini2, aqua_feed bc freq ini1 c1 s0 = Ok (rc1, s1, c2, ini2) -> unit_quat (sq s1) /\ (0 <= ini2 < 2 ^ 32 - 1)%Z).
  { intros ini1 c1 Hi1 s0 Es -> rc1 s1 c2 ini2 E.
    assert (G : (0 <= alpha c1 <= 1 /\ 0 <= MFusion.beta c1 <= 1) \/ (alpha c1 < 0 \/ 1 < alpha c1 \/ MFusion.beta c1 < 0 \/ 1 < MFusion.beta c1)) by lra.
    destruct G as [(G1 & G2)|G].
    - destruct (C102_aqua bc freq ini1 c1 oa om w q ta tm tg rc1 s1 c2 ini2 Hf ltac:(lia) (unit_norm q U) G1 G2 E) as (_ & _ & -> & H & _).
      split; [exact H|lia].
    - destruct (C78_bad_gain_rejected bc freq 0 None 0 0 0 (Vec 0 []) 0 c1 (Kalm 0 0 0 (mtx_def 0 0)) ini1
        (Sens (hold_opt oa ta) (hold_opt om tm) (Some (hold w tg)) q)) as (_ & _ & _ & H & _).
      rewrite (H G) in E. injection E as <- <- <- <-. split; [exact U|lia]. }
  intros E. apply bind_inv in E as ((((rc1 & s1) & c1) & ini1) & E1 & E). injection E as <- <- <- <-.
  destruct (Z.eq_dec ini 0) as [->|N]; [|eapply K; [..|exact E1]; [lia|reflexivity|reflexivity]].
  revert E1. unfold aqua_feed.
  destruct (_ || _ || _ || _) eqn:Eg; [intros [= <- <- <- <-]; split; [exact U|lia]|].
  cbn [Z.eqb]. intros E1. apply bind_inv in E1 as ((c2 & ini2) & E0 & E1).
  apply bind_inv in E0 as (((rc2 & al) & ini3) & E0 & E2). injection E2 as <- <-.
  apply bind_inv in E1 as ((rc3 & s2) & E1 & E2). injection E2 as <- <- <- <-.
  (* the same feed with the counter already advanced *)
  assert (G : 0 <= alpha c <= 1 /\ 0 <= MFusion.beta c <= 1).
  { revert Eg. rops. replace (10 / 10) with 1 by field. intros Eg. apply orb_false_iff in Eg as (Eg & E4). apply orb_false_iff in Eg as (Eg & E3).
    apply orb_false_iff in Eg as (E5 & E2).
    destruct (Rltb_spec (alpha c) 0), (Rltb_spec 1 (alpha c)), (Rltb_spec (MFusion.beta c) 0), (Rltb_spec 1 (MFusion.beta c)); try discriminate; lra. }
  assert (A : 0 <= al <= 1 /\ (0 <= ini3 < 2 ^ 32 - 1)%Z).
  { destruct oa as [va|].
    - destruct (C102_alpha_init bc 0 va ta (alpha c) ltac:(lia) (proj1 (proj1 G))) as (al' & E & B & _).
      cbn [sa hold_opt] in E0. rewrite E in E0. injection E0 as <- <- <-. split; [lra|cbn; lia].
    - revert E0. cbn [sa hold_opt]. unfold aqua_alpha_init. destruct bc; cbn [bind deref]; try discriminate.
      cbn [vec_norm_opt bind]. rops. rewrite Rdivo_ok by lra. cbn [bind].
      replace (Rabs (0 - 981 / 100) / (981 / 100)) with 1 by (rewrite Rabs_left by lra; field).
      rewrite Rleb_true by lra. cbn [bind]. intros [= <- <- <-]. split; [lra|cbn; lia]. }
  destruct A as (A & B).
  assert (E1' : aqua_feed bc freq 1 (Aqua al (MFusion.beta c) (e_a c) (e_m c)) (Sens (hold_opt oa ta) (hold_opt om tm) (Some (hold w tg)) q)
          = Ok (rc3, s2, Aqua al (MFusion.beta c) (e_a c) (e_m c), 1%Z)).
  { unfold aqua_feed. cbn [alpha MFusion.beta]. rops. replace (10 / 10) with 1 by field. rewrite !Rltb_false by lra. cbn [orb Z.eqb bind].
    rewrite E1. reflexivity. }
  split; [|exact B]. eapply K; [..|exact E1']; [lia|reflexivity|reflexivity].
Qed.
Theorem C78_aqua_history_partial bc freq l ini c q ini' c' q' :
  (0 < freq)%Z -> (0 <= ini < 2 ^ 32 - 1)%Z -> Forall (@well_formed R) l -> unit_quat q ->
  history (aqua_run bc freq) l (ini, c, q) = Ok (ini', c', q') -> unit_quat q'.
Proof.
  intros Hf Hi Hl. revert ini c q Hi. induction Hl as [|i l Gi Hl IH]; intros ini c q Hi U; cbn [history].
  - intros [= <- <- <-]. exact U.
  - intros E. apply bind_inv in E as ((rc & ((ini1 & c1) & q1)) & E1 & E).
    destruct (aqua_run_unit bc freq i ini c q rc ini1 c1 q1 Hf Hi Gi U E1) as (U1 & I1). exact (IH _ _ _ I1 U1 E).
Qed.

(** ** Kalman: whatever the readings, the flag, the covariance and the
    orientation, a history that has a defined result ends in the orientation it
    started from, a unit quaternion or zero *)
Lemma kalm_run_unit bc freq incl i ini c q rc ini' c' q' :
  kalm_run bc freq incl i (ini, c, q) = Ok (rc, (ini', c', q')) -> q' = q \/ unit_quat q' \/ q' = qzero.
Proof.
  unfold kalm_run. cbn [fst snd]. intros E. apply bind_inv in E as ((((rc1 & s1) & c1) & ini1) & E1 & E). injection E as <- <- <- <-.
  destruct (Z.eq_dec rc1 0) as [->|N].
  { right. exact (C78_kalman_feed_partial bc freq ini incl c (the_sens i q) 0 s1 c1 ini1 E1 eq_refl). }
  revert E1. unfold kalm_feed. destruct (_ || _ || _). { intros [= <- <- <- <-]. now left. }
  intros E. inv_bind E. destruct x as [[c2 s2] i2]. inv_bind E. destruct x as [[rc2 s3] c3].
  injection E as <- <- <- <-.
  assert (S : s3 = s2).
  { revert Ex0. unfold fus_kalman. destruct (bc && _); [now intros [= <- <- <-]|]. intros E.
    exfalso. inv_bind E. inv_bind E. inv_bind E. destruct x1 as [[? ?] ?].
    inv_bind E. inv_bind E. inv_bind E. inv_bind E. inv_bind E. inv_bind E. inv_bind E.
    destruct x7. inv_bind E. inv_bind E. destruct x8. inv_bind E. destruct x8 as [[? ?] ?].
    inv_bind E. destruct x8 as [[? ?] ?]. inv_bind E. destruct x8.
    inv_bind E. inv_bind E. inv_bind E. inv_bind E. inv_bind E. destruct x12.
    inv_bind E. inv_bind E. inv_bind E. inv_bind E. inv_bind E. injection E as <- _ _. now apply N. }
  subst s3. revert Ex. destruct (ini =? 0)%Z; [|intros [= <- <- <-]; now left].
  intros E. inv_bind E. destruct x as [[? q1] ?]. inv_bind E. destruct x as [[? ?] ?]. injection E as _ <- _. cbn [sq].
  revert Ex. unfold kalm_quat_init. destruct (bc && _); [intros [= _ <- _]; now left|]. intros E. right.
  repeat (inv_bind E; try match type of E with context [match ?x with (_, _) => _ end] => destruct x end).
  injection E as _ <- _.
  repeat match goal with H : quat_to_unit _ = Ok _ |- _ => rewrite quat_to_unit_ok in H; injection H as <- end.
  apply unit_or_zero.
Qed.
Theorem C78_kalman_history_partial bc freq incl l ini c q ini' c' q' :
  history (kalm_run bc freq incl) l (ini, c, q) = Ok (ini', c', q') -> q' = q \/ unit_quat q' \/ q' = qzero.
Proof.
  revert ini c q. induction l as [|i l IH]; intros ini c q; cbn [history].
  - intros [= <- <- <-]. now left.
  - intros E. apply bind_inv in E as ((rc & ((ini1 & c1) & q1)) & E1 & E).
    apply kalm_run_unit in E1. destruct (IH _ _ _ E) as [->|H]; tauto.
Qed.

(** ** C103 along a history
    Readings (a, m, w) of the three sensors; [clear_along] says of every feed
    that its readings are not zero, that the orientation has not collapsed and
    that the inversion of S meets no non-zero number below its threshold. *)
Fixpoint clear_along freq incl vg va vm (l : list (v3 * v3 * v3)) (P : nat -> nat -> R) (q : quat R) : Prop :=
  match l with
  | [] => True
  | (a, m, w) :: l' =>
      vlen a <> 0 /\ vlen m <> 0 /\ / 1000000 <= qnorm q /\
      let t := / IZR freq in
      let qp := spin t w q in
      let f := field qp incl (vnormalise m) in
      let b := pure (fst f, 0, snd f) in
      let Pm := kPred t vg w q P in
      let H := kH qp b in
      let S := kS H (kR va vm) Pm in
      gj_clear 6 S /\
      forall Si, inverse_of 6 S Si ->
        let K := kK H Pm Si in
        let q' := kq qp K (kz (vnormalise a) (vnormalise m)) (kh qp b) in
        clear_along freq incl vg va vm l' (kPnew K H Pm)
          (if Rlt_dec (qnorm q') (/ 1000000) then qzero else qnormalise q')
  end.
Definition three (i : v3 * v3 * v3) : reading R :=
  let '(a, m, w) := i in (Some (hold a []), Some (hold m []), Some (hold w [])).

Theorem C103_history bc freq ini incl vg va vm (l : list (v3 * v3 * v3)) P tp q :
  (0 < freq)%Z -> ini <> 0%Z -> 0 <= vg -> 0 < va -> 0 < vm -> psd 4 P -> sym 4 P ->
  clear_along freq incl vg va vm l P q ->
  exists P' q', history (kalm_run bc freq incl) (map three l) (ini, Kalm vg va vm (mat_of 4 4 P tp), q)
    = Ok (ini, Kalm vg va vm (mat_of 4 4 P' tp), q') /\ psd 4 P' /\ sym 4 P'.
Proof.
  intros Hf Hi Hg Ha Hm. revert P q. induction l as [|((a & m) & w) l IH]; intros P q HP HS HC.
  - exists P, q. split; [reflexivity|auto].
  - cbn [clear_along] in HC. destruct HC as (La & Lm & Hq & HC & HN). cbn [map history].
    destruct (C103_update bc freq ini incl vg va vm P tp a m w q [] [] [] Hf Hi Hq La Lm Hg Ha Hm HP HC)
      as (Si & HI & E & P1 & S1). specialize (HN Si HI).
    unfold kalm_run at 1. cbn [fst snd three the_sens accel magn gyro]. unfold the_sens. cbn [accel magn gyro fst snd].
    rewrite E. cbn [bind sq snd]. apply IH; auto.
Qed.

Example C103_history_case : exists q, unit_quat q /\ clear_along 100 (Some 0) 0 1 1 [((0, -1, 0), (1, 0, 0), (0, 0, 0))] mid q /\
  psd 4 mid /\ sym 4 mid.
Proof.
  set (s := sqrt (1 / 2)).
  assert (Hs : s * s = 1 / 2) by (apply sqrt_sqrt; lra).
  clearbody s. set (q := Quat s s 0 0).
  assert (U : unit_quat q) by (unfold unit_quat, q, qdot, re, im, vdot; cbn [qr qi qj qk]; lra).
  assert (Ua : vdot (0, -1, 0) (0, -1, 0) = 1) by (cbn; ring).
  assert (Um : vdot (1, 0, 0) (1, 0, 0) = 1) by (cbn; ring).
  assert (Esp : spin (/ IZR 100) (0, 0, 0) q = q).
  { pose proof (spin_rest (/ IZR 100) q U) as E. replace (vscale (-1) (0, 0, 0)) with ((0, 0, 0) : v3) in E; auto.
    unfold vscale. f_equal; [f_equal|]; ring. }
  assert (Efl : field q (Some 0) (1, 0, 0) = (1, 0)).
  { unfold field. cbv zeta. replace (0 * (314159265359 / 100000000000) / 180) with 0 by field.
    now rewrite cos_0, sin_0. }
  exists q. split; [exact U|]. split; [|split; [exact (qform_mid 4)|]].
  2:{ intros i j _ _. unfold mid. now rewrite Nat.eqb_sym. }
  cbn [clear_along]. split; [rewrite (unit_len _ Ua); lra|]. split; [rewrite (unit_len _ Um); lra|].
  split; [now apply unit_norm|]. split; [|auto].
  rewrite (normalise_unit_id _ Um), Esp, Efl. cbn [fst snd]. apply agree_clear.
  set (b := pure (1, 0, 0)). set (Pm := kPred _ _ _ _ _).
  assert (EP : forall i j, (i < 4)%nat -> (j < 4)%nat -> Pm i j = mid i j).
  { intros i j Hi' Hj'. unfold Pm, kPred, mmul, mtr, mid, kF, pure, hprod, qplus, qscale, qbasis, mkq, re, im, vdot, vadd, vscale, vcross.
    do 4 (destruct i as [|i]; [do 4 (destruct j as [|j]; [cbn; field; apply not_0_IZR; lia|]); lia|]). lia. }
  set (H := kH q b).
  pose (Ht := fun r i : nat => nth i (nth r [[0; 0; 2 * s; -(2 * s)]; [-(2 * s); -(2 * s); 0; 0]; [0; 4 * s; 0; 0];
      [0; 0; 0; 0]; [0; 0; 2 * s; -(2 * s)]; [0; 0; 2 * s; 2 * s]] []) 0).
  assert (EH : forall r i, (r < 6)%nat -> (i < 4)%nat -> H r i = Ht r i).
  { intros r i Hr Hi'. unfold H, kH, seen_d, q, b, pure, qbasis, Ht, mkq, re, im, vadd, vscale, vcross.
    do 6 (destruct r as [|r]; [do 4 (destruct i as [|i]; [cbn; ring|]); lia|]). lia. }
  intros i j Hi' Hj'. unfold kS.
  rewrite (@mmul_ext 4 (mmul 4 H Pm) Ht (mtr H) (mtr Ht)).
  - unfold mmul, mtr, Ht, kR, agree_S.
    do 6 (destruct i as [|i]; [do 6 (destruct j as [|j]; [cbn; nra|]); lia|]). lia.
  - intros k Hk. rewrite <- EH by assumption. rewrite (@mmul_ext 4 H H Pm mid); auto. now apply mmul_mid.
  - intros k Hk. unfold mtr. now apply EH.
Qed.

(** *** Non-vacuity *)
Lemma given_hold' v tl : given (Some (hold v tl)).
Proof.
  eexists. split; [reflexivity|]. split; [reflexivity|].
  intros i Hi. destruct i as [|[|[|]]]; [eexists; reflexivity..|lia].
Qed.
Example C78_saam_history_case : Forall (fun i => given (accel i) /\ given (magn i))
  (map three [((0, 0, 0), (1, 2, 3), (0, 0, 0)); ((0, 0, 1), (1, 0, 0), (0, 0, 0)); ((1, 0, 0), (0, 0, 1), (1, 1, 1))]).
Proof. repeat constructor; apply given_hold'. Qed.
(** a history of AQUA that has a result: the gyroscope alone *)
Example C78_aqua_history_case : exists ini' c' q',
  history (aqua_run true 100) [(Some (hold (0, 0, 0) []), None, Some (hold (1, 2, 3) []))]
    (1%Z, Aqua (1 / 2) (1 / 2) (9 / 10) (9 / 10), qone) = Ok (ini', c', q').
Proof.
  assert (Z : usable (Some (0, 0, 0)) = None).
  { cbn [usable]. assert (vlen (0, 0, 0) = 0) as ->.
    { unfold vlen, vdot. replace (_ + _) with 0 by ring. apply sqrt_0. }
    destruct (Rlt_dec _ _); [lra|reflexivity]. }
  cbn [history]. unfold aqua_run at 1, the_sens. cbn [accel magn gyro fst snd].
  destruct (C102_aqua_defined true 100 1 (Aqua (1 / 2) (1 / 2) (9 / 10) (9 / 10)) (Some (0, 0, 0)) None (1, 2, 3) qone [] [] []
    ltac:(lia) ltac:(lia) (unit_norm _ qone_unit) ltac:(cbn; lra) ltac:(cbn; lra)) as (s' & E).
  - rewrite Z. discriminate.
  - now left.
  - cbn [hold_opt] in E. rewrite E. cbn [bind]. do 3 eexists. reflexivity.
Qed.

Print Assumptions C78_saam_history.
Print Assumptions C78_aqua_history_partial.
Print Assumptions C78_kalman_history_partial.
Print Assumptions C103_history.
