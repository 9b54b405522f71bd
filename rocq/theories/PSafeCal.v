(** Safety of the magnetometer calibrations in any arithmetic. *)
From Coq Require Import List Arith ZArith Bool Lia.
From Verif Require Import Base BaseFacts SpecVec SpecMtx SpecSafe Libm MVec MMtx MDecomp MStat MCal
  PVec PMtx PMtxOps PSafe PSafeMx PSafeQr PSafeFus PSafeStat.
Import ListNotations.
Set Implicit Arguments.
Local Open Scope nat_scope.

Section Cal.
Context {T : Type} {N : Num T}.
Variable bc : bool.
Variable OF : Prop.
Hypothesis L : lawful N.
Notation NR := (~ total N).
Notation "'WP' P m" := (wp NR OF P m) (at level 10, P at level 9, m at level 9).
Notation any := (fun _ => True).

Ltac wc l m H := eapply wp_bind; [eapply l; eauto using ism_room, room_def; try lia|
  let rc := fresh "rc" in let E := fresh "E" in
  intros (rc & m) (E & H); cbn [fst snd] in E, H; subst rc].
Ltac rdw H x := eapply wp_bind; [eapply wp_rd; [exact H|lia]|intros x _].

Definition sym3 (c0 c1 c2 c3 c4 c5 : T) : nat -> nat -> T := fun i j =>
  nth (i * 3 + j) [c0; c3; c4; c3; c1; c5; c4; c5; c2] f0.

(** the fast calibration: safe without bounds checks, or when every number
    equals itself *)
Lemma wp_magn_fast r tl m me K b : (bc = true -> forall a : T, feq a a = true) ->
  ism r 3 tl m -> room 3 3 K -> vsz b = 3 -> 3 <= length (vbuf b) ->
  WP (fun x => fst x = 0%Z -> ism 3 3 (rest K) (fst (snd x)) /\ isv 3 (snd (snd x))) (cal_magn_fast bc m me K b).
Proof.
  intros Hrefl Hm HK Hb Hl. unfold cal_magn_fast.
  destruct (_ && _); [intros E; discriminate E|].
  wc (@wp_quad_fit T N bc OF L r) cf Hcf. destruct Hcf as (_ & B).
  rdw B c0. rdw B c3. rdw B c4. rdw B c1. rdw B c5. rdw B c2. rdw B c6. rdw B c7. rdw B c8.
  change (Mtx 3 3 (cells [c0; c3; c4; c3; c1; c5; c4; c5; c2])) with (mat_of 3 3 (sym3 c0 c1 c2 c3 c4 c5) []).
  pose proof (ism_mat 3 3 (sym3 c0 c1 c2 c3 c4 c5) []) as HA.
  assert (Hv : ism 3 1 [] (Mtx 3 1 (cells [c6; c7; c8]))).
  { change (Mtx 3 1 (cells [c6; c7; c8])) with (mat_of 3 1 (fun i _ => nth i [c6; c7; c8] f0) []). apply ism_mat. }
  eapply wp_bind; [apply (@wp_cholesky_eq T N bc OF L 3); [|apply room_def]|].
  { intros Hbc i j Hi Hj. replace (sym3 c0 c1 c2 c3 c4 c5 j i) with (sym3 c0 c1 c2 c3 c4 c5 i j); [now apply Hrefl|].
    destruct i as [|[|[|]]], j as [|[|[|]]]; try lia; reflexivity. }
  intros (rc1 & l) (_ & HL). cbn [snd] in HL.
  wc (@wp_trans T N bc OF 3 3) G HG.
  wc (@wp_scalar T N OF 3 3) G1 HG1.
  wc (@wp_copy T N bc OF 3 3) K1 HK1.
  eapply wp_bind; [apply (@wp_inv T N bc OF L 3) with (tl := []); [exact HA|apply room_def]|].
  intros (rc2 & Ai) (_ & t & HAi). cbn [snd] in HAi.
  wc (@wp_mult T N bc OF 3 3 1) X0 HX.
  pose proof (ism_isb HX) as (_ & _ & BX).
  eapply wp_bind with (P := fun bb => isb 3 bb).
  { eapply wp_imp; [apply (@wp_for NR OF _ (fun i bb => isb i bb /\ length bb = length (vbuf b)))|].
    - split; [apply isb_0|reflexivity].
    - intros i bb Hi (B1 & L1). rdw BX x. eapply wp_imp; [apply (@wp_wr_next T N OF i); [exact B1|lia]|].
      cbv beta. intros bb' (B2 & L2). split; [exact B2|congruence].
    - intros bb (H1 & _). exact H1. }
  intros bb Bb. cbn. intros _. split; [exact HK1|]. split; [exact Hb|exact Bb].
Qed.

(** ** the iterative calibration *)
Ltac wd x := eapply wp_bind; [apply wp_div; exact L|intros x _].

Lemma wp_addto n (a : buf T) i x : isb n a -> i < n -> WP (isb n) (addto a i x).
Proof.
  intros B Hi. unfold addto. rdw B y. eapply wp_imp; [apply (@wp_wr T N OF n); auto|]. cbv beta. tauto.
Qed.

Lemma wp_f_shp H b : isv 3 H -> isv 3 b -> WP any (magn_f_shp bc H b).
Proof.
  intros HH Hb. unfold magn_f_shp.
  eapply wp_bind; [apply (@wp_vadd T N bc OF 3); [exact HH|exact Hb|reflexivity|cbn; lia]|].
  intros (rc & Hb') (_ & H1). cbn [snd] in H1. now apply wp_norm with (n := 3).
Qed.

Lemma wp_magn_sym (g K : buf T) : isb 6 g -> 9 <= length K ->
  WP (fun K' => length K' = length K /\ isb 9 K') (magn_sym g K).
Proof.
  intros B Hl. unfold magn_sym.
  destruct K as [|k0 [|k1 [|k2 [|k3 [|k4 [|k5 [|k6 [|k7 [|k8 K]]]]]]]]]; cbn in Hl; try lia.
  rdw B x0. cbn [wr upd length Nat.ltb Nat.leb bind].
  rdw B x1. cbn [wr upd length Nat.ltb Nat.leb bind].
  rdw B x2. cbn [wr upd length Nat.ltb Nat.leb bind].
  rdw B x3. cbn [wr upd length Nat.ltb Nat.leb bind].
  rdw B x4. cbn [wr upd length Nat.ltb Nat.leb bind].
  rdw B x5. cbn [wr upd length Nat.ltb Nat.leb bind wp].
  split; [reflexivity|]. exists [x0; x1; x2; x1; x3; x4; x2; x4; x5], K. split; reflexivity.
Qed.

Lemma isb_le n k (b : buf T) : isb n b -> k <= n -> isb k b.
Proof. intros B Hk. apply isb_iff in B. apply isb_iff. destruct B as (H1 & H2). split; [lia|]. intros; apply H2; lia. Qed.

Lemma wp_f_elli H tl g : isv 3 H -> ism 9 1 tl g -> WP any (magn_f_elli bc H g).
Proof.
  intros (EH & BH) Hg. pose proof (ism_isb Hg) as (_ & _ & B). cbn in B. unfold magn_f_elli.
  eapply wp_bind; [apply wp_magn_sym; [apply isb_le with (n := 9); [exact B|lia]|cbn; lia]|]. intros K (_ & BK).
  eapply wp_bind with (P := isb 3).
  { eapply wp_imp; [apply (@wp_for NR OF _ (fun i bb => isb i bb /\ length bb = 3))|].
    - split; [apply isb_0|reflexivity].
    - intros i bb Hi (B1 & L1). rdw BH h. rdw B x. eapply wp_imp; [apply (@wp_wr_next T N OF i); [exact B1|lia]|].
      cbv beta. intros bb' (B2 & L2). split; [exact B2|congruence].
    - intros bb (H1 & _). exact H1. }
  intros Hb BHb. 
  assert (HK : ism 3 3 (skipn (3 * 3) K) (Mtx 3 3 K)) by (now apply isb_ism).
  assert (HH : ism 3 1 (skipn (3 * 1) Hb) (Mtx 3 1 Hb)) by (now apply isb_ism).
  wc (@wp_mult T N bc OF 3 3 1) KH HKH. pose proof (ism_isb HKH) as (_ & _ & BKH).
  eapply wp_bind; [apply (@wp_from_arr_v T N OF 3); [reflexivity|cbn; lia|exact BKH]|].
  intros (rc2 & Hd) (_ & HHd). cbn [snd] in HHd. now apply wp_norm with (n := 3).
Qed.

Lemma wp_magn_row n tl m i : ism n 3 tl m -> i < n -> WP (isv (T := T) 3) (magn_row bc m i).
Proof.
  intros Hm Hi. unfold magn_row. wc (@wp_get_row T N bc OF n 3) H HH.
  destruct HH as (B & _). split; [reflexivity|exact B].
Qed.

Lemma wp_jac_shp n tl m b : ism n 3 tl m -> isv 3 b -> WP (ism (T := T) 1 4 []) (magn_jac_shp bc m b).
Proof.
  intros Hm Hb. pose proof (ism_isb Hm) as (Er & _ & _). unfold magn_jac_shp. rewrite Er.
  wc (@wp_init0 T N bc OF 1 4) J HJ. pose proof (ism_isb HJ) as (_ & _ & BJ). cbn in BJ.
  pose proof Hb as (_ & Bb).
  eapply wp_bind with (P := fun J => isb 4 J /\ length J = 4).
  { apply wp_for0.
    - split; [exact BJ|]. destruct HJ as (f & ->). reflexivity.
    - intros i J1 Hi (B1 & L1). eapply wp_bind; [apply (@wp_magn_row n tl m); [exact Hm|lia]|]. intros H HH.
      eapply wp_bind; [now apply wp_f_shp|]. intros f _. pose proof HH as (_ & BH).
      assert (A : forall a k x, isb 4 a -> length a = 4 -> k < 4 -> WP (fun a' => isb 4 a' /\ length a' = 4) (addto a k x)).
      { intros a k x Ba La Hk. unfold addto. rdw Ba y. eapply wp_imp; [apply (@wp_wr T N OF 4); auto|]. cbv beta. intros a' (? & ?). split; [auto|congruence]. }
      eapply wp_bind; [apply A; auto; lia|]. intros J2 (B2 & L2).
      apply wp_for0; [now split|]. intros k J3 Hk (B3 & L3). rdw BH h. rdw Bb x. wd q. apply A; auto; lia. }
  intros J2 (B2 & L2). cbn. pose proof (isb_ism 1 4 B2) as HI.
  rewrite skipn_all2 in HI by lia. exact HI.
Qed.

Lemma wp_row_elli J f h0 h1 h2 b0 b1 b2 g0 g1 g2 g3 g4 g5 : isb 9 J -> length J = 9 ->
  WP (fun J' => isb 9 J' /\ length J' = 9) (magn_row_elli J f h0 h1 h2 b0 b1 b2 g0 g1 g2 g3 g4 g5).
Proof.
  intros BJ LJ. unfold magn_row_elli.
  assert (A : forall a k x, isb 9 a /\ length a = 9 -> k < 9 -> WP (fun a' => isb 9 a' /\ length a' = 9) (addto a k x)).
  { intros a k x (Ba & La) Hk. unfold addto. rdw Ba y. eapply wp_imp; [apply (@wp_wr T N OF 9); auto|]. cbv beta. intros a' (? & ?). split; [auto|congruence]. }
  assert (HJ : isb 9 J /\ length J = 9) by auto. clear BJ LJ.
  do 8 (wd q; eapply wp_bind; [apply A; [eassumption|lia]|]; clear dependent J; intros J HJ; clear q).
  wd q. apply A; [exact HJ|lia].
Qed.

Lemma wp_jac_elli n tl m b tg g : ism n 3 tl m -> isv 3 b -> ism 9 1 tg g -> WP (ism (T := T) 1 9 []) (magn_jac_elli bc m b g).
Proof.
  intros Hm (Eb & Bb) Hg. pose proof (ism_isb Hm) as (Er & _ & _). pose proof (ism_isb Hg) as (_ & _ & Bg). cbn in Bg.
  unfold magn_jac_elli. rewrite Er.
  wc (@wp_init0 T N bc OF 1 9) J HJ. pose proof (ism_isb HJ) as (_ & _ & BJ). cbn in BJ.
  eapply wp_bind with (P := fun J => isb 9 J /\ length J = 9).
  { apply wp_for0.
    - split; [exact BJ|]. destruct HJ as (f & ->). reflexivity.
    - intros i J1 Hi (B1 & L1). unfold magn_add_elli.
      eapply wp_bind; [apply (@wp_magn_row n tl m); [exact Hm|lia]|]. intros H HH.
      eapply wp_bind; [now apply wp_f_elli with (tl := tg)|]. intros f _. destruct HH as (_ & BH).
      rdw BH h0. rdw BH h1. rdw BH h2. rdw Bb b0. rdw Bb b1. rdw Bb b2.
      rdw Bg g0. rdw Bg g1. rdw Bg g2. rdw Bg g3. rdw Bg g4. rdw Bg g5. now apply wp_row_elli. }
  intros J2 (B2 & L2). cbn. pose proof (isb_ism 1 9 B2) as HI.
  rewrite skipn_all2 in HI by lia. exact HI.
Qed.

Lemma wp_magn_step n J l ti idx res : ism 1 n [] J -> ism n n ti idx ->
  WP (fun x => (exists t, ism n n t (fst x)) /\ ism n 1 [] (snd x)) (magn_step bc n J l idx res).
Proof.
  intros HJ Hi. unfold magn_step. pose proof (ism_isb Hi) as (Er & Ec & B).
  wc (@wp_trans T N bc OF 1 n) Jt HJt.
  wc (@wp_mult T N bc OF n 1 n) JJ HJJ. pose proof (ism_isb HJJ) as (_ & _ & BJJ).
  eapply wp_bind with (P := isb (n * n)).
  { apply wp_for0; [exact B|]. intros i d Hi' Bd.
    assert (i * (n + 1) < n * n) by nia.
    rdw BJJ x. eapply wp_imp; [apply (@wp_wr T N OF (n * n)); auto|]. cbv beta. tauto. }
  intros d Bd. rewrite Er, Ec. pose proof (isb_ism n n Bd) as Hd.
  wc (@wp_add_d T N bc OF n n) JJ2 HJJ2.
  eapply wp_bind; [apply (@wp_inv T N bc OF L n) with (tl := rest (mtx_def n n)); [exact HJJ2|eapply ism_room; exact Hd]|].
  intros (rc2 & ix) (_ & t & Hix). cbn [snd] in Hix.
  wc (@wp_mult T N bc OF n n 1) tv Htv.
  wc (@wp_scalar T N OF n 1) t2 Ht2. cbn. split; [eauto|]. rewrite <- (rest_def n 1). exact Ht2.
Qed.

Lemma wp_magn_lambda j l mu s res : WP any (magn_lambda j l mu s res).
Proof.
  unfold magn_lambda. wd s2. eapply wp_bind with (P := any).
  { destruct (_ <? _)%num; [apply wp_div; exact L|exact I]. }
  intros; exact I.
Qed.

Lemma wp_magn_sphere n tl m l mu R b : ism n 3 tl m -> isv 3 b ->
  WP (fun x => isv 3 (snd x) /\ length (vbuf (snd x)) = length (vbuf b)) (magn_sphere bc m l mu R b).
Proof.
  intros Hm Hb. pose proof (ism_isb Hm) as (Er & _ & _). unfold magn_sphere. rewrite Er.
  wc (@wp_init1 T N bc OF 4 4) idx Hidx.
  eapply wp_bind with (P := fun s => let '(R, b', l, s, idx) := s in isv 3 b' /\ length (vbuf b') = length (vbuf b) /\ exists t, ism 4 4 t idx).
  { apply wp_for0; [split; [exact Hb|split; [reflexivity|eauto]]|].
    intros j ((((R1 & b1) & l1) & s1) & idx1) Hj (Hb1 & Lb1 & t1 & Hi1).
    eapply wp_bind; [now apply (@wp_jac_shp n tl m)|]. intros J HJ.
    eapply wp_bind; [apply (@wp_magn_row n tl m); [exact Hm|lia]|]. intros H HH.
    eapply wp_bind; [now apply wp_f_shp|]. intros f _.
    eapply wp_bind; [now apply wp_magn_step with (ti := t1)|]. intros (idx2 & t) ((t2 & Hi2) & Ht). cbn [fst snd] in Hi2, Ht.
    pose proof (ism_isb Ht) as (_ & _ & Bt). cbn in Bt. rdw Bt t0.
    pose proof Hb1 as (Eb1 & Bb1).
    eapply wp_bind with (P := fun bb => isb 3 bb /\ length bb = length (vbuf b1)).
    { apply wp_for0; [now split|]. intros k bb Hk (B3 & L3). rdw Bt x. unfold addto. rdw B3 y.
      eapply wp_imp; [apply (@wp_wr T N OF 3); [exact B3|lia]|]. cbv beta. intros bb' (B4 & L4). split; [exact B4|congruence]. }
    intros bb (Bb & Lbb).
    assert (Hb2 : isv 3 (Vec (vsz b1) bb)) by (split; [exact Eb1|exact Bb]).
    destruct (Nat.ltb_spec j (n - 1)).
    - eapply wp_bind; [apply (@wp_magn_row n tl m); [exact Hm|lia]|]. intros H' HH'.
      eapply wp_bind; [now apply wp_f_shp|]. intros f' _.
      eapply wp_bind; [apply wp_magn_lambda|]. intros (l2 & s2) _. cbn. split; [exact Hb2|]. split; [cbn; congruence|eauto].
    - cbn. split; [exact Hb2|]. split; [cbn; congruence|eauto]. }
  intros ((((R1 & b1) & l1) & s1) & idx1) (Hb1 & Lb1 & _). cbn. now split.
Qed.

Lemma wp_magn_ellipsoid n tl m l mu R b : ism n 3 tl m -> isv 3 b ->
  WP (fun x => exists t, ism 9 1 t (fst x)) (magn_ellipsoid bc m l mu R b).
Proof.
  intros Hm Hb. pose proof (ism_isb Hm) as (Er & _ & _). unfold magn_ellipsoid. rewrite Er. pose proof Hb as (_ & Bb).
  rdw Bb b0. rdw Bb b1. rdw Bb b2.
  wc (@wp_init1 T N bc OF 9 9) idx Hidx.
  eapply wp_bind with (P := fun s => let '(g, l, s, idx) := s in (exists t, ism 9 1 t g) /\ exists t, ism 9 9 t idx).
  { apply wp_for0.
    - split; [|eauto]. exists [].
      change (Mtx 9 1 _) with (mat_of 9 1 (fun i _ => nth i [f1; f0; f0; f1; f0; f1; b0; b1; b2] f0) []). apply ism_mat.
    - intros j (((g & l1) & s1) & idx1) Hj ((tg & Hg) & t1 & Hi1).
      eapply wp_bind; [now apply (@wp_jac_elli n tl m b tg)|]. intros J HJ.
      eapply wp_bind; [apply (@wp_magn_row n tl m); [exact Hm|lia]|]. intros H HH.
      eapply wp_bind; [now apply wp_f_elli with (tl := tg)|]. intros f _.
      eapply wp_bind; [now apply wp_magn_step with (ti := t1)|]. intros (idx2 & t) ((t2 & Hi2) & Ht). cbn [fst snd] in Hi2, Ht.
      pose proof (ism_isb Ht) as (_ & _ & Bt). cbn in Bt.
      pose proof (ism_isb Hg) as (_ & _ & Bg). cbn in Bg.
      eapply wp_bind with (P := isb 9).
      { apply wp_for0; [exact Bg|]. intros k gb Hk B3. rdw Bt x. apply wp_addto; [exact B3|lia]. }
      intros gb Bgb.
      assert (Hg2 : ism 9 1 (skipn (9 * 1) gb) (Mtx 9 1 gb)) by (now apply isb_ism).
      destruct (Nat.ltb_spec j (n - 1)).
      + eapply wp_bind; [apply (@wp_magn_row n tl m); [exact Hm|lia]|]. intros H' HH'.
        eapply wp_bind; [eapply wp_f_elli; [exact HH'|exact Hg2]|]. intros f' _.
        eapply wp_bind; [apply wp_magn_lambda|]. intros (l2 & s2) _. cbn. split; eauto.
      + cbn. split; eauto. }
  intros (((g & l1) & s1) & idx1) (Hg & _). exact Hg.
Qed.

(** the first guess, when sorting a column answers *)
Lemma wp_magn_start fuel ghost n f tl b : 1 <= n -> 3 <= length b ->
  (forall j v w, j < 3 -> vbuf v = cells (col_of n f j) -> vsz v = n -> vsz w = n -> length (vbuf w) = n ->
     WP (code0 (isv n)) (vec_sort fuel ghost v w) /\ forall x, vec_sort fuel ghost v w = Ok x -> length (vbuf (snd x)) = n) ->
  WP (fun x => isb 3 (fst x)) (magn_start bc fuel ghost (mat_of n 3 f tl) b).
Proof.
  intros Hn Hb Hs. unfold magn_start. change (mrows (mat_of n 3 f tl)) with n.
  eapply wp_bind with (P := fun s => let '(b', mean, v, w) := s in isb 3 b').
  { eapply wp_imp; [apply (@wp_for NR OF _ (fun i s => let '(b', mean, v, w) := s in isb i b' /\ length b' = length b /\ length v = n /\ length w = n))|].
    - rewrite !fresh_length. split; [apply isb_0|auto].
    - intros i (((b1 & mean) & v) & w) Hi (B1 & L1 & Lv & Lw).
      rewrite mtx_get_col_ok by lia. cbn [bind]. rewrite skipn_all2 by lia. rewrite app_nil_r.
      destruct (Hs i (Vec n (cells (col_of n f i))) (Vec n w)) as (Hw & Hl); auto; [lia|].
      destruct (vec_sort fuel ghost _ _) as [(rc & w')| | |] eqn:E; cbn [bind]; try exact Hw.
      destruct Hw as (_ & (Ew & Bw)). cbn [snd] in Ew, Bw. specialize (Hl _ eq_refl). cbn [snd] in Hl.
      rdw Bw hi. rdw Bw lo. wd c.
      eapply wp_bind; [apply (@wp_wr_next T N OF i); [exact B1|lia]|]. intros b2 (B2 & L2). wd h.
      cbn. repeat split; auto; [congruence|]. rewrite cells_length. unfold col_of. now rewrite map_length, seq_length.
    - intros (((b1 & mean) & v) & w) (H & _). exact H. }
  intros (((b1 & mean) & v) & w) B1. wd R. exact B1.
Qed.

(** everything after the first guess *)
Lemma wp_cal_magn fuel ghost n tl m l mu K b : ism n 3 tl m -> room 3 3 K -> vsz b = 3 ->
  WP (fun x => isb 3 (fst x)) (magn_start bc fuel ghost m (vbuf b)) ->
  WP (fun x => fst x = 0%Z -> mrows (snd (fst (snd x))) = 3 /\ mcols (snd (fst (snd x))) = 3 /\
        isb 9 (mbuf (snd (fst (snd x)))) /\ isv 3 (snd (snd x))) (cal_magn bc fuel ghost m l mu K b).
Proof.
  intros Hm HK Hb Hst. unfold cal_magn. destruct (_ && _); [intros E; discriminate E|].
  eapply wp_bind; [exact Hst|]. intros (bb & R) Bb. cbn [fst] in Bb.
  eapply wp_bind; [apply (@wp_magn_sphere n tl m); [exact Hm|split; [exact Hb|exact Bb]]|].
  intros (R1 & b1) (Hb1 & _). cbn [snd] in Hb1. pose proof Hb1 as (Eb1 & Bb1).
  wc (@wp_init1 T N bc OF 3 3) K1 HK1.
  eapply wp_bind; [now apply (@wp_magn_ellipsoid n tl m)|]. intros (g & l1) (tg & Hg). cbn [fst] in Hg.
  pose proof (ism_isb Hg) as (_ & _ & Bg). cbn in Bg.
  pose proof (ism_isb HK1) as (Er & Ec & BK).
  eapply wp_bind; [apply wp_magn_sym; [apply isb_le with (n := 9); [exact Bg|lia]|]|].
  { apply isb_iff in BK. cbn in BK. tauto. }
  intros Kb (_ & BKb).
  eapply wp_bind with (P := isb 3).
  { apply wp_for0; [exact Bb1|]. intros i b2 Hi B2. rdw Bg x.
    eapply wp_imp; [apply (@wp_wr T N OF 3); [exact B2|lia]|]. cbv beta. tauto. }
  intros b2 Bb2. cbn. intros _. repeat split; auto.
Qed.
End Cal.
