(** The absence of undefined behaviour in the decompositions, for any
    arithmetic. *)
From Coq Require Import List Arith ZArith Bool Lia.
From Verif Require Import Base BaseFacts SpecVec SpecMtx SpecSafe MVec MMtx MDecomp
  PVec PMtx PMtxOps PSafe PSafeMx.
Import ListNotations.
Set Implicit Arguments.
Local Open Scope num_scope.
Local Open Scope nat_scope.

(** ** Removing leading rows and columns (PQr.v has this over the reals) *)
Section Run.
Context {T : Type} {N : Num T}.
Variable bc : bool.
Implicit Types f : nat -> nat -> T.

Lemma reduce_loop_go n g f tl mred :
  (g <= n)%nat -> room (n - g) (n - g) mred ->
  forall d k fuel p1t p2b, (k <= g)%nat -> d = (g - k)%nat -> (d < fuel)%nat -> (0 < k)%nat -> (k <= n)%nat ->
  (n * n <= length p2b)%nat ->
  while_ fuel (fun '(mred, p1, p2) =>
    let! (rc, s) := mtx_reduce_iter bc (mat_of n n f tl) mred p1 p2 in
    let '(mred, p1, p2) := s in
    if (rc =? 0)%Z then Ok (inr mred) else Ok (inl (mred, p1, p2)))
    (mred, mat_of (n - k) (n - k) (fun i j => f (k + i)%nat (k + j)%nat) p1t, Mtx (n - k) (n - k) p2b)
  = Ok (mat_of (n - g) (n - g) (fun i j => f (g + i)%nat (g + j)%nat) (rest mred)).
Proof.
  intros Hg Hm d. induction d as [|d IH]; intros k fuel p1t p2b Hk Hd Hf Hk0 Hkn Hl.
  - assert (k = g) by lia. subst k. destruct fuel as [|fuel]; [lia|]. cbn [while_]. unfold mtx_reduce_iter.
    change (mrows (mat_of n n f tl)) with n.
    change (mrows (mat_of (n - g) (n - g) (fun i j => f (g + i)%nat (g + j)%nat) p1t)) with (n - g)%nat.
    destruct (Nat.eqb_spec n (n - g)); [lia|]. cbn [bind].
    change (mrows (mat_of (n - g) (n - g) (fun i j => f (g + i)%nat (g + j)%nat) p1t)) with (n - g)%nat.
    pose proof Hm as (Hr & Hc & _). rewrite Hr. rewrite Nat.eqb_refl.
    rewrite mtx_copy_ok by auto. cbn [bind Z.eqb]. reflexivity.
  - destruct fuel as [|fuel]; [lia|]. cbn [while_]. unfold mtx_reduce_iter at 1.
    change (mrows (mat_of n n f tl)) with n.
    set (p1 := mat_of (n - k) (n - k) _ p1t).
    change (mrows p1) with (n - k)%nat. change (mcols p1) with (n - k)%nat.
    destruct (Nat.eqb_spec n (n - k)); [lia|]. cbn [bind].
    change (mrows p1) with (n - k)%nat. change (mcols p1) with (n - k)%nat.
    pose proof Hm as (Hr & Hc & _). rewrite Hr.
    destruct (Nat.eqb_spec (n - k) (n - g)); [lia|].
    destruct (n - k)%nat as [|r] eqn:Er; [lia|].
    assert (Hr2 : room r r (Mtx r r p2b)).
    { split; [reflexivity|split; [reflexivity|]]. cbn [mbuf].
      apply Nat.le_trans with (n * n)%nat; auto. apply Nat.mul_le_mono; lia. }
    unfold p1. rewrite mtx_reduce_ok by (auto; lia). cbn [bind mbuf].
    assert (Hr1 : room r r (Mtx r r (mbuf (mat_of (S r) (S r) (fun i j => f (k + i)%nat (k + j)%nat) p1t)))).
    { split; [reflexivity|split; [reflexivity|]]. cbn [mbuf]. rewrite mat_otab, otab_length. nia. }
    rewrite mtx_copy_ok by exact Hr1. cbn [bind].
    change (- EAGAIN =? 0)%Z with false. cbn iota.
    set (t1 := rest (Mtx r r (mbuf _))). set (t2 := rest (Mtx r r p2b)).
    assert (Lt2 : (n * n <= length (mbuf (mat_of r r (fun a b => f (k + skip_at 0 a)%nat (k + skip_at 0 b)%nat) t2)))%nat).
    { rewrite mat_otab, otab_length. unfold t2, rest. cbn [mrows mcols mbuf]. rewrite skipn_length.
      destruct Hr2 as (_ & _ & Hr2). cbn [mbuf] in Hr2. lia. }
    specialize (IH (S k) fuel t1 _ ltac:(lia) ltac:(lia) ltac:(lia) ltac:(lia) ltac:(lia) Lt2).
    replace (n - S k)%nat with r in IH by lia.
    match goal with |- context [mat_of r r ?a t1] =>
      replace (mat_of r r a t1) with (mat_of r r (fun i j => f (S k + i)%nat (S k + j)%nat) t1)
    end.
    + exact IH.
    + apply mat_ext. intros i j Hi Hj. cbn [skip_at]. unfold skip_at. cbn [Nat.ltb Nat.leb].
      f_equal; lia.
Qed.

Lemma reduce_loop_ok n g f tl mred p1 p2 fuel :
  (g <= n)%nat -> (n < fuel)%nat -> room (n - g) (n - g) mred -> room n n p1 -> room n n p2 ->
  reduce_loop bc fuel (mat_of n n f tl) mred p1 p2
  = Ok (mat_of (n - g) (n - g) (fun i j => f (g + i)%nat (g + j)%nat) (rest mred)).
Proof.
  intros Hg Hf Hm H1 H2. unfold reduce_loop. destruct fuel as [|fuel]; [lia|]. cbn [while_].
  unfold mtx_reduce_iter at 1. change (mrows (mat_of n n f tl)) with n. change (mcols (mat_of n n f tl)) with n.
  pose proof H1 as (Hr1 & Hc1 & Hl1). rewrite Hr1. rewrite Nat.eqb_refl.
  rewrite mtx_copy_ok by auto. cbn [bind].
  change (mrows (mat_of n n f (rest p1))) with n. change (mcols (mat_of n n f (rest p1))) with n.
  pose proof Hm as (Hrm & _). rewrite Hrm.
  destruct (Nat.eqb_spec n (n - g)) as [E|NE].
  - destruct (Nat.eq_dec g 0) as [->|Ng].
    + rewrite Nat.sub_0_r in *. rewrite mtx_copy_ok by auto. reflexivity.
    + assert (n = 0%nat) by lia. lia.
  - destruct n as [|r]; [lia|].
    pose proof H2 as (Hr2 & Hc2 & Hl2).
    assert (Q2 : room r r (Mtx r r (mbuf p2))).
    { split; [reflexivity|split; [reflexivity|]]. cbn [mbuf]. nia. }
    rewrite mtx_reduce_ok by (auto; lia). cbn [bind mbuf].
    assert (Q1 : room r r (Mtx r r (mbuf (mat_of (S r) (S r) f (rest p1))))).
    { split; [reflexivity|split; [reflexivity|]]. cbn [mbuf]. rewrite mat_otab, otab_length. nia. }
    rewrite mtx_copy_ok by exact Q1. cbn [bind]. change (- EAGAIN =? 0)%Z with false. cbn iota.
    set (t1 := rest (Mtx r r (mbuf (mat_of _ _ _ _)))). set (t2 := rest (Mtx r r (mbuf p2))).
    assert (Lt2 : (S r * S r <= length (mbuf (mat_of r r (fun a b => f (skip_at 0 a)%nat (skip_at 0 b)%nat) t2)))%nat).
    { rewrite mat_otab, otab_length. unfold t2, rest. cbn [mrows mcols mbuf]. rewrite skipn_length. nia. }
    pose proof (@reduce_loop_go (S r) g f tl mred Hg Hm (g - 1) 1%nat fuel t1 _ ltac:(lia) ltac:(lia) ltac:(lia)
      ltac:(lia) ltac:(lia) Lt2) as IH.
    replace (S r - 1)%nat with r in IH by lia.
    match goal with |- context [mat_of r r ?a t1] =>
      replace (mat_of r r a t1) with (mat_of r r (fun i j => f (1 + i)%nat (1 + j)%nat) t1)
    end.
    + exact IH.
    + apply mat_ext. intros i j Hi Hj. unfold skip_at. cbn [Nat.ltb Nat.leb Nat.add]. reflexivity.
Qed.
End Run.

Section Dec.
Context {T : Type} {N : Num T}.
Variable bc : bool.
Variable OF : Prop.
Hypothesis L : lawful N.
Notation NR := (~ total N).
Notation "'WP' P m" := (wp NR OF P m) (at level 10, P at level 9, m at level 9).

Ltac wb l := eapply wp_bind; [eapply l; eauto using ism_room, room_def; try lia|cbv beta].
Ltac wc l m H := eapply wp_bind; [eapply l; eauto using ism_room, room_def; try lia|
  let rc := fresh "rc" in let E := fresh "E" in
  intros (rc & m) (E & H); cbn [fst snd] in E, H; subst rc].

(** ** Vectors *)

(** a vector of n elements that all have values *)
Definition isv (n : nat) (v : vec T) : Prop := vsz v = n /\ isb n (vbuf v).

Lemma isv_of n v : isv n v -> exists xs tl, length xs = n /\ v = vec_of xs tl.
Proof.
  intros (Hs & xs & tl & Hx & E). exists xs, tl. split; auto. unfold vec_of. destruct v as [s b].
  cbn in *. now subst.
Qed.
Lemma of_isv n xs tl : length xs = n -> isv n (vec_of xs tl).
Proof. intros H. split; [exact H|]. exists xs, tl. now split. Qed.

Lemma wp_vinit n (v : vec T) : vsz v = n -> n <= length (vbuf v) ->
  WP (code0 (fun w => isv n w /\ length (vbuf w) = length (vbuf v))) (vec_init v).
Proof.
  intros Hs Hl. destruct v as [s b]. cbn in Hs, Hl. subst s. unfold vec_init. cbn [vbuf vsz].
  unfold zero_fill. rewrite (proj2 (Nat.leb_le _ _)) by lia. cbn. split; [reflexivity|]. cbn. split.
  - split; [reflexivity|]. cbn. exists (repeat f0 n), (skipn n b). rewrite repeat_length. split; auto.
    f_equal. unfold cells. clear. induction n; cbn; congruence.
  - rewrite app_length, repeat_length, skipn_length. lia.
Qed.

Lemma wp_vmap (f : T -> outcome T) n v : (forall a, WP (fun _ => True) (f a)) -> isv n v ->
  WP (fun w => isv n w /\ length (vbuf w) = length (vbuf v)) (vec_map f v).
Proof.
  intros Hf (Hs & Hb). unfold vec_map. rewrite Hs.
  eapply wp_bind; [eapply (@wp_for0 NR OF _ (fun b => isb n b /\ length b = length (vbuf v))); [now split|]|].
  - intros i b Hi (H1 & H2). eapply wp_bind; [eapply wp_rd'; eauto; lia|]. intros a _.
    eapply wp_bind; [apply Hf|]. intros y _. eapply wp_imp; [apply (@wp_wr T N OF n); [exact H1|lia]|].
    intros b' (H3 & H4). split; [auto|lia].
  - intros b (H1 & H2). cbn. repeat split; auto.
Qed.

Lemma wp_vmult n v s : isv n v -> WP (code0 (isv n)) (vec_scalar_mult v s).
Proof.
  intros H. unfold vec_scalar_mult. eapply wp_bind; [apply (@wp_vmap _ n); [|exact H]; intros a; exact I|].
  intros w (Hw & _). split; [reflexivity|exact Hw].
Qed.
Lemma wp_vneg n v : isv n v -> WP (code0 (isv n)) (vec_neg v).
Proof.
  intros H. unfold vec_neg. eapply wp_bind; [apply (@wp_vmap _ n); [|exact H]; intros a; exact I|].
  intros w (Hw & _). split; [reflexivity|exact Hw].
Qed.
Lemma wp_vdiv n v s : isv n v -> WP (snd_is (isv n)) (vec_scalar_div v s).
Proof.
  intros H. unfold vec_scalar_div. destruct (_ =? _)%num; [exact H|].
  eapply wp_bind; [apply (@wp_vmap _ n); [|exact H]; intros a; now apply wp_div|].
  intros w (Hw & _). exact Hw.
Qed.

Lemma wp_norm n v : isv n v -> WP (fun _ => True) (vec_norm bc v).
Proof. intros H. destruct (isv_of H) as (xs & tl & _ & ->). rewrite vec_norm_ok. now apply wp_sqrt. Qed.

Lemma wp_zip_d op n v w : isv n v -> isv n w -> WP (code0 (isv n)) (vec_zip_d bc op v w).
Proof.
  intros (Hv & Bv) (Hw & Bw). unfold vec_zip_d. rewrite Hv, Hw.
  destruct Bv as (xs & tx & Lx & Ex), Bw as (ys & ty & Ly & Ey). rewrite Ex, Ey.
  assert (Hl : n <= length (cells xs ++ tx)) by (rewrite app_length, cells_length; lia).
  match goal with |- context [vec_zip_st _ _ ?st _ _ _] =>
    rewrite (@vec_zip_st_ok T bc op st 0 1 0 n xs ys tx ty _ eq_refl Lx eq_refl Ly eq_refl Hl) end.
  cbn [bind]. split; [reflexivity|]. cbn. split; [reflexivity|]. cbn. do 2 eexists. split; [|reflexivity].
  rewrite map2_length; lia.
Qed.

Lemma wp_sdot n st p q : (exists b, nth_error st p = Some b /\ isb n b) -> (exists b, nth_error st q = Some b /\ isb n b) ->
  WP (fun _ => True) (sdot st n p q).
Proof.
  intros (b & Hp & xs & tx & Lx & ->) (b' & Hq & ys & ty & Ly & ->).
  eapply wp_eq; [eapply sdot_ok; eauto|exact I].
Qed.

Lemma wp_project_d n w v : isv n w -> isv n v -> WP (code0 (isv n)) (vec_project_d bc w v).
Proof.
  intros (Hw & Bw) (Hv & Bv). unfold vec_project_d. rewrite Hw, Hv. unfold vec_project_st. cbn [rsz rptr].
  rewrite !Nat.eqb_refl. cbn [negb orb]. rewrite andb_false_r. unfold sblit. cbn [nth_error].
  pose proof (isb_length Bw) as Hl. rewrite blit_ok by lia. cbn [firstn skipn app Nat.add bind upd].
    rewrite firstn_skipn.
    eapply wp_bind with (P := fun x : Z * store T => fst x = 0%Z /\ isb n (nth 0 (snd x) [])).
    2: { intros (rc & st) (E & Hst). cbn in E, Hst. subst rc. cbn. split; [reflexivity|]. now split. }
    eapply wp_bind; [apply wp_sdot; eexists; (split; [reflexivity|assumption])|]. intros p _.
    eapply wp_bind; [apply wp_sdot; eexists; (split; [reflexivity|assumption])|]. intros t _.
    eapply wp_bind; [apply wp_div; auto|]. intros s _.
    eapply wp_bind; [eapply (@wp_for0 NR OF _ (fun st => exists b, st = [b; vbuf v] /\ isb n b)); [eauto|]|].
    - intros i st Hi (b & -> & Hb). unfold srd, swr. cbn [nth_error].
      eapply wp_bind; [eapply wp_rd'; eauto; lia|]. intros a _.
      eapply wp_bind; [apply (@wp_wr T N OF n); [exact Hb|lia]|]. intros b' (H1 & _). cbn. eauto.
    - intros st (b & -> & Hb). cbn. split; [reflexivity|exact Hb].
Qed.

Lemma wp_to_unit n v : 1 <= n -> isv n v -> WP (code0 (isv n)) (vec_to_unit bc v).
Proof.
  intros Hn H. destruct (isv_of H) as (xs & tl & Lx & ->). rewrite vec_to_unit_eq.
  eapply wp_bind; [apply wp_sqrt; auto|]. intros q _. destruct (fne q f0).
  - eapply wp_bind; [apply wp_div; auto|]. intros s _. split; [reflexivity|]. apply of_isv. now rewrite map_length.
  - destruct xs as [|x xs]; [cbn in Lx; lia|]. split; [reflexivity|]. apply of_isv. cbn. now rewrite repeat_length.
Qed.

Lemma wp_zte n (v : vec T) : isv n v -> WP (code0 (isv n)) (vec_zte v).
Proof.
  intros H. destruct (isv_of H) as (xs & tl & Lx & ->). rewrite vec_zte_ok. split; [reflexivity|].
  apply of_isv. rewrite app_length, repeat_length.
  rewrite <- Lx. clear. induction xs as [|x xs IH]; cbn; auto. destruct (zte_test x); cbn; lia.
Qed.

Lemma wp_from_arr_v n v b : vsz v = n -> n <= length (vbuf v) -> isb n b -> WP (code0 (isv n)) (vec_from_arr v b).
Proof.
  intros Hs Hl (xs & tl & Lx & ->). unfold vec_from_arr. rewrite Hs. rewrite blit_cells by auto. cbn.
  split; [reflexivity|]. split; [reflexivity|]. cbn [snd vbuf]. do 2 eexists. split; [exact Lx|reflexivity].
Qed.

Lemma wp_from_arr r c (m : mtx T) b : room r c m -> isb (r * c) b -> WP (code0 (ism r c (rest m))) (mtx_from_arr m b).
Proof.
  intros H (xs & tl & Lx & ->). rewrite (mtx_from_arr_ok xs tl H Lx). split; [reflexivity|]. cbn [snd].
  replace (rest m) with (skipn (r * c) (cells xs ++ rest m)) at 1.
  - apply isb_ism. do 2 eexists. split; [exact Lx|reflexivity].
  - apply skipn_app_all. now rewrite cells_length.
Qed.

(** ** Orthonormalisation *)

Lemma wp_gram_schmidt r c tl m mort : ism r c tl m -> room r c mort ->
  WP (code0 (ism r c (rest mort))) (mtx_gram_schmidt bc m mort).
Proof.
  intros H Hm. destruct (ism_isb H) as (Hr & Hc & _). unfold mtx_gram_schmidt. rewrite Hr, Hc. cbv zeta.
  eapply wp_bind.
  - apply wp_for with (lo := 0) (n := c) (P := fun t s => let '(mo, v, w) := s in
      osm r c (rest mort) (fun a b => b < t) mo /\ vsz v = r /\ r <= length (vbuf v) /\ r <= length (vbuf w)).
    + split; [eapply osm_imp; [now apply room_osm|intros; cbv beta in *; lia]|]. cbn. rewrite fresh_length. auto.
    + intros t ((mo & v) & w) Ht (H1 & H2 & H3 & H4).
      eapply wp_bind; [apply (@wp_vinit r); cbn; rewrite ?fresh_length; auto|].
      intros (rc & q) (_ & (Hq & _)). cbn [snd] in Hq.
      wc (@wp_get_col T N bc OF r c tl) vb H5. destruct H5 as (H5 & H6).
      eapply wp_bind; [apply (@wp_for0 NR OF _ (fun s => r <= length (vbuf (fst s)) /\ isv r (snd s))); [now split|]|].
      * intros g (w1 & q1) Hg (H7 & H8). cbn [fst snd] in *.
        wc (@wp_oget_col T N bc OF r c) wb1 H9; [cbv beta; lia|]. destruct H9 as (H9 & H10).
        wc (@wp_project_d r) w2 H11; [now split|now split|].
        wc (@wp_zip_d fadd r) q2 H12. cbn. split; [|exact H12]. destruct H11 as (_ & H11).
        now apply isb_length in H11.
      * intros (w1 & q1) (H7 & H8). cbn [fst snd] in *.
        wc (@wp_zip_d fsub r) v2 H9; [now split|].
        wc (@wp_oset_col T N bc OF r c) mo2 H10; [apply H9|]. cbn. destruct H9 as (H9 & H11).
        repeat split; auto; [|now apply isb_length in H11].
        eapply osm_imp; eauto. intros; cbv beta in *; lia.
  - intros ((mo & v) & w) (H1 & _). split; [reflexivity|]. cbn. eapply osm_all; eauto.
Qed.

Lemma wp_cols_norm r c tl m mn : 1 <= r -> ism r c tl m -> room r c mn ->
  WP (code0 (ism r c (rest mn))) (mtx_cols_norm bc m mn).
Proof.
  intros Hr1 H Hm. destruct (ism_isb H) as (Hr & Hc & _). unfold mtx_cols_norm. rewrite Hr, Hc. cbv zeta.
  eapply wp_bind.
  - apply wp_for with (lo := 0) (n := c) (P := fun t s => let '(mo, v) := s in
      osm r c (rest mn) (fun a b => b < t) mo /\ r <= length (vbuf v)).
    + split; [eapply osm_imp; [now apply room_osm|intros; cbv beta in *; lia]|]. cbn. now rewrite fresh_length.
    + intros t (mo & v) Ht (H1 & H2).
      wc (@wp_get_col T N bc OF r c tl) vb H5. destruct H5 as (H5 & H6).
      wc (@wp_to_unit r) v2 H7; [now split|].
      wc (@wp_oset_col T N bc OF r c) mo2 H8; [apply H7|]. cbn. destruct H7 as (H9 & H11).
      split; [|now apply isb_length in H11]. eapply osm_imp; eauto. intros; cbv beta in *; lia.
  - intros (mo & v) (H1 & _). split; [reflexivity|]. cbn. eapply osm_all; eauto.
Qed.

(** ** Cholesky *)

Lemma wp_chol_sym n tl m : ism n n tl m -> WP (fun _ => True) (chol_sym bc m).
Proof.
  intros H. destruct (ism_isb H) as (Hr & _). unfold chol_sym. rewrite Hr.
  eapply wp_bind; [eapply wp_for_exit with (P := fun _ => True) (Q := fun _ => True); auto|].
  - intros i s Hi _. apply wp_for_exit with (P := fun _ => True); auto. intros j (a & b) Hj _.
    wb (@wp_lget T N bc OF n n). intros y (av & ->). wb (@wp_lget T N bc OF n n). intros y (bv & ->).
    cbn [bind lval]. destruct (fne av bv); exact I.
  - intros [s|b] _; exact I.
Qed.

Lemma wp_chol_sym_eq n f tl : (forall i j, i < n -> j < n -> feq (f i j) (f j i) = true) ->
  WP (fun b => b = true) (chol_sym bc (mat_of n n f tl)).
Proof.
  intros Hf. unfold chol_sym. change (mrows (mat_of n n f tl)) with n.
  eapply wp_bind; [eapply wp_for_exit with (P := fun _ => True) (Q := fun _ => False); auto|].
  - intros i s Hi _. eapply wp_for_exit with (P := fun _ => True); auto. intros j (a & b) Hj _.
    rewrite lget_mat by lia. cbn [bind]. rewrite lget_mat by lia. cbn [bind lval].
    unfold fne. rewrite Hf by lia. exact I.
  - intros [s|b] H; [reflexivity|contradiction].
Qed.

(** Code 0 goes with a factor that is written out; without checks, or when the
    matrix compares equal to its transpose, the code is 0. *)
Lemma wp_cholesky_cases (Q : Prop) n tl m l : ism n n tl m -> room n n l ->
  (Q -> bc = true -> WP (fun b => b = true) (chol_sym bc m)) ->
  WP (fun r => room n n (snd r) /\ (fst r = 0%Z -> ism n n (rest l) (snd r)) /\ (Q -> fst r = 0%Z)) (mtx_cholesky bc m l).
Proof.
  intros H Hl HQ. destruct (ism_isb H) as (Hr & Hc & _). pose proof Hl as (Hr' & Hc' & _).
  unfold mtx_cholesky. rewrite Hr, Hc, Hr', Hc', Nat.eqb_refl. cbn [negb orb]. rewrite andb_false_r.
  eapply wp_bind with (P := fun b => Q -> b = true).
  { pose proof (wp_chol_sym H) as Hsym. destruct bc; [|intros _; reflexivity].
    destruct (chol_sym true m) as [b| | |]; auto. cbn in *. intros q. now apply HQ. }
  intros sym Hsym. destruct sym; cbn [negb].
  2: { split; [exact Hl|]. split; [intros E; discriminate E|intros q; discriminate (Hsym q)]. }
  eapply wp_imp with (P := code0 (ism n n (rest l))).
  2: { intros r (E & H1). split; [eapply ism_room; eauto|]. split; [intros _; exact H1|intros _; exact E]. }
  wc (@wp_init_e T N bc OF n n) l1 H1. set (t := rest l) in *. clearbody t.
  eapply wp_bind; [apply (@wp_for0 NR OF _ (fun s => ism n n t (fst (fst s)))); [exact H1|]|].
  - intros j ((l2 & x) & y) Hj H2. cbn [fst] in H2.
    eapply wp_bind with (P := fun _ => True).
    { apply wp_for0; auto. intros k (sum & x1) Hk _.
      wb (@wp_lget T N bc OF n n). intros z (zv & ->). exact I. }
    intros (sum & x1) _. wb (@wp_lget T N bc OF n n tl). intros z (zv & ->). cbn [bind lval].
    eapply wp_bind; [apply wp_sqrt; auto|]. intros s _.
    wc (@wp_set T N bc OF n n t) l3 H3.
    unfold for_range. apply wp_for0; [exact H3|]. intros i ((l4 & x4) & y4) Hi H4. cbn [fst] in H4.
    eapply wp_bind with (P := fun _ => True).
    { apply wp_for0; auto. intros k ((sum5 & x5) & y5) Hk _.
      wb (@wp_lget T N bc OF n n). intros z5 (zv5 & ->).
      wb (@wp_lget T N bc OF n n). intros z6 (zv6 & ->). exact I. }
    intros ((sum5 & x5) & y5) _.
    wb (@wp_lget T N bc OF n n t). intros z5 (zv5 & ->).
    wb (@wp_lget T N bc OF n n tl). intros z6 (zv6 & ->). cbn [bind lval].
    eapply wp_bind; [apply wp_div; auto|]. intros q _.
    wc (@wp_set T N bc OF n n t) l7 H7. exact H7.
  - intros ((l2 & x) & y) H2. cbn in *. split; [reflexivity|exact H2].
Qed.

Lemma wp_cholesky n tl m l : ism n n tl m -> room n n l ->
  WP (fun r => room n n (snd r) /\ (fst r = 0%Z -> ism n n (rest l) (snd r))) (mtx_cholesky bc m l).
Proof.
  intros H Hl. eapply wp_imp; [apply (@wp_cholesky_cases False n tl m l); auto; contradiction|].
  intros r (H1 & H2 & _). auto.
Qed.
Lemma wp_cholesky_eq n f tl l : (bc = true -> forall i j, i < n -> j < n -> feq (f i j) (f j i) = true) -> room n n l ->
  WP (code0 (ism n n (rest l))) (mtx_cholesky bc (mat_of n n f tl) l).
Proof.
  intros Hf Hl. eapply wp_imp; [apply (@wp_cholesky_cases True n tl); auto using ism_mat|].
  - intros _ Hb. apply wp_chol_sym_eq. now apply Hf.
  - intros r (_ & H1 & H2). split; auto.
Qed.

(** ** Balancing *)

Hypothesis HOF : OF.

Lemma wp_bal_round fuel n i b done (row col : T) : isb (n * n) b -> i < n ->
  WP (fun s => let '(b', _, (r, c)) := s in isb (n * n) b' /\ length b' = length b /\
               (exists x, r = Some x) /\ (exists x, c = Some x))
     (bal_round fuel n i (b, done, (Some row, Some col))).
Proof.
  intros Hb Hi. unfold bal_round.
  eapply wp_bind; [apply (@wp_for0 NR OF _ (fun s => (exists x, fst s = Some x) /\ exists y, snd s = Some y)); [cbn; eauto|]|].
  - intros j (r & c) Hj ((x & Hx) & (y & Hy)). cbn [fst snd] in *. subst r c. cbn [bind lval].
    eapply wp_bind; [apply (@wp_rd' T N OF (n * n)); [exact Hb|apply flat_lt; lia]|]. intros a _.
    eapply wp_bind; [apply (@wp_rd' T N OF (n * n)); [exact Hb|apply flat_lt; lia]|]. intros d _. cbn. eauto.
  - intros (r & c) ((x & Hx) & (y & Hy)). cbn [fst snd] in *. subst r c. cbn [bind lval].
    eapply wp_bind with (P := fun s => isb (n * n) (fst s) /\ length (fst s) = length b).
    2: { intros (b1 & d1) (H1 & H2). cbn in *. repeat split; eauto. }
    destruct (_ && _); [|now split].
    eapply wp_bind; [apply wp_div; auto|]. intros row2 _.
    eapply wp_bind with (P := fun _ => True).
    { apply wp_while with (P := fun _ => True); auto. intros (c2 & c1) _. destruct (_ <? _)%num; exact I. }
    intros (c2 & c1) _. eapply wp_bind with (P := fun _ => True).
    { apply wp_while with (P := fun _ => True); auto. intros (c3 & c4) _. destruct (_ >? _)%num; [|exact I].
      eapply wp_bind; [apply wp_div; auto|]. intros ? _. eapply wp_bind; [apply wp_div; auto|]. intros ? _. exact I. }
    intros (c3 & c4) _. eapply wp_bind; [apply wp_div; auto|]. intros t _.
    destruct (_ <? _)%num; [|now split].
    eapply wp_bind; [apply wp_div; auto|]. intros rw _.
    eapply wp_bind; [apply (@wp_for0 NR OF _ (fun b' => isb (n * n) b' /\ length b' = length b)); [now split|]|].
    + intros k b1 Hk (H1 & H2).
      eapply wp_bind; [apply (@wp_rd' T N OF (n * n)); [exact H1|apply flat_lt; lia]|]. intros a _.
      eapply wp_bind; [apply (@wp_wr T N OF (n * n)); [exact H1|apply flat_lt; lia]|]. intros b2 (H3 & H4).
      eapply wp_bind; [apply (@wp_rd' T N OF (n * n)); [exact H3|apply flat_lt; lia]|]. intros d _.
      eapply wp_imp; [apply (@wp_wr T N OF (n * n)); [exact H3|apply flat_lt; lia]|]. intros b3 (H5 & H6). split; auto; lia.
    + intros b1 H1. exact H1.
Qed.

Lemma wp_balance fuel n tl (row col : T) m mo : ism n n tl m -> room n n mo ->
  WP (code0 (fun x => exists t, ism n n t x)) (mtx_balance bc fuel (Some row) (Some col) m mo).
Proof.
  intros H Hm. destruct (ism_isb H) as (Hr & Hc & _). pose proof Hm as (Hr' & Hc' & _).
  unfold mtx_balance. rewrite Hr, Hc, Hr', Hc', Nat.eqb_refl. cbn [negb orb]. rewrite andb_false_r.
  wc (@wp_copy T N bc OF n n) mo1 H1. cbn [Z.eqb negb].
  destruct (ism_isb H1) as (Hr1 & Hc1 & Hb1). rewrite Hr1, Hc1.
  eapply wp_bind with (P := isb (n * n)).
  - apply wp_while with (P := fun s => let '(b, (r, c)) := s in isb (n * n) b /\ (exists x, r = Some x) /\ exists y, c = Some y); auto.
    + eauto.
    + intros (b & (r & c)) (H2 & (x & ->) & (y & ->)).
      eapply wp_bind; [apply (@wp_for0 NR OF _ (fun s => let '(b, _, (r, c)) := s in isb (n * n) b /\ (exists x, r = Some x) /\ exists y, c = Some y)); [eauto|]|].
      * intros i ((b3 & d3) & (r3 & c3)) Hi (H3 & (x3 & ->) & (y3 & ->)).
        eapply wp_imp; [apply wp_bal_round; [exact H3|lia]|]. intros ((b4 & d4) & (r4 & c4)) (H4 & _ & H5 & H6). auto.
      * intros ((b3 & d3) & (r3 & c3)) (H3 & H4 & H5). destruct d3; cbn; auto.
  - intros b Hb. split; [reflexivity|]. cbn. eexists. now apply isb_ism.
Qed.

(** ** Householder reflections and the QR decomposition *)

Lemma wp_augm p n tg m h : p <= n -> ism p p tg m -> room n n h ->
  WP (code0 (ism n n (rest h))) (mtx_augm_diag bc m h).
Proof.
  intros Hp H Hh. destruct (ism_isb H) as (Hr & _). unfold mtx_augm_diag. rewrite Hr.
  wc (@wp_init1 T N bc OF n n) h1 H1. set (t := rest h) in *. clearbody t.
  destruct (ism_isb H1) as (Hr1 & _). rewrite Hr1.
  rewrite (proj2 (Nat.ltb_ge n p)) by exact Hp.
  eapply wp_bind; [apply (@wp_for0 NR OF _ (fun s => ism n n t (fst s))); [exact H1|]|].
  - intros i (h2 & x) Hi H2. apply wp_for0; [exact H2|]. intros j (h3 & x3) Hj H3. cbn [fst] in H3.
    wb (@wp_lget T N bc OF p p). intros z (zv & ->). cbn [bind lval].
    wc (@wp_set T N bc OF n n t) h4 H4. exact H4.
  - intros (h2 & x) H2. split; [reflexivity|exact H2].
Qed.

Lemma wp_get_tail n (v : vec T) : 2 <= n -> isv n v ->
  WP (code0 (isv (n - 1))) (vec_get_subset bc (Z.of_nat (S n)) v 1 (Z.of_nat (n - 1)) (vec_def (n - 1))).
Proof.
  intros Hn (Hs & Hb).
  assert (E : forall len, len = Z.of_nat (n - 1) ->
    WP (code0 (isv (n - 1))) (let ssz := if (len <? Z.of_nat (vsz (vec_def (T := T) (n - 1))))%Z then Z.to_nat len else vsz (vec_def (T := T) (n - 1)) in
     if (Z.of_nat (length (vbuf v)) <? 1 + len)%Z then UB OOBRead
     else let! b := blit (vbuf v) (Z.to_nat 1) (vbuf (vec_def (n - 1))) 0 (Z.to_nat len) in
          Ok (0%Z, Vec ssz b))).
  { intros len ->. cbn [vsz vec_def vbuf]. rewrite Z.ltb_irrefl, Nat2Z.id. pose proof (isb_length Hb) as Hl.
    rewrite (proj2 (Z.ltb_ge _ _)) by lia. change (Z.to_nat 1) with 1%nat.
    rewrite blit_ok by (rewrite ?fresh_length; lia). split; [reflexivity|]. cbn [snd]. split; [reflexivity|].
    cbn [vbuf firstn app]. apply isb_iff in Hb. apply isb_iff. split.
    - rewrite app_length, firstn_length, !skipn_length, fresh_length. lia.
    - intros i Hi. rewrite nth_error_app1 by (rewrite firstn_length, skipn_length; lia).
      destruct Hb as (_ & Hb). destruct (Hb (S i)) as (x & Ex); [lia|]. exists x. rewrite <- Ex.
      destruct (vbuf v) as [|o b]; [cbn in Hl; lia|]. cbn [skipn nth_error].
      clear - Hi. revert b i Hi. generalize (n - 1). intros k. induction k as [|k IH]; intros b i Hi; [lia|].
      destruct b as [|o b]; [now destruct i|]. destruct i; cbn; auto. apply IH. lia. }
  unfold vec_get_subset. rewrite Hs. destruct bc.
  - destruct (Z.leb_spec (Z.of_nat n) 1); [lia|]. rewrite Z.mod_small by lia.
    destruct (Z.leb_spec (Z.of_nat n) (1 + Z.of_nat (n - 1))); [|lia].
    rewrite (proj2 (Z.ltb_ge _ _)) by (cbn; lia). apply E. lia.
  - apply E. reflexivity.
Qed.

Lemma wp_vcopy n (v : vec T) : isv n v -> WP (code0 (isv n)) (vec_copy (vec_def n) v).
Proof.
  intros (Hs & xs & tl & Lx & E). unfold vec_copy. rewrite Hs, E. rewrite blit_cells by (auto; cbn; rewrite fresh_length; auto).
  split; [reflexivity|]. split; [reflexivity|]. cbn [snd vbuf]. do 2 eexists. split; [exact Lx|reflexivity].
Qed.

Lemma wp_householder n c tl m h (hess : bool) : 1 <= c -> (if hess then 2 else 1) <= n -> ism n c tl m -> room n n h ->
  WP (code0 (ism n n (rest h))) (mtx_householder bc m h hess).
Proof.
  intros Hc1 Hn H Hh. destruct (ism_isb H) as (Hr & _). unfold mtx_householder. rewrite Hr.
  assert (E0 : hess && (n =? 0) = false). { destruct hess; auto. destruct n; [lia|reflexivity]. }
  rewrite E0. set (size := if hess then n - 1 else n).
  assert (Hsz : 1 <= size <= n) by (unfold size; destruct hess; lia).
  eapply wp_bind; [apply (@wp_vinit size); cbn; rewrite ?fresh_length; auto|].
  intros (rc & e1) (_ & (He & _)). cbn [snd] in He.
  eapply wp_bind; [apply (@wp_wr T N OF size); [apply He|lia]|]. intros eb (Heb & _).
  assert (Hev : isv size (Vec size eb)) by (split; auto).
  wc (@wp_get_col T N bc OF n c tl) v2b Hv2; [now rewrite fresh_length|]. destruct Hv2 as (Hv2 & _).
  eapply wp_bind with (P := code0 (isv size)).
  { unfold size. destruct hess; [apply wp_get_tail; auto; now split|apply wp_vcopy; now split]. }
  intros (rc3 & v) (_ & Hv). cbn [snd] in Hv.
  eapply wp_bind; [apply (@wp_rd' T N OF size); [apply Hv|lia]|]. intros v0 _.
  eapply wp_bind; [eapply wp_norm; eauto|]. intros nv _.
  wc (@wp_vmult size) e2 He2. wc (@wp_zip_d fadd size) v3 Hv3.
  eapply wp_bind; [eapply wp_norm; eauto|]. intros nv2 _.
  eapply wp_bind; [eapply wp_vdiv; eauto|]. intros (rc4 & v4) Hv4. cbn in Hv4.
  wc (@wp_from_arr size 1) mv Hmv. { rewrite Nat.mul_1_r. apply Hv4. }
  wc (@wp_trans T N bc OF size 1) mvt Hmvt.
  wc (@wp_mult T N bc OF size 1 size) vvt Hvvt.
  wc (@wp_init1 T N bc OF size size) idm Hid.
  wc (@wp_scalar T N OF size size) vvt2 Hvvt2.
  wc (@wp_add T N bc OF size size) h2 Hh2.
  wc (@wp_augm size n) h3 Hh3. split; [reflexivity|exact Hh3].
Qed.

Lemma wp_reduce_loop n g tl (m mred p1 p2 : mtx T) fuel : g <= n -> n < fuel -> ism n n tl m ->
  room (n - g) (n - g) mred -> room n n p1 -> room n n p2 ->
  WP (ism (n - g) (n - g) (rest mred)) (reduce_loop bc fuel m mred p1 p2).
Proof.
  intros Hg Hf (f & ->) Hm H1 H2. eapply wp_eq; [apply (@reduce_loop_ok T bc n g); auto|apply ism_mat].
Qed.

Lemma wp_qrd n tl m q r (hess : bool) : 1 <= n -> ism n n tl m -> room n n q -> room n n r ->
  WP (code0 (fun x => ism n n (rest q) (fst x) /\ ism n n (rest r) (snd x))) (mtx_qrd bc m q r hess).
Proof.
  intros Hn H Hq Hr0. destruct (ism_isb H) as (Hr & Hc & _). unfold mtx_qrd. rewrite Hr, Hc. cbv zeta.
  wc (@wp_init0 T N bc OF n n) h H1. wc (@wp_init1 T N bc OF n n) qt H2.
  wc (@wp_copy T N bc OF n n) r1 H3.
  destruct n as [|n1] eqn:En; [lia|]. rewrite <- En in *.
  set (tr := rest r) in *. clearbody tr.
  eapply wp_bind; [apply (@wp_for0 NR OF _ (fun s => let '(h, qt, r, r2, h2, hess) := s in
     room n n h /\ (exists t, ism n n t qt) /\ ism n n tr r /\ room n n r2 /\ room n n h2 /\ room n n hess))|].
  - repeat split; try (eapply ism_room; eauto; fail); eauto using room_def; try apply (ism_room H1); apply room_def.
  - intros g (((((h4 & qt4) & r4) & r24) & h24) & hess4) Hg (H4 & (t & H5) & H6 & H7 & H8 & H9).
    rewrite (proj2 (Nat.ltb_ge n g)) by lia. destruct (ism_isb H6) as (Hr6 & Hc6 & _). rewrite Hr6, Hc6.
    eapply wp_bind; [apply (@wp_reduce_loop n g tr); auto using room_def; lia|]. intros mred Hmred.
    wc (@wp_householder (n - g) (n - g)) hred Hhred; [destruct hess; lia|].
    wc (@wp_augm (n - g) n) h5 Hh5.
    wc (@wp_mult T N bc OF n n n) r25 Hr25. wc (@wp_mult T N bc OF n n n) h25 Hh25.
    wc (@wp_copy T N bc OF n n) qt5 Hqt5. destruct hess.
    + wc (@wp_mult T N bc OF n n n) hess5 Hhess5. wc (@wp_copy T N bc OF n n) r5 Hr5.
      rewrite (ism_rest H6) in Hr5. cbn [wp].
      split; [|split; [|split; [|split; [|split]]]]; eauto using ism_room.
    + wc (@wp_copy T N bc OF n n) r5 Hr5. rewrite (ism_rest H6) in Hr5. cbn [wp].
      split; [|split; [|split; [|split; [|split]]]]; eauto using ism_room.
  - intros (((((h4 & qt4) & r4) & r24) & h24) & hess4) (H4 & (t & H5) & H6 & H7 & H8 & H9).
    wc (@wp_trans T N bc OF n n) q5 Hq5. split; [reflexivity|]. now split.
Qed.

Lemma wp_qrd_iter n tl m mo iter : 1 <= n -> ism n n tl m -> room n n mo ->
  WP (code0 (ism n n (rest mo))) (mtx_qrd_iter bc m mo iter).
Proof.
  intros Hn H Hm. destruct (ism_isb H) as (Hr & Hc & _). unfold mtx_qrd_iter. rewrite Hr.
  wc (@wp_copy T N bc OF n n) mo1 H1. cbn [Z.eqb negb]. set (t := rest mo) in *. clearbody t.
  eapply wp_bind; [apply (@wp_for0 NR OF _ (fun s => let '(mo, q, r) := s in
     ism n n t mo /\ room n n q /\ room n n r))|].
  - split; [exact H1|split; apply room_def].
  - intros i ((mo2 & q) & r) Hi (H2 & H3 & H4).
    eapply wp_bind; [eapply wp_qrd; eauto|]. intros (rc & (q5 & r5)) (_ & H5 & H6). cbn [fst snd] in *.
    wc (@wp_mult T N bc OF n n n) mo3 H7. rewrite (ism_rest H2) in H7. cbn [wp]. eauto using ism_room.
  - intros ((mo2 & q) & r) (H2 & _). split; [reflexivity|exact H2].
Qed.

(** ** Eigenvalues *)

Lemma wp_is_sym n tl m : ism n n tl m -> WP (fun _ => True) (mtx_is_sym bc m).
Proof.
  intros H. destruct (ism_isb H) as (Hr & Hc & _). unfold mtx_is_sym. rewrite Hr, Hc.
  eapply wp_bind; [eapply wp_for_exit with (P := fun _ => True) (Q := fun _ => True); auto|].
  - intros i s Hi _. apply wp_for_exit with (P := fun _ => True); auto. intros j (a & b) Hj _.
    wb (@wp_lget T N bc OF n n). intros y (av & ->). wb (@wp_lget T N bc OF n n). intros y (bv & ->).
    cbn [bind lval]. destruct (_ || _); exact I.
  - intros [s|b] _; exact I.
Qed.

Lemma wp_eig_scan n t mo : 1 <= n -> ism n n t mo -> forall fuel g vb real d sd,
  n <= fuel + g -> real <= g -> isb n vb ->
  WP (fun s => let '(vb', real', _, _) := s in isb n vb' /\ real' < n) (eig_scan bc fuel mo n g (vb, real, d, sd))
  \/ n <= real.
Proof.
  intros Hn H. induction fuel as [|fuel IH]; intros g vb real d sd Hf Hg Hb;
    (destruct (Nat.le_gt_cases n real); [now right|left]); cbn [eig_scan].
  - rewrite (proj2 (Nat.ltb_ge g (n - 1))) by lia. now split.
  - destruct (Nat.ltb_spec g (n - 1)); [|now split].
    wb (@wp_lget T N bc OF n n). intros z (zv & ->). cbn [bind lval].
    destruct (is_big zv).
    + destruct (IH (g + 2) vb real d (Some zv)) as [I1|I1]; auto; lia.
    + wb (@wp_lget T N bc OF n n). intros y (yv & ->). cbn [bind lval].
      eapply wp_bind; [apply (@wp_wr T N OF n); [exact Hb|lia]|]. intros vb' (Hb' & _).
      destruct (IH (g + 1) vb' (S real) (Some yv) (Some zv)) as [I1|I1]; auto; lia.
Qed.

Lemma wp_eigenvalues fuel n tl (row col : T) m v iter : 2 <= n -> ism n n tl m -> vsz v = n -> n <= length (vbuf v) ->
  WP (fun x => vsz (snd x) <= n /\ isb n (vbuf (snd x))) (mtx_eigenvalues bc fuel (Some row) (Some col) m v iter).
Proof.
  intros Hn H Hs Hl. destruct (ism_isb H) as (Hr & Hc & _). unfold mtx_eigenvalues. rewrite Hr. cbv zeta.
  wc (@wp_balance fuel n) mt H1. destruct H1 as (t1 & H1).
  eapply wp_bind; [eapply (@wp_qrd n); eauto using room_def; lia|]. intros (rc2 & (mo & mt2)) (_ & H2 & H3). cbn [fst snd] in *.
  wc (@wp_qrd_iter n) mo2 H4. 
  eapply wp_bind; [apply (@wp_vinit n); auto|]. intros (rc5 & v5) (_ & ((Hs5 & Hb5) & _)). cbn [snd] in *.
  eapply wp_bind; [eapply wp_is_sym; eauto|]. intros sym _. destruct sym.
  - eapply wp_bind; [apply (@wp_for0 NR OF _ (fun s => isb n (fst s))); [exact Hb5|]|].
    + intros g (vb & d) Hg Hb. cbn [fst] in Hb. wb (@wp_lget T N bc OF n n). intros y (yv & ->). cbn [bind lval].
      eapply wp_bind; [apply (@wp_wr T N OF n); [exact Hb|lia]|]. intros vb' (Hb' & _). exact Hb'.
    + intros (vb & d) Hb. cbn in *. split; [lia|exact Hb].
  - eapply wp_bind.
    { destruct (@wp_eig_scan n (rest mo) mo2 ltac:(lia) H4 n 0 (vbuf v5) 0 None None ltac:(lia) ltac:(lia) Hb5) as [I1|I1];
        [exact I1|lia]. }
    intros (((vb & real) & d) & sd) (Hb & Hrl).
    wb (@wp_lget T N bc OF n n). intros y (yv & ->). cbn [bind lval].
    eapply wp_bind with (P := fun s => isb n (fst s) /\ snd s <= n).
    { destruct (is_big yv); [split; [exact Hb|cbn; lia]|].
      wb (@wp_lget T N bc OF n n). intros z (zv & ->). cbn [bind lval].
      eapply wp_bind; [apply (@wp_wr T N OF n); [exact Hb|lia]|]. intros vb' (Hb' & _). split; [exact Hb'|cbn; lia]. }
    intros (vb6 & real6) (H6 & H7). cbn [fst snd] in *. destruct (Nat.eqb_spec real6 n) as [E|E]; cbn [negb].
    + wc (@wp_zte n) v7 H8; [split; cbn; auto|]. cbn. destruct H8 as (H8 & H9). split; [lia|exact H9].
    + cbn. split; auto.
Qed.

(** ** The orthogonal complement of n - 1 vectors *)

Lemma wp_wedge c tl m v : 1 <= c -> ism (c - 1) c tl m -> vsz v = c -> c <= length (vbuf v) ->
  WP (snd_is (fun w => vsz w = c /\ c <= length (vbuf w))) (mtx_vec_wedge bc m v).
Proof.
  intros Hc1 H Hs Hl. destruct (ism_isb H) as (Hr & Hc & _). unfold mtx_vec_wedge. rewrite Hr, Hc, Hs.
  destruct (bc && _); [now split|]. cbv zeta.
  wc (@wp_init0 T N bc OF c c) A HA. destruct (ism_isb HA) as (_ & _ & HbA).
  destruct (c * c) as [|l] eqn:El; [nia|]. rewrite <- El in *.
  eapply wp_bind; [apply (@wp_wr T N OF (c * c)); [exact HbA|lia]|]. intros ab (Hab & _).
  pose proof (isb_ism (N := N) c c Hab) as HA2. set (t := skipn (c * c) ab) in *. clearbody t.
  eapply wp_bind; [apply (@wp_for0 NR OF _ (fun s => ism c c t (fst s) /\ c <= length (snd s))); [split; [exact HA2|cbn; now rewrite fresh_length]|]|].
  - intros i (A3 & av) Hi (H3 & H4). cbn [fst snd] in *.
    wc (@wp_get_row T N bc OF (c - 1) c tl) av4 Hav. destruct Hav as (Hav & Hlav).
    wc (@wp_set_row T N bc OF c c t) A4 H5. cbn. split; [exact H5|lia].
  - intros (A3 & av) (H3 & _). cbn [fst] in H3.
    eapply wp_bind; [eapply wp_deter; eauto|]. intros x (d & ->).
    wc wp_inv Ai HAi. destruct HAi as (ti & HAi).
    wc (@wp_init0 T N bc OF c 1) b Hb. cbn [bind lval]. destruct (ism_isb Hb) as (_ & _ & Hbb).
    rewrite Nat.mul_1_r in Hbb.
    eapply wp_bind; [apply (@wp_wr T N OF c); [exact Hbb|lia]|]. intros bb (Hbb2 & _).
    rewrite <- (Nat.mul_1_r c) in Hbb2. pose proof (isb_ism (N := N) c 1 Hbb2) as Hb3.
    wc (@wp_mult T N bc OF c c 1) b4 Hb4. destruct (ism_isb Hb4) as (_ & _ & Hb5). rewrite Nat.mul_1_r in Hb5.
    wc (@wp_from_arr_v c) v6 Hv6. cbn. destruct Hv6 as (Hv6 & Hv7). split; auto. now apply isb_length in Hv7.
Qed.

End Dec.
