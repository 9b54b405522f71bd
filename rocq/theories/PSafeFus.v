(** Safety of the quaternion functions and the fusion filters in any
    arithmetic: weakest preconditions. *)
From Coq Require Import List Arith ZArith Bool Lia.
From Verif Require Import Base BaseFacts Libm Out SpecVec SpecMtx SpecSafe MVec MMtx MDecomp MStat MQuat MAhrs MFusion
  PVec PMtx PMtxOps PSafe PSafeMx PSafeQr.
Import ListNotations.
Set Implicit Arguments.
Local Open Scope num_scope.

Section Fus.
Context {T : Type} {N : Num T} {M : NumM T}.
Variable bc : bool.
Variable OF : Prop.
Hypothesis L : lawful N.
Notation NR := (~ total N).
Notation "'WP' P m" := (wp NR OF P m) (at level 10, P at level 9, m at level 9).
Notation any := (fun _ => True).

Hypothesis Hacos : forall x : T, WP any (facos x).
Hypothesis Hasin : forall x : T, WP any (fasin x).
(** a zero is not above the threshold, nor is a quotient of a zero *)
Hypothesis Hz : (fabs f0 >? flit 1 6) = false.
Hypothesis Hzd : forall m x : T, fdiv f0 m = Ok x -> (fabs x >? flit 1 6) = false.

Ltac wb l := eapply wp_bind; [eapply l; eauto using ism_room, room_def; try lia|cbv beta].
Ltac wc l m H := eapply wp_bind; [eapply l; eauto using ism_room, room_def; try lia|
  let rc := fresh "rc" in let E := fresh "E" in
  intros (rc & m) (E & H); cbn [fst snd] in E, H; subst rc].
Ltac wd x := eapply wp_bind; [apply wp_div; exact L|intros x _].
Ltac ws x := eapply wp_bind; [apply wp_sqrt; exact L|intros x _].

(** ** Quaternions *)

Lemma wq_magn q : WP any (quat_magn q).
Proof. apply wp_sqrt. exact L. Qed.

(** the scalar part of the unit quaternion is 0 or a quotient *)
Lemma wq_unit_r q : WP (fun u => qr u = f0 \/ exists m, fdiv (qr q) m = Ok (qr u)) (quat_to_unit q).
Proof.
  unfold quat_to_unit, quat_to_unit_st.
  eapply wp_bind with (P := fun x => exists u, nth_error (snd x) 1 = Some u /\ (qr u = f0 \/ exists m, fdiv (qr q) m = Ok (qr u))).
  - cbn [bind qget nth_error]. wb wq_magn. intros m _. destruct (_ <? _).
    + cbn. eexists. split; [reflexivity|]. now left.
    + cbn [bind qget nth_error set_r set_i set_j set_k upd].
      destruct (fdiv (qr q) m) as [x| | |] eqn:E; cbn [bind]; try (pose proof (@wp_div T N OF L (qr q) m) as W; rewrite E in W; exact W).
      cbn [bind qget nth_error set_r set_i set_j set_k upd].
      wd y. cbn [bind qget nth_error set_r set_i set_j set_k upd].
      wd z. cbn [bind qget nth_error set_r set_i set_j set_k upd].
      wd t. cbn. eexists. split; [reflexivity|]. right. exists m. exact E.
  - intros (rc & st) (u & E & H). cbn [snd] in E. unfold qget. rewrite E. exact H.
Qed.
Lemma wq_unit q : WP any (quat_to_unit q).
Proof. eapply wp_imp; [apply wq_unit_r|auto]. Qed.

Lemma wq_unit_d st : WP (fun x => exists u, snd x = [u]) (quat_to_unit_d_st [st] 0).
Proof.
  unfold quat_to_unit_d_st, quat_to_unit_st. cbn [bind qget nth_error]. wb wq_magn. intros m _. destruct (_ <? _).
  - cbn. eauto.
  - cbn [bind qget nth_error set_r set_i set_j set_k upd].
    wd w. cbn [bind qget nth_error set_r set_i set_j set_k upd].
    wd y. cbn [bind qget nth_error set_r set_i set_j set_k upd].
    wd z. cbn [bind qget nth_error set_r set_i set_j set_k upd].
    wd t. cbn. eauto.
Qed.

Lemma wq_inv q : WP any (quat_inv q).
Proof.
  unfold quat_inv, quat_inv_st.
  eapply wp_bind with (P := fun x => exists u, nth_error (snd x) 1 = Some u).
  - cbn [bind qget nth_error]. wb wq_magn. intros m _. destruct (_ <? _).
    + cbn. eauto.
    + cbn [bind qget nth_error set_r set_i set_j set_k upd].
      wd w. cbn [bind qget nth_error set_r set_i set_j set_k upd].
      wd y. cbn [bind qget nth_error set_r set_i set_j set_k upd].
      wd z. cbn [bind qget nth_error set_r set_i set_j set_k upd].
      wd t. cbn. eauto.
  - intros (rc & st) (u & E). cbn [snd] in E. unfold qget. rewrite E. exact I.
Qed.

Lemma wq_mult a b : WP any (quat_mult a b).
Proof. exact I. Qed.
Lemma wq_scale q s : WP any (quat_scale q s).
Proof. exact I. Qed.

Lemma wq_rot qa qb : (fabs (qr qb) >? flit 1 6) = false -> WP any (rot_ bc qa qb).
Proof.
  intros H. unfold rot_, quat_rot. rewrite H, andb_false_r.
  eapply wp_bind with (P := fun x => exists u, snd x = Some u).
  - wb wq_unit. intros u _. wb wq_mult. intros v _. wb wq_inv. intros w _. wb wq_mult. intros x _. cbn. eauto.
  - intros (rc & o) (u & E). cbn [snd] in E. subst o. exact I.
Qed.

Lemma wq_lerp a b t : ((t <? f0) || (t >? flit 10 1)) = false -> WP (fun x => exists u, snd x = Some u) (quat_lerp bc a b t).
Proof.
  intros H. unfold quat_lerp. rewrite H, andb_false_r.
  wb wq_unit. intros u _. wb wq_unit. intros v _. wb wq_scale. intros w _. wb wq_scale. intros x _.
  wb wq_unit_d. intros (rc & st) (y & E). cbn [snd] in E. subst st. cbn. eauto.
Qed.

(** in case the interpolation is refused nothing is written *)
Lemma wq_lerp' a b t : WP any (quat_lerp bc a b t).
Proof.
  unfold quat_lerp. destruct (_ && _); [exact I|].
  wb wq_unit. intros u _. wb wq_unit. intros v _. wb wq_scale. intros w _. wb wq_scale. intros x _.
  wb wq_unit_d. intros (rc & st) (y & E). cbn [snd] in E. subst st. exact I.
Qed.

Lemma rd_isv n (v : vec T) i : isv n v -> (i < n)%nat -> WP any (rd (vbuf v) i).
Proof. intros (_ & H) Hi. eapply wp_rd; eauto. Qed.

Lemma wq_ang_vel w q t : isv 3 w ->
  WP (fun x => (snd x = None -> (t <? f0) = true) ) (quat_from_ang_vel bc w q t).
Proof.
  intros H. destruct H as (Hs & Hb). pose proof (conj Hs Hb : isv 3 w) as H.
  unfold quat_from_ang_vel. rewrite Hs, Nat.eqb_refl. cbn [negb orb].
  destruct (bc && (t <? f0)) eqn:Et. { apply andb_true_iff in Et. destruct Et as (_ & Et). cbn. auto. }
  wb rd_isv. intros x _. wb rd_isv. intros y _. wb rd_isv. intros z _.
  wb wq_unit. intros u _. wb wq_mult. intros v _.
  cbn [quat_scale_d_st quat_scale_st qget nth_error bind set_r set_i set_j set_k upd qr qi qj qk].
  wb wq_unit. intros o _. cbn. discriminate.
Qed.

Lemma wq_ang_vel_ w q t : isv 3 w -> WP any (ang_vel_ bc w q t).
Proof.
  intros H. unfold ang_vel_. eapply wp_bind; [apply wq_ang_vel; exact H|]. intros (rc & o) _. exact I.
Qed.

(** ** Sensor vectors *)

Definition iso (p : option (vec T)) : Prop := match p with None => True | Some v => isv 3 v end.
(** the readings a filter accepts: gyroscope present *)
Definition iss (s : sens) : Prop := iso (sa s) /\ iso (sm s) /\ exists g, sg s = Some g /\ isv 3 g.

Lemma iso_bad p : iso p -> bad3 p = false.
Proof. destruct p as [v|]; cbn; auto. intros (-> & _). reflexivity. Qed.

Lemma wp_valid p : iso p -> WP (fun o => match o with None => True | Some v => p = Some v /\ isv 3 v end) (valid bc p).
Proof.
  intros H. destruct p as [v|]; [|exact I]. cbn in H. unfold valid. wb (@wp_norm T N bc OF L 3 v). intros n _.
  destruct (fabs n >? _); cbn; auto.
Qed.
Lemma wp_missing p : iso p -> WP (fun b => b = false -> exists v, p = Some v /\ isv 3 v) (missing bc p).
Proof.
  intros H. destruct p as [v|]; [|discriminate]. cbn in H. unfold missing. wb (@wp_norm T N bc OF L 3 v). intros n _.
  cbn. eauto.
Qed.

Lemma wp_rd3 (v : vec T) : isv 3 v -> WP any (rd3 v).
Proof. intros H. unfold rd3. wb rd_isv. intros x _. wb rd_isv. intros y _. wb rd_isv. intros z _. exact I. Qed.

Lemma wp_period freq : WP any (period freq).
Proof. apply wp_div. exact L. Qed.

Lemma wp_dot n v w : isv n v -> isv n w -> WP (fun x => exists d, snd x = Some d) (vec_dot bc v w).
Proof.
  intros Hv Hw. destruct (isv_of Hv) as (xs & tx & Lx & ->), (isv_of Hw) as (ys & ty & Ly & ->).
  eapply wp_eq; [apply vec_dot_ok; congruence|cbn; eauto].
Qed.
Lemma wp_cross v w c : isv 3 v -> isv 3 w -> vsz c = 3%nat -> (3 <= length (vbuf c))%nat -> WP (code0 (isv 3)) (vec_cross bc v w c).
Proof.
  intros Hv Hw Hc Hl. destruct (isv_of Hv) as (xs & tx & Lx & ->), (isv_of Hw) as (ys & ty & Ly & ->).
  destruct xs as [|x1 [|x2 [|x3 [|]]]]; try discriminate Lx. destruct ys as [|y1 [|y2 [|y3 [|]]]]; try discriminate Ly.
  destruct c as [s b]. cbn in Hc, Hl. subst s. destruct b as [|c1 [|c2 [|c3 b]]]; cbn in Hl; try lia.
  eapply wp_eq; [apply vec_cross_ok|]. split; [reflexivity|]. now apply of_isv.
Qed.
Lemma wp_vadd n v w c : isv n v -> isv n w -> vsz c = n -> (n <= length (vbuf c))%nat -> WP (code0 (isv n)) (vec_add bc v w c).
Proof.
  intros Hv Hw Hc Hl. destruct (isv_of Hv) as (xs & tx & Lx & ->), (isv_of Hw) as (ys & ty & Ly & ->).
  destruct c as [s b]. cbn in Hc, Hl. subst s. unfold vec_add. rewrite <- Lx.
  eapply wp_eq; [apply vec_zip_ok; lia|]. split; [reflexivity|]. cbn [snd]. apply of_isv. rewrite map2_length; lia.
Qed.

Lemma isv3 (x y z : T) tl : isv 3 (Vec 3 (Some x :: Some y :: Some z :: tl)).
Proof. split; [reflexivity|]. exists [x; y; z], tl. now split. Qed.

Lemma isb_map (l : list T) n : length l = n -> isb n (map Some l).
Proof. intros H. exists l, []. split; auto. now rewrite app_nil_r. Qed.

(** the accelerometer stays present *)
Definition post (s s' : @sens T) : Prop := iss s' /\ (sa s <> None -> sa s' <> None).
Lemma post_refl s : iss s -> post s s.
Proof. now split. Qed.
Ltac finp := cbn [wp fst snd]; split;
  [split; [cbn [sa iso]; assumption|split; [cbn [sm iso]; assumption|cbn [sg]; eexists; split; [reflexivity||eassumption|assumption]]]
  |cbn [sa]; try discriminate; auto].

(** ** Madgwick *)

Lemma col3_ism (x y z : T) : ism 3 1 [] (col3 x y z).
Proof. apply (@isb_ism T N 3 1 [Some x; Some y; Some z]). exists [x; y; z], []. now split. Qed.

Lemma wp_gradient jt f : isb 12 jt -> ism 3 1 [] f -> WP (fun g => ism 4 1 [] g /\ isb 4 (mbuf g)) (gradient bc jt f).
Proof.
  intros Hj Hf. unfold gradient. wc (@wp_from_arr T N OF 4 3) j Hm. wc (@wp_mult T N bc OF 4 3 1) g Hg.
  cbn [wp]. split; [exact Hg|]. destruct (ism_isb Hg) as (_ & _ & H). exact H.
Qed.

Lemma wp_madg_update freq beta g grad q : isv 3 g -> isv 4 grad -> WP any (madg_update bc freq beta g grad q).
Proof.
  intros Hg Hd. unfold madg_update. wb wp_period. intros t _. wb wq_ang_vel_. intros q' _.
  wb (@rd_isv 4). intros x _. wb (@rd_isv 4). intros y _. wb (@rd_isv 4). intros z _. wb (@rd_isv 4). intros w _.
  apply wq_unit.
Qed.



Lemma wp_madgwick_imu freq beta s : iss s -> WP (fun x => post s (snd x)) (madgwick_imu bc freq beta s).
Proof.
  intros (Ha & Hm & g & Eg & Hg). unfold madgwick_imu. rewrite Eg. cbn [deref bind].
  rewrite (iso_bad _ Ha), (proj1 Hg). cbn [orb Nat.eqb negb]. rewrite andb_false_r.
  wb wq_magn. intros m _. destruct (bc && _); [apply post_refl; repeat split; eauto|].
  wb wq_unit. intros u _. wc (@wp_vinit T N OF 4) grad Hd. destruct Hd as (Hd & Hdl).
  wb wp_valid. intros [a|] Hav.
  - destruct Hav as (Ea & Hav). wc (@wp_to_unit T N bc OF L 3) a' Ha'. wb wq_rot. intros p _.
    wb wp_rd3. intros ((a0 & a1) & a2) _. eapply wp_bind; [apply wp_gradient; [apply isb_map; reflexivity|apply col3_ism]|].
    intros jtf (_ & Hj). eapply wp_bind; [apply (@wp_from_arr_v T N OF 4); [apply Hd|rewrite Hdl; cbn; lia|exact Hj]|].
    intros (rc & gd) (_ & Hgd). cbn [fst snd] in Hgd. wc (@wp_to_unit T N bc OF L 4) gd' Hgd'.
    wb wp_madg_update. intros q _. finp.
  - wb wp_madg_update. intros q _. finp.
Qed.

Lemma wp_earth q incl m0 m1 m2 : WP any (earth_field bc q incl m0 m1 m2).
Proof.
  destruct incl as [i|]; unfold earth_field.
  - wd d. exact I.
  - wb wq_rot. intros h _. ws bx. exact I.
Qed.

Lemma wp_madgwick freq beta incl s : iss s -> WP (fun x => post s (snd x)) (madgwick bc freq beta incl s).
Proof.
  intros Hs. pose proof Hs as (Ha & Hm & g & Eg & Hg). unfold madgwick. rewrite Eg. cbn [deref bind].
  rewrite (iso_bad _ Ha), (iso_bad _ Hm), (proj1 Hg). cbn [orb Nat.eqb negb]. rewrite andb_false_r.
  wb wq_magn. intros mg _. destruct (bc && _); [now apply post_refl|].
  wb wp_missing. intros [|] Hmm; [now apply wp_madgwick_imu|].
  destruct (Hmm eq_refl) as (m & Em & Hm1). clear Hmm.
  wb wq_unit. intros u _. wc (@wp_vinit T N OF 4) grad Hd. destruct Hd as (Hd & Hdl).
  wb wp_valid. intros [a|] Hav.
  - destruct Hav as (Ea & Hav). wc (@wp_to_unit T N bc OF L 3) a' Ha'. rewrite Em. cbn [deref bind].
    wc (@wp_to_unit T N bc OF L 3) m' Hm'. wb wq_rot. intros p _.
    wb wp_rd3. intros ((a0 & a1) & a2) _. eapply wp_bind; [apply wp_gradient; [apply isb_map; reflexivity|apply col3_ism]|].
    intros jg (_ & Hj). wb wp_rd3. intros ((m0 & m1) & m2) _. wb wp_earth. intros (bx & bz) _.
    wb wq_rot. intros p2 _. eapply wp_bind; [apply wp_gradient; [apply isb_map; reflexivity|apply col3_ism]|].
    intros jb (_ & Hjb).
    eapply wp_bind; [apply (@wp_for0 NR OF _ (isb 4))|].
    + apply Hd.
    + intros i b Hi Hb. wb (@wp_rd T N OF 4). intros x _. wb (@wp_rd T N OF 4). intros y _.
      eapply wp_imp; [apply (@wp_wr T N OF 4); [exact Hb|lia]|]. cbn. intros b' Hb'. apply Hb'.
    + intros b Hb. assert (Hv : isv 4 (Vec 4 b)) by (split; [reflexivity|exact Hb]).
      wc (@wp_to_unit T N bc OF L 4) gd' Hgd'.
      wb wp_madg_update. intros q _. finp.
  - wb wp_madg_update. intros q _. finp.
Qed.

Lemma wp_madg_feed freq beta incl s : iss s -> WP (fun x => post s (snd x)) (madg_feed bc freq beta incl s).
Proof. intros H. unfold madg_feed. destruct (_ <? _); [now apply post_refl|]. now apply wp_madgwick. Qed.

(** ** Mahony *)

Lemma wp_feedback t c e g : isv 3 (intfb c) -> isv 3 e -> isv 3 g ->
  WP (fun x => isv 3 (intfb (fst x)) /\ isv 3 (snd x)) (feedback t c e g).
Proof.
  intros Hc He Hg. unfold feedback. wb wp_rd3. intros ((e0 & e1) & e2) _. wb wp_rd3. intros ((i0 & i1) & i2) _.
  cbv zeta. destruct Hc as (Hcs & Hcb).
  wb (@wp_wr T N OF 3). intros b1 (H1 & _). wb (@wp_wr T N OF 3). intros b2 (H2 & _).
  wb (@wp_wr T N OF 3). intros b3 (H3 & _).
  wb wp_rd3. intros ((g0 & g1) & g2) _. destruct Hg as (Hgs & Hgb).
  wb (@wp_wr T N OF 3). intros b4 (H4 & _). wb (@wp_wr T N OF 3). intros b5 (H5 & _).
  wb (@wp_wr T N OF 3). intros b6 (H6 & _). cbn. split; split; cbn; auto.
Qed.

Lemma wp_mahn_update freq g q : isv 3 g -> WP any (mahn_update bc freq g q).
Proof. intros H. unfold mahn_update. wb wp_period. intros t _. wb wq_ang_vel_. intros u _. apply wq_unit. Qed.

Definition mpost (s : @sens T) (x : Z * @sens T * @mahn_cfg T) : Prop := post s (snd (fst x)) /\ isv 3 (intfb (snd x)).

Lemma wp_mahony_imu freq c s : iss s -> isv 3 (intfb c) -> WP (mpost s) (mahony_imu bc freq c s).
Proof.
  intros Hs Hc. pose proof Hs as (Ha & Hm & g & Eg & Hg). unfold mahony_imu. rewrite Eg. cbn [deref bind].
  rewrite (iso_bad _ Ha), (proj1 Hg), (proj1 Hc). cbn [orb Nat.eqb negb]. rewrite andb_false_r.
  wb wq_magn. intros m _. destruct (bc && _); [split; [now apply post_refl|assumption]|].
  wb wp_valid. intros [a|] Hav.
  - destruct Hav as (Ea & Hav). wc (@wp_to_unit T N bc OF L 3) a' Ha'. wb wq_rot. intros p _.
    eapply wp_bind; [apply wp_cross; [exact Ha'|apply isv3|reflexivity|cbn; lia]|]. intros (rc & e) (_ & He). cbn [snd] in He.
    wb wp_period. intros t _. wb wp_feedback. intros (c' & g') (Hc' & Hg'). cbn [fst snd] in *.
    wb wp_mahn_update. intros q _. split; [|exact Hc']. finp.
  - wb wp_mahn_update. intros q _. split; [|exact Hc]. finp.
Qed.

Lemma wp_mahony freq incl c s : iss s -> isv 3 (intfb c) -> WP (mpost s) (mahony bc freq incl c s).
Proof.
  intros Hs Hc. pose proof Hs as (Ha & Hm & g & Eg & Hg). unfold mahony. rewrite Eg. cbn [deref bind].
  rewrite (iso_bad _ Ha), (iso_bad _ Hm), (proj1 Hg), (proj1 Hc). cbn [orb Nat.eqb negb]. rewrite andb_false_r.
  wb wq_magn. intros mg _. destruct (bc && _); [split; [now apply post_refl|assumption]|].
  wb wp_missing. intros [|] Hmm; [now apply wp_mahony_imu|].
  destruct (Hmm eq_refl) as (m & Em & Hm1). clear Hmm.
  wb wp_valid. intros [a|] Hav.
  - destruct Hav as (Ea & Hav). wc (@wp_to_unit T N bc OF L 3) a' Ha'. rewrite Em. cbn [deref bind].
    wc (@wp_to_unit T N bc OF L 3) m' Hm'. wb wq_rot. intros p _.
    eapply wp_bind; [apply wp_cross; [exact Ha'|apply isv3|reflexivity|cbn; lia]|]. intros (rc & e) (_ & He). cbn [snd] in He.
    wb wp_rd3. intros ((m0 & m1) & m2) _. wb wp_earth. intros (bx & bz) _. wb wq_rot. intros p2 _.
    eapply wp_bind; [apply wp_cross; [exact Hm'|apply isv3|reflexivity|cbn; lia]|]. intros (rc2 & e2) (_ & He2). cbn [snd] in He2.
    eapply wp_bind; [apply (@wp_vadd 3); [exact He|exact He2|reflexivity|cbn; lia]|]. intros (rc3 & e3) (_ & He3). cbn [snd] in He3.
    wb wp_period. intros t _. wb wp_feedback. intros (c' & g') (Hc' & Hg'). cbn [fst snd] in *.
    wb wp_mahn_update. intros q _. split; [|exact Hc']. finp.
  - wb wp_mahn_update. intros q _. split; [|exact Hc]. finp.
Qed.

Lemma wp_mahn_feed freq incl c s : iss s -> isv 3 (intfb c) -> WP (mpost s) (mahn_feed bc freq incl c s).
Proof. intros H Hc. unfold mahn_feed. destruct (_ || _); [split; [now apply post_refl|assumption]|]. now apply wp_mahony. Qed.

(** ** Complementary filter *)

Lemma wp_vcopy3 (v : vec T) : isv 3 v -> WP (code0 (isv 3)) (vec_copy (Vec 3 (fresh 3)) v).
Proof. apply (@wp_vcopy T N OF 3). Qed.

Lemma wp_from_accel v a : isv 3 v -> WP any (att_from_accel bc v a).
Proof.
  intros H. unfold att_from_accel. rewrite (proj1 H). cbn [Nat.eqb negb]. rewrite andb_false_r.
  wc wp_vcopy3 u Hu. wc (@wp_to_unit T N bc OF L 3) u' Hu'. wb (@rd_isv 3). intros x _. wb (@rd_isv 3). intros y _. wb (@rd_isv 3). intros z _.
  ws h. exact I.
Qed.
Lemma wp_from_accelmag v m a : isv 3 v -> isv 3 m -> WP any (att_from_accelmag bc v m a).
Proof.
  intros H Hm. unfold att_from_accelmag. rewrite (proj1 H), (proj1 Hm). cbn [Nat.eqb negb orb]. rewrite andb_false_r.
  wc wp_vcopy3 u Hu. wc (@wp_to_unit T N bc OF L 3) u' Hu'. wb wp_from_accel. intros (rc & t) _.
  wb (@rd_isv 3). intros x _. wb (@rd_isv 3). intros y _. wb (@rd_isv 3). intros z _. exact I.
Qed.

Lemma wp_comp_feed freq al s : (forall t, period freq = Ok t -> (t <? f0) = false) ->
  iss s -> WP (fun x => iss (snd x)) (comp_feed bc freq al s).
Proof.
  intros Hf Hs. unfold comp_feed. destruct (_ || _) eqn:Eal; [exact Hs|].
  pose proof Hs as (Ha & Hm & g & Eg & Hg). unfold fus_comp. rewrite Eg. cbn [deref bind].
  rewrite (iso_bad _ Ha), (iso_bad _ Hm), (proj1 Hg). cbn [orb Nat.eqb negb]. rewrite Eal, andb_false_r.
  wb wq_magn. intros mg _. destruct (bc && _); [exact Hs|].
  wb wq_unit. intros u _. destruct (period freq) as [t| | |] eqn:Et;
    try (pose proof (wp_period freq) as W; rewrite Et in W; exact W).
  specialize (Hf _ eq_refl). cbn [bind].
  wb wq_ang_vel. intros (rc & o) Ho. cbn [snd] in Ho. destruct o as [qw|]; [|specialize (Ho eq_refl); congruence].
  cbn [local bind]. wb wp_valid. intros mv Hmv.
  eapply wp_bind with (P := fun av => match av with None => True | Some v => sa s = Some v /\ isv 3 v end).
  { destruct mv; [now apply wp_valid|exact I]. }
  intros av Hav. destruct mv as [m|]; [destruct av as [a|]|].
  - wb wp_from_accelmag. { apply Hav. } { apply Hmv. } intros (rc2 & at_) _. cbn [att_to_euler quat_from_euler].
    wb wq_lerp'. intros (rc3 & o) _. wb wq_unit. intros q _. cbn. repeat split; cbn; eauto.
  - wb wq_unit. intros q _. cbn. repeat split; cbn; eauto.
  - wb wq_unit. intros q _. cbn. repeat split; cbn; eauto.
Qed.

(** ** SAAM *)

Lemma wp_saam_feed s : iso (sa s) -> iso (sm s) -> (bc = false \/ (sa s <> None /\ sm s <> None)) ->
  WP (fun x => iso (sa (snd x)) /\ iso (sm (snd x))) (saam_feed bc s).
Proof.
  intros Ha Hm Hn. unfold saam_feed, fus_saam.
  eapply wp_bind with (P := fun b => b = false).
  { destruct bc; [|reflexivity]. destruct Hn as [|(Na & Nm)]; [discriminate|].
    destruct (sa s) as [a|]; [|congruence]. destruct (sm s) as [m|]; [|congruence]. cbn [deref bind].
    rewrite (proj1 Ha), (proj1 Hm). reflexivity. }
  intros b ->. wb wp_missing. intros [|] Hmm; [now split|]. destruct (Hmm eq_refl) as (m & Em & Hm1).
  wb wp_missing. intros [|] Hma; [now split|]. destruct (Hma eq_refl) as (a & Ea & Ha1).
  rewrite Em, Ea. cbn [deref bind]. wc (@wp_to_unit T N bc OF L 3) a' Ha'. wc (@wp_to_unit T N bc OF L 3) m' Hm'.
  wb (@wp_dot 3). intros (rc & o) (d & E). cbn [snd] in E. subst o. cbn [local bind]. ws bx.
  wb wp_rd3. intros ((a0 & a1) & a2) _. wb wp_rd3. intros ((m0 & m1) & m2) _. wb wq_unit. intros q _. split; assumption.
Qed.

(** ** AQUA *)

(** the interpolation factor is not outside 0..1 *)
Definition in01 (t : T) : Prop := ((t <? f0) || (t >? flit 10 1)) = false.
Hypothesis H01 : in01 f0.
Hypothesis Hk : forall me k al, in01 al -> (me >? flit 1 1) = true -> (me <? flit 2 1) = true ->
  fdiv (flit 2 1 - me) (flit 1 1) = Ok k -> in01 (al * k).
(** the unit of a quaternion whose scalar part is a square root is not
    opposite to the identity *)
Hypothesis Hslerp : forall h r i j k e u, fsqrt h = Ok r -> quat_to_unit quat_identity = Ok e ->
  quat_to_unit (Quat r i j k) = Ok u ->
  (fabs (qr e * qr u + qi e * qi u + qj e * qj u + qk e * qk u + flit 10 1) <? flit 1 6) = false.

Lemma wp_val A (P : A -> Prop) m : WP P m -> WP (fun a => P a /\ m = Ok a) m.
Proof. destruct m; cbn; auto. Qed.

Lemma wp_scale_down h r i j k e t : fsqrt h = Ok r -> in01 t -> WP any (scale_down bc (Quat r i j k) e t).
Proof.
  intros Hr Ht. unfold scale_down.
  eapply wp_bind with (P := fun x => exists u, snd x = Some u).
  - cbn [qr]. destruct (r >? e); [now apply wq_lerp|]. unfold quat_slerp. unfold in01 in Ht. rewrite Ht, andb_false_r. clear Ht.
    eapply wp_bind; [apply wp_val, wq_unit|]. intros e0 (_ & Ee). eapply wp_bind; [apply wp_val, wq_unit|]. intros u (_ & Eu).
    destruct (_ =? _); [cbn; eauto|]. destruct (_ =? _); [cbn; eauto|]. cbv zeta.
    destruct (_ <? _); [cbn; eauto|]. erewrite Hslerp by eassumption.
    wb Hacos. intros phi _. wd s1. wb wq_scale. intros q1 _. wd s2. wb wq_scale. intros q2 _. cbn. eauto.
  - intros (rc & o) (u & E). cbn [snd] in E. subst o. exact I.
Qed.

Lemma wp_aqua freq c s : in01 (alpha c) -> in01 (beta c) -> iss s -> WP (fun x => iss (snd x)) (fus_aqua bc freq c s).
Proof.
  intros Hal Hbe Hs. pose proof Hs as (Ha & Hm & g & Eg & Hg). unfold fus_aqua. rewrite Eg. cbn [deref bind].
  rewrite (iso_bad _ Ha), (iso_bad _ Hm), (proj1 Hg). cbn [orb Nat.eqb negb]. rewrite andb_false_r.
  wb wq_magn. intros mg _. destruct (bc && _); [exact Hs|].
  wb wq_unit. intros u _. wc (@wp_vmult T N OF 3) g' Hg'. wb wp_period. intros t _. wb wq_ang_vel_. intros q _.
  wb wp_valid. intros [a|] Hav.
  - destruct Hav as (Ea & Hav). wc (@wp_to_unit T N bc OF L 3) a' Ha'. wb wp_rd3. intros ((a0 & a1) & a2) _.
    wb wq_inv. intros qi_ _. wb wq_rot. intros qg _. wd h. eapply wp_bind; [apply wp_val, wp_sqrt; exact L|]. intros r (_ & Er).
    ws d. wd i. wd j. wb wp_scale_down. intros qa _. wb wq_mult. intros q2 _. wb wp_valid. intros [m|] Hmv.
    + destruct Hmv as (Em & Hmv). wc (@wp_to_unit T N bc OF L 3) m' Hm'. wb wp_rd3. intros ((m0 & m1) & m2) _.
      wb wq_inv. intros qi2 _. wb wq_rot. intros ql _. ws y. wd h2. eapply wp_bind; [apply wp_val, wp_sqrt; exact L|]. intros r2 (_ & Er2).
      ws d2. wd k2. wb wp_scale_down. intros qm _. wb wq_mult. intros q3 _. wb wq_unit. intros q4 _.
      cbn. repeat split; cbn; eauto; first [apply Ha'|apply Hm'].
    + wb wq_unit. intros q4 _. cbn. repeat split; cbn; eauto; apply Ha'.
  - wb wq_unit. intros q4 _. cbn. repeat split; cbn; eauto.
Qed.

Lemma wp_alpha_init ini a al : iso a -> (bc = false \/ a <> None) -> in01 al ->
  WP (fun x => in01 (snd (fst x))) (aqua_alpha_init bc ini a al).
Proof.
  intros Ha Hn Hal. unfold aqua_alpha_init.
  eapply wp_bind with (P := fun b => b = false).
  { destruct bc; [|reflexivity]. destruct Hn as [|Na]; [discriminate|]. destruct a as [a|]; [|congruence].
    cbn [deref bind]. rewrite (proj1 Ha). reflexivity. }
  intros b ->. eapply wp_bind with (P := any).
  { destruct a as [a|]; [|exact I]. change (vec_norm_opt bc (Some a)) with (vec_norm bc a). now apply (@wp_norm T N bc OF L 3). }
  intros n _. cbv zeta. wd me. eapply wp_bind with (P := in01).
  - destruct (_ >=? _); [exact H01|]. destruct (_ && _) eqn:E; [|exact Hal]. apply andb_true_iff in E. destruct E as (E1 & E2).
    eapply wp_bind; [apply wp_val, wp_div; exact L|]. intros k (_ & Ek). eapply Hk; eassumption.
  - intros al' H. exact H.
Qed.

Lemma in01_feed (c : aqua_cfg) :
  ((alpha c <? f0) || (alpha c >? flit 10 1) || (beta c <? f0) || (beta c >? flit 10 1)) = false ->
  in01 (alpha c) /\ in01 (beta c).
Proof. intros H. unfold in01. do 3 (apply orb_false_iff in H; destruct H as (H & ?)). split; apply orb_false_iff; auto. Qed.

Lemma wp_aqua_feed freq ini c s : iss s -> (ini <> 0%Z \/ sa s <> None \/ bc = false) ->
  WP (fun x => let '(_, s', _, ini') := x in iss s' /\ (ini <> 0%Z -> ini' <> 0%Z)) (aqua_feed bc freq ini c s).
Proof.
  intros Hs Hn. unfold aqua_feed. destruct (_ || _) eqn:E; [split; auto|].
  destruct (in01_feed _ E) as (H1 & H2).
  eapply wp_bind with (P := fun x : aqua_cfg * Z => in01 (alpha (fst x)) /\ in01 (beta (fst x)) /\ (ini <> 0%Z -> snd x <> 0%Z)).
  - destruct (Z.eqb_spec ini 0) as [->|Hne].
    + eapply wp_bind; [apply wp_alpha_init; [apply Hs|tauto|exact H1]|]. intros ((rc & al) & ini') H. cbn in *. tauto.
    + cbn. tauto.
  - intros (c' & ini') (G1 & G2 & G3). cbn [fst snd] in *. wb wp_aqua. intros (rc & s') H. cbn in *. tauto.
Qed.

(** ** Kalman *)

Lemma wp_sub_d r c ta tb (ma mb : mtx T) : ism r c ta ma -> ism r c tb mb -> WP (code0 (ism r c ta)) (mtx_sub_d bc ma mb).
Proof.
  intros (f & ->) (g & ->).
  eapply wp_eq; [apply mtx_zip_d_ok with (h := fun i j => (f i j - g i j)%num); auto|split; [reflexivity|apply ism_mat]].
Qed.

Lemma isb_ism0 r c (l : list T) : length l = (r * c)%nat -> ism r c [] (Mtx r c (map Some l)).
Proof.
  intros H. pose proof (@isb_ism T N r c (map Some l)) as W. rewrite skipn_all2 in W by (rewrite map_length; lia).
  apply W. now apply isb_map.
Qed.

Lemma wp_kalm_F a b c d : WP (ism 4 4 []) (kalm_F a b c d).
Proof. unfold kalm_F. eapply wp_bind; [apply (@wp_from_arr T N OF 4 4); [apply room_def|apply isb_map; reflexivity]|]. intros x (_ & H). exact H. Qed.
Lemma wp_kalm_W q : WP (ism 4 3 []) (kalm_W q).
Proof. unfold kalm_W. eapply wp_bind; [apply (@wp_from_arr T N OF 4 3); [apply room_def|apply isb_map; reflexivity]|]. intros x (_ & H). exact H. Qed.

Lemma wp_kalm_predict a v F W P tl : ism 4 4 [] F -> ism 4 3 [] W -> ism 4 4 tl P -> WP (ism 4 4 tl) (kalm_predict bc a v F W P).
Proof.
  intros HF HW HP. unfold kalm_predict. pose proof (ism_rest HP) as ER.
  wc (@wp_trans T N bc OF 4 4) Ft HFt. wc (@wp_trans T N bc OF 4 3) Wt HWt.
  cbn [snd]. wc (@wp_mult T N bc OF 4 3 4) Q HQ. cbn [snd]. wc (@wp_scalar T N OF 4 4) Q2 HQ2.
  wc (@wp_mult T N bc OF 4 4 4) FP HFP. cbn [snd]. wc (@wp_mult T N bc OF 4 4 4) P2 HP2. rewrite ER in HP2. cbn [snd].
  wc (@wp_add_d T N bc OF 4 4) P3 HP3. exact HP3.
Qed.

Lemma wp_kalm_h q mg : (fabs (qr mg) >? flit 1 6) = false -> WP (ism 6 1 []) (kalm_h bc q mg).
Proof.
  intros H. unfold kalm_h. wb wq_rot. intros a2 _. wb wq_rot. intros m2 _. cbn [wp]. now apply isb_ism0.
Qed.
Lemma wp_kalm_H q mg : WP (ism 6 4 []) (kalm_H q mg).
Proof.
  unfold kalm_H. eapply wp_bind; [apply (@wp_from_arr T N OF 6 4); [apply room_def|apply isb_map; reflexivity]|].
  intros (rc & x) (_ & H). cbn [snd] in *. wc (@wp_scalar T N OF 6 4) y Hy. exact Hy.
Qed.
Lemma wp_kalm_R a b : WP (ism 6 6 []) (kalm_R bc a b).
Proof.
  unfold kalm_R. wc (@wp_init1 T N bc OF 6 6) x H. cbn [snd].
  do 6 (let y := fresh "y" in let Hy := fresh "Hy" in wc (@wp_set T N bc OF 6 6) y Hy; cbn [snd]). eassumption.
Qed.

Lemma wp_kalm_correct z h H R P tl : ism 6 1 [] z -> ism 6 1 [] h -> ism 6 4 [] H -> ism 6 6 [] R -> ism 4 4 tl P ->
  WP (fun x => ism 4 4 tl (fst x) /\ ism 4 1 [] (snd x)) (kalm_correct bc z h H R P).
Proof.
  intros Hz_ Hh HH HR HP. unfold kalm_correct. pose proof (ism_rest HP) as ER.
  wc (@wp_trans T N bc OF 6 4) Ht HHt. wc (@wp_sub T N bc OF 6 1) v Hv. wc (@wp_mult T N bc OF 6 4 4) HPm HHP. cbn [snd].
  wc (@wp_mult T N bc OF 6 4 6) HPHt HHPHt. cbn [snd]. wc (@wp_add T N bc OF 6 6) SS HS. cbn [snd].
  eapply wp_bind; [eapply (@wp_inv T N bc OF L 6); [exact HS|apply room_def]|]. intros (rc & Si) (_ & t & HSi). cbn [snd] in *.
  wc (@wp_mult T N bc OF 4 4 6) PHt' HPHt'. cbn [snd]. wc (@wp_mult T N bc OF 4 6 6) K HK. cbn [snd].
  wc (@wp_init1 T N bc OF 4 4) I4 HI. cbn [snd]. wc (@wp_mult T N bc OF 4 6 4) KH HKH. cbn [snd].
  wc (@wp_sub_d 4 4) J HJ. cbn [snd]. wc (@wp_mult T N bc OF 4 4 4) P2 HP2. rewrite ER in HP2. cbn [snd].
  wc (@wp_mult T N bc OF 4 6 1) Kv HKv. split; assumption.
Qed.

Definition full (s : @sens T) : Prop := sa s <> None /\ sm s <> None /\ sg s <> None.

Lemma wp_fus_kalman freq incl c s tl : iso (sa s) -> iso (sm s) -> iso (sg s) -> (bc = true \/ full s) -> ism 4 4 tl (kP c) ->
  WP (fun x => let '(_, s', c') := x in iso (sa s') /\ iso (sm s') /\ iso (sg s') /\ ism 4 4 tl (kP c')) (fus_kalman bc freq incl c s).
Proof.
  intros Ha Hm Hg Hf HP. unfold fus_kalman. destruct (bc && _) eqn:Eb; [cbn; tauto|].
  assert (F : full s).
  { destruct Hf as [->|F]; [|exact F]. cbn [andb] in Eb. unfold full.
    destruct (sa s), (sm s), (sg s); cbn in Eb; rewrite ?orb_true_r in Eb; try discriminate; repeat split; discriminate. }
  destruct F as (Fa & Fm & Fg). clear Eb Hf.
  destruct (sa s) as [a|]; [|congruence]. destruct (sm s) as [m|]; [|congruence]. destruct (sg s) as [g|]; [|congruence].
  cbn [iso] in *. wd if2. cbn [deref bind]. wb wp_rd3. intros ((g0 & g1) & g2) _.
  wb wp_kalm_F. intros F HF. wb wp_kalm_W. intros W HW. wb wp_kalm_predict. intros P HP'. wb wp_period. intros t _.
  wb wq_ang_vel_. intros q _. wc (@wp_to_unit T N bc OF L 3) a' Ha'. wc (@wp_to_unit T N bc OF L 3) m' Hm'.
  wb wp_rd3. intros ((a0 & a1) & a2) _. wb wp_rd3. intros ((m0 & m1) & m2) _. wb wp_earth. intros (bx & bz) _.
  eapply wp_bind; [apply wq_unit_r|]. intros mg Hmg. cbn [qr] in Hmg.
  assert (Hr : (fabs (qr mg) >? flit 1 6) = false) by (destruct Hmg as [->|(w & E)]; eauto).
  wb wp_kalm_h. intros h Hh. wb wp_kalm_H. intros H HH. wb wp_kalm_R. intros R HR.
  eapply wp_bind; [apply wp_kalm_correct; [now apply isb_ism0|eassumption..]|]. intros (P2 & Kv) (HP2 & HKv). cbn [fst snd] in *.
  destruct (ism_isb HKv) as (_ & _ & Hkb).
  wb (@wp_rd T N OF (4 * 1)). intros k0 _. wb (@wp_rd T N OF (4 * 1)). intros k1 _. wb (@wp_rd T N OF (4 * 1)). intros k2 _.
  wb (@wp_rd T N OF (4 * 1)). intros k3 _. wb wq_unit. intros q2 _. cbn. tauto.
Qed.

Lemma wp_with_sign x d : WP any (with_sign x d).
Proof. unfold with_sign. destruct (fabs d >? flit 1 6); [wd s; exact I|exact I]. Qed.

Lemma wp_from_rot m tl : ism 3 3 tl m -> WP any (quat_from_rot_mtx bc m).
Proof.
  intros H. destruct (ism_isb H) as (Hr & Hc & Hb). unfold quat_from_rot_mtx. rewrite Hr, Hc. cbn [Nat.eqb negb orb].
  rewrite andb_false_r. change (3 * 3)%nat with 9%nat in Hb.
  wb (@wp_rd T N OF 9). intros m0 _. wb (@wp_rd T N OF 9). intros m4 _. wb (@wp_rd T N OF 9). intros m8 _. cbv zeta.
  ws r. ws i. ws j. ws k.
  wb (@wp_rd T N OF 9). intros m7 _. wb (@wp_rd T N OF 9). intros m5 _. wb wp_with_sign. intros i' _.
  wb (@wp_rd T N OF 9). intros m2 _. wb (@wp_rd T N OF 9). intros m6 _. wb wp_with_sign. intros j' _.
  wb (@wp_rd T N OF 9). intros m3 _. wb (@wp_rd T N OF 9). intros m1 _. wb wp_with_sign. intros k' _. exact I.
Qed.

Lemma wp_kalm_quat_init ini a m q : iso a -> iso m -> (bc = true \/ (a <> None /\ m <> None)) ->
  WP any (kalm_quat_init bc ini a m q).
Proof.
  intros Ha Hm Hf. unfold kalm_quat_init. destruct (bc && _) eqn:Eb; [exact I|].
  assert (F : a <> None /\ m <> None).
  { destruct Hf as [->|F]; [|exact F]. cbn [andb] in Eb.
    destruct a, m; cbn in Eb; rewrite ?orb_true_r in Eb; try discriminate; split; discriminate. }
  destruct F as (Fa & Fm). clear Eb Hf. destruct a as [a|]; [|congruence]. destruct m as [m|]; [|congruence]. cbn [iso deref bind] in *.
  eapply wp_bind; [apply wp_cross; [exact Ha|exact Hm|reflexivity|cbn; lia]|]. intros (rc1 & w) (_ & Hw). cbn [snd] in Hw.
  eapply wp_bind; [apply wp_cross; [exact Hw|exact Ha|reflexivity|cbn; lia]|]. intros (rc2 & v) (_ & Hv). cbn [snd] in Hv.
  wc wp_vcopy3 u Hu. wc (@wp_to_unit T N bc OF L 3) v' Hv'. wc (@wp_to_unit T N bc OF L 3) w' Hw'. wc (@wp_to_unit T N bc OF L 3) u' Hu'.
  destruct Hv' as (_ & Bv), Hw' as (_ & Bw), Hu' as (_ & Bu).
  pose proof (room_osm (room_def (T := T) 3 3)) as H0.
  eapply wp_bind; [apply (@wp_oset_col T N bc OF 3 3 _ _ _ 0 _ H0); [lia|exact Bv]|]. intros (r3 & x1) (_ & H1). cbn [snd] in H1.
  eapply wp_bind; [apply (@wp_oset_col T N bc OF 3 3 _ _ _ 1 _ H1); [lia|exact Bw]|]. intros (r4 & x2) (_ & H2). cbn [snd] in H2.
  eapply wp_bind; [apply (@wp_oset_col T N bc OF 3 3 _ _ _ 2 _ H2); [lia|exact Bu]|]. intros (r5 & x3) (_ & H3). cbn [snd] in H3.
  assert (H4 : ism 3 3 (rest (mtx_def (T := T) 3 3)) x3) by (eapply osm_all; [exact H3|]; intros x y Hx Hy; cbv beta; lia).
  wb wp_from_rot. intros (r6 & o) _. wb wq_unit. intros q' _. exact I.
Qed.

Lemma wp_kalm_P_init ini P : room 4 4 P -> WP (fun x => ism 4 4 (rest P) (snd (fst x)) /\ snd x = 1%Z) (kalm_P_init bc ini P).
Proof.
  intros H. pose proof H as (Hr & Hc & _). unfold kalm_P_init. rewrite Hr, Hc. cbn [Nat.eqb negb orb]. rewrite andb_false_r.
  wc (@wp_init1 T N bc OF 4 4) P' HP. cbn. auto.
Qed.

(** the covariance matrix has values once the filter is initialised *)
Definition isP (ini : Z) (P : mtx T) : Prop := room 4 4 P /\ (ini <> 0%Z -> exists tl, ism 4 4 tl P).

Lemma wp_kalm_feed freq ini incl c s : iso (sa s) -> iso (sm s) -> iso (sg s) -> (bc = true \/ full s) -> isP ini (kP c) ->
  WP (fun x => let '(_, s', c', ini') := x in iso (sa s') /\ iso (sm s') /\ iso (sg s') /\ isP ini' (kP c') /\ (ini <> 0%Z -> ini' <> 0%Z))
     (kalm_feed bc freq ini incl c s).
Proof.
  intros Ha Hm Hg Hf (HR & HP). unfold kalm_feed. destruct (_ || _); [cbn; unfold isP; tauto|].
  eapply wp_bind with (P := fun x => let '(c', s', ini') := x in (exists tl, ism 4 4 tl (kP c')) /\ sa s' = sa s /\ sm s' = sm s /\
    sg s' = sg s /\ ini' <> 0%Z).
  - destruct (Z.eqb_spec ini 0) as [->|Hne].
    + eapply wp_bind; [apply wp_kalm_quat_init; auto; destruct Hf as [|(?&?&?)]; auto|]. intros ((rc & q) & ini1) _.
      eapply wp_bind; [apply wp_kalm_P_init; exact HR|]. intros ((rc2 & P) & ini2) (H1 & H2). cbn [fst snd] in *. subst ini2.
      cbn. split; [eauto|]. repeat split; discriminate.
    + cbn. split; auto.
  - intros ((c' & s') & ini') ((tl & H1) & E1 & E2 & E3 & Hi).
    assert (Hf' : bc = true \/ full s') by (unfold full in *; rewrite E1, E2, E3; exact Hf).
    wb (@wp_fus_kalman freq incl c' s' tl); try congruence. intros ((rc & s2) & c2) (G1 & G2 & G3 & G4).
    cbn. repeat split; auto. 1-3: destruct G4 as (f & ->); now apply mat_room. eauto.
Qed.

(** ** Gain search *)

Lemma wq_euler q : WP any (quat_to_euler q).
Proof.
  unfold quat_to_euler. wb wq_unit. intros u _. cbv zeta. wb Hasin. intros y _. destruct (_ || _); exact I.
Qed.

Lemma wp_cal_sample q a x y : isv 3 a -> WP any (cal_sample bc q (Some a) x y).
Proof.
  intros H. unfold cal_sample. wb wq_euler. intros (rc & e) _. wd k. cbn [deref bind]. wb wp_from_accel. intros (rc2 & t) _. exact I.
Qed.
Lemma wp_cal_total n x y : WP any (cal_total n x y).
Proof. unfold cal_total. wd a. ws b. wd c. ws d. apply wp_div. exact L. Qed.

Lemma wp_cal_rows g a m tg ta tm r j q : ism r 3 tg g -> ism r 3 ta a -> ism r 3 tm m -> (j < r)%nat ->
  WP (fun s => iss s /\ sa s <> None) (cal_rows bc g a m j q).
Proof.
  intros Hg Ha Hm Hj. unfold cal_rows.
  eapply wp_bind; [apply (@wp_get_row T N bc OF r 3 _ _ j _ Hg Hj); cbn; lia|]. intros (r1 & gb) (_ & Bg & _). cbn [fst snd] in *.
  eapply wp_bind; [apply (@wp_get_row T N bc OF r 3 _ _ j _ Ha Hj); cbn; lia|]. intros (r2 & ab) (_ & Ba & _). cbn [fst snd] in *.
  eapply wp_bind; [apply (@wp_get_row T N bc OF r 3 _ _ j _ Hm Hj); cbn; lia|]. intros (r3 & mb) (_ & Bm & _). cbn [fst snd] in *.
  cbn [wp]. split; [|discriminate]. split; [now split|split; [now split|]]. eexists. split; [reflexivity|now split].
Qed.

Lemma wp_cal_madg_error g a m tg ta tm r freq incl b : ism r 3 tg g -> ism r 3 ta a -> ism r 3 tm m ->
  WP any (cal_madg_error bc g a m freq incl b).
Proof.
  intros Hg Ha Hm. unfold cal_madg_error. destruct (ism_isb Ha) as (Er & _). rewrite Er.
  eapply wp_bind; [apply (@wp_for0 NR OF _ (fun _ => True)); [exact I|]|].
  - intros j ((q & x) & y) Hj _. eapply wp_bind; [apply (@wp_cal_rows g a m tg ta tm r); auto; lia|]. intros s (Hs & Hn).
    eapply wp_bind; [apply wp_madg_feed; exact Hs|]. intros (rc & s') (Hs' & Hn'). cbn [snd] in *. specialize (Hn' Hn).
    destruct (sa s') as [a'|] eqn:Ea; [|congruence]. destruct Hs' as (Hs' & _). rewrite Ea in Hs'. cbn in Hs'.
    wb wp_cal_sample. intros (x' & y') _. exact I.
  - intros ((q & x) & y) _. apply wp_cal_total.
Qed.

Lemma wp_cal_madg old g a m tg ta tm r f incl : ism r 3 tg g -> ism r 3 ta a -> ism r 3 tm m ->
  WP any (cal_madg bc old g a m f incl).
Proof.
  intros Hg Ha Hm. unfold cal_madg. destruct (bc && _); [exact I|]. destruct (fus_init _ _ _) as (rc & freq).
  eapply wp_bind; [apply (@wp_for0 NR OF _ (fun _ => True)); [exact I|]|].
  - intros i best _ _. wd b. wb wp_cal_madg_error. intros St _. exact I.
  - intros best _. exact I.
Qed.

Lemma wp_cal_mahn_error g a m tg ta tm r freq incl k fb : ism r 3 tg g -> ism r 3 ta a -> ism r 3 tm m -> isv 3 fb ->
  WP (fun x => isv 3 (snd x)) (cal_mahn_error bc g a m freq incl k fb).
Proof.
  intros Hg Ha Hm Hfb. unfold cal_mahn_error. destruct (ism_isb Ha) as (Er & _). rewrite Er.
  eapply wp_bind; [apply (@wp_for0 NR OF _ (fun x => isv 3 (snd x))); [exact Hfb|]|].
  - intros j (((q & x) & y) & fb') Hj Hf. cbn [snd] in Hf. eapply wp_bind; [apply (@wp_cal_rows g a m tg ta tm r); auto; lia|]. intros s (Hs & Hn).
    eapply wp_bind; [apply wp_mahn_feed; [exact Hs|exact Hf]|]. intros ((rc & s') & c') ((Hs' & Hn') & Hc'). cbn [fst snd] in *. specialize (Hn' Hn).
    destruct (sa s') as [a'|] eqn:Ea; [|congruence]. destruct Hs' as (Hs' & _). rewrite Ea in Hs'. cbn in Hs'.
    wb wp_cal_sample. intros (x' & y') _. exact Hc'.
  - intros (((q & x) & y) & fb') Hf. wb wp_cal_total. intros St _. exact Hf.
Qed.

Lemma wp_cal_mahn old g a m tg ta tm r f incl : ism r 3 tg g -> ism r 3 ta a -> ism r 3 tm m ->
  WP any (cal_mahn bc old g a m f incl).
Proof.
  intros Hg Ha Hm. unfold cal_mahn. destruct (bc && _); [exact I|]. destruct (fus_init _ _ _) as (rc & freq).
  eapply wp_bind; [apply (@wp_for0 NR OF _ (fun x => isv 3 (snd x))); [apply isv3|]|].
  - intros i (best & fb) _ Hf. cbn [snd] in Hf. wd b. wb wp_cal_mahn_error. intros (St & fb') Hf'. exact Hf'.
  - intros (best & fb) _. exact I.
Qed.

End Fus.
