(** The rotation matrix of a quaternion in double precision. *)
From Coq Require Import Floats.PrimFloat.
From Coq Require Import ZArith Reals Lra Lia List Bool.
From Verif Require Import Base BaseFacts NumF NumR SpecVec SpecReal SpecMtx SpecQuat SpecFlt SpecFltQuat SpecFltRot PFlt PFltSum PFltUnit PFltVar PFltQuat PPoly PFltRot PQuatRot PFltChol.
From Verif Require Import MVec MMtx MQuat PVec PVecR PMtx PQuat.
Import ListNotations.
Open Scope R_scope.

(** ** Expressions of moderate numbers are finite *)
Fixpoint bnd (e : pexp) : R :=
  match e with PV _ => 2 | PA a b | PS a b => 2 * (bnd a + bnd b) | PM a b => 2 * (bnd a * bnd b) end.

Lemma bnd_ge e : 2 <= bnd e.
Proof. induction e; cbn [bnd]; try lra. nra. Qed.

Lemma poly_moderate e : leaves e (fun x => finite x /\ Rabs (FR x) <= 2) -> bnd e <= big ->
  finite (machine e) /\ Rabs (FR (machine e)) <= bnd e.
Proof.
  pose proof uu_pos as U. pose proof uu_small as US.
  assert (ES : eta <= 1). { unfold eta. rewrite <- Rinv_1. apply Rinv_le_contravar; [lra|]. apply pow_R1_Rle. lra. }
  induction e as [x|a Ia b Ib|a Ia b Ib|a Ia b Ib]; cbn [leaves bnd machine]; intros HL HB.
  - tauto.
  - destruct HL as (La & Lb). pose proof (bnd_ge a). pose proof (bnd_ge b).
    destruct Ia as (Fa & Ba); [auto|lra|]. destruct Ib as (Fb & Bb); [auto|lra|].
    assert (T : Rabs (FR (machine a) + FR (machine b)) <= bnd a + bnd b) by (eapply Rle_trans; [apply Rabs_triang|lra]).
    assert (F : finite (machine a + machine b)%float) by (apply add_finite; auto; lra).
    split; [exact F|]. destruct (add_err _ _ F) as (_ & _ & d & Hd & ->). rewrite Rabs_mult.
    assert (Rabs (1 + d) <= 2) by (eapply Rle_trans; [apply Rabs_triang|]; rewrite Rabs_R1; lra).
    rewrite Rmult_comm. apply Rmult_le_compat; try apply Rabs_pos; lra.
  - destruct HL as (La & Lb). pose proof (bnd_ge a). pose proof (bnd_ge b).
    destruct Ia as (Fa & Ba); [auto|lra|]. destruct Ib as (Fb & Bb); [auto|lra|].
    assert (T : Rabs (FR (machine a) - FR (machine b)) <= bnd a + bnd b).
    { unfold Rminus. eapply Rle_trans; [apply Rabs_triang|]. rewrite Rabs_Ropp. lra. }
    assert (F : finite (machine a - machine b)%float) by (apply sub_finite; auto; lra).
    split; [exact F|]. destruct (sub_err _ _ F) as (_ & _ & d & Hd & ->). rewrite Rabs_mult.
    assert (Rabs (1 + d) <= 2) by (eapply Rle_trans; [apply Rabs_triang|]; rewrite Rabs_R1; lra).
    rewrite Rmult_comm. apply Rmult_le_compat; try apply Rabs_pos; lra.
  - destruct HL as (La & Lb). pose proof (bnd_ge a). pose proof (bnd_ge b).
    destruct Ia as (Fa & Ba); [auto|nra|]. destruct Ib as (Fb & Bb); [auto|nra|].
    assert (T : Rabs (FR (machine a) * FR (machine b)) <= bnd a * bnd b).
    { rewrite Rabs_mult. apply Rmult_le_compat; auto using Rabs_pos. }
    assert (F : finite (machine a * machine b)%float) by (apply mul_finite; auto; nra).
    split; [exact F|]. destruct (mul_err _ _ F) as (_ & _ & d & e & Hd & He & ->).
    eapply Rle_trans; [apply Rabs_triang|]. rewrite Rabs_mult.
    assert (Rabs (1 + d) <= 3 / 2) by (eapply Rle_trans; [apply Rabs_triang|]; rewrite Rabs_R1; lra).
    assert (Rabs (FR (machine a) * FR (machine b)) * Rabs (1 + d) <= bnd a * bnd b * (3 / 2)) by (apply Rmult_le_compat; try apply Rabs_pos; lra).
    nra.
Qed.

Lemma big_16 : 2 ^ 16 <= big.
Proof. unfold big. apply Rle_pow; [lra|lia]. Qed.

(** ** The entries *)
Definition two : double := F_lit 20 1.
Definition one : double := F_lit 10 1.
Lemma FR_two : finite two /\ FR two = 2.
Proof. exact (FR_of_nat 2 ltac:(lia)). Qed.
Lemma FR_one : finite one /\ FR one = 1.
Proof. exact (FR_of_nat 1 ltac:(lia)). Qed.

Definition off (s : bool) (a b c d : double) : pexp :=
  PM (PV two) ((if s then PA else PS) (PM (PV a) (PV b)) (PM (PV c) (PV d))).
Definition dia (a b : double) : pexp := PS (PV one) (PM (PV two) (PA (PM (PV a) (PV a)) (PM (PV b) (PV b)))).

Lemma eta_uu : 40 * eta <= uu.
Proof.
  unfold eta, uu. apply Rle_trans with (2 ^ 6 * / 2 ^ 1075); [apply Rmult_le_compat_r; [apply Rlt_le, Rinv_0_lt_compat, pow_lt; lra|cbn; lra]|].
  replace 1075%nat with (6 + (53 + 1016))%nat by reflexivity. rewrite pow_add, Rinv_mult_distr by (apply pow_nonzero; lra).
  rewrite <- Rmult_assoc, Rinv_r, Rmult_1_l by (apply pow_nonzero; lra). apply Rinv_le_contravar; [apply pow_lt; lra|].
  apply Rle_pow; [lra|lia].
Qed.

Lemma uu_tiny : uu < / 100000.
Proof.
  unfold uu. apply Rinv_lt_contravar; [apply Rmult_lt_0_compat; [lra|apply pow_lt; lra]|].
  apply Rlt_le_trans with (2 ^ 17); [cbn; lra|apply Rle_pow; [lra|lia]].
Qed.

Lemma gam_lin k : (k <= 8)%nat -> gam k <= (INR k + / 100) * uu.
Proof.
  intros Hk. pose proof uu_pos. pose proof uu_tiny as T.
  assert (forall j, (j <= 8)%nat -> gam j <= INR j * (uu + 10 * (uu * uu))).
  { induction j as [|j IH]; intros Hj; [rewrite gam_0; cbn; lra|]. rewrite gam_S, S_INR.
    specialize (IH ltac:(lia)). assert (Hj' : INR j <= 8) by (replace 8 with (INR 8) by (cbn; lra); apply le_INR; lia). pose proof (pos_INR j).
    assert (uu * gam j <= uu * (INR j * (uu + 10 * (uu * uu)))) by (apply Rmult_le_compat_l; lra).
    assert (INR j * (uu + 10 * (uu * uu)) <= 8 * (uu + 10 * (uu * uu))) by (apply Rmult_le_compat_r; nra).
    assert (uu * (INR j * (uu + 10 * (uu * uu))) <= uu * (8 * (uu + 10 * (uu * uu)))) by (apply Rmult_le_compat_l; lra).
    assert (0 < uu * uu) by nra. assert (uu * (uu * uu) <= / 100000 * (uu * uu)) by (apply Rmult_le_compat_r; lra). nra. }
  eapply Rle_trans; [apply H0; exact Hk|].
  assert (Hj' : INR k <= 8) by (replace 8 with (INR 8) by (cbn; lra); apply le_INR; lia). pose proof (pos_INR k).
  assert (uu * uu <= / 100000 * uu) by (apply Rmult_le_compat_r; lra). 
  assert (INR k * (uu * uu) <= 8 * (/ 100000 * uu)) by (apply Rmult_le_compat; nra). lra.
Qed.

Lemma off_err s a b c d N :
  (forall x, In x [a; b; c; d] -> finite x /\ Rabs (FR x) <= 2) ->
  2 * (Rabs (FR a * FR b) + Rabs (FR c * FR d)) <= N -> N <= 1 + / 1000 ->
  finite (machine (off s a b c d)) /\ Rabs (FR (machine (off s a b c d)) - exactv (off s a b c d)) <= 4 * uu.
Proof.
  intros HL HN HN1. pose proof big_16 as B. destruct FR_two as (F2 & E2). pose proof uu_pos as U. pose proof eta_pos as ET.
  assert (P : forall x, In x [a; b; c; d] -> finite x /\ Rabs (FR x) <= 2) by exact HL.
  destruct (poly_moderate (off s a b c d)) as (F & _).
  { unfold off. destruct s; cbn [leaves]; rewrite E2, (Rabs_pos_eq 2) by lra; repeat split; try exact F2; try lra; apply P; cbn; tauto. }
  { unfold off. destruct s; cbn [bnd]; cbn in B |- *; lra. }
  split; [exact F|]. eapply Rle_trans; [apply poly_err; exact F|].
  assert (M : mag (off s a b c d) <= N).
  { unfold off. destruct s; cbn [mag]; rewrite E2, (Rabs_pos_eq 2), <- !Rabs_mult by lra; exact HN. }
  assert (O : ops (off s a b c d) = 3%nat) by (unfold off; now destruct s).
  assert (Un : under (off s a b c d) = (1 + uu) * (2 * ((1 + uu) * (eta + eta))) + eta).
  { unfold off. destruct s; cbn [under ops mag]; rewrite E2, gam_0, (Rabs_pos_eq 2) by lra; ring. }
  rewrite O, Un. pose proof (gam_lin 3 ltac:(lia)) as G. cbn [INR] in G. pose proof (gam_nonneg 3). pose proof (mag_nonneg (off s a b c d)).
  pose proof eta_uu. pose proof uu_tiny.
  assert (gam 3 * mag (off s a b c d) <= ((1 + 1 + 1 + / 100) * uu) * (1 + / 1000)) by (apply Rmult_le_compat; lra).
  assert ((1 + uu) * (2 * ((1 + uu) * (eta + eta))) <= 8 * eta) by (assert (uu * eta <= / 100000 * eta) by (apply Rmult_le_compat_r; lra); assert (uu * (uu * eta) <= uu * (/ 100000 * eta)) by (apply Rmult_le_compat_l; lra); nra). lra.
Qed.

Lemma dia_err a b N :
  (forall x, In x [a; b] -> finite x /\ Rabs (FR x) <= 2) ->
  FR a * FR a + FR b * FR b <= N -> N <= 1 + / 1000 ->
  finite (machine (dia a b)) /\ Rabs (FR (machine (dia a b)) - exactv (dia a b)) <= 13 * uu.
Proof.
  intros P HN HN1. pose proof big_16 as B. destruct FR_two as (F2 & E2). destruct FR_one as (F1 & E1). pose proof uu_pos as U. pose proof eta_pos as ET.
  destruct (poly_moderate (dia a b)) as (F & _).
  { unfold dia. cbn [leaves]. rewrite E2, E1, (Rabs_pos_eq 2), (Rabs_pos_eq 1) by lra. repeat split; try exact F2; try exact F1; try lra; apply P; cbn; tauto. }
  { unfold dia. cbn [bnd]; cbn in B |- *; lra. }
  split; [exact F|]. eapply Rle_trans; [apply poly_err; exact F|].
  assert (M : mag (dia a b) <= 1 + 2 * N).
  { unfold dia. cbn [mag]. rewrite E2, E1, (Rabs_pos_eq 2), (Rabs_pos_eq 1), <- !Rabs_mult by lra.
    rewrite !Rabs_pos_eq by apply Rle_0_sqr. lra. }
  change (ops (dia a b)) with 4%nat.
  assert (Un : under (dia a b) = (1 + uu) * ((1 + uu) * (2 * ((1 + uu) * (eta + eta))) + eta)).
  { unfold dia. cbn [under ops mag]. rewrite E2, gam_0, (Rabs_pos_eq 2) by lra. ring. }
  rewrite Un. pose proof (gam_lin 4 ltac:(lia)) as G. cbn [INR] in G. pose proof (gam_nonneg 4). pose proof (mag_nonneg (dia a b)).
  pose proof eta_uu. pose proof uu_tiny.
  assert (gam 4 * mag (dia a b) <= ((1 + 1 + 1 + 1 + / 100) * uu) * (3 + / 500)) by (apply Rmult_le_compat; lra).
  assert (Q : (1 + uu) * (2 * ((1 + uu) * (eta + eta))) <= 8 * eta) by (assert (uu * eta <= / 100000 * eta) by (apply Rmult_le_compat_r; lra); assert (uu * (uu * eta) <= uu * (/ 100000 * eta)) by (apply Rmult_le_compat_l; lra); nra).
  assert ((1 + uu) * ((1 + uu) * (2 * ((1 + uu) * (eta + eta))) + eta) <= 2 * (9 * eta)) by (apply Rmult_le_compat; nra). lra.
Qed.

(** ** The matrix *)
Definition fm (q : quat double) (a b : nat) : double :=
  let r := qr q in let i := qi q in let j := qj q in let k := qk q in
  machine (match a, b with
  | 0, 0 => dia j k | 0, 1 => off false i j k r | 0, _ => off true i k j r
  | 1, 0 => off true i j k r | 1, 1 => dia i k | 1, _ => off false j k i r
  | _, 0 => off false i k j r | _, 1 => off true j k i r | _, _ => dia i j
  end)%nat.

Lemma rot_mtx_F bc q (m : mtx double) : room 3 3 m -> quat_to_rot_mtx bc q m = Ok (0%Z, mat_of 3 3 (fm q) (rest m)).
Proof.
  intros (Hr & Hc & Hl). destruct m as [r c d]. cbn in Hr, Hc, Hl. subst r c.
  do 9 (destruct d as [|? d]; [cbn in Hl; lia|]). clear Hl. destruct q as [w x y z].
  destruct bc; reflexivity.
Qed.

Lemma sq_bound x N : x * x <= N -> N <= 1 + / 1000 -> Rabs x <= 2.
Proof. intros H H1. rewrite <- (Rabs_pos_eq 2) by lra. apply Rsqr_le_abs_0. unfold Rsqr. lra. Qed.

Lemma mat_err q : near_unit q -> forall a b, (a < 3)%nat -> (b < 3)%nat ->
  finite (fm q a b) /\ Rabs (FR (fm q a b) - rotm (qscale (/ qnorm (FQ q)) (FQ q)) a b) <= 31 * uu.
Proof.
  intros (Fq & Hn) a b Ha Hb. destruct q as [r i j k]. unfold finite_quat in Fq. cbn [qr qi qj qk] in Fq. destruct Fq as (Fr & Fi & Fj & Fk).
  pose proof uu_pos as U. pose proof uu_tiny as UT.
  set (N := norm2 (Quat r i j k)) in *. set (T := / qnorm (FQ (Quat r i j k))).
  assert (HN1 : - (9 * uu) <= N - 1 <= 9 * uu) by (unfold Rabs in Hn; destruct Rcase_abs in Hn; lra). destruct HN1 as (HN1 & HN2).
  assert (EN : N = FR r * FR r + FR i * FR i + FR j * FR j + FR k * FR k) by reflexivity.
  assert (TT : T * T = / N).
  { unfold T. rewrite <- Rinv_mult_distr.
    - f_equal. unfold qnorm. rewrite sqrt_sqrt; [unfold FQ, qdot, re, im, vdot; cbn [qr qi qj qk]; rewrite EN; ring|].
      unfold FQ, qdot, re, im, vdot; cbn [qr qi qj qk]. nra.
    - unfold qnorm. apply Rgt_not_eq, sqrt_lt_R0. unfold FQ, qdot, re, im, vdot; cbn [qr qi qj qk]. lra.
    - unfold qnorm. apply Rgt_not_eq, sqrt_lt_R0. unfold FQ, qdot, re, im, vdot; cbn [qr qi qj qk]. lra. }
  pose proof (Rle_0_sqr (FR r)) as S1. pose proof (Rle_0_sqr (FR i)) as S2. pose proof (Rle_0_sqr (FR j)) as S3. pose proof (Rle_0_sqr (FR k)) as S4.
  unfold Rsqr in *.
  assert (B : forall x, In x [r; i; j; k] -> finite x /\ Rabs (FR x) <= 2).
  { cbn [In]. intros x [<-|[<-|[<-|[<-|[] ] ] ] ]; (split; [assumption|]); apply (@sq_bound _ N); lra. }
  assert (NT : Rabs (N * (/ N - 1)) <= 9 * uu).
  { replace (N * (/ N - 1)) with (- (N - 1)) by (field; lra). now rewrite Rabs_Ropp. }
  (* off the diagonal *)
  assert (OFF : forall s x y z w, In x [r; i; j; k] -> In y [r; i; j; k] -> In z [r; i; j; k] -> In w [r; i; j; k] ->
     2 * (Rabs (FR x * FR y) + Rabs (FR z * FR w)) <= N ->
     finite (machine (off s x y z w)) /\
     Rabs (FR (machine (off s x y z w)) - 2 * (if s then FR x * FR y + FR z * FR w else FR x * FR y - FR z * FR w) * (T * T)) <= 31 * uu).
  { intros s x y z w Ix Iy Iz Iw H2.
    destruct (@off_err s x y z w N) as (F & E); auto; [|lra|].
    { cbn [In]. intros v [<-|[<-|[<-|[<-|[] ] ] ] ]; auto. }
    split; [exact F|]. set (m := FR (machine (off s x y z w))) in *.
    assert (EX : exactv (off s x y z w) = 2 * (if s then FR x * FR y + FR z * FR w else FR x * FR y - FR z * FR w)).
    { unfold off. destruct s; cbn [exactv]; rewrite (proj2 FR_two); reflexivity. }
    rewrite EX in E. set (X := 2 * (if s then FR x * FR y + FR z * FR w else FR x * FR y - FR z * FR w)) in *.
    assert (BX : Rabs X <= N).
    { unfold X. rewrite Rabs_mult, (Rabs_pos_eq 2) by lra. eapply Rle_trans; [|exact H2]. apply Rmult_le_compat_l; [lra|].
      destruct s; [apply Rabs_triang|]. unfold Rminus. eapply Rle_trans; [apply Rabs_triang|]. rewrite Rabs_Ropp. lra. }
    rewrite TT. replace (m - X * / N) with ((m - X) + - (X * (/ N - 1))) by ring.
    eapply Rle_trans; [apply Rabs_triang|]. rewrite Rabs_Ropp, Rabs_mult.
    rewrite Rabs_mult, (Rabs_pos_eq N) in NT by lra.
    assert (Rabs X * Rabs (/ N - 1) <= N * Rabs (/ N - 1)) by (apply Rmult_le_compat_r; [apply Rabs_pos|exact BX]). lra. }
  assert (DIA : forall x y, In x [r; i; j; k] -> In y [r; i; j; k] -> FR x * FR x + FR y * FR y <= N ->
     finite (machine (dia x y)) /\ Rabs (FR (machine (dia x y)) - (1 - 2 * (FR x * FR x + FR y * FR y) * (T * T))) <= 31 * uu).
  { intros x y Ix Iy H2. destruct (@dia_err x y N) as (F & E); auto; [|lra|].
    { cbn [In]. intros v [<-|[<-|[] ] ]; auto. }
    split; [exact F|]. set (m := FR (machine (dia x y))) in *.
    assert (EX : exactv (dia x y) = 1 - 2 * (FR x * FR x + FR y * FR y)).
    { unfold dia. cbn [exactv]. rewrite (proj2 FR_two), (proj2 FR_one). reflexivity. }
    rewrite EX in E. set (X := FR x * FR x + FR y * FR y) in *.
    assert (PX : 0 <= X) by (unfold X; pose proof (Rle_0_sqr (FR x)); pose proof (Rle_0_sqr (FR y)); unfold Rsqr in *; lra).
    rewrite TT. replace (m - (1 - 2 * X * / N)) with ((m - (1 - 2 * X)) + 2 * (X * (/ N - 1))) by ring.
    eapply Rle_trans; [apply Rabs_triang|]. rewrite (Rabs_mult 2), (Rabs_pos_eq 2), (Rabs_mult X), (Rabs_pos_eq X) by lra.
    rewrite Rabs_mult, (Rabs_pos_eq N) in NT by lra.
    assert (X * Rabs (/ N - 1) <= N * Rabs (/ N - 1)) by (apply Rmult_le_compat_r; [apply Rabs_pos|exact H2]). lra. }
  assert (PR : forall x y z w, 2 * (Rabs (x * y) + Rabs (z * w)) <= x * x + y * y + z * z + w * w).
  { intros x y z w. rewrite !Rabs_mult.
    assert (forall u v, 2 * (Rabs u * Rabs v) <= u * u + v * v).
    { intros u v. rewrite <- (Rabs_pos_eq (u * u)), <- (Rabs_pos_eq (v * v)) by apply Rle_0_sqr. rewrite !Rabs_mult.
      pose proof (Rle_0_sqr (Rabs u - Rabs v)). unfold Rsqr in *. lra. }
    pose proof (H x y). pose proof (H z w). lra. }
  unfold fm. cbn [qr qi qj qk]. destruct a as [|[|[|a] ] ]; [| | |lia]; (destruct b as [|[|[|b] ] ]; [| | |lia]).
  all: match goal with
  | |- context [dia ?x ?y] => destruct (DIA x y) as (F & E); [cbn; tauto|cbn; tauto|lra|]
  | |- context [off ?s ?x ?y ?z ?w] => destruct (OFF s x y z w) as (F & E);
      [cbn; tauto|cbn; tauto|cbn; tauto|cbn; tauto|pose proof (PR (FR x) (FR y) (FR z) (FR w)); lra|] end.
  all: split; [exact F|]; cbv iota in E; eapply Rle_trans; [|exact E]; apply Req_le, f_equal, f_equal.
  all: unfold rotm, coord, basis, rotate, qscale, FQ, mkq, re, im, vadd, vscale, vcross; cbn [qr qi qj qk]; fold T; ring.
Qed.
