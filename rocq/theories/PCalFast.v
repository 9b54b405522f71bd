(** The least-squares calibration on readings that lie on an ellipsoid. *)
From Coq Require Import List Arith ZArith Bool Lia Reals Lra.
From Verif Require Import Base BaseFacts RTac SpecVec SpecReal SpecMtx SpecStat SpecDecomp SpecCal SpecGauss NumR
  MVec MMtx MDecomp MStat MCal PVec PVecR PMtx PMtxOps PMtxR PGauss PChol PCal PCalMx.
Import ListNotations.
Set Implicit Arguments.
Local Open Scope R_scope.

Section Fast.
Variables (M : nat -> nat -> R) (c : nat -> R).
Hypothesis Sy : forall i j, M i j = M j i.
Hypothesis PD : positive_definite 3 M.
Let q0 := quad_at M c (fun _ => 0).
Let kk := 1 - q0.
Let A i j := M i j / kk.
Let v i := - (A i 0%nat * c 0%nat + A i 1%nat * c 1%nat + A i 2%nat * c 2%nat).
Let cf := [A 0 0; A 1 1; A 2 2; A 0 1; A 0 2; A 1 2; v 0; v 1; v 2]%nat.

Lemma quadric_of x : kk <> 0 -> on_ellipsoid M c x ->
  bigsum 9 (fun j => nth j (quad_terms (x 0%nat) (x 1%nat) (x 2%nat)) 0 * nth j cf 0) = 1.
Proof.
  intros Hk Ho. apply Rmult_eq_reg_r with kk; auto. rewrite Rmult_1_l.
  unfold on_ellipsoid, quad_at in Ho. cbn in Ho.
  cbn [bigsum nth quad_terms cf]. unfold v, A.
  transitivity (1 - quad_at M c (fun _ => 0)); [|reflexivity]. rewrite <- Ho at 1.
  unfold quad_at. cbn [bigsum].
  rewrite (Sy 1 0), (Sy 2 0), (Sy 2 1). field. exact Hk.
Qed.

Lemma A_pd : 0 < kk -> positive_definite 3 A.
Proof.
  intros Hk x Hx. pose proof (PD x Hx) as PX.
  replace (bigsum 3 (fun a => bigsum 3 (fun b => x a * A a b * x b)))
    with (bigsum 3 (fun a => bigsum 3 (fun b => x a * M a b * x b)) * / kk)
    by (unfold A; cbn [bigsum]; field; lra).
  apply Rmult_lt_0_compat; auto. now apply Rinv_0_lt_compat.
Qed.

(** the centre is the only solution of A b = v *)
Lemma solve_centre (b : nat -> R) : 0 < kk ->
  (forall i, (i < 3)%nat -> bigsum 3 (fun j => A i j * b j) = v i) -> forall i, (i < 3)%nat -> b i = - c i.
Proof.
  intros Hk Hb i Hi.
  destruct (Req_EM_T (b i + c i) 0) as [|Nz]; [lra|]. exfalso.
  assert (P := A_pd Hk). specialize (P (fun i => b i + c i)).
  assert (E : exists i, (i < 3)%nat /\ b i + c i <> 0) by (exists i; auto). specialize (P E).
  assert (Z : forall i, (i < 3)%nat -> A i 0%nat * (b 0%nat + c 0%nat) + A i 1%nat * (b 1%nat + c 1%nat) + A i 2%nat * (b 2%nat + c 2%nat) = 0).
  { intros a Ha. specialize (Hb a Ha). cbn [bigsum] in Hb. unfold v in Hb. lra. }
  cbn [bigsum] in P.
  pose proof (Z 0%nat ltac:(lia)) as Z0. pose proof (Z 1%nat ltac:(lia)) as Z1. pose proof (Z 2%nat ltac:(lia)) as Z2.
  set (u0 := b 0%nat + c 0%nat) in *. set (u1 := b 1%nat + c 1%nat) in *. set (u2 := b 2%nat + c 2%nat) in *.
  assert (S : u0 * (A 0%nat 0%nat * u0 + A 0%nat 1%nat * u1 + A 0%nat 2%nat * u2)
            + u1 * (A 1%nat 0%nat * u0 + A 1%nat 1%nat * u1 + A 1%nat 2%nat * u2)
            + u2 * (A 2%nat 0%nat * u0 + A 2%nat 1%nat * u1 + A 2%nat 2%nat * u2) = 0)
    by (rewrite Z0, Z1, Z2; ring).
  lra.
Qed.

Theorem cal_magn_fast_ok bc r p tl me K bb :
  room 3 3 K -> (3 <= length bb)%nat -> 0 <= field_of me -> q0 < 1 ->
  (forall i, (i < r)%nat -> on_ellipsoid M c (p i)) ->
  independent_columns r 9 (design p) -> gj_clear 9 (gram r (fun _ => 1) (design p)) ->
  exists k, cal_magn_fast bc (mat_of r 3 p tl) me K (Vec 3 bb)
    = Ok (0%Z, (mat_of 3 3 k (rest K), vec_of [- c 0%nat; - c 1%nat; - c 2%nat] (skipn 3 bb)))
  /\ (forall i j, (j < i)%nat -> (i < 3)%nat -> k i j = 0)
  /\ (forall i, (i < 3)%nat -> 0 < field_of me -> 0 < k i i)
  /\ (forall i j, (i < 3)%nat -> (j < 3)%nat ->
        bigsum 3 (fun a => k a i * k a j) = field_of me * field_of me * (M i j / (1 - q0))).
Proof.
  intros HK Hb Hme Hq Ho Hi Hg. assert (Hk : 0 < kk) by (unfold kk; lra).
  pose proof HK as (Kr & Kc & _).
  destruct bb as [|o0 [|o1 [|o2 bt]]]; cbn [length] in Hb; try lia. clear Hb. cbn [skipn].
  assert (As : forall i j, A i j = A j i) by (intros; unfold A; now rewrite Sy).
  destruct (@cholesky_spec bc 3 A [] (mtx_def 3 3)) as (g & Eg & Lo & Dg & Fg); auto.
  { apply room_def. } { now apply A_pd. }
  rewrite rest_def in Eg.
  destruct (@inv_pd bc A [] (mtx_def 3 3)) as (h & Eh & Ih); auto.
  { apply room_def. } { now apply A_pd. }
  rewrite rest_def in Eh.
  exists (fun i j => g j i * field_of me). split; [|split; [|split]].
  2: { intros i j Hji Hi3. rewrite Lo by lia. ring. }
  2: { intros i Hi3 Hf. apply Rmult_lt_0_compat; auto. }
  2: { intros i j Hi3 Hj3. cbn [bigsum]. specialize (Fg i j Hi3 Hj3). cbn [bigsum] in Fg.
       fold kk. change (M i j / kk) with (A i j). rewrite <- Fg. ring. }
  unfold cal_magn_fast.
  replace (match me with Some x => x | None => flit 500 1 end) with (field_of me).
  2: { destruct me; [reflexivity|]. cbn [flit NumR field_of]. lits. lra. }
  rewrite Kr, Kc. change (mcols (mat_of r 3 p tl)) with 3%nat. cbn [vsz Nat.eqb negb orb].
  replace (field_of me <? f0)%num with false.
  2: { cbn [flt f0 NumR]. destruct (Rltb_spec (field_of me) 0); auto; lra. }
  rewrite andb_false_r.
  erewrite bind_eq.
  2: { apply quad_fit_points with (cf := cf); auto. intros i Hir. apply quadric_of; [lra|auto]. }
  cbv beta iota. change (skipn 9 (fresh 9)) with (@nil (option R)).
  do 9 (erewrite bind_eq by (apply rd_vec_of; cbn [length cf]; lia)). cbn [nth cf].
  rewrite <- (app_nil_r (cells [A 0 0; A 0 1; A 0 2; A 0 1; A 1 1; A 1 2; A 0 2; A 1 2; A 2 2]%nat)).
  rewrite (@cells_mat 3 3) by reflexivity.
  match goal with |- context [mtx_cholesky bc (mat_of 3 3 ?F []) _] =>
    replace (mat_of 3 3 F []) with (mat_of 3 3 A []) end.
  2: { apply mat_ext. intros i j Hi3 Hj3. destruct i as [|[|[|i]]], j as [|[|[|j]]]; try lia; cbn; auto. }
  erewrite bind_eq by exact Eg. cbv beta iota.
  erewrite bind_eq by (apply mtx_trans_ok; apply room_def). cbv beta iota. rewrite rest_def.
  erewrite bind_eq by apply mtx_scalar_mult_d_ok. cbv beta iota.
  erewrite bind_eq by (apply mtx_copy_ok; auto). cbv beta iota.
  erewrite bind_eq by exact Eh. cbv beta iota.
  rewrite <- (app_nil_r (cells [v 0%nat; v 1%nat; v 2%nat])). rewrite (@cells_mat 3 1) by reflexivity.
  erewrite bind_eq by (apply mtx_mult_ok; apply room_def). cbv beta iota. rewrite rest_def.
  set (x := fun i j => msum 3 _).
  assert (Ex : forall i, (i < 3)%nat -> x i 0%nat = - c i).
  { intros i Hi3. apply (@solve_centre (fun i => x i 0%nat)); auto. intros a Ha.
    unfold x, msum. cbn.
    pose proof (Ih a 0%nat Ha ltac:(lia)) as I0. pose proof (Ih a 1%nat Ha ltac:(lia)) as I1.
    pose proof (Ih a 2%nat Ha ltac:(lia)) as I2. unfold mmul in I0, I1, I2. cbn [bigsum] in I0, I1, I2.
    transitivity ((0 + A a 0%nat * h 0%nat 0%nat + A a 1%nat * h 1%nat 0%nat + A a 2%nat * h 2%nat 0%nat) * v 0%nat
       + (0 + A a 0%nat * h 0%nat 1%nat + A a 1%nat * h 1%nat 1%nat + A a 2%nat * h 2%nat 1%nat) * v 1%nat
       + (0 + A a 0%nat * h 0%nat 2%nat + A a 1%nat * h 1%nat 2%nat + A a 2%nat * h 2%nat 2%nat) * v 2%nat); [ring|].
    rewrite I0, I1, I2. unfold mid. destruct a as [|[|[|a]]]; try lia; cbn; ring. }
  cbn [vbuf].
  match goal with |- context [for_ 3 0 ?B0 ?s0] =>
    replace (for_ 3 0 B0 s0) with (Ok (Some (x 0 0) :: Some (x 1 0) :: Some (x 2 0) :: bt)%nat) by reflexivity end.
  cbn [bind]. rewrite !Ex by lia. reflexivity.
Qed.

Lemma cholesky_negative bc n f tl l : (0 < n)%nat -> room n n l ->
  (forall i j, (i < n)%nat -> (j < n)%nat -> f i j = f j i) -> f 0%nat 0%nat < 0 ->
  mtx_cholesky bc (mat_of n n f tl) l = NotReal.
Proof.
  intros Hn HR Hs Ng. pose proof HR as (Lr & Lc & _). unfold mtx_cholesky.
  change (mrows (mat_of n n f tl)) with n. change (mcols (mat_of n n f tl)) with n.
  rewrite Lr, Lc, !Nat.eqb_refl. cbn [negb orb]. rewrite andb_false_r.
  assert (ES : (if bc then chol_sym bc (mat_of n n f tl) else Ok true) = Ok true).
  { destruct (chol_sym_ok bc n f tl) as (b & -> & Hb).
    assert (b = true) by (apply Hb; auto). subst b. now destruct bc. }
  rewrite ES. cbn [bind negb].
  rewrite (@mtx_init_gen _ _ bc n n l (Some (entry_fn_empty bc)) (fun _ _ => f0)) by auto.
  destruct n as [|n]; [lia|]. cbn [for_ bind]. rewrite lget_mat by lia. cbn [bind lval].
  replace (fsqrt (f 0%nat 0%nat - f0)%num) with (@NotReal R); [reflexivity|].
  cbn [fsqrt fsub f0 NumR]. unfold Rsqrto. destruct (Rle_dec 0 (f 0%nat 0%nat - 0)); auto; lra.
Qed.

(** the origin is outside the ellipsoid *)
Theorem cal_magn_fast_outside bc r p tl me K bb :
  room 3 3 K -> 0 <= field_of me -> 1 < q0 ->
  (forall i, (i < r)%nat -> on_ellipsoid M c (p i)) ->
  independent_columns r 9 (design p) -> gj_clear 9 (gram r (fun _ => 1) (design p)) ->
  cal_magn_fast bc (mat_of r 3 p tl) me K (Vec 3 bb) = NotReal.
Proof.
  intros HK Hme Hq Ho Hi Hg. assert (Hk : kk < 0) by (unfold kk; lra).
  pose proof HK as (Kr & Kc & _).
  assert (As : forall i j, A i j = A j i) by (intros; unfold A; now rewrite Sy).
  assert (Ng : A 0%nat 0%nat < 0).
  { pose proof (PD (fun i => if (i =? 0)%nat then 1 else 0)) as P. cbn in P.
    assert (P0 : 0 < M 0%nat 0%nat).
    { eapply Rlt_le_trans; [apply P; exists 0%nat; split; [lia|cbn; lra]|right; ring]. }
    unfold A, Rdiv. assert (I : / kk < 0) by now apply Rinv_lt_0_compat.
    assert (0 < M 0%nat 0%nat * - / kk) by (apply Rmult_lt_0_compat; lra). lra. }
  unfold cal_magn_fast.
  replace (match me with Some x => x | None => flit 500 1 end) with (field_of me).
  2: { destruct me; [reflexivity|]. cbn [flit NumR field_of]. lits. lra. }
  rewrite Kr, Kc. change (mcols (mat_of r 3 p tl)) with 3%nat. cbn [vsz Nat.eqb negb orb].
  replace (field_of me <? f0)%num with false.
  2: { cbn [flt f0 NumR]. destruct (Rltb_spec (field_of me) 0); auto; lra. }
  rewrite andb_false_r.
  erewrite bind_eq.
  2: { apply quad_fit_points with (cf := cf); auto. intros i Hir. apply quadric_of; [lra|auto]. }
  cbv beta iota. change (skipn 9 (fresh 9)) with (@nil (option R)).
  do 9 (erewrite bind_eq by (apply rd_vec_of; cbn [length cf]; lia)). cbn [nth cf].
  rewrite <- (app_nil_r (cells [A 0 0; A 0 1; A 0 2; A 0 1; A 1 1; A 1 2; A 0 2; A 1 2; A 2 2]%nat)).
  rewrite (@cells_mat 3 3) by reflexivity.
  rewrite cholesky_negative; [reflexivity|lia|apply room_def| |cbn; auto].
  intros i j Hi3 Hj3. destruct i as [|[|[|i]]], j as [|[|[|j]]]; try lia; cbn; auto.
Qed.

Lemma norm_of_corrected (k : nat -> nat -> R) m x :
  (forall i j, (i < 3)%nat -> (j < 3)%nat -> bigsum 3 (fun a => k a i * k a j) = m * (M i j / (1 - q0))) ->
  on_ellipsoid M c x ->
  bigsum 3 (fun a => bigsum 3 (fun i => k a i * (x i - c i)) * bigsum 3 (fun i => k a i * (x i - c i)))
  = m / (1 - q0).
Proof.
  intros H Ho. unfold on_ellipsoid, quad_at in Ho.
  transitivity (m / (1 - q0) * bigsum 3 (fun i => bigsum 3 (fun j => M i j * (x i - c i) * (x j - c j)))).
  2: { rewrite Ho. ring. }
  transitivity (bigsum 3 (fun i => bigsum 3 (fun j => bigsum 3 (fun a => k a i * k a j) * ((x i - c i) * (x j - c j))))).
  { cbn [bigsum]. ring. }
  rewrite bigsum_mult_l. apply bigsum_ext. intros i Hi. rewrite bigsum_mult_l. apply bigsum_ext. intros j Hj.
  rewrite H by auto. unfold Rdiv. ring.
Qed.

End Fast.
