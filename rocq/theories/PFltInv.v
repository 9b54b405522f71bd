(** The inverse of a 3 x 3 matrix in machine arithmetic *)
From Coq Require Import Floats.PrimFloat.
From Coq Require Import ZArith Reals Lra Lia List Bool Arith.
From Verif Require Import Base NumF NumR BaseFacts SpecMtx SpecReal SpecFlt SpecFltDet SpecFltInv MVec MMtx PMtx PMtxOps PMtxR PDet PFlt PFltSum PFltUnit PFltVar PFltDet PRgbFlt PFltStat PPoly.
Import ListNotations.
Open Scope R_scope.

Definition cell (f : nat -> nat -> double) (k : nat) : double := f (k / 3)%nat (k mod 3)%nat.
Definition picks : list ((nat * nat) * (nat * nat)) :=
  [((4, 8), (7, 5)); ((7, 2), (1, 8)); ((1, 5), (4, 2));
   ((6, 5), (3, 8)); ((0, 8), (6, 2)); ((3, 2), (0, 5));
   ((3, 7), (6, 4)); ((6, 1), (0, 7)); ((0, 4), (3, 1))]%nat.
Definition adjexp (f : nat -> nat -> double) (i j : nat) : pexp :=
  let '((a, b), (c, d)) := nth (3 * i + j) picks ((0, 0), (0, 0))%nat in
  PS (PM (PV (cell f a)) (PV (cell f b))) (PM (PV (cell f c)) (PV (cell f d))).

Section I.
Variable bc : bool.

Lemma adjoint_F (f : nat -> nat -> double) tl ma : room 3 3 ma ->
  mtx_adjoint_3x3 bc (mat_of 3 3 f tl) ma = Ok (0%Z, mat_of 3 3 (fun i j => machine (adjexp f i j)) (rest ma)).
Proof.
  intros Hm. pose proof Hm as (Hr & Hc & _). unfold mtx_adjoint_3x3. rewrite Hr, Hc.
  destruct (room_otab Hm) as (F & E). set (tm := rest ma) in *. clearbody tm. subst ma.
  change (mrows (mat_of 3 3 f tl)) with 3%nat. change (mcols (mat_of 3 3 f tl)) with 3%nat.
  unfold adjoint_3x3_st. cbn [rrows rcols mptr]. rewrite Nat.eqb_refl. cbn [negb orb].
  rewrite andb_false_r.
  assert (S9 : forall k a b c d G, (k < 9)%nat -> (a < 9)%nat -> (b < 9)%nat -> (c < 9)%nat -> (d < 9)%nat ->
    (fun (st : store double) '(k, (a, b), (c, d)) =>
      let! xa := srd st 0 a in
      let! xb := srd st 0 b in
      let! xc := srd st 0 c in
      let! xd := srd st 0 d in
      swr st 1 k (fsub (fmul xa xb) (fmul xc xd)))
    ([mbuf (mat_of 3 3 f tl); mbuf (otab 3 3 G tm)] : store double) (k, (a, b), (c, d)) =
    Ok [mbuf (mat_of 3 3 f tl);
        mbuf (otab 3 3 (fupd G (k / 3)%nat (k mod 3)%nat (Some (cell f a * cell f b - cell f c * cell f d)%float)) tm)]).
  { intros k a b c d G Hk Ha Hb Hc' Hd. cbv beta iota.
    unfold srd, swr. cbn [nth_error]. rewrite !rd_mat_flat by lia. cbn [bind].
    destruct (@flat_bounds 3 3 k) as (K1 & K2 & K3); [lia|]. rewrite K3 at 1.
    rewrite wr_otab by auto. reflexivity. }
  cbv zeta. cbv beta in S9.
  do 9 (rewrite S9 by lia; cbn [bind]).
  reflexivity.
Qed.

Definition inv3 (f : nat -> nat -> double) (i j : nat) : double :=
  (machine (adjexp f i j) * (1 / machine (det3 f)))%float.

Lemma inv3_F (f : nat -> nat -> double) tl mi : room 3 3 mi ->
  mtx_inv bc (mat_of 3 3 f tl) mi
  = Ok (0%Z, mat_of 3 3 (if PrimFloat.eqb (machine (det3 f)) zero then (fun i j => if (i =? j)%nat then one else zero) else inv3 f) (rest mi)).
Proof.
  intros Hm. pose proof Hm as (Hr & Hc & _). unfold mtx_inv. change (mrows (mat_of 3 3 f tl)) with 3%nat. cbn [Nat.eqb].
  unfold mtx_inv_3x3. rewrite Hr, Hc.
  change (mrows (mat_of 3 3 f tl)) with 3%nat. change (mcols (mat_of 3 3 f tl)) with 3%nat.
  rewrite Nat.eqb_refl. cbn [negb orb]. rewrite andb_false_r.
  assert (ED : mtx_deter_3x3 bc (mat_of 3 3 f tl) = Ok (0%Z, Some (machine (det3 f)))).
  { unfold mtx_deter_3x3. change (mrows (mat_of 3 3 f tl)) with 3%nat.
    change (mcols (mat_of 3 3 f tl)) with 3%nat. rewrite Nat.eqb_refl. cbn [negb]. rewrite andb_false_r.
    rewrite !(@rd_mat_flat double 3 3 f) by lia. reflexivity. }
  rewrite ED. cbn [bind]. change (negb (0 =? 0)%Z) with false. cbv iota.
  rewrite adjoint_F by auto. cbn [bind]. change (negb (0 =? 0)%Z) with false. cbv iota.
  cbn [lval bind]. unfold fne. cbn [feq NumF f0].
  destruct (PrimFloat.eqb (machine (det3 f)) zero); cbn [negb].
  - rewrite (@mtx_init_identity _ _ bc 3 3) by apply mat_room. rewrite mat_rest. reflexivity.
  - cbn [fdiv NumF f1 bind]. rewrite mtx_scalar_mult_d_ok. reflexivity.
Qed.
End I.

Definition cof (F : nat -> nat -> R) (i j : nat) : R :=
  F (next j) (next i) * F (next (next j)) (next (next i)) - F (next (next j)) (next i) * F (next j) (next (next i)).

Lemma adjexp_facts f i j : (i < 3)%nat -> (j < 3)%nat ->
  exactv (adjexp f i j) = cof (RM f) i j /\ mag (adjexp f i j) = abscof (RM f) i j
  /\ ops (adjexp f i j) = 2%nat /\ under (adjexp f i j) = (1 + uu) * (2 * eta).
Proof.
  intros Hi Hj. unfold cof, abscof, RM. 
  destruct i as [|[|[|]]]; [| | |lia]; (destruct j as [|[|[|]]]; [| | |lia]);
    cbn [adjexp picks nth Nat.mul Nat.add exactv mag ops under next Nat.max]; unfold cell; cbn [Nat.div Nat.modulo Nat.divmod fst snd Nat.sub];
    (split; [ring|]; split; [ring|]; split; [reflexivity|]; rewrite gam_0; ring).
Qed.

Lemma cof_mul F i j : (i < 3)%nat -> (j < 3)%nat ->
  cof F i 0%nat * F 0%nat j + cof F i 1%nat * F 1%nat j + cof F i 2%nat * F 2%nat j = (if (i =? j)%nat then sarrus F else 0).
Proof.
  intros Hi Hj. unfold cof, sarrus.
  destruct i as [|[|[|]]]; [| | |lia]; (destruct j as [|[|[|]]]; [| | |lia]); cbn [next Nat.eqb]; ring.
Qed.

Lemma cof_inverse F X i j : inverse3 F X -> (i < 3)%nat -> (j < 3)%nat -> sarrus F * X i j = cof F i j.
Proof.
  intros H Hi Hj.
  assert (E : cof F i 0%nat * (F 0%nat 0%nat * X 0%nat j + F 0%nat 1%nat * X 1%nat j + F 0%nat 2%nat * X 2%nat j)
      + cof F i 1%nat * (F 1%nat 0%nat * X 0%nat j + F 1%nat 1%nat * X 1%nat j + F 1%nat 2%nat * X 2%nat j)
      + cof F i 2%nat * (F 2%nat 0%nat * X 0%nat j + F 2%nat 1%nat * X 1%nat j + F 2%nat 2%nat * X 2%nat j)
      = sarrus F * X i j).
  { pose proof (cof_mul F i 0 Hi ltac:(lia)) as E0. pose proof (cof_mul F i 1 Hi ltac:(lia)) as E1. pose proof (cof_mul F i 2 Hi ltac:(lia)) as E2.
    transitivity ((cof F i 0%nat * F 0%nat 0%nat + cof F i 1%nat * F 1%nat 0%nat + cof F i 2%nat * F 2%nat 0%nat) * X 0%nat j
      + (cof F i 0%nat * F 0%nat 1%nat + cof F i 1%nat * F 1%nat 1%nat + cof F i 2%nat * F 2%nat 1%nat) * X 1%nat j
      + (cof F i 0%nat * F 0%nat 2%nat + cof F i 1%nat * F 1%nat 2%nat + cof F i 2%nat * F 2%nat 2%nat) * X 2%nat j); [ring|].
    rewrite E0, E1, E2. destruct i as [|[|[|]]]; [| | |lia]; cbn [Nat.eqb]; ring. }
  rewrite <- E. rewrite !H by lia. destruct j as [|[|[|]]]; [| | |lia]; cbn [Nat.eqb]; ring.
Qed.

Lemma abscof_le F A i j : (forall a b, (a < 3)%nat -> (b < 3)%nat -> Rabs (F a b) <= A) -> (i < 3)%nat -> (j < 3)%nat ->
  Rabs (cof F i j) <= abscof F i j <= 2 * A ^ 2.
Proof.
  intros H Hi Hj. assert (N : forall k, (next k < 3)%nat) by (intros [|[|]]; cbn; lia).
  unfold cof, abscof. set (a := F (next j) (next i)). set (b := F (next (next j)) (next (next i))).
  set (c := F (next (next j)) (next i)). set (d := F (next j) (next (next i))).
  assert (Ha : Rabs a <= A) by now apply H. assert (Hb : Rabs b <= A) by now apply H.
  assert (Hc : Rabs c <= A) by now apply H. assert (Hd : Rabs d <= A) by now apply H.
  split.
  - unfold Rminus. eapply Rle_trans; [apply Rabs_triang|]. rewrite Rabs_Ropp, !Rabs_mult. lra.
  - assert (Rabs a * Rabs b <= A * A) by (apply Rmult_le_compat; auto using Rabs_pos).
    assert (Rabs c * Rabs d <= A * A) by (apply Rmult_le_compat; auto using Rabs_pos). lra.
Qed.

(** one entry *)
Lemma inv3_err f A b X i j : 1 <= A ->
  (forall a b, (a < 3)%nat -> (b < 3)%nat -> Rabs (FR (f a b)) <= A) ->
  inverse3 (RM f) X -> (i < 3)%nat -> (j < 3)%nat ->
  finite (machine (det3 f)) -> Rabs (FR (machine (det3 f)) - sarrus (RM f)) <= b -> b < Rabs (sarrus (RM f)) ->
  finite (inv3 f i j) -> Rabs (FR (inv3 f i j) - X i j) <= inv_bound (RM f) A b i j.
Proof.
  intros HA HF HX Hi Hj Fd Hd Hb Fi. pose proof uu_pos as U. pose proof eta_pos as Et.
  set (D := sarrus (RM f)) in *. set (d := machine (det3 f)) in *. set (C := cof (RM f) i j). set (M := abscof (RM f) i j).
  destruct (@abscof_le (RM f) A i j HF Hi Hj) as (HC & HM). fold C M in HC, HM.
  assert (HM0 : 0 <= M) by (eapply Rle_trans; [apply Rabs_pos|exact HC]).
  assert (B0 : 0 <= b) by (eapply Rle_trans; [apply Rabs_pos|exact Hd]).
  set (dl := Rabs D - b). assert (Dl : 0 < dl) by (unfold dl; lra).
  assert (Dd : dl <= Rabs (FR d)).
  { unfold dl. pose proof (Rabs_triang_inv D (D - FR d)) as T. replace (D - (D - FR d)) with (FR d) in T by ring.
    rewrite <- Rabs_Ropp in Hd. replace (- (FR d - D)) with (D - FR d) in Hd by ring. lra. }
  assert (Nd : FR d <> 0) by (intros E; rewrite E, Rabs_R0 in Dd; lra).
  assert (ND : D <> 0) by (intros E; rewrite E, Rabs_R0 in Hb; lra).
  unfold inv3 in Fi. fold d in Fi. destruct (mul_err _ _ Fi) as (Fc & Fs & d1 & e1 & Hd1 & He1 & E1).
  destruct (div_err _ _ Nd Fs) as (_ & d2 & e2 & Hd2 & He2 & E2). change 1%float with one in E2 at 2. rewrite FR_one in E2.
  destruct (adjexp_facts f i j Hi Hj) as (Xe & Mg & Op & Un).
  pose proof (poly_err _ Fc) as Ec. rewrite Xe, Mg, Op, Un in Ec. fold C M in Ec.
  set (c := FR (machine (adjexp f i j))) in *. set (s := FR (1 / d)%float) in *.
  assert (Es : Rabs (s - / FR d) <= uu * / dl + eta).
  { replace (s - / FR d) with (/ FR d * d2 + e2) by (rewrite E2; field; exact Nd).
    eapply Rle_trans; [apply Rabs_triang|]. apply Rplus_le_compat; [|exact He2].
    rewrite Rabs_mult, Rmult_comm. apply Rmult_le_compat; auto using Rabs_pos.
    rewrite Rabs_inv. now apply Rinv_le_contravar. }
  assert (Hs : Rabs (/ FR d) <= / dl) by (rewrite Rabs_inv; now apply Rinv_le_contravar).
  pose proof (@round_prod c s C (/ FR d) M (/ dl) (gam 2) uu ((1 + uu) * (2 * eta)) eta d1 e1 Ec Es HC Hs (gam_nonneg 2) ltac:(lra) ltac:(nra) ltac:(lra) Hd1 He1) as RP.
  rewrite <- E1 in RP.
  assert (EX : X i j = C / D).
  { pose proof (@cof_inverse (RM f) X i j HX Hi Hj) as Y. fold D C in Y. rewrite <- Y. field. exact ND. }
  assert (ER : Rabs (C * / FR d - C / D) <= M * / dl * (b / Rabs D)).
  { replace (C * / FR d - C / D) with (C * / FR d * ((D - FR d) / D)) by (field; auto).
    rewrite Rabs_mult. apply Rmult_le_compat; auto using Rabs_pos.
    - rewrite Rabs_mult. apply Rmult_le_compat; auto using Rabs_pos.
    - unfold Rdiv. rewrite Rabs_mult, Rabs_inv. apply Rmult_le_compat_r; [apply Rlt_le, Rinv_0_lt_compat, Rabs_pos_lt, ND|].
      rewrite <- Rabs_Ropp. replace (- (D - FR d)) with (FR d - D) by ring. exact Hd. }
  unfold inv3. fold d. rewrite EX.
  replace (FR (machine (adjexp f i j) * (1 / d))%float - C / D) with ((FR (machine (adjexp f i j) * (1 / d))%float - C * / FR d) + (C * / FR d - C / D)) by ring.
  eapply Rle_trans; [apply Rabs_triang|]. unfold inv_bound. cbv zeta. fold D M dl.
  assert (G4 : (1 + uu) * (1 + gam 2) * (1 + uu) - 1 = gam 4) by (unfold gam; ring). rewrite G4 in RP.
  assert (Us : uu <= / 1000000) by (rewrite uu_val; lra).
  assert (Ets : eta <= / 1000000).
  { unfold eta. apply Rinv_le_contravar; [lra|]. apply Rle_trans with (2 ^ 20); [lra|]. apply Rle_pow; [lra|]. lia. }
  assert (G2 : gam 2 <= 3 * uu) by (unfold gam; cbn [pow]; nra).
  pose proof (gam_nonneg 2) as G20.
  set (w := / dl) in *. assert (W : 0 < w) by (apply Rinv_0_lt_compat; lra).
  assert (UB : (1 + uu) * ((1 + gam 2) * M * eta + (1 + uu) * (2 * eta) * ((1 + uu) * w) + (1 + uu) * (2 * eta) * eta) + eta <= 4 * (A ^ 2 + w + 1) * eta).
  { assert (T1 : (1 + uu) * (1 + gam 2) <= 2) by nra.
    assert (T2 : (1 + uu) * ((1 + uu) * (1 + uu)) <= 2) by nra.
    assert (T3 : (1 + uu) * (1 + uu) * (2 * eta) <= 1) by nra.
    assert (S1 : (1 + uu) * (1 + gam 2) * (M * eta) <= 2 * (2 * A ^ 2 * eta)).
    { apply Rmult_le_compat; try nra. }
    assert (S2 : (1 + uu) * ((1 + uu) * (1 + uu)) * (2 * eta * w) <= 2 * (2 * eta * w)).
    { apply Rmult_le_compat_r; [|exact T2]. apply Rmult_le_pos; lra. }
    assert (S3 : (1 + uu) * (1 + uu) * (2 * eta) * eta <= 1 * eta) by (apply Rmult_le_compat_r; lra).
    replace ((1 + uu) * ((1 + gam 2) * M * eta + (1 + uu) * (2 * eta) * ((1 + uu) * w) + (1 + uu) * (2 * eta) * eta) + eta)
      with ((1 + uu) * (1 + gam 2) * (M * eta) + (1 + uu) * ((1 + uu) * (1 + uu)) * (2 * eta * w) + (1 + uu) * (1 + uu) * (2 * eta) * eta + eta) by ring.
    lra. }
  change (M / dl) with (M * w).
  replace (M * w * (gam 4 + b / Rabs D)) with (gam 4 * (M * w) + M * w * (b / Rabs D)) by ring.
  lra.
Qed.
