(** Cholesky decomposition in double precision: backward error. *)
From Coq Require Import Floats.PrimFloat.
From Flocq Require Import Core Relative Plus_error IEEE754.BinarySingleNaN IEEE754.PrimFloat.
From Coq Require Import ZArith Reals Lra Lia List Bool.
From Verif Require Import Base BaseFacts NumR NumF SpecVec SpecReal SpecMtx SpecFlt MVec MMtx MDecomp PVec PMtx PMtxOps PMtxR PGram PChol PFlt PFltSum PFltUnit PPoly PRgbFlt.
Import ListNotations.
Set Implicit Arguments.
Local Open Scope R_scope.

(** ** The exact operand from the rounded result *)
Lemma uro_uu : u_ro radix2 53 = uu.
Proof. rewrite <- uu_bpow. unfold u_ro. reflexivity. Qed.

Lemma uu_small : uu < 1 / 8.
Proof. unfold uu. apply Rlt_le_trans with (/ 2 ^ 4); [apply Rinv_lt_contravar; [apply Rmult_lt_0_compat; apply pow_lt; lra|apply Rlt_pow; [lra|lia]]|cbn; lra]. Qed.

Lemma inv_eps eps : Rabs eps <= uu / (1 + uu) -> exists d, Rabs d <= uu /\ forall r f, f = r * (1 + eps) -> r = f * (1 + d).
Proof.
  intros H. pose proof uu_pos as U.
  assert (Hu : uu / (1 + uu) * (1 + uu) = uu) by (field; lra).
  assert (Hv : uu / (1 + uu) < 1) by (apply Rmult_lt_reg_r with (1 + uu); lra).
  assert (Hp : 0 < 1 + eps) by (destruct (Rabs_def2 eps 1); [lra|lra]).
  exists (- eps / (1 + eps)). split.
  - unfold Rdiv. rewrite Rabs_mult, Rabs_Ropp, (Rabs_pos_eq (/ (1 + eps))) by (apply Rlt_le, Rinv_0_lt_compat; lra).
    apply Rmult_le_reg_r with (1 + eps); [lra|]. rewrite Rmult_assoc, Rinv_l, Rmult_1_r by lra.
    destruct (Rle_dec 0 eps) as [P|P].
    + rewrite Rabs_pos_eq in H |- * by lra. nra.
    + rewrite Rabs_left in H |- * by lra. nra.
  - intros r f ->. field. lra.
Qed.

Lemma rnd_back r : exists d e, Rabs d <= uu /\ Rabs e <= eta /\ r = rnd64 r * (1 + d) + e.
Proof.
  destruct (relative_error_N_FLT'_ex radix2 (-1074) 53 eq_refl (fun x => negb (Z.even x)) r) as (eps & e & H1 & H2 & H3 & H4).
  rewrite uro_uu in H1. rewrite eta_bpow in H2. pose proof uu_pos.
  change (round radix2 (FLT_exp (-1074) 53) (Znearest (fun x => negb (Z.even x))) r) with (rnd64 r) in H4.
  destruct (Rmult_integral _ _ H3) as [Z|Z].
  - exists 0, (- e). rewrite Rabs_R0, Rabs_Ropp. repeat split; try lra. subst eps. lra.
  - destruct (@inv_eps eps H1) as (d & Hd & E). exists d, 0. rewrite Rabs_R0. pose proof eta_pos. repeat split; try lra.
    rewrite <- (E r (rnd64 r)) by lra. lra.
Qed.

Lemma sub_back x y : finite (x - y)%float ->
  finite x /\ finite y /\ exists d, Rabs d <= uu /\ FR x - FR y = FR (x - y)%float * (1 + d).
Proof.
  intros H. apply sub_rnd in H as (Fx & Fy & E). repeat split; auto.
  destruct (@FLT_plus_error_N_ex radix2 (-1074) 53 eq_refl (fun x => negb (Z.even x)) (FR x) (- FR y) (FR_format x) (format_opp _ (FR_format y)))
    as (eps & H1 & H2).
  rewrite uro_uu in H1. destruct (@inv_eps eps H1) as (d & Hd & Ed). exists d. split; [exact Hd|].
  rewrite E. apply Ed. exact H2.
Qed.

Lemma sqrt_back x : finite (PrimFloat.sqrt x) ->
  finite x /\ 0 <= FR (PrimFloat.sqrt x) /\
  exists d, Rabs d <= uu /\ FR x = FR (PrimFloat.sqrt x) * FR (PrimFloat.sqrt x) * ((1 + d) * (1 + d)).
Proof.
  intros H. pose proof uu_pos as U. pose proof uu_small as US.
  destruct (sqrt_err _ H) as (Fx & P & d0 & Hd0 & E0).
  apply sqrt_rnd in H as (_ & _ & E). split; [exact Fx|].
  set (s := sqrt (FR x)) in *. set (f := FR (PrimFloat.sqrt x)) in *.
  assert (Hs : 0 <= s) by apply sqrt_pos. assert (Ss : FR x = s * s) by (unfold s; now rewrite sqrt_sqrt).
  assert (D0 : 0 < 1 + d0) by (destruct (Rabs_def2 d0 1); lra).
  assert (Hf : 0 <= f) by (rewrite E0; apply Rmult_le_pos; lra). split; [exact Hf|].
  enough (exists d, Rabs d <= uu /\ s = f * (1 + d)) as (d & Hd & Es).
  { exists d. split; auto. rewrite Ss, Es. ring. }
  destruct (rnd_back s) as (d & e & Hd & He & Er). rewrite <- E in Er.
  destruct (Req_dec (FR x) 0) as [Z|Z].
  { exists 0. rewrite Rabs_R0. split; [lra|]. unfold s in *. rewrite Z, sqrt_0 in *. lra. }
  destruct (relative_error_N_FLT'_ex radix2 (-1074) 53 eq_refl (fun x => negb (Z.even x)) s) as (eps & e' & H1 & H2 & H3 & H4).
  rewrite uro_uu in H1. rewrite eta_bpow in H2.
  change (round radix2 (FLT_exp (-1074) 53) (Znearest (fun x => negb (Z.even x))) s) with (rnd64 s) in H4.
  rewrite <- E in H4. clear d e Hd He Er.
  destruct (Rmult_integral _ _ H3) as [Z'|Z'].
  2:{ destruct (@inv_eps eps H1) as (d & Hd & Ed). exists d. split; auto. apply Ed. lra. }
  assert (L : bpow radix2 (-1074) <= FR x).
  { apply (generic_format_ge_bpow radix2 fexp64 (-1074)); [|lra|apply FR_format].
    intros e. unfold SpecFloat.fexp, SpecFloat.emin. change (3 - FloatOps.emax - FloatOps.prec)%Z with (-1074)%Z. lia. }
  assert (Ls : bpow radix2 (-537) <= s).
  { apply Rle_trans with (sqrt (bpow radix2 (-1074))); [|apply sqrt_le_1_alt; auto].
    replace (bpow radix2 (-1074)) with (bpow radix2 (-537) * bpow radix2 (-537)) by (rewrite <- bpow_plus; reflexivity).
    rewrite sqrt_square by apply bpow_ge_0. lra. }
  assert (Big : eta <= uu * (s / 2)).
  { rewrite <- eta_bpow, <- uu_bpow. change (- FloatOps.prec + 1)%Z with (-52)%Z.
    replace (bpow radix2 (-1074)) with (bpow radix2 (-52) * bpow radix2 (-1022)) by (rewrite <- bpow_plus; reflexivity).
    assert (bpow radix2 (-1022) <= / 2 * bpow radix2 (-537)).
    { change (/ 2) with (bpow radix2 (-1)). rewrite <- bpow_plus. apply bpow_le. lia. }
    pose proof (bpow_gt_0 radix2 (-52)). nra. }
  assert (Hf2 : s / 2 <= f) by (subst eps; rewrite Rplus_0_r, Rmult_1_r in H4; destruct (Rabs_le_inv _ _ H2); nra).
  assert (Fp : 0 < f) by (pose proof (bpow_gt_0 radix2 (-537)); lra).
  exists (- e' / f). split.
  - unfold Rdiv. rewrite Rabs_mult, Rabs_Ropp, (Rabs_pos_eq (/ f)) by (apply Rlt_le, Rinv_0_lt_compat; lra).
    apply Rmult_le_reg_r with f; [lra|]. rewrite Rmult_assoc, Rinv_l, Rmult_1_r by lra. nra.
  - subst eps. replace (f * (1 + - e' / f)) with (f - e') by (field; lra). lra.
Qed.

Lemma one_more d x k : Rabs d <= uu -> Rabs (x - 1) <= gam k -> Rabs ((1 + d) * x - 1) <= gam (S k).
Proof.
  intros Hd Hx. replace ((1 + d) * x - 1) with ((1 + d) * (x - 1) + d) by ring. rewrite gam_S.
  eapply Rle_trans; [apply Rabs_triang|]. rewrite Rabs_mult.
  assert (Rabs (1 + d) <= 1 + uu) by (eapply Rle_trans; [apply Rabs_triang|]; rewrite Rabs_R1; lra).
  assert (Rabs (1 + d) * Rabs (x - 1) <= (1 + uu) * gam k) by (apply Rmult_le_compat; try apply Rabs_pos; lra). lra.
Qed.
Lemma one_rnd d : Rabs d <= uu -> Rabs (1 + d - 1) <= gam 1.
Proof. intros H. replace (1 + d - 1) with d by ring. rewrite gam_S, gam_0. lra. Qed.

(** ** Sums of products, one after the other *)
Fixpoint fsums (j : nat) (u v : nat -> double) : double :=
  match j with O => PrimFloat.zero | S k => (fsums k u v + u k * v k)%float end.

Lemma fsums_ext j u v u' v' : (forall k, (k < j)%nat -> u k = u' k) -> (forall k, (k < j)%nat -> v k = v' k) -> fsums j u v = fsums j u' v'.
Proof. induction j as [|j IH]; intros Hu Hv; cbn; auto. rewrite IH, Hu, Hv by auto. reflexivity. Qed.

Definition absdot j (u v : nat -> double) : R := bigsum j (fun k => Rabs (FR (u k)) * Rabs (FR (v k))).

Lemma absdot_nonneg j u v : 0 <= absdot j u v.
Proof. unfold absdot. induction j; cbn; [lra|]. pose proof (Rmult_le_pos _ _ (Rabs_pos (FR (u j))) (Rabs_pos (FR (v j)))). lra. Qed.

Lemma absdot_ge j u v : Rabs (bigsum j (fun k => FR (u k) * FR (v k))) <= absdot j u v.
Proof.
  unfold absdot. induction j; cbn; [rewrite Rabs_R0; lra|].
  eapply Rle_trans; [apply Rabs_triang|]. rewrite (Rabs_mult (FR (u j))). lra.
Qed.

Lemma fsums_err j u v : finite (fsums j u v) ->
  Rabs (FR (fsums j u v) - bigsum j (fun k => FR (u k) * FR (v k))) <= gam (S j) * absdot j u v + (1 + gam j) * INR j * eta.
Proof.
  pose proof uu_pos as U. pose proof eta_pos as ET.
  induction j as [|j IH]; intros H.
  - cbn [fsums bigsum]. unfold absdot. cbn [bigsum]. rewrite FR_zero, Rminus_0_r, Rabs_R0. cbn [INR]. lra.
  - cbn [fsums] in *. destruct (add_err _ _ H) as (F1 & F2 & d & Hd & ->). specialize (IH F1).
    destruct (mul_err _ _ F2) as (_ & _ & d' & e & Hd' & He & E).
    set (p := FR (u j) * FR (v j)) in *.
    assert (Ep : Rabs (FR (u j * v j)%float - p) <= uu * Rabs p + eta).
    { rewrite E. replace (p * (1 + d') + e - p) with (d' * p + e) by ring.
      eapply Rle_trans; [apply Rabs_triang|]. rewrite Rabs_mult. pose proof (Rabs_pos p). nra. }
    pose proof (round_sum _ _ _ _ _ _ _ IH Ep Hd) as HS. cbn [bigsum]. fold p.
    eapply Rle_trans; [exact HS|].
    pose proof (absdot_ge (S j) u v) as G. cbn [bigsum] in G. fold p in G.
    assert (EA : absdot (S j) u v = absdot j u v + Rabs p) by (unfold absdot; cbn [bigsum]; unfold p; now rewrite Rabs_mult).
    rewrite EA in *. pose proof (absdot_nonneg j u v) as NA. set (A := absdot j u v) in *.
    rewrite (gam_S (S j)), S_INR. pose proof (gam_nonneg j) as N1. pose proof (gam_nonneg (S j)) as N2. pose proof (Rabs_pos p) as NP.
    assert (EJ : (1 + uu) * ((1 + gam j) * INR j * eta) = (1 + gam (S j)) * INR j * eta) by (rewrite gam_S; ring).
    assert (G1 : uu <= gam (S j)) by (rewrite gam_S; nra).
    assert ((1 + uu) * (uu * Rabs p) <= (1 + uu) * (gam (S j) * Rabs p)) by (apply Rmult_le_compat_l; [lra|]; apply Rmult_le_compat_r; lra).
    assert ((1 + uu) * eta <= (1 + gam (S j)) * eta) by (apply Rmult_le_compat_r; lra).
    assert (uu * Rabs (bigsum j (fun k : nat => FR (u k) * FR (v k)) + p) <= uu * (A + Rabs p)) by (apply Rmult_le_compat_l; lra).
    lra.
Qed.

(** ** The algorithm on doubles, column by column *)
Section C.
Variable m : nat -> nat -> double.

Definition pivF (L : nat -> nat -> double) (t : nat) : double := (m t t - fsums t (L t) (L t))%float.
Definition colF (L : nat -> nat -> double) (t i : nat) : double :=
  if (i <? t)%nat then PrimFloat.zero else if (i =? t)%nat then PrimFloat.sqrt (pivF L t)
  else ((m i t - fsums t (L i) (L t)) / PrimFloat.sqrt (pivF L t))%float.
Fixpoint cholF (t : nat) : nat -> nat -> double :=
  match t with
  | O => fun _ _ => PrimFloat.zero
  | S t' => fun i j => if (j =? t')%nat then colF (cholF t') t' i else cholF t' i j
  end.

Lemma cholF_stable t j i : (j < t)%nat -> cholF t i j = cholF (S j) i j.
Proof.
  induction t as [|t IH]; intros H; [lia|].
  destruct (Nat.eq_dec j t) as [->|]; [reflexivity|].
  transitivity (cholF t i j); [|apply IH; lia].
  cbn [cholF]. destruct (Nat.eqb_spec j t); [lia|reflexivity].
Qed.

Lemma cholF_eq t c j i : (j < t)%nat -> (j < c)%nat -> cholF t i j = cholF c i j.
Proof. intros. rewrite (@cholF_stable t), (@cholF_stable c) by auto. reflexivity. Qed.

Lemma cholF_col c t i : (t < c)%nat -> cholF c i t = colF (cholF c) t i.
Proof.
  intros H. rewrite cholF_stable by auto. cbn [cholF]. rewrite Nat.eqb_refl. unfold colF, pivF.
  assert (E : forall a, forall k, (k < t)%nat -> cholF t a k = cholF c a k) by (intros; apply cholF_eq; lia).
  rewrite (@fsums_ext t (cholF t t) (cholF t t) (cholF c t) (cholF c t)) by auto.
  rewrite (@fsums_ext t (cholF t i) (cholF t t) (cholF c i) (cholF c t)) by auto. reflexivity.
Qed.

Variable n : nat.
Let L := cholF n.

Lemma LF_upper i j : (j < n)%nat -> (i < j)%nat -> L i j = PrimFloat.zero.
Proof. intros. unfold L. rewrite cholF_col by auto. unfold colF. destruct (Nat.ltb_spec i j); [auto|lia]. Qed.
Lemma LF_diag j : (j < n)%nat -> L j j = PrimFloat.sqrt (pivF L j).
Proof. intros. unfold L at 1. rewrite cholF_col by auto. unfold colF. destruct (Nat.ltb_spec j j); [lia|]. now rewrite Nat.eqb_refl. Qed.
Lemma LF_low i j : (j < i)%nat -> (i < n)%nat -> L i j = ((m i j - fsums j (L i) (L j)) / L j j)%float.
Proof.
  intros. rewrite (LF_diag (j := j)) by lia. unfold L at 1. rewrite cholF_col by lia. unfold colF.
  destruct (Nat.ltb_spec i j); [lia|]. destruct (Nat.eqb_spec i j); [lia|reflexivity].
Qed.

Lemma div_zero x y : finite y -> finite (x / y)%float -> FR y <> 0.
Proof.
  rewrite !finite_B, FR_B2R, div_equiv. destruct (Prim2B y) as [sy|sy| |sy my ey Hy]; try discriminate.
  - intros _. destruct (Prim2B x); discriminate.
  - intros _ _. cbn [B2R]. intros E. apply eq_0_F2R in E. cbn in E. destruct sy; discriminate.
Qed.

Lemma LF_entry i j : (j <= i)%nat -> (i < n)%nat -> finite (L i j) -> finite (L j j) ->
  finite (m i j) /\ 0 <= FR (L j j) /\
  Rabs (FR (m i j) - bigsum (S j) (fun k => FR (L i k) * FR (L j k)))
    <= gam (j + 3) * bigsum (S j) (fun k => Rabs (FR (L i k)) * Rabs (FR (L j k)))
       + ((1 + gam j) * INR j + (1 + uu) * FR (L j j)) * eta.
Proof.
  intros Hj Hi Fi Fj. pose proof uu_pos as U. pose proof eta_pos as ET.
  pose proof Fj as Fd. rewrite LF_diag in Fd by lia. destruct (sqrt_back Fd) as (Fp & Pd & d & Hd & Ed).
  rewrite <- (LF_diag (j := j)) in Pd, Ed by lia. set (l := FR (L j j)) in *.
  (* m - s = L_ij l (1 + three roundings) + underflow *)
  assert (K : exists D e, Rabs D <= gam 3 /\ Rabs e <= eta * ((1 + uu) * l) /\ finite (m i j) /\ finite (fsums j (L i) (L j)) /\
     FR (m i j) - FR (fsums j (L i) (L j)) = FR (L i j) * l * (1 + D) + e).
  { destruct (Nat.eq_dec i j) as [->|Ne].
    - destruct (sub_back Fp) as (F1 & F2 & d1 & Hd1 & E1).
      exists ((1 + d) * (1 + d) * (1 + d1) - 1), 0. rewrite Rabs_R0.
      split; [|split; [|split; [exact F1|split; [exact F2|] ] ] ].
      + rewrite Rmult_assoc. apply one_more; [exact Hd|]. now apply one_more, one_rnd.
      + apply Rmult_le_pos; [lra|]. apply Rmult_le_pos; lra.
      + rewrite E1. fold (pivF L j). rewrite Ed. fold l. ring.
    - assert (F := Fi). rewrite LF_low in F by lia.
      assert (Nz : l <> 0) by (eapply div_zero; [exact Fj|exact F]).
      apply div_rnd in F as (Fs & E); [|exact Nz].
      destruct (sub_back Fs) as (F1 & F2 & d1 & Hd1 & E1).
      destruct (rnd_back (FR (m i j - fsums j (L i) (L j))%float / FR (L j j))) as (d2 & e & Hd2 & He & E2).
      rewrite <- E, <- LF_low in E2 by lia. fold l in E2.
      exists ((1 + d1) * (1 + d2) - 1), (e * l * (1 + d1)).
      split; [|split; [|split; [exact F1|split; [exact F2|] ] ] ].
      + eapply Rle_trans; [apply one_more; [exact Hd1|now apply one_rnd]|]. apply gam_le. lia.
      + rewrite !Rabs_mult, (Rabs_pos_eq l Pd), Rmult_assoc. assert (Rabs (1 + d1) <= 1 + uu) by (eapply Rle_trans; [apply Rabs_triang|]; rewrite Rabs_R1; lra).
        apply Rmult_le_compat; try apply Rabs_pos; auto.
        * apply Rmult_le_pos; [exact Pd|apply Rabs_pos].
        * rewrite Rmult_comm. now apply Rmult_le_compat_r.
      + rewrite E1. replace (FR (m i j - fsums j (L i) (L j))%float) with (FR (m i j - fsums j (L i) (L j))%float / l * l) by (field; exact Nz).
        rewrite E2. ring. }
  destruct K as (D & e & HD & He & Fm & Fs & E). split; [exact Fm|]. split; [exact Pd|].
  pose proof (fsums_err _ _ _ Fs) as HS. cbn [bigsum]. fold l. rewrite (Rabs_pos_eq l Pd).
  fold (absdot j (L i) (L j)). pose proof (absdot_nonneg j (L i) (L j)) as NA.
  set (A := absdot j (L i) (L j)) in *. set (S0 := bigsum j _) in *. set (s := FR (fsums j (L i) (L j))) in *.
  replace (FR (m i j) - (S0 + FR (L i j) * l)) with ((s - S0) + (FR (L i j) * l * D + e)) by lra.
  assert (H1 : Rabs (FR (L i j) * l * D + e) <= gam 3 * (Rabs (FR (L i j)) * l) + eta * ((1 + uu) * l)).
  { eapply Rle_trans; [apply Rabs_triang|]. rewrite !Rabs_mult, (Rabs_pos_eq l Pd).
    assert (0 <= Rabs (FR (L i j)) * l) by (apply Rmult_le_pos; [apply Rabs_pos|exact Pd]). nra. }
  eapply Rle_trans; [apply Rabs_triang|].
  assert (gam (S j) * A <= gam (j + 3) * A) by (apply Rmult_le_compat_r; [exact NA|apply gam_le; lia]).
  assert (gam 3 * (Rabs (FR (L i j)) * l) <= gam (j + 3) * (Rabs (FR (L i j)) * l)).
  { apply Rmult_le_compat_r; [apply Rmult_le_pos; [apply Rabs_pos|exact Pd]|apply gam_le; lia]. }
  lra.
Qed.
End C.

(** ** The loops *)
Section Run.
Variable bc : bool.

Lemma chol_sym_flt n (f : nat -> nat -> double) tl : (forall i j, (i < n)%nat -> (j < n)%nat -> PrimFloat.eqb (f i j) (f j i) = true) ->
  chol_sym bc (mat_of n n f tl) = Ok true.
Proof.
  intros Hs. unfold chol_sym. change (mrows (mat_of n n f tl)) with n.
  match goal with |- context [for_exit n 0 ?b (None, None)] => set (body := b) end.
  destruct (@for_exit_scan _ _ (fun _ _ => True) (fun _ => true) false n 0 body (None, None)) as (A & _); auto.
  - intros i [x y] Hi _. unfold body.
    match goal with |- context [for_exit n 0 ?b (x, y)] => set (inner := b) end.
    destruct (@for_exit_scan _ _ (fun _ _ => True) (fun _ => true) false n 0 inner (x, y)) as (A & _); auto.
    + intros j [x' y'] Hj _. unfold inner. rewrite !lget_mat by lia. cbn [bind lval].
      change (fne (f i j) (f j i)) with (negb (PrimFloat.eqb (f i j) (f j i))). rewrite Hs by lia. cbn [negb]. eauto.
    + destruct A as (s & E & _); [now apply forallb_forall|eauto].
  - destruct A as (s & -> & _); [now apply forallb_forall|reflexivity].
Qed.

Lemma cholesky_flt n (f : nat -> nat -> double) tl l :
  room n n l ->
  (forall i j, (i < n)%nat -> (j < n)%nat -> PrimFloat.eqb (f i j) (f j i) = true) ->
  mtx_cholesky bc (mat_of n n f tl) l = Ok (0%Z, mat_of n n (cholF f n) (rest l)).
Proof.
  intros Hl Hsym. unfold mtx_cholesky.
  change (mrows (mat_of n n f tl)) with n. change (mcols (mat_of n n f tl)) with n.
  assert (Hl' := Hl). destruct Hl' as (Hr & Hc & _). rewrite Hr, Hc, !Nat.eqb_refl. cbn [negb orb].
  rewrite andb_false_r. cbn [andb].
  assert (ES : (if bc then chol_sym bc (mat_of n n f tl) else Ok true) = Ok true) by (rewrite chol_sym_flt by auto; now destruct bc).
  rewrite ES. cbn [bind negb].
  rewrite (@mtx_init_gen _ _ bc n n l (Some (entry_fn_empty bc)) (fun _ _ => f0)) by auto.
  cbn [bind].
  set (L := cholF f n).
  set (H := fun j i a b => if (b <? j)%nat || ((b =? j)%nat && (a <? i)%nat) then L a b else PrimFloat.zero).
  assert (HL : forall j i a b, (b < j)%nat -> H j i a b = L a b).
  { intros j i a b Hb. unfold H. destruct (Nat.ltb_spec b j); [reflexivity|lia]. }
  match goal with |- context [for_ n 0 ?b _] => set (body := b) end.
  destruct (@for_inv _ (fun j (s : mtx double * option double * option double) =>
      fst (fst s) = mat_of n n (H j 0%nat) (rest l)) n 0%nat body
      (mat_of n n (fun _ _ => f0) (rest l), None, None)) as (((l' & x') & y') & E & El).
  - apply mat_ext. intros a b Ha Hb. unfold H.
    destruct (Nat.ltb_spec b 0), (Nat.ltb_spec a 0); try lia. now rewrite andb_false_r.
  - intros j ((l1 & x1) & y1) Hj E1. cbn [fst] in E1. subst l1. unfold body.
    match goal with |- context [for_ j 0 ?b _] => set (b1 := b) end.
    destruct (@for_inv _ (fun k (s : double * option double) => fst s = fsums k (L j) (L j)) j 0%nat b1
       (f0, x1)) as ((s1 & x2) & Es & Es1); [reflexivity| |].
    { intros k (s0 & x0) Hk E0. cbn [fst] in E0. subst s0. unfold b1.
      rewrite lget_mat by lia. cbn [bind lval]. eexists. split; [reflexivity|].
      cbn [fst fsums]. rewrite HL by lia. reflexivity. }
    cbn [fst Nat.add] in Es1. rewrite Es. cbn [bind]. clear Es. subst s1.
    rewrite lget_mat by lia. cbn [bind lval].
    replace (fsqrt (fsub (f j j) (fsums j (L j) (L j)))) with (Ok (L j j)).
    2:{ unfold L at 1. rewrite LF_diag by lia. reflexivity. }
    cbn [bind]. rewrite mtx_set_mat by lia. cbn [bind].
    unfold for_range.
    match goal with |- context [for_ (n - (j + 1)) (j + 1) ?b _] => set (b2 := b) end.
    destruct (@for_inv _ (fun i (s : mtx double * option double * option double) =>
      fst (fst s) = mat_of n n (H j i) (rest l)) (n - (j + 1)) (j + 1)%nat b2
      (mat_of n n (fupd (H j 0%nat) j j (L j j)) (rest l), Some (f j j), y1))
      as (((l3 & x3) & y3) & E3 & El3).
    + cbn [fst]. apply mat_ext. intros a b Ha Hb. unfold H, fupd.
      destruct (Nat.ltb_spec b j), (Nat.eqb_spec b j), (Nat.eqb_spec a j), (Nat.ltb_spec a 0),
        (Nat.ltb_spec a (j + 1)); try lia; cbn [andb orb]; subst; auto.
      symmetry. unfold L. apply LF_upper; lia.
    + intros i ((l4 & x4) & y4) Hi E4. cbn [fst] in E4. subst l4. unfold b2.
      match goal with |- context [for_ j 0 ?b _] => set (b3 := b) end.
      destruct (@for_inv _ (fun k (s : double * option double * option double) =>
         fst (fst s) = fsums k (L i) (L j)) j 0%nat b3
         (f0, x4, y4)) as (((s5 & x5) & y5) & E5 & Es5); [reflexivity| |].
      { intros k ((s0 & x0) & y0) Hk E0. cbn [fst] in E0. subst s0. unfold b3.
        rewrite !lget_mat by lia. cbn [bind lval]. eexists. split; [reflexivity|].
        cbn [fst fsums]. rewrite !HL by lia. reflexivity. }
      cbn [fst Nat.add] in Es5. rewrite E5. cbn [bind]. clear E5. subst s5.
      rewrite !lget_mat by lia. cbn [bind lval].
      assert (Hd : H j i j j = L j j).
      { unfold H. destruct (Nat.ltb_spec j j), (Nat.eqb_spec j j), (Nat.ltb_spec j i); try lia. reflexivity. }
      rewrite Hd.
      replace (fdiv (fsub (f i j) (fsums j (L i) (L j))) (L j j)) with (Ok (L i j)).
      2:{ unfold L at 1. rewrite LF_low by lia. reflexivity. }
      cbn [bind]. rewrite mtx_set_mat by lia. cbn [bind]. eexists. split; [reflexivity|]. cbn [fst].
      apply mat_ext. intros a b Ha Hb. unfold H, fupd.
      destruct (Nat.ltb_spec b j), (Nat.eqb_spec b j), (Nat.eqb_spec a i), (Nat.ltb_spec a i),
        (Nat.ltb_spec a (S i)); try lia; cbn [andb orb]; subst; auto.
    + rewrite E3. eexists. split; [reflexivity|]. cbn [fst] in *. rewrite El3.
      apply mat_ext. intros a b Ha Hb. unfold H.
      destruct (Nat.ltb_spec b j), (Nat.ltb_spec b (S j)), (Nat.eqb_spec b j), (Nat.eqb_spec b (S j)),
        (Nat.ltb_spec a (j + 1 + (n - (j + 1)))), (Nat.ltb_spec a 0); try lia; reflexivity.
  - rewrite E. cbn [bind fst] in *. rewrite El. do 2 f_equal. apply mat_ext. intros a b Ha Hb.
    apply HL. lia.
Qed.
End Run.
