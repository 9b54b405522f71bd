(** The determinant in machine arithmetic: the library's expansion as an
    expression, and the size of that expression. *)
From Coq Require Import Floats.PrimFloat.
From Coq Require Import ZArith Reals Lra Lia List Bool Arith Factorial.
From Verif Require Import Base NumF NumR BaseFacts SpecMtx SpecReal SpecFlt SpecFltDet MVec MMtx PMtx PMtxOps PMtxR PDet PFlt PFltSum PFltUnit PFltVar PPoly.
Import ListNotations.
Open Scope R_scope.

Definition fminor (i j : nat) (f : nat -> nat -> double) : nat -> nat -> double :=
  fun a b => f (skip_at i a) (skip_at j b).
Definition fsgn (g : nat) : double := if Nat.even g then one else (- one)%float.

Fixpoint esum (n : nat) (t : nat -> pexp) : pexp :=
  match n with O => PV zero | S k => PA (esum k t) (t k) end.

Definition m2 (a b c d : double) : pexp := PS (PM (PV a) (PV d)) (PM (PV c) (PV b)).
Definition det3 (f : nat -> nat -> double) : pexp :=
  PA (PS (PM (PV (f 0 0)%nat) (PS (PM (PV (f 1 1)%nat) (PV (f 2 2)%nat)) (PM (PV (f 2 1)%nat) (PV (f 1 2)%nat))))
         (PM (PV (f 1 0)%nat) (PS (PM (PV (f 0 1)%nat) (PV (f 2 2)%nat)) (PM (PV (f 2 1)%nat) (PV (f 0 2)%nat)))))
     (PM (PV (f 2 0)%nat) (PS (PM (PV (f 0 1)%nat) (PV (f 1 2)%nat)) (PM (PV (f 1 1)%nat) (PV (f 0 2)%nat)))).

Fixpoint detexp (n : nat) (f : nat -> nat -> double) : pexp :=
  match n with
  | O => PV one
  | 1%nat => PV (f O O)
  | 2%nat => PS (PM (PV (f 0 0)%nat) (PV (f 1 1)%nat)) (PM (PV (f 1 0)%nat) (PV (f 0 1)%nat))
  | 3%nat => det3 f
  | S n' => esum (S n') (fun g => PM (PM (detexp n' (fminor 0 g f)) (PV (f O g))) (PV (fsgn g)))
  end.

Lemma detexp_S n f : (3 <= n)%nat ->
  detexp (S n) f = esum (S n) (fun g => PM (PM (detexp n (fminor 0 g f)) (PV (f O g))) (PV (fsgn g))).
Proof. intros H. destruct n as [|[|[|n]]]; [lia..|reflexivity]. Qed.

Section D.
Variable bc : bool.

Lemma deter_F n : forall (f : nat -> nat -> double) tl fuel,
  (0 < n)%nat -> (n <= fuel)%nat -> deter_f bc fuel (mat_of n n f tl) = Ok (0%Z, Some (machine (detexp n f))).
Proof.
  induction n as [|n IH]; intros f tl fuel Hn Hf; [lia|].
  destruct (Nat.eq_dec n 0) as [->|N0].
  { destruct fuel; [lia|]. cbn [deter_f mrows mat_of].
    pose proof (@rd_mat_flat double 1 1 f tl 0 ltac:(lia)) as E. cbn [mbuf mat_of] in *. rewrite E. reflexivity. }
  destruct (Nat.eq_dec n 1) as [->|N1].
  { destruct fuel; [lia|]. cbn [deter_f]. change (mrows (mat_of 2 2 f tl)) with 2%nat. cbv iota.
    rewrite !(@rd_mat_flat double 2 2 f) by lia. reflexivity. }
  destruct (Nat.eq_dec n 2) as [->|N2].
  { destruct fuel; [lia|]. cbn [deter_f]. change (mrows (mat_of 3 3 f tl)) with 3%nat. cbv iota.
    unfold mtx_deter_3x3. change (mrows (mat_of 3 3 f tl)) with 3%nat.
    change (mcols (mat_of 3 3 f tl)) with 3%nat. rewrite Nat.eqb_refl. cbn [negb]. rewrite andb_false_r.
    rewrite !(@rd_mat_flat double 3 3 f) by lia. reflexivity. }
  destruct fuel as [|fuel]; [lia|].
  assert (E4 : exists k, n = S (S (S k))) by (exists (n - 3)%nat; lia).
  destruct E4 as (k & Ek).
  assert (U : deter_f bc (S fuel) (mat_of (S n) (S n) f tl) =
      if bc && negb (S n =? S n)%nat then Ok ((- EINVAL)%Z, None)
      else
            let! r := for_exit (S n) 0 (fun (g : nat) '(d, mr, cur) =>
                let! cur := lget bc (mat_of (S n) (S n) f tl) 0 g cur in
                let! (_, mr) := mtx_init bc mr None in
                let! (_, mr) := mtx_reduce bc (mat_of (S n) (S n) f tl) mr 0 g in
                let! (rc, dtmp) := deter_f bc fuel mr in
                if negb (rc =? 0)%Z then Ok (inr ((- EINVAL)%Z, Some d))
                else
                  let! dt := lval dtmp in
                  let! c := lval cur in
                  let sign := if Nat.even g then f1 else fneg f1 in
                  Ok (inl (fadd d (fmul (fmul dt c) sign), mr, cur)))
              (f0, mtx_def n n, None) in
            Ok (match r with inl (d, _, _) => (0%Z, Some d) | inr e => e end)).
  { rewrite Ek. reflexivity. }
  rewrite U. clear U. rewrite Nat.eqb_refl. cbn [negb]. rewrite andb_false_r.
  match goal with |- context [for_exit (S n) 0 ?b ?s] =>
    destruct (@for_exit_inv _ _ (fun (g : nat) (st : double * mtx double * option double) =>
       let '(d, mr, cur) := st in
       room n n mr /\ d = machine (esum g (fun g => PM (PM (detexp n (fminor 0 g f)) (PV (f O g))) (PV (fsgn g))))) (S n) 0%nat b s)
      as (((d, mr), cur) & E & _ & Hd) end.
  { split; [apply room_def|reflexivity]. }
  { intros i ((d & mr) & cur) Hi (Hr & Hd). cbv beta iota.
    rewrite lget_mat by lia. cbn [bind]. rewrite (@mtx_init_empty _ _ bc n n) by auto. cbn [bind].
    rewrite mtx_reduce_ok by (try apply mat_room; lia). cbn [bind].
    rewrite IH by lia. cbn [bind lval].
    change (negb (0 =? 0)%Z) with false. cbv iota.
    eexists. split; [reflexivity|]. split; [apply mat_room|].
    cbn [esum machine]. rewrite <- Hd. reflexivity. }
  rewrite E. cbn [bind]. rewrite Hd, detexp_S by lia. reflexivity.
Qed.
End D.

(** ** What the expression means *)
Definition RM (f : nat -> nat -> double) : nat -> nat -> R := fun i j => FR (f i j).

Lemma FR_fsgn g : FR (fsgn g) = sgn g.
Proof.
  unfold fsgn, sgn. destruct (Nat.even g); [apply FR_one|].
  rewrite opp_FR, FR_one. ring.
Qed.
Lemma abs_sgn g : Rabs (sgn g) = 1.
Proof. unfold sgn. destruct (Nat.even g); [apply Rabs_R1|]. rewrite Rabs_left; lra. Qed.

Lemma exactv_esum n t : exactv (esum n t) = bigsum n (fun k => exactv (t k)).
Proof. induction n as [|n IH]; cbn [esum exactv bigsum]; [apply FR_zero|now rewrite IH]. Qed.
Lemma mag_esum n t : mag (esum n t) = bigsum n (fun k => mag (t k)).
Proof. induction n as [|n IH]; cbn [esum mag bigsum]; [rewrite FR_zero; apply Rabs_R0|now rewrite IH]. Qed.
Lemma ops_esum n t k : (forall j, (j < n)%nat -> (ops (t j) <= k)%nat) -> (ops (esum n t) <= k + n)%nat.
Proof.
  induction n as [|n IH]; intros H; cbn [esum ops]; [lia|].
  pose proof (H n ltac:(lia)). specialize (IH ltac:(intros j Hj; apply H; lia)). lia.
Qed.
Lemma under_esum n t W : 0 <= W -> (forall j, (j < n)%nat -> under (t j) <= W) ->
  under (esum n t) <= (1 + uu) ^ n * (INR n * W).
Proof.
  intros HW. pose proof uu_pos as U. induction n as [|n IH]; intros H; cbn [esum under]; [cbn; lra|].
  specialize (IH ltac:(intros j Hj; apply H; lia)). pose proof (H n ltac:(lia)) as Hn.
  rewrite S_INR. cbn [pow].
  assert (P : 1 <= (1 + uu) ^ n) by (apply pow_R1_Rle; lra).
  pose proof (Rmult_le_compat_r W _ _ HW P) as Q.
  rewrite Rmult_assoc. apply Rmult_le_compat_l; [lra|]. nra.
Qed.

Lemma detexp_exact n : forall f, exactv (detexp n f) = ldet n (RM f).
Proof.
  induction n as [|n IH]; intros f; [apply FR_one|].
  destruct n as [|[|[|n]]].
  - rewrite ldet_1. reflexivity.
  - rewrite ldet_2. reflexivity.
  - rewrite ldet_3. reflexivity.
  - rewrite detexp_S, exactv_esum by lia. cbn [ldet]. apply bigsum_ext. intros k _.
    cbn [exactv]. rewrite IH, FR_fsgn. reflexivity.
Qed.

Lemma absperm_ext n : forall f g, (forall i j, (i < n)%nat -> (j < n)%nat -> f i j = g i j) -> absperm n f = absperm n g.
Proof.
  induction n as [|n IH]; intros f g H; [reflexivity|]. cbn [absperm]. apply bigsum_ext. intros k Hk.
  rewrite (H O k) by lia. f_equal. apply IH. intros i j Hi Hj. unfold drop. apply H; [lia|].
  destruct (Nat.ltb_spec j k); lia.
Qed.

Lemma detexp_mag n : forall f, mag (detexp n f) = absperm n (RM f).
Proof.
  induction n as [|n IH]; intros f; [cbn [detexp mag absperm]; rewrite FR_one; apply Rabs_R1|].
  destruct n as [|[|[|n]]].
  - cbn. unfold RM. ring.
  - cbn. unfold RM, drop. cbn. ring.
  - cbn. unfold RM, drop. cbn. ring.
  - rewrite detexp_S, mag_esum by lia. cbn [absperm]. apply bigsum_ext. intros k Hk.
    cbn [mag]. rewrite FR_fsgn, abs_sgn, IH. unfold RM at 2. rewrite Rmult_1_r, Rmult_comm. f_equal.
Qed.

Lemma detexp_ops n : forall f, (0 < n)%nat -> (ops (detexp n f) <= n * n)%nat.
Proof.
  induction n as [|n IH]; intros f Hn; [lia|].
  destruct (le_lt_dec 3 n) as [H3|H3].
  - rewrite detexp_S by lia.
    eapply Nat.le_trans; [apply (@ops_esum (S n) _ (n * n + 2)%nat)|nia].
    intros j Hj. cbn [ops]. pose proof (IH (fminor 0 j f) ltac:(lia)). lia.
  - destruct n as [|[|[|n]]]; [cbn; lia..|lia].
Qed.

Lemma under_pmv e x : under (PM e (PV x)) = (1 + uu) * (Rabs (FR x) * under e) + eta.
Proof. cbn [under ops mag]. rewrite gam_0. ring. Qed.
Lemma under_pvm e x : under (PM (PV x) e) = (1 + uu) * (Rabs (FR x) * under e) + eta.
Proof. cbn [under ops mag]. rewrite gam_0. ring. Qed.

Lemma under_vv x y : under (PM (PV x) (PV y)) = eta.
Proof. rewrite under_pmv. cbn [under]. ring. Qed.

Definition wsize (n : nat) (A : R) : R := 4 ^ n * INR (fact n) * A ^ n.

Lemma one_le_mul a b : 1 <= a -> 1 <= b -> 1 <= a * b.
Proof. nra. Qed.
Lemma wsize_1 n A : 1 <= A -> 1 <= wsize n A.
Proof.
  intros HA. unfold wsize.
  assert (1 <= 4 ^ n) by (apply pow_R1_Rle; lra). assert (1 <= A ^ n) by (apply pow_R1_Rle; lra).
  assert (1 <= INR (fact n)) by (apply (le_INR 1); pose proof (lt_O_fact n); lia).
  apply one_le_mul; [now apply one_le_mul|auto].
Qed.
Lemma wsize_S n A : wsize (S n) A = 4 * (INR (S n) * (A * wsize n A)).
Proof. unfold wsize. rewrite fact_simpl, mult_INR. cbn [pow]. ring. Qed.

Lemma detexp_under n A : 1 <= A -> (0 < n)%nat -> forall f,
  (forall i j, (i < n)%nat -> (j < n)%nat -> Rabs (FR (f i j)) <= A) ->
  under (detexp n f) <= (1 + uu) ^ (n * n) * wsize n A * eta.
Proof.
  intros HA. pose proof uu_pos as U. pose proof eta_pos as E.
  induction n as [|n IH]; intros Hn f HF; [lia|].
  destruct (le_lt_dec 3 n) as [H3|H3].
  - rewrite detexp_S by lia.
    pose proof (wsize_1 n A HA) as W1.
    assert (P1 : 1 <= (1 + uu) ^ (n * n)) by (apply pow_R1_Rle; lra).
    assert (PW : 1 <= (1 + uu) ^ (n * n) * wsize n A).
    { now apply one_le_mul. }
    set (B := (1 + uu) ^ (n * n) * wsize n A) in *.
    assert (AB : 1 <= A * B) by now apply one_le_mul.
    assert (T : forall j, (j < S n)%nat -> under (PM (PM (detexp n (fminor 0 j f)) (PV (f O j))) (PV (fsgn j))) <= (1 + uu) ^ 2 * (4 * (A * B)) * eta).
    { intros j Hj. rewrite !under_pmv, FR_fsgn, abs_sgn.
      assert (D : under (detexp n (fminor 0 j f)) <= B * eta).
      { apply IH; [lia|]. intros a b Ha Hb. unfold fminor, skip_at. apply HF; [destruct (Nat.ltb_spec a 0); lia|].
        destruct (Nat.ltb_spec b j); lia. }
      pose proof (under_nonneg (detexp n (fminor 0 j f))) as D0.
      pose proof (HF O j ltac:(lia) Hj) as Fj. pose proof (Rabs_pos (FR (f O j))) as F0.
      pose proof (Rmult_le_compat _ _ _ _ F0 D0 Fj D) as X.
      set (x := Rabs (FR (f O j)) * under (detexp n (fminor 0 j f))) in *.
      apply Rle_trans with ((1 + uu) * (1 * ((1 + uu) * (A * (B * eta)) + eta)) + eta).
      { apply Rplus_le_compat_r. apply Rmult_le_compat_l; [lra|]. apply Rmult_le_compat_l; [lra|].
        apply Rplus_le_compat_r. apply Rmult_le_compat_l; lra. }
      assert (Y : eta <= A * B * eta) by (rewrite <- (Rmult_1_l eta) at 1; apply Rmult_le_compat_r; lra).
      set (y := A * B * eta) in *. replace (A * (B * eta)) with y by (unfold y; ring).
      replace ((1 + uu) ^ 2 * (4 * (A * B)) * eta) with ((1 + uu) ^ 2 * (4 * y)) by (unfold y; ring).
      assert (Y0 : 0 <= y) by lra. pose proof (Rmult_le_pos _ _ (Rlt_le _ _ U) Y0) as Y1.
      pose proof (Rmult_le_compat_l _ _ _ (Rlt_le _ _ U) Y) as Y2.
      pose proof (Rmult_le_pos _ _ (Rlt_le _ _ U) Y1) as Y3.
      apply Rminus_le. replace (_ - _) with (2 * eta + uu * eta - 3 * y - 6 * (uu * y) - 3 * (uu * (uu * y))) by ring. lra. }
    eapply Rle_trans; [apply under_esum; [|exact T]|].
    { assert (0 <= (1 + uu) ^ 2) by (apply pow_le; lra). apply Rmult_le_pos; [|lra]. apply Rmult_le_pos; lra. }
    rewrite wsize_S.
    replace ((1 + uu) ^ S n * (INR (S n) * ((1 + uu) ^ 2 * (4 * (A * B)) * eta)))
      with ((1 + uu) ^ (S n + 2 + n * n) * (4 * (INR (S n) * (A * wsize n A))) * eta)
      by (rewrite !pow_add; unfold B; ring).
    apply Rmult_le_compat_r; [lra|]. apply Rmult_le_compat_r.
    { pose proof (pos_INR (S n)). assert (0 <= A * wsize n A) by (apply Rmult_le_pos; lra).
      apply Rmult_le_pos; [lra|]. now apply Rmult_le_pos. }
    apply Rle_pow; [lra|nia].
  - assert (A2 : 1 <= A ^ 2) by (apply pow_R1_Rle; lra).
    assert (P : forall k, 1 <= (1 + uu) ^ k) by (intros k; apply pow_R1_Rle; lra).
    destruct n as [|[|[|n]]]; [| | |lia].
    + cbn [detexp under]. pose proof (wsize_1 1 A HA). pose proof (P (1 * 1)%nat). apply Rmult_le_pos; [|lra]. apply Rmult_le_pos; lra.
    + cbn [detexp]. change (under (PS ?a ?b)) with ((1 + uu) * (under a + under b)). rewrite !under_vv.
      assert (W : 2 <= wsize 2 A) by (unfold wsize; cbn [fact Nat.mul Nat.add]; simpl INR; lra).
      pose proof (Rle_pow (1 + uu) 1 (2 * 2) ltac:(lra) ltac:(lia)) as Q. rewrite pow_1 in Q.
      replace ((1 + uu) * (eta + eta)) with ((1 + uu) * 2 * eta) by ring.
      apply Rmult_le_compat_r; [lra|]. apply Rmult_le_compat; lra.
    + cbn [detexp]. unfold det3. change (under (PA ?a ?b)) with ((1 + uu) * (under a + under b)).
      change (under (PS ?a ?b)) with ((1 + uu) * (under a + under b)). rewrite !under_pvm.
      change (under (PS ?a ?b)) with ((1 + uu) * (under a + under b)). rewrite !under_vv.
      pose proof (HF 0 0 ltac:(lia) ltac:(lia))%nat as A0. pose proof (HF 1 0 ltac:(lia) ltac:(lia))%nat as A1. pose proof (HF 2 0 ltac:(lia) ltac:(lia))%nat as A3.
      pose proof (Rabs_pos (FR (f 0 0)%nat)). pose proof (Rabs_pos (FR (f 1 0)%nat)). pose proof (Rabs_pos (FR (f 2 0)%nat)).
      set (v := (1 + uu) * (eta + eta)) in *.
      assert (V : 0 <= v) by (unfold v; nra).
      assert (K : forall x, 0 <= x -> x <= A -> (1 + uu) * (x * v) + eta <= (1 + uu) * (A * v) + eta).
      { intros x X0 X1. apply Rplus_le_compat_r, Rmult_le_compat_l; [lra|]. now apply Rmult_le_compat_r. }
      pose proof (K _ H A0) as K0. pose proof (K _ H0 A1) as K1. pose proof (K _ H1 A3) as K2.
      assert (KT : (1 + uu) * (A * v) + eta <= (1 + uu) ^ 2 * (3 * (A * eta))).
      { unfold v. assert (eta <= A * eta) by nra. set (y := A * eta) in *. replace (A * ((1 + uu) * (eta + eta))) with ((1 + uu) * (y + y)) by (unfold y; ring).
        assert (0 <= uu * y) by nra. assert (0 <= uu * (uu * y)) by nra. nra. }
      set (t := (1 + uu) ^ 2 * (3 * (A * eta))) in *.
      assert (T0 : 0 <= t). { unfold t. pose proof (P 2%nat). apply Rmult_le_pos; [lra|]. assert (0 <= A * eta) by (apply Rmult_le_pos; lra). lra. }
      apply Rle_trans with ((1 + uu) * ((1 + uu) * (t + t) + t)).
      { apply Rmult_le_compat_l; [lra|]. apply Rplus_le_compat; [|lra]. apply Rmult_le_compat_l; lra. }
      apply Rle_trans with ((1 + uu) ^ 2 * (3 * t)).
      { assert (0 <= uu * t) by nra. assert (0 <= uu * (uu * t)) by nra. nra. }
      unfold t. replace ((1 + uu) ^ 2 * (3 * ((1 + uu) ^ 2 * (3 * (A * eta))))) with ((1 + uu) ^ 4 * (9 * A) * eta) by ring.
      apply Rmult_le_compat_r; [lra|]. apply Rmult_le_compat; [pose proof (P 4%nat); lra|lra|apply Rle_pow; [lra|lia]|].
      unfold wsize. cbn [fact Nat.mul Nat.add]. simpl INR. nra.
Qed.

Lemma deter_err bc n f tl A : (0 < n)%nat -> 1 <= A ->
  (forall i j, (i < n)%nat -> (j < n)%nat -> Rabs (FR (f i j)) <= A) ->
  exists x, mtx_deter bc (mat_of n n f tl) = Ok (0%Z, Some x) /\
    (finite x -> Rabs (FR x - ldet n (RM f)) <= det_bound n (RM f) A).
Proof.
  intros Hn HA HF. exists (machine (detexp n f)). split.
  - unfold mtx_deter. rewrite deter_F by (auto; cbn [mrows mat_of]; lia). reflexivity.
  - intros Fx. rewrite <- detexp_exact. eapply Rle_trans; [now apply poly_err|].
    unfold det_bound. rewrite detexp_mag. apply Rplus_le_compat.
    + apply Rmult_le_compat_r; [rewrite <- detexp_mag; apply mag_nonneg|]. apply gam_le, detexp_ops; auto.
    + rewrite <- gam_pow. now apply detexp_under.
Qed.
