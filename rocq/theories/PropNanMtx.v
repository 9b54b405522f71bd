(** Property C162: a NaN among the entries of a matrix.

    [nan_at f i j] says that the entry in row i and column j is NaN. *)
From Coq Require Import Floats.PrimFloat.
From Coq Require Import ZArith Bool List Lia Arith.
From Verif Require Import Base NumF BaseFacts SpecMtx SpecFltNan MVec MMtx MDecomp PMtx PMtxOps PDet PChol PFltDet PFltInv PNanQuat PNanPhys PNanStat PPoly.
Import ListNotations.

Definition nan_at (f : nat -> nat -> double) (i j : nat) : Prop := is_nan (f i j) = true.

(** * Products: a row of the left factor, a column of the right factor *)
Theorem C162_product :
  forall bc r n c (f g : nat -> nat -> double) ta tb mc, room r c mc ->
  exists p, mtx_mult bc (mat_of r n f ta) (mat_of n c g tb) mc = Ok (0%Z, mat_of r c p (rest mc))
    /\ (forall i k, (i < r)%nat -> (k < n)%nat -> nan_at f i k -> forall j, (j < c)%nat -> nan_at p i j)
    /\ (forall k j, (k < n)%nat -> (j < c)%nat -> nan_at g k j -> forall i, (i < r)%nat -> nan_at p i j).
Proof.
  intros bc r n c f g ta tb mc Hm. eexists. split; [now apply mtx_mult_ok|].
  assert (S : forall (h : nat -> double) k, (k < n)%nat -> nanf (h k) -> nanf (msum n h)).
  { intros h k Hk Hn. apply nan_fold. apply Exists_exists. exists (h k). split; [|exact Hn].
    apply in_map. apply in_seq. lia. }
  split.
  - intros i k Hi Hk Nk j Hj. apply is_nan_nanf, (S _ k Hk). apply nan_mul_l. now apply is_nan_nanf.
  - intros k j Hk Hj Nk i Hi. apply is_nan_nanf, (S _ k Hk). apply nan_mul_r. now apply is_nan_nanf.
Qed.
Print Assumptions C162_product.

(** * The determinant, of any size *)
Lemma esum_nan n (t : nat -> pexp) k : (k < n)%nat -> nanf (machine (t k)) -> nanf (machine (esum n t)).
Proof.
  induction n as [|n IH]; intros Hk H; [lia|]. cbn [esum machine].
  destruct (Nat.eq_dec k n) as [->|Ne]; [now apply nan_add_r | apply nan_add_l, IH; auto; lia].
Qed.

Lemma detexp_nan n : forall f i j, (i < n)%nat -> (j < n)%nat -> nanf (f i j) -> nanf (machine (detexp n f)).
Proof.
  induction n as [|n IH]; intros f i j Hi Hj H; [lia|].
  destruct (le_lt_dec 3 n) as [N3|N3].
  - rewrite detexp_S by exact N3. destruct i as [|i].
    + apply (esum_nan _ _ j Hj). cbn [machine]. apply nan_mul_l, nan_mul_r, H.
    + assert (X : exists g, (g < S n)%nat /\ g <> j) by (destruct j; [exists 1%nat | exists 0%nat]; lia).
      destruct X as (g & Hg & Ng). apply (esum_nan _ _ g Hg). cbn [machine]. apply nan_mul_l, nan_mul_l.
      apply (IH (fminor 0 g f) i (if (j <? g)%nat then j else j - 1)%nat); [lia| |].
      * destruct (Nat.ltb_spec j g); lia.
      * unfold fminor. change (skip_at 0 i) with (S i). unfold skip_at.
        destruct (Nat.ltb_spec j g) as [L|L].
        -- rewrite (proj2 (Nat.ltb_lt j g) L). exact H.
        -- rewrite (proj2 (Nat.ltb_ge (j - 1) g)) by lia. replace (S (j - 1)) with j by lia. exact H.
  - clear IH. destruct n as [|[|[|n]]]; [| | |lia]; cbn [detexp];
      repeat (destruct i as [|i]; [|try lia]); repeat (destruct j as [|j]; [|try lia]); try lia;
      unfold det3; cbn [machine];
      repeat match goal with |- nanf _ => nan_step end.
Qed.

Theorem C162_determinant :
  forall bc n (f : nat -> nat -> double) tl i j, (i < n)%nat -> (j < n)%nat -> nan_at f i j ->
  exists d, mtx_deter bc (mat_of n n f tl) = Ok (0%Z, Some d) /\ is_nan d = true.
Proof.
  intros bc n f tl i j Hi Hj H. exists (machine (detexp n f)). split.
  - unfold mtx_deter. change (mrows (mat_of n n f tl)) with n. apply deter_F; lia.
  - apply is_nan_nanf, (detexp_nan n f i j); auto. now apply is_nan_nanf.
Qed.
Print Assumptions C162_determinant.

(** * The inverse of a 3 x 3 matrix: every entry *)
Theorem C162_inverse3 :
  forall bc (f : nat -> nat -> double) tl mi i j, room 3 3 mi -> (i < 3)%nat -> (j < 3)%nat -> nan_at f i j ->
  exists g, mtx_inv bc (mat_of 3 3 f tl) mi = Ok (0%Z, mat_of 3 3 g (rest mi))
    /\ forall a b, (a < 3)%nat -> (b < 3)%nat -> nan_at g a b.
Proof.
  intros bc f tl mi i j Hm Hi Hj H. apply is_nan_nanf in H.
  assert (D : nanf (machine (det3 f))) by (apply (detexp_nan 3 f i j); auto).
  rewrite inv3_F by exact Hm. assert (E : PrimFloat.eqb (machine (det3 f)) zero = false)
    by (rewrite FloatAxioms.eqb_spec, D; reflexivity).
  rewrite E. eexists. split; [reflexivity|]. intros a b _ _. apply is_nan_nanf. unfold inv3.
  apply nan_mul_r, nan_div_r, D.
Qed.
Print Assumptions C162_inverse3.

(** * Cholesky with bounds checks refuses it: a NaN differs from itself *)
Lemma chol_sym_eqb n (f : nat -> nat -> double) tl :
  chol_sym true (mat_of n n f tl) = Ok (forallb (fun i => forallb (fun j => PrimFloat.eqb (f i j) (f j i)) (seq 0 n)) (seq 0 n)).
Proof.
  unfold chol_sym. change (mrows (mat_of n n f tl)) with n.
  set (trow := fun i => forallb (fun j => PrimFloat.eqb (f i j) (f j i)) (seq 0 n)).
  match goal with |- context [for_exit n 0 ?b (None, None)] => set (body := b) end.
  destruct (@for_exit_scan _ _ (fun _ _ => True) trow false n 0 body (None, None)) as (A & B); auto.
  - intros i [x y] Hi _. unfold body.
    match goal with |- context [for_exit n 0 ?b (x, y)] => set (inner := b) end.
    destruct (@for_exit_scan _ _ (fun _ _ => True) (fun j => PrimFloat.eqb (f i j) (f j i)) false n 0 inner (x, y)) as (A & B); auto.
    + intros j [x' y'] Hj _. unfold inner. rewrite !lget_mat by lia. cbn [bind lval].
      change (fne (f i j) (f j i)) with (negb (PrimFloat.eqb (f i j) (f j i))).
      destruct (PrimFloat.eqb (f i j) (f j i)); cbn [negb]; eauto.
    + destruct (trow i) eqn:Et; [destruct (A Et) as (s & E & _); eauto|auto].
  - destruct (forallb trow (seq 0 n)) eqn:E.
    + destruct (A eq_refl) as (s & -> & _). reflexivity.
    + rewrite (B eq_refl). reflexivity.
Qed.

Theorem C162_cholesky :
  forall n (f : nat -> nat -> double) tl l i j, (i < n)%nat -> (j < n)%nat -> nan_at f i j ->
  mtx_cholesky true (mat_of n n f tl) l = Ok ((- EINVAL)%Z, l).
Proof.
  intros n f tl l i j Hi Hj H. apply is_nan_nanf in H. unfold mtx_cholesky.
  change (mrows (mat_of n n f tl)) with n. change (mcols (mat_of n n f tl)) with n.
  rewrite Nat.eqb_refl. cbn [negb andb]. rewrite chol_sym_eqb. cbn [bind].
  assert (E : forallb (fun i => forallb (fun j => PrimFloat.eqb (f i j) (f j i)) (seq 0 n)) (seq 0 n) = false).
  { apply not_true_is_false. intros T. rewrite forallb_forall in T.
    specialize (T i ltac:(apply in_seq; lia)). rewrite forallb_forall in T.
    specialize (T j ltac:(apply in_seq; lia)). rewrite FloatAxioms.eqb_spec, H in T. discriminate T. }
  rewrite E. reflexivity.
Qed.
Print Assumptions C162_cholesky.

(** * The general inverse loses it: elimination skips an entry that is neither
    above nor below the threshold, and NaN is neither.  The "inverse" of the
    2 x 2 matrix with rows (2, 1) and (NaN, 2) is an ordinary matrix with return
    value 0. *)
Definition holed (i j : nat) : double := match i, j with 1%nat, O => nan | O, 1%nat => 1%float | _, _ => 2%float end.

Theorem C162_inverse_refuted :
  forall bc, mtx_inv bc (mat_of 2 2 holed []) (mtx_def 2 2)
  = Ok (0%Z, mat_of 2 2 (fun i j => match i, j with 1%nat, O => 0%float | O, 1%nat => (-0.25)%float | _, _ => 0.5%float end) []).
Proof. intros []; vm_compute; reflexivity. Qed.
Print Assumptions C162_inverse_refuted.

Example C162_example :
  nan_at holed 1 0 /\ (exists d, mtx_deter true (mat_of 2 2 holed []) = Ok (0%Z, Some d) /\ is_nan d = true)
  /\ room 3 3 (mtx_def (T := double) 3 3).
Proof.
  split; [vm_compute; reflexivity|]. split; [eexists; split; vm_compute; reflexivity|].
  unfold room. repeat split; cbn; lia.
Qed.
