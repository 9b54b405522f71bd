(** From the Laplace expansions and sums of the model to the determinants,
    adjugates and products of the Mathematical Components library. *)
From Coq Require Import Reals Lra.
Set Warnings "-notation-overridden,-ambiguous-paths".
From mathcomp Require Import all_ssreflect all_algebra.
From Coq Require Import Lia.
From Verif Require Import Base NumR SpecMtx SpecReal PMtxR PDet RField SpecMx.
Set Implicit Arguments.
Unset Strict Implicit.
Unset Printing Implicit Defensive.
Import GRing.Theory.
Local Delimit Scope R_scope with Re.
Local Open Scope ring_scope.

Lemma bigsum_sum n (g : nat -> R) : bigsum n g = \sum_(i < n) g i.
Proof.
elim: n => [|n IH]; first by rewrite big_ord0.
by rewrite big_ord_recr /= -IH.
Qed.

Lemma sgn_exp (k : nat) : sgn k = (-1) ^+ k :> R.
Proof.
rewrite /sgn.
have E : forall k, Nat.even k = ~~ odd k.
  fix IH 1. case=> [|[|m]] //=. by rewrite negbK IH.
rewrite E -signr_odd. by case: (odd k); rewrite /= ?expr0 ?expr1.
Qed.

Lemma skip_bump i a : skip_at i a = bump i a.
Proof. by rewrite /skip_at /bump; case: Nat.ltb_spec => /leP; case: leqP => //; lia. Qed.

Lemma mx_minor n f (i j : 'I_n.+1) : row' i (col' j (mx n.+1 n.+1 f)) = mx n n (minor i j f).
Proof. apply/matrixP => a b. by rewrite !mxE /minor !skip_bump. Qed.

Lemma ldet_det n f : ldet n f = \det (mx n n f).
Proof.
elim: n f => [|n IH] f; first by rewrite det_mx00.
rewrite (expand_det_row _ ord0).
have -> : ldet n.+1 f = bigsum n.+1 (fun g => ldet n (minor 0 g f) * f O g * sgn g) by [].
rewrite bigsum_sum. apply: eq_bigr => j _.
rewrite /cofactor mx_minor -IH mxE sgn_exp add0n.
have E : forall a b c : R, Rmult (Rmult a b) c = Rmult b (Rmult c a) by move=> a b c; ring.
exact: E.
Qed.

Lemma mx_ext r c f g :
  (forall i j, (i < r)%coq_nat -> (j < c)%coq_nat -> f i j = g i j) -> mx r c f = mx r c g.
Proof. move=> H. apply/matrixP => i j. rewrite !mxE. apply: H; exact/ltP. Qed.

Lemma mx_inj r c f g : mx r c f = mx r c g ->
  forall i j, (i < r)%coq_nat -> (j < c)%coq_nat -> f i j = g i j.
Proof.
move=> /matrixP H i j /ltP Hi /ltP Hj. by have := H (Ordinal Hi) (Ordinal Hj); rewrite !mxE.
Qed.

Lemma mx_mmul r n c f g : mx r c (mmul n f g) = mx r n f *m mx n c g.
Proof.
apply/matrixP => i j. rewrite !mxE /mmul bigsum_sum. apply: eq_bigr => k _. by rewrite !mxE.
Qed.

Lemma mx_id n : mx n n mid = 1%:M.
Proof.
apply/matrixP => i j. rewrite !mxE /mid.
have -> : Nat.eqb i j = (i == j).
  apply/idP/idP => [/PeanoNat.Nat.eqb_eq /val_inj ->//|/eqP ->]; exact: PeanoNat.Nat.eqb_refl.
by case: (i == j).
Qed.

Lemma mx_tr r c f : mx c r (fun i j => f j i) = (mx r c f)^T.
Proof. by apply/matrixP => i j; rewrite !mxE. Qed.

Lemma mx_adj n f : mx n n (fun i j => Rmult (ldet (n - 1) (minor j i f)) (sgn (i + j))) = \adj (mx n n f).
Proof.
case: n => [|n]; first by apply/matrixP => -[].
apply/matrixP => i j. rewrite !mxE /cofactor mx_minor -ldet_det sgn_exp.
rewrite subn1 addnC. exact: mulrC.
Qed.

Lemma mx_cof n f : mx n n (fun i j => Rmult (ldet (n - 1) (minor i j f)) (sgn (i + j))) = (\adj (mx n n f))^T.
Proof. rewrite -mx_adj -mx_tr. apply: mx_ext => i j _ _. by rewrite addnC. Qed.
