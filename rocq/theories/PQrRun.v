(** zsl_mtx_qrd_iter and zsl_mtx_eigenvalues on symmetric matrices: the values
    they report as the number of iterations grows. *)
From Coq Require Import Reals Lra ZArith.
Set Warnings "-notation-overridden,-ambiguous-paths".
From mathcomp Require Import all_ssreflect all_algebra.
From Coquelicot Require Import Coquelicot.
From Coq Require Import Lia List.
From Verif Require Import Base NumR BaseFacts SpecVec SpecReal SpecMtx SpecDecomp SpecReduc SpecSvd SpecEig MVec MMtx MDecomp
  PVec PVecR PDet PMtx PMtxOps PMtxR PFvec PChol PQr PBal PBalTerm PEigvec2 PSvdFwd PSvdDiag RField SpecMx PMx PDecompMx PQrSeq PQrLim PQrMx PQrPsd PQrEig.
Import ListNotations.
Import GRing.Theory.
Local Delimit Scope R_scope with Re.
Local Open Scope ring_scope.

Lemma to_Un_cv (u : nat -> R) (l : R) : is_lim_seq u l -> Un_cv u l.
Proof. by move/is_lim_seq_Reals. Qed.

Lemma same_psd n f g : same n f g -> psd n g -> psd n f.
Proof. move=> H P x. have := P x. congr Rle. apply: bigsum_ext => a Ha. apply: bigsum_ext => b Hb. by rewrite H. Qed.

Lemma same_opp n f g : same n f g -> no_opposite_eigenvalues n g -> no_opposite_eigenvalues n f.
Proof. by move=> H; rewrite /no_opposite_eigenvalues (same_mx _ _ _ H). Qed.

Lemma qr_iteration_cv bc n f tl mo : (0 < n)%coq_nat -> room n n mo -> symmetric n f -> no_opposite_eigenvalues n f ->
  exists (g : nat -> nat -> nat -> R) (l : nat -> R),
  (forall iter, mtx_qrd_iter bc (mat_of n n f tl) mo iter = Ok (Z0, mat_of n n (g iter) (rest mo)))
  /\ eigenvalues_of n f l
  /\ (forall i, (i < n)%coq_nat -> Un_cv (fun iter => g iter i i) (l i))
  /\ (forall i j, (i < n)%coq_nat -> (j < n)%coq_nat -> i <> j -> Un_cv (fun iter => g iter i j) 0%Re).
Proof.
move=> Hn Hm Sy NO. have [G [E [E0 St]]] := @qrd_iter_seq bc n f tl mo Hn Hm.
have S0 : symm n (G 0%N) by move=> i j Hi Hj; rewrite !E0 //; exact: Sy.
have [l L] := sym_cv n G Hn S0 St (same_opp _ _ _ E0 NO).
exists G, l. split=> //. split.
  rewrite /eigenvalues_of -(same_mx _ _ _ E0). exact: (char_cv n G l _ L (seq_char _ _ S0 St)).
split=> [i Hi|i j Hi Hj N]; apply: to_Un_cv.
- have := L i i Hi Hi. by rewrite /dg Nat.eqb_refl.
- have := L i j Hi Hj. rewrite /dg. by case: Nat.eqb_spec.
Qed.

Section Run.
Variables (bc : bool) (n : nat) (f : nat -> nat -> R) (tl : buf R).
Hypotheses (Hn : (0 < n)%coq_nat) (Sy : symmetric n f).

Lemma conj_sym g q : same n g (mmul n (mmul n (tr q) f) q) -> symm n g.
Proof.
move=> H i j Hi Hj. rewrite !H //.
have E : mx n n (mmul n (mmul n (tr q) f) q) = (mx n n (mmul n (mmul n (tr q) f) q))^T.
  rewrite !mx_mmul mx_tr !trmx_mul trmxK mulmxA. congr (_ *m _ *m _). rewrite -mx_tr. apply: mx_ext => a b Ha Hb. exact: Sy.
rewrite -mx_tr in E. exact: (mx_inj E Hi Hj).
Qed.

Lemma conj_char g q : orthogonal n q -> same n g (mmul n (mmul n (tr q) f) q) -> char_poly (mx n n g) = char_poly (mx n n f).
Proof. move=> O H. have [O1 _] := orth_mx n q O. exact: similar_char O1 (orth_similar n f g q O H). Qed.

Lemma conj_opp g q : orthogonal n q -> same n g (mmul n (mmul n (tr q) f) q) ->
  no_opposite_eigenvalues n f -> no_opposite_eigenvalues n g.
Proof. move=> O H NO x N. rewrite !eigenvalue_root_char (conj_char g q O H) -!eigenvalue_root_char. exact: NO. Qed.

Lemma eigenvalues_cv : no_opposite_eigenvalues n f ->
  exists (v : nat -> nat -> R) (l : nat -> R),
  (forall fuel iter, mtx_eigenvalues bc (S fuel) (Some 0%Re) (Some 0%Re) (mat_of n n f tl) (vec_def n) iter
     = Ok (Z0, vec_of (List.map (v iter) (List.seq 0 n)) []))
  /\ eigenvalues_of n f l
  /\ (forall i, (i < n)%coq_nat -> Un_cv (fun iter => v iter i) (l i)).
Proof.
move=> NO. have [G [q [O [E0 [St E]]]]] := @eigenvalues_seq bc n f tl Hn Sy.
have S0 := conj_sym _ q E0. have [l L] := sym_cv n G Hn S0 St (conj_opp _ q O E0 NO).
exists (fun k i => G k i i), l. split=> //. split.
  rewrite /eigenvalues_of -(conj_char _ q O E0). exact: (char_cv n G l _ L (seq_char _ _ S0 St)).
move=> i Hi. apply: to_Un_cv. have := L i i Hi Hi. by rewrite /dg Nat.eqb_refl.
Qed.

Lemma eigenvalues_psd_cv : positive_semidefinite n f ->
  exists (v : nat -> nat -> R) (l : nat -> R),
  (forall fuel iter, mtx_eigenvalues bc (S fuel) (Some 0%Re) (Some 0%Re) (mat_of n n f tl) (vec_def n) iter
     = Ok (Z0, vec_of (List.map (v iter) (List.seq 0 n)) []))
  /\ eigenvalues_of n f l /\ (forall i, (i < n)%coq_nat -> (0 <= l i)%Re)
  /\ (forall i, (i < n)%coq_nat -> Un_cv (fun iter => v iter i) (l i)).
Proof.
move=> P. have [G [q [O [E0 [St E]]]]] := @eigenvalues_seq bc n f tl Hn Sy.
have S0 := conj_sym _ q E0. have [l [Hl L]] := psd_cv G S0 St (psd_conj _ _ _ _ E0 P).
exists (fun k i => G k i i), l. split=> //. split.
  rewrite /eigenvalues_of -(conj_char _ q O E0). exact: (char_cv n G l _ L (seq_char _ _ S0 St)).
split=> // i Hi. apply: to_Un_cv. have := L i i Hi Hi. by rewrite /dg Nat.eqb_refl.
Qed.
End Run.

Lemma gram_symmetric r c m : symmetric c (gram r m).
Proof. move=> i j _ _. apply: bigsum_ext => k _. exact: Rmult_comm. Qed.

Lemma gram_psd r c m : positive_semidefinite c (gram r m).
Proof.
move=> x.
rewrite (_ : bigsum c _ = bigsum r (fun k => Rmult (bigsum c (fun a => Rmult (m k a) (x a))) (bigsum c (fun a => Rmult (m k a) (x a))))).
  by apply: bsum_nonneg => k _; exact: Rle_0_sqr.
transitivity (bigsum c (fun a => bigsum r (fun k => bigsum c (fun b => Rmult (Rmult (m k a) (x a)) (Rmult (m k b) (x b)))))).
  apply: bigsum_ext => a _. rewrite -bigsum_swap. apply: bigsum_ext => b _.
  rewrite /gram /mmul bigsum_mult_l bigsum_mult_r. apply: bigsum_ext => k _. ring.
rewrite bigsum_swap. apply: bigsum_ext => k _. rewrite bigsum_mult_r. apply: bigsum_ext => a _. by rewrite bigsum_mult_l.
Qed.

Lemma singular_cv bc r c m tl : (0 < c)%coq_nat ->
  exists (v : nat -> nat -> R) (l : nat -> R),
  (forall fuel iter, mtx_eigenvalues bc (S fuel) (Some 0%Re) (Some 0%Re) (mat_of c c (gram r m) tl) (vec_def c) iter
     = Ok (Z0, vec_of (List.map (v iter) (List.seq 0 c)) []))
  /\ char_poly ((mx r c m)^T *m mx r c m) = \prod_(i < c) ('X - (l i)%:P)
  /\ (forall i, (i < c)%coq_nat -> (0 <= l i)%Re)
  /\ (forall i, (i < c)%coq_nat -> Un_cv (fun iter => v iter i) (l i)).
Proof.
move=> Hc. have := eigenvalues_psd_cv bc c (gram r m) tl Hc (gram_symmetric r c m) (gram_psd r c m).
by rewrite /eigenvalues_of /gram mx_mmul mx_tr.
Qed.

Lemma opposite_refuted bc tl : exists v : nat -> nat -> R,
  (forall fuel iter, mtx_eigenvalues bc (S fuel) (Some 0%Re) (Some 0%Re) (mat_of 2 2 swap tl) (vec_def 2) iter
     = Ok (Z0, vec_of (List.map (v iter) (List.seq 0 2)) []))
  /\ forall l, eigenvalues_of 2 swap l -> ~ (forall i, (i < 2)%coq_nat -> Un_cv (fun iter => v iter i) (l i)).
Proof.
exists (fun _ _ => 0%Re). split.
  move=> fuel iter. by rewrite /vec_def eig_swap.
move=> l E H. have L : forall i, (i < 2)%coq_nat -> l i = 0%Re.
  move=> i Hi. apply: (UL_sequence _ _ _ (H i Hi)). move=> e He. exists 0%N => k _. by rewrite /R_dist Rminus_0_r Rabs_R0.
have /swap_eigen H1 : 1%Re = 1%Re \/ 1%Re = (-1)%Re by left.
rewrite eigenvalue_root_char E /root horner_prod in H1. move: H1. apply/negP.
have L0 := L 0%N ltac:(lia). have L1 := L 1%N ltac:(lia).
rewrite !big_ord_recl big_ord0 /= !hornerXsubC /bump /= L0 L1 mulr1 !subr0 mulr1. apply/eqP. exact: R1_neq_R0.
Qed.
