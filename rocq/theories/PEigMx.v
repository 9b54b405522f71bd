(** The eigenspaces for different eigenvalues are independent, so no more than n
    columns are found. *)
From Coq Require Import Reals Lra.
Set Warnings "-notation-overridden,-ambiguous-paths".
From mathcomp Require Import all_ssreflect all_algebra.
From Coq Require Import Lia List.
From Verif Require Import Base NumR SpecMtx SpecReal SpecDecomp SpecGauss SpecReduc SpecSvd PMtxR RField SpecMx PMx PReduc PEigvec.
Set Implicit Arguments.
Unset Strict Implicit.
Unset Printing Implicit Defensive.
Import GRing.Theory.
Local Delimit Scope R_scope with Re.
Local Open Scope ring_scope.

Lemma coff_sum cn m : coff cn m = (\sum_(j < m) cn j)%N.
Proof. elim: m => [|m IH]; first by rewrite big_ord0. by rewrite big_ord_recr /= IH. Qed.

Lemma kdim_rank n f l : (kdim n f l <= \rank (eigenspace (mx n n f)^T l))%N.
Proof.
set c := kdim n f l. set g := reduc n n (shifted f l).
pose K : 'M[R]_(c, n) := \matrix_(k, a) kcols n g a k.
have HR := reduc_reduced n (shifted f l).
have Rk : \rank K = c.
  apply/eqP. change (mxalgebra.row_free K). rewrite -kermx_eq0. apply/rowV0P => v /sub_kermxP vK.
  apply/rowP => j. rewrite [RHS]mxE.
  have Hi := @kcols_indep n g HR (fun k => if (k < c)%N =P true is ReflectT H then v ord0 (Ordinal H) else 0).
  have Ex : forall k : 'I_c, (if (k < c)%N =P true is ReflectT H then v ord0 (Ordinal H) else 0) = v ord0 k.
    move=> k. case: eqP => [H|]; last by rewrite ltn_ord. congr (v _ _). exact: val_inj.
  rewrite -(Ex j). apply: Hi; last exact/ltP.
  move=> i /ltP Hi. rewrite bigsum_sum.
  have /rowP/(_ (Ordinal Hi)) := vK. rewrite !mxE => E. rewrite -[RHS]E.
  apply: eq_bigr => k _. rewrite Ex mxE. exact: mulrC || by [].
rewrite -Rk. apply: mxrankS. apply/eigenspaceP. apply/matrixP => k i. rewrite !mxE.
have Hk : (k < length (frees n g))%coq_nat by apply/ltP; exact: ltn_ord.
have [_ H] := @kcols_eigen n f l k Hk.
have := H i. move=> /(_ (ltP (ltn_ord i))). rewrite bigsum_sum => E.
rewrite -[RHS]E. apply: eq_bigr => a _. rewrite !mxE. exact: mulrC.
Qed.

Lemma map_nth_seq_R (L : list R) : [seq List.nth j L 0%Re | j <- iota 0 (length L)] = L.
Proof.
apply: (@eq_from_nth _ 0%Re); first by rewrite size_map size_iota.
move=> i. rewrite size_map size_iota => Hi. rewrite (nth_map 0%N) ?size_iota // nth_iota // add0n.
elim: L i Hi => [|x L IH] [|i] //= Hi. exact: IH.
Qed.

(** the columns of a block span the eigenspace *)
Lemma rank_kdim n f l : \rank (eigenspace (mx n n f)^T l) = kdim n f l.
Proof.
apply/eqP. rewrite eqn_leq kdim_rank andbT.
set c := kdim n f l. set g := reduc n n (shifted f l).
pose K : 'M[R]_(c, n) := \matrix_(k, a) kcols n g a k.
have HR := reduc_reduced n (shifted f l).
suff H : (eigenspace (mx n n f)^T l <= K)%MS by apply: leq_trans (mxrankS H) (rank_leq_row K).
apply/row_subP => i0. set v := row i0 _.
have Hv : (v <= eigenspace (mx n n f)^T l)%MS by apply: row_sub.
move/eigenspaceP: Hv => Hv. clearbody v.
pose x := fun a => if (a < n)%N =P true is ReflectT H then v ord0 (Ordinal H) else 0.
have Ex : forall k : 'I_n, x k = v ord0 k.
  move=> k. rewrite /x. case: eqP => [H|]; last by rewrite ltn_ord. congr (v _ _). exact: val_inj.
have Sx : solves n g x.
  apply/(reduc_solves (shifted f l) x (Nat.le_refl n)). apply/solves_shifted => i /ltP Hi.
  rewrite bigsum_sum. have /rowP/(_ (Ordinal Hi)) := Hv. rewrite !mxE => E.
  rewrite (Ex (Ordinal Hi)).
  apply: (etrans _ E). apply: eq_bigr => k _. rewrite Ex !mxE. exact: mulrC.
apply/submxP. exists (\row_k x (List.nth k (frees n g) 0%N)).
apply/rowP => a. rewrite -Ex (kcols_span HR Sx (ltP (ltn_ord a))) bigsum_sum mxE.
apply: eq_bigr => k _. by rewrite !mxE.
Qed.

Lemma kdims_sum n f (L : list R) :
  coff (fun j => kdim n f (List.nth j L 0%Re)) (length L) = (\sum_(a <- L) \rank (eigenspace (mx n n f)^T a))%N.
Proof.
rewrite coff_sum -[in RHS](map_nth_seq_R L) big_map. rewrite -(big_mkord xpredT (fun j => kdim n f (List.nth j L 0%Re))).
rewrite /index_iota subn0. apply: eq_bigr => j _. by rewrite rank_kdim.
Qed.

Lemma kdims_le n f (L : list R) : NoDup L ->
  (coff (fun j => kdim n f (List.nth j L 0%Re)) (length L) <= n)%coq_nat.
Proof.
move=> ND. apply/leP. rewrite coff_sum.
have D : mxdirect (\sum_(j < length L) eigenspace (mx n n f)^T (List.nth j L 0%Re)).
  apply: mxdirect_sum_eigenspace => i j _ _ E. apply: val_inj.
  exact: (proj1 (NoDup_nth L 0%Re) ND i j (ltP (ltn_ord i)) (ltP (ltn_ord j)) E).
apply: (@leq_trans (\sum_(j < length L) \rank (eigenspace (mx n n f)^T (List.nth j L 0%Re)))%N).
  apply: leq_sum => j _. exact: kdim_rank.
have -> : (\sum_(j < length L) \rank (eigenspace (mx n n f)^T (List.nth j L 0%Re)))%N
  = \rank (\sum_(j < length L) eigenspace (mx n n f)^T (List.nth j L 0%Re))%MS.
  by move/mxdirectP: D => /= ->.
exact: rank_leq_col.
Qed.

Lemma delta_mx n : mx n n delta = 1%:M.
Proof. exact: mx_id. Qed.

Lemma columns_orthogonal n V : orthonormal_columns n n V -> orthogonal n V.
Proof.
move=> H. have E : (mx n n V)^T *m mx n n V = 1%:M.
  rewrite -delta_mx -mx_tr -mx_mmul. apply: mx_ext => i j Hi Hj. exact: H.
split=> i j Hi Hj; first exact: H.
have E2 := mulmx1C E. rewrite -delta_mx -mx_tr -mx_mmul in E2. exact: (mx_inj E2).
Qed.
