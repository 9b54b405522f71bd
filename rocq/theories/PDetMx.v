(** Determinant, adjoint, inverse and elimination, stated with the matrices of
    the Mathematical Components library. *)
From Coq Require Import Reals Lra ZArith.
Set Warnings "-notation-overridden,-ambiguous-paths".
From mathcomp Require Import all_ssreflect all_algebra.
From Coq Require Import Lia List.
From Verif Require Import Base NumR BaseFacts SpecVec SpecMtx SpecReal SpecGauss MVec MMtx PMtx PMtxOps PMtxR
  PDet PGauss PWedge RField SpecMx PMx.
Import ListNotations.
Set Implicit Arguments.
Unset Strict Implicit.
Unset Printing Implicit Defensive.
Import GRing.Theory.
Local Delimit Scope R_scope with Re.
Local Open Scope ring_scope.

Lemma deter_det bc n f tl :
  (0 < n)%coq_nat -> mtx_deter bc (mat_of n n f tl) = Ok (Z0, Some (\det (mx n n f))).
Proof. by move=> H; rewrite mtx_deter_ok // ldet_det. Qed.

Lemma det_unit n (A : 'M[R]_n) : \det A <> 0 -> A \in unitmx.
Proof. by move=> /eqP H; rewrite unitmxE unitfE. Qed.

Lemma mx_col_kills n f x : kills n f x -> mx n n f *m mx n 1 (fun i _ => x i) = 0.
Proof.
move=> K. apply/matrixP => i j. rewrite !mxE.
rewrite -[RHS](K i); last exact/ltP.
rewrite bigsum_sum. apply: eq_bigr => k _. by rewrite !mxE.
Qed.

Lemma det_nonsing n f : \det (mx n n f) <> 0 -> nonsing n f.
Proof.
move=> /det_unit U x /mx_col_kills K i /ltP Hi.
have := mulKmx U (mx n 1 (fun i _ => x i)). rewrite K mulmx0 => /matrixP /(_ (Ordinal Hi) ord0).
by rewrite !mxE.
Qed.

Lemma adj_products n f g :
  mx n n g = \adj (mx n n f) ->
  mx n n f *m mx n n g = (\det (mx n n f))%:M /\ mx n n g *m mx n n f = (\det (mx n n f))%:M.
Proof. by move=> ->; rewrite mul_mx_adj mul_adj_mx. Qed.

Lemma adjoint_3 bc f tl ma :
  room 3 3 ma ->
  exists g, mtx_adjoint bc (mat_of 3 3 f tl) ma = Ok (Z0, mat_of 3 3 g (rest ma))
  /\ mx 3 3 g = \adj (mx 3 3 f).
Proof.
move=> H. exists (adj3 f). split; first exact: mtx_adjoint_3x3_ok.
by rewrite -mx_adj.
Qed.

Lemma adjoint_n bc n f tl ma :
  (1 < n)%coq_nat -> n <> 3%N -> room n n ma ->
  exists g, mtx_adjoint bc (mat_of n n f tl) ma = Ok (Z0, mat_of n n g (rest ma))
  /\ mx n n g = (\adj (mx n n f))^T.
Proof.
move=> Hn H3 H. eexists. split; first by apply: mtx_adjoint_ok.
by rewrite -mx_cof.
Qed.

Lemma inv_3 bc f tl mi :
  room 3 3 mi -> \det (mx 3 3 f) <> 0 ->
  exists g, mtx_inv bc (mat_of 3 3 f tl) mi = Ok (Z0, mat_of 3 3 g (rest mi))
  /\ mx 3 3 g = invmx (mx 3 3 f).
Proof.
move=> H D. exists (fun i j => Rmult (adj3 f i j) (Rdiv 1 (ldet 3 f))). split.
  rewrite /mtx_inv /= mtx_inv_3x3_ok //. case: Req_EM_T => E; last by []. exfalso. apply: D. by rewrite -ldet_det.
rewrite /invmx (det_unit D) -mx_adj. apply/matrixP => i j. rewrite !mxE /adj3 -ldet_det.
rewrite -[(ldet 3 f)^-1]/(Rinvx (ldet 3 f)) /Rinvx. case: Req_EM_T => [E|Nz].
  exfalso. apply: D. by rewrite -ldet_det.
rewrite /Rdiv Rmult_1_l. exact: Rmult_comm.
Qed.

Lemma left_inv n f h :
  (forall i j, (i < n)%coq_nat -> (j < n)%coq_nat -> mmul n h f i j = mid i j) ->
  mx n n h = invmx (mx n n f).
Proof.
move=> H. have E : mx n n h *m mx n n f = 1%:M by rewrite -mx_mmul -mx_id; apply: mx_ext.
have U : mx n n f \in unitmx by case: (mulmx1_unit E).
by rewrite -[LHS]mulmx1 -(mulmxV U) mulmxA E mul1mx.
Qed.

Lemma inv_n bc n f tl mi :
  (0 < n)%coq_nat -> room n n mi -> \det (mx n n f) <> 0 -> (n <> 3%N -> gj_clear n f) ->
  exists g, mtx_inv bc (mat_of n n f tl) mi = Ok (Z0, mat_of n n g (rest mi))
  /\ mx n n g = invmx (mx n n f).
Proof.
move=> Hn Hm D C. case: (PeanoNat.Nat.eq_dec n 3%N) => E.
  subst n. exact: inv_3.
have D' : ldet n f <> 0%Re by rewrite ldet_det.
have [h [E1 E2]] := mtx_inv_ok bc tl Hn E Hm D' (det_nonsing D) (C E).
exists h. split=> //. exact: left_inv.
Qed.

Lemma right_inv n f h : mx n n h = invmx (mx n n f) -> \det (mx n n f) <> 0 ->
  forall i j, (i < n)%coq_nat -> (j < n)%coq_nat -> mmul n f h i j = mid i j.
Proof.
move=> E D. apply: mx_inj. by rewrite mx_mmul mx_id E mulmxV // det_unit.
Qed.

(** Elimination of a column *)
Lemma elim_ops r f i j : (i < r)%coq_nat ->
  exists E E' : 'M[R]_r, E *m E' = 1%:M /\
  forall c h, mx r c (gelim f h i j) = E *m mx r c h.
Proof.
move=> Hi. exists (mx r r (gelim f mid i j)), (mx r r (gelim_back f mid i j)).
have A : forall c h, mx r c (gelim f h i j) = mx r r (gelim f mid i j) *m mx r c h.
  move=> c h. rewrite -mx_mmul. apply: mx_ext => a b Ha Hb. by rewrite gelim_mmul.
split=> //. rewrite -A -mx_id. apply: mx_ext => a b _ _. exact: gelim_undo.
Qed.

(** Wedge product *)
Lemma wedge_n bc n f tf b :
  (4 <= n)%coq_nat -> (n <= length b)%coq_nat ->
  \det (mx n n (wedge_mx n f)) = 0 \/ gj_clear n (wedge_mx n f) ->
  exists w, mtx_vec_wedge bc (mat_of (n - 1) n f tf) (Vec n b)
            = Ok (Z0, Vec n (cells (map w (List.seq 0 n)) ++ skipn n b))
  /\ (forall i, (i < n - 1)%coq_nat -> bigsum n (fun j => Rmult (f i j) (w j)) = 0).
Proof.
move=> H4 Hb H.
have Hn : (0 < n)%coq_nat by lia.
case: (Req_EM_T (\det (mx n n (wedge_mx n f))) 0) => D.
  have D' : ldet n (wedge_mx n f) = 0 by rewrite ldet_det.
  eexists; split.
    apply: (@wedge_ok bc n f tf b mid) => //.
    by rewrite (@mtx_inv_singular bc n _ [] _ Hn (@room_def R n n) D') rest_def.
  move=> i Hi. rewrite D'. rewrite (bigsum_ext n _ (fun _ => 0%Re)) ?bigsum_0 //.
  move=> k _. by rewrite !Rmult_0_r.
have C : gj_clear n (wedge_mx n f) by case: H.
have [h [E1 E2]] := inv_n bc [] Hn (@room_def R n n) D (fun _ => C).
rewrite rest_def in E1.
eexists; split; first by apply: (@wedge_ok bc n f tf b h).
apply: wedge_orth => //. exact: right_inv.
Qed.

(** ... whose components are the signed maximal minors of the n-1 rows *)
Lemma wedge_minors bc n f tf b :
  (4 <= n)%coq_nat -> (n <= length b)%coq_nat ->
  \det (mx n n (wedge_mx n f)) <> 0 -> gj_clear n (wedge_mx n f) ->
  exists w, mtx_vec_wedge bc (mat_of (n - 1) n f tf) (Vec n b)
            = Ok (Z0, Vec n (cells (map w (List.seq 0 n)) ++ skipn n b))
  /\ forall j, (j < n)%coq_nat ->
       w j = (-1) ^+ (n - 1 + j) * \det (mx (n - 1) (n - 1) (fun a c => f a (skip_at j c))).
Proof.
move=> H4 Hb D C. have Hn : (0 < n)%coq_nat by lia.
have [h [E1 E2]] := inv_n bc [] Hn (@room_def R n n) D (fun _ => C).
rewrite rest_def in E1.
eexists; split; first by apply: (@wedge_ok bc n f tf b h).
move=> j /ltP Hj. rewrite ldet_det.
case: n H4 Hb D C Hn h E1 E2 Hj => [|n] H4 Hb D C Hn h E1 E2 Hj; first by lia.
have -> : (n.+1 - 1)%coq_nat = n by lia. rewrite subn1 /=.
have -> : h j n = invmx (mx n.+1 n.+1 (wedge_mx n.+1 f)) (Ordinal Hj) ord_max by rewrite -E2 mxE.
rewrite /invmx (det_unit D) !mxE.
have U : \det (mx n.+1 n.+1 (wedge_mx n.+1 f)) \is a GRing.unit by rewrite -unitmxE det_unit.
have -> : forall a b c : R, Rmult (a^-1 * b) c = a^-1 * b * c by [].
rewrite mulrAC mulVr // mul1r /cofactor mx_minor /=. congr (_ * \det _). apply: mx_ext => a c Ha Hc.
rewrite /minor /wedge_mx. have -> : skip_at n a = a by rewrite /skip_at (proj2 (PeanoNat.Nat.ltb_lt a n)).
by rewrite (proj2 (PeanoNat.Nat.ltb_lt a.+1 n.+1)); last lia.
Qed.

Lemma wedge_singular bc n f tf b :
  (4 <= n)%coq_nat -> (n <= length b)%coq_nat -> \det (mx n n (wedge_mx n f)) = 0 ->
  mtx_vec_wedge bc (mat_of (n - 1) n f tf) (Vec n b)
  = Ok (Z0, Vec n (cells (map (fun _ => 0%Re) (List.seq 0 n)) ++ skipn n b)).
Proof.
move=> H4 Hb D. have Hn : (0 < n)%coq_nat by lia.
have D' : ldet n (wedge_mx n f) = 0 by rewrite ldet_det.
rewrite (@wedge_ok bc n f tf b mid) //.
- rewrite D'. do 2 f_equal. f_equal. f_equal. f_equal. apply: map_ext => i. exact: Rmult_0_r.
- by rewrite (@mtx_inv_singular bc n _ [] _ Hn (@room_def R n n) D') rest_def.
Qed.
