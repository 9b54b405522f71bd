(** The matrix facts behind the least-squares calibration. *)
From Coq Require Import Reals Lra ZArith.
Set Warnings "-notation-overridden,-ambiguous-paths".
From mathcomp Require Import all_ssreflect all_algebra.
From Coq Require Import Lia List.
From Verif Require Import Base NumR BaseFacts SpecVec SpecMtx SpecReal SpecStat SpecGauss SpecDecomp MVec MMtx PMtx PMtxOps PMtxR
  PDet PGauss RField SpecMx PMx PDetMx MStat PStat PStatReg PStatMult PStatMx.
Import ListNotations.
Import GRing.Theory.
Local Delimit Scope R_scope with Re.
Local Open Scope ring_scope.

Lemma pd_det n f : (forall i j, (i < n)%coq_nat -> (j < n)%coq_nat -> f i j = f j i) ->
  positive_definite n f -> \det (mx n n f) <> 0.
Proof.
move=> Sy P D. have /det0P [v Nz E] : \det (mx n n f) == 0 by apply/eqP.
pose x (i : nat) : R := if insub i is Some o then v ord0 o else 0%Re.
have Hx : forall o : 'I_n, x o = v ord0 o by move=> o; rewrite /x valK.
have [o Ho] : exists o, v ord0 o != 0.
  apply/existsP. apply: contraT => /existsPn H. case/negP: Nz. apply/eqP/rowP => o. rewrite !mxE.
  by apply/eqP; move: (H o); rewrite negbK.
have Q : (0 < bigsum n (fun a => bigsum n (fun b => x a * f a b * x b)))%Re.
  apply: P. exists o. split; first by apply/ltP. rewrite Hx. exact/eqP.
have Z : bigsum n (fun a => bigsum n (fun b => x a * f a b * x b)%Re) = 0%Re.
  rewrite PMtxR.bigsum_swap -[RHS](PMtxR.bigsum_0 n). apply: PMtxR.bigsum_ext => b Hb.
  rewrite -PMtxR.bigsum_mult_r. rewrite bigsum_sum.
  have /ltP Hb' := Hb. have := congr1 (fun A : 'rV[R]_n => A ord0 (Ordinal Hb')) E. rewrite !mxE => E1.
  have -> : \sum_(i < n) (x i * f i b)%Re = 0.
    rewrite -[RHS]E1. apply: eq_bigr => i _. by rewrite Hx !mxE.
  exact: Rmult_0_l.
rewrite Z in Q. lra.
Qed.

Lemma inv_pd bc f tl mi : room 3 3 mi ->
  (forall i j, (i < 3)%coq_nat -> (j < 3)%coq_nat -> f i j = f j i) -> positive_definite 3 f ->
  exists g, mtx_inv bc (mat_of 3 3 f tl) mi = Ok (Z0, mat_of 3 3 g (rest mi))
  /\ forall i j, (i < 3)%coq_nat -> (j < 3)%coq_nat -> mmul 3 f g i j = mid i j.
Proof.
move=> H Sy P. have D := pd_det 3 f Sy P. have [g [E1 E2]] := @inv_3 bc f tl mi H D.
exists g. split=> // i j Hi Hj. exact: (@right_inv 3 f g E2 D).
Qed.

Lemma bigsum_zero_all r (g : nat -> R) : (forall k, (k < r)%coq_nat -> (0 <= g k)%Re) -> (bigsum r g <= 0)%Re ->
  forall k, (k < r)%coq_nat -> g k = 0%Re.
Proof.
elim: r => [|r IH] H S k Hk; first lia. cbn [bigsum] in S.
have H1 : (0 <= bigsum r g)%Re by apply: bigsum_nonneg => j Hj; apply: H; lia.
have H2 := H r ltac:(lia).
case: (PeanoNat.Nat.eq_dec k r) => [->|N]; first lra.
apply: IH => //; [move=> j Hj; apply: H; lia|lra|lia].
Qed.

(** Points that satisfy a quadric exactly give back that quadric. *)
Lemma quad_fit_exact bc r f tl bb (cf : list R) :
  let X := fun i j => List.nth j (quad_terms (f i 0%N) (f i 1%N) (f i 2%N)) 0%Re in
  (9%N <= length bb)%coq_nat -> length cf = 9%N ->
  \det (mx 9 9 (gram r (fun _ => 1%Re) X)) <> 0 -> gj_clear 9 (gram r (fun _ => 1%Re) X) ->
  (forall i, (i < r)%coq_nat -> bigsum 9 (fun j => X i j * List.nth j cf 0)%Re = 1%Re) ->
  sta_quad_fit bc (mat_of r 3 f tl) (Vec 9 bb) = Ok (Z0, vec_of cf (skipn 9 bb)).
Proof.
move=> X Hb Lc D C Hq. have [b [Lb [E Min]]] := @quad_fit bc r f tl bb Hb D C.
rewrite E. do 3 f_equal.
have Z : (fit_error r 9 (fun _ => 1%Re) X (fun _ => 1%Re) (fun j => List.nth j cf 0%Re) = 0)%Re.
  rewrite /fit_error -[RHS](PMtxR.bigsum_0 r). apply: PMtxR.bigsum_ext => i Hi. rewrite Hq //. ring.
have M := Min (fun j => List.nth j cf 0%Re). rewrite -/X in M. rewrite Z in M.
have R1 : forall i, (i < r)%coq_nat -> bigsum 9 (fun j => X i j * List.nth j b 0)%Re = 1%Re.
  move=> i Hi.
  have Sq : forall k, (k < r)%coq_nat ->
     (0 <= 1 * ((1 - bigsum 9 (fun j => X k j * List.nth j b 0)) * (1 - bigsum 9 (fun j => X k j * List.nth j b 0))))%Re.
    move=> k _. rewrite Rmult_1_l. exact: Rle_0_sqr.
  have := @bigsum_zero_all r _ Sq M i Hi. rewrite Rmult_1_l => /Rmult_integral H. lra.
have K : kills 9 (gram r (fun _ => 1%Re) X) (fun j => List.nth j b 0 - List.nth j cf 0)%Re.
  move=> a Ha. rewrite /gram.
  transitivity (bigsum r (fun i => X i a * (bigsum 9 (fun j => X i j * List.nth j b 0) - bigsum 9 (fun j => X i j * List.nth j cf 0)))%Re).
    transitivity (bigsum 9 (fun j => bigsum r (fun i => X i a * (X i j * (List.nth j b 0 - List.nth j cf 0)))%Re)); last first.
      rewrite PMtxR.bigsum_swap. apply: PMtxR.bigsum_ext => i Hi. rewrite -PMtxR.bigsum_mult_l -bigsum_minus.
      f_equal. apply: PMtxR.bigsum_ext => j Hj. ring.
    apply: PMtxR.bigsum_ext => j Hj. rewrite PMtxR.bigsum_mult_r. apply: PMtxR.bigsum_ext => i Hi. ring.
  rewrite -[RHS](PMtxR.bigsum_0 r). apply: PMtxR.bigsum_ext => i Hi. rewrite R1 // Hq //. ring.
have N := @det_nonsing 9 _ D _ K.
apply: (nth_ext _ _ 0%Re 0%Re); first by rewrite Lb Lc.
move=> j Hj. rewrite Lb in Hj. have := N j Hj. lra.
Qed.

Lemma gram_pd r k X : independent_columns r k X -> positive_definite k (gram r (fun _ => 1%Re) X).
Proof.
move=> I x [i [Hi Hx]].
have E : bigsum k (fun a => bigsum k (fun b => x a * gram r (fun _ => 1) X a b * x b))%Re
         = bigsum r (fun i => bigsum k (fun j => X i j * x j) * bigsum k (fun j => X i j * x j))%Re.
  rewrite /gram.
  transitivity (bigsum k (fun a => bigsum k (fun b => bigsum r (fun i => (X i a * x a) * (X i b * x b)))))%Re.
    apply: PMtxR.bigsum_ext => a Ha. apply: PMtxR.bigsum_ext => b Hb.
    rewrite PMtxR.bigsum_mult_l PMtxR.bigsum_mult_r. apply: PMtxR.bigsum_ext => j Hj. ring.
  transitivity (bigsum k (fun a => bigsum r (fun i => (X i a * x a) * bigsum k (fun b => X i b * x b))))%Re.
    apply: PMtxR.bigsum_ext => a Ha. rewrite PMtxR.bigsum_swap. apply: PMtxR.bigsum_ext => j Hj.
    by rewrite PMtxR.bigsum_mult_l.
  rewrite PMtxR.bigsum_swap. apply: PMtxR.bigsum_ext => j Hj. by rewrite PMtxR.bigsum_mult_r.
rewrite E.
have Sq : forall j, (j < r)%coq_nat -> (0 <= bigsum k (fun b => X j b * x b) * bigsum k (fun b => X j b * x b))%Re.
  move=> j _. exact: Rle_0_sqr.
case: (Rle_lt_dec (bigsum r (fun i => bigsum k (fun j => X i j * x j) * bigsum k (fun j => X i j * x j))%Re) 0) => // L.
exfalso. apply: Hx. apply: (I x) => // j Hj.
have := @bigsum_zero_all r _ Sq L j Hj. move=> /Rmult_integral. by case.
Qed.

Lemma gram_sym r X i j : gram r (fun _ => 1%Re) X i j = gram r (fun _ => 1%Re) X j i.
Proof. rewrite /gram. apply: PMtxR.bigsum_ext => a Ha. ring. Qed.

Lemma quad_fit_points bc r f tl bb (cf : list R) :
  let X := fun i j => List.nth j (quad_terms (f i 0%N) (f i 1%N) (f i 2%N)) 0%Re in
  (9%N <= length bb)%coq_nat -> length cf = 9%N ->
  independent_columns r 9 X -> gj_clear 9 (gram r (fun _ => 1%Re) X) ->
  (forall i, (i < r)%coq_nat -> bigsum 9 (fun j => X i j * List.nth j cf 0)%Re = 1%Re) ->
  sta_quad_fit bc (mat_of r 3 f tl) (Vec 9 bb) = Ok (Z0, vec_of cf (skipn 9 bb)).
Proof.
move=> X Hb Lc I C Hq. apply: quad_fit_exact => //.
apply: pd_det; [move=> i j _ _; exact: gram_sym|exact: gram_pd].
Qed.
