(** Properties C92-C94: multiple regression and quadric fitting
    (src/statistics.c), in real arithmetic.

    Vocabulary (SpecStat): [with_ones f] is the data matrix f with a column of
    ones in front; [fit_error r k d x y b] the sum over the r observations of
    d i * (y i - sum_j x i j * b j)^2; [gram r d x] the matrix X^T D X;
    [r_squared] the coefficient of determination.  [gj_clear]: the elimination
    meets no non-zero number below 1e-6 (see C34). *)
From Coq Require Import Reals Lra ZArith Psatz.
Set Warnings "-notation-overridden,-ambiguous-paths".
From mathcomp Require Import all_ssreflect all_algebra.
From Coq Require Import Lia List.
From Verif Require Import Base NumR BaseFacts SpecVec SpecMtx SpecReal SpecStat SpecGauss MVec MMtx PMtx PMtxOps PMtxR
  PDet RField SpecMx PMx PDetMx Libm LibmR MStat PStat PStatReg PStatMult PStatMx.
Import ListNotations.
Import GRing.Theory.
Local Delimit Scope R_scope with Re.
Local Delimit Scope Z_scope with Ze.
Local Open Scope ring_scope.

(** * C92: multiple regression *)
Theorem C92_mult_linear_reg :
  forall bc r c f tl ys ty bb,
  length ys = r -> (1%N <= r)%coq_nat -> (Nat.add c 1%N <= length bb)%coq_nat ->
  (/ 1000000 <= Rabs (\det (mx (Nat.add c 1%N) (Nat.add c 1%N) (gram r (fun _ => 1%Re) (with_ones f)))))%Re ->
  (Nat.add c 1%N <> 3%N -> gj_clear (Nat.add c 1%N) (gram r (fun _ => 1%Re) (with_ones f))) ->
  exists b, length b = Nat.add c 1%N
  /\ sta_mult_linear_reg bc (mat_of r c f tl) (vec_of ys ty) (Vec (Nat.add c 1%N) bb)
     = Ok (Z0, (vec_of b (skipn (Nat.add c 1%N) bb),
                Some (r_squared r (Nat.add c 1%N) (with_ones f) ys (fun j => List.nth j b 0%Re))))
  /\ forall b', (fit_error r (Nat.add c 1%N) (fun _ => 1%Re) (with_ones f) (fun i => List.nth i ys 0%Re) (fun j => List.nth j b 0%Re)
               <= fit_error r (Nat.add c 1%N) (fun _ => 1%Re) (with_ones f) (fun i => List.nth i ys 0%Re) b')%Re.
Proof. exact: mult_reg. Qed.
Print Assumptions C92_mult_linear_reg.

Theorem C92_collinear_rejected :
  forall bc r c f tl ys ty bb, length ys = r ->
  (Rabs (\det (mx (Nat.add c 1%N) (Nat.add c 1%N) (gram r (fun _ => 1%Re) (with_ones f)))) < / 1000000)%Re ->
  sta_mult_linear_reg bc (mat_of r c f tl) (vec_of ys ty) (Vec (Nat.add c 1%N) bb)
  = Ok (Z.opp EINVAL, (Vec (Nat.add c 1%N) bb, None)).
Proof. exact: mult_reg_sing. Qed.
Print Assumptions C92_collinear_rejected.

Theorem C92_rejects :
  forall (x : mtx R) (y b : vec R),
  mrows x <> vsz y \/ Nat.add (mcols x) 1%N <> vsz b ->
  sta_mult_linear_reg true x y b = Ok (Z.opp EINVAL, (b, None)).
Proof.
move=> x y b H. rewrite /sta_mult_linear_reg. cbn [andb].
case: (PeanoNat.Nat.eqb_spec (mrows x) (vsz y)) => E1;
case: (PeanoNat.Nat.eqb_spec (Nat.add (mcols x) 1%N) (vsz b)) => E2 //=. by case: H.
Qed.
Print Assumptions C92_rejects.

(** The example data: (x, y) = (0,0), (1,0), (1,1). *)
Definition ex_x (i _ : nat) : R := match i with O => 0%Re | _ => 1%Re end.
Definition ex_y : list R := [0; 0; 1]%Re.
Definition ex_w : list R := [1; 1; 2]%Re.

Lemma gj_clear_2 (f : nat -> nat -> R) :
  (1 / 1000000 <= f 0%N 0%N)%Re -> (1 / 1000000 <= f 1%N 0%N)%Re ->
  (1 / 1000000 <= f 0%N 1%N / f 0%N 0%N)%Re ->
  (1 / 1000000 <= f 1%N 1%N - f 1%N 0%N / f 0%N 0%N * f 0%N 1%N)%Re -> gj_clear 2 f.
Proof.
move=> H1 H2 H3 H4 k i Hk Hi. right.
case: k Hk => [|[|k]] Hk; last lia.
- case: i Hi => [|[|i]] Hi; last lia; rewrite /gj Rabs_right; lra.
- rewrite /gj /pivoted. case: Req_EM_T => E; first (exfalso; lra).
  case: i Hi => [|[|i]] Hi; last lia; rewrite /cleared /=; rewrite Rabs_right; lra.
Qed.

Example C92_example :
  (/ 1000000 <= Rabs (\det (mx (Nat.add 1%N 1%N) (Nat.add 1%N 1%N) (gram 3 (fun _ => 1%Re) (with_ones ex_x)))))%Re
  /\ gj_clear (Nat.add 1%N 1%N) (gram 3 (fun _ => 1%Re) (with_ones ex_x)).
Proof.
split.
- rewrite -ldet_det ldet_2 /gram /with_ones /ex_x /=. rewrite Rabs_right; lra.
- apply: gj_clear_2; rewrite /gram /with_ones /ex_x /=; lra.
Qed.

(** * C93: weighted multiple regression.  The weight of an observation is the
    reciprocal of the weight passed in, and the caller's weights are replaced by
    their reciprocals. *)
Theorem C93_weighted_partial :
  forall bc r c f tl ys ty bb ws tw,
  let d := fun i => Rinv (List.nth i ws 0%Re) in
  length ys = r -> (1%N <= r)%coq_nat -> (Nat.add c 1%N <= length bb)%coq_nat -> length ws = r ->
  Forall (fun w => / 1000000 <= w)%Re ws ->
  (/ 1000000 <= Rabs (\det (mx (Nat.add c 1%N) (Nat.add c 1%N) (gram r d (with_ones f)))))%Re ->
  (Nat.add c 1%N <> 3%N -> gj_clear (Nat.add c 1%N) (gram r d (with_ones f))) ->
  exists b, length b = Nat.add c 1%N
  /\ sta_weighted_mult_linear_reg bc (mat_of r c f tl) (vec_of ys ty) (vec_of ws tw) (Vec (Nat.add c 1%N) bb)
     = Ok (Z0, (vec_of (map Rinv ws) tw, vec_of b (skipn (Nat.add c 1%N) bb),
                Some (r_squared r (Nat.add c 1%N) (with_ones f) ys (fun j => List.nth j b 0%Re))))
  /\ forall b', (fit_error r (Nat.add c 1%N) d (with_ones f) (fun i => List.nth i ys 0%Re) (fun j => List.nth j b 0%Re)
               <= fit_error r (Nat.add c 1%N) d (with_ones f) (fun i => List.nth i ys 0%Re) b')%Re.
Proof. move=> bc r c f tl ys ty bb ws tw d. exact: wmult_reg. Qed.
Print Assumptions C93_weighted_partial.

Lemma C93_example :
  let d := fun i => Rinv (List.nth i ex_w 0%Re) in
  (/ 1000000 <= Rabs (\det (mx (Nat.add 1%N 1%N) (Nat.add 1%N 1%N) (gram 3 d (with_ones ex_x)))))%Re
  /\ gj_clear (Nat.add 1%N 1%N) (gram 3 d (with_ones ex_x))
  /\ Forall (fun w => / 1000000 <= w)%Re ex_w.
Proof.
move=> d. split; [|split].
- rewrite -ldet_det ldet_2 /gram /d /ex_w /with_ones /ex_x /=. rewrite Rabs_right; lra.
- apply: gj_clear_2; rewrite /gram /d /ex_w /with_ones /ex_x /=; lra.
- rewrite /ex_w. repeat constructor; lra.
Qed.

(** The coefficients do not minimise the error weighted with the weights
    passed in. *)
Theorem C93_weights_refuted :
  forall bc tl ty tw, exists b q,
  sta_weighted_mult_linear_reg bc (mat_of 3 1 ex_x tl) (vec_of ex_y ty) (vec_of ex_w tw) (Vec 2 (fresh 2))
  = Ok (Z0, (vec_of (map Rinv ex_w) tw, vec_of b [], Some q))
  /\ exists b', (fit_error 3 2 (fun i => List.nth i ex_w 0%Re) (with_ones ex_x) (fun i => List.nth i ex_y 0%Re) b'
         < fit_error 3 2 (fun i => List.nth i ex_w 0%Re) (with_ones ex_x) (fun i => List.nth i ex_y 0%Re) (fun j => List.nth j b 0%Re))%Re.
Proof.
move=> bc tl ty tw. have [H1 [H2 H3]] := C93_example.
have [b [HL [HE HM]]] := @wmult_reg bc 3 1 ex_x tl ex_y ty (fresh 2) ex_w tw erefl
  ltac:(lia) ltac:(cbn; lia) erefl H3 H1 (fun _ => H2).
exists b, (r_squared 3 2 (with_ones ex_x) ex_y (fun j => List.nth j b 0%Re)). split; first exact: HE.
exists (fun j => match j with O => 0%Re | _ => (2/3)%Re end).
have := HM (fun j => match j with O => 0%Re | _ => (1/3)%Re end).
case: b HL {HM HE} => [|b0 [|b1 [|? ?]]] // _. rewrite /fit_error /with_ones /ex_x /ex_y /ex_w /=.
set s := (b0 + b1)%Re. move=> H.
have E : s = (1 / 3)%Re.
  have : ((s - 1/3) * (s - 1/3) <= 0)%Re.
    have := Rle_0_sqr b0. rewrite /Rsqr. rewrite /s in H |- *. nra.
  move=> H'. have := Rle_0_sqr (s - 1/3). rewrite /Rsqr => H''.
  have : ((s - 1/3) * (s - 1/3) = 0)%Re by lra. move=> /Rmult_integral [] *; lra.
have := Rle_0_sqr b0. rewrite /Rsqr.
have -> : (b1 = 1/3 - b0)%Re by (move: E; rewrite /s; lra).
nra.
Qed.
Print Assumptions C93_weights_refuted.

(** A weight below 1e-6 is rejected. *)
Theorem C93_rejects :
  forall (x : mtx R) ys ty ws tw b,
  mrows x <> length ys \/ Nat.add (mcols x) 1%N <> vsz b \/ length ws <> length ys
  \/ Exists (fun w => Rabs w < / 1000000)%Re ws ->
  sta_weighted_mult_linear_reg true x (vec_of ys ty) (vec_of ws tw) b
  = Ok (Z.opp EINVAL, (vec_of ws tw, b, None)).
Proof.
move=> x ys ty ws tw b H. rewrite /sta_weighted_mult_linear_reg. cbn [vsz vec_of vbuf].
case: (PeanoNat.Nat.eqb_spec (mrows x) (length ys)) => E1; last reflexivity.
case: (PeanoNat.Nat.eqb_spec (Nat.add (mcols x) 1%N) (vsz b)) => E2; last reflexivity.
case: (PeanoNat.Nat.eqb_spec (mrows x) (length ws)) => E3; last reflexivity.
cbn [negb orb].
erewrite for_exit_forall with (test := fun a => negb (Rltb (Rabs a) (/ 1000000))) (r := fun _ => tt) (d := 0%Re).
- cbn [bind].
  have [//|[//|[N|/Exists_exists [w [Hw Hs]]]]] := H; first by rewrite -E3 -E1 in N.
  case F : (find _ ws) => [a|] //.
  have := find_none _ _ F w Hw. by rewrite (Rltb_true _ _ Hs).
- move=> i Hi. rewrite (@rd_cells_app R _ _ _ 0%Re) //. cbn [bind]. rewrite lit_1e6.
  cbn [flt fabs NumR]. by case: (Rltb _ _).
Qed.
Print Assumptions C93_rejects.

(** * C94: quadric fitting *)
Theorem C94_quad_fit :
  forall bc r p tl bb,
  let x := fun i j => List.nth j (quad_terms (p i 0%N) (p i 1%N) (p i 2%N)) 0%Re in
  (9%N <= length bb)%coq_nat ->
  \det (mx 9 9 (gram r (fun _ => 1%Re) x)) <> 0 -> gj_clear 9 (gram r (fun _ => 1%Re) x) ->
  exists b, length b = 9%N
  /\ sta_quad_fit bc (mat_of r 3 p tl) (Vec 9 bb) = Ok (Z0, vec_of b (skipn 9 bb))
  /\ forall b', (fit_error r 9 (fun _ => 1%Re) x (fun _ => 1%Re) (fun j => List.nth j b 0%Re)
               <= fit_error r 9 (fun _ => 1%Re) x (fun _ => 1%Re) b')%Re.
Proof. move=> bc r p tl bb x. exact: quad_fit. Qed.
Print Assumptions C94_quad_fit.

Theorem C94_rejects :
  forall (m : mtx R) b, mcols m <> 3%N \/ vsz b <> 9%N ->
  sta_quad_fit true m b = Ok (Z.opp EINVAL, b).
Proof.
move=> m b H. rewrite /sta_quad_fit. cbn [andb].
case: (PeanoNat.Nat.eqb_spec (mcols m) 3) => E1; case: (PeanoNat.Nat.eqb_spec (vsz b) 9) => E2 //=.
by case: H.
Qed.
Print Assumptions C94_rejects.

(** The corners of a cube and the centres of its faces meet the hypotheses. *)
Definition cube_x : list R := [1;1;1;1;-1;-1;-1;-1; 1;-1;0;0;0;0]%Re.
Definition cube_y : list R := [1;1;-1;-1;1;1;-1;-1; 0;0;1;-1;0;0]%Re.
Definition cube_z : list R := [1;-1;1;-1;1;-1;1;-1; 0;0;0;0;1;-1]%Re.
Definition cube (i j : nat) : R :=
  List.nth i (match j with O => cube_x | 1%N => cube_y | _ => cube_z end) 0%Re.
Definition cube_gram (a b : nat) : R :=
  if (a <? 3)%coq_nat && (b <? 3)%coq_nat then if Nat.eqb a b then 10%Re else 8%Re
  else if Nat.eqb a b then if (a <? 6)%coq_nat then 32%Re else 40%Re else 0%Re.

Lemma cube_gram_ok a b : (a < 9%N)%coq_nat -> (b < 9%N)%coq_nat ->
  gram 14 (fun _ => 1%Re) (fun i j => List.nth j (quad_terms (cube i 0%N) (cube i 1%N) (cube i 2%N)) 0%Re) a b
  = cube_gram a b.
Proof.
move=> Ha Hb.
do 9 (destruct a as [|a]; [do 9 (destruct b as [|b]; [cbv -[Rplus Rmult IZR]; ring|]); exfalso; lia|]).
exfalso; lia.
Qed.

Lemma gj_step n k f (s s' : nat -> nat -> R) : (k < n)%coq_nat -> s k k <> 0%Re ->
  (forall a b, (a < n)%coq_nat -> (k <= b)%coq_nat -> (b < n)%coq_nat -> gj n k f a b = s a b) ->
  (forall a b, (a < n)%coq_nat -> (k < b)%coq_nat -> (b < n)%coq_nat ->
     (if Nat.eqb a k then s k b / s k k else s a b - s a k / s k k * s k b)%Re = s' a b) ->
  forall a b, (a < n)%coq_nat -> (S k <= b)%coq_nat -> (b < n)%coq_nat -> gj n (S k) f a b = s' a b.
Proof.
move=> Hk Hs H H' a b Ha Hb Hn. cbn [gj]. rewrite /pivoted (H k k) //.
case: Req_EM_T => // _. rewrite /cleared -H' //.
case: (Nat.eqb a k); rewrite !H //; lia.
Qed.

Definition cube_1 (a b : nat) : R :=
  if (b <? 3)%coq_nat then
    match a with
    | O => (8 / 10)%Re
    | _ => if (a <? 3)%coq_nat then if Nat.eqb a b then (36 / 10)%Re else (16 / 10)%Re else 0%Re
    end
  else cube_gram a b.
Definition cube_2 (a b : nat) : R :=
  if (b <? 3)%coq_nat then
    match a with O => (4 / 9)%Re | 1%N => (4 / 9)%Re | 2%N => (26 / 9)%Re | _ => 0%Re end
  else cube_gram a b.

Lemma cube_gj f k : (k < 9%N)%coq_nat ->
  (forall a b, (a < 9%N)%coq_nat -> (b < 9%N)%coq_nat -> f a b = cube_gram a b) ->
  forall a b, (a < 9%N)%coq_nat -> (k <= b)%coq_nat -> (b < 9%N)%coq_nat ->
  gj 9 k f a b = match k with O => cube_gram | 1%N => cube_1 | 2%N => cube_2 | _ => cube_gram end a b.
Proof.
move=> Hk Hf.
have S0 : forall a b, (a < 9%N)%coq_nat -> (0 <= b)%coq_nat -> (b < 9%N)%coq_nat -> gj 9 0 f a b = cube_gram a b.
  by move=> a b Ha _ Hb; exact: Hf.
have S1 : forall a b, (a < 9%N)%coq_nat -> (1 <= b)%coq_nat -> (b < 9%N)%coq_nat -> gj 9 1 f a b = cube_1 a b.
  apply: (@gj_step 9 0 f cube_gram) => //; [lia|cbv -[Rplus Rmult IZR]; lra|].
  move=> a b Ha Hb Hn.
  do 9 (destruct a as [|a]; [do 9 (destruct b as [|b]; [first [exfalso; lia|cbv -[Rplus Rmult IZR Rdiv Rminus]; field]|]); exfalso; lia|]).
  exfalso; lia.
have S2 : forall a b, (a < 9%N)%coq_nat -> (2%N <= b)%coq_nat -> (b < 9%N)%coq_nat -> gj 9 2 f a b = cube_2 a b.
  apply: (@gj_step 9 1 f cube_1) => //; [lia|cbv -[Rplus Rmult IZR Rdiv]; lra|].
  move=> a b Ha Hb Hn.
  do 9 (destruct a as [|a]; [do 9 (destruct b as [|b]; [first [exfalso; lia|cbv -[Rplus Rmult IZR Rdiv Rminus]; field]|]); exfalso; lia|]).
  exfalso; lia.
have S3 : forall k, (3%N <= k)%coq_nat -> (k < 9%N)%coq_nat -> forall a b, (a < 9%N)%coq_nat -> (k <= b)%coq_nat -> (b < 9%N)%coq_nat -> gj 9 k f a b = cube_gram a b.
  clear k Hk. elim=> [|k IH] Hk H9; first lia.
  case: (PeanoNat.Nat.eq_dec k 2) => E.
  - subst k. apply: (@gj_step 9 2 f cube_2) => //; [lia|cbv -[Rplus Rmult IZR Rdiv]; lra|].
    move=> a b Ha Hb Hn.
    do 9 (destruct a as [|a]; [do 9 (destruct b as [|b]; [first [exfalso; lia|cbv -[Rplus Rmult IZR Rdiv Rminus]; field]|]); exfalso; lia|]).
    exfalso; lia.
  - have Hk3 : (3%N <= k)%coq_nat by lia.
    have D : cube_gram k k <> 0%Re.
      rewrite /cube_gram PeanoNat.Nat.eqb_refl. case: (_ && _); [lra|]. case: (_ <? _); lra.
    have Z : forall a b, (3%N <= a)%coq_nat -> a <> b -> cube_gram a b = 0%Re /\ cube_gram b a = 0%Re.
      move=> a b Ha Hab. rewrite /cube_gram.
      have -> : (a <? 3)%coq_nat = false by apply/PeanoNat.Nat.ltb_ge.
      rewrite andbF /=.
      have /PeanoNat.Nat.eqb_neq -> := Hab.
      have /PeanoNat.Nat.eqb_neq -> : b <> a by move=> EE; apply: Hab.
      by [].
    apply: (@gj_step 9 k f cube_gram) => //; [lia|apply: IH; lia|].
    move=> a b Ha Hb Hn. have [Z1 _] := Z k b Hk3 ltac:(lia).
    case: (PeanoNat.Nat.eqb_spec a k) => [->|Hne].
    + rewrite Z1. field. exact: D.
    + rewrite Z1. field. exact: D.
case: k Hk => [|[|[|k]]] Hk; [exact: S0|exact: S1|exact: S2|apply: S3; lia].
Qed.

Definition cube_inv (a b : nat) : R :=
  if (a <? 3)%coq_nat && (b <? 3)%coq_nat then if Nat.eqb a b then (9/26)%Re else (- 2 / 13)%Re
  else if Nat.eqb a b then if (a <? 6)%coq_nat then (/ 32)%Re else (/ 40)%Re else 0%Re.

Example C94_example :
  let x := fun i j => List.nth j (quad_terms (cube i 0%N) (cube i 1%N) (cube i 2%N)) 0%Re in
  \det (mx 9 9 (gram 14 (fun _ => 1%Re) x)) <> 0 /\ gj_clear 9 (gram 14 (fun _ => 1%Re) x).
Proof.
move=> x. have HG := cube_gram_ok. split.
- have E : mx 9 9 (gram 14 (fun _ => 1%Re) x) *m mx 9 9 cube_inv = 1%:M.
    rewrite -mx_mmul -mx_id. apply/matrixP => i j. rewrite !mxE.
    have /ltP Hi := ltn_ord i. have /ltP Hj := ltn_ord j.
    move: (nat_of_ord i) (nat_of_ord j) Hi Hj => a b Ha Hb.
    rewrite /mmul. rewrite (@bigsum_ext 9 _ (fun k => Rmult (cube_gram a k) (cube_inv k b))); last first.
      by move=> k Hk; rewrite HG.
    do 9 (destruct a as [|a]; [do 9 (destruct b as [|b]; [cbv -[Rplus Rmult IZR Rdiv Rminus Ropp Rinv]; field|]); exfalso; lia|]).
    exfalso; lia.
  move=> D. have := congr1 (fun A : 'M[R]_9 => \det A) E. rewrite det_mulmx D mul0r det1 => /esym /eqP.
  by rewrite oner_eq0.
- move=> k i Hk Hi. rewrite (@cube_gj _ k) //; try lia.
  do 9 (destruct k as [|k]; [do 9 (destruct i as [|i]; [cbv -[Rplus Rmult IZR Rdiv Rminus Ropp Rinv Rle Rabs];
    first [left; lra|right; rewrite Rabs_right; lra]|]); exfalso; lia|]).
  exfalso; lia.
Qed.
