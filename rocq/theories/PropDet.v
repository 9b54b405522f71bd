(** Properties C29-C36 and C50: determinants, adjoints, inverses, Gaussian
    elimination and the wedge product (src/matrices.c), in real arithmetic.

    [mx r c f] is the Mathematical Components matrix with elements f i j; its
    [\det], [\adj], [invmx], [*m] and [%:M] (scalar matrix) are that library's
    determinant (signed sum over all permutations), adjugate, inverse, product
    and scalar matrix.  [Z0] is the return code 0. *)
From Coq Require Import Reals Lra ZArith.
Set Warnings "-notation-overridden,-ambiguous-paths".
From mathcomp Require Import all_ssreflect all_algebra.
From Coq Require Import Lia List PrimFloat.
From Verif Require Import Base NumR NumF BaseFacts SpecVec SpecMtx SpecReal SpecGauss MVec MMtx PMtx PMtxOps PMtxR
  PDet PGauss PWedge RField SpecMx PMx PDetMx.
Import ListNotations.
Import GRing.Theory.
Local Delimit Scope R_scope with Re.
Local Delimit Scope Z_scope with Ze.
Local Open Scope ring_scope.

(** * C29: the determinant *)
Theorem C29_determinant :
  forall bc n f tl, (0 < n)%coq_nat ->
  mtx_deter bc (mat_of n n f tl) = Ok (Z0, Some (\det (mx n n f))).
Proof. exact deter_det. Qed.
Print Assumptions C29_determinant.

(** det(a*b) = det(a) * det(b), through the API *)
Theorem C29_multiplicative :
  forall bc n f g ta tb ab, (0 < n)%coq_nat -> room n n ab ->
  exists m x y, mtx_mult bc (mat_of n n f ta) (mat_of n n g tb) ab = Ok (Z0, m)
  /\ mtx_deter bc (mat_of n n f ta) = Ok (Z0, Some x)
  /\ mtx_deter bc (mat_of n n g tb) = Ok (Z0, Some y)
  /\ mtx_deter bc m = Ok (Z0, Some (Rmult x y)).
Proof.
move=> bc n f g ta tb ab Hn Hr. do 3 eexists. split; first exact: mtx_mult_R.
split; first exact: deter_det. split; first exact: deter_det.
by rewrite deter_det // mx_mmul det_mulmx.
Qed.
Print Assumptions C29_multiplicative.

Theorem C29_transpose :
  forall bc n (f : nat -> nat -> R) ta mt, (0 < n)%coq_nat -> room n n mt ->
  exists m x, mtx_trans bc (mat_of n n f ta) mt = Ok (Z0, m)
  /\ mtx_deter bc (mat_of n n f ta) = Ok (Z0, Some x)
  /\ mtx_deter bc m = Ok (Z0, Some x).
Proof.
move=> bc n f ta mt Hn Hr. do 2 eexists. split; first exact: mtx_trans_ok.
split; first exact: deter_det. by rewrite deter_det // mx_tr det_tr.
Qed.
Print Assumptions C29_transpose.

(** zero exactly for the matrices that map some non-zero vector to zero *)
Theorem C29_zero_iff_singular :
  forall bc n f ta, (0 < n)%coq_nat ->
  mtx_deter bc (mat_of n n f ta) = Ok (Z0, Some 0%Re)
  <-> exists x : 'cV[R]_n, x != 0 /\ mx n n f *m x = 0.
Proof.
move=> bc n f ta Hn. rewrite deter_det //. split.
- move=> [D]. have /det0P [v v0 E] : \det (mx n n f)^T == 0 by rewrite det_tr D.
  exists v^T. split; first by rewrite -(inj_eq trmx_inj) trmxK trmx0.
  by apply: trmx_inj; rewrite trmx_mul trmxK trmx0.
- move=> [x [x0 E]]. have /eqP -> // : \det (mx n n f) == 0.
  rewrite -det_tr. apply/det0P. exists x^T; first by rewrite -(inj_eq trmx_inj) trmxK trmx0.
  by rewrite -trmx_mul E trmx0.
Qed.
Print Assumptions C29_zero_iff_singular.

Example C29_example :
  mtx_deter true (mat_of 4 4 (fun i j => F (Z.of_nat (expn i.+1 j)) 0) [])
  = Ok (Z0, Some (F 12 0)).
Proof. vm_compute. reflexivity. Qed.

(** * C30: non-square input *)
Theorem C30_deter_non_square_partial :
  forall bc (m : mtx R), (3 <= mrows m)%coq_nat -> mrows m <> mcols m ->
  bc = true \/ mrows m = 3%N ->
  mtx_deter bc m = Ok (Z.opp EINVAL, None).
Proof.
move=> bc m H3 Hn Hb. rewrite /mtx_deter.
case: m H3 Hn Hb => r c b /= H3 Hn Hb.
case: r H3 Hn Hb => [|[|[|[|r]]]] /= H3 Hn Hb; try lia.
- rewrite /mtx_deter_3x3 /=. by case: c Hn => [|[|[|[|c]]]].
- case: Hb => [->|]; last by lia.
  case: c Hn => [|[|[|[|c]]]] //= Hn. case: (PeanoNat.Nat.eqb_spec r c) => //= E. by case: Hn; rewrite E.
Qed.
Print Assumptions C30_deter_non_square_partial.

(** A 2x1 matrix is read at indices 2 and 3; a 1x2 and a 2x3 one are accepted
    with return code 0. *)
Theorem C30_deter_non_square_refuted :
  (exists m : mtx R, room 2 1 m /\ mtx_deter true m = UB OOBRead)
  /\ (exists (m : mtx R) d, room 1 2 m /\ mtx_deter true m = Ok (Z0, Some d))
  /\ (exists (m : mtx R) d, room 2 3 m /\ mtx_deter true m = Ok (Z0, Some d)).
Proof.
split; [|split].
- exists (mat_of 2 1 (fun _ _ => 1%Re) nil). split; [exact: mat_room|reflexivity].
- exists (mat_of 1 2 (fun _ _ => 1%Re) nil). eexists. split; [exact: mat_room|reflexivity].
- exists (mat_of 2 3 (fun _ _ => 1%Re) nil). eexists. split; [exact: mat_room|reflexivity].
Qed.
Print Assumptions C30_deter_non_square_refuted.

(** * C31: adjoint of a 3x3 matrix *)
Theorem C31_adjoint_3x3 :
  forall bc f tl ma, room 3 3 ma ->
  exists g, mtx_adjoint bc (mat_of 3 3 f tl) ma = Ok (Z0, mat_of 3 3 g (rest ma))
  /\ mx 3 3 f *m mx 3 3 g = (\det (mx 3 3 f))%:M
  /\ mx 3 3 g *m mx 3 3 f = (\det (mx 3 3 f))%:M
  /\ mx 3 3 g = \adj (mx 3 3 f).
Proof.
move=> bc f tl ma H. have [g [E1 E2]] := @adjoint_3 bc f tl ma H. exists g.
have [P1 P2] := adj_products E2. by do !split.
Qed.
Print Assumptions C31_adjoint_3x3.

Example C31_example :
  mtx_adjoint true (mat_of 3 3 (fun i j => F (Z.of_nat (expn i.+1 j)) 0) []) (mtx_def 3 3)
  = Ok (Z0, mat_of 3 3 (fun i j => nth (3 * i + j) (map (fun z => F z 0) [6; -6; 2; -5; 8; -3; 1; -2; 1]%Ze) (F 0 0)) []).
Proof. vm_compute. reflexivity. Qed.

(** * C32: adjoint of other sizes: the cofactor matrix, i.e. the adjugate
    transposed *)
Theorem C32_adjoint_transposed_partial :
  forall bc n f tl ma, (1 < n)%coq_nat -> n <> 3%N -> room n n ma ->
  exists g, mtx_adjoint bc (mat_of n n f tl) ma = Ok (Z0, mat_of n n g (rest ma))
  /\ mx n n g = (\adj (mx n n f))^T
  /\ mx n n f *m (mx n n g)^T = (\det (mx n n f))%:M.
Proof.
move=> bc n f tl ma Hn H3 H. have [g [E1 E2]] := @adjoint_n bc n f tl ma Hn H3 H. exists g.
split; [|split] => //. by rewrite E2 trmxK mul_mx_adj.
Qed.
Print Assumptions C32_adjoint_transposed_partial.

Theorem C32_adjoint_refuted :
  exists f g, mtx_adjoint true (mat_of 2 2 f nil) (mtx_def 2 2) = Ok (Z0, mat_of 2 2 g nil)
  /\ mx 2 2 f *m mx 2 2 g <> (\det (mx 2 2 f))%:M.
Proof.
pose f := fun i j : nat => match i, j with 0, 0 => 1%Re | 0, 1 => 2%Re | 1, 0 => 3%Re | _, _ => 4%Re end%N.
have [g [E1 E2]] := @adjoint_n true 2 f nil (mtx_def 2 2) ltac:(lia) ltac:(by []) (room_def 2 2).
exists f, g. rewrite rest_def in E1. split=> //. rewrite E2 => /matrixP /(_ ord0 ord_max).
rewrite -mx_cof !mxE !big_ord_recl big_ord0 !mxE /= addr0 mulr0n => /= H.
have : Rplus (1 * (ldet 1 (minor 0 1 f) * -1)) (2 * (ldet 1 (minor 1 1 f) * 1))%Re = 0%Re by exact: H.
rewrite !ldet_1 /minor /skip_at /f /=. lra.
Qed.
Print Assumptions C32_adjoint_refuted.

(** * C33: inverse of a 3x3 matrix *)
Theorem C33_inv_3x3 :
  forall bc f tl mi, room 3 3 mi -> \det (mx 3 3 f) <> 0 ->
  exists g, mtx_inv bc (mat_of 3 3 f tl) mi = Ok (Z0, mat_of 3 3 g (rest mi))
  /\ mx 3 3 f *m mx 3 3 g = 1%:M /\ mx 3 3 g *m mx 3 3 f = 1%:M.
Proof.
move=> bc f tl mi H D. have [g [E1 E2]] := @inv_3 bc f tl mi H D. exists g.
by rewrite E2 mulmxV ?mulVmx // det_unit.
Qed.
Print Assumptions C33_inv_3x3.

Theorem C33_inv_3x3_singular :
  forall bc f tl mi, room 3 3 mi -> \det (mx 3 3 f) = 0 ->
  exists g, mtx_inv bc (mat_of 3 3 f tl) mi = Ok (Z0, mat_of 3 3 g (rest mi)) /\ mx 3 3 g = 1%:M.
Proof.
move=> bc f tl mi H D. exists mid. rewrite mx_id. split=> //.
apply: mtx_inv_singular => //; first lia. by rewrite ldet_det.
Qed.
Print Assumptions C33_inv_3x3_singular.

Example C33_example : room 3 3 (mtx_def (T := R) 3 3) /\ \det (mx 3 3 mid) <> 0.
Proof. split; first exact: room_def. rewrite mx_id det1. exact/eqP/oner_neq0. Qed.

(** * C34: inverse of any size, when the elimination meets no non-zero number
    below the library's threshold ([gj_clear], a condition on the input only) *)
Theorem C34_inv :
  forall bc n f tl mi, (0 < n)%coq_nat -> room n n mi ->
  \det (mx n n f) <> 0 -> (n <> 3%N -> gj_clear n f) ->
  exists g, mtx_inv bc (mat_of n n f tl) mi = Ok (Z0, mat_of n n g (rest mi))
  /\ mx n n f *m mx n n g = 1%:M /\ mx n n g *m mx n n f = 1%:M.
Proof.
move=> bc n f tl mi Hn H D C. have [g [E1 E2]] := @inv_n bc n f tl mi Hn H D C. exists g.
by rewrite E2 mulmxV ?mulVmx // det_unit.
Qed.
Print Assumptions C34_inv.

Theorem C34_inv_singular :
  forall bc n f tl mi, (0 < n)%coq_nat -> room n n mi -> \det (mx n n f) = 0 ->
  exists g, mtx_inv bc (mat_of n n f tl) mi = Ok (Z0, mat_of n n g (rest mi)) /\ mx n n g = 1%:M.
Proof.
move=> bc n f tl mi Hn H D. exists mid. rewrite mx_id. split=> //.
apply: mtx_inv_singular => //. by rewrite ldet_det.
Qed.
Print Assumptions C34_inv_singular.

Theorem C34_inv_rejects :
  forall bc (m mi : mtx R),
  (mrows m <> mcols m \/ mrows mi <> mcols mi \/
   (bc = true /\ (mrows m <> mrows mi \/ mcols m <> mcols mi))) ->
  (mrows m = 3%N -> bc = true) ->
  mtx_inv bc m mi = Ok (Z.opp EINVAL, mi).
Proof.
move=> bc m mi H H3. apply: mtx_inv_bad.
- case: (PeanoNat.Nat.eq_dec (mrows m) 3) => E; [right; exact: H3|left; exact: E].
- case: H => [H|[H|[Hb H]]]; [left|left|right; split => //]; lia.
Qed.
Print Assumptions C34_inv_rejects.

(** A matrix that needs a row exchange meets the hypotheses. *)
Definition C34_witness (i j : nat) : R :=
  match i, j with 0%N, 1%N => 2%Re | 1%N, 0%N => 4%Re | _, _ => 0%Re end.

Example C34_example : \det (mx 2 2 C34_witness) <> 0 /\ gj_clear 2 C34_witness.
Proof.
split.
- rewrite -ldet_det ldet_2 /C34_witness. rewrite -[0]/(0%Re). lra.
- assert (P : forall x y : R, x <> 0%Re -> (if Req_EM_T x 0 then false else true) = true).
  { move=> x _ Hx. by case: Req_EM_T. }
  assert (G1 : forall i, (i < 2)%coq_nat -> gj 2 1 C34_witness i 1%N = 0%Re \/ gj 2 1 C34_witness i 1%N = (1/2)%Re \/ gj 2 1 C34_witness i 1%N = (-2)%Re).
  { move=> i Hi. rewrite /gj /cleared /pivoted /pivot_row /=.
    case: (Req_EM_T 0 0) => // _. case: (Req_EM_T 4 0) => [E|_]; first (exfalso; lra).
    case: i Hi => [|[|i]] Hi; last lia; rewrite /C34_witness /=; [right; left|right;right]; lra. }
  move=> k i Hk Hi.
  case: k Hk => [|[|k]] Hk; last lia.
  + case: i Hi => [|[|i]] Hi; last lia; rewrite /gj /C34_witness; [by left|right].
    rewrite Rabs_right; lra.
  + case: (G1 i Hi) => [->|[->|->]]; [by left|right; rewrite Rabs_right; lra|right; rewrite Rabs_left; lra].
Qed.

(** * C35: the threshold is visible: every matrix of other sizes whose elements
    are all below 1e-6 is "inverted" to the identity matrix, with code 0 *)
Theorem C35_inv_of_small_matrices :
  forall bc n f tl mi, (0 < n)%coq_nat -> n <> 3%N -> room n n mi ->
  (forall i j, (i < n)%coq_nat -> (j < n)%coq_nat -> (Rabs (f i j) < / 1000000)%Re) ->
  exists g, mtx_inv bc (mat_of n n f tl) mi = Ok (Z0, mat_of n n g (rest mi)) /\ mx n n g = 1%:M.
Proof.
move=> bc n f tl mi Hn H3 H Hs. exists mid. split; [exact: mtx_inv_tiny|exact: mx_id].
Qed.
Print Assumptions C35_inv_of_small_matrices.

Theorem C35_inv_refuted :
  exists f g, \det (mx 2 2 f) <> 0
  /\ mtx_inv true (mat_of 2 2 f nil) (mtx_def 2 2) = Ok (Z0, mat_of 2 2 g nil)
  /\ mx 2 2 f *m mx 2 2 g <> 1%:M.
Proof.
pose f := fun i j : nat => if Nat.eqb i j then (/ 10000000)%Re else 0%Re.
have Hs : forall i j, (i < 2)%coq_nat -> (j < 2)%coq_nat -> (Rabs (f i j) < / 1000000)%Re.
  move=> i j _ _. rewrite /f. case: Nat.eqb; [rewrite Rabs_right; lra|rewrite Rabs_R0; lra].
have [g [E1 E2]] := C35_inv_of_small_matrices true 2 f nil (mtx_def 2 2) ltac:(lia) ltac:(by []) (room_def 2 2) Hs.
rewrite rest_def in E1. exists f, g. split; [|split] => //.
- rewrite -ldet_det ldet_2 /f /=. rewrite -[0]/(0%Re).
  have H : (0 < / 10000000)%Re by lra. have := Rmult_lt_0_compat _ _ H H. lra.
- rewrite E2 mulmx1 => /matrixP /(_ ord0 ord0). rewrite !mxE /f /= => H.
  have : (/ 10000000)%Re = 1%Re by exact: H. lra.
Qed.
Print Assumptions C35_inv_refuted.

(** * C36: elimination of column j with row i: one invertible matrix E of row
    operations is applied to m and to mi; the elements of column j at or above
    the threshold become zero and the others stay *)
Theorem C36_gauss_elim_partial :
  forall bc r c c' f h tf th mg i j,
  room r c mg -> (i < r)%coq_nat -> (j < c)%coq_nat ->
  (bc = true -> (i < c)%coq_nat /\ (i < c')%coq_nat) ->
  exists g k (E E' : 'M[R]_r),
  mtx_gauss_elim bc (mat_of r c f tf) mg (mat_of r c' h th) i j
    = Ok (Z0, (mat_of r c g (rest mg), mat_of r c' k th))
  /\ E *m E' = 1%:M
  /\ mx r c g = E *m mx r c f
  /\ mx r c' k = E *m mx r c' h
  /\ (forall b, (b < c)%coq_nat -> g i b = f i b)
  /\ ((/ 1000000 <= Rabs (f i j))%Re ->
      forall a, (a < r)%coq_nat -> a <> i ->
        ((/ 1000000 <= Rabs (f a j))%Re -> g a j = 0%Re) /\
        ((Rabs (f a j) < / 1000000)%Re -> forall b, (b < c)%coq_nat -> g a b = f a b))
  /\ ((Rabs (f i j) < / 1000000)%Re -> E = 1%:M).
Proof.
move=> bc r c c' f h tf th mg i j Hm Hi Hj Hb.
have [E [E' [HE Hg]]] := @elim_ops r f i j Hi.
exists (gelim f f i j), (gelim f h i j), E, E'. split; first exact: gauss_elim_ok.
split; first exact: HE. split; first exact: Hg. split; first exact: Hg.
split; [|split].
- move=> b _. rewrite /gelim PeanoNat.Nat.eqb_refl. by case: (tiny (f i j)).
- move=> /tiny_false Ti a Ha Na. rewrite /gelim Ti (proj2 (PeanoNat.Nat.eqb_neq a i)) //. split.
  + move=> /tiny_false ->. field. exact: tiny_nz Ti.
  + move=> Hs b _. case Ta: (tiny (f a j)) => //. move/tiny_false: Ta. lra.
- move=> Hs. have Ti : tiny (f i j) = true by case Ta: (tiny (f i j)) => //; move/tiny_false: Ta; lra.
  have := Hg r (@mid R NumR). rewrite mx_id mulmx1 => <-. rewrite -mx_id. apply: mx_ext => a b _ _.
  by rewrite /gelim Ti.
Qed.
Print Assumptions C36_gauss_elim_partial.

(** The smaller elements are left in place: column (1, 1e-7) keeps its second
    element although the pivot is 1. *)
Theorem C36_gauss_elim_refuted :
  exists f g k, mtx_gauss_elim true (mat_of 2 2 f nil) (mtx_def 2 2) (mat_of 2 2 mid nil) 0 0
    = Ok (Z0, (mat_of 2 2 g nil, mat_of 2 2 k nil))
  /\ (/ 1000000 <= Rabs (f O O))%Re /\ g 1%N 0%N <> 0%Re.
Proof.
pose f := fun i j : nat => match i, j with 0%N, 0%N => 1%Re | 1%N, 0%N => (/ 10000000)%Re | _, _ => 0%Re end.
exists f, (gelim f f 0 0), (gelim f mid 0 0). split; [|split].
- have E := @gauss_elim_ok true 2 2 2 f mid nil nil (mtx_def 2 2) 0 0 (room_def 2 2).
  rewrite rest_def in E. apply: E; lia.
- rewrite /f Rabs_R1. lra.
- have T1 : tiny (f 1%N 0%N) = true.
    rewrite /tiny /f. case: Rlt_dec => // H. exfalso. apply: H. rewrite Rabs_right; lra.
  rewrite /gelim T1. case: (tiny (f 0 0)%N) => /=; rewrite /f; lra.
Qed.
Print Assumptions C36_gauss_elim_refuted.

Example C36_example : room 2 2 (mtx_def (T := R) 2 2) /\ (0 < 2)%coq_nat.
Proof. split; [exact: room_def|lia]. Qed.

(** * C50: wedge product of n-1 vectors of dimension n *)
(** [wedge_mx n f]: the n x n matrix of the n-1 rows with (0, ..., 0, 1) below. *)
Theorem C50_wedge_orthogonal_partial :
  forall bc n f tf b, (4 <= n)%coq_nat -> (n <= length b)%coq_nat ->
  \det (mx n n (wedge_mx n f)) = 0 \/ gj_clear n (wedge_mx n f) ->
  exists w, mtx_vec_wedge bc (mat_of (n - 1) n f tf) (Vec n b)
            = Ok (Z0, Vec n (cells (map w (List.seq 0 n)) ++ skipn n b))
  /\ (forall i, (i < n - 1)%coq_nat -> bigsum n (fun j => Rmult (f i j) (w j)) = 0%Re).
Proof. exact wedge_n. Qed.
Print Assumptions C50_wedge_orthogonal_partial.

(** ... and it is the vector of signed maximal minors *)
Theorem C50_wedge_minors_partial :
  forall bc n f tf b, (4 <= n)%coq_nat -> (n <= length b)%coq_nat ->
  \det (mx n n (wedge_mx n f)) <> 0 -> gj_clear n (wedge_mx n f) ->
  exists w, mtx_vec_wedge bc (mat_of (n - 1) n f tf) (Vec n b)
            = Ok (Z0, Vec n (cells (map w (List.seq 0 n)) ++ skipn n b))
  /\ forall j, (j < n)%coq_nat ->
       w j = (-1) ^+ (n - 1 + j) * \det (mx (n - 1) (n - 1) (fun a c => f a (skip_at j c))).
Proof. exact wedge_minors. Qed.
Print Assumptions C50_wedge_minors_partial.

Theorem C50_wedge_rejects :
  forall (m : mtx R) v,
  vsz v <> mcols m \/ (vsz v < 4)%coq_nat \/ S (mrows m) <> mcols m ->
  mtx_vec_wedge true m v = Ok (Z.opp EINVAL, v).
Proof.
move=> m v H. rewrite /mtx_vec_wedge.
case: (PeanoNat.Nat.eqb_spec (vsz v) (mcols m)) => [E1|] //=.
case: (PeanoNat.Nat.ltb_spec (vsz v) 4) => [|E2] //=.
case: (mcols m =P S (mrows m)) => [E3|E3]; first by exfalso; lia.
case: (mcols m) E3 => [|k] //= E3. by case: (PeanoNat.Nat.eqb_spec (mrows m) k) => // E; case: E3; rewrite E.
Qed.
Print Assumptions C50_wedge_rejects.

Example C50_example :
  let f := fun i j : nat => if Nat.eqb i j then 1%Re else 0%Re in
  \det (mx 4 4 (wedge_mx 4 f)) <> 0 /\ gj_clear 4 (wedge_mx 4 f).
Proof.
move=> f.
have E : forall i j, (i < 4)%coq_nat -> (j < 4)%coq_nat -> wedge_mx 4 f i j = mid i j.
  move=> i j Hi Hj. rewrite /wedge_mx /f /mid.
  case: i Hi => [|[|[|[|i]]]] Hi; try lia; case: j Hj => [|[|[|[|j]]]] Hj //; lia.
split.
- rewrite (mx_ext E) mx_id det1. exact/eqP/oner_neq0.
- move=> k i Hk Hi.
  have G : forall k, (k <= 4)%coq_nat -> forall i j, (i < 4)%coq_nat -> (j < 4)%coq_nat -> gj 4 k (wedge_mx 4 f) i j = mid i j.
    elim=> [|k' IH] Hk' a b Ha Hb; first exact: E.
    rewrite /= /cleared /pivoted. rewrite IH; try lia. rewrite /mid PeanoNat.Nat.eqb_refl /=.
    case: Req_EM_T => Z; first by (exfalso; lra).
    rewrite !IH; try lia. rewrite /mid PeanoNat.Nat.eqb_refl /=.
    case: (PeanoNat.Nat.eqb_spec a k') => [->|N]; [case: Nat.eqb; lra|case: (Nat.eqb a b); lra].
  rewrite G; try lia. rewrite /mid. case: Nat.eqb; [right|by left]. rewrite /= Rabs_R1. lra.
Qed.

(** When the last signed minor is zero the answer is the zero vector, although
    the rows may be independent: for the unit vectors e1, e2, e3 of R^4 the
    first signed minor is -1. *)
Theorem C50_wedge_degenerate_refuted :
  exists f, mtx_vec_wedge true (mat_of 3 4 f nil) (Vec 4 (fresh 4))
            = Ok (Z0, Vec 4 (cells [0; 0; 0; 0]%Re))
  /\ (-1) ^+ (3 + 0) * \det (mx 3 3 (fun a c => f a (skip_at 0 c))) = -1.
Proof.
pose f := fun i j : nat => if Nat.eqb i.+1 j then 1%Re else 0%Re.
exists f. split.
- have D : \det (mx 4 4 (wedge_mx 4 f)) = 0.
    rewrite -ldet_det. cbn -[Rmult Rplus]. rewrite /sgn /minor /skip_at /wedge_mx /f /=.
    rewrite -[RHS]/(0%Re). ring.
  have := @wedge_singular true 4 f nil (fresh 4) ltac:(lia) ltac:(by rewrite fresh_length; lia) D.
  by [].
- have -> : mx 3 3 (fun a c => f a (skip_at 0 c)) = 1%:M.
    rewrite -mx_id. apply: mx_ext => a c Ha Hc. by rewrite /f /skip_at /mid.
  rewrite det1 mulr1. by rewrite addn0 -signr_odd /= expr1.
Qed.
Print Assumptions C50_wedge_degenerate_refuted.
