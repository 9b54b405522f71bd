(** Limits of QR iteration and characteristic polynomials: symmetric matrices
    have real eigenvalues; a symmetric matrix without opposite eigenvalues is a
    polynomial of its square, so QR iteration converges for it. *)
From Coq Require Import Reals Lra ZArith.
Set Warnings "-notation-overridden,-ambiguous-paths".
From mathcomp Require Import all_ssreflect all_algebra.
From Coquelicot Require Import Coquelicot.
From Coq Require Import Lia List.
From Verif Require Import Base SpecReal SpecMtx SpecDecomp SpecReduc MMtx PDet PMtx PMtxR PFvec PQr PBalTerm RField SpecMx SpecEig PMx
  PDecompMx PQrSeq PQrLim PQrMx PQrPsd.
Import GRing.Theory.
Local Delimit Scope R_scope with Re.
Local Open Scope ring_scope.

Lemma char_dg n l : char_poly (mx n n (dg l)) = \prod_(i < n) ('X - (l i)%:P).
Proof.
rewrite char_poly_upper; last first.
  move=> i j H. rewrite mxE /dg. case: Nat.eqb_spec => // E. by rewrite E ltnn in H.
apply: eq_bigr => i _. by rewrite mxE /dg Nat.eqb_refl.
Qed.

Lemma char_cv n G l P : to_matrix n G (dg l) -> (forall k, char_poly (mx n n (G k)) = P) ->
  P = \prod_(i < n) ('X - (l i)%:P).
Proof.
move=> L E. rewrite -char_dg. apply: poly_ext => x. rewrite -char_eval.
apply: (@lim_unique (fun k => ldet n (fun i j => Rminus (dg (fun _ => x) i j) (G k i j)))).
- apply: (is_lim_seq_ext (fun _ => P.[x])); last exact: is_lim_seq_const.
  by move=> k; rewrite char_eval E.
- apply: lim_ldet => i j Hi Hj. apply: is_lim_seq_minus'; first exact: is_lim_seq_const. exact: L.
Qed.

Lemma step_char n a b : symm n a -> qr_step n a b -> char_poly (mx n n b) = char_poly (mx n n a).
Proof.
move=> Sa St. have [_ [[q [O H]] _]] := step_facts Sa St. have [O1 _] := orth_mx n q O.
exact: similar_char O1 (orth_similar n a b q O H).
Qed.

Lemma seq_char n G : symm n (G 0%N) -> (forall k, qr_step n (G k) (G k.+1)) ->
  forall k, char_poly (mx n n (G k)) = char_poly (mx n n (G 0%N)).
Proof. move=> S0 St. elim=> // k IH. by rewrite -IH; apply: step_char (St k); apply: seq_sym. Qed.

(** ** Real eigenvalues *)
Definition plus_diag (f : nat -> nat -> R) (c : R) : nat -> nat -> R := fun i j => Rplus (f i j) (dg (fun _ => c) i j).

Definition absum n f : R := bigsum n (fun i => bigsum n (fun j => Rabs (f i j))).

Lemma bigsum_le_ptw n (u v : nat -> R) : (forall k, (k < n)%coq_nat -> (u k <= v k)%Re) -> (bigsum n u <= bigsum n v)%Re.
Proof. elim: n => [|n IH] H /=; first lra. have := H n ltac:(lia). have := IH (fun k Hk => H k ltac:(lia)). lra. Qed.

Lemma plus_diag_psd n f : psd n (plus_diag f (absum n f)).
Proof.
move=> x. set X := bigsum n (fun i => Rmult (x i) (x i)).
have Hx : forall i, (i < n)%coq_nat -> (x i * x i <= X)%Re.
  move=> i Hi. apply: (@bsum_ge n (fun i => Rmult (x i) (x i)) i) => // k _. exact: Rle_0_sqr.
have E : bigsum n (fun a => bigsum n (fun b => Rmult (Rmult (x a) (plus_diag f (absum n f) a b)) (x b)))
  = Rplus (bigsum n (fun a => bigsum n (fun b => Rmult (Rmult (x a) (f a b)) (x b)))) (Rmult (absum n f) X).
  rewrite /X bigsum_mult_l -bigsum_plus. apply: bigsum_ext => a Ha.
  rewrite (bigsum_ext n _ (fun b => Rplus (Rmult (Rmult (x a) (f a b)) (x b)) (if Nat.eqb b a then Rmult (absum n f) (Rmult (x b) (x b)) else 0%Re))).
    rewrite bigsum_plus. congr Rplus. exact: (bigsum_delta n (fun b => Rmult (absum n f) (Rmult (x b) (x b))) a Ha).
  move=> b Hb. rewrite /plus_diag /dg Nat.eqb_sym. case: (Nat.eqb_spec b a) => [->|_]; ring.
rewrite E. rewrite /absum bigsum_mult_r -bigsum_plus. apply: bsum_nonneg => a Ha.
rewrite bigsum_mult_r -bigsum_plus. apply: bsum_nonneg => b Hb.
have H1 := Hx a Ha. have H2 := Hx b Hb.
have Q : (Rabs (x a * x b) <= X)%Re.
  have := Rle_0_sqr (Rminus (Rabs (x a)) (Rabs (x b))). rewrite /Rsqr Rabs_mult.
  have A1 : Rmult (Rabs (x a)) (Rabs (x a)) = Rmult (x a) (x a) by rewrite -Rabs_mult Rabs_pos_eq //; exact: Rle_0_sqr.
  have A2 : Rmult (Rabs (x b)) (Rabs (x b)) = Rmult (x b) (x b) by rewrite -Rabs_mult Rabs_pos_eq //; exact: Rle_0_sqr.
  nra.
have R1 : (Rabs (x a * f a b * x b) <= Rabs (f a b) * X)%Re.
  rewrite (_ : Rmult (Rmult (x a) (f a b)) (x b) = Rmult (f a b) (Rmult (x a) (x b))); last ring.
  rewrite Rabs_mult. apply: Rmult_le_compat_l => //. exact: Rabs_pos.
have := Rle_abs (Ropp (Rmult (Rmult (x a) (f a b)) (x b))). rewrite Rabs_Ropp. lra.
Qed.

Lemma sym_split n f : symm n f -> exists l : nat -> R, char_poly (mx n n f) = \prod_(i < n) ('X - (l i)%:P).
Proof.
case: n => [|n] Sy.
  exists (fun _ => 0%Re). by rewrite big_ord0 /char_poly det_mx00.
set c := absum n.+1 f. set g := plus_diag f c.
have [G [_ [E0 St]]] := @qrd_iter_seq true n.+1 g nil (mtx_def n.+1 n.+1) ltac:(lia) (room_def n.+1 n.+1).
have Sg : symm n.+1 g.
  move=> i j Hi Hj. rewrite /g /plus_diag (Sy i j) // /dg Nat.eqb_sym. by case: Nat.eqb.
have S0 : symm n.+1 (G 0%N) by move=> i j Hi Hj; rewrite !E0 //; exact: Sg.
have P0 : psd n.+1 (G 0%N).
  move=> x. have := plus_diag_psd n.+1 f x. congr Rle. apply: bigsum_ext => a Ha. apply: bigsum_ext => b Hb. by rewrite E0.
have [m [_ L]] := psd_cv G S0 St P0.
have C := char_cv n.+1 G m _ L (seq_char _ _ S0 St).
exists (fun i => Rminus (m i) c). apply: poly_ext => x.
rewrite (char_shift n.+1 f g c) // (same_mx _ _ _ (same_sym E0)) C !horner_prod. apply: eq_bigr => i _.
rewrite !hornerXsubC. change (Rminus (Rplus x c) (m i) = Rminus x (Rminus (m i) c)). ring.
Qed.

(** ** Symmetric matrices as polynomials of their squares *)
Lemma sum_sq_ge0 n (F : 'I_n -> R) : (0 <= \sum_i F i * F i)%Re.
Proof.
elim: n F => [|n IH] F; first by rewrite big_ord0; exact: Rle_refl.
rewrite big_ord_recl. have := IH (fun i => F (lift ord0 i)). set s := \sum_i _ => H.
change (0 <= Rplus (Rmult (F ord0) (F ord0)) s)%Re. have := Rle_0_sqr (F ord0). rewrite /Rsqr. lra.
Qed.

Lemma sum_sq0 n (F : 'I_n -> R) : \sum_i F i * F i = 0 -> forall i, F i = 0.
Proof.
elim: n F => [|n IH] F; first by move=> _ [].
rewrite big_ord_recl. have := sum_sq_ge0 n (fun i => F (lift ord0 i)). have := IH (fun i => F (lift ord0 i)).
set s := \sum_i _ => H S E. change (Rplus (Rmult (F ord0) (F ord0)) s = 0%Re) in E.
have P := Rle_0_sqr (F ord0). rewrite /Rsqr in P.
have E0 : s = 0%Re by lra. have E1 : F ord0 = 0%Re by have : Rmult (F ord0) (F ord0) = 0%Re; [lra|case/Rmult_integral].
move=> i. case: (unliftP ord0 i) => [j ->|->] //. exact: H E0 j.
Qed.

Section Sq.
Variable n : nat.
Implicit Types B : 'M[R]_n.+1.

Lemma sq_nil B : B^T = B -> B *m B = 0 -> B = 0.
Proof.
move=> S E. apply/matrixP => i j. rewrite mxE. apply: (sum_sq0 _ (fun j => B i j)).
have {}E : (B *m B) i i = 0 by rewrite E mxE. rewrite mxE in E. apply: etrans E. apply: eq_bigr => k _.
by rewrite -{2}S mxE.
Qed.

Lemma pow_nil k B : B^T = B -> B ^+ (2 ^ k) = 0 -> B = 0.
Proof.
elim: k B => [|k IH] B S; first by rewrite expn0 expr1.
rewrite expnS exprM => E. apply: sq_nil => //. apply: (IH (B *m B)).
  by rewrite trmx_mul S.
by rewrite -[B *m B]/(B * B) -expr2.
Qed.

Lemma horner_tr B (p : {poly R}) : B^T = B -> (horner_mx B p)^T = horner_mx B p.
Proof.
move=> S. elim/poly_ind: p => [|p c IH]; first by rewrite rmorph0 trmx0.
rewrite rmorphD rmorphM /= horner_mx_X horner_mx_C linearD /= tr_scalar_mx.
congr (_ + _). rewrite -[_ * B]/(_ *m B) trmx_mul S IH.
have H : comm_mx B B by []. exact: (comm_mx_horner p H).
Qed.

Lemma horner_sq B (p : {poly R}) : horner_mx B (p \Po 'X^2) = horner_mx (B *m B) p.
Proof.
elim/poly_ind: p => [|p c IH]; first by rewrite comp_poly0 !rmorph0.
by rewrite comp_poly_MXaddC expr2 !rmorphD !rmorphM /= IH !horner_mx_X !horner_mx_C.
Qed.

Lemma sym_roots_nil B (l : 'I_n.+1 -> R) (q : {poly R}) : B^T = B -> char_poly B = \prod_i ('X - (l i)%:P) ->
  (forall i, q.[l i] = 0) -> horner_mx B q = 0.
Proof.
move=> S C Z. apply: (@pow_nil n.+1); first exact: horner_tr.
have E : q ^+ n.+1 = (\prod_i (q %/ ('X - (l i)%:P))) * char_poly B.
  rewrite C -big_split /= -[in LHS](card_ord n.+1) -prodr_const. apply: eq_bigr => i _.
  by rewrite divpK // dvdp_XsubCl /root Z.
have E0 : horner_mx B q ^+ n.+1 = 0 by rewrite -rmorphX E rmorphM /= Cayley_Hamilton mulr0.
have L : (n.+1 <= 2 ^ n.+1)%N by apply: ltnW; exact: ltn_expl.
by rewrite -(subnK L) exprD E0 mulr0.
Qed.

Lemma sym_poly_sq B (l : 'I_n.+1 -> R) (p : {poly R}) : B^T = B -> char_poly B = \prod_i ('X - (l i)%:P) ->
  (forall i, p.[l i * l i] = l i) -> horner_mx (B *m B) p = B.
Proof.
move=> S C Z. have H : horner_mx B (p \Po 'X^2 - 'X) = 0.
  apply: (sym_roots_nil B l) => // i. by rewrite hornerD hornerN horner_comp hornerXn hornerX expr2 Z subrr.
apply/eqP. rewrite -subr_eq0 -horner_sq -[X in _ - X](horner_mx_X B) -rmorphB /=. by rewrite H.
Qed.
End Sq.

(** interpolation of the square root on the squares of given numbers *)
Lemma interp (xs : list R) (v : R -> R) : uniq xs -> exists p : {poly R}, forall x, x \in xs -> p.[x] = v x.
Proof.
elim: xs => [|a xs IH] /=; first by exists 0.
move=> /andP [Na U]. have [p Hp] := IH U. set w := \prod_(x <- xs) ('X - x%:P).
have Wa : w.[a] != 0.
  rewrite /w horner_prod. rewrite prodf_seq_neq0. apply/allP => x Hx /=. rewrite hornerXsubC subr_eq0. by apply: contraNneq Na => ->.
exists (p + ((v a - p.[a]) / w.[a])%:P * w) => x. rewrite hornerD hornerM hornerC inE => /orP [/eqP ->|Hx].
  by rewrite mulfVK // addrC subrK.
rewrite (_ : w.[x] = 0) ?mulr0 ?addr0; first exact: Hp.
rewrite /w (big_rem x Hx) /= hornerM hornerXsubC subrr mul0r. by [].
Qed.

Lemma root_poly (ls : list R) : (forall x y, x \in ls -> y \in ls -> x * x = y * y -> x = y) ->
  exists p : {poly R}, forall x, x \in ls -> p.[x * x] = x.
Proof.
move=> H. pose v y := seq.nth 0 ls (seq.find (fun x => x * x == y) ls).
have [p Hp] := interp (undup [seq x * x | x <- ls]) v (undup_uniq _).
exists p => x Hx. rewrite Hp ?mem_undup; last by apply/mapP; exists x.
have Hh : has (fun y => y * y == x * x) ls by apply/hasP; exists x.
apply: H => //; first by rewrite mem_nth // -has_find.
by apply/eqP; exact: (nth_find 0 Hh).
Qed.

(** ** Limits of matrices *)
Lemma lim_sum n (F : 'I_n -> nat -> R) (l : 'I_n -> R) : (forall i, is_lim_seq (F i) (l i)) ->
  is_lim_seq (fun k => \sum_i F i k) (\sum_i l i).
Proof.
elim: n F l => [|n IH] F l H.
  rewrite big_ord0. apply: (is_lim_seq_ext (fun _ => 0%Re)); last exact: is_lim_seq_const. by move=> k; rewrite big_ord0.
rewrite big_ord_recl.
apply: (is_lim_seq_ext (fun k => Rplus (F ord0 k) (\sum_i F (lift ord0 i) k))); first by move=> k; rewrite big_ord_recl.
apply: is_lim_seq_plus'; first exact: H. exact: (IH (fun i => F (lift ord0 i)) (fun i => l (lift ord0 i))).
Qed.

Section Lim.
Variable n : nat.
Definition mlim (M : nat -> 'M[R]_n.+1) (L : 'M[R]_n.+1) : Prop := forall i j, is_lim_seq (fun k => M k i j) (L i j).

Lemma mlim_mul M L M' L' : mlim M L -> mlim M' L' -> mlim (fun k => M k *m M' k) (L *m L').
Proof.
move=> H H' i j. rewrite mxE. apply: (is_lim_seq_ext (fun k => \sum_a M k i a * M' k a j)); first by move=> k; rewrite mxE.
apply: (lim_sum _ (fun a k => M k i a * M' k a j) (fun a => L i a * L' a j)) => a. exact: is_lim_seq_mult'.
Qed.

Lemma mlim_horner (p : {poly R}) M L : mlim M L -> mlim (fun k => horner_mx (M k) p) (horner_mx L p).
Proof.
move=> H. elim/poly_ind: p => [|p c IH] i j.
  apply: (is_lim_seq_ext (fun _ => horner_mx L 0 i j)); last exact: is_lim_seq_const.
  by move=> k; rewrite !rmorph0.
rewrite rmorphD rmorphM /= horner_mx_X horner_mx_C mxE.
apply: (is_lim_seq_ext (fun k => Rplus ((horner_mx (M k) p *m M k) i j) ((c%:M : 'M[R]_n.+1) i j))).
  move=> k. rewrite rmorphD rmorphM /= horner_mx_X horner_mx_C. symmetry. by rewrite mxE.
apply: is_lim_seq_plus'; last exact: is_lim_seq_const. exact: mlim_mul.
Qed.
End Lim.

Lemma sym_cv n G : (0 < n)%coq_nat -> symm n (G 0%N) -> (forall k, qr_step n (G k) (G k.+1)) -> no_opposite_eigenvalues n (G 0%N) ->
  exists l : nat -> R, to_matrix n G (dg l).
Proof.
case: n => [|n] Hn S0 St NO; first lia.
have [l C] := sym_split n.+1 (G 0%N) S0.
have [p Hp] : exists p : {poly R}, forall x, x \in [seq l (nat_of_ord i) | i : 'I_n.+1] -> p.[x * x] = x.
  apply: root_poly => x y /mapP [i _ ->] /mapP [j _ ->] E.
  have Ei : forall a : 'I_n.+1, eigenvalue (mx n.+1 n.+1 (G 0%N)) (l a).
    move=> a. rewrite eigenvalue_root_char C /root horner_prod (bigD1 a) //= hornerXsubC subrr mul0r. exact: eqxx.
  case: (Req_EM_T (l i) (l j)) => // N. exfalso.
  have E' : l j = Ropp (l i) by change (Rmult (l i) (l i) = Rmult (l j) (l j)) in E; have : Rmult (Rminus (l j) (l i)) (Rplus (l j) (l i)) = 0%Re; [lra|case/Rmult_integral => K; lra].
  apply: (NO (l i)); [lra|exact: Ei|rewrite -E'; exact: Ei].
have [d [_ Hd]] := square_cv G S0 St.
pose D : 'rV[R]_n.+1 := \row_i d i.
have L : mlim n (fun k => mx n.+1 n.+1 (G k) *m mx n.+1 n.+1 (G k)) (diag_mx D).
  move=> i j. have Hi : (i < n.+1)%coq_nat by apply/ltP. have Hj : (j < n.+1)%coq_nat by apply/ltP.
  have := Hd i j Hi Hj. rewrite !mxE.
  rewrite (_ : d i *+ (i == j) = if Nat.eqb i j then d i else 0%Re); last first.
    case: eqP => [->|N]; first by rewrite Nat.eqb_refl. case: Nat.eqb_spec => // E. by case: N; apply: ord_inj.
 by case: Nat.eqb; apply: is_lim_seq_ext => k; rewrite -mx_mmul mxE.
have L' := mlim_horner n p _ _ L. rewrite horner_mx_diag in L'.
exists (fun i => p.[d i]) => i j Hi Hj.
have Hi' : (i < n.+1)%N by apply/ltP. have Hj' : (j < n.+1)%N by apply/ltP.
have := L' (Ordinal Hi') (Ordinal Hj'). rewrite !mxE.
rewrite (_ : p.[d (Ordinal Hi')] *+ (Ordinal Hi' == Ordinal Hj') = dg (fun i => p.[d i]) i j); last first.
  rewrite /dg -val_eqE /=. case: eqP => [->|N]; first by rewrite Nat.eqb_refl. by case: Nat.eqb_spec.
apply: is_lim_seq_ext => k.
rewrite (sym_poly_sq n (mx n.+1 n.+1 (G k)) (fun i => l i)) ?mxE //.
- rewrite -mx_tr. apply: mx_ext => a b Ha Hb. exact: (seq_sym G S0 St k).
- by rewrite (seq_char _ _ S0 St) C.
- move=> a. apply: Hp. by apply/mapP; exists a => //; rewrite mem_enum.
Qed.
