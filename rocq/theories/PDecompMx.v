(** Similar matrices have the same characteristic polynomial, trace and
    determinant; eigenvalues of triangular matrices. *)
From Coq Require Import Reals Lra ZArith.
Set Warnings "-notation-overridden,-ambiguous-paths".
From mathcomp Require Import all_ssreflect all_algebra.
From Coq Require Import Lia List.
From Verif Require Import Base NumR BaseFacts SpecVec SpecMtx SpecReal SpecDecomp MVec MMtx MDecomp PMtx PMtxOps PMtxR
  PQr PBal RField SpecMx PMx PFvec.
Import ListNotations.
Import GRing.Theory.
Local Delimit Scope R_scope with Re.
Local Open Scope ring_scope.

Section Sim.
Variable n : nat.
Implicit Types A B P Q : 'M[R]_n.

Lemma similar_char A B P Q : Q *m P = 1%:M -> B = Q *m A *m P -> char_poly B = char_poly A.
Proof.
move=> E ->. rewrite /char_poly.
have -> : char_poly_mx (Q *m A *m P) = map_mx polyC Q *m char_poly_mx A *m map_mx polyC P.
  rewrite /char_poly_mx mulmxBr mulmxBl !map_mxM; congr (_ - _).
  by rewrite mul_mx_scalar -scalemxAl -map_mxM E map_mx1 scalemx1.
rewrite !det_mulmx mulrAC -det_mulmx -map_mxM E map_mx1 det1. by rewrite mul1r.
Qed.

Lemma similar_tr A B P Q : Q *m P = 1%:M -> B = Q *m A *m P -> \tr B = \tr A.
Proof. move=> E ->. by rewrite mxtrace_mulC mulmxA (mulmx1C E) mul1mx. Qed.

Lemma similar_det A B P Q : Q *m P = 1%:M -> B = Q *m A *m P -> \det B = \det A.
Proof. move=> E ->. by rewrite !det_mulmx mulrAC -det_mulmx E det1 mul1r. Qed.

Lemma char_poly_upper A : (forall i j : 'I_n, (j < i)%N -> A i j = 0) ->
  char_poly A = \prod_i ('X - (A i i)%:P).
Proof.
move=> H. have -> : char_poly A = char_poly A^T.
  rewrite /char_poly -det_tr. congr (\det _). rewrite /char_poly_mx linearB /= tr_scalar_mx. by rewrite map_trmx.
rewrite char_poly_trig; last by apply/is_trig_mxP => i j Hij; rewrite mxE H.
apply: eq_bigr => i _. by rewrite mxE.
Qed.
End Sim.

Lemma mx_delta n : mx n n delta = 1%:M.
Proof. rewrite -mx_id. apply: mx_ext => i j _ _. by rewrite /delta /mid. Qed.

Lemma orth_mx n p : orthogonal n p -> (mx n n p)^T *m mx n n p = 1%:M /\ mx n n p *m (mx n n p)^T = 1%:M.
Proof.
move=> [H1 H2]. split; rewrite -mx_tr -mx_mmul -mx_delta; apply: mx_ext => i j Hi Hj.
- exact: H1.
- exact: H2.
Qed.

Lemma same_mx n f g : same n f g -> mx n n f = mx n n g.
Proof. move=> H. apply: mx_ext => i j Hi Hj. exact: H. Qed.

Lemma orth_similar n f g p :
  orthogonal n p -> same n g (mmul n (mmul n (tr p) f) p) ->
  mx n n g = (mx n n p)^T *m mx n n f *m mx n n p.
Proof. move=> _ /same_mx ->. by rewrite !mx_mmul mx_tr. Qed.

Lemma balanced_similar n f e :
  exists d : nat -> R, (forall i, (0 < d i)%Re) /\
  (forall i j, balanced n f e i j = Rdiv (Rmult (f i j) (d j)) (d i)) /\
  diag_mx (\row_(i < n) Rinv (d i)) *m diag_mx (\row_(i < n) d i) = 1%:M /\
  mx n n (balanced n f e) = diag_mx (\row_(i < n) Rinv (d i)) *m mx n n f *m diag_mx (\row_(i < n) d i).
Proof.
exists (fun i => two (e i)). split; first by move=> i; exact: two_pos.
have Hb : forall i j, balanced n f e i j = Rdiv (Rmult (f i j) (two (e j))) (two (e i)).
  move=> i j. rewrite /balanced /Z.sub two_add two_opp /Rdiv. by rewrite Rmult_assoc.
split=> //. split.
  rewrite mulmx_diag. apply/matrixP => i j. rewrite !mxE. case: eqP => // _.
  rewrite !mulr1n. apply: Rinv_l. have := two_pos (e i). lra.
apply/matrixP => i j. rewrite mul_mx_diag mul_diag_mx !mxE Hb /Rdiv.
change (Rmult (Rmult (f i j) (two (e j))) (/ two (e i))%Re = Rmult (Rmult (/ two (e i))%Re (f i j)) (two (e j))).
ring.
Qed.

(** the matrix an eigenvalue computation ends with is similar to its input *)
Lemma simil_mx n f A : simil n f A ->
  exists P Q : 'M[R]_n, Q *m P = 1%:M /\ mx n n A = Q *m mx n n f *m P.
Proof.
move=> [e [p [O H]]]. have [d [_ [_ [D E]]]] := balanced_similar n f e. have [O1 _] := orth_mx n p O.
exists (diag_mx (\row_(i < n) d i) *m mx n n p), ((mx n n p)^T *m diag_mx (\row_(i < n) Rinv (d i))). split.
  rewrite mulmxA -(mulmxA _^T) D mulmx1. exact: O1.
rewrite (orth_similar n _ _ _ O H) E. by rewrite !mulmxA.
Qed.

Lemma not_big (x : R) : is_big x = false <-> (Rabs x < / 1000000)%Re.
Proof.
rewrite PGauss.is_big_R /PGauss.tiny. case: Rlt_dec => H /=; split=> //.
Qed.

Lemma eigenvalues_mx bc n fuel row0 col0 f tl vs vb iter rc v' :
  (0 < n)%coq_nat -> (n <= length vb)%coq_nat -> (vs <= length vb)%coq_nat ->
  mtx_eigenvalues bc fuel row0 col0 (mat_of n n f tl) (Vec vs vb) iter = Ok (rc, v') ->
  let symmetric := forall i j, (i < n)%coq_nat -> (j < n)%coq_nat -> (Rabs (f i j - f j i) < / 1000000)%Re in
  exists A, (exists P Q : 'M[R]_n, Q *m P = 1%:M /\ mx n n A = Q *m mx n n f *m P)
  /\ char_poly (mx n n A) = char_poly (mx n n f)
  /\ (upper_triangular n A -> char_poly (mx n n f) = \prod_(i < n) ('X - (A i i)%:P))
  /\ (symmetric -> rc = Z0 /\ vsz v' = vs /\ firstn n (vbuf v') = cells (List.map (fun i => A i i) (List.seq 0 n)))
  /\ (~ symmetric ->
       ((forall k, (S k < n)%coq_nat -> (Rabs (A (S k) k) < / 1000000)%Re) ->
          rc = Z0 /\ exists t, v' =
            let d := List.map (fun i => A i i) (List.seq 0 n) in
            vec_of (List.filter (fun a => negb (zte_test a)) d ++ List.repeat 0%Re (length (List.filter zte_test d))) t)
       /\ (~ (forall k, (S k < n)%coq_nat -> (Rabs (A (S k) k) < / 1000000)%Re) ->
          rc = Z.opp ECOMPLEXVAL /\ (vsz v' < n)%coq_nat)).
Proof.
move=> Hn Hl Hv E sym. have [A [HS [_ [H1 H2]]]] := @eigenvalues_inv bc n fuel row0 col0 f tl vs vb iter rc v' Hn Hl Hv E.
have HS' := simil_mx n f A HS. have [P [Q [QP EA]]] := HS'. have HC := similar_char n _ _ _ _ QP EA.
exists A. split=> //. split=> //. split.
  move=> U. rewrite -HC char_poly_upper.
    by apply: eq_bigr => i _; rewrite mxE.
  move=> i j Hij. rewrite mxE. apply: U; exact/ltP.
have HY : sym <-> (forall i j, (i < n)%coq_nat -> (j < n)%coq_nat -> asym (f i j) (f j i) = false).
  split=> H i j Hi Hj; [apply/asym_R|apply/asym_R]; exact: H.
have HZ : all_small n A <-> (forall k, (S k < n)%coq_nat -> (Rabs (A (S k) k) < / 1000000)%Re).
  split=> H k Hk; [apply/not_big|apply/not_big]; exact: H.
split; first by move=> /HY /H1.
move=> NS. have {}NS : ~ (forall i j, (i < n)%coq_nat -> (j < n)%coq_nat -> asym (f i j) (f j i) = false).
  by move=> H; apply: NS; apply/HY.
have [H3 H4] := H2 NS. split; first by move=> /HZ /H3.
move=> N. apply: H4. by move=> /HZ.
Qed.

Lemma eigen_upper n f a : upper_triangular n f ->
  (eigenvalue (mx n n f) a = true <-> In a (List.map (fun i => f i i) (List.seq 0 n))).
Proof.
move=> U. rewrite eigenvalue_root_char char_poly_upper; last first.
  move=> i j Hij. rewrite mxE. apply: U; exact/ltP.
rewrite in_map_iff. split.
- move=> /rootP. rewrite horner_prod => /eqP /prodf_eq0 [i _]. rewrite mxE hornerXsubC subr_eq0 => /eqP ->.
  exists i. split=> //. apply/in_seq. have /ltP := ltn_ord i. lia.
- move=> [i [<- /in_seq Hi]]. apply/rootP. rewrite horner_prod. apply/eqP/prodf_eq0.
  have Hi' : (i < n)%N by apply/ltP; lia.
  exists (Ordinal Hi') => //. by rewrite mxE hornerXsubC subrr.
Qed.

Lemma eigenvalues_tri bc n fuel row0 col0 f tl vs vb iter rc v' :
  (0 < n)%coq_nat -> (n <= length vb)%coq_nat -> (vs <= length vb)%coq_nat -> upper_triangular n f ->
  mtx_eigenvalues bc fuel row0 col0 (mat_of n n f tl) (Vec vs vb) iter = Ok (rc, v') ->
  let d := List.map (fun i => f i i) (List.seq 0 n) in
  rc = Z0
  /\ (firstn n (vbuf v') = cells d \/
      exists t, v' = vec_of (List.filter (fun a => negb (zte_test a)) d
                             ++ List.repeat 0%Re (length (List.filter zte_test d))) t)
  /\ (forall a, eigenvalue (mx n n f) a = true <-> In a d).
Proof.
move=> Hn Hl Hv U E d. have [A [_ [HU [H1 H2]]]] := @eigenvalues_inv bc n fuel row0 col0 f tl vs vb iter rc v' Hn Hl Hv E.
have [HA HD] := HU U.
have ED : tab n (dg A) = d by apply: map_ext_in => i /in_seq Hi; rewrite /dg HD //; lia.
rewrite ED in H1, H2.
have [Y|Y] := Classical_Prop.classic (forall i j, (i < n)%coq_nat -> (j < n)%coq_nat -> asym (f i j) (f j i) = false).
- have [-> [_ F]] := H1 Y. split=> //. split; first by left. move=> a. exact: eigen_upper.
- have [H3 _] := H2 Y. have [-> F] := H3 HA. split=> //. split; first by right. move=> a. exact: eigen_upper.
Qed.

Lemma swap_eigen a : eigenvalue (mx 2 2 swap) a = true <-> a = 1%Re \/ a = (-1)%Re.
Proof.
split.
- move=> /eigenvalueP [v E N].
  have E0 := f_equal (fun M : 'M[R]_(1, 2) => M ord0 ord0) E.
  have E1 := f_equal (fun M : 'M[R]_(1, 2) => M ord0 (lift ord0 ord0)) E.
  move: E0 E1. rewrite !mxE !big_ord_recl !big_ord0 !mxE /swap /=.
  set x := v ord0 ord0. set y := v ord0 _.
  change (Rplus (Rmult x 0) (Rplus (Rmult y 1) 0) = Rmult a x -> Rplus (Rmult x 1) (Rplus (Rmult y 0) 0) = Rmult a y -> a = 1%Re \/ a = (-1)%Re).
  move=> E0 E1.
  have Hxy : ~ (x = 0%Re /\ y = 0%Re).
    move=> [X Y]. move/eqP: N; apply. apply/matrixP => i j. rewrite mxE. rewrite (ord1 i).
    case: j => -[|[|j]] Hj //.
    + rewrite -[RHS]X. congr (v _ _). exact: val_inj.
    + rewrite -[RHS]Y. congr (v _ _). exact: val_inj.
  have F0 : y = Rmult a x by lra.
  have F1 : x = Rmult a y by lra.
  have Z : Rmult (Rminus (Rmult a a) 1) x = 0%Re.
    have : Rmult (Rmult a a) x = x by rewrite Rmult_assoc -F0 -F1. nra.
  have Z' : Rmult (Rminus (Rmult a a) 1) y = 0%Re.
    have : Rmult (Rmult a a) y = y by rewrite Rmult_assoc -F1 -F0. nra.
  have F : Rminus (Rmult a a) 1 = 0%Re -> a = 1%Re \/ a = (-1)%Re.
    move=> Q. have : Rmult (Rminus a 1) (Rplus a 1) = 0%Re by nra.
    by move=> /Rmult_integral [?|?]; [left|right]; lra.
  case: (Rmult_integral _ _ Z) => [Q|X]; first exact: F.
  case: (Rmult_integral _ _ Z') => [Q|Y]; first exact: F.
  by case: Hxy.
- move=> H. apply/eigenvalueP.
  exists (\row_(j < 2) if (j : nat) == 0%N then 1%Re else a).
  + apply/matrixP => i j. rewrite !mxE !big_ord_recl !big_ord0 !mxE /swap /=.
    case: j => -[|[|j]] Hj //=; rewrite /=.
    * change (Rplus (Rmult 1 0) (Rplus (Rmult a 1) 0) = Rmult a 1). ring.
    * change (Rplus (Rmult 1 1) (Rplus (Rmult a 0) 0) = Rmult a a). case: H => ->; ring.
  + apply/eqP => /matrixP /(_ ord0 ord0). rewrite !mxE /=. move=> Q. have : (1 = 0)%Re by []. lra.
Qed.
