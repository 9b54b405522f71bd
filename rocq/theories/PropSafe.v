(** C126: the matrix functions never touch memory outside their operands and
    never use an indeterminate value, whatever the numbers are (infinities and
    NaNs included), in every arithmetic. *)
From Coq Require Import List Arith ZArith Bool Lia Reals.
From Coq Require PrimFloat.
From Verif Require Import Base BaseFacts NumR NumF SpecVec SpecMtx SpecSafe MVec MMtx MDecomp
  PVec PMtx PMtxOps PSafe PSafeMx PSafeQr.
Import ListNotations.
Set Implicit Arguments.
Local Open Scope nat_scope.

(** Both arithmetics of this development are lawful; binary64 is total. *)
Lemma lawful_R : lawful NumR.
Proof.
  split.
  - intros a b. cbn. unfold Rdivo. destruct (Req_EM_T b 0%R); eauto.
  - intros a. cbn. unfold Rsqrto. destruct (Rle_dec 0 a); eauto.
Qed.
Lemma total_F : total NumF.
Proof. split; intros; eexists; reflexivity. Qed.
Lemma total_lawful T (N : Num T) : total N -> lawful N.
Proof. intros (H1 & H2). split; intros; left; auto. Qed.
Lemma lawful_F : lawful NumF.
Proof. apply total_lawful, total_F. Qed.

(** From the form used in the proofs to the specification's *)
Lemma filled_isb T n (b : buf T) : filled n b -> isb n b.
Proof.
  intros H. apply isb_iff. split; [|exact H]. destruct n as [|n]; [lia|].
  destruct (H n) as (x & E); [lia|]. assert (n < length b) by (apply nth_error_Some; congruence). lia.
Qed.
Lemma isb_filled T n (b : buf T) : isb n b -> filled n b.
Proof. intros H. now apply isb_iff in H. Qed.
Lemma filled_ism T (N : Num T) r c (m : mtx T) : mtx_filled r c m -> ism r c (skipn (r * c) (mbuf m)) m.
Proof.
  intros (Hr & Hc & Hb). destruct m as [r' c' b]. cbn in *. subst. apply isb_ism. now apply filled_isb.
Qed.
Lemma ism_filled T r c tl (m : mtx T) : ism r c tl m -> mtx_filled r c m.
Proof. intros H. destruct (ism_isb H) as (Hr & Hc & Hb). repeat split; auto. now apply isb_filled. Qed.

Section S.
Context {T : Type} {N : Num T}.
Variable bc : bool.
Hypothesis L : lawful N.
Implicit Types m d a b mi mg mn mo q h l : mtx T.

Ltac go lem := apply wp_safe; eapply wp_imp; [eapply lem; eauto using filled_ism|].
Ltac fin := intros (rc & x) (E & H0); cbn [fst snd] in *; split; [exact E|cbn [snd]; eauto using ism_filled].

Theorem C126_copy r c m d : mtx_filled r c m -> room r c d -> safe N (code_0 (mtx_filled r c)) (mtx_copy bc d m).
Proof. intros H Hd. go (@wp_copy T N bc False r c). fin. Qed.

Theorem C126_mult r n c a b m : mtx_filled r n a -> mtx_filled n c b -> room r c m ->
  safe N (code_0 (mtx_filled r c)) (mtx_mult bc a b m).
Proof. intros Ha Hb Hm. go (@wp_mult T N bc False r n c). fin. Qed.

Theorem C126_trans r c a m : mtx_filled r c a -> room c r m ->
  safe N (code_0 (mtx_filled c r)) (mtx_trans bc a m).
Proof. intros Ha Hm. go (@wp_trans T N bc False r c). fin. Qed.

Theorem C126_deter n m : mtx_filled n n m ->
  safe N (code_0 (fun y => exists x, y = Some x)) (mtx_deter bc m).
Proof. intros H. go (@wp_deter T N bc False n). intros x (d & ->). split; cbn; eauto. Qed.

Theorem C126_adjoint n m a : mtx_filled n n m -> room n n a ->
  safe N (code_0 (mtx_filled n n)) (mtx_adjoint bc m a).
Proof. intros H Ha. go (@wp_adjoint T N bc False n). intros (rc & x) (E & t & Hx). split; [exact E|]. eapply ism_filled; eauto. Qed.

Theorem C126_gauss_elim r c k m mg mi i j :
  mtx_filled r c m -> room r c mg -> mtx_filled r k mi -> i < r -> j < c ->
  safe N (fun x => mtx_filled r c (fst (snd x)) /\ mtx_filled r k (snd (snd x))) (mtx_gauss_elim bc m mg mi i j).
Proof.
  intros H Hg Hi Hir Hjc. go (@wp_gauss_elim T N bc False L r c). intros x (H1 & H2). split; eauto using ism_filled.
Qed.

Theorem C126_norm_elem r c k m mn mi i j :
  mtx_filled r c m -> room r c mn -> mtx_filled r k mi -> i < r -> j < c ->
  safe N (fun x => mtx_filled r c (fst (snd x)) /\ mtx_filled r k (snd (snd x))) (mtx_norm_elem bc m mn mi i j).
Proof.
  intros H Hg Hi Hir Hjc. go (@wp_norm_elem T N bc False L r c). intros x (H1 & H2). split; eauto using ism_filled.
Qed.

(** at least as many columns as rows *)
Theorem C126_gauss_reduc r c k m mi mg : r <= c -> mtx_filled r c m -> mtx_filled r k mi -> room r c mg ->
  safe N (code_0 (fun x => mtx_filled r k (fst x) /\ mtx_filled r c (snd x))) (mtx_gauss_reduc bc m mi mg).
Proof.
  intros Hrc H Hi Hg. go (@wp_gauss_reduc T N bc False L r c). intros (rc & x) (E & H1 & H2).
  split; [exact E|]. cbn in *. eauto using ism_filled.
Qed.

Theorem C126_inv n m mi : mtx_filled n n m -> room n n mi ->
  safe N (code_0 (mtx_filled n n)) (mtx_inv bc m mi).
Proof.
  intros H Hi. go (@wp_inv T N bc False L n). intros (rc & x) (E & t & Hx). split; [exact E|]. eapply ism_filled; eauto.
Qed.

Theorem C126_vec_wedge c m v : 1 <= c -> mtx_filled (c - 1) c m -> vsz v = c -> c <= length (vbuf v) ->
  safe N (any_code (fun w => vsz w = c)) (mtx_vec_wedge bc m v).
Proof. intros Hc H Hs Hl. go (@wp_wedge T N bc False L c). intros (rc & x) (H1 & _). exact H1. Qed.

Theorem C126_gram_schmidt r c m mo : mtx_filled r c m -> room r c mo ->
  safe N (code_0 (mtx_filled r c)) (mtx_gram_schmidt bc m mo).
Proof. intros H Ho. go (@wp_gram_schmidt T N bc False L r c). fin. Qed.

Theorem C126_cols_norm r c m mo : 1 <= r -> mtx_filled r c m -> room r c mo ->
  safe N (code_0 (mtx_filled r c)) (mtx_cols_norm bc m mo).
Proof. intros Hr H Ho. go (@wp_cols_norm T N bc False L r c). fin. Qed.

Theorem C126_cholesky n m l : mtx_filled n n m -> room n n l ->
  safe N (fun x => room n n (snd x) /\ (fst x = 0%Z -> mtx_filled n n (snd x))) (mtx_cholesky bc m l).
Proof.
  intros H Hl. go (@wp_cholesky T N bc False L n). intros x (H1 & H2). split; [exact H1|]. intros E. eapply ism_filled, H2, E.
Qed.

(** the Hessenberg variant needs two rows *)
Theorem C126_householder n c m h (hess : bool) : 1 <= c -> (if hess then 2 else 1) <= n ->
  mtx_filled n c m -> room n n h -> safe N (code_0 (mtx_filled n n)) (mtx_householder bc m h hess).
Proof. intros Hc Hn H Hh. go (@wp_householder T N bc False L n c). fin. Qed.

Theorem C126_qrd n m q (r : mtx T) hess : 1 <= n -> mtx_filled n n m -> room n n q -> room n n r ->
  safe N (code_0 (fun x => mtx_filled n n (fst x) /\ mtx_filled n n (snd x))) (mtx_qrd bc m q r hess).
Proof.
  intros Hn H Hq Hr. go (@wp_qrd T N bc False L n). intros (rc & x) (E & H1 & H2).
  split; [exact E|]. cbn in *. eauto using ism_filled.
Qed.

Theorem C126_qrd_iter n m mo iter : 1 <= n -> mtx_filled n n m -> room n n mo ->
  safe N (code_0 (mtx_filled n n)) (mtx_qrd_iter bc m mo iter).
Proof. intros Hn H Hm. go (@wp_qrd_iter T N bc False L n). fin. Qed.

(** Balancing and eigenvalues: whether the scaling loops end is not claimed
    here, and the locals row and col are taken to hold some numbers (reading
    them is undefined by the standard, see C44). *)
Theorem C126_balance fuel n row col m mo : mtx_filled n n m -> room n n mo ->
  never_ub (mtx_balance bc fuel (Some row) (Some col) m mo).
Proof.
  intros H Hm. apply wp_never_ub with (NR := ~ total N) (OF := True) (P := code0 (fun x => exists t, ism n n t x)).
  eapply wp_balance; eauto using filled_ism.
Qed.

Theorem C126_eigenvalues fuel n row col m v iter : 2 <= n -> mtx_filled n n m -> vsz v = n -> n <= length (vbuf v) ->
  never_ub (mtx_eigenvalues bc fuel (Some row) (Some col) m v iter).
Proof.
  intros Hn H Hs Hl. eapply wp_never_ub with (NR := ~ total N) (OF := True). eapply wp_eigenvalues; eauto using filled_ism.
Qed.

End S.

(** Doubles: the calls return, for any contents. *)
Theorem C126_doubles_inv bc n (m mi : mtx PrimFloat.float) : mtx_filled n n m -> room n n mi ->
  exists r, mtx_inv (N := NumF) bc m mi = Ok (0%Z, r) /\ mtx_filled n n r.
Proof.
  intros H Hi. destruct (C126_inv bc lawful_F H Hi) as (_ & _ & HP & HE).
  destruct (HE total_F) as ((rc & r) & E). destruct (HP _ E) as (E1 & E2). cbn in E1, E2. subst rc. eauto.
Qed.

Theorem C126_doubles_qrd bc n (m q r : mtx PrimFloat.float) hess : 1 <= n -> mtx_filled n n m -> room n n q -> room n n r ->
  exists q' r', mtx_qrd (N := NumF) bc m q r hess = Ok (0%Z, (q', r')) /\ mtx_filled n n q' /\ mtx_filled n n r'.
Proof.
  intros Hn H Hq Hr. destruct (C126_qrd bc lawful_F hess Hn H Hq Hr) as (_ & _ & HP & HE).
  destruct (HE total_F) as ((rc & (q' & r')) & E). destruct (HP _ E) as (E1 & E2 & E3). cbn in E1, E2, E3. subst rc. eauto.
Qed.

(** Non-vacuity: a 4 x 4 matrix of infinities with NaNs on the diagonal, in
    memory that is longer than needed *)
Definition bad4 : mtx PrimFloat.float :=
  mat_of 4 4 (fun i j => if i =? j then PrimFloat.nan else PrimFloat.infinity) [None].
Lemma bad4_filled : mtx_filled 4 4 bad4.
Proof. eapply ism_filled. apply ism_mat. Qed.
Example C126_doubles_ex : exists r, mtx_inv (N := NumF) true bad4 (mtx_def 4 4) = Ok (0%Z, r) /\ mtx_filled 4 4 r.
Proof. apply C126_doubles_inv; [apply bad4_filled|apply room_def]. Qed.
Example C126_doubles_qrd_ex : exists q r,
  mtx_qrd (N := NumF) true bad4 (mtx_def 4 4) (mtx_def 4 4) true = Ok (0%Z, (q, r)) /\ mtx_filled 4 4 q /\ mtx_filled 4 4 r.
Proof. apply C126_doubles_qrd; [lia|apply bad4_filled|apply room_def|apply room_def]. Qed.
Example C126_R_ex : safe NumR (code_0 (mtx_filled 5 5))
  (mtx_inv true (mat_of 5 5 (fun i j => INR (i * j)) []) (mtx_def 5 5)).
Proof. apply C126_inv; [apply lawful_R|eapply ism_filled, ism_mat|apply room_def]. Qed.

(** The same is false of the eigenvectors: three eigenvalues within 1E-6 of
    their neighbours make four columns, which are written into the caller's
    3 x 3 buffer. *)
Definition near3 : mtx PrimFloat.float :=
  mat_of 3 3 (fun i j => if i =? j
    then PrimFloat.add PrimFloat.one (PrimFloat.mul (flit 9 7) (fofZ (Z.of_nat i))) else PrimFloat.zero) [].
Theorem C126_eigenvectors_refuted :
  ~ (forall (m mev : mtx PrimFloat.float) orth, mtx_filled 3 3 m -> room 3 3 mev ->
     never_ub (mtx_eigenvectors true 10 (Some PrimFloat.zero) (Some PrimFloat.zero)
                 (repeat (Some PrimFloat.zero) 9) m mev 20 orth)).
Proof.
  intros H. assert (Hf : mtx_filled 3 3 near3) by (eapply ism_filled, ism_mat).
  apply (H near3 (mtx_def 3 3) true Hf (room_def 3 3) OOBWrite). vm_compute. reflexivity.
Qed.

(** Reading a matrix element by element, the same matrix has ordinary
    eigenvalues: the failure is not an overflow of the arithmetic. *)
Example C126_eigenvectors_ex : exists v, mtx_eigenvalues true 10 (Some PrimFloat.zero) (Some PrimFloat.zero)
  near3 (vec_def 3) 20 = Ok (0%Z, v) /\ vsz v = 3.
Proof. eexists. split; [vm_compute; reflexivity|reflexivity]. Qed.

Print Assumptions C126_inv.
Print Assumptions C126_qrd.
Print Assumptions C126_eigenvalues.
Print Assumptions C126_doubles_inv.
Print Assumptions C126_eigenvectors_refuted.
