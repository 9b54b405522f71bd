(** The decompositions of a diagonal matrix with different entries. *)
From Coq Require Import List Arith ZArith Bool Lia Reals Lra FunctionalExtensionality.
From Verif Require Import Base NumR BaseFacts SpecVec SpecReal SpecMtx SpecDecomp SpecGauss SpecReduc SpecSvd MVec MMtx MDecomp
  PVec PVecR PMtx PMtxOps PMtxR PFvec PDet PGauss PQr PBal PReduc PGram PSvd PSvdR RTac PEigvec PEigvec2 PEigMx PSvdFwd.
Import ListNotations.
Set Implicit Arguments.
Local Open Scope R_scope.
Implicit Types f g : nat -> nat -> R.

Section D.
Variable bc : bool.

Lemma eigenvalues_diag fuel n (d : nat -> R) tl iter : (0 < n)%nat ->
  mtx_eigenvalues bc (S fuel) (Some 0) (Some 0) (mat_of n n (diag_of d) tl) (vec_def n) iter
  = Ok (0%Z, vec_of (map d (seq 0 n)) []).
Proof.
  intros Hn.
  assert (Sy : forall i j, (i < n)%nat -> (j < n)%nat -> diag_of d i j = diag_of d j i).
  { intros i j _ _. unfold diag_of. rewrite (Nat.eqb_sym j i). destruct (Nat.eqb_spec i j) as [->|]; auto. }
  destruct (@eigenvalues_sym bc fuel n (diag_of d) tl iter Hn Sy) as (A & p & E & _).
  assert (Hl : (n <= length (vbuf (@vec_def R n)))%nat) by (unfold vec_def; cbn [vbuf]; rewrite fresh_length; lia).
  destruct (@eigenvalues_inv bc n (S fuel) (Some 0) (Some 0) (diag_of d) tl n (vbuf (vec_def n)) iter 0%Z _ Hn Hl Hl E) as (A' & _ & HU & HS & _).
  destruct HS as (_ & _ & F).
  { intros i j Hi Hj. apply asym_R. rewrite (Sy i j) by auto. rewrite Rminus_eq_0, Rabs_R0. lra. }
  destruct HU as (_ & HU). { intros i j Hi Hj. unfold diag_of. destruct (Nat.eqb_spec i j); [lia|auto]. }
  rewrite E. do 2 f_equal. unfold fvec, vec_of in *. cbn [vbuf] in F. rewrite app_nil_r in *.
  rewrite firstn_all2 in F by (rewrite cells_length, tab_length; lia).
  rewrite map_length, seq_length. f_equal. rewrite F, app_nil_r. f_equal. unfold tab, dg.
  apply map_ext_in. intros i Hi. apply in_seq in Hi. rewrite HU by lia. unfold diag_of. now rewrite Nat.eqb_refl.
Qed.

(** elimination of a diagonal matrix turns the non-zero entries into ones *)
Lemma reduc_diag n k (d : nat -> R) : (k <= n)%nat -> forall i j, (i < n)%nat -> (j < n)%nat ->
  reduc n k (diag_of d) i j = if (i =? j)%nat then if (i <? k)%nat then if Req_EM_T (d i) 0 then 0 else 1 else d i else 0.
Proof.
  induction k as [|k IH]; intros Hk i j Hi Hj; [reflexivity|]. cbn [reduc].
  assert (IH' := IH ltac:(lia)). clear IH. set (g := reduc n k (diag_of d)) in *.
  assert (Gk : g k k = d k) by (rewrite IH', Nat.eqb_refl, Nat.ltb_irrefl by lia; reflexivity).
  assert (P : prepared n k g = g).
  { unfold prepared. destruct (Req_EM_T (g k k) 0) as [Z|]; auto.
    destruct (pick_row n k g) as [q|] eqn:Eq; auto. exfalso. unfold pick_row in Eq.
    apply find_some in Eq. destruct Eq as (Hq & T). apply in_seq in Hq. apply andb_true_iff in T. destruct T as (T & _).
    apply nz_true in T. destruct (Nat.eq_dec q k) as [->|N]; [contradiction|].
    rewrite IH' in T by lia. destruct (Nat.eqb_spec q k); [contradiction|]. now apply T. }
  rewrite P, Gk. destruct (Req_EM_T (d k) 0) as [Z|N].
  - rewrite IH' by auto. destruct (Nat.eqb_spec i j) as [->|]; auto.
    destruct (Nat.ltb_spec j k), (Nat.ltb_spec j (S k)); try lia; auto.
    assert (j = k) by lia. subst j. destruct (Req_EM_T (d k) 0); [auto|contradiction].
  - unfold cleared. rewrite Gk. destruct (Nat.eqb_spec i k) as [->|Nk].
    + rewrite IH' by auto. rewrite Nat.ltb_irrefl. destruct (Nat.eqb_spec k j) as [<-|].
      * destruct (Nat.ltb_spec k (S k)); [|lia]. destruct (Req_EM_T (d k) 0); [contradiction|]. field. auto.
      * unfold Rdiv. ring.
    + rewrite (IH' i k) by lia. destruct (Nat.eqb_spec i k); [contradiction|].
      rewrite IH' by auto. destruct (Nat.eqb_spec i j) as [->|]; [|unfold Rdiv; ring].
      destruct (Nat.ltb_spec j k), (Nat.ltb_spec j (S k)); try lia; unfold Rdiv; ring.
Qed.

Lemma shifted_diag d l : shifted (diag_of d) l = diag_of (fun i => d i - l).
Proof.
  apply functional_extensionality. intros i. apply functional_extensionality. intros j.
  unfold shifted, diag_of. destruct (i =? j)%nat; auto.
Qed.

Lemma diag_exact_spread n d : spread n d -> exact_spread n (diag_of d) d.
Proof.
  intros (S1 & S2). split; [split; auto|]. intros i Hi. split.
  - exists (fun a => if (a =? i)%nat then 1 else 0). split.
    + exists i. split; auto. rewrite Nat.eqb_refl. lra.
    + intros a Ha. rewrite (@bigsum_ext n _ (fun j => if (j =? i)%nat then diag_of d a j else 0)).
      * rewrite (bigsum_delta n (fun j => diag_of d a j)) by auto. unfold diag_of.
        destruct (Nat.eqb_spec a i) as [->|]; ring.
      * intros j _. destruct (j =? i)%nat; ring.
  - rewrite shifted_diag. intros k a Hk Ha. rewrite reduc_diag by lia. destruct (Nat.eqb_spec a k) as [->|]; auto.
    rewrite Nat.ltb_irrefl. destruct (Nat.eq_dec k i) as [->|N]; [left; lra|]. right. now apply S2.
Qed.

Lemma mmul_diag n d e : (forall i, (n <= i)%nat -> d i = 0) -> mmul n (diag_of d) (diag_of e) = diag_of (fun i => d i * e i).
Proof.
  intros H. apply functional_extensionality. intros i. apply functional_extensionality. intros j. unfold mmul.
  rewrite (@bigsum_ext n _ (fun k => if (k =? i)%nat then d i * diag_of e k j else 0)).
  - destruct (Nat.lt_ge_cases i n) as [L|L].
    + rewrite (bigsum_delta n (fun k => d i * diag_of e k j)) by auto. unfold diag_of. destruct (i =? j)%nat; ring.
    + rewrite (@bigsum_ext n _ (fun _ => 0)); [rewrite bigsum_0|]; unfold diag_of.
      * rewrite (H i L). destruct (i =? j)%nat; ring.
      * intros k Hk. destruct (Nat.eqb_spec k i); [lia|auto].
  - intros k _. unfold diag_of at 1. rewrite (Nat.eqb_sym i k). destruct (k =? i)%nat; ring.
Qed.

Lemma diag_tr d : (fun i j => diag_of d j i) = diag_of d.
Proof.
  apply functional_extensionality. intros i. apply functional_extensionality. intros j.
  unfold diag_of. rewrite (Nat.eqb_sym j i). destruct (Nat.eqb_spec i j) as [->|]; auto.
Qed.

Definition cut n (d : nat -> R) : nat -> R := fun i => if (i <? n)%nat then d i else 0.
Lemma cut_in n d i : (i < n)%nat -> cut n d i = d i.
Proof. intros H. unfold cut. destruct (Nat.ltb_spec i n); [auto|lia]. Qed.
Lemma cut_out n d i : (n <= i)%nat -> cut n d i = 0.
Proof. intros H. unfold cut. destruct (Nat.ltb_spec i n); [lia|auto]. Qed.
Lemma mat_cut n d tl : mat_of n n (diag_of d) tl = mat_of n n (diag_of (cut n d)) tl.
Proof. apply mat_ext. intros i j Hi Hj. unfold diag_of. now rewrite cut_in. Qed.

(** the decomposition and the pseudo-inverse of diag(d) *)
Lemma svd_diag fuel n d tlm h1 t1 h2 t2 u0 e0 v0 p0 iter :
  (0 < n)%nat -> room n n u0 -> room n n e0 -> room n n v0 -> room n n p0 ->
  spread n (fun i => d i * d i) ->
  (exists U V tv,
    mtx_svd bc (S fuel) (Some 0) (Some 0) (mbuf (mat_of n n h1 t1)) (mbuf (mat_of n n h2 t2)) (mat_of n n (diag_of d) tlm) u0 e0 v0 iter
    = Ok (0%Z, (mat_of n n U (rest u0), mat_of n n (diag_of (fun i => Rabs (d i))) (rest e0), mat_of n n V tv))
    /\ orthogonal n U /\ orthogonal n V /\ svd_product n n (diag_of d) U (fun i => Rabs (d i)) V)
  /\ mtx_pinv bc (S fuel) (Some 0) (Some 0) (mbuf (mat_of n n h1 t1)) (mbuf (mat_of n n h2 t2)) (mat_of n n (diag_of d) tlm) p0 iter
    = Ok (0%Z, mat_of n n (diag_of (fun i => 1 / d i)) (rest p0)).
Proof.
  intros Hn Hu He Hv Hp Sp0. rewrite mat_cut. set (c := cut n d).
  assert (Cut : forall i, (n <= i)%nat -> c i = 0) by (intros; now apply cut_out).
  set (q := fun i => c i * c i).
  assert (Gm : gram n (diag_of c) = diag_of q) by (unfold gram; rewrite diag_tr; now apply mmul_diag).
  assert (Om : outer n (diag_of c) = diag_of q) by (unfold outer; rewrite diag_tr; now apply mmul_diag).
  assert (Sp : spread n q).
  { destruct Sp0 as (S1 & S2). split; intros; unfold q, c; rewrite !cut_in by auto; auto. }
  pose proof (@diag_exact_spread n q Sp) as Ex.
  assert (E1 : forall fu, mtx_eigenvalues bc (S fu) (Some 0) (Some 0) (mat_of n n (diag_of q) []) (vec_def n) iter = Ok (0%Z, vec_of (map q (seq 0 n)) []))
    by (intros; now apply eigenvalues_diag).
  assert (HC : forall x, In x (eigen_list n q) -> reduc_clear n (shifted (diag_of q) x)).
  { rewrite (spread_list Sp). intros x Hx. apply in_map_iff in Hx. destruct Hx as (i & <- & Hi). apply in_seq in Hi. apply Ex. lia. }
  assert (Es : forall i, (i < n)%nat -> sqrt (q i) = Rabs (d i)).
  { intros i Hi. unfold q, c. rewrite cut_in by auto. change (d i * d i) with (Rsqr (d i)). apply sqrt_Rsqr_abs. }
  assert (Main : forall u0 e0 v0, room n n u0 -> room n n e0 -> room n n v0 -> exists U V tv,
    mtx_svd bc (S fuel) (Some 0) (Some 0) (mbuf (mat_of n n h1 t1)) (mbuf (mat_of n n h2 t2)) (mat_of n n (diag_of c) tlm) u0 e0 v0 iter
    = Ok (0%Z, (mat_of n n U (rest u0), mat_of n n (diag_of (fun i => sqrt (q i))) (rest e0), mat_of n n V tv))
    /\ (forall k, (k < n)%nat -> / 1000 <= sqrt (q k))
    /\ orthogonal n V /\ orthonormal_columns n n U /\ svd_product n n (diag_of c) U (fun i => sqrt (q i)) V
    /\ (forall i j, (i < n)%nat -> (j < n)%nat -> U i j = bigsum n (fun k => diag_of c i k * V k j) * (1 / sqrt (q j)))).
  { intros u1 e1 v1 Hu1 He1 Hv1.
    refine (@svd_total bc fuel n n (diag_of c) tlm h1 t1 h2 t2 u1 e1 v1 iter q [] q [] _ Hu1 He1 Hv1 _ _ _ _ _).
    - lia. - rewrite Gm. apply E1. - rewrite Gm. exact Ex. - rewrite Om. apply E1. - rewrite Om. exact HC. - now left. }
  split.
  - destruct (Main u0 e0 v0 Hu He Hv) as (U & V & tv & E & Hs & HV & HU & HP & _). exists U, V, tv. split.
    + rewrite E. do 4 f_equal. apply mat_ext. intros i j Hi Hj. unfold diag_of. destruct (i =? j)%nat; auto.
    + split; [now apply columns_orthogonal|]. split; auto. intros i j Hi Hj.
      replace (diag_of d i j) with (diag_of c i j) by (unfold diag_of, c; now rewrite cut_in).
      rewrite <- (HP i j Hi Hj). apply bigsum_ext. intros k Hk. now rewrite Es.
  - destruct (Main _ _ _ (room_def n n) (room_def n n) (room_def n n)) as (U & V & tv & E & Hs & HV & HU & HP & HU').
    assert (Hs0 : forall k, (k < n)%nat -> sqrt (q k) <> 0) by (intros k Hk; pose proof (Hs k Hk); lra).
    rewrite (@pinv_fwd _ _ _ _ _ _ _ _ _ _ _ _ _ _ _ _ _ _ _ (le_n n) Hp Hs0 E). do 2 f_equal.
    apply mat_ext. intros i j Hi Hj.
    pose proof (@pinv_left n n (diag_of c) U V (fun i => sqrt (q i)) HV Hs0 HU' HU i j Hi Hj) as L.
    set (P := pinv_of n U V (fun i => sqrt (q i))) in *. clearbody P. unfold mmul in L.
    rewrite (@bigsum_ext n _ (fun k => if (k =? j)%nat then P i k * c j else 0)) in L.
    + rewrite (bigsum_delta n (fun k => P i k * c j)) in L by auto. unfold c in L. rewrite cut_in in L by auto.
      assert (N : d j <> 0). { intros Z. destruct Sp0 as (S1 & _). specialize (S1 j Hj). cbv beta in S1. rewrite Z, Rmult_0_l, Rabs_R0 in S1. lra. }
      unfold diag_of, delta in *. destruct (Nat.eqb_spec i j) as [->|].
      * rewrite <- L. field. auto.
      * apply Rmult_integral in L. destruct L; [auto|contradiction].
    + intros k _. unfold diag_of. destruct (Nat.eqb_spec k j) as [->|]; auto. ring.
Qed.

End D.

(** code 0 means that n values are reported *)
Lemma eigenvalues_shape bc fuel row0 col0 n f tl iter v : (0 < n)%nat ->
  mtx_eigenvalues bc fuel row0 col0 (mat_of n n f tl) (vec_def n) iter = Ok (0%Z, v) ->
  exists l t, v = vec_of (map l (seq 0 n)) t.
Proof.
  intros Hn E.
  assert (Hl : (n <= length (vbuf (@vec_def R n)))%nat) by (unfold vec_def; cbn [vbuf]; rewrite fresh_length; lia).
  destruct (@eigenvalues_inv bc n fuel row0 col0 f tl n (vbuf (vec_def n)) iter 0%Z v Hn Hl Hl E) as (A & _ & _ & H1 & H2).
  assert (Any : forall (xs : list R) t, length xs = n -> exists l t', vec_of xs t = vec_of (map l (seq 0 n)) t').
  { intros xs t Hx. exists (fun i => nth i xs 0), t. f_equal. subst n. clear. symmetry.
    induction xs as [|x xs IH]; [reflexivity|]. cbn [length seq map nth]. f_equal.
    rewrite <- seq_shift, map_map. exact IH. }
  destruct (Classical_Prop.classic (forall i j, (i < n)%nat -> (j < n)%nat -> asym (f i j) (f j i) = false)) as [Y|Y].
  - destruct (H1 Y) as (_ & V & F). exists (dg A), (skipn n (vbuf v)). destruct v as [s b]. cbn [vsz vbuf] in *. subst s.
    unfold vec_of. rewrite map_length, seq_length. f_equal. change (map (dg A) (seq 0 n)) with (tab n (dg A)).
    rewrite <- F. symmetry. apply firstn_skipn.
  - destruct (H2 Y) as (H3 & H4). destruct (Classical_Prop.classic (all_small n A)) as [Z|Z].
    + destruct (H3 Z) as (_ & t & ->). apply Any. rewrite app_length, repeat_length.
      assert (X : forall xs, (length (filter (fun a : R => negb (zte_test a)) xs) + length (filter zte_test xs))%nat = length xs).
      { induction xs as [|x xs IH]; [reflexivity|]. cbn [filter]. destruct (zte_test x); cbn [negb length]; lia. }
      rewrite X. apply tab_length.
    + destruct (H4 Z) as (X & _). discriminate.
Qed.

Lemma eigenvalues_sym_list bc fuel n f tl iter :
  (0 < n)%nat -> (forall i j, (i < n)%nat -> (j < n)%nat -> f i j = f j i) ->
  exists A p, mtx_eigenvalues bc (S fuel) (Some 0) (Some 0) (mat_of n n f tl) (vec_def n) iter
  = Ok (0%Z, vec_of (map (fun i => A i i) (seq 0 n)) [])
  /\ orthogonal n p /\ same n A (mmul n (mmul n (fun i j => p j i) f) p).
Proof.
  intros Hn Sy. destruct (@eigenvalues_sym bc fuel n f tl iter Hn Sy) as (A & p & E & H). exists A, p.
  split; [|exact H]. rewrite E, fvec_vec_of. reflexivity.
Qed.

(** the reduced form that is returned *)
Lemma gauss_reduc_form bc n f h tf th mg : room n n mg -> reduc_clear n f ->
  exists h' g, mtx_gauss_reduc bc (mat_of n n f tf) (mat_of n n h th) mg = Ok (0%Z, (mat_of n n h' th, mat_of n n g (rest mg)))
  /\ reduced n g /\ forall x, solves n g x <-> solves n f x.
Proof.
  intros Hm Cl. destruct (@gauss_reduc_any bc n f h tf th mg Hm Cl) as (h' & E). exists h', (reduc n n f).
  split; [exact E|]. split; [apply reduc_reduced|]. intros x. apply reduc_solves. lia.
Qed.

Lemma pinv_total bc fuel r c M tlm h1 t1 h2 t2 p0 iter l tl l2 tl2 :
  (0 < c <= r)%nat -> room c r p0 ->
  mtx_eigenvalues bc (S fuel) (Some 0) (Some 0) (mat_of c c (gram r M) []) (vec_def c) iter = Ok (0%Z, vec_of (map l (seq 0 c)) tl) ->
  exact_spread c (gram r M) l ->
  mtx_eigenvalues bc (S fuel) (Some 0) (Some 0) (mat_of r r (outer c M) []) (vec_def r) iter = Ok (0%Z, vec_of (map l2 (seq 0 r)) tl2) ->
  (forall x, In x (eigen_list r l2) -> reduc_clear r (shifted (outer c M) x)) ->
  r = c \/ (forall rc up, mtx_eigenvectors bc (S fuel) (Some 0) (Some 0) (mbuf (mat_of r r h2 t2)) (mat_of r r (outer c M) []) (mtx_def r r) iter true = Ok (rc, up) -> rc = 0%Z) ->
  exists P,
  mtx_pinv bc (S fuel) (Some 0) (Some 0) (mbuf (mat_of c c h1 t1)) (mbuf (mat_of r r h2 t2)) (mat_of r c M tlm) p0 iter
  = Ok (0%Z, mat_of c r P (rest p0))
  /\ pseudo_inverse r c M P
  /\ (forall i j, (i < c)%nat -> (j < c)%nat -> mmul r P M i j = delta i j).
Proof.
  intros Hc Hp E1 Ex E2 HC2 Hf.
  destruct (@svd_total bc fuel r c M tlm h1 t1 h2 t2 _ _ _ iter l tl l2 tl2 Hc (room_def r r) (room_def r c) (room_def c c) E1 Ex E2 HC2 Hf)
    as (U & V & tv & E & Hs & HV & HU & HP & HU').
  assert (Hs0 : forall k, (k < c)%nat -> sqrt (l k) <> 0) by (intros k Hk; pose proof (Hs k Hk) as A; cbv beta in A; lra).
  exists (pinv_of c U V (fun i => sqrt (l i))). split.
  - exact (@pinv_fwd _ _ _ _ _ _ _ _ _ _ _ _ _ _ _ _ _ _ _ (proj2 Hc) Hp Hs0 E).
  - split; [exact (@pinv_penrose r c M U V _ HV Hs0 HU' HU)|].
    exact (@pinv_left r c M U V _ HV Hs0 HU' HU).
Qed.
