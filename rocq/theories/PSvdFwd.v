(** Eigenvectors, singular values and pseudo-inverses: the whole statements. *)
From Coq Require Import List Arith ZArith Bool Lia Reals Lra FunctionalExtensionality.
From Verif Require Import Base NumR BaseFacts SpecVec SpecReal SpecMtx SpecDecomp SpecGauss SpecReduc SpecSvd MVec MMtx MDecomp
  PVec PVecR PMtx PMtxOps PMtxR PFvec PDet PGauss PQr PBal PReduc PGram PSvd PSvdR RTac PEigvec PEigvec2 PEigMx.
Import ListNotations.
Set Implicit Arguments.
Local Open Scope R_scope.
Implicit Types f g : nat -> nat -> R.

(** a vector holding l 0, ..., l (n-1) *)
Lemma lvec_facts n (l : nat -> R) tl : let k := vec_of (map l (seq 0 n)) tl in
  vsz k = n /\ (forall q, (q < n)%nat -> rd (vbuf k) q = Ok (l q)) /\ (forall q, (q < n)%nat -> cell_val (vbuf k) q = l q).
Proof.
  intros k. assert (H : forall q, (q < n)%nat -> rd (vbuf k) q = Ok (l q)).
  { intros q Hq. unfold k, vec_of. cbn [vbuf].
    rewrite (@rd_cells_app R _ tl q (l 0%nat)) by (rewrite map_length, seq_length; auto).
    rewrite map_nth, seq_nth by auto. reflexivity. }
  split; [unfold k, vec_of; cbn [vsz]; now rewrite map_length, seq_length|]. split; auto.
  intros q Hq. unfold cell_val. now rewrite H.
Qed.

Lemma distinct_ext q k k' : (forall i, (i < q)%nat -> k i = k' i) -> distinct_values q k = distinct_values q k'.
Proof.
  induction q as [|q IH]; intros H; [reflexivity|]. cbn [distinct_values]. rewrite IH by (intros; apply H; lia).
  rewrite (H q) by lia. reflexivity.
Qed.

Lemma eigen_list_ext n k k' : (forall i, (i < n)%nat -> k i = k' i) -> eigen_list n k = eigen_list n k'.
Proof.
  intros H. unfold eigen_list. rewrite (distinct_ext _ _ H). f_equal.
  assert (X : forall l, (forall i, In i l -> (i < n)%nat) -> existsb (fun q => close (k q) 0) l = existsb (fun q => close (k' q) 0) l).
  { induction l as [|a l IH]; intros Hl; [reflexivity|]. cbn [existsb]. rewrite (H a) by (apply Hl; left; auto).
    rewrite IH; auto. intros i Hi. apply Hl. right. auto. }
  rewrite X; [reflexivity|]. intros i Hi. apply in_seq in Hi. lia.
Qed.

Section V.
Variable bc : bool.

(** the run answers, and its columns *)
Lemma eigenvectors_total fuel row0 col0 n f tf h th mev iter orth z l tl :
  room n n mev ->
  mtx_eigenvalues bc fuel row0 col0 (mat_of n n f tf) (vec_def n) iter = Ok (z, vec_of (map l (seq 0 n)) tl) ->
  (forall x, In x (eigen_list n l) -> reduc_clear n (shifted f x)) ->
  exists rc b V tv,
  mtx_eigenvectors bc fuel row0 col0 (mbuf (mat_of n n h th)) (mat_of n n f tf) mev iter orth = Ok (rc, mat_of n b V tv)
  /\ (b <= n)%nat /\ (rc = 0%Z <-> b = n) /\ b = coff (fun j => kdim n f (nth j (eigen_list n l) 0%R)) (length (eigen_list n l))
  /\ (forall s, (s < b)%nat -> exists x, In x (eigen_list n l) /\ eigenvector n f x (fun a => V a s))
  /\ independent_columns n b V
  /\ (orth = true -> forall s, (s < b)%nat -> bigsum n (fun a => V a s * V a s) = 1)
  /\ (orth = true -> (forall i j, (i < n)%nat -> (j < n)%nat -> f i j = f j i) ->
      forall s s', (s < b)%nat -> (s' < b)%nat -> bigsum n (fun a => V a s * V a s') = delta s s').
Proof.
  intros Hm Ek HC. destruct (lvec_facts n l tl) as (K1 & K2 & K3).
  set (k := vec_of (map l (seq 0 n)) tl) in *.
  assert (EL : eigen_list n (cell_val (vbuf k)) = eigen_list n l) by now apply eigen_list_ext.
  set (L := eigen_list n l) in *. pose proof (@kdims_le n f L (eigen_list_nodup n l)) as Hle.
  destruct (@eigenvectors_fwd bc fuel row0 col0 n f tf h th mev iter orth z k Hm Ek K1) as (rc & out & E).
  { intros q Hq. exists (l q). auto. } { rewrite EL. exact HC. } { rewrite EL. exact Hle. }
  destruct (@eigenvectors_run bc fuel row0 col0 n f tf h th mev iter orth rc out Hm E) as (z' & k' & Ek' & H).
  rewrite Ek in Ek'. injection Ek' as <- <-. cbv zeta in H. rewrite EL in H.
  destruct (H K1 HC) as (H1 & H2 & _ & H4). rewrite <- H1 in Hle. destruct (H4 Hle) as (V & tv & EV & HB).
  exists rc, (mcols out), V, tv. split; [rewrite E; do 2 f_equal; exact EV|]. split; [exact Hle|]. split; [exact H2|].
  split; [exact H1|].
  destruct (@blocks_columns orth n f L V (eigen_list_nodup n l) HB) as (C1 & CI & C2).
  rewrite H1. split; [exact C1|]. split; [exact CI|]. split; [|exact C2].
  intros Ho s Hs. destruct (coff_find _ _ Hs) as (j & c & Hj & Hc & ->).
  rewrite (proj2 (HB j Hj) Ho c c Hc Hc). unfold delta. now rewrite Nat.eqb_refl.
Qed.

(** exact eigenvalues that are apart *)
Lemma eigenvectors_spread fuel row0 col0 n f tf h th mev iter orth z l tl :
  room n n mev ->
  mtx_eigenvalues bc fuel row0 col0 (mat_of n n f tf) (vec_def n) iter = Ok (z, vec_of (map l (seq 0 n)) tl) ->
  spread n l ->
  (forall i, (i < n)%nat -> (exists x, eigenvector n f (l i) x) /\ reduc_clear n (shifted f (l i))) ->
  exists V tv,
  mtx_eigenvectors bc fuel row0 col0 (mbuf (mat_of n n h th)) (mat_of n n f tf) mev iter orth = Ok (0%Z, mat_of n n V tv)
  /\ (forall j, (j < n)%nat -> eigenvector n f (l j) (fun a => V a j))
  /\ (orth = true -> forall j, (j < n)%nat -> bigsum n (fun a => V a j * V a j) = 1)
  /\ (orth = true -> (forall i j, (i < n)%nat -> (j < n)%nat -> f i j = f j i) -> orthonormal_columns n n V).
Proof.
  intros Hm Ek Sp He. destruct (lvec_facts n l tl) as (K1 & K2 & K3).
  set (k := vec_of (map l (seq 0 n)) tl) in *.
  assert (HC : forall x, In x (eigen_list n l) -> reduc_clear n (shifted f x)).
  { rewrite (spread_list Sp). intros x Hx. apply in_map_iff in Hx. destruct Hx as (i & <- & Hi). apply in_seq in Hi. apply He. lia. }
  destruct (@eigenvectors_total fuel row0 col0 n f tf h th mev iter orth z l tl Hm Ek HC) as (rc & b & V0 & tv0 & E & Hb & Hrc & Eb & _).
  assert (Hbn : b = n).
  { apply Nat.le_antisymm; auto. rewrite Eb, (spread_list Sp), map_length, seq_length. apply coff_ge. intros j Hj.
    rewrite (nth_indep _ 0 (l 0%nat)), map_nth, seq_nth by (rewrite ?map_length, ?seq_length; auto).
    destruct (He j Hj) as ((x & Hx) & _). exact (kdim_pos Hx). }
  assert (Sp' : spread n (cell_val (vbuf k))).
  { destruct Sp as (S1 & S2). split; intros; rewrite !K3 by auto; auto. }
  destruct (@eigenvectors_ordered bc fuel row0 col0 n f tf h th mev iter orth rc (mat_of n b V0 tv0) z k Hm E Ek K1 Sp') as (V & tv & EV & H1 & H2 & H3).
  { intros i Hi. rewrite K3 by auto. now apply He. }
  { now apply Hrc. }
  exists V, tv. rewrite E, EV. split; [f_equal; f_equal; now apply Hrc|].
  split; [intros j Hj; rewrite <- K3 by auto; now apply H1|]. split; [exact H2|]. exact H3.
Qed.

(** ** Singular values *)

Lemma gram_sym r M i j : gram r M i j = gram r M j i.
Proof. unfold gram, mmul. apply bigsum_ext. intros. ring. Qed.
Lemma outer_sym c M i j : outer c M i j = outer c M j i.
Proof. unfold outer, mmul. apply bigsum_ext. intros. ring. Qed.

Lemma bigsum_sq_nonneg n (x : nat -> R) : 0 <= bigsum n (fun i => x i * x i).
Proof. induction n as [|n IH]; cbn [bigsum]; [lra|]. pose proof (Rle_0_sqr (x n)). unfold Rsqr in *. lra. Qed.

Lemma bigsum_sq_pos n (x : nat -> R) i : (i < n)%nat -> x i <> 0 -> 0 < bigsum n (fun i => x i * x i).
Proof.
  induction n as [|n IH]; intros Hi N; [lia|]. cbn [bigsum]. pose proof (Rle_0_sqr (x n)) as A. unfold Rsqr in A.
  pose proof (bigsum_sq_nonneg n x) as B. destruct (Nat.eq_dec i n) as [->|M].
  - assert (0 < x n * x n) by (apply Rsqr_pos_lt in N; exact N). lra.
  - pose proof (IH ltac:(lia) N). lra.
Qed.

(** eigenvalues of m^T m are not negative *)
Lemma gram_eigen_nonneg r c M l x : eigenvector c (gram r M) l x -> 0 <= l.
Proof.
  intros ((i & Hi & N) & H).
  assert (A : l * bigsum c (fun i => x i * x i) = bigsum r (fun k => bigsum c (fun j => M k j * x j) * bigsum c (fun j => M k j * x j))).
  { rewrite bigsum_mult_l.
    transitivity (bigsum c (fun a => x a * bigsum c (fun j => gram r M a j * x j))).
    - apply bigsum_ext. intros a Ha. rewrite H by auto. ring.
    - transitivity (bigsum c (fun a => bigsum r (fun k => M k a * x a * bigsum c (fun j => M k j * x j)))).
      + apply bigsum_ext. intros a Ha. unfold gram, mmul.
        rewrite (@bigsum_ext c _ (fun j => bigsum r (fun k => M k a * M k j * x j))) by (intros; now rewrite bigsum_mult_r).
        rewrite bigsum_swap, bigsum_mult_l. apply bigsum_ext. intros k Hk.
        rewrite !bigsum_mult_l. apply bigsum_ext. intros. ring.
      + rewrite bigsum_swap. apply bigsum_ext. intros k Hk. now rewrite bigsum_mult_r. }
  pose proof (bigsum_sq_pos x Hi N) as P.
  pose proof (bigsum_sq_nonneg r (fun k => bigsum c (fun j => M k j * x j))) as Q. cbv beta in Q. rewrite <- A in Q.
  destruct (Rle_lt_dec 0 l) as [|B]; auto. exfalso.
  assert (l * bigsum c (fun i => x i * x i) < 0) by (apply Ropp_lt_cancel; rewrite Ropp_0, Ropp_mult_distr_l; apply Rmult_lt_0_compat; lra).
  lra.
Qed.

Lemma svd_total fuel r c M tlm h1 t1 h2 t2 u0 e0 v0 iter l tl l2 tl2 :
  (0 < c <= r)%nat -> room r r u0 -> room r c e0 -> room c c v0 ->
  mtx_eigenvalues bc (S fuel) (Some 0) (Some 0) (mat_of c c (gram r M) []) (vec_def c) iter = Ok (0%Z, vec_of (map l (seq 0 c)) tl) ->
  exact_spread c (gram r M) l ->
  mtx_eigenvalues bc (S fuel) (Some 0) (Some 0) (mat_of r r (outer c M) []) (vec_def r) iter = Ok (0%Z, vec_of (map l2 (seq 0 r)) tl2) ->
  (forall x, In x (eigen_list r l2) -> reduc_clear r (shifted (outer c M) x)) ->
  r = c \/ (forall rc up, mtx_eigenvectors bc (S fuel) (Some 0) (Some 0) (mbuf (mat_of r r h2 t2)) (mat_of r r (outer c M) []) (mtx_def r r) iter true = Ok (rc, up) -> rc = 0%Z) ->
  let s := fun i => sqrt (l i) in
  exists U V tv,
  mtx_svd bc (S fuel) (Some 0) (Some 0) (mbuf (mat_of c c h1 t1)) (mbuf (mat_of r r h2 t2)) (mat_of r c M tlm) u0 e0 v0 iter
  = Ok (0%Z, (mat_of r r U (rest u0), mat_of r c (diag_of s) (rest e0), mat_of c c V tv))
  /\ (forall k, (k < c)%nat -> / 1000 <= s k)
  /\ orthogonal c V /\ orthonormal_columns r c U /\ svd_product r c M U s V
  /\ (forall i j, (i < r)%nat -> (j < c)%nat -> U i j = bigsum c (fun k => M i k * V k j) * (1 / s j)).
Proof.
  intros (Hc0 & Hc) Hu He Hv E1 (Sp & Hex) E2 HC2 Hfull s.
  assert (Hpos : forall i, (i < c)%nat -> / 1000000 <= l i).
  { intros i Hi. destruct (Hex i Hi) as ((x & Hx) & _). pose proof (gram_eigen_nonneg Hx) as P.
    pose proof (proj1 Sp i Hi) as Q. rewrite Rabs_pos_eq in Q by auto. exact Q. }
  assert (Hs : forall k, (k < c)%nat -> / 1000 <= s k).
  { intros k Hk. unfold s. apply Rsqr_incr_0; [|lra|apply sqrt_pos].
    rewrite Rsqr_sqrt by (pose proof (Hpos k Hk); lra). unfold Rsqr. pose proof (Hpos k Hk). lra. }
  destruct (@eigenvectors_spread (S fuel) (Some 0) (Some 0) c (gram r M) [] h1 t1 v0 iter true 0%Z l tl Hv E1 Sp Hex)
    as (V & tv & EV & HV1 & _ & HV3).
  pose proof (columns_orthogonal (HV3 eq_refl (fun i j _ _ => gram_sym r M i j))) as HO.
  destruct (@eigenvectors_total (S fuel) (Some 0) (Some 0) r (outer c M) [] h2 t2 (mtx_def r r) iter true 0%Z l2 tl2 (room_def r r) E2 HC2)
    as (rc2 & b2 & V2 & tv2 & EV2 & Hb2 & Hrc2 & _).
  assert (Hb2' : r = c \/ b2 = r).
  { destruct Hfull as [A|A]; auto. right. apply Hrc2. exact (A _ _ EV2). }
  (* the whole run *)
  assert (HX : exists uev, mtx_svd bc (S fuel) (Some 0) (Some 0) (mbuf (mat_of c c h1 t1)) (mbuf (mat_of r r h2 t2)) (mat_of r c M tlm) u0 e0 v0 iter = Ok (0%Z, uev) /\ snd uev = mat_of c c V tv).
  { unfold mtx_svd. change (mrows (mat_of r c M tlm)) with r. change (mcols (mat_of r c M tlm)) with c.
    rewrite mtx_trans_ok by apply room_def. cbn [bind].
    rewrite mtx_mult_R by apply room_def. cbn [bind].
    rewrite mtx_mult_R by apply room_def. cbn [bind]. rewrite !rest_def.
    fold (gram r M). fold (outer c M).
    assert (Hm : (if (r <=? c)%nat then r else c) = c) by (destruct (Nat.leb_spec r c); lia).
    rewrite Hm, Nat.ltb_irrefl. rewrite E1. cbn [bind].
    rewrite (mtx_init_empty bc (r := r) (c := c)) by auto. cbn [bind].
    destruct (lvec_facts c l tl) as (K1 & K2 & K3). set (k := vec_of (map l (seq 0 c)) tl) in *.
    match goal with |- context [for_ c 0 ?b (mat_of r c ?z ?t)] =>
      destruct (@for_inv _ (fun k e => e = mat_of r c (fun i j => if (i <? k)%nat then diag_of s i j else 0) (rest e0)) c 0%nat b (mat_of r c z t)) as (e1 & Ee & He1) end.
    { apply mat_ext. intros. reflexivity. }
    { intros q a Hq ->. rewrite K2 by lia. cbn [bind].
      assert (Esq : fsqrt (l q) = Ok (s q)).
      { rops. unfold Rsqrto. destruct (Rle_dec 0 (l q)) as [|N]; [reflexivity|]. exfalso. apply N. pose proof (Hpos q ltac:(lia)). lra. }
      rewrite Esq. cbn [bind]. rewrite mtx_set_mat by lia. cbn [bind]. eexists. split; [reflexivity|].
      apply mat_ext. intros i j Hi Hj. unfold fupd, diag_of.
      destruct (Nat.eqb_spec i q) as [->|Hik]; cbn [andb].
      - assert (H : (q <? S q)%nat = true) by (apply Nat.ltb_lt; lia). rewrite H.
        destruct (Nat.eqb_spec j q) as [->|Hj'].
        + now rewrite Nat.eqb_refl.
        + rewrite Nat.ltb_irrefl. destruct (Nat.eqb_spec q j); [lia|auto].
      - destruct (Nat.ltb_spec i q), (Nat.ltb_spec i (S q)); try lia; auto. }
    rewrite Ee. cbn [bind]. clear Ee.
    assert (He1' : e1 = mat_of r c (diag_of s) (rest e0)).
    { rewrite He1. apply mat_ext. intros i j Hi Hj. destruct (Nat.ltb_spec i (0 + c)%nat); auto.
      unfold diag_of. destruct (Nat.eqb_spec i j); [lia|auto]. }
    subst e1. rewrite He1'. rewrite EV. cbn [bind].
    destruct (room_otab Hu) as (F & EF). rewrite EF. set (tu := rest u0). clearbody tu.
    match goal with |- context [for_ c 0 ?b ?s0] =>
      destruct (@for_inv _ (fun k st => let '(u, pu, ui, ui2, ui3, d) := st in
       pu = 0%nat /\ (exists F, u = otab r r F tu) /\ (r <= length ui)%nat /\ room c 1 ui2 /\ room r 1 ui3) c 0%nat b s0)
       as ((((((u1 & pu) & b1) & b2') & b3) & b4) & Est & Hst) end.
    { split; auto. split; [exists F; reflexivity|]. split; [unfold fresh; rewrite repeat_length; lia|]. split; apply room_def. }
    { intros q (((((u & pu) & ui) & ui2) & ui3) & d) Hk (-> & (F1 & ->) & Hui & H2 & H3).
      rewrite mtx_get_col_ok by lia. cbn [bind].
      rewrite (mtx_from_arr_ok (r := c) (c := 1%nat)); [|exact H2|unfold col_of; rewrite map_length, seq_length; lia].
      cbn [bind]. rewrite lget_mat by lia. cbn [bind].
      assert (Ecol : Mtx c 1 (cells (col_of c V q) ++ rest ui2) = mat_of c 1 (fun i _ => V i q) (rest ui2)).
      { unfold mat_of. f_equal. f_equal. f_equal. unfold col_of. rewrite Nat.mul_1_r. apply map_ext. intros i.
        now rewrite Nat.div_1_r. }
      rewrite Ecol. rewrite mtx_mult_R by auto. cbn [bind lval].
      assert (Ed : diag_of s q q = s q) by (unfold diag_of; now rewrite Nat.eqb_refl).
      pose proof (Hs q ltac:(lia)) as Hsq.
      rewrite Ed, PSvdR.tiny_false by lra.
      assert (Edv : fdiv (@f1 R NumR) (s q) = Ok (1 / s q)).
      { rops. unfold Rdivo. destruct (Req_EM_T (s q) 0) as [Z|]; [lra|]. reflexivity. }
      rewrite Edv. cbn [bind]. rewrite mtx_scalar_mult_d_ok. cbn [bind].
      set (w := fun i => bigsum c (fun k => M i k * V k q) * (1 / s q)).
      assert (Ew : mbuf (mat_of r 1 (fun i j => (mmul c M (fun i _ => V i q) i j * (1 / s q))%num) (rest ui3)) = cells (tab r w) ++ rest ui3).
      { unfold mat_of, tab. cbn [mbuf]. rewrite Nat.mul_1_r. f_equal. f_equal. apply map_ext. intros i.
        rewrite Nat.div_1_r. reflexivity. }
      rewrite Ew. rewrite vec_from_arr_ok.
      2: now rewrite tab_length.
      2:{ rewrite app_length, skipn_length. unfold cells. rewrite map_length. unfold col_of. rewrite map_length, seq_length. lia. }
      cbn [bind vbuf]. change (cells (tab r w) ++ ?t) with (vbuf (fvec r w t)).
      rewrite set_col_fvec by lia. cbn [bind]. eexists. split; [reflexivity|]. cbv beta iota.
      split; auto. split; [eexists; reflexivity|]. split; [apply fvec_len|].
      split; apply mat_room. }
    erewrite bind_eq by exact Est. cbv beta iota. destruct Hst as (-> & (F1 & ->) & _).
    rewrite EV2. cbn [bind]. rewrite Nat.sub_0_r. unfold for_range.
    match goal with |- context [for_ (r - c) c ?b ?s0] =>
      destruct (@for_inv _ (fun k st => (r <= length (snd st))%nat /\ exists F, fst st = otab r r F tu) (r - c)%nat c b s0) as ((u2 & hu) & E3 & _) end.
    { cbn [fst snd]. split; [unfold fresh; rewrite repeat_length; lia|]. exists F1. reflexivity. }
    { intros q (u & hu) Hq (Hh & F2 & EF2). cbn [fst snd] in Hh, EF2. subst u.
      destruct Hb2' as [A| ->]; [lia|].
      rewrite get_col_fvec by (auto; lia). cbn [bind]. rewrite set_col_fvec by lia. cbn [bind].
      eexists. split; [reflexivity|]. cbn [fst snd]. split; [apply fvec_len|]. eexists. reflexivity. }
    erewrite bind_eq by exact E3. cbv beta iota. eexists. split; reflexivity. }
  destruct HX as (((u & e) & v) & EX & Ev). cbn [snd] in Ev. subst v.
  destruct (@svd_run bc (S fuel) (Some 0) (Some 0) (mbuf (mat_of c c h1 t1)) (mbuf (mat_of r r h2 t2)) r c M tlm u0 e0 v0 iter 0%Z u e (mat_of c c V tv) Hc Hu He EX)
    as (z1 & k & z2 & Ek & _ & H). cbv zeta in H. fold (gram r M) in Ek. rewrite E1 in Ek. injection Ek as <- <-.
  destruct (lvec_facts c l tl) as (K1 & K2 & K3). destruct H as (_ & H1 & H2).
  assert (Ee : e = mat_of r c (diag_of s) (rest e0)).
  { rewrite H1. apply mat_ext. intros i j Hi Hj. unfold diag_of, s. destruct (Nat.eqb_spec i j); auto. rewrite K3 by lia. reflexivity. }
  destruct (H2 V tv eq_refl) as (U & EU & HU).
  { intros k Hk. rewrite K3 by auto. pose proof (Hs k Hk). unfold s in *. lra. }
  assert (HU' : forall i j, (i < r)%nat -> (j < c)%nat -> U i j = bigsum c (fun k => M i k * V k j) * (1 / s j)).
  { intros i j Hi Hj. rewrite HU by auto. rewrite K3 by auto. reflexivity. }
  assert (Hs0 : forall k, (k < c)%nat -> s k <> 0) by (intros k Hk; pose proof (Hs k Hk); lra).
  exists U, V, tv. split; [rewrite EX, EU, Ee; reflexivity|]. split; [exact Hs|]. split; [exact HO|].
  split; [|split; [|exact HU']].
  - apply (@svd_columns r c M U V s HO Hs0 HU'). intros i k Hi Hk. destruct (HV1 k Hk) as (_ & HV1').
    unfold s. rewrite sqrt_sqrt by (pose proof (Hpos k Hk); lra). rewrite <- HV1' by auto.
    apply bigsum_ext. intros. reflexivity.
  - exact (@svd_product_ok r c M U V s HO Hs0 HU').
Qed.

Lemma pinv_fwd fuel row0 col0 mida midb r c M tlm p0 iter z U s V tu te tv :
  (c <= r)%nat -> room c r p0 -> (forall k, (k < c)%nat -> s k <> 0) ->
  mtx_svd bc fuel row0 col0 mida midb (mat_of r c M tlm) (mtx_def r r) (mtx_def r c) (mtx_def c c) iter
    = Ok (z, (mat_of r r U tu, mat_of r c (diag_of s) te, mat_of c c V tv)) ->
  mtx_pinv bc fuel row0 col0 mida midb (mat_of r c M tlm) p0 iter = Ok (0%Z, mat_of c r (pinv_of c U V s) (rest p0)).
Proof.
  intros Hc Hp Hs E.
  assert (HX : exists p, mtx_pinv bc fuel row0 col0 mida midb (mat_of r c M tlm) p0 iter = Ok (0%Z, p)).
  { unfold mtx_pinv. change (mrows (mat_of r c M tlm)) with r. change (mcols (mat_of r c M tlm)) with c.
    rewrite E. cbn [bind]. rewrite mtx_trans_ok by apply room_def. cbn [bind].
    assert (Hm : (if (r <=? c)%nat then r else c) = c) by (destruct (Nat.leb_spec r c); lia).
    rewrite Hm.
    match goal with |- context [for_ c 0 ?b ?s0] =>
      destruct (@for_inv _ (fun k st => fst st = mat_of r c (diag_of (fun i => if (i <? k)%nat then 1 / s i else s i)) te) c 0%nat b s0)
       as ((e1 & x1) & E1 & H1) end.
    { reflexivity. }
    { intros k (ea & xa) Hk Ea. cbn [fst] in Ea. subst ea.
      rewrite lget_mat by lia. cbn [bind lval].
      assert (Ed : diag_of (fun i => if (i <? k)%nat then 1 / s i else s i) k k = s k)
        by (unfold diag_of; now rewrite Nat.eqb_refl, Nat.ltb_irrefl).
      rewrite Ed.
      assert (Et : ((s k <? flit 1 6) || (s k >? - flit 1 6))%num = true).
      { lits. rops. apply orb_true_iff. destruct (Rltb_spec (s k) (1 / 1000000)); auto. right.
        destruct (Rltb_spec (- (1 / 1000000)) (s k)); auto; lra. }
      rewrite Et.
      assert (Edv : fdiv (@f1 R NumR) (s k) = Ok (1 / s k)).
      { rops. unfold Rdivo. destruct (Req_EM_T (s k) 0); [exfalso; apply (Hs k); [lia|auto]|]. reflexivity. }
      rewrite Edv. cbn [bind]. rewrite mtx_set_mat by lia. cbn [bind].
      eexists. split; [reflexivity|]. cbn [fst]. apply mat_ext. intros i j Hi Hj. unfold fupd, diag_of.
      destruct (Nat.eqb_spec i k) as [->|Hik]; cbn [andb].
      + assert (H : (k <? Datatypes.S k)%nat = true) by (apply Nat.ltb_lt; lia). rewrite H.
        rewrite (Nat.eqb_sym k j). destruct (Nat.eqb_spec j k); auto.
      + destruct (Nat.ltb_spec i k), (Nat.ltb_spec i (Datatypes.S k)); try lia; auto. }
    rewrite E1. cbn [bind]. cbn [fst] in H1. subst e1.
    rewrite mtx_trans_ok by apply room_def. cbn [bind].
    rewrite mtx_mult_R by apply room_def. cbn [bind].
    rewrite mtx_mult_R by auto. cbn [bind]. eexists. reflexivity. }
  destruct HX as (p & EX). rewrite EX.
  destruct (@pinv_run _ _ _ _ _ _ _ _ _ _ _ _ _ _ Hc Hp EX) as (z' & u & e & v & E' & H). rewrite E in E'. injection E' as <- <- <- <-.
  now rewrite (H U s V tu te tv eq_refl eq_refl eq_refl Hs).
Qed.

End V.
