(** The matrices zsl_mtx_qrd_iter computes, as a sequence over the number of
    iterations. *)
From Coq Require Import List Arith ZArith Bool Lia Reals Lra.
From Verif Require Import Base NumR BaseFacts SpecVec SpecReal SpecMtx SpecDecomp MVec MMtx MDecomp
  PVec PVecR PMtx PMtxOps PMtxR PFvec PChol PQr PBal PBalTerm PEigvec PEigvec2.
Import ListNotations.
Set Implicit Arguments.
Local Open Scope R_scope.
Implicit Types f g a b q r : nat -> nat -> R.

(** b = r q for a decomposition a = q r *)
Definition qr_step (n : nat) a b : Prop :=
  exists q r, orthogonal n q /\ upper_triangular n r /\ same n (mmul n q r) a /\ same n b (mmul n r q).

Section S.
Variable bc : bool.

Definition elt (n : nat) (o : outcome (Z * mtx R)) : nat -> nat -> R := fun i j =>
  match o with
  | Ok (_, m) => match nth_error (mbuf m) (i * n + j) with Some (Some x) => x | _ => 0 end
  | _ => 0
  end.

Lemma elt_mat n g z tl : same n (elt n (Ok (z, mat_of n n g tl))) g.
Proof.
  intros i j Hi Hj. unfold elt, mat_of. cbn [mbuf]. pose proof (flat_lt Hi Hj) as Hk.
  unfold cells. rewrite map_map, nth_error_app1 by now rewrite map_length, seq_length.
  rewrite nth_error_map. rewrite (@nth_error_nth' _ (seq 0 (n * n)) (i * n + j)%nat 0%nat) by now rewrite seq_length.
  cbn [option_map]. rewrite seq_nth by auto. cbn [Nat.add].
  rewrite Nat.div_add_l, Nat.div_small by lia.
  replace ((i * n + j) mod n)%nat with j by (rewrite (Nat.add_comm (i * n)), Nat.mod_add, Nat.mod_small by lia; auto).
  f_equal. lia.
Qed.

Lemma qrd_iter_seq n f tl mo : (0 < n)%nat -> room n n mo ->
  exists G : nat -> nat -> nat -> R,
  (forall k, mtx_qrd_iter bc (mat_of n n f tl) mo k = Ok (0%Z, mat_of n n (G k) (rest mo)))
  /\ same n (G 0%nat) f /\ forall k, qr_step n (G k) (G (S k)).
Proof.
  intros Hn Hm.
  exists (fun k => elt n (mtx_qrd_iter bc (mat_of n n f tl) mo k)).
  set (run k := mtx_qrd_iter bc (mat_of n n f tl) mo k).
  assert (Eq : forall k, run k = (let! (mo1, _, _) := for_ k 1 (fun _ '(mo, q, r) =>
      let! (_, (q, r)) := mtx_qrd bc mo q r false in
      let! (_, mo) := mtx_mult bc r q mo in
      Ok (mo, q, r)) (mat_of n n f (rest mo), mtx_def n n, mtx_def n n) in Ok (0%Z, mo1))).
  { intros k. unfold run, mtx_qrd_iter. rewrite mtx_copy_ok by auto. cbn [bind Z.eqb negb].
    change (mrows (mat_of n n f tl)) with n. reflexivity. }
  match type of Eq with context [for_ _ 1 ?b _] => set (body := b) in * end.
  assert (H : forall k, exists g (q r : mtx R), for_ k 1 body (mat_of n n f (rest mo), mtx_def n n, mtx_def n n)
     = Ok (mat_of n n g (rest mo), q, r) /\ room n n q /\ room n n r).
  { induction k as [|k (g & q & r & E & Hq & Hr)].
    - exists f, (mtx_def n n), (mtx_def n n). split; [reflexivity|]. split; apply room_def.
    - rewrite for_last, E. cbn [bind]. unfold body.
      destruct (@qrd_triangular bc n g (rest mo) q r) as (q' & r' & -> & _); auto.
      cbn [bind]. rewrite mtx_mult_R by apply mat_room. cbn [bind]. rewrite mat_rest.
      do 3 eexists. split; [reflexivity|]. split; apply mat_room. }
  assert (HE : forall k, run k = Ok (0%Z, mat_of n n (elt n (run k)) (rest mo))).
  { intros k. destruct (H k) as (g & q & r & E & _). rewrite Eq, E. cbn [bind].
    do 2 f_equal. apply mat_ext. intros i j Hi Hj. symmetry. now apply elt_mat. }
  split; [exact HE|]. split.
  - fold (run 0%nat). rewrite Eq. cbn [for_ bind]. apply elt_mat.
  - intros k. fold (run k) (run (S k)). destruct (H k) as (g & q & r & E & Hq & Hr).
    rewrite !Eq, for_last, E. cbn [bind]. unfold body.
    destruct (@qrd_triangular bc n g (rest mo) q r) as (q' & r' & -> & O & U & P); auto.
    cbn [bind]. rewrite mtx_mult_R by apply mat_room. cbn [bind]. rewrite mat_rest.
    exists q', r'. split; [exact O|]. split; [exact U|]. split.
    + eapply same_trans; [exact P|]. apply same_sym, elt_mat.
    + apply elt_mat.
Qed.

(** the matrices whose diagonals zsl_mtx_eigenvalues reports *)
Lemma eigenvalues_seq n f tl : (0 < n)%nat -> (forall i j, (i < n)%nat -> (j < n)%nat -> f i j = f j i) ->
  exists G q, orthogonal n q /\ same n (G 0%nat) (mmul n (mmul n (tr q) f) q)
  /\ (forall k, qr_step n (G k) (G (S k)))
  /\ forall fuel iter, mtx_eigenvalues bc (S fuel) (Some 0) (Some 0) (mat_of n n f tl) (vec_def n) iter
     = Ok (0%Z, vec_of (map (fun i => G iter i i) (seq 0 n)) []).
Proof.
  intros Hn Sy.
  destruct (@qrd_hessenberg bc n f [] (mtx_def n n) (mtx_def n n) Hn (room_def n n) (room_def n n)) as (q & r & Eq & Oq & _ & HE & _).
  destruct (@qrd_iter_seq n r [] (mat_of n n q []) Hn (mat_room n n q [])) as (G & E & E0 & St).
  exists G, q. split; [exact Oq|]. split; [|split; [exact St|]].
  - apply orth_eqs in Oq. destruct Oq as (OA & OB).
    eapply same_trans; [exact E0|]. apply same_sym. eapply same_trans.
    { apply same_mul; [apply same_mul; [apply same_refl|apply same_sym; exact HE]|apply same_refl]. }
    eapply same_trans.
    { apply same_mul; [|apply same_refl].
      eapply same_trans; [apply same_sym, same_assoc|].
      apply same_mul; [|apply same_refl]. apply mul_cancel. exact OA. }
    eapply same_trans; [apply same_assoc|].
    eapply same_trans; [apply same_mul; [apply same_refl|exact OA]|]. apply same_id_r.
  - intros fuel iter. unfold mtx_eigenvalues. change (mrows (mat_of n n f tl)) with n.
    rewrite balance_fixed; [|apply room_def|].
    2:{ intros i Hi. apply bigsum_ext. intros j Hj. now rewrite Sy. }
    cbn [bind]. rewrite rest_def, Eq. cbn [bind]. rewrite !rest_def, E. cbn [bind]. rewrite mat_rest, vec_init_def. cbn [bind].
    destruct (mtx_is_sym_ok bc n f tl) as (b & Es & Hb). rewrite Es. cbn [bind].
    replace b with true.
    2:{ symmetry. apply Hb. intros i j Hi Hj. apply asym_R. rewrite (Sy i j) by auto.
        rewrite Rminus_eq_0, Rabs_R0. lra. }
    destruct (@eig_diag bc n (G iter) [] (vbuf (fvec n (fun _ => 0) []))) as (d & Ed); [apply fvec_len|].
    rewrite Ed. cbn [bind]. change (map (fun i => G iter i i) (seq 0 n)) with (tab n (fun i => G iter i i)).
    rewrite <- fvec_vec_of. do 2 f_equal. unfold fvec. f_equal. f_equal. cbn [vbuf].
    rewrite skipn_all2; [reflexivity|]. rewrite app_nil_r, cells_length, tab_length. lia.
Qed.

End S.

(** ** Leading traces of the square *)
Definition lead (n j : nat) a : R := bigsum j (fun i => mmul n a a i i).

Lemma bigsum_le_len j n (u : nat -> R) : (j <= n)%nat -> (forall k, (k < n)%nat -> 0 <= u k) -> bigsum j u <= bigsum n u.
Proof.
  induction 1 as [|m H IH]; intros P; [lra|]. cbn [bigsum].
  pose proof (P m ltac:(lia)). specialize (IH ltac:(intros; apply P; lia)). lra.
Qed.

(** the square of an upper triangular matrix, right of column j *)
Definition tail_sq (n j : nat) r : R :=
  bigsum j (fun i => bigsum n (fun l => if (l <? j)%nat then 0 else r i l * r i l)).

Lemma bigsum_ind n j (u : nat -> R) : (j <= n)%nat ->
  bigsum n u = bigsum j u + bigsum n (fun l => if (l <? j)%nat then 0 else u l).
Proof.
  intros H.
  assert (E : bigsum n u = bigsum n (fun l => if (l <? j)%nat then u l else 0) + bigsum n (fun l => if (l <? j)%nat then 0 else u l)).
  { rewrite <- bigsum_plus. apply bigsum_ext. intros k _. destruct (k <? j)%nat; lra. }
  rewrite E. f_equal. rewrite (@bigsum_cut j n (fun l => if (l <? j)%nat then u l else 0) H).
  2:{ intros k Hk. destruct (Nat.ltb_spec k j); [lia|auto]. }
  apply bigsum_ext. intros k Hk. destruct (Nat.ltb_spec k j); [auto|lia].
Qed.

Lemma lead_step n j a b r : (j <= n)%nat -> upper_triangular n r ->
  same n (mmul n a a) (mmul n (tr r) r) -> same n (mmul n b b) (mmul n r (tr r)) ->
  lead n j b = lead n j a + tail_sq n j r.
Proof.
  intros Hj U HA HB. unfold lead, tail_sq.
  rewrite (bigsum_ext j (fun i => mmul n b b i i) (fun i => bigsum n (fun l => r i l * r i l))).
  2:{ intros i Hi. now rewrite HB by lia. }
  rewrite (bigsum_ext j (fun i => mmul n a a i i) (fun i => bigsum j (fun l => r l i * r l i))).
  2:{ intros i Hi. rewrite HA by lia. unfold mmul, tr. apply bigsum_cut; [lia|]. intros k Hk. rewrite U by lia. lra. }
  rewrite (bigsum_swap j j (fun i l => r l i * r l i)). rewrite <- bigsum_plus.
  apply bigsum_ext. intros i Hi. now apply bigsum_ind.
Qed.

Lemma tail_sq_nonneg n j r : 0 <= tail_sq n j r.
Proof.
  apply bsum_nonneg. intros i Hi. apply bsum_nonneg. intros l Hl.
  destruct (l <? j)%nat; [lra|]. apply Rle_0_sqr.
Qed.

Lemma tail_sq_ge n j r (p q : nat) : (j <= n)%nat -> (p < j)%nat -> (j <= q < n)%nat -> r p q * r p q <= tail_sq n j r.
Proof.
  intros Hj Hp Hq. unfold tail_sq.
  assert (N : forall i, 0 <= bigsum n (fun l => if (l <? j)%nat then 0 else r i l * r i l)).
  { intros i. apply bsum_nonneg. intros l Hl. destruct (l <? j)%nat; [lra|]. apply Rle_0_sqr. }
  eapply Rle_trans; [|exact (@bsum_ge j (fun i => bigsum n (fun l => if (l <? j)%nat then 0 else r i l * r i l)) p (fun k _ => N k) Hp)].
  eapply Rle_trans; [|apply (@bsum_ge n (fun l => if (l <? j)%nat then 0 else r p l * r p l) q); [|lia]].
  - destruct (Nat.ltb_spec q j); [lia|lra].
  - intros l Hl. destruct (l <? j)%nat; [lra|]. apply Rle_0_sqr.
Qed.
