(** zsl_mtx_vec_wedge in real arithmetic. *)
From Coq Require Import List Arith ZArith Bool Lia Reals Lra.
From Verif Require Import Base NumR BaseFacts SpecVec SpecMtx SpecReal SpecGauss MVec MMtx PVec PMtx PMtxOps PMtxR PDet PGauss.
Import ListNotations.
Set Implicit Arguments.
Local Open Scope R_scope.

(** The n x n matrix whose first n-1 rows are f's and whose last row is (0, ..., 0, 1) *)
Definition wedge_mx (n : nat) (f : nat -> nat -> R) : nat -> nat -> R :=
  fun a b => if (S a <? n)%nat then f a b else if (S b =? n)%nat then 1 else 0.

Lemma wedge_ok bc n f tf b h :
  (0 < n)%nat -> (bc = true -> 4 <= n)%nat -> (n <= length b)%nat ->
  mtx_inv bc (mat_of n n (wedge_mx n f) []) (mtx_def n n) = Ok (0%Z, mat_of n n h []) ->
  mtx_vec_wedge bc (mat_of (n - 1) n f tf) (Vec n b)
  = Ok (0%Z, Vec n (cells (map (fun i => h i (n - 1)%nat * ldet n (wedge_mx n f)) (seq 0 n)) ++ skipn n b)).
Proof.
  intros Hn H4 Hb Hi. unfold mtx_vec_wedge.
  change (mrows (mat_of (n - 1) n f tf)) with (n - 1)%nat. change (mcols (mat_of (n - 1) n f tf)) with n.
  cbn [vsz].
  assert (G : bc && (negb (n =? n)%nat || (n <? 4)%nat || negb (S (n - 1) =? n)%nat) = false).
  { destruct bc; auto. cbn [andb]. rewrite Nat.eqb_refl. cbn [negb orb].
    rewrite (proj2 (Nat.ltb_ge n 4)) by (apply H4; auto).
    replace (S (n - 1)) with n by lia. now rewrite Nat.eqb_refl. }
  rewrite G. clear G.
  rewrite (@mtx_init_empty _ _ bc n n) by apply room_def. cbn [bind]. rewrite rest_def.
  assert (W : (n * n = S ((n - 1) * n + (n - 1)))%nat) by nia.
  rewrite W.
  rewrite wr_mat by lia. cbn [bind].
  pose (g := fun p a b => if (a <? p)%nat then f a b else fupd (fun _ _ => 0) (n-1) (n-1) 1 a b).
  match goal with |- context [for_ (n - 1) 0 ?bd ?s] =>
   destruct (@for_inv _ (fun p (st : mtx R * buf R) =>
      fst st = mat_of n n (g p) [] /\ (n <= length (snd st))%nat) (n - 1)%nat 0%nat bd s)
     as ((A & av) & E & E1 & _) end.
  { split; [reflexivity|]. cbn [snd]. rewrite fresh_length. lia. }
  { intros i (A & av) Hi' (E1 & E2). cbn [fst snd] in E1, E2. subst A. cbv beta iota.
    rewrite mtx_get_row_ok by lia. cbn [bind].
    rewrite (@mtx_set_row_ok _ _ n n (g i) [] i (row_of n f i) (skipn n av) 0) by (try lia; apply row_of_length).
    cbn [bind]. eexists. split; [reflexivity|]. cbn [fst snd]. split.
    - apply mat_ext. intros a c Ha Hc. unfold g. destruct (Nat.eqb_spec a i) as [->|].
      + rewrite nth_row_of by auto. now rewrite (proj2 (Nat.ltb_lt i (S i))) by lia.
      + destruct (Nat.ltb_spec a i), (Nat.ltb_spec a (S i)); auto; lia.
    - rewrite app_length, cells_length, row_of_length. lia. }
  rewrite E. cbn [bind]. cbn [fst] in E1. subst A.
  assert (EA : mat_of n n (g (0 + (n - 1))%nat) [] = mat_of n n (wedge_mx n f) []).
  { apply mat_ext. intros a c Ha Hc. unfold g, wedge_mx. cbn [Nat.add].
    destruct (Nat.ltb_spec a (n - 1)), (Nat.ltb_spec (S a) n); auto; try lia.
    unfold fupd. rewrite (proj2 (Nat.eqb_eq a (n-1))) by lia. cbn [andb].
    destruct (Nat.eqb_spec c (n - 1)), (Nat.eqb_spec (S c) n); auto; lia. }
  rewrite EA. clear EA E. rewrite mtx_deter_ok by auto. cbn [bind]. rewrite Hi. cbn [bind].
  rewrite (@mtx_init_empty _ _ bc n 1) by apply room_def. cbn [bind lval]. rewrite rest_def.
  replace (n - 1)%nat with ((n - 1) * 1 + 0)%nat at 1 by lia. rewrite wr_mat by lia. cbn [bind].
  set (bb := fupd (fun _ _ => f0) (n - 1) 0 (ldet n (wedge_mx n f))).
  change (Mtx n 1 (mbuf (mat_of n 1 bb []))) with (mat_of n 1 bb []).
  rewrite mtx_mult_R by apply mat_room. cbn [bind]. rewrite mat_rest.
  unfold mat_of. cbn [mbuf]. rewrite Nat.mul_1_r.
  rewrite vec_from_arr_ok by (try rewrite map_length, seq_length; auto). cbn [bind].
  do 4 f_equal. unfold cells. f_equal. apply map_ext_in. intros k Hk. apply in_seq in Hk.
  rewrite Nat.div_1_r, Nat.mod_1_r. unfold mmul, bb.
  rewrite (bigsum_ext n _ (fun j => if (j =? n - 1)%nat then h k j * ldet n (wedge_mx n f) else 0)).
  - now rewrite bigsum_delta by lia.
  - intros j Hj. unfold fupd. destruct (Nat.eqb_spec j (n - 1)); cbn [andb Nat.eqb f0 NumR]; ring.
Qed.

(** ... which is orthogonal to the first n-1 rows *)
Lemma wedge_orth n f h :
  (0 < n)%nat -> (forall i j, (i < n)%nat -> (j < n)%nat -> mmul n (wedge_mx n f) h i j = mid i j) ->
  forall i, (i < n - 1)%nat ->
  bigsum n (fun j => f i j * (h j (n - 1)%nat * ldet n (wedge_mx n f))) = 0.
Proof.
  intros Hn Hh i Hi. pose proof (Hh i (n - 1)%nat ltac:(lia) ltac:(lia)) as A.
  unfold mmul in A. unfold mid in A. rewrite (proj2 (Nat.eqb_neq i (n - 1))) in A by lia.
  rewrite (bigsum_ext n _ (fun j => wedge_mx n f i j * h j (n - 1)%nat * ldet n (wedge_mx n f))).
  - rewrite <- bigsum_mult_r, A. cbn [f0 NumR]. ring.
  - intros j Hj. unfold wedge_mx at 2. rewrite (proj2 (Nat.ltb_lt (S i) n)) by lia. ring.
Qed.
