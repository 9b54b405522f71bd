(** Vectors given by a function of the index, over the reals. *)
From Coq Require Import List Arith ZArith Bool Lia Reals Lra.
From Verif Require Import Base BaseFacts NumR SpecVec SpecReal SpecMtx MVec MMtx MDecomp
  PVec PVecR PMtx PMtxOps PMtxR.
Import ListNotations.
Set Implicit Arguments.
Local Open Scope R_scope.

Definition tab {A} (n : nat) (u : nat -> A) : list A := map u (seq 0 n).

Lemma tab_length A n (u : nat -> A) : length (tab n u) = n.
Proof. unfold tab. now rewrite map_length, seq_length. Qed.

Lemma tab_ext A n (u v : nat -> A) : (forall i, (i < n)%nat -> u i = v i) -> tab n u = tab n v.
Proof. intros H. apply map_ext_in. intros i Hi. apply H. apply in_seq in Hi. lia. Qed.

Lemma nth_tab A n (u : nat -> A) i d : (i < n)%nat -> nth i (tab n u) d = u i.
Proof. apply nth_map_seq. Qed.

Lemma tab_nth A (l : list A) d n : length l = n -> tab n (fun i => nth i l d) = l.
Proof. intros <-. apply map_seq_nth. Qed.

Lemma tab_map A B n (u : nat -> A) (h : A -> B) : map h (tab n u) = tab n (fun i => h (u i)).
Proof. unfold tab. now rewrite map_map. Qed.

Lemma tab_map2 A B C n (h : A -> B -> C) u v : map2 h (tab n u) (tab n v) = tab n (fun i => h (u i) (v i)).
Proof.
  unfold tab. generalize (seq 0 n). induction l as [|x l IH]; cbn [map map2]; auto. now rewrite IH.
Qed.

Lemma tab_S A n (u : nat -> A) : tab (S n) u = u O :: tab n (fun i => u (S i)).
Proof. unfold tab. cbn [seq map]. f_equal. rewrite <- seq_shift, map_map. reflexivity. Qed.

Lemma tab_repeat A n (x : A) : repeat x n = tab n (fun _ => x).
Proof. induction n; auto. rewrite tab_S. cbn [repeat]. now f_equal. Qed.

Lemma tab_snoc A n (u : nat -> A) : tab (S n) u = tab n u ++ [u n].
Proof. unfold tab. now rewrite seq_S, map_app. Qed.

Lemma rdot_snoc xs ys x y : length xs = length ys -> rdot (xs ++ [x]) (ys ++ [y]) = rdot xs ys + x * y.
Proof.
  revert ys; induction xs as [|a xs IH]; intros [|b ys] H; cbn in *; try discriminate; try lra.
  injection H as H. rewrite IH by auto. lra.
Qed.

Lemma rdot_tab n u v : rdot (tab n u) (tab n v) = bigsum n (fun i => u i * v i).
Proof.
  induction n as [|n IH]; [reflexivity|].
  rewrite !tab_snoc, rdot_snoc by now rewrite !tab_length. cbn [bigsum]. now rewrite IH.
Qed.

Lemma rsum_tab n u : rsum (tab n u) = bigsum n u.
Proof.
  induction n as [|n IH]; [reflexivity|]. rewrite tab_snoc. cbn [bigsum]. rewrite <- IH.
  generalize (tab n u). induction l as [|a l IHl]; cbn; lra.
Qed.

Definition fdot n (u v : nat -> R) : R := bigsum n (fun i => u i * v i).
Definition fvec n (u : nat -> R) (tl : buf R) : vec R := Vec n (cells (tab n u) ++ tl).

Lemma fvec_vec_of n u tl : fvec n u tl = vec_of (tab n u) tl.
Proof. unfold fvec, vec_of. now rewrite tab_length. Qed.

Lemma fvec_ext n u v tl : (forall i, (i < n)%nat -> u i = v i) -> fvec n u tl = fvec n v tl.
Proof. intros H. unfold fvec. now rewrite (@tab_ext _ n u v H). Qed.

Lemma fdot_ext n u v u' v' :
  (forall i, (i < n)%nat -> u i = u' i) -> (forall i, (i < n)%nat -> v i = v' i) -> fdot n u v = fdot n u' v'.
Proof. intros H H'. apply bigsum_ext. intros k Hk. now rewrite H, H'. Qed.

Lemma fdot_comm n u v : fdot n u v = fdot n v u.
Proof. apply bigsum_ext. intros. ring. Qed.

Lemma fdot_self_nonneg n u : 0 <= fdot n u u.
Proof. unfold fdot. induction n; cbn [bigsum]; [lra|]. pose proof (Rle_0_sqr (u n)). unfold Rsqr in *. lra. Qed.

Lemma fdot_self_0 n u : fdot n u u = 0 -> forall i, (i < n)%nat -> u i = 0.
Proof.
  unfold fdot. induction n as [|n IH]; cbn [bigsum]; intros H i Hi; [lia|].
  pose proof (Rle_0_sqr (u n)) as S1. unfold Rsqr in S1.
  pose proof (fdot_self_nonneg n u) as S2. unfold fdot in S2.
  destruct (Nat.eq_dec i n) as [->|].
  - assert (u n * u n = 0) by lra. apply Rsqr_eq_0; unfold Rsqr; auto.
  - apply IH; [lra|lia].
Qed.

Section F.
Variable bc : bool.

Lemma vec_init_def n : vec_init (vec_def (T := R) n) = Ok (0%Z, fvec n (fun _ => 0) []).
Proof.
  unfold vec_def. rewrite vec_init_ok by now rewrite fresh_length.
  unfold fvec. rewrite (tab_repeat n (@f0 R NumR)).
  rewrite skipn_all2 by (rewrite fresh_length; lia). reflexivity.
Qed.

Lemma vec_zip_d_f op n u v tu tv :
  vec_zip_d bc op (fvec n u tu) (fvec n v tv) = Ok (0%Z, fvec n (fun i => op (u i) (v i)) tu).
Proof.
  unfold vec_zip_d, fvec. cbn [vbuf vsz].
  erewrite vec_zip_st_ok with (xs := tab n u) (ys := tab n v);
    [ | cbn; reflexivity | apply tab_length | cbn; reflexivity | apply tab_length | cbn; reflexivity
    | rewrite app_length, cells_length, tab_length; lia ].
  cbn [bind nth upd]. rewrite tab_map2.
  rewrite skipn_app_all by (now rewrite cells_length, tab_length). reflexivity.
Qed.

Lemma blit_self T (xs : list T) tl n : n = length xs ->
  blit (cells xs ++ tl) 0 (cells xs ++ tl) 0 n = Ok (cells xs ++ tl).
Proof.
  intros ->. rewrite blit_cells; auto; [|rewrite app_length, cells_length; lia].
  rewrite skipn_app_all; auto. apply cells_length.
Qed.

Lemma vec_project_d_f n u v tu tv :
  fdot n u u <> 0 ->
  vec_project_d bc (fvec n u tu) (fvec n v tv)
  = Ok (0%Z, fvec n (fun i => u i * (fdot n v u / fdot n u u)) tu).
Proof.
  intros Hd. unfold vec_project_d, vec_project_st, fvec. cbn [vbuf vsz rsz rptr].
  rewrite Nat.eqb_refl. cbn [negb orb]. rewrite andb_false_r.
  unfold sblit. cbn [nth_error]. rewrite blit_self by now rewrite tab_length. cbn [bind upd].
  erewrite sdot_ok with (xs := tab n v) (ys := tab n u); cbn [nth_error]; eauto using tab_length.
  cbn [bind]. erewrite sdot_ok with (xs := tab n u) (ys := tab n u); cbn [nth_error]; eauto using tab_length.
  cbn [bind]. rewrite !dot_rdot, !rdot_tab. fold (fdot n u u). fold (fdot n v u).
  cbn [fdiv NumR]. rewrite Rdivo_ok by exact Hd. cbn [bind].
  set (s := fdot n v u / fdot n u u).
  pose (st := fun k => [cells (tab n (fun i => if (i <? k)%nat then u i * s else u i)) ++ tu; cells (tab n v) ++ tv]).
  assert (E : for_ n 0 (fun i st => let! a := srd st 0 i in swr st 0 i (fmul a s)) (st O) = Ok (st (0 + n)%nat)).
  { apply (@for_fun _ st). intros k Hk. unfold st.
    unfold srd, swr. cbn [nth_error].
    rewrite rd_cells_app with (d := 0) by (rewrite tab_length; lia). cbn [bind].
    rewrite nth_tab by lia. destruct (Nat.ltb_spec k k); [lia|].
    rewrite wr_cells_app by (rewrite tab_length; lia). cbn [bind upd]. f_equal. f_equal. f_equal. f_equal.
    unfold tab. rewrite upd_map_seq by lia. apply tab_ext with (n := n). intros i Hi.
    destruct (Nat.eqb_spec i k) as [->|].
    - destruct (Nat.ltb_spec k (S k)); [reflexivity|lia].
    - destruct (Nat.ltb_spec i k), (Nat.ltb_spec i (S k)); try lia; reflexivity. }
  match goal with |- context [for_ n 0 ?b ?s] => assert (E' : for_ n 0 b s = Ok (st (0 + n)%nat)) by exact E end.
  rewrite E'. cbn [bind].
  unfold st. cbn [nth]. f_equal. f_equal. f_equal. f_equal. f_equal.
  apply tab_ext. intros i Hi. cbn [Nat.add]. destruct (Nat.ltb_spec i n); [reflexivity|lia].
Qed.

Lemma vec_norm_f n u tu : vec_norm bc (fvec n u tu) = Ok (sqrt (fdot n u u)).
Proof. rewrite fvec_vec_of, vec_norm_R. unfold rnorm. now rewrite rdot_tab. Qed.

Lemma vec_scalar_mult_f n u tu s :
  vec_scalar_mult (fvec n u tu) s = Ok (0%Z, fvec n (fun i => u i * s) tu).
Proof. rewrite !fvec_vec_of, vec_scalar_mult_ok, tab_map. reflexivity. Qed.

Lemma vec_scalar_div_f n u tu s :
  s <> 0 -> vec_scalar_div (fvec n u tu) s = Ok (0%Z, fvec n (fun i => u i / s) tu).
Proof.
  intros Hs. rewrite !fvec_vec_of. rewrite vec_scalar_div_ok with (g := fun x => x / s).
  - rewrite tab_map. reflexivity.
  - apply Reqb_false. exact Hs.
  - intros x _. apply Rdivo_ok. exact Hs.
Qed.

Lemma vec_neg_f n u tu : vec_neg (fvec n u tu) = Ok (0%Z, fvec n (fun i => - u i) tu).
Proof. rewrite !fvec_vec_of, vec_neg_ok, tab_map. reflexivity. Qed.

Lemma vec_to_unit_f n u tu :
  fdot n u u <> 0 ->
  vec_to_unit bc (fvec n u tu) = Ok (0%Z, fvec n (fun i => u i / sqrt (fdot n u u)) tu).
Proof.
  intros H.
  assert (P : 0 < fdot n u u) by (pose proof (fdot_self_nonneg n u); lra).
  assert (E : rnorm (tab n u) = sqrt (fdot n u u)) by (unfold rnorm; now rewrite rdot_tab).
  pose proof (sqrt_lt_R0 _ P).
  rewrite !fvec_vec_of, vec_to_unit_R by (rewrite E; lra).
  unfold rscale. rewrite tab_map, E. f_equal. f_equal. f_equal. apply tab_ext. intros. unfold Rdiv. ring.
Qed.

Lemma get_col_fvec r c f tl j v :
  (j < c)%nat -> (r <= length v)%nat ->
  mtx_get_col bc (mat_of r c f tl) j v = Ok (0%Z, vbuf (fvec r (fun i => f i j) (skipn r v))).
Proof. intros. rewrite mtx_get_col_ok by auto. reflexivity. Qed.

Lemma set_col_fvec r c (F : nat -> nat -> option R) tl j u tv :
  (j < c)%nat ->
  mtx_set_col bc (otab r c F tl) j (vbuf (fvec r u tv))
  = Ok (0%Z, otab r c (fun a b => if (b =? j)%nat then Some (u a) else F a b) tl).
Proof.
  intros. unfold fvec. cbn [vbuf]. rewrite mtx_set_col_otab with (d := 0) by (auto using tab_length).
  f_equal. f_equal. apply otab_ext. intros a b Ha Hb. destruct (b =? j)%nat; auto.
  now rewrite nth_tab.
Qed.

Lemma get_col_otab r c (F : nat -> nat -> option R) tl j v u :
  (j < c)%nat -> (r <= length v)%nat -> (forall i, (i < r)%nat -> F i j = Some (u i)) ->
  mtx_get_col bc (otab r c F tl) j v = Ok (0%Z, vbuf (fvec r u (skipn r v))).
Proof.
  intros Hj Hv HF. unfold mtx_get_col.
  pose (g := fun k => cells (tab k u) ++ skipn k v).
  change (mrows (otab r c F tl)) with r.
  assert (E : for_exit (R := Z * buf R) r 0 (fun i v =>
     let! (rc, x) := mtx_get bc (otab r c F tl) i j in
     match x with None => Ok (inr (rc, v)) | Some x => let! v := wr v i x in Ok (inl v) end) (g O)
     = Ok (inl (g (0 + r)%nat))).
  { apply for_exit_fun. intros i Hi. rewrite mtx_get_otab by lia. rewrite HF by lia. cbn [bind].
    unfold g. rewrite (@skipn_cons_nth _ v i None) by lia.
    assert (W := @wr_mid R (cells (tab i u)) (skipn (S i) v) (nth i v None) (u i)).
    rewrite cells_length, tab_length in W. rewrite W. cbn [bind]. f_equal. f_equal. rewrite tab_snoc, cells_app, <- app_assoc. reflexivity. }
  change (g O) with v in E. unfold buf in *. rewrite E. reflexivity.
Qed.

End F.
