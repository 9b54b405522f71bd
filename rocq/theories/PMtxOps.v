(** Element-wise operations, products, row operations, transpose, minors and
    predicates of the matrix model, for any arithmetic. *)
From Coq Require Import List Arith ZArith Bool Lia.
From Verif Require Import Base BaseFacts SpecVec SpecMtx MVec MMtx PVec PMtx Libm.
Import ListNotations.
Set Implicit Arguments.
Local Open Scope num_scope.
Local Open Scope nat_scope.

Section MtxOpsFacts.
Context {T : Type} {N : Num T}.
Variable bc : bool.
Implicit Types f g h : nat -> nat -> T.
Implicit Types ta tb tl : buf T.
Implicit Types mc : mtx T.

Lemma otab_buf_mat r c (F : nat -> nat -> option T) (f : nat -> nat -> T) tl tl' i j :
  i < r -> j < c -> mbuf (otab r c F tl) = mbuf (mat_of r c f tl') -> F i j = Some (f i j).
Proof.
  intros Hi Hj E. pose proof (rd_otab F tl Hi Hj) as A. rewrite E, rd_mat in A by auto.
  destruct (F i j); congruence.
Qed.

Lemma shape_ok r c p q s : shape_mismatch (MR r c p) (MR r c q) (MR r c s) = false.
Proof. unfold shape_mismatch. cbn [rrows rcols]. now rewrite !Nat.eqb_refl. Qed.

(** ** Component-wise binary operations; the output may be an operand *)
Lemma mtx_zip_st_ok op (st : store T) pa pb pc r c f g h ta tb mc :
  nth_error st pa = Some (mbuf (mat_of r c f ta)) ->
  nth_error st pb = Some (mbuf (mat_of r c g tb)) ->
  nth_error st pc = Some (mbuf mc) -> room r c mc ->
  (forall i j, i < r -> j < c -> op (f i j) (g i j) = Ok (h i j)) ->
  mtx_zip_st bc op st (MR r c pa) (MR r c pb) (MR r c pc)
  = Ok (0%Z, upd st pc (mbuf (mat_of r c h (rest mc)))).
Proof.
  intros Ha Hb Hc Hr Hop. unfold mtx_zip_st. rewrite shape_ok, andb_false_r.
  cbn [rrows rcols mptr]. rewrite (Nat.mul_comm c r).
  destruct (room_otab Hr) as (F & E). set (tl := rest mc) in *. clearbody tl. subst mc.
  pose (s := fun n => upd st pc (mbuf (otab r c (upto c n h F) tl))).
  assert (Hpc : pc < length st) by (apply nth_error_Some; congruence).
  assert (E0 : s 0 = st). { unfold s. rewrite upto_0. now apply upd_same. }
  rewrite <- E0 at 1.
  match goal with |- bind (for_ _ _ ?b _) _ = _ => set (body := b) end.
  assert (L : for_ (r * c) 0 body (s 0) = Ok (s (r * c))).
  { pose proof (@for_fun (store T) s (r * c) 0 body) as L. cbn [Nat.add] in L. apply L.
    intros k Hk. destruct (@flat_bounds r c k) as (H1 & H2 & H3); [lia|].
    set (i := k / c) in *. set (j := k mod c) in *. rewrite H3. clear H3.
    assert (Get : forall p f' t', nth_error st p = Some (mbuf (mat_of r c f' t')) ->
              srd (s (i * c + j)) p (i * c + j) = Ok (f' i j)).
    { intros p f' t' Hp. unfold s.
      destruct (Nat.eq_dec p pc) as [->|Np].
      - rewrite (@srd_eq _ _ pc _ _ (nth_error_upd_eq st _ Hpc)).
        apply rd_otab_some; auto. rewrite upto_ge by lia.
        apply (@otab_buf_mat r c F f' tl t'); auto. congruence.
      - rewrite (@srd_eq _ _ p (mbuf (mat_of r c f' t'))).
        + now apply rd_mat.
        + now rewrite nth_error_upd_ne by auto. }
    unfold body. rewrite (Get pa f ta Ha), (Get pb g tb Hb). cbn [bind].
    rewrite Hop by auto. cbn [bind]. unfold swr, s.
    rewrite (nth_error_upd_eq _ _ Hpc). rewrite wr_otab by auto. cbn [bind].
    rewrite upto_step by auto. now rewrite upd_upd. }
  rewrite L. cbn [bind]. unfold s. now rewrite upto_all.
Qed.

Lemma mtx_zip_ok op r c f g h ta tb mc :
  room r c mc -> (forall i j, i < r -> j < c -> op (f i j) (g i j) = Ok (h i j)) ->
  mtx_zip bc op (mat_of r c f ta) (mat_of r c g tb) mc = Ok (0%Z, mat_of r c h (rest mc)).
Proof.
  intros Hm Hop. unfold mtx_zip. pose proof Hm as (Hr & Hc & _).
  rewrite Hr, Hc.
  change (mrows (mat_of r c f ta)) with r. change (mcols (mat_of r c f ta)) with c.
  change (mrows (mat_of r c g tb)) with r. change (mcols (mat_of r c g tb)) with c.
  rewrite (@mtx_zip_st_ok op _ 0 1 2 r c f g h ta tb mc); auto.
Qed.

Lemma mtx_zip_d_ok op r c f g h ta tb :
  (forall i j, i < r -> j < c -> op (f i j) (g i j) = Ok (h i j)) ->
  mtx_zip_d bc op (mat_of r c f ta) (mat_of r c g tb) = Ok (0%Z, mat_of r c h ta).
Proof.
  intros Hop. unfold mtx_zip_d.
  change (mrows (mat_of r c f ta)) with r. change (mcols (mat_of r c f ta)) with c.
  change (mrows (mat_of r c g tb)) with r. change (mcols (mat_of r c g tb)) with c.
  rewrite (@mtx_zip_st_ok op _ 0 1 0 r c f g h ta tb (mat_of r c f ta)); auto using mat_room.
  now rewrite mat_rest.
Qed.

Lemma shape_bad (ra ca rb cb rc cc p q s : nat) :
  ~ (ra = rb /\ rb = rc /\ ca = cb /\ cb = cc) ->
  shape_mismatch (MR ra ca p) (MR rb cb q) (MR rc cc s) = true.
Proof.
  intros H. unfold shape_mismatch. cbn [rrows rcols].
  destruct (ra =? rb) eqn:E1, (rb =? rc) eqn:E2, (ca =? cb) eqn:E3, (cb =? cc) eqn:E4; auto.
  apply Nat.eqb_eq in E1, E2, E3, E4. lia.
Qed.

Lemma mtx_zip_bad op (ma mb mc : mtx T) :
  bc = true ->
  ~ (mrows ma = mrows mb /\ mrows mb = mrows mc /\ mcols ma = mcols mb /\ mcols mb = mcols mc) ->
  mtx_zip bc op ma mb mc = Ok ((- EINVAL)%Z, mc).
Proof.
  intros -> H. unfold mtx_zip, mtx_zip_st. rewrite shape_bad by auto. cbn. now destruct mc.
Qed.

Lemma mtx_zip_d_bad op (ma mb : mtx T) :
  bc = true -> ~ (mrows ma = mrows mb /\ mcols ma = mcols mb) ->
  mtx_zip_d bc op ma mb = Ok ((- EINVAL)%Z, ma).
Proof.
  intros -> H. unfold mtx_zip_d, mtx_zip_st. rewrite shape_bad by lia. cbn. now destruct ma.
Qed.

(** ** Row operations *)

Lemma row_loop (op : T -> T -> T) r c (f : nat -> nat -> T) tl i j :
  i < r -> j < r ->
  for_ c 0 (fun x b =>
      let! a := rd b (i * c + x) in
      let! d := rd b (j * c + x) in
      wr b (i * c + x) (op a d)) (mbuf (mat_of r c f tl))
  = Ok (mbuf (mat_of r c (fun a b => if a =? i then op (f i b) (f j b) else f a b) tl)).
Proof.
  intros Hi Hj.
  pose (st := fun n => mbuf (mat_of r c
     (fun a b => if (a =? i) && (b <? n) then op (f i b) (f j b) else f a b) tl)).
  match goal with |- for_ _ _ ?bd _ = _ => set (body := bd) end.
  assert (E0 : mbuf (mat_of r c f tl) = st 0).
  { unfold st. f_equal. apply mat_ext. intros. cbn. now rewrite andb_false_r. }
  rewrite E0.
  pose proof (@for_fun (buf T) st c 0 body) as L. cbn [Nat.add] in L. rewrite L.
  - unfold st. do 2 f_equal. apply mat_ext. intros a b Ha Hb.
    apply Nat.ltb_lt in Hb. now rewrite Hb, andb_true_r.
  - intros x Hx. unfold body, st at 1 2 3.
    rewrite !rd_mat by lia. cbn [bind].
    rewrite wr_mat by lia. unfold st. do 2 f_equal. apply mat_ext. intros a b Ha Hb. unfold fupd.
    rewrite (proj2 (Nat.ltb_ge x x)) by lia. rewrite !andb_false_r.
    destruct (a =? i) eqn:E1; cbn [andb]; auto. apply Nat.eqb_eq in E1; subst a.
    destruct (b =? x) eqn:E2; [apply Nat.eqb_eq in E2; subst b|apply Nat.eqb_neq in E2].
    + now rewrite (proj2 (Nat.ltb_lt x (S x))) by lia.
    + destruct (b <? x) eqn:E3, (b <? S x) eqn:E4; auto;
        apply Nat.ltb_lt in E3 || apply Nat.ltb_ge in E3;
        apply Nat.ltb_lt in E4 || apply Nat.ltb_ge in E4; lia.
Qed.

Lemma mtx_sum_rows_d_ok r c (f : nat -> nat -> T) tl i j :
  i < r -> j < r ->
  mtx_sum_rows_d bc (mat_of r c f tl) i j
  = Ok (0%Z, mat_of r c (fun a b => if a =? i then (f i b + f j b)%num else f a b) tl).
Proof.
  intros Hi Hj. unfold mtx_sum_rows_d.
  change (mrows (mat_of r c f tl)) with r. change (mcols (mat_of r c f tl)) with c.
  rewrite in_range, andb_false_r by auto.
  now rewrite (@row_loop fadd r c f tl i j).
Qed.

Lemma mtx_sum_rows_scaled_d_ok r c (f : nat -> nat -> T) tl i j s :
  i < r -> j < r -> (bc = true -> j < c) ->
  mtx_sum_rows_scaled_d bc (mat_of r c f tl) i j s
  = Ok (0%Z, mat_of r c (fun a b => if a =? i then (f i b + f j b * s)%num else f a b) tl).
Proof.
  intros Hi Hj Hc. unfold mtx_sum_rows_scaled_d.
  change (mrows (mat_of r c f tl)) with r. change (mcols (mat_of r c f tl)) with c.
  assert (G : bc && ((r <=? i) || (c <=? j)) = false).
  { destruct bc; auto. now rewrite in_range by auto. }
  rewrite G. now rewrite (@row_loop (fun a d => (a + d * s)%num) r c f tl i j).
Qed.

Lemma mtx_scalar_mult_row_d_ok r c (f : nat -> nat -> T) tl i s :
  i < r ->
  mtx_scalar_mult_row_d bc (mat_of r c f tl) i s
  = Ok (0%Z, mat_of r c (fun a b => if a =? i then (f i b * s)%num else f a b) tl).
Proof.
  intros Hi. unfold mtx_scalar_mult_row_d.
  change (mrows (mat_of r c f tl)) with r. change (mcols (mat_of r c f tl)) with c.
  rewrite (proj2 (Nat.leb_gt r i)), andb_false_r by auto.
  pose proof (@row_loop (fun a _ => (a * s)%num) r c f tl i i Hi Hi) as L.
  match goal with |- bind (for_ _ _ ?b1 _) _ = _ => set (body := b1) end.
  match type of L with for_ _ _ ?b2 _ = _ => set (body2 := b2) in L end.
  assert (E : for_ c 0 body (mbuf (mat_of r c f tl)) = for_ c 0 body2 (mbuf (mat_of r c f tl))).
  { apply for_ext. intros k b Hk. unfold body, body2. now destruct (rd b (i * c + k)). }
  rewrite E, L. reflexivity.
Qed.

Lemma mtx_sum_rows_d_bad (m : mtx T) i j :
  bc = true -> ~ (i < mrows m /\ j < mrows m) -> mtx_sum_rows_d bc m i j = Ok ((- EINVAL)%Z, m).
Proof. intros -> H. unfold mtx_sum_rows_d. now rewrite out_range. Qed.

Lemma mtx_sum_rows_scaled_d_bad (m : mtx T) i j s :
  bc = true -> ~ (i < mrows m /\ j < mcols m) ->
  mtx_sum_rows_scaled_d bc m i j s = Ok ((- EINVAL)%Z, m).
Proof. intros -> H. unfold mtx_sum_rows_scaled_d. now rewrite out_range. Qed.

Lemma mtx_scalar_mult_row_d_bad (m : mtx T) i s :
  bc = true -> mrows m <= i -> mtx_scalar_mult_row_d bc m i s = Ok ((- EINVAL)%Z, m).
Proof. intros -> H. unfold mtx_scalar_mult_row_d. apply Nat.leb_le in H. now rewrite H. Qed.

Lemma mtx_scalar_mult_d_ok r c (f : nat -> nat -> T) tl s :
  mtx_scalar_mult_d (mat_of r c f tl) s = Ok (0%Z, mat_of r c (fun i j => (f i j * s)%num) tl).
Proof.
  unfold mtx_scalar_mult_d.
  change (mrows (mat_of r c f tl)) with r. change (mcols (mat_of r c f tl)) with c.
  rewrite mat_otab. rewrite (for_otab (fun i j => (f i j * s)%num)); [reflexivity|].
  intros i j Hi Hj. rewrite (@rd_otab_some _ r c _ tl i j (f i j)); auto.
  now rewrite upto_ge by lia.
Qed.

(** ** Unary operations *)
Lemma mtx_unary_op_ok {M : NumM T} r c (f h : nat -> nat -> T) tl op fn :
  unop_fun op = Some fn -> (forall i j, i < r -> j < c -> fn (f i j) = Ok (h i j)) ->
  mtx_unary_op (mat_of r c f tl) op = Ok (0%Z, mat_of r c h tl).
Proof.
  intros Hop Hf. unfold mtx_unary_op. rewrite Hop.
  change (mrows (mat_of r c f tl)) with r. change (mcols (mat_of r c f tl)) with c.
  rewrite mat_otab, (Nat.mul_comm c r).
  pose (s := fun n => mbuf (otab r c (upto c n h (fun i j => Some (f i j))) tl)).
  match goal with |- bind (for_exit _ _ ?b _) _ = _ => set (body := b) end.
  pose proof (@for_exit_fun (buf T) (buf T) s (r * c) 0 body) as E. cbn [Nat.add] in E.
  unfold s at 3 in E. rewrite upto_0 in E. rewrite E.
  - cbn [bind]. unfold s. now rewrite upto_all.
  - intros k Hk. destruct (@flat_bounds r c k) as (H1 & H2 & H3); [lia|].
    set (i := k / c) in *. set (j := k mod c) in *. rewrite H3. clear H3.
    unfold body, s at 1 2. rewrite (@rd_otab_some _ r c _ tl i j (f i j)); auto.
    + cbn [bind]. rewrite Hf by auto. cbn [bind]. rewrite wr_otab by auto. cbn [bind].
      now rewrite upto_step.
    + now rewrite upto_ge by lia.
Qed.

(** ** Product *)

Lemma msum_S n (g : nat -> T) : msum (S n) g = (msum n g + g n)%num.
Proof. unfold msum. now rewrite seq_S, map_app, fold_left_app. Qed.

Lemma msum_ext n (p q : nat -> T) : (forall k, k < n -> p k = q k) -> msum n p = msum n q.
Proof.
  intros H. unfold msum. f_equal. apply map_ext_in. intros k Hk. apply in_seq in Hk. apply H. lia.
Qed.

Lemma mult_body_ok r n c f g ta tb mc :
  room r c mc ->
  mult_body (mat_of r n f ta) (mat_of n c g tb) (mbuf mc)
  = Ok (mbuf (mat_of r c (fun i j => msum n (fun k => (f i k * g k j)%num)) (rest mc))).
Proof.
  intros Hm. destruct (room_otab Hm) as (F & E). set (tl := rest mc) in *. clearbody tl. subst mc.
  unfold mult_body.
  change (mrows (mat_of r n f ta)) with r. change (mcols (mat_of r n f ta)) with n.
  change (mcols (mat_of n c g tb)) with c.
  set (h := fun i j => msum n (fun k => (f i k * g k j)%num)).
  pose (s := fun k => mbuf (otab r c (upto c k h F) tl)).
  match goal with |- for_ _ _ (fun i s => for_ _ _ (@?b i) s) _ = _ => set (body := b) end.
  pose proof (@nested_for (buf T) s r c body) as E. unfold s at 3 4 in E.
  rewrite upto_0, upto_all in E. apply E. clear E.
  intros i j Hi Hj. unfold body. rewrite (Nat.add_comm j (i * c)). unfold s at 1.
  rewrite wr_otab by auto. cbn [bind].
  pose (w := fun k => mbuf (otab r c
      (fupd (upto c (i * c + j) h F) i j (Some (msum k (fun k => (f i k * g k j)%num)))) tl)).
  match goal with |- for_ _ _ ?b _ = _ => set (inner := b) end.
  pose proof (@for_fun (buf T) w n 0 inner) as L. cbn [Nat.add] in L.
  change (mbuf (otab r c (fupd (upto c (i * c + j) h F) i j (Some f0)) tl)) with (w 0).
  rewrite L.
  - unfold w, s. rewrite <- upto_step by auto. reflexivity.
  - intros k Hk. unfold inner, w at 1 2.
    rewrite (@rd_otab_some _ r c _ tl i j (msum k (fun k => (f i k * g k j)%num))) by (auto; apply fupd_eq).
    cbn [bind]. rewrite (Nat.add_comm k (i * n)). rewrite rd_mat by lia. cbn [bind].
    rewrite (Nat.add_comm j (k * c)). rewrite rd_mat by lia. cbn [bind].
    rewrite wr_otab by auto. unfold w. rewrite msum_S. do 2 f_equal. apply otab_ext.
    intros a b Ha Hb. unfold fupd. now destruct (_ && _).
Qed.

Lemma mtx_mult_ok r n c f g ta tb mc :
  room r c mc ->
  mtx_mult bc (mat_of r n f ta) (mat_of n c g tb) mc
  = Ok (0%Z, mat_of r c (fun i j => msum n (fun k => (f i k * g k j)%num)) (rest mc)).
Proof.
  intros Hm. pose proof Hm as (Hr & Hc & _). unfold mtx_mult. rewrite Hr, Hc.
  change (mrows (mat_of r n f ta)) with r. change (mcols (mat_of r n f ta)) with n.
  change (mrows (mat_of n c g tb)) with n. change (mcols (mat_of n c g tb)) with c.
  rewrite !Nat.eqb_refl. cbn [negb orb]. rewrite andb_false_r.
  rewrite !mtx_copy_local. cbn [bind]. rewrite mult_body_ok by auto. reflexivity.
Qed.

Lemma mtx_mult_bad (ma mb mc : mtx T) :
  bc = true -> ~ (mcols ma = mrows mb /\ mrows mc = mrows ma /\ mcols mc = mcols mb) ->
  mtx_mult bc ma mb mc = Ok ((- EINVAL)%Z, mc).
Proof.
  intros -> H. unfold mtx_mult.
  destruct (mcols ma =? mrows mb) eqn:E1, (mrows mc =? mrows ma) eqn:E2, (mcols mc =? mcols mb) eqn:E3; auto.
  apply Nat.eqb_eq in E1, E2, E3. lia.
Qed.

Lemma mtx_mult_d_ok r n f g ta tb :
  mtx_mult_d bc (mat_of r n f ta) (mat_of n n g tb)
  = Ok (0%Z, mat_of r n (fun i j => msum n (fun k => (f i k * g k j)%num)) ta).
Proof.
  unfold mtx_mult_d.
  change (mcols (mat_of r n f ta)) with n.
  change (mrows (mat_of n n g tb)) with n. change (mcols (mat_of n n g tb)) with n.
  rewrite !Nat.eqb_refl. cbn [negb orb]. rewrite andb_false_r.
  rewrite mtx_mult_ok by apply mat_room. now rewrite mat_rest.
Qed.

Lemma mtx_mult_d_bad (ma mb : mtx T) :
  bc = true -> ~ (mcols ma = mrows mb /\ mrows mb = mcols mb) ->
  mtx_mult_d bc ma mb = Ok ((- EINVAL)%Z, ma).
Proof.
  intros -> H. unfold mtx_mult_d.
  destruct (mcols ma =? mrows mb) eqn:E1, (mrows mb =? mcols mb) eqn:E2; auto.
  apply Nat.eqb_eq in E1, E2. lia.
Qed.

(** ** Transpose *)

Lemma nth_row_of c (f : nat -> nat -> T) i j d : j < c -> nth j (row_of c f i) d = f i j.
Proof. intros. unfold row_of. now rewrite nth_map_seq. Qed.

Lemma nth_col_of r (f : nat -> nat -> T) i j d : i < r -> nth i (col_of r f j) d = f i j.
Proof. intros. unfold col_of. now rewrite nth_map_seq. Qed.

Lemma row_of_length c (f : nat -> nat -> T) i : length (row_of c f i) = c.
Proof. unfold row_of. now rewrite map_length, seq_length. Qed.

Lemma col_of_length r (f : nat -> nat -> T) j : length (col_of r f j) = r.
Proof. unfold col_of. now rewrite map_length, seq_length. Qed.

Lemma mtx_trans_ok r c (f : nat -> nat -> T) ta mb :
  room c r mb ->
  mtx_trans bc (mat_of r c f ta) mb = Ok (0%Z, mat_of c r (fun i j => f j i) (rest mb)).
Proof.
  intros Hm. pose proof Hm as (Hr & Hc & _). destruct (room_otab Hm) as (F & E).
  set (tl := rest mb) in *. clearbody tl.
  unfold mtx_trans. rewrite Hr, Hc. clear Hr Hc. subst mb.
  change (mrows (mat_of r c f ta)) with r. change (mcols (mat_of r c f ta)) with c.
  rewrite !Nat.eqb_refl. cbn [negb orb]. rewrite andb_false_r.
  match goal with |- bind (for_ _ _ ?b _) _ = _ => set (body := b) end.
  pose (P := fun (n : nat) (s : mtx T * buf T) =>
     fst s = otab c r (fun a b => if b <? n then Some (f b a) else F a b) tl /\ length (snd s) = c).
  destruct (@for_inv _ P r 0 body (otab c r F tl, fresh c)) as ([m d] & L & Em & Hd).
  - split; cbn [fst snd]; [now apply otab_ext|apply fresh_length].
  - intros i [m d] Hi (Em & Hd). cbn [fst snd] in Em, Hd. subst m. unfold body.
    rewrite mtx_get_row_ok by lia. cbn [bind].
    rewrite skipn_all2 by lia.
    rewrite (mtx_set_col_otab bc _ _ _ _ (f 0 0)) by (auto using row_of_length; lia).
    cbn [bind]. eexists; split; [reflexivity|]. split; cbn [fst snd].
    + apply otab_ext. intros a b Ha Hb.
      destruct (b =? i) eqn:E2; [apply Nat.eqb_eq in E2; subst|apply Nat.eqb_neq in E2].
      * rewrite (proj2 (Nat.ltb_lt i (S i))) by lia. now rewrite nth_row_of.
      * destruct (b <? i) eqn:E3, (b <? S i) eqn:E4; auto;
        apply Nat.ltb_lt in E3 || apply Nat.ltb_ge in E3;
        apply Nat.ltb_lt in E4 || apply Nat.ltb_ge in E4; lia.
    + now rewrite app_nil_r, cells_length, row_of_length.
  - rewrite L. cbn [bind]. cbn [fst snd Nat.add] in Em. rewrite Em. do 2 f_equal. apply otab_mat.
    intros i j Hi Hj. apply Nat.ltb_lt in Hj. now rewrite Hj.
Qed.

Lemma mtx_trans_bad (ma mb : mtx T) :
  bc = true -> ~ (mrows ma = mcols mb /\ mcols ma = mrows mb) ->
  mtx_trans bc ma mb = Ok ((- EINVAL)%Z, mb).
Proof.
  intros -> H. unfold mtx_trans.
  destruct (mrows ma =? mcols mb) eqn:E1, (mcols ma =? mrows mb) eqn:E2; auto.
  apply Nat.eqb_eq in E1, E2. lia.
Qed.

(** ** Minors *)

(** number of indices below k that are not i *)
Definition kept (i k : nat) : nat := if k <=? i then k else k - 1.

Lemma kept_S i k : kept i (S k) = if k =? i then kept i k else S (kept i k).
Proof.
  unfold kept. destruct (Nat.eqb_spec k i); destruct (Nat.leb_spec (S k) i), (Nat.leb_spec k i); lia.
Qed.

Lemma skip_kept i k : k <> i -> skip_at i (kept i k) = k.
Proof.
  intros. unfold skip_at, kept. destruct (k <=? i) eqn:E;
   [apply Nat.leb_le in E|apply Nat.leb_gt in E].
  - rewrite (proj2 (Nat.ltb_lt k i)); lia.
  - rewrite (proj2 (Nat.ltb_ge (k - 1) i)); lia.
Qed.

Lemma kept_lt n j (g : nat) : g < S n -> j < S n -> g <> j -> kept j g < n.
Proof. intros. unfold kept. destruct (g <=? j) eqn:E; [apply Nat.leb_le in E|apply Nat.leb_gt in E]; lia. Qed.

Lemma kept_le n j (g : nat) : g <= S n -> j < S n -> kept j g <= n.
Proof. intros. unfold kept. destruct (g <=? j) eqn:E; [apply Nat.leb_le in E|apply Nat.leb_gt in E]; lia. Qed.

Lemma mtx_reduce_ok n (f : nat -> nat -> T) tl mr i j :
  room n n mr -> i < S n -> j < S n ->
  mtx_reduce bc (mat_of (S n) (S n) f tl) mr i j
  = Ok (0%Z, mat_of n n (fun a b => f (skip_at i a) (skip_at j b)) (rest mr)).
Proof.
  intros Hm Hi Hj. pose proof Hm as (Hr & Hc & Hl). unfold mtx_reduce. rewrite Hr, Hc.
  change (mrows (mat_of (S n) (S n) f tl)) with (S n).
  change (mcols (mat_of (S n) (S n) f tl)) with (S n).
  rewrite !Nat.eqb_refl. cbn [negb orb]. rewrite in_range, andb_false_r by auto.
  set (M := mat_of (S n) (S n) f tl).
  set (g := fun a b => f (skip_at i a) (skip_at j b)).
  set (h := fun u => g (u / n) (u mod n)).
  pose (V := fun u => (cells (map h (seq 0 u)) ++ fresh (n * n - u) : buf T)).
  pose (P := fun k (s : nat * option T * buf T) =>
      exists x, s = (kept i k * n, x, V (kept i k * n))).
  match goal with |- bind (for_ _ _ ?b _) _ = _ => set (body := b) end.
  destruct (@for_inv _ P (S n) 0 body (0, None, fresh (n * n))) as (s & L & x & Es).
  - exists None. unfold kept, V. cbn. now rewrite Nat.sub_0_r.
  - intros k s Hk (x & ->). unfold body.
    pose (Q := fun (b : nat) (s : nat * option T * buf T) =>
       exists x, s = let u := kept i k * n + (if k =? i then 0 else kept j b) in (u, x, V u)).
    match goal with |- context [for_ _ _ ?b _] => set (inner := b) end.
    destruct (@for_inv _ Q (S n) 0 inner (kept i k * n, x, V (kept i k * n))) as (s & L & x' & Es).
    + exists x. assert (E : kept j 0 = 0) by (unfold kept; now cbn).
      rewrite E. destruct (k =? i); now rewrite Nat.add_0_r.
    + intros b s Hb (y & ->). cbn zeta. unfold inner.
      destruct (k =? i) eqn:Eki; cbn [negb andb].
      { eexists; split; [reflexivity|]. now exists y. }
      destruct (b =? j) eqn:Ebj; cbn [negb].
      { eexists; split; [reflexivity|]. exists y. rewrite kept_S, Ebj. reflexivity. }
      apply Nat.eqb_neq in Eki, Ebj.
      unfold M. rewrite lget_mat by lia. cbn [bind lval].
      assert (Ki : kept i k < n) by (apply kept_lt; lia).
      assert (Kj : kept j b < n) by (apply kept_lt; lia).
      set (u := kept i k * n + kept j b).
      assert (Hu : u < n * n) by (unfold u; apply flat_lt; auto).
      assert (Hh : h u = f k b).
      { unfold h, g, u. rewrite flat_div, flat_mod by auto. now rewrite !skip_kept. }
      unfold V at 1. replace (n * n - u) with (S (n * n - S u)) by lia. cbn [fresh repeat].
      pose proof (@wr_mid T (cells (map h (seq 0 u))) (fresh (n * n - S u)) None (f k b)) as W.
      rewrite cells_length, map_length, seq_length in W. unfold fresh in *. rewrite W. cbn [bind].
      eexists; split; [reflexivity|]. exists (Some (f k b)).
      rewrite kept_S. rewrite (proj2 (Nat.eqb_neq b j)) by auto.
      rewrite Nat.add_succ_r. fold u. cbn zeta. f_equal.
      unfold V. rewrite seq_S, map_app, cells_app. cbn [map cells Nat.add]. rewrite Hh.
      now rewrite <- app_assoc.
    + rewrite L. eexists; split; [reflexivity|]. exists x'.
      cbn [Nat.add] in Es. rewrite Es. cbn zeta.
      rewrite !kept_S.
      assert (Kjn : k <> i -> (if n =? j then kept j n else S (kept j n)) = n).
      { intros _. unfold kept. destruct (n =? j) eqn:E1; [apply Nat.eqb_eq in E1|apply Nat.eqb_neq in E1];
        destruct (n <=? j) eqn:E2; [apply Nat.leb_le in E2|apply Nat.leb_gt in E2|apply Nat.leb_le in E2|apply Nat.leb_gt in E2]; lia. }
      destruct (k =? i) eqn:Eki.
      * now rewrite Nat.add_0_r.
      * apply Nat.eqb_neq in Eki. rewrite Kjn by auto.
        now replace (kept i k * n + n) with (S (kept i k) * n) by lia.
  - rewrite L. cbn [bind]. rewrite Es. cbn [Nat.add].
    assert (K : kept i (S n) = n).
    { unfold kept. destruct (S n <=? i) eqn:E1; [apply Nat.leb_le in E1; lia|lia]. }
    rewrite K. unfold V. rewrite (mtx_from_arr_ok (map h (seq 0 (n * n))) _ Hm)
      by now rewrite map_length, seq_length.
    reflexivity.
Qed.

Lemma mtx_reduce_bad (m mr : mtx T) i j :
  bc = true -> ~ (S (mrows mr) = mrows m /\ S (mcols mr) = mcols m /\ i < mrows m /\ j < mcols m) ->
  mtx_reduce bc m mr i j = Ok ((- EINVAL)%Z, mr).
Proof.
  intros -> H. unfold mtx_reduce.
  destruct (S (mrows mr) =? mrows m) eqn:E1, (S (mcols mr) =? mcols m) eqn:E2; auto.
  apply Nat.eqb_eq in E1, E2. cbn [negb orb]. rewrite out_range by lia. reflexivity.
Qed.

(** ** Extrema *)

Definition elems r c (f : nat -> nat -> T) : list T :=
  map (fun k => f (k / c) (k mod c)) (seq 0 (r * c)).

Definition pick (better : T -> T -> bool) (b a : T) : T := if better a b then a else b.

Lemma mtx_extreme_ok better r c (f : nat -> nat -> T) tl :
  0 < r -> 0 < c ->
  mtx_extreme better (mat_of r c f tl) = Ok (0%Z, fold_left (pick better) (elems r c f) (f 0 0)).
Proof.
  intros Hr Hc. unfold mtx_extreme.
  change (mrows (mat_of r c f tl)) with r. change (mcols (mat_of r c f tl)) with c.
  pose proof (rd_mat f tl Hr Hc) as R0. cbn [Nat.mul Nat.add] in R0. rewrite R0. cbn [bind].
  replace (c * r) with (length (elems r c f)) by (unfold elems; rewrite map_length, seq_length; lia).
  rewrite (@for_fold _ _ (pick better) (elems r c f) (f 0 0)); [reflexivity|].
  unfold elems. rewrite map_length, seq_length. intros i s Hi.
  rewrite rd_mat_flat by auto. cbn [bind]. rewrite nth_map_seq by auto. unfold pick.
  now destruct (better _ _).
Qed.

(** first index (row-major) reached by the scan *)
Lemma mtx_extreme_idx_ok (better : T -> T -> bool) r c (f : nat -> nat -> T) tl :
  0 < r -> 0 < c ->
  let st := fold_left (fun (s : T * nat) (k' : nat) => let '(b, k) := s in
                let a := f (k' / c) (k' mod c) in if better a b then (a, k') else (b, k))
              (seq 0 (r * c)) (f 0 0, 0) in
  mtx_extreme_idx better (mat_of r c f tl) = Ok (0%Z, (snd st / c, snd st mod c)).
Proof.
  intros Hr Hc st. unfold mtx_extreme_idx.
  change (mrows (mat_of r c f tl)) with r. change (mcols (mat_of r c f tl)) with c.
  pose proof (rd_mat f tl Hr Hc) as R0. cbn [Nat.mul Nat.add] in R0. rewrite R0. cbn [bind].
  pose (stp := fun (s : T * nat) (k' : nat) => let '(b, k) := s in
                let a := f (k' / c) (k' mod c) in if better a b then (a, k') else (b, k)).
  pose (s := fun n => let x := fold_left stp (seq 0 n) (f 0 0, 0) in (fst x, (snd x / c, snd x mod c))).
  match goal with |- bind (for_ _ _ (fun i s => for_ _ _ (@?b i) s) _) _ = _ => set (body := b) end.
  assert (E0 : (f 0 0, (0, 0)) = s 0).
  { unfold s. cbn [seq fold_left fst snd]. now rewrite Nat.div_0_l, Nat.mod_0_l by lia. }
  rewrite E0.
  enough (L : for_ r 0 (fun i s => for_ c 0 (body i) s) (s 0) = Ok (s (r * c))).
  { unfold body in L. rewrite L. cbn [bind]. unfold s. reflexivity. }
  apply (@nested_for _ s r c body).
  { intros i j Hi Hj. unfold body, s at 1.
    set (x := fold_left stp (seq 0 (i * c + j)) (f 0 0, 0)). cbn zeta.
    rewrite rd_mat by auto. cbn [bind]. unfold s. rewrite seq_S, fold_left_app. fold x.
    cbn [Nat.add fold_left]. destruct x as [b k]. unfold stp at 1 2 3. cbn [fst snd].
    rewrite flat_div, flat_mod by auto. destruct (better (f i j) b); cbn [fst snd]; auto.
    now rewrite flat_div, flat_mod by auto. }
Qed.

(** ** Predicates *)

Lemma mtx_is_notneg_ok r c (f : nat -> nat -> T) tl :
  mtx_is_notneg (mat_of r c f tl) = Ok (forallb (fun x => negb (x <? f0)%num) (elems r c f)).
Proof.
  unfold mtx_is_notneg.
  change (mrows (mat_of r c f tl)) with r. change (mcols (mat_of r c f tl)) with c.
  replace (r * c) with (length (elems r c f)) by (unfold elems; rewrite map_length, seq_length; lia).
  rewrite (@for_exit_forall bool T (fun x => negb (x <? f0)%num) (fun _ => false) (elems r c f) (f 0 0)).
  - cbn [bind]. rewrite <- find_none_forallb. f_equal. now destruct (find _ _).
  - unfold elems. rewrite map_length, seq_length. intros i Hi.
    rewrite rd_mat_flat by auto. cbn [bind]. rewrite nth_map_seq by auto.
    now destruct (_ <? _)%num.
Qed.

Lemma forallb_elems r c (f : nat -> nat -> T) p :
  forallb p (elems r c f) = true <-> (forall i j, i < r -> j < c -> p (f i j) = true).
Proof.
  unfold elems. rewrite forallb_forall. split.
  - intros H i j Hi Hj. apply H. apply in_map_iff. exists (i * c + j).
    rewrite flat_div, flat_mod by auto. split; auto. apply in_seq. pose proof (flat_lt Hi Hj). lia.
  - intros H x Hx. apply in_map_iff in Hx. destruct Hx as (k & <- & Hk). apply in_seq in Hk.
    destruct (@flat_bounds r c k) as (A & B & _); [lia|]. auto.
Qed.

Definition asym (a b : T) : bool := ((a - b) >=? flit 1 6)%num || ((a - b) <=? - flit 1 6)%num.

Lemma for_exit_scan S R (P : nat -> S -> Prop) (test : nat -> bool) (bad : R) n lo
   (body : nat -> S -> outcome (S + R)) s :
  P lo s ->
  (forall i s, lo <= i < lo + n -> P i s ->
     if test i then exists s', body i s = Ok (inl s') /\ P (Datatypes.S i) s'
     else body i s = Ok (inr bad)) ->
  (forallb test (seq lo n) = true -> exists s', for_exit n lo body s = Ok (inl s') /\ P (lo + n) s') /\
  (forallb test (seq lo n) = false -> for_exit n lo body s = Ok (inr bad)).
Proof.
  revert lo s; induction n as [|n IH]; intros lo s H0 Hs; cbn [for_exit seq forallb].
  - split; [|discriminate]. intros _. exists s. rewrite Nat.add_0_r. auto.
  - pose proof (Hs lo s) as H1. destruct (test lo) eqn:Et; cbn [andb].
    + destruct H1 as (s1 & E & HP); [lia|auto|]. rewrite E. cbn [bind].
      destruct (IH (Datatypes.S lo) s1 HP) as (A & B).
      { intros. apply Hs; auto; lia. }
      replace (lo + Datatypes.S n) with (Datatypes.S lo + n) by lia. split; auto.
    + split; [discriminate|]. intros _. rewrite H1 by (auto; lia). reflexivity.
Qed.

Lemma mtx_is_sym_ok n (f : nat -> nat -> T) tl :
  exists b, mtx_is_sym bc (mat_of n n f tl) = Ok b /\
  (b = true <-> forall i j, i < n -> j < n -> asym (f i j) (f j i) = false).
Proof.
  unfold mtx_is_sym.
  change (mrows (mat_of n n f tl)) with n. change (mcols (mat_of n n f tl)) with n.
  set (M := mat_of n n f tl).
  set (trow := fun i => forallb (fun j => negb (asym (f i j) (f j i))) (seq 0 n)).
  match goal with |- context [for_exit n 0 ?b (None, None)] => set (body := b) end.
  destruct (@for_exit_scan _ _ (fun _ _ => True) trow false n 0 body (None, None)) as (A & B); auto.
  - intros i [x y] Hi _. unfold body.
    match goal with |- context [for_exit n 0 ?b (x, y)] => set (inner := b) end.
    destruct (@for_exit_scan _ _ (fun _ _ => True) (fun j => negb (asym (f i j) (f j i))) false n 0 inner (x, y))
      as (A & B); auto.
    + intros j [x' y'] Hj _. unfold inner, M. rewrite !lget_mat by lia. cbn [bind lval].
      fold (asym (f i j) (f j i)). destruct (asym (f i j) (f j i)); cbn [negb]; eauto.
    + destruct (trow i) eqn:Et; [destruct (A Et) as (s & E & _); eauto|auto].
  - exists (forallb trow (seq 0 n)). split.
    + destruct (forallb trow (seq 0 n)) eqn:E.
      * destruct (A eq_refl) as (s & -> & _). reflexivity.
      * rewrite (B eq_refl). reflexivity.
    + rewrite forallb_forall. split.
      * intros H i j Hi Hj. assert (Hin : In i (seq 0 n)) by (apply in_seq; lia).
        specialize (H i Hin). unfold trow in H. rewrite forallb_forall in H.
        assert (Hin2 : In j (seq 0 n)) by (apply in_seq; lia).
        specialize (H j Hin2). now apply negb_true_iff in H.
      * intros H i Hi. unfold trow. apply forallb_forall. intros j Hj.
        apply in_seq in Hi, Hj. rewrite H by lia. reflexivity.
Qed.

(** memcmp looks at the first rows + cols elements only *)
Lemma mtx_is_equal_prefix r c (f g : nat -> nat -> T) ta tb :
  r + c <= r * c ->
  exists b, mtx_is_equal (mat_of r c f ta) (mat_of r c g tb) = Ok b /\
  (b = true <-> forall i j, i < r -> j < c -> i * c + j < r + c -> fbits (f i j) (g i j) = true).
Proof.
  intros Hrc. unfold mtx_is_equal.
  change (mrows (mat_of r c f ta)) with r. change (mcols (mat_of r c f ta)) with c.
  change (mrows (mat_of r c g tb)) with r. change (mcols (mat_of r c g tb)) with c.
  rewrite !Nat.eqb_refl. cbn [negb orb].
  set (t := fun k => fbits (f (k / c) (k mod c)) (g (k / c) (k mod c))).
  match goal with |- context [for_exit _ 0 ?b tt] => set (body := b) end.
  destruct (@for_exit_scan _ _ (fun _ _ => True) t false (r + c) 0 body tt) as (A & B); auto.
  - intros k [] Hk _. unfold body. rewrite !rd_mat_flat by lia. cbn [bind].
    fold (t k). destruct (t k); eauto.
  - exists (forallb t (seq 0 (r + c))). split.
    + destruct (forallb t (seq 0 (r + c))) eqn:E.
      * destruct (A eq_refl) as (s & -> & _). reflexivity.
      * rewrite (B eq_refl). reflexivity.
    + rewrite forallb_forall. split.
      * intros H i j Hi Hj Hk. assert (Hin : In (i * c + j) (seq 0 (r + c))) by (apply in_seq; lia).
        specialize (H _ Hin). unfold t in H. now rewrite flat_div, flat_mod in H by auto.
      * intros H k Hk. apply in_seq in Hk. unfold t.
        destruct (@flat_bounds r c k) as (A1 & B1 & C1); [lia|]. apply H; auto. lia.
Qed.

Lemma mtx_is_equal_shape (ma mb : mtx T) :
  ~ (mrows ma = mrows mb /\ mcols ma = mcols mb) -> mtx_is_equal ma mb = Ok false.
Proof.
  intros H. unfold mtx_is_equal.
  destruct (mrows ma =? mrows mb) eqn:E1, (mcols ma =? mcols mb) eqn:E2; auto.
  apply Nat.eqb_eq in E1, E2. lia.
Qed.

End MtxOpsFacts.
