(** Householder reflections and diagonal augmentation over the reals. *)
From Coq Require Import List Arith ZArith Bool Lia Reals Lra.
From Verif Require Import Base BaseFacts NumR SpecVec SpecReal SpecMtx MVec MMtx MDecomp
  PVec PVecR PMtx PMtxOps PMtxR PFvec PGram.
Import ListNotations.
Set Implicit Arguments.
Local Open Scope R_scope.

Definition rid (i j : nat) : R := if (i =? j)%nat then 1 else 0.
Lemma mid_rid i j : @mid R NumR i j = rid i j.
Proof. reflexivity. Qed.

(** Padding with the identity in the upper left corner *)
Definition augm (d : nat) (g : nat -> nat -> R) (i j : nat) : R :=
  if (i <? d)%nat || (j <? d)%nat then rid i j else g (i - d)%nat (j - d)%nat.

(** I - 2 u u^T *)
Definition reflect (u : nat -> R) (i j : nat) : R := rid i j - 2 * u i * u j.

Section H.
Variable bc : bool.
Implicit Types f g : nat -> nat -> R.

Lemma augm_diag_ok p n g tg h :
  (p <= n)%nat -> room n n h ->
  mtx_augm_diag bc (mat_of p p g tg) h = Ok (0%Z, mat_of n n (augm (n - p) g) (rest h)).
Proof.
  intros Hp Hh. unfold mtx_augm_diag. rewrite mtx_init_identity with (r := n) (c := n) by auto. cbn [bind].
  change (mrows (mat_of p p g tg)) with p.
  change (mrows (mat_of n n (@mid R NumR) (rest h))) with n.
  assert (En : (n <? p)%nat = false) by (apply Nat.ltb_ge; exact Hp). rewrite !En. clear En.
  set (H := fun i0 j0 a b => if ((n - p <=? a) && (n - p <=? b) &&
     ((a - (n - p) <? i0) || ((a - (n - p) =? i0) && (b - (n - p) <? j0))))%nat
     then g (a - (n - p))%nat (b - (n - p))%nat else rid a b).
  match goal with |- context [for_ p 0 ?b _] => set (body := b) end.
  destruct (@for_inv _ (fun i (s : mtx R * option R) => fst s = mat_of n n (H i 0%nat) (rest h)) p 0%nat body
     (mat_of n n (@mid R NumR) (rest h), None)) as ((m' & x') & E & Em).
  - cbn [fst]. apply mat_ext. intros a b Ha Hb. unfold H. rewrite mid_rid.
    destruct (Nat.ltb_spec (a - (n - p)) 0), (Nat.ltb_spec (b - (n - p)) 0); try lia.
    cbn [orb]. now rewrite !andb_false_r.
  - intros i (m1 & x1) Hi E1. cbn [fst] in E1. subst m1. unfold body.
    match goal with |- context [for_ p 0 ?b _] => set (b1 := b) end.
    destruct (@for_inv _ (fun j (s : mtx R * option R) => fst s = mat_of n n (H i j) (rest h)) p 0%nat b1
      (mat_of n n (H i 0%nat) (rest h), x1)) as ((m2 & x2) & E2 & Em2); [reflexivity| |].
    + intros j (m3 & x3) Hj E3. cbn [fst] in E3. subst m3. unfold b1.
      rewrite lget_mat by lia. cbn [bind lval]. rewrite mtx_set_mat by lia. cbn [bind].
      eexists. split; [reflexivity|]. cbn [fst]. apply mat_ext. intros a b Ha Hb.
      unfold H, fupd.
      destruct (Nat.eqb_spec a (i + (n - p))), (Nat.eqb_spec b (j + (n - p))),
        (Nat.leb_spec (n - p) a), (Nat.leb_spec (n - p) b),
        (Nat.ltb_spec (a - (n - p)) i), (Nat.eqb_spec (a - (n - p)) i),
        (Nat.ltb_spec (b - (n - p)) j), (Nat.ltb_spec (b - (n - p)) (S j)); try lia; cbn [andb orb]; auto.
      f_equal; lia.
    + rewrite E2. eexists. split; [reflexivity|]. cbn [fst] in *. rewrite Em2. apply mat_ext.
      intros a b Ha Hb. unfold H.
      destruct (Nat.leb_spec (n - p) a), (Nat.leb_spec (n - p) b),
        (Nat.ltb_spec (a - (n - p)) i), (Nat.ltb_spec (a - (n - p)) (S i)), (Nat.eqb_spec (a - (n - p)) i),
        (Nat.eqb_spec (a - (n - p)) (S i)),
        (Nat.ltb_spec (b - (n - p)) (0 + p)), (Nat.ltb_spec (b - (n - p)) 0); try lia; reflexivity.
  - rewrite E. cbn [bind fst] in *. rewrite Em. do 2 f_equal. apply mat_ext. intros a b Ha Hb.
    unfold H, augm.
    destruct (Nat.leb_spec (n - p) a), (Nat.leb_spec (n - p) b),
      (Nat.ltb_spec a (n - p)), (Nat.ltb_spec b (n - p)), (Nat.ltb_spec (a - (n - p)) (0 + p)); try lia; reflexivity.
Qed.

Lemma augm_reflect d u i j :
  augm d (reflect u) i j = reflect (fun a => if (a <? d)%nat then 0 else u (a - d)%nat) i j.
Proof.
  unfold augm, reflect, rid.
  destruct (Nat.ltb_spec i d), (Nat.ltb_spec j d); cbn [orb]; try ring.
  destruct (Nat.eqb_spec i j), (Nat.eqb_spec (i - d) (j - d)); try lia; reflexivity.
Qed.

(** the vector of the reflection *)
Definition hsign (x0 : R) : R := if Rltb x0 0 then -1 else 1.
Definition hw (n : nat) (x : nat -> R) (i : nat) : R :=
  x i - (if (i =? 0)%nat then hsign (x 0%nat) * sqrt (fdot n x x) else 0).
Definition hu (n : nat) (x : nat -> R) (i : nat) : R :=
  let w := hw n x in
  if Req_EM_T (fdot n w w) 0 then 0 else w i / sqrt (fdot n w w).

Lemma hu_unit n x : fdot n (hu n x) (hu n x) = 1 \/ (forall i, hu n x i = 0).
Proof.
  unfold hu. set (w := hw n x). cbn zeta. destruct (Req_EM_T (fdot n w w) 0); [auto|left].
  assert (P : 0 < fdot n w w) by (pose proof (fdot_self_nonneg n w); lra).
  pose proof (sqrt_lt_R0 _ P).
  unfold fdot at 1. rewrite (bigsum_ext n _ (fun i => w i * w i * / fdot n w w)).
  - rewrite <- bigsum_mult_r. fold (fdot n w w). field. lra.
  - intros i _. rewrite <- (sqrt_sqrt (fdot n w w)) at 3 by lra. field. lra.
Qed.

Lemma bigsum_split0 n (u : nat -> R) : bigsum (S n) u = u 0%nat + bigsum n (fun i => u (S i)).
Proof. induction n as [|n IH]; cbn [bigsum] in *; [ring|]. rewrite IH. ring. Qed.

Lemma fdot_hw n x v : (0 < n)%nat ->
  fdot n (hw n x) v = fdot n x v - hsign (x 0%nat) * sqrt (fdot n x x) * v 0%nat.
Proof.
  intros Hn. unfold fdot at 1. unfold hw. set (s := hsign (x 0%nat) * sqrt (fdot n x x)).
  rewrite (bigsum_ext n _ (fun i => x i * v i + -1 * (if (i =? 0)%nat then s * v i else 0))).
  - rewrite bigsum_plus, <- bigsum_mult_l, (bigsum_delta n (fun i => s * v i) 0) by lia. unfold fdot. ring.
  - intros i _. destruct (i =? 0)%nat; ring.
Qed.

Lemma hsign_sq x : hsign x * hsign x = 1.
Proof. unfold hsign. destruct (Rltb x 0); ring. Qed.

(** The reflection sends x to a multiple of the first unit vector *)
Lemma reflect_x n x i : (0 < n)%nat -> (i < n)%nat ->
  bigsum n (fun k => reflect (hu n x) i k * x k)
  = if (i =? 0)%nat then hsign (x 0%nat) * sqrt (fdot n x x) else 0.
Proof.
  intros Hn Hi. set (s := hsign (x 0%nat) * sqrt (fdot n x x)).
  transitivity (x i - 2 * hu n x i * fdot n (hu n x) x).
  { unfold reflect, rid, fdot.
    rewrite (bigsum_ext n _ (fun k => (if (k =? i)%nat then x k else 0) + (-2 * hu n x i) * (hu n x k * x k))).
    - rewrite bigsum_plus, <- bigsum_mult_l, (bigsum_delta n x i) by lia. ring.
    - intros k _. rewrite (Nat.eqb_sym i k). destruct (k =? i)%nat; ring. }
  assert (Ss : s * s = fdot n x x).
  { unfold s. replace (hsign (x 0%nat) * sqrt (fdot n x x) * (hsign (x 0%nat) * sqrt (fdot n x x)))
      with ((hsign (x 0%nat) * hsign (x 0%nat)) * (sqrt (fdot n x x) * sqrt (fdot n x x))) by ring.
    rewrite hsign_sq, sqrt_sqrt by apply fdot_self_nonneg. ring. }
  set (w := hw n x).
  assert (Wx : fdot n w x = s * s - s * x 0%nat).
  { unfold w. rewrite fdot_hw by auto. rewrite Ss. reflexivity. }
  assert (Ww : fdot n w w = 2 * fdot n w x).
  { unfold w at 1. rewrite fdot_hw by auto. fold s. rewrite fdot_comm, Wx.
    unfold w, hw. cbn [Nat.eqb]. fold s. ring. }
  assert (Ei : x i = w i + (if (i =? 0)%nat then s else 0)) by (unfold w, hw; fold s; ring).
  unfold hu. fold w. cbn zeta. destruct (Req_EM_T (fdot n w w) 0) as [Z|NZ].
  - rewrite (@fdot_self_0 n w Z i Hi) in Ei. rewrite Ei. ring.
  - assert (P : 0 < fdot n w w) by (pose proof (fdot_self_nonneg n w); lra).
    pose proof (sqrt_lt_R0 _ P) as Q.
    replace (fdot n (fun i0 => w i0 / sqrt (fdot n w w)) x) with (fdot n w x / sqrt (fdot n w w)).
    2:{ unfold fdot at 3. rewrite (bigsum_ext n _ (fun k => w k * x k * / sqrt (fdot n w w))).
        - rewrite <- bigsum_mult_r. reflexivity.
        - intros. field. lra. }
    replace (2 * (w i / sqrt (fdot n w w)) * (fdot n w x / sqrt (fdot n w w)))
      with (w i * (2 * fdot n w x) / (sqrt (fdot n w w) * sqrt (fdot n w w))) by (field; lra).
    rewrite <- Ww, sqrt_sqrt by lra. rewrite Ei. field. lra.
Qed.

(** ** The code *)
Definition hx (hess : bool) f (i : nat) : R := f (if hess then S i else i) 0%nat.
Definition hsize (hess : bool) (n : nat) : nat := if hess then (n - 1)%nat else n.

Lemma vec_get_tail n u tu :
  (2 <= n)%nat ->
  vec_get_subset bc (Z.of_nat (S n)) (fvec n u tu) 1 (Z.of_nat (n - 1)) (vec_def (n - 1))
  = Ok (0%Z, fvec (n - 1) (fun i => u (S i)) []).
Proof.
  intros Hn.
  assert (E : forall len, len = Z.of_nat (n - 1) ->
    (let ssz := if (len <? Z.of_nat (n - 1))%Z then Z.to_nat len else (n - 1)%nat in
     if (Z.of_nat (length (vbuf (fvec n u tu))) <? 1 + len)%Z then UB OOBRead
     else let! b := blit (vbuf (fvec n u tu)) (Z.to_nat 1) (fresh (n - 1)) 0 (Z.to_nat len) in
          Ok (0%Z, Vec ssz b)) = Ok (0%Z, fvec (n - 1) (fun i => u (S i)) [])).
  { intros len ->. rewrite Z.ltb_irrefl, Nat2Z.id.
    unfold fvec. cbn [vbuf]. rewrite app_length, cells_length, tab_length.
    rewrite (proj2 (Z.ltb_ge _ _)) by lia. change (Z.to_nat 1) with 1%nat.
    rewrite blit_ok by (rewrite ?app_length, ?cells_length, ?tab_length, ?fresh_length; lia).
    cbn [bind firstn app Nat.add]. rewrite (@skipn_all2 _ (n - 1) (fresh (n - 1))) by (rewrite fresh_length; lia).
    rewrite app_nil_r. do 2 f_equal. f_equal.
    destruct n as [|n]; [lia|]. rewrite tab_S. cbn [cells map app skipn].
    replace (S n - 1)%nat with n by lia.
    rewrite firstn_app. fold (cells (tab n (fun i => u (S i)))).
    rewrite firstn_all2 by (rewrite cells_length, tab_length; lia).
    rewrite cells_length, tab_length, Nat.sub_diag. cbn [firstn]. now rewrite app_nil_r. }
  unfold vec_get_subset. change (vsz (fvec n u tu)) with n. change (vsz (vec_def (n - 1))) with (n - 1)%nat.
  change (vbuf (vec_def (T := R) (n - 1))) with (fresh (T := R) (n - 1)).
  destruct bc.
  - destruct (Z.leb_spec (Z.of_nat n) 1); [lia|]. rewrite Z.mod_small by lia.
    destruct (Z.leb_spec (Z.of_nat n) (1 + Z.of_nat (n - 1))); [|lia].
    rewrite (proj2 (Z.ltb_ge _ _)) by lia. apply E. lia.
  - apply E. reflexivity.
Qed.

Lemma from_arr_col n u tu :
  mtx_from_arr (mtx_def n 1) (vbuf (fvec n u tu)) = Ok (0%Z, mat_of n 1 (fun i _ => u i) []).
Proof.
  unfold fvec. cbn [vbuf]. rewrite mtx_from_arr_ok with (r := n) (c := 1%nat);
    [|apply room_def|rewrite tab_length; lia].
  rewrite rest_def. unfold mat_of. do 3 f_equal. f_equal. f_equal. unfold tab. rewrite Nat.mul_1_r.
  apply map_ext_in. intros k Hk. now rewrite Nat.div_1_r.
Qed.

Lemma householder_ok n c f tl h (hess : bool) :
  (0 < c)%nat -> (0 < hsize hess n)%nat -> room n n h ->
  let k := hsize hess n in
  let u := hu k (hx hess f) in
  mtx_householder bc (mat_of n c f tl) h hess
  = Ok (0%Z, mat_of n n (reflect (fun a => if (a <? n - k)%nat then 0 else u (a - (n - k))%nat)) (rest h)).
Proof.
  intros Hc Hk Hh k u. unfold mtx_householder. change (mrows (mat_of n c f tl)) with n.
  assert (Hn : (0 < n)%nat) by (unfold hsize in Hk; destruct hess; lia).
  destruct (Nat.eqb_spec n 0); [lia|]. rewrite andb_false_r.
  change (if hess then (n - 1)%nat else n) with (hsize hess n). fold k. fold k in Hk.
  rewrite vec_init_def. cbn [bind].
  assert (E1 : wr (vbuf (fvec k (fun _ => 0) [])) 0 f1 = Ok (vbuf (fvec k (fun i => if (i =? 0)%nat then 1 else 0) []))).
  { unfold fvec. cbn [vbuf]. rewrite wr_cells_app by (rewrite tab_length; lia). f_equal. f_equal. f_equal.
    unfold tab. rewrite upd_map_seq by lia. reflexivity. }
  rewrite E1. clear E1. cbn [bind].
  change (Vec k (vbuf (fvec k (fun i => if (i =? 0)%nat then 1 else 0) [])))
    with (fvec k (fun i => if (i =? 0)%nat then 1 else 0) []).
  rewrite get_col_fvec by (rewrite ?fresh_length; lia). rewrite skipn_all2 by (rewrite fresh_length; lia). cbn [bind].
  change (Vec n (vbuf (fvec n (fun i => f i 0%nat) []))) with (fvec n (fun i => f i 0%nat) []).
  assert (E2 : (if hess
      then vec_get_subset bc (Z.of_nat (S n)) (fvec n (fun i => f i 0%nat) []) 1 (Z.of_nat k) (vec_def k)
      else vec_copy (vec_def k) (fvec n (fun i => f i 0%nat) [])) = Ok (0%Z, fvec k (hx hess f) [])).
  { unfold k, hsize in *. destruct hess.
    - rewrite vec_get_tail by lia. reflexivity.
    - rewrite !fvec_vec_of. unfold vec_def. rewrite vec_copy_ok by (rewrite tab_length, fresh_length; lia).
      rewrite skipn_all2 by (rewrite tab_length, fresh_length; lia). reflexivity. }
  rewrite E2. clear E2. cbn [bind]. set (x := hx hess f) in *.
  assert (E3 : rd (vbuf (fvec k x [])) 0 = Ok (x 0%nat)).
  { unfold fvec. cbn [vbuf]. rewrite rd_cells_app with (d := 0) by (rewrite tab_length; lia).
    now rewrite nth_tab. }
  rewrite E3. clear E3. cbn [bind]. rewrite vec_norm_f. cbn [bind]. rewrite vec_scalar_mult_f. cbn [bind].
  rewrite vec_zip_d_f. cbn [bind].
  rewrite (@fvec_ext k _ (hw k x)).
  2:{ intros i Hi. unfold hw, hsign. cbn [flt fneg f1 f0 fadd fmul NumR].
      destruct (Rltb (x 0%nat) 0), (i =? 0)%nat; ring. }
  rewrite vec_norm_f. cbn [bind]. set (w := hw k x).
  assert (E4 : exists rc, vec_scalar_div (fvec k w []) (sqrt (fdot k w w)) = Ok (rc, fvec k u [])).
  { unfold u, hu. fold x. fold w. cbn zeta. destruct (Req_EM_T (fdot k w w) 0) as [Z|NZ].
    - exists (- EINVAL)%Z. rewrite Z, sqrt_0. unfold vec_scalar_div. cbn [feq f0 NumR].
      rewrite Reqb_true by reflexivity. do 2 f_equal. apply fvec_ext.
      intros i Hi. now apply (@fdot_self_0 k w Z).
    - exists 0%Z. apply vec_scalar_div_f.
      assert (P : 0 < fdot k w w) by (pose proof (fdot_self_nonneg k w); lra).
      apply Rgt_not_eq, sqrt_lt_R0, P. }
  destruct E4 as (rc & ->). cbn [bind]. rewrite from_arr_col. cbn [bind].
  rewrite mtx_trans_ok by apply room_def. cbn [bind]. rewrite rest_def.
  rewrite mtx_mult_R by apply room_def. cbn [bind]. rewrite rest_def.
  rewrite mtx_init_identity with (r := k) (c := k) by apply room_def. cbn [bind]. rewrite rest_def.
  rewrite mtx_scalar_mult_d_ok. cbn [bind].
  unfold mtx_add. rewrite mtx_zip_ok with (h := reflect u); [|apply room_def|].
  2:{ intros i j Hi Hj. unfold op_add, mmul, reflect. cbn [bigsum fadd fmul NumR fofZ]. rewrite mid_rid. f_equal. ring. }
  cbn [bind]. rewrite rest_def. rewrite augm_diag_ok with (n := n).
  - cbn [bind]. do 2 f_equal. apply mat_ext. intros i j _ _. apply augm_reflect.
  - unfold k, hsize. destruct hess; lia.
  - exact Hh.
Qed.

End H.
