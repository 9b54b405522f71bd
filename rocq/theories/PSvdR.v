(** The singular value decomposition and the pseudo-inverse of square and tall
    matrices, over the reals: what every run that answers has computed. *)
From Coq Require Import List Arith ZArith Bool Lia Reals Lra.
From Verif Require Import Base BaseFacts NumR SpecVec SpecReal SpecMtx SpecDecomp SpecSvd MVec MMtx MDecomp
  PVec PVecR PMtx PMtxOps PMtxR PFvec PChol PSvd RTac.
Import ListNotations.
Set Implicit Arguments.
Local Open Scope R_scope.

Lemma for_post S (P : nat -> S -> Prop) n lo (body : nat -> S -> outcome S) s s' :
  for_ n lo body s = Ok s' -> P lo s ->
  (forall i s s', (lo <= i < lo + n)%nat -> P i s -> body i s = Ok s' -> P (Datatypes.S i) s') -> P (lo + n)%nat s'.
Proof.
  revert lo s. induction n as [|n IH]; intros lo s E H0 Hs.
  - cbn in E. injection E as <-. now rewrite Nat.add_0_r.
  - cbn [for_] in E. apply bind_inv in E. destruct E as (s1 & E1 & E2).
    replace (lo + Datatypes.S n)%nat with (Datatypes.S lo + n)%nat by lia.
    eapply IH; [exact E2| |].
    + eapply Hs; [|exact H0|exact E1]. lia.
    + intros i a b Hi. apply Hs. lia.
Qed.

Section S.
Variable bc : bool.

(** a column write that answers wrote every element of the column *)
Lemma set_col_inv r c (F : nat -> nat -> option R) tl j v rc m' : (j < c)%nat ->
  mtx_set_col bc (otab r c F tl) j v = Ok (rc, m') ->
  exists x, m' = otab r c (fun a b => if (b =? j)%nat then Some (x a) else F a b) tl.
Proof.
  intros Hj E. unfold mtx_set_col in E. change (mrows (otab r c F tl)) with r in E.
  apply bind_inv in E. destruct E as (q & E & E2).
  assert (L : forall n lo (x : nat -> R) q, (lo + n = r)%nat ->
    for_exit n lo (fun i m => let! x := rd v i in
              let! (rc, m') := mtx_set bc m i j x in
              if (rc =? 0)%Z then Ok (inl m') else Ok (inr (rc, m')))
      (otab r c (fun a b => if (b =? j)%nat && (a <? lo)%nat then Some (x a) else F a b) tl) = Ok q ->
    exists x, q = inl (otab r c (fun a b => if (b =? j)%nat then Some (x a) else F a b) tl)).
  { clear q E E2. induction n as [|n IH]; intros lo x q Hn E; cbn [for_exit] in E.
    - injection E as <-. exists x. f_equal. apply otab_ext. intros a b Ha Hb.
      assert (lo = r) as -> by lia. assert (H : (a <? r)%nat = true) by now apply Nat.ltb_lt. rewrite H, andb_true_r. reflexivity.
    - apply bind_inv in E. destruct E as (s & E1 & E). apply bind_inv in E1. destruct E1 as (y & _ & E1).
      rewrite mtx_set_otab in E1 by lia. cbn [bind Z.eqb] in E1. injection E1 as <-.
      apply (IH (Datatypes.S lo) (fun a => if (a =? lo)%nat then y else x a) q); [lia|].
      rewrite <- E. f_equal. apply otab_ext. intros a b Ha Hb. unfold fupd.
      destruct (Nat.eqb_spec b j) as [->|Hb']; cbn [andb]; [|now rewrite andb_false_r].
      rewrite andb_true_r.
      destruct (Nat.eqb_spec a lo) as [->|Ha'].
      + assert (H : (lo <? Datatypes.S lo)%nat = true) by (apply Nat.ltb_lt; lia). now rewrite H.
      + destruct (Nat.ltb_spec a (Datatypes.S lo)), (Nat.ltb_spec a lo); try lia; reflexivity. }
  destruct (L r 0%nat (fun _ => 0) q) as (x & ->); [lia| |].
  - rewrite <- E. f_equal. apply otab_ext. intros a b _ _. now rewrite andb_false_r.
  - exists x. now injection E2 as _ <-.
Qed.

Lemma tiny_false s : 1 / 1000000 <= s -> is_tiny s = false.
Proof.
  intros H. unfold is_tiny. lits. rops.
  destruct (Rltb_spec s (1 / 1000000)); try lra. rewrite andb_false_r. cbn [orb].
  destruct (Rleb_spec s 0); [lra|reflexivity].
Qed.

(** element i of a buffer, 0 if there is none *)
Definition cell_val (b : buf R) (i : nat) : R := match rd b i with Ok x => x | _ => 0 end.


(** what a run that answers has left in e, u and v *)
Lemma svd_run fuel row0 col0 mida midb r c M tlm u0 e0 v0 iter rc u e v :
  (c <= r)%nat -> room r r u0 -> room r c e0 ->
  mtx_svd bc fuel row0 col0 mida midb (mat_of r c M tlm) u0 e0 v0 iter = Ok (rc, (u, e, v)) ->
  exists z1 k z2,
    mtx_eigenvalues bc fuel row0 col0 (mat_of c c (mmul r (fun i j => M j i) M) []) (vec_def c) iter = Ok (z1, k)
    /\ mtx_eigenvectors bc fuel row0 col0 mida (mat_of c c (mmul r (fun i j => M j i) M) []) v0 iter true = Ok (z2, v)
    /\ let s := fun i => sqrt (cell_val (vbuf k) i) in
       (forall i, (i < c)%nat -> 0 <= cell_val (vbuf k) i)
    /\ e = mat_of r c (diag_of s) (rest e0)
    /\ (forall V tlv, v = mat_of c c V tlv -> (forall k, (k < c)%nat -> 1 / 1000000 <= s k) ->
        exists U, u = mat_of r r U (rest u0)
        /\ forall i j, (i < r)%nat -> (j < c)%nat -> U i j = bigsum c (fun k => M i k * V k j) * (1 / s j)).
Proof.
  intros Hc Hu He E. unfold mtx_svd in E.
  change (mrows (mat_of r c M tlm)) with r in E. change (mcols (mat_of r c M tlm)) with c in E.
  rewrite mtx_trans_ok in E by apply room_def. cbn [bind] in E.
  rewrite mtx_mult_R in E by apply room_def. cbn [bind] in E.
  rewrite mtx_mult_R in E by apply room_def. cbn [bind] in E.
  assert (Hm : (if (r <=? c)%nat then r else c) = c) by (destruct (Nat.leb_spec r c); lia).
  rewrite Hm in E. rewrite Nat.ltb_irrefl in E.
  apply bind_inv in E. destruct E as ((z1 & ev) & Eev & E).
  rewrite (mtx_init_empty bc (r := r) (c := c)) in E by auto. cbn [bind] in E.
  apply bind_inv in E. destruct E as (e1 & Ee & E).
  set (s := fun k => sqrt (cell_val (vbuf ev) k)).
  assert (He1 : (forall i, (i < c)%nat -> 0 <= cell_val (vbuf ev) i) /\ e1 = mat_of r c (diag_of s) (rest e0)).
  { pose proof (@for_post _ (fun k e => (forall i, (i < k)%nat -> 0 <= cell_val (vbuf ev) i) /\ e = mat_of r c (fun i j => if (i <? k)%nat then diag_of s i j else 0) (rest e0)) _ _ _ _ _ Ee) as H.
    cbn beta in H. destruct H as (Hpos & ->).
    - split; [intros; lia|]. apply mat_ext. intros. reflexivity.
    - intros k a b Hk (Hp & ->) Eb. apply bind_inv in Eb. destruct Eb as (x & Ex & Eb).
      apply bind_inv in Eb. destruct Eb as (y & Ey & Eb).
      assert (Ev : cell_val (vbuf ev) k = x) by (unfold cell_val; now rewrite Ex).
      assert (Exy : 0 <= x /\ y = sqrt x).
      { revert Ey. rops. unfold Rsqrto. destruct (Rle_dec 0 x); [|discriminate]. injection 1 as <-. auto. }
      destruct Exy as (Px & ->). split.
      { intros i Hi. destruct (Nat.eq_dec i k) as [->|N]; [now rewrite Ev|apply Hp; lia]. }
      rewrite mtx_set_mat in Eb by lia. cbn [bind] in Eb. injection Eb as <-.
      apply mat_ext. intros i j Hi Hj. unfold fupd, diag_of.
      destruct (Nat.eqb_spec i k) as [->|Hik]; cbn [andb].
      + assert (H : (k <? Datatypes.S k)%nat = true) by (apply Nat.ltb_lt; lia). rewrite H.
        destruct (Nat.eqb_spec j k) as [->|Hj'].
        * rewrite Nat.eqb_refl. unfold s. now rewrite Ev.
        * rewrite Nat.ltb_irrefl. destruct (Nat.eqb_spec k j); [lia|auto].
      + destruct (Nat.ltb_spec i k), (Nat.ltb_spec i (Datatypes.S k)); try lia; auto.
    - split; [exact Hpos|]. apply mat_ext. intros i j Hi Hj. destruct (Nat.ltb_spec i (0 + c)%nat); auto.
      unfold diag_of. destruct (Nat.eqb_spec i j); [lia|auto]. }
  destruct He1 as (Hpos & ->).
  apply bind_inv in E. destruct E as ((z2 & v1) & Evv & E).
  apply bind_inv in E. destruct E as (st & Est & E).
  destruct st as (((((u1 & pu) & b1) & b2) & b3) & b4).
  apply bind_inv in E. destruct E as ((z3 & upri) & _ & E).
  apply bind_inv in E. destruct E as ((u2 & hu) & E3 & E).
  injection E as <- <- <- <-.
  rewrite rest_def in Eev, Evv. exists z1, ev, z2. split; [exact Eev|]. split; [exact Evv|]. cbv zeta. split; [exact Hpos|]. split; [reflexivity|].
  fold s. clear Eev Evv. intros V tlv -> Hs.
  change (forall k, (k < c)%nat -> 1 / 1000000 <= s k) in Hs. destruct (room_otab Hu) as (F & EF). rewrite EF in Est. set (tu := rest u0) in *. clearbody tu.
  set (W := fun i j => bigsum c (fun k => M i k * V k j) * (1 / s j)).
  pose proof (@for_post _ (fun k st => let '(u, pu, ui, ui2, ui3, d) := st in
     pu = 0%nat /\ u = otab r r (fun a b => if (b <? k)%nat then Some (W a b) else F a b) tu /\
     (r <= length ui)%nat /\ room c 1 ui2 /\ room r 1 ui3) _ _ _ _ _ Est) as H. cbn beta iota in H.
  destruct H as (-> & -> & _).
  { split; auto. split; [apply otab_ext; reflexivity|]. split; [unfold fresh; rewrite repeat_length; lia|].
    split; apply room_def. }
  { clear - Hc Hs. intros k (((((u & pu) & ui) & ui2) & ui3) & d) st Hk (-> & -> & Hui & H2 & H3) Eb.
    rewrite mtx_get_col_ok in Eb by lia. cbn [bind] in Eb.
    rewrite (mtx_from_arr_ok (r := c) (c := 1%nat)) in Eb; [|exact H2|unfold col_of; rewrite map_length, seq_length; lia].
    cbn [bind] in Eb. rewrite lget_mat in Eb by lia. cbn [bind] in Eb.
    assert (Ecol : Mtx c 1 (cells (col_of c V k) ++ rest ui2) = mat_of c 1 (fun i _ => V i k) (rest ui2)).
    { unfold mat_of. f_equal. f_equal. f_equal. unfold col_of. rewrite Nat.mul_1_r. apply map_ext. intros i.
      now rewrite Nat.div_1_r. }
    rewrite Ecol in Eb. rewrite mtx_mult_R in Eb by auto. cbn [bind lval] in Eb.
    assert (Ed : diag_of s k k = s k) by (unfold diag_of; now rewrite Nat.eqb_refl).
    rewrite Ed, tiny_false in Eb by (apply Hs; lia).
    assert (Hk0 : s k <> 0) by (pose proof (Hs k ltac:(lia)); lra).
    assert (Edv : fdiv (@f1 R NumR) (s k) = Ok (1 / s k)).
    { rops. unfold Rdivo. destruct (Req_EM_T (s k) 0); [contradiction|]. reflexivity. }
    rewrite Edv in Eb. cbn [bind] in Eb. rewrite mtx_scalar_mult_d_ok in Eb. cbn [bind] in Eb.
    set (w := fun i => W i k).
    assert (Ew : mbuf (mat_of r 1 (fun i j => (mmul c M (fun i _ => V i k) i j * (1 / s k))%num) (rest ui3)) = cells (tab r w) ++ rest ui3).
    { unfold mat_of, tab. cbn [mbuf]. rewrite Nat.mul_1_r. f_equal. f_equal. apply map_ext. intros i.
      rewrite Nat.div_1_r. reflexivity. }
    rewrite Ew in Eb. rewrite vec_from_arr_ok in Eb.
    2: now rewrite tab_length.
    2:{ rewrite app_length, skipn_length. unfold cells. rewrite map_length. unfold col_of. rewrite map_length, seq_length. lia. }
    cbn [bind vbuf] in Eb.
    change (cells (tab r w) ++ ?t) with (vbuf (fvec r w t)) in Eb.
    rewrite set_col_fvec in Eb by lia. cbn [bind] in Eb. injection Eb as <-.
    split; auto. split.
    { apply otab_ext. intros a b Ha Hb. destruct (Nat.eqb_spec b k) as [->|Hb'].
      - assert (H : (k <? Datatypes.S k)%nat = true) by (apply Nat.ltb_lt; lia). now rewrite H.
      - destruct (Nat.ltb_spec b k), (Nat.ltb_spec b (Datatypes.S k)); try lia; auto. }
    split.
    { unfold fvec. cbn [vbuf]. rewrite app_length. unfold cells. rewrite map_length, tab_length. lia. }
    split; [|].
    - unfold room, mat_of. cbn [mrows mcols mbuf]. split; auto. split; auto. rewrite app_length. unfold cells.
      rewrite !map_length, seq_length. lia.
    - unfold room, mat_of. cbn [mrows mcols mbuf]. split; auto. split; auto. rewrite app_length. unfold cells.
      rewrite !map_length, seq_length. lia. }
  rewrite Nat.add_0_l, Nat.sub_0_r in E3.
  unfold for_range in E3.
  pose proof (@for_post _ (fun k st => exists U, fst st = otab r r (fun a b => if (b <? k)%nat then Some (U a b) else F a b) tu /\
     forall i j, (j < c)%nat -> U i j = W i j) _ _ _ _ _ E3) as H. cbn beta in H.
  destruct H as (U & EU & HU).
  { exists W. split; auto. }
  { clear - Hc. intros k (ua & ha) (ub & hb) Hk (U & EU & HU) Eb. cbn [fst] in EU |- *. subst ua.
    apply bind_inv in Eb. destruct Eb as ((z & h2) & _ & Eb).
    apply bind_inv in Eb. destruct Eb as ((z' & ub') & Eb & E). injection E as <- <-.
    apply set_col_inv in Eb; [|lia]. destruct Eb as (x & ->).
    exists (fun a b => if (b =? k)%nat then x a else U a b). split.
    - apply otab_ext. intros a b Ha Hb. destruct (Nat.eqb_spec b k) as [->|Hb'].
      + assert (H : (k <? Datatypes.S k)%nat = true) by (apply Nat.ltb_lt; lia). now rewrite H.
      + destruct (Nat.ltb_spec b k), (Nat.ltb_spec b (Datatypes.S k)); try lia; auto.
    - intros i j Hj. destruct (Nat.eqb_spec j k); [lia|]. now apply HU. }
  cbn [fst] in EU. exists U. split.
  - rewrite EU. apply otab_mat. intros a b Ha Hb. destruct (Nat.ltb_spec b (c + (r - c))%nat); [auto|lia].
  - intros i j Hi Hj. now apply HU.
Qed.

End S.

(** ** Algebra *)

Lemma mmul_ext n f f' g g' i j : (forall k, (k < n)%nat -> f i k = f' i k) -> (forall k, (k < n)%nat -> g k j = g' k j) ->
  mmul n f g i j = mmul n f' g' i j.
Proof. intros H1 H2. apply bigsum_ext. intros k Hk. now rewrite H1, H2. Qed.

Lemma mmul_delta_l n g i j : (i < n)%nat -> mmul n delta g i j = g i j.
Proof.
  intros Hi. unfold mmul, delta. rewrite (@bigsum_ext n _ (fun k => if (k =? i)%nat then g k j else 0)).
  - now apply (bigsum_delta n (fun k => g k j)).
  - intros k _. rewrite (Nat.eqb_sym i k). destruct (k =? i)%nat; lra.
Qed.

Lemma mmul_delta_r n f i j : (j < n)%nat -> mmul n f delta i j = f i j.
Proof.
  intros Hj. unfold mmul, delta. rewrite (@bigsum_ext n _ (fun k => if (k =? j)%nat then f i k else 0)).
  - now apply (bigsum_delta n (fun k => f i k)).
  - intros k _. destruct (k =? j)%nat; lra.
Qed.

Definition tr (f : nat -> nat -> R) : nat -> nat -> R := fun i j => f j i.

Section A.
Variables (r c : nat) (M U V : nat -> nat -> R) (s : nat -> R).
Hypothesis HV : orthogonal c V.
Hypothesis Hs : forall k, (k < c)%nat -> s k <> 0.
Hypothesis HU : forall i j, (i < r)%nat -> (j < c)%nat -> U i j = bigsum c (fun k => M i k * V k j) * (1 / s j).

Lemma svd_product_ok : svd_product r c M U s V.
Proof.
  intros i j Hi Hj.
  rewrite (@bigsum_ext c _ (fun k => mmul c M V i k * tr V k j)).
  - change (mmul c (mmul c M V) (tr V) i j = M i j). rewrite mmul_assoc.
    rewrite (@mmul_ext c M M (mmul c V (tr V)) delta) by (auto; intros k Hk; unfold mmul, tr; now apply (proj2 HV)).
    now apply mmul_delta_r.
  - intros k Hk. rewrite HU by auto. unfold tr, mmul. field. auto.
Qed.

Lemma svd_columns : gram_eigenvectors r c M s V -> orthonormal_columns r c U.
Proof.
  intros HE i j Hi Hj.
  rewrite (@bigsum_ext r _ (fun l => tr (mmul c M V) i l * mmul c M V l j * (/ s i * / s j))).
  2:{ intros l Hl. rewrite !HU by auto. unfold tr, mmul. field. auto. }
  rewrite <- bigsum_mult_r. change (mmul r (tr (mmul c M V)) (mmul c M V) i j * (/ s i * / s j) = delta i j).
  assert (E : mmul r (tr (mmul c M V)) (mmul c M V) i j = mmul c (tr V) (mmul c (mmul r (tr M) M) V) i j).
  { rewrite (@mmul_ext r (tr (mmul c M V)) (mmul c (tr V) (tr M)) (mmul c M V) (mmul c M V)); auto.
    - rewrite mmul_assoc. apply mmul_ext; auto. intros k Hk. now rewrite mmul_assoc.
    - intros k _. apply bigsum_ext. intros. unfold tr. ring. }
  rewrite E. rewrite (@mmul_ext c (tr V) (tr V) _ (fun a b => s j * s j * V a b)); auto.
  2:{ intros k Hk. apply (HE k j Hk Hj). }
  unfold mmul, tr.
  rewrite (@bigsum_ext c _ (fun k => V k i * V k j * (s j * s j))) by (intros; ring).
  rewrite <- bigsum_mult_r, (proj1 HV) by auto. unfold delta. destruct (Nat.eqb_spec i j) as [->|]; [field; auto|ring].
Qed.

Definition pinv_of : nat -> nat -> R := fun i j => bigsum c (fun k => V i k * (1 / s k) * U j k).

Lemma pinv_left : orthonormal_columns r c U -> forall i j, (i < c)%nat -> (j < c)%nat -> mmul r pinv_of M i j = delta i j.
Proof.
  intros HO i j Hi Hj.
  set (A := fun a k => V a k * (1 / s k)). set (B := fun a k => U a k * s k).
  rewrite (@mmul_ext r pinv_of (mmul c A (tr U)) M (mmul c B (tr V))).
  - rewrite mmul_assoc. rewrite (@mmul_ext c A A _ (mmul c (mmul r (tr U) B) (tr V))) by (auto; intros; now rewrite mmul_assoc).
    rewrite (@mmul_ext c A A _ (fun k j => s k * V j k)); auto.
    + unfold mmul, A. rewrite (@bigsum_ext c _ (fun k => V i k * V j k)); [now apply (proj2 HV)|]. intros k Hk. field. auto.
    + intros k Hk. unfold mmul at 1.
      rewrite (@bigsum_ext c _ (fun l => if (l =? k)%nat then s l * V j l else 0)).
      * now apply (bigsum_delta c (fun l => s l * V j l)).
      * intros l Hl. unfold mmul, tr, B.
        rewrite (@bigsum_ext r _ (fun a => U a k * U a l * s l)) by (intros; ring).
        rewrite <- bigsum_mult_r, HO by auto. unfold delta. rewrite (Nat.eqb_sym k l). destruct (l =? k)%nat; ring.
  - intros k Hk. reflexivity.
  - intros k Hk. rewrite <- svd_product_ok by auto. reflexivity.
Qed.

Lemma pinv_right i j : (i < r)%nat -> (j < r)%nat -> mmul c M pinv_of i j = bigsum c (fun k => U i k * U j k).
Proof.
  intros Hi Hj.
  set (A := fun a k => V a k * (1 / s k)). set (B := fun a k => U a k * s k).
  rewrite (@mmul_ext c M (mmul c B (tr V)) pinv_of (mmul c A (tr U))).
  - rewrite mmul_assoc. rewrite (@mmul_ext c B B _ (mmul c (mmul c (tr V) A) (tr U))) by (auto; intros; now rewrite mmul_assoc).
    rewrite (@mmul_ext c B B _ (fun k j => 1 / s k * U j k)); auto.
    + unfold mmul, B. apply bigsum_ext. intros k Hk. field. auto.
    + intros k Hk. unfold mmul at 1.
      rewrite (@bigsum_ext c _ (fun l => if (l =? k)%nat then 1 / s l * U j l else 0)).
      * now apply (bigsum_delta c (fun l => 1 / s l * U j l)).
      * intros l Hl. unfold mmul, tr, A.
        rewrite (@bigsum_ext c _ (fun a => V a k * V a l * (1 / s l))) by (intros; ring).
        rewrite <- bigsum_mult_r, (proj1 HV) by auto. unfold delta. rewrite (Nat.eqb_sym k l). destruct (l =? k)%nat; lra.
  - intros k Hk. rewrite <- svd_product_ok by auto. reflexivity.
  - intros k Hk. reflexivity.
Qed.

Lemma pinv_penrose : orthonormal_columns r c U -> pseudo_inverse r c M pinv_of.
Proof.
  intros HO. pose proof (pinv_left HO) as HL. split; [|split; [|split]].
  - intros i j Hi Hj. rewrite mmul_assoc. rewrite (@mmul_ext c M M _ delta); auto. now apply mmul_delta_r.
  - intros i j Hi Hj. rewrite (@mmul_ext c _ delta pinv_of pinv_of); auto. now apply mmul_delta_l.
  - intros i j Hi Hj. rewrite !pinv_right by auto. apply bigsum_ext. intros. ring.
  - intros i j Hi Hj. rewrite !HL by auto. unfold delta. now rewrite Nat.eqb_sym.
Qed.

End A.

(** the pseudo-inverse is built from the decomposition *)
Lemma pinv_run bc fuel row0 col0 mida midb r c M tlm p0 iter rc p :
  (c <= r)%nat -> room c r p0 ->
  mtx_pinv bc fuel row0 col0 mida midb (mat_of r c M tlm) p0 iter = Ok (rc, p) ->
  exists z u e v,
    mtx_svd bc fuel row0 col0 mida midb (mat_of r c M tlm) (mtx_def r r) (mtx_def r c) (mtx_def c c) iter = Ok (z, (u, e, v))
    /\ forall U s V tu te tv, u = mat_of r r U tu -> e = mat_of r c (diag_of s) te -> v = mat_of c c V tv ->
       (forall k, (k < c)%nat -> s k <> 0) -> p = mat_of c r (pinv_of c U V s) (rest p0).
Proof.
  intros Hc Hp E. unfold mtx_pinv in E.
  change (mrows (mat_of r c M tlm)) with r in E. change (mcols (mat_of r c M tlm)) with c in E.
  apply bind_inv in E. destruct E as ((z & ((u & e) & v)) & E1 & E). exists z, u, e, v. split; [exact E1|].
  clear E1. intros U s V tu te tv -> -> -> Hs.
  rewrite mtx_trans_ok in E by apply room_def. cbn [bind] in E.
  assert (Hm : (if (r <=? c)%nat then r else c) = c) by (destruct (Nat.leb_spec r c); lia).
  rewrite Hm in E. apply bind_inv in E. destruct E as ((e1 & x1) & Ee & E).
  assert (He1 : e1 = mat_of r c (diag_of (fun k => 1 / s k)) te).
  { pose proof (@for_post _ (fun k st => fst st = mat_of r c (diag_of (fun i => if (i <? k)%nat then 1 / s i else s i)) te) _ _ _ _ _ Ee) as H.
    cbn [fst] in H. rewrite H; clear H.
    - apply mat_ext. intros i j Hi Hj. unfold diag_of. destruct (Nat.eqb_spec i j); auto. destruct (Nat.ltb_spec i (0 + c)%nat); [auto|lia].
    - reflexivity.
    - intros k (ea & xa) (eb & xb) Hk Ea Eb. cbn [fst] in Ea |- *. subst ea.
      rewrite lget_mat in Eb by lia. cbn [bind lval] in Eb.
      assert (Ed : diag_of (fun i => if (i <? k)%nat then 1 / s i else s i) k k = s k)
        by (unfold diag_of; now rewrite Nat.eqb_refl, Nat.ltb_irrefl).
      rewrite Ed in Eb.
      assert (Et : ((s k <? flit 1 6) || (s k >? - flit 1 6))%num = true).
      { lits. rops. apply orb_true_iff. destruct (Rltb_spec (s k) (1 / 1000000)); auto. right.
        destruct (Rltb_spec (- (1 / 1000000)) (s k)); auto; lra. }
      rewrite Et in Eb.
      assert (Edv : fdiv (@f1 R NumR) (s k) = Ok (1 / s k)).
      { rops. unfold Rdivo. destruct (Req_EM_T (s k) 0); [exfalso; apply (Hs k); [lia|auto]|]. reflexivity. }
      rewrite Edv in Eb. cbn [bind] in Eb. rewrite mtx_set_mat in Eb by lia. cbn [bind] in Eb. injection Eb as <- _.
      apply mat_ext. intros i j Hi Hj. unfold fupd, diag_of.
      destruct (Nat.eqb_spec i k) as [->|Hik]; cbn [andb].
      + assert (H : (k <? Datatypes.S k)%nat = true) by (apply Nat.ltb_lt; lia). rewrite H.
        rewrite (Nat.eqb_sym k j). destruct (Nat.eqb_spec j k); auto.
      + destruct (Nat.ltb_spec i k), (Nat.ltb_spec i (Datatypes.S k)); try lia; auto. }
  subst e1. rewrite mtx_trans_ok in E by apply room_def. cbn [bind] in E.
  rewrite mtx_mult_R in E by apply room_def. cbn [bind] in E.
  rewrite mtx_mult_R in E by auto. cbn [bind] in E. injection E as _ <-.
  apply mat_ext. intros i j Hi Hj. unfold pinv_of, mmul at 1.
  assert (L : forall k, (k < r)%nat -> mmul c V (fun i j => diag_of (fun k => 1 / s k) j i) i k = if (k <? c)%nat then V i k * (1 / s k) else 0).
  { intros k Hk. unfold mmul, diag_of.
    destruct (Nat.ltb_spec k c) as [H|H].
    - rewrite (@bigsum_ext c _ (fun a => if (a =? k)%nat then V i a * (1 / s k) else 0)).
      + now apply (bigsum_delta c (fun a => V i a * (1 / s k))).
      + intros a _. rewrite (Nat.eqb_sym k a). destruct (a =? k)%nat; lra.
    - rewrite (@bigsum_ext c _ (fun _ => 0)); [apply bigsum_0|]. intros a Ha. destruct (Nat.eqb_spec k a); [lia|lra]. }
  rewrite (@bigsum_ext r _ (fun k => (if (k <? c)%nat then V i k * (1 / s k) else 0) * U j k)) by (intros k Hk; now rewrite L).
  transitivity (bigsum c (fun k => (if (k <? c)%nat then V i k * (1 / s k) else 0) * U j k)).
  - apply bigsum_cut; auto. intros k Hk. destruct (Nat.ltb_spec k c); [lia|lra].
  - apply bigsum_ext. intros k Hk. destruct (Nat.ltb_spec k c); [auto|lia].
Qed.
