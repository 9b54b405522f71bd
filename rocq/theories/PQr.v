(** QR decomposition, Hessenberg form and QR iteration over the reals. *)
From Coq Require Import List Arith ZArith Bool Lia Reals Lra FunctionalExtensionality.
From Verif Require Import Base BaseFacts NumR SpecVec SpecReal SpecMtx SpecDecomp MVec MMtx MDecomp
  PVec PVecR PMtx PMtxOps PMtxR PFvec PGram PChol PHouse.
Import ListNotations.
Set Implicit Arguments.
Local Open Scope R_scope.

(** ** Matrix algebra on index functions *)
Definition tr (f : nat -> nat -> R) : nat -> nat -> R := fun i j => f j i.

Section Alg.
Variable n : nat.
Implicit Types f g h : nat -> nat -> R.

Lemma same_refl f : same n f f.
Proof. intros i j _ _. reflexivity. Qed.
Lemma same_sym f g : same n f g -> same n g f.
Proof. intros H i j Hi Hj. symmetry. now apply H. Qed.
Lemma same_trans f g h : same n f g -> same n g h -> same n f h.
Proof. intros H H' i j Hi Hj. rewrite H by auto. now apply H'. Qed.
Lemma same_mul f f' g g' : same n f f' -> same n g g' -> same n (mmul n f g) (mmul n f' g').
Proof. intros H H' i j Hi Hj. apply bigsum_ext. intros k Hk. now rewrite H, H' by auto. Qed.
Lemma same_assoc f g h : same n (mmul n (mmul n f g) h) (mmul n f (mmul n g h)).
Proof. intros i j _ _. apply mmul_assoc. Qed.
Lemma same_id_l f : same n (mmul n delta f) f.
Proof.
  intros i j Hi Hj. unfold mmul, delta.
  rewrite (bigsum_ext n _ (fun k => if (k =? i)%nat then f k j else 0)).
  - exact (bigsum_delta n (fun k => f k j) i Hi).
  - intros k _. rewrite (Nat.eqb_sym i k). destruct (k =? i)%nat; ring.
Qed.
Lemma same_id_r f : same n (mmul n f delta) f.
Proof.
  intros i j Hi Hj. unfold mmul, delta.
  rewrite (bigsum_ext n _ (fun k => if (k =? j)%nat then f i k else 0)).
  - exact (bigsum_delta n (fun k => f i k) j Hj).
  - intros k _. destruct (k =? j)%nat; ring.
Qed.
Lemma same_tr f g : same n f g -> same n (tr f) (tr g).
Proof. intros H i j Hi Hj. unfold tr. now apply H. Qed.
Lemma tr_mul f g : same n (tr (mmul n f g)) (mmul n (tr g) (tr f)).
Proof. intros i j _ _. unfold tr, mmul. apply bigsum_ext. intros. ring. Qed.

Lemma orth_eqs q : orthogonal n q <-> same n (mmul n (tr q) q) delta /\ same n (mmul n q (tr q)) delta.
Proof. unfold orthogonal, same, mmul, tr. tauto. Qed.
Lemma orth_tr q : orthogonal n q -> orthogonal n (tr q).
Proof. unfold orthogonal, tr. tauto. Qed.
Lemma orth_ext p q : same n p q -> orthogonal n p -> orthogonal n q.
Proof.
  rewrite !orth_eqs. intros H (A & B). split.
  - eapply same_trans; [|exact A]. apply same_mul; [apply same_tr|]; now apply same_sym.
  - eapply same_trans; [|exact B]. apply same_mul; [|apply same_tr]; now apply same_sym.
Qed.
Lemma orth_id : orthogonal n delta.
Proof. rewrite orth_eqs. split; [eapply same_trans; [apply same_id_r|]|eapply same_trans; [apply same_id_l|]];
  intros i j _ _; unfold tr, delta; now rewrite Nat.eqb_sym. Qed.

Lemma mul_cancel f g h : same n (mmul n f g) delta -> same n (mmul n f (mmul n g h)) h.
Proof.
  intros H. eapply same_trans; [apply same_sym, same_assoc|].
  eapply same_trans; [apply same_mul; [exact H|apply same_refl]|]. apply same_id_l.
Qed.
Lemma orth_mul p q : orthogonal n p -> orthogonal n q -> orthogonal n (mmul n p q).
Proof.
  rewrite !orth_eqs. intros (A & B) (C & D). split.
  - eapply same_trans; [apply same_mul; [apply tr_mul|apply same_refl]|].
    eapply same_trans; [apply same_assoc|].
    eapply same_trans; [apply same_mul; [apply same_refl|apply mul_cancel; exact A]|]. exact C.
  - eapply same_trans; [apply same_mul; [apply same_refl|apply tr_mul]|].
    eapply same_trans; [apply same_assoc|].
    eapply same_trans; [apply same_mul; [apply same_refl|apply mul_cancel; exact D]|]. exact B.
Qed.

Lemma reflect_sym u i j : reflect u i j = reflect u j i.
Proof. unfold reflect, rid. rewrite (Nat.eqb_sym i j). ring. Qed.

Lemma reflect_mul u f i j : (i < n)%nat ->
  mmul n (reflect u) f i j = f i j - 2 * u i * bigsum n (fun k => u k * f k j).
Proof.
  intros Hi. unfold mmul, reflect, rid.
  rewrite (bigsum_ext n _ (fun k => (if (k =? i)%nat then f k j else 0) + (-2 * u i) * (u k * f k j))).
  - rewrite bigsum_plus, <- bigsum_mult_l, (bigsum_delta n (fun k => f k j) i) by lia. ring.
  - intros k _. rewrite (Nat.eqb_sym i k). destruct (k =? i)%nat; ring.
Qed.

Lemma mul_reflect u f i j : (j < n)%nat ->
  mmul n f (reflect u) i j = f i j - 2 * u j * bigsum n (fun k => f i k * u k).
Proof.
  intros Hj. unfold mmul, reflect, rid.
  rewrite (bigsum_ext n _ (fun k => (if (k =? j)%nat then f i k else 0) + (-2 * u j) * (f i k * u k))).
  - rewrite bigsum_plus, <- bigsum_mult_l, (bigsum_delta n (fun k => f i k) j) by lia. ring.
  - intros k _. destruct (k =? j)%nat; ring.
Qed.

Lemma reflect_orth u : fdot n u u = 1 \/ (forall i, (i < n)%nat -> u i = 0) -> orthogonal n (reflect u).
Proof.
  intros H.
  assert (E : same n (mmul n (reflect u) (reflect u)) delta).
  { intros i j Hi Hj. rewrite reflect_mul by auto.
    assert (D : bigsum n (fun k => u k * reflect u k j) = u j - 2 * fdot n u u * u j).
    { rewrite (bigsum_ext n _ (fun k => (if (k =? j)%nat then u k else 0) + (-2 * u j) * (u k * u k))).
      - rewrite bigsum_plus, <- bigsum_mult_l, (bigsum_delta n u j) by lia. unfold fdot. ring.
      - intros k _. unfold reflect, rid. destruct (k =? j)%nat; ring. }
    rewrite D. unfold reflect. change (delta i j) with (rid i j).
    destruct H as [H|H]; [rewrite H; ring|]. rewrite (H i), (H j) by auto. ring. }
  rewrite orth_eqs. assert (S : same n (tr (reflect u)) (reflect u)) by (intros i j _ _; apply reflect_sym).
  split.
  - eapply same_trans; [apply same_mul; [exact S|apply same_refl]|exact E].
  - eapply same_trans; [apply same_mul; [apply same_refl|exact S]|exact E].
Qed.

End Alg.

(** A vector preceded by d zeros *)
Definition pad (d : nat) (u : nat -> R) (a : nat) : R := if (a <? d)%nat then 0 else u (a - d)%nat.

Lemma bigsum_shift d n (u : nat -> R) :
  bigsum (d + n) u = bigsum d u + bigsum n (fun i => u (d + i)%nat).
Proof.
  induction n as [|n IH]; [rewrite Nat.add_0_r; cbn [bigsum]; ring|].
  rewrite Nat.add_succ_r. cbn [bigsum]. rewrite IH. ring.
Qed.

Lemma bigsum_pad0 d n (u v : nat -> R) : (d <= n)%nat ->
  bigsum n (fun k => pad d u k * v k) = bigsum (n - d) (fun k => u k * v (d + k)%nat).
Proof.
  intros H. replace n with (d + (n - d))%nat at 1 by lia. rewrite bigsum_shift.
  rewrite (bigsum_ext d _ (fun _ => 0)).
  - rewrite bigsum_0, Rplus_0_l. apply bigsum_ext. intros k Hk. unfold pad.
    destruct (Nat.ltb_spec (d + k) d); [lia|]. now replace (d + k - d)%nat with k by lia.
  - intros k Hk. unfold pad. destruct (Nat.ltb_spec k d); [ring|lia].
Qed.

Lemma pad_unit d n u : (d <= n)%nat ->
  fdot (n - d) u u = 1 \/ (forall i, u i = 0) ->
  fdot n (pad d u) (pad d u) = 1 \/ (forall i, (i < n)%nat -> pad d u i = 0).
Proof.
  intros Hd [H|H].
  - left. unfold fdot. rewrite bigsum_pad0 by auto. rewrite <- H. apply bigsum_ext. intros k Hk.
    unfold pad. destruct (Nat.ltb_spec (d + k) d); [lia|]. now replace (d + k - d)%nat with k by lia.
  - right. intros i Hi. unfold pad. destruct (i <? d)%nat; auto.
Qed.

Lemma pad_pad a b u i : pad a (pad b u) i = pad (a + b) u i.
Proof.
  unfold pad. destruct (Nat.ltb_spec i a), (Nat.ltb_spec (i - a) b), (Nat.ltb_spec i (a + b)); try lia; auto.
  f_equal. lia.
Qed.

(** ** The reflection applied below the pattern of zeros *)
Section Step.
Variables (n g d : nat) (R0 : nat -> nat -> R).
Hypothesis Hd : (d < n)%nat.
Hypothesis Hgd : (g <= d)%nat.
Hypothesis Z : forall i j, (i < n)%nat -> (j < g)%nat -> (d - g + j < i)%nat -> R0 i j = 0.

Let u := hu (n - d) (fun i => R0 (d + i)%nat g).
Let H := reflect (pad d u).

Lemma step_orth : orthogonal n H.
Proof. apply reflect_orth, pad_unit; [lia|]. apply hu_unit. Qed.

Lemma step_zero i j : (i < n)%nat -> (j <= g)%nat -> (d - g + j < i)%nat -> mmul n H R0 i j = 0.
Proof.
  intros Hi Hj Hij. unfold H. rewrite reflect_mul by auto. rewrite bigsum_pad0 by lia.
  destruct (Nat.eq_dec j g) as [->|Nj].
  - pose proof (@reflect_x (n - d) (fun i => R0 (d + i)%nat g) (i - d)) as E.
    specialize (E ltac:(lia) ltac:(lia)). fold u in E.
    destruct (Nat.eqb_spec (i - d) 0); [lia|].
    transitivity (bigsum (n - d) (fun k => reflect u (i - d) k * R0 (d + k)%nat g)); [|exact E].
    change (bigsum (n - d) (fun k => reflect u (i - d) k * R0 (d + k)%nat g))
      with (mmul (n - d) (reflect u) (fun k _ => R0 (d + k)%nat g) (i - d) 0%nat).
    rewrite reflect_mul by lia. unfold pad. destruct (Nat.ltb_spec i d); [lia|].
    replace (d + (i - d))%nat with i by lia. reflexivity.
  - rewrite (bigsum_ext (n - d) _ (fun _ => 0)).
    + rewrite bigsum_0, Z by lia. ring.
    + intros k Hk. rewrite Z by lia. ring.
Qed.

(** multiplying from the right leaves the columns before d alone *)
Lemma step_right f i j : (j < d)%nat -> (i < n)%nat -> mmul n f H i j = f i j.
Proof.
  intros Hj Hi. unfold H. rewrite mul_reflect by lia. unfold pad.
  destruct (Nat.ltb_spec j d); [ring|lia].
Qed.
End Step.

(** ** Removing leading rows and columns *)
Section Run.
Variable bc : bool.
Implicit Types f : nat -> nat -> R.

Lemma reduce_loop_go n g f tl mred :
  (g <= n)%nat -> room (n - g) (n - g) mred ->
  forall d k fuel p1t p2b, (k <= g)%nat -> d = (g - k)%nat -> (d < fuel)%nat -> (0 < k)%nat -> (k <= n)%nat ->
  (n * n <= length p2b)%nat ->
  while_ fuel (fun '(mred, p1, p2) =>
    let! (rc, s) := mtx_reduce_iter bc (mat_of n n f tl) mred p1 p2 in
    let '(mred, p1, p2) := s in
    if (rc =? 0)%Z then Ok (inr mred) else Ok (inl (mred, p1, p2)))
    (mred, mat_of (n - k) (n - k) (fun i j => f (k + i)%nat (k + j)%nat) p1t, Mtx (n - k) (n - k) p2b)
  = Ok (mat_of (n - g) (n - g) (fun i j => f (g + i)%nat (g + j)%nat) (rest mred)).
Proof.
  intros Hg Hm d. induction d as [|d IH]; intros k fuel p1t p2b Hk Hd Hf Hk0 Hkn Hl.
  - assert (k = g) by lia. subst k. destruct fuel as [|fuel]; [lia|]. cbn [while_]. unfold mtx_reduce_iter.
    change (mrows (mat_of n n f tl)) with n.
    change (mrows (mat_of (n - g) (n - g) (fun i j => f (g + i)%nat (g + j)%nat) p1t)) with (n - g)%nat.
    destruct (Nat.eqb_spec n (n - g)); [lia|]. cbn [bind].
    change (mrows (mat_of (n - g) (n - g) (fun i j => f (g + i)%nat (g + j)%nat) p1t)) with (n - g)%nat.
    pose proof Hm as (Hr & Hc & _). rewrite Hr. rewrite Nat.eqb_refl.
    rewrite mtx_copy_ok by auto. cbn [bind Z.eqb]. reflexivity.
  - destruct fuel as [|fuel]; [lia|]. cbn [while_]. unfold mtx_reduce_iter at 1.
    change (mrows (mat_of n n f tl)) with n.
    set (p1 := mat_of (n - k) (n - k) _ p1t).
    change (mrows p1) with (n - k)%nat. change (mcols p1) with (n - k)%nat.
    destruct (Nat.eqb_spec n (n - k)); [lia|]. cbn [bind].
    change (mrows p1) with (n - k)%nat. change (mcols p1) with (n - k)%nat.
    pose proof Hm as (Hr & Hc & _). rewrite Hr.
    destruct (Nat.eqb_spec (n - k) (n - g)); [lia|].
    destruct (n - k)%nat as [|r] eqn:Er; [lia|].
    assert (Hr2 : room r r (Mtx r r p2b)).
    { split; [reflexivity|split; [reflexivity|]]. cbn [mbuf].
      apply Nat.le_trans with (n * n)%nat; auto. apply Nat.mul_le_mono; lia. }
    unfold p1. rewrite mtx_reduce_ok by (auto; lia). cbn [bind mbuf].
    assert (Hr1 : room r r (Mtx r r (mbuf (mat_of (S r) (S r) (fun i j => f (k + i)%nat (k + j)%nat) p1t)))).
    { split; [reflexivity|split; [reflexivity|]]. cbn [mbuf]. rewrite mat_otab, otab_length. nia. }
    rewrite mtx_copy_ok by exact Hr1. cbn [bind].
    change (- EAGAIN =? 0)%Z with false. cbn iota.
    set (t1 := rest (Mtx r r (mbuf _))). set (t2 := rest (Mtx r r p2b)).
    assert (Lt2 : (n * n <= length (mbuf (mat_of r r (fun a b => f (k + skip_at 0 a)%nat (k + skip_at 0 b)%nat) t2)))%nat).
    { rewrite mat_otab, otab_length. unfold t2, rest. cbn [mrows mcols mbuf]. rewrite skipn_length.
      destruct Hr2 as (_ & _ & Hr2). cbn [mbuf] in Hr2. lia. }
    specialize (IH (S k) fuel t1 _ ltac:(lia) ltac:(lia) ltac:(lia) ltac:(lia) ltac:(lia) Lt2).
    replace (n - S k)%nat with r in IH by lia.
    match goal with |- context [mat_of r r ?a t1] =>
      replace (mat_of r r a t1) with (mat_of r r (fun i j => f (S k + i)%nat (S k + j)%nat) t1)
    end.
    + exact IH.
    + apply mat_ext. intros i j Hi Hj. cbn [skip_at]. unfold skip_at. cbn [Nat.ltb Nat.leb].
      f_equal; lia.
Qed.

Lemma reduce_loop_ok n g f tl mred p1 p2 fuel :
  (g <= n)%nat -> (n < fuel)%nat -> room (n - g) (n - g) mred -> room n n p1 -> room n n p2 ->
  reduce_loop bc fuel (mat_of n n f tl) mred p1 p2
  = Ok (mat_of (n - g) (n - g) (fun i j => f (g + i)%nat (g + j)%nat) (rest mred)).
Proof.
  intros Hg Hf Hm H1 H2. unfold reduce_loop. destruct fuel as [|fuel]; [lia|]. cbn [while_].
  unfold mtx_reduce_iter at 1. change (mrows (mat_of n n f tl)) with n. change (mcols (mat_of n n f tl)) with n.
  pose proof H1 as (Hr1 & Hc1 & Hl1). rewrite Hr1. rewrite Nat.eqb_refl.
  rewrite mtx_copy_ok by auto. cbn [bind].
  change (mrows (mat_of n n f (rest p1))) with n. change (mcols (mat_of n n f (rest p1))) with n.
  pose proof Hm as (Hrm & _). rewrite Hrm.
  destruct (Nat.eqb_spec n (n - g)) as [E|N].
  - destruct (Nat.eq_dec g 0) as [->|Ng].
    + rewrite Nat.sub_0_r in *. rewrite mtx_copy_ok by auto. reflexivity.
    + assert (n = 0%nat) by lia. lia.
  - destruct n as [|r]; [lia|].
    pose proof H2 as (Hr2 & Hc2 & Hl2).
    assert (Q2 : room r r (Mtx r r (mbuf p2))).
    { split; [reflexivity|split; [reflexivity|]]. cbn [mbuf]. nia. }
    rewrite mtx_reduce_ok by (auto; lia). cbn [bind mbuf].
    assert (Q1 : room r r (Mtx r r (mbuf (mat_of (S r) (S r) f (rest p1))))).
    { split; [reflexivity|split; [reflexivity|]]. cbn [mbuf]. rewrite mat_otab, otab_length. nia. }
    rewrite mtx_copy_ok by exact Q1. cbn [bind]. change (- EAGAIN =? 0)%Z with false. cbn iota.
    set (t1 := rest (Mtx r r (mbuf (mat_of _ _ _ _)))). set (t2 := rest (Mtx r r (mbuf p2))).
    assert (Lt2 : (S r * S r <= length (mbuf (mat_of r r (fun a b => f (skip_at 0 a)%nat (skip_at 0 b)%nat) t2)))%nat).
    { rewrite mat_otab, otab_length. unfold t2, rest. cbn [mrows mcols mbuf]. rewrite skipn_length. nia. }
    pose proof (@reduce_loop_go (S r) g f tl mred Hg Hm (g - 1) 1%nat fuel t1 _ ltac:(lia) ltac:(lia) ltac:(lia)
      ltac:(lia) ltac:(lia) Lt2) as IH.
    replace (S r - 1)%nat with r in IH by lia.
    match goal with |- context [mat_of r r ?a t1] =>
      replace (mat_of r r a t1) with (mat_of r r (fun i j => f (1 + i)%nat (1 + j)%nat) t1)
    end.
    + exact IH.
    + apply mat_ext. intros i j Hi Hj. unfold skip_at. cbn [Nat.ltb Nat.leb Nat.add]. reflexivity.
Qed.


(** ** The decomposition *)

(** What the loop has reached before round g: qt is orthogonal, r = qt * m
    (or qt * m * qt^T), zeros in the first g columns. *)
Definition reached (hess : bool) n f g (qt r : nat -> nat -> R) : Prop :=
  orthogonal n qt /\
  same n r (if hess then mmul n (mmul n qt f) (tr qt) else mmul n qt f) /\
  (forall i j, (i < n)%nat -> (j < g)%nat -> ((if hess then 1 else 0) + j < i)%nat -> r i j = 0) /\
  (hess = true -> forall i, (i < n)%nat -> qt i 0%nat = delta i 0).

Lemma reflect_ext u v : (forall i, u i = v i) -> forall i j, reflect u i j = reflect v i j.
Proof. intros H i j. unfold reflect. now rewrite !H. Qed.

Lemma qrd_ok n f tl q r hess :
  (0 < n)%nat -> room n n q -> room n n r ->
  exists q' r', mtx_qrd bc (mat_of n n f tl) q r hess = Ok (0%Z, (mat_of n n q' (rest q), mat_of n n r' (rest r)))
  /\ reached hess n f (n - 1) (tr q') r'.
Proof.
  intros Hn Hq Hr. unfold mtx_qrd.
  change (mrows (mat_of n n f tl)) with n. change (mcols (mat_of n n f tl)) with n.
  rewrite mtx_init_empty with (r := n) (c := n) by apply room_def. cbn [bind]. rewrite rest_def.
  rewrite mtx_init_identity with (r := n) (c := n) by apply room_def. cbn [bind]. rewrite rest_def.
  rewrite mtx_copy_ok by auto. cbn [bind].
  destruct n as [|n1]; [lia|]. set (n := S n1) in *.
  match goal with |- context [for_ n1 0 ?b _] => set (body := b) end.
  destruct (@for_inv _ (fun g (s : mtx R * mtx R * mtx R * mtx R * mtx R * mtx R) =>
     let '(h, qt, r1, r2, h2, hs) := s in
     room n n h /\ room n n r2 /\ room n n h2 /\ room n n hs /\
     exists qf rf, qt = mat_of n n qf [] /\ r1 = mat_of n n rf (rest r) /\ reached hess n f g qf rf)
     n1 0%nat body (mat_of n n (fun _ _ => f0) [], mat_of n n (@mid R NumR) [], mat_of n n f (rest r),
        mtx_def n n, mtx_def n n, mtx_def n n))
     as ((((((h & qt) & r1) & r2) & h2) & hs) & E & _ & _ & _ & _ & qf & rf & -> & -> & HR).
  - split; [apply mat_room|]. split; [apply room_def|]. split; [apply room_def|]. split; [apply room_def|].
    exists (@mid R NumR), f. split; [reflexivity|]. split; [reflexivity|].
    assert (O : orthogonal n (@mid R NumR)) by exact (orth_id n).
    split; [exact O|]. split; [|split; [intros; lia|intros _ i _; rewrite mid_rid; reflexivity]].
    assert (S1 : same n f (mmul n (@mid R NumR) f)) by exact (same_sym (same_id_l (n := n) f)).
    destruct hess; [|exact S1].
    eapply same_trans; [exact S1|].
    eapply same_trans; [exact (same_sym (same_id_r (n := n) _))|].
    apply same_mul; [apply same_refl|]. intros i j _ _. unfold tr. rewrite mid_rid. unfold delta, rid.
    now rewrite Nat.eqb_sym.
  - intros g (((((h & qt) & r1) & r2) & h2) & hs) Hg (Hh & Hr2 & Hh2 & Hhs & qf & rf & -> & -> & O & HE & HZ & HC).
    unfold body. destruct (Nat.ltb_spec n g) as [?|_]; [lia|].
    change (mrows (mat_of n n rf (rest r))) with n. change (mcols (mat_of n n rf (rest r))) with n.
    rewrite reduce_loop_ok with (g := g) by (try apply room_def; lia). cbn [bind]. rewrite rest_def.
    assert (Hs : (0 < hsize hess (n - g))%nat) by (unfold hsize; destruct hess; lia).
    rewrite householder_ok; [|lia|exact Hs|apply room_def]. cbn [bind]. rewrite rest_def.
    rewrite augm_diag_ok with (n := n); [|lia|exact Hh]. cbn [bind].
    replace (n - (n - g))%nat with g by lia.
    set (d := if hess then S g else g).
    set (u := hu (n - d) (fun i => rf (d + i)%nat g)).
    set (H := reflect (pad d u)).
    assert (EH : forall t, mat_of n n (augm g (reflect (fun a =>
       if (a <? n - g - hsize hess (n - g))%nat then 0
       else hu (hsize hess (n - g)) (hx hess (fun i j => rf (g + i)%nat (g + j)%nat)) (a - (n - g - hsize hess (n - g)))))) t
       = mat_of n n H t).
    { intros t. apply mat_ext. intros i j Hi Hj. rewrite augm_reflect. unfold H. apply reflect_ext.
      intros a. unfold u, d, hsize, hx, pad. destruct hess.
      - replace (n - g - (n - g - 1))%nat with 1%nat by lia.
        destruct (Nat.ltb_spec a g), (Nat.ltb_spec (a - g) 1), (Nat.ltb_spec a (S g)); try lia; auto.
        replace (n - g - 1)%nat with (n - S g)%nat by lia. replace (a - g - 1)%nat with (a - S g)%nat by lia.
        f_equal.  extensionality z. f_equal; lia.
      - rewrite Nat.sub_diag. destruct (Nat.ltb_spec a g), (Nat.ltb_spec (a - g) 0); try lia; auto.
        rewrite !Nat.sub_0_r. f_equal. extensionality z. f_equal; lia. }
    rewrite EH. rewrite mtx_mult_R by exact Hr2. cbn [bind].
    rewrite mtx_mult_R by exact Hh2. cbn [bind].
    rewrite mtx_copy_ok by apply mat_room. cbn [bind]. rewrite mat_rest.
    assert (Hd : (d < n)%nat) by (unfold d; destruct hess; lia).
    assert (Hgd : (g <= d)%nat) by (unfold d; destruct hess; lia).
    assert (OH : orthogonal n H) by exact (step_orth rf Hd Hgd).
    assert (ZZ : forall i j, (i < n)%nat -> (j <= g)%nat -> (d - g + j < i)%nat -> mmul n H rf i j = 0).
    { apply (step_zero rf Hd Hgd). intros i j Hi Hj Hij. apply HZ; auto. unfold d in Hij. destruct hess; lia. }
    assert (OQ : orthogonal n (mmul n H qf)) by (apply orth_mul; auto).
    assert (TH : same n (tr H) H) by (intros i j _ _; apply reflect_sym).
    destruct hess.
    + rewrite mtx_mult_R by exact Hhs. cbn [bind]. rewrite mtx_copy_ok by apply mat_room. cbn [bind].
      rewrite mat_rest. eexists. split; [reflexivity|].
      split; [apply mat_room|]. split; [apply mat_room|]. split; [apply mat_room|]. split; [apply mat_room|].
      eexists. eexists. split; [reflexivity|]. split; [reflexivity|]. split; [exact OQ|]. split.
      * eapply same_trans; [apply same_mul; [apply same_mul; [apply same_refl|exact HE]|apply same_refl]|].
        eapply same_trans.
        2:{ apply same_mul; [apply same_refl|]. apply same_sym, tr_mul. }
        eapply same_trans.
        2:{ apply same_mul; [apply same_sym, same_assoc|].
            apply same_mul; [apply same_refl|apply same_sym; exact TH]. }
        eapply same_trans; [|apply same_assoc].
        apply same_mul; [|apply same_refl].
        eapply same_trans; [apply same_sym, same_assoc|].
        apply same_refl.
      * split. 2:{ intros _ i Hi. transitivity (mmul n H delta i 0%nat).
                   - apply bigsum_ext. intros k Hk. now rewrite HC.
                   - rewrite (same_id_r H) by lia. unfold H, reflect, pad, d.
                     replace (0 <? S g)%nat with true by reflexivity. unfold rid, delta. ring. }
        intros i j Hi Hj Hij. destruct (Nat.eq_dec j g) as [->|].
        -- unfold H at 1; rewrite (step_right rf Hd Hgd) by (unfold d; lia). apply ZZ; unfold d; lia.
        -- unfold H at 1; rewrite (step_right rf Hd Hgd) by (unfold d; lia). apply ZZ; unfold d; lia.
    + rewrite mtx_copy_ok by apply mat_room. cbn [bind].
      rewrite mat_rest. eexists. split; [reflexivity|].
      split; [apply mat_room|]. split; [apply mat_room|]. split; [apply mat_room|]. split; [exact Hhs|].
      eexists. eexists. split; [reflexivity|]. split; [reflexivity|]. split; [exact OQ|]. split.
      * eapply same_trans; [apply same_mul; [apply same_refl|exact HE]|]. apply same_sym, same_assoc.
      * split; [|discriminate]. intros i j Hi Hj Hij. apply ZZ; unfold d; lia.
  - rewrite E. cbn [bind]. rewrite mtx_trans_ok by exact Hq. cbn [bind].
    exists (tr qf), rf. split; [reflexivity|]. replace (n - 1)%nat with n1 by lia. exact HR.
Qed.

Lemma qrd_triangular n f tl q r :
  (0 < n)%nat -> room n n q -> room n n r ->
  exists q' r', mtx_qrd bc (mat_of n n f tl) q r false
     = Ok (0%Z, (mat_of n n q' (rest q), mat_of n n r' (rest r)))
  /\ orthogonal n q' /\ upper_triangular n r' /\ same n (mmul n q' r') f.
Proof.
  intros Hn Hq Hr. destruct (@qrd_ok n f tl q r false Hn Hq Hr) as (q' & r' & E & O & HE & HZ & HC).
  exists q', r'. split; [exact E|]. split; [exact (orth_tr O)|]. split.
  - intros i j Hi Hj. apply HZ; lia.
  - eapply same_trans; [apply same_mul; [apply same_refl|exact HE]|].
    apply mul_cancel. apply orth_eqs in O. exact (proj1 O).
Qed.

Lemma qrd_hessenberg n f tl q r :
  (0 < n)%nat -> room n n q -> room n n r ->
  exists q' r', mtx_qrd bc (mat_of n n f tl) q r true
     = Ok (0%Z, (mat_of n n q' (rest q), mat_of n n r' (rest r)))
  /\ orthogonal n q' /\ upper_hessenberg n r' /\ same n (mmul n (mmul n q' r') (tr q')) f
  /\ (forall j, (j < n)%nat -> q' 0%nat j = delta j 0).
Proof.
  intros Hn Hq Hr. destruct (@qrd_ok n f tl q r true Hn Hq Hr) as (q' & r' & E & O & HE & HZ & HC).
  exists q', r'. split; [exact E|]. split; [exact (orth_tr O)|].
  apply orth_eqs in O. destruct O as (OA & OB). change (tr (tr q')) with q' in *. split; [|split].
  - intros i j Hi Hj. apply HZ; lia.
  - eapply same_trans; [apply same_mul; [apply same_mul; [apply same_refl|exact HE]|apply same_refl]|].
    eapply same_trans.
    { apply same_mul; [|apply same_refl].
      apply same_mul; [apply same_refl|]. apply same_assoc. }
    eapply same_trans; [apply same_mul; [apply mul_cancel; exact OA|apply same_refl]|].
    eapply same_trans; [apply same_assoc|].
    eapply same_trans; [apply same_mul; [apply same_refl|exact OA]|]. apply same_id_r.
  - exact (HC eq_refl).
Qed.

(** On an upper triangular matrix every reflection is the identity. *)
Lemma hu_zero k x :
  (forall i, (0 < i < k)%nat -> x i = 0) -> forall i, hu k x i = 0.
Proof.
  intros H.
  assert (W : fdot k (hw k x) (hw k x) = 0).
  { unfold fdot. rewrite <- (bigsum_0 k). apply bigsum_ext. intros i Hi.
    replace (hw k x i) with 0; [ring|]. unfold hw. destruct (Nat.eqb_spec i 0) as [->|N].
    - replace (fdot k x x) with (x 0%nat * x 0%nat).
      2:{ unfold fdot. destruct k as [|k]; [lia|]. rewrite bigsum_split0.
          rewrite (@bigsum_ext k _ (fun _ => 0)); [rewrite bigsum_0; ring|].
          intros a Ha. rewrite H by lia. ring. }
      change (x 0%nat * x 0%nat) with (Rsqr (x 0%nat)). rewrite sqrt_Rsqr_abs. unfold hsign, Rltb. destruct (Rlt_dec (x 0%nat) 0).
      + rewrite Rabs_left by auto. ring.
      + rewrite Rabs_right by lra. ring.
    - rewrite H by lia. ring. }
  intros i. unfold hu. cbv zeta. destruct (Req_EM_T _ 0); [reflexivity|contradiction].
Qed.

Lemma qrd_fixed n f tl q r hess :
  (0 < n)%nat -> room n n q -> room n n r -> upper_triangular n f ->
  mtx_qrd bc (mat_of n n f tl) q r hess = Ok (0%Z, (mat_of n n delta (rest q), mat_of n n f (rest r))).
Proof.
  intros Hn Hq Hr HU. unfold mtx_qrd.
  change (mrows (mat_of n n f tl)) with n. change (mcols (mat_of n n f tl)) with n.
  rewrite mtx_init_empty with (r := n) (c := n) by apply room_def. cbn [bind]. rewrite rest_def.
  rewrite mtx_init_identity with (r := n) (c := n) by apply room_def. cbn [bind]. rewrite rest_def.
  rewrite mtx_copy_ok by auto. cbn [bind].
  destruct n as [|n1]; [lia|]. set (n := S n1) in *.
  match goal with |- context [for_ n1 0 ?b _] => set (body := b) end.
  assert (EI : mat_of n n (@mid R NumR) [] = mat_of n n delta []).
  { apply mat_ext. intros i j _ _. rewrite mid_rid. reflexivity. }
  destruct (@for_inv _ (fun g (s : mtx R * mtx R * mtx R * mtx R * mtx R * mtx R) =>
     let '(h, qt, r1, r2, h2, hs) := s in
     room n n h /\ room n n r2 /\ room n n h2 /\ room n n hs /\
     qt = mat_of n n delta [] /\ r1 = mat_of n n f (rest r))
     n1 0%nat body (mat_of n n (fun _ _ => f0) [], mat_of n n (@mid R NumR) [], mat_of n n f (rest r),
        mtx_def n n, mtx_def n n, mtx_def n n))
     as ((((((h & qt) & r1) & r2) & h2) & hs) & E & _ & _ & _ & _ & -> & ->).
  - split; [apply mat_room|]. split; [apply room_def|]. split; [apply room_def|]. split; [apply room_def|]. auto.
  - intros g (((((h & qt) & r1) & r2) & h2) & hs) Hg (Hh & Hr2 & Hh2 & Hhs & -> & ->).
    unfold body. destruct (Nat.ltb_spec n g) as [?|_]; [lia|].
    change (mrows (mat_of n n f (rest r))) with n. change (mcols (mat_of n n f (rest r))) with n.
    rewrite reduce_loop_ok with (g := g) by (try apply room_def; lia). cbn [bind]. rewrite rest_def.
    assert (Hs : (0 < hsize hess (n - g))%nat) by (unfold hsize; destruct hess; lia).
    rewrite householder_ok; [|lia|exact Hs|apply room_def]. cbn [bind]. rewrite rest_def.
    rewrite augm_diag_ok with (n := n); [|lia|exact Hh]. cbn [bind].
    replace (n - (n - g))%nat with g by lia.
    assert (U0 : forall i, hu (hsize hess (n - g)) (hx hess (fun i j => f (g + i)%nat (g + j)%nat)) i = 0).
    { apply hu_zero. intros i Hi. unfold hx, hsize in *. destruct hess; apply HU; lia. }
    assert (EH : forall t, mat_of n n (augm g (reflect (fun a =>
       if (a <? n - g - hsize hess (n - g))%nat then 0
       else hu (hsize hess (n - g)) (hx hess (fun i j => f (g + i)%nat (g + j)%nat)) (a - (n - g - hsize hess (n - g)))))) t
       = mat_of n n delta t).
    { intros t. apply mat_ext. intros i j Hi Hj. rewrite augm_reflect. unfold reflect. rewrite !U0.
      unfold rid, delta.
      repeat match goal with |- context [if (_ <? _)%nat then _ else _] => destruct (_ <? _)%nat end; ring. }
    rewrite EH. rewrite mtx_mult_R by exact Hr2. cbn [bind].
    rewrite mtx_mult_R by exact Hh2. cbn [bind].
    rewrite mtx_copy_ok by apply mat_room. cbn [bind]. rewrite mat_rest.
    assert (E1 : forall t, mat_of n n (mmul n delta f) t = mat_of n n f t).
    { intros t. apply mat_ext. exact (same_id_l (n := n) f). }
    assert (E2 : forall t, mat_of n n (mmul n delta delta) t = mat_of n n delta t).
    { intros t. apply mat_ext. exact (same_id_l (n := n) delta). }
    rewrite !E1, !E2.
    destruct hess.
    + rewrite mtx_mult_R by exact Hhs. cbn [bind]. rewrite mtx_copy_ok by apply mat_room. cbn [bind].
      rewrite mat_rest. eexists. split; [reflexivity|].
      split; [apply mat_room|]. split; [apply mat_room|]. split; [apply mat_room|]. split; [apply mat_room|].
      split; [reflexivity|]. apply mat_ext. exact (same_id_r (n := n) f).
    + rewrite mtx_copy_ok by apply mat_room. cbn [bind].
      rewrite mat_rest. eexists. split; [reflexivity|].
      split; [apply mat_room|]. split; [apply mat_room|]. split; [apply mat_room|]. split; [exact Hhs|].
      split; reflexivity.
  - rewrite E. cbn [bind]. rewrite mtx_trans_ok by exact Hq. cbn [bind].
    do 3 f_equal. apply mat_ext. intros i j _ _. unfold delta. now rewrite Nat.eqb_sym.
Qed.

Lemma qrd_iter_fixed n f tl mo iter :
  (0 < n)%nat -> room n n mo -> upper_triangular n f ->
  mtx_qrd_iter bc (mat_of n n f tl) mo iter = Ok (0%Z, mat_of n n f (rest mo)).
Proof.
  intros Hn Hm HU. unfold mtx_qrd_iter. rewrite mtx_copy_ok by auto. cbn [bind Z.eqb negb].
  change (mrows (mat_of n n f tl)) with n.
  match goal with |- context [for_ iter 1 ?b _] => set (body := b) end.
  destruct (@for_inv _ (fun g (s : mtx R * mtx R * mtx R) =>
     let '(mo1, q, r) := s in room n n q /\ room n n r /\ mo1 = mat_of n n f (rest mo))
     iter 1%nat body (mat_of n n f (rest mo), mtx_def n n, mtx_def n n))
     as (((mo1 & q) & r) & E & _ & _ & ->).
  - split; [apply room_def|]. split; [apply room_def|]. reflexivity.
  - intros i ((mo1 & q) & r) Hi (Hq & Hr & ->). unfold body.
    rewrite qrd_fixed by auto.
    cbn [bind]. rewrite mtx_mult_R by apply mat_room. cbn [bind]. rewrite mat_rest.
    eexists. split; [reflexivity|]. split; [apply mat_room|]. split; [apply mat_room|].
    apply mat_ext. exact (same_id_r (n := n) f).
  - rewrite E. reflexivity.
Qed.

(** One reflection through the API *)
Lemma householder_spec n c f tl h (hess : bool) :
  let d := if hess then 1%nat else 0%nat in
  (0 < c)%nat -> (d < n)%nat -> room n n h ->
  exists g, mtx_householder bc (mat_of n c f tl) h hess = Ok (0%Z, mat_of n n g (rest h))
  /\ orthogonal n g /\ (forall i j, g i j = g j i)
  /\ (forall i, (d < i < n)%nat -> bigsum n (fun k => g i k * f k 0%nat) = 0)
  /\ (forall i j, (i < d)%nat -> g i j = delta i j).
Proof.
  intros d Hc Hd Hh.
  assert (Hk : (n - hsize hess n)%nat = d) by (unfold hsize, d in *; destruct hess; lia).
  assert (Hs : hsize hess n = (n - d)%nat) by (unfold hsize, d in *; destruct hess; lia).
  assert (Hx : hx hess f = fun i => f (d + i)%nat 0%nat).
  { extensionality i. unfold hx, d. destruct hess; f_equal; lia. }
  assert (Hd0 : (0 <= d)%nat) by lia.
  pose proof (step_orth f Hd Hd0) as SO. pose proof (step_zero f Hd Hd0) as SZ.
  set (u := hu (n - d) (fun i => f (d + i)%nat 0%nat)) in *.
  exists (reflect (pad d u)). split; [|split; [|split; [|split]]].
  - rewrite householder_ok; auto; [|lia]. rewrite Hk, Hs, Hx. reflexivity.
  - exact SO.
  - intros i j. apply reflect_sym.
  - intros i Hi. apply (SZ ltac:(intros; lia) i 0%nat); lia.
  - intros i j Hi. unfold reflect, pad. destruct (Nat.ltb_spec i d); [|lia]. unfold rid, delta. ring.
Qed.

(** ** QR iteration *)
Lemma qrd_iter_ok n f tl mo iter :
  (0 < n)%nat \/ iter = 0%nat -> room n n mo ->
  exists p g, mtx_qrd_iter bc (mat_of n n f tl) mo iter = Ok (0%Z, mat_of n n g (rest mo))
  /\ orthogonal n p /\ same n g (mmul n (mmul n (tr p) f) p).
Proof.
  intros Hn Hm. unfold mtx_qrd_iter. rewrite mtx_copy_ok by auto. cbn [bind Z.eqb negb].
  change (mrows (mat_of n n f tl)) with n.
  match goal with |- context [for_ iter 1 ?b _] => set (body := b) end.
  destruct (@for_inv _ (fun g (s : mtx R * mtx R * mtx R) =>
     let '(mo1, q, r) := s in room n n q /\ room n n r /\
     exists p g, mo1 = mat_of n n g (rest mo) /\ orthogonal n p /\ same n g (mmul n (mmul n (tr p) f) p))
     iter 1%nat body (mat_of n n f (rest mo), mtx_def n n, mtx_def n n))
     as (((mo1 & q) & r) & E & _ & _ & p & g & -> & O & HE).
  - split; [apply room_def|]. split; [apply room_def|]. exists delta, f. split; [reflexivity|].
    split; [apply orth_id|]. eapply same_trans; [|apply same_sym, same_id_r].
    eapply same_trans; [apply same_sym, same_id_l|]. apply same_mul; [|apply same_refl].
    intros i j _ _. unfold tr, delta. now rewrite Nat.eqb_sym.
  - intros i ((mo1 & q) & r) Hi (Hq & Hr & p & g & -> & O & HE). unfold body.
    destruct (@qrd_triangular n g (rest mo) q r) as (q' & r' & -> & Oq & _ & HF); auto; [lia|].
    cbn [bind]. rewrite mtx_mult_R by apply mat_room. cbn [bind]. rewrite mat_rest.
    eexists. split; [reflexivity|]. split; [apply mat_room|]. split; [apply mat_room|].
    exists (mmul n p q'), (mmul n r' q'). split; [reflexivity|]. split; [apply orth_mul; auto|].
    (* r' = q'^T g *)
    apply orth_eqs in Oq. destruct Oq as (OA & OB).
    assert (HRq : same n r' (mmul n (tr q') g)).
    { eapply same_trans; [apply same_sym, (mul_cancel (f := tr q') (g := q') r' OA)|].
      apply same_mul; [apply same_refl|exact HF]. }
    eapply same_trans; [apply same_mul; [exact HRq|apply same_refl]|].
    eapply same_trans; [apply same_mul; [apply same_mul; [apply same_refl|exact HE]|apply same_refl]|].
    eapply same_trans; [apply same_mul; [apply same_sym, same_assoc|apply same_refl]|].
    eapply same_trans; [apply same_assoc|].
    apply same_mul; [|apply same_refl].
    eapply same_trans; [apply same_sym, same_assoc|].
    apply same_mul; [|apply same_refl]. apply same_sym, tr_mul.
  - rewrite E. cbn [bind]. exists p, g. auto.
Qed.

End Run.
