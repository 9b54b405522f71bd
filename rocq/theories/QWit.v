(** Checking the hypotheses on concrete data by computing with rationals:
    the elimination of SpecGauss and the independence of columns. *)
From Coq Require Import List Arith Bool Lia QArith Qabs Qreals Reals Lra.
From Verif Require Import SpecReal SpecGauss SpecDecomp SpecStat PMtxR.
Import ListNotations.
Set Implicit Arguments.
Local Open Scope Q_scope.

Definition ent (g : list (list Q)) (a b : nat) : Q := nth b (nth a g []) 0.
Definition tab (n m : nat) (f : nat -> nat -> Q) : list (list Q) :=
  map (fun a => map (f a) (seq 0 m)) (seq 0 n).

Lemma nth_map_seq A (f : nat -> A) n a d : (a < n)%nat -> nth a (map f (seq 0 n)) d = f a.
Proof.
  intros H. rewrite (nth_indep _ d (f 0%nat)) by (now rewrite map_length, seq_length).
  now rewrite map_nth, seq_nth by auto.
Qed.

Lemma ent_tab n m f a b : (a < n)%nat -> (b < m)%nat -> ent (tab n m f) a b = f a b.
Proof. intros Ha Hb. unfold ent, tab. rewrite nth_map_seq by auto. now rewrite nth_map_seq. Qed.

Definition stepq (n k : nat) (g : list (list Q)) : list (list Q) :=
  tab n n (fun a b => Qred (if (a =? k)%nat then ent g k b / ent g k k
                            else ent g a b - ent g a k / ent g k k * ent g k b)).

Definition colq (n k : nat) (g : list (list Q)) : bool :=
  negb (Qeq_bool (ent g k k) 0)
  && forallb (fun i => Qeq_bool (ent g i k) 0 || Qle_bool (1 # 1000000) (Qabs (ent g i k))) (seq 0 n).

Fixpoint clearq (n k left : nat) (g : list (list Q)) : bool :=
  match left with
  | O => true
  | S l => colq n k g && clearq n (S k) l (stepq n k g)
  end.

Lemma Q2R_Qred x : Q2R (Qred x) = Q2R x.
Proof. apply Qeq_eqR, Qred_correct. Qed.

Lemma Q2R_abs x : Q2R (Qabs x) = Rabs (Q2R x).
Proof.
  destruct (Qlt_le_dec x 0) as [H|H].
  - rewrite (Qeq_eqR _ _ (Qabs_neg x (Qlt_le_weak _ _ H))), Q2R_opp, Rabs_left; auto.
    apply Qlt_Rlt in H. replace (Q2R 0) with 0%R in H by (unfold Q2R; cbn; lra). exact H.
  - rewrite (Qeq_eqR _ _ (Qabs_pos x H)), Rabs_right; auto.
    apply Qle_Rle in H. replace (Q2R 0) with 0%R in H by (unfold Q2R; cbn; lra). lra.
Qed.

Lemma Q2R_0' : Q2R 0 = 0%R. Proof. unfold Q2R. cbn. lra. Qed.

Lemma Q2R_nz x : Qeq_bool x 0 = false -> ~ x == 0.
Proof. intros H E. apply Qeq_bool_iff in E. congruence. Qed.

Lemma clearq_ok n f : forall left k g,
  (k + left = n)%nat ->
  (forall a b, (a < n)%nat -> (b < n)%nat -> gj n k f a b = Q2R (ent g a b)) ->
  clearq n k left g = true ->
  forall k' i, (k <= k' < n)%nat -> (i < n)%nat ->
    gj n k' f i k' = 0%R \/ (/ 1000000 <= Rabs (gj n k' f i k'))%R.
Proof.
  induction left as [|l IH]; intros k g Hk Hg Hc k' i Hk' Hi; [lia|].
  cbn [clearq] in Hc. apply andb_true_iff in Hc. destruct Hc as (Hc & Hr).
  unfold colq in Hc. apply andb_true_iff in Hc. destruct Hc as (Hp & Ha).
  apply negb_true_iff in Hp.
  destruct (Nat.eq_dec k' k) as [->|Nk].
  - rewrite Hg by lia. rewrite forallb_forall in Ha. specialize (Ha i ltac:(apply in_seq; lia)).
    apply orb_true_iff in Ha. destruct Ha as [Ha|Ha].
    + left. apply Qeq_bool_iff in Ha. rewrite (Qeq_eqR _ _ Ha). apply Q2R_0'.
    + right. apply Qle_bool_iff in Ha. apply Qle_Rle in Ha. rewrite Q2R_abs in Ha.
      replace (Q2R (1 # 1000000)) with (/ 1000000)%R in Ha by (unfold Q2R; cbn; lra). exact Ha.
  - apply (IH (S k) (stepq n k g)); auto; try lia.
    assert (Nz : Q2R (ent g k k) <> 0%R).
    { intros E. rewrite <- Q2R_0' in E. apply eqR_Qeq in E. now apply Q2R_nz in Hp. }
    intros a b Ha' Hb'. unfold stepq. rewrite ent_tab by auto. cbn [gj]. unfold pivoted.
    rewrite (Hg k k) by lia. destruct (Req_EM_T (Q2R (ent g k k)) 0) as [|_]; [contradiction|].
    unfold cleared. rewrite Q2R_Qred.
    destruct (a =? k)%nat; rewrite !Hg by lia;
     rewrite ?Q2R_minus, ?Q2R_mult, Q2R_div by (now apply Q2R_nz); reflexivity.
Qed.

Lemma gj_clear_Q n f F :
  (forall a b, (a < n)%nat -> (b < n)%nat -> f a b = Q2R (F a b)) ->
  clearq n 0 n (tab n n F) = true -> gj_clear n f.
Proof.
  intros H C k i Hk Hi. apply (@clearq_ok n f n 0%nat (tab n n F)); auto; try lia.
  intros a b Ha Hb. cbn [gj]. rewrite ent_tab by auto. auto.
Qed.

(** sums *)
Fixpoint sumq (n : nat) (f : nat -> Q) : Q :=
  match n with O => 0 | S n' => Qred (sumq n' f + f n') end.

Lemma sumq_R n f : Q2R (sumq n f) = bigsum n (fun i => Q2R (f i)).
Proof. induction n as [|n IH]; cbn [sumq bigsum]; [apply Q2R_0'|]. now rewrite Q2R_Qred, Q2R_plus, IH. Qed.

Lemma gram_Q r X F a b :
  (forall i j, (i < r)%nat -> X i j = Q2R (F i j)) ->
  gram r (fun _ => 1%R) X a b = Q2R (sumq r (fun i => F i a * F i b)).
Proof.
  intros H. unfold gram. rewrite sumq_R. apply bigsum_ext. intros i Hi. rewrite !H by auto.
  rewrite Q2R_mult. ring.
Qed.

(** a left inverse shows that the columns are independent *)
Definition left_inverse_Q (r k : nat) (Y F : nat -> nat -> Q) : bool :=
  forallb (fun j => forallb (fun l =>
    Qeq_bool (sumq r (fun i => Y j i * F i l)) (if (j =? l)%nat then 1 else 0)) (seq 0 k)) (seq 0 k).

Lemma independent_Q r k X F Y :
  (forall i j, (i < r)%nat -> (j < k)%nat -> X i j = Q2R (F i j)) ->
  left_inverse_Q r k Y F = true -> independent_columns r k X.
Proof.
  intros H L x Hx j Hj.
  assert (E : forall l, (l < k)%nat -> bigsum r (fun i => Q2R (Y j i) * X i l)%R = if (j =? l)%nat then 1%R else 0%R).
  { intros l Hl. unfold left_inverse_Q in L. rewrite forallb_forall in L. specialize (L j ltac:(apply in_seq; lia)).
    rewrite forallb_forall in L. specialize (L l ltac:(apply in_seq; lia)).
    apply Qeq_bool_iff in L. apply Qeq_eqR in L. rewrite sumq_R in L.
    transitivity (bigsum r (fun i => Q2R (Y j i * F i l))).
    - apply bigsum_ext. intros i Hi. now rewrite Q2R_mult, H by auto.
    - rewrite L. destruct (j =? l)%nat; [unfold Q2R; cbn; lra|apply Q2R_0']. }
  transitivity (bigsum k (fun l => bigsum r (fun i => Q2R (Y j i) * X i l) * x l)%R).
  - symmetry. transitivity (bigsum k (fun l => if (j =? l)%nat then x l else 0)%R).
    + apply bigsum_ext. intros l Hl. rewrite E by auto. destruct (j =? l)%nat; ring.
    + clear -Hj. induction k as [|k IH]; [lia|]. cbn [bigsum]. destruct (Nat.eqb_spec j k) as [->|N].
      * rewrite (@bigsum_ext k _ (fun _ => 0%R)); [rewrite bigsum_0; ring|].
        intros l Hl. destruct (Nat.eqb_spec k l); auto; lia.
      * rewrite IH by lia. ring.
  - transitivity (bigsum r (fun i => Q2R (Y j i) * bigsum k (fun l => X i l * x l))%R).
    + rewrite (@bigsum_ext k _ (fun l => bigsum r (fun i => Q2R (Y j i) * X i l * x l)%R)).
      2: { intros l Hl. apply bigsum_mult_r. }
      rewrite bigsum_swap. apply bigsum_ext. intros i Hi. rewrite bigsum_mult_l. apply bigsum_ext. intros; ring.
    + rewrite <- (bigsum_0 r). apply bigsum_ext. intros i Hi. rewrite Hx by auto. ring.
Qed.
