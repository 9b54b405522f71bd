(** QR iteration of a symmetric matrix: the squares of the matrices converge to
    a diagonal matrix.  A_k = Q R and A_{k+1} = R Q give A_k^2 = R^T R and
    A_{k+1}^2 = R R^T, so every leading trace of the square grows by the squares
    of the elements of R above and right of the block. *)
From Coq Require Import List Arith ZArith Bool Lia Reals Lra.
From Coquelicot Require Import Coquelicot.
From Verif Require Import Base SpecReal SpecMtx SpecDecomp PMtxR PChol PQr PBalTerm PQrSeq.
Set Implicit Arguments.
Local Open Scope R_scope.
Implicit Types f g a b : nat -> nat -> R.

Definition symm (n : nat) f : Prop := forall i j, (i < n)%nat -> (j < n)%nat -> f i j = f j i.

Lemma step_facts n a b : symm n a -> qr_step n a b ->
  symm n b
  /\ (exists q, orthogonal n q /\ same n b (mmul n (mmul n (tr q) a) q))
  /\ exists r, upper_triangular n r
  /\ same n (mmul n a a) (mmul n (tr r) r) /\ same n (mmul n b b) (mmul n r (tr r)).
Proof.
  intros Sa (q & r & O & U & HA & HB). pose proof O as O'. apply orth_eqs in O'. destruct O' as (OA & OB).
  assert (Ta : same n (tr a) a) by (intros i j Hi Hj; unfold tr; now apply Sa).
  assert (HR : same n r (mmul n (tr q) a)).
  { eapply same_trans; [apply same_sym, (mul_cancel (f := tr q) (g := q) r OA)|].
    apply same_mul; [apply same_refl|exact HA]. }
  assert (HBq : same n b (mmul n (mmul n (tr q) a) q)).
  { eapply same_trans; [exact HB|]. apply same_mul; [exact HR|apply same_refl]. }
  assert (Tb : same n (tr b) b).
  { eapply same_trans; [apply same_tr; exact HBq|].
    eapply same_trans; [apply tr_mul|].
    eapply same_trans; [apply same_mul; [apply same_refl|apply tr_mul]|].
    eapply same_trans; [apply same_mul; [apply same_refl|apply same_mul; [exact Ta|apply (same_refl (n := n) q)]]|].
    eapply same_trans; [apply same_sym, same_assoc|]. apply same_sym. exact HBq. }
  split; [intros i j Hi Hj; rewrite <- (Tb i j Hi Hj); reflexivity|].
  split; [exists q; auto|]. exists r. split; [exact U|]. split.
  - (* a a = a^T a = r^T q^T q r *)
    eapply same_trans; [apply same_mul; [apply same_sym; exact Ta|apply same_refl]|].
    eapply same_trans; [apply same_mul; [apply same_tr, same_sym; exact HA|apply same_sym; exact HA]|].
    eapply same_trans; [apply same_mul; [apply tr_mul|apply same_refl]|].
    eapply same_trans; [apply same_assoc|]. apply same_mul; [apply same_refl|].
    apply mul_cancel. exact OA.
  - eapply same_trans; [apply same_mul; [apply same_refl|apply same_sym; exact Tb]|].
    eapply same_trans; [apply same_mul; [exact HB|apply same_tr; exact HB]|].
    eapply same_trans; [apply same_mul; [apply same_refl|apply tr_mul]|].
    eapply same_trans; [apply same_assoc|]. apply same_mul; [apply same_refl|].
    apply mul_cancel. exact OB.
Qed.

Lemma lim_bigsum n (u : nat -> nat -> R) (l : nat -> R) :
  (forall i, (i < n)%nat -> is_lim_seq (u i) (l i)) -> is_lim_seq (fun k => bigsum n (fun i => u i k)) (bigsum n l).
Proof.
  induction n as [|n IH]; intros H; cbn [bigsum]; [apply is_lim_seq_const|].
  apply is_lim_seq_plus'; [apply IH; intros; apply H; lia|apply H; lia].
Qed.

Lemma lim_0_bound (u v : nat -> R) : (forall k, Rabs (u k) <= v k) -> is_lim_seq v 0 -> is_lim_seq u 0.
Proof.
  intros H L. apply is_lim_seq_abs_0. apply (is_lim_seq_le_le (fun _ => 0) _ v); [|apply is_lim_seq_const|exact L].
  intros k. split; [apply Rabs_pos|apply H].
Qed.

Lemma lim_sqrt (u : nat -> R) (l : R) : is_lim_seq u l -> is_lim_seq (fun k => sqrt (u k)) (sqrt l).
Proof. intros H. apply (is_lim_seq_continuous sqrt u l); [apply continuity_pt_filterlim, continuous_sqrt|exact H]. Qed.

Lemma bigsum_abs n (u : nat -> R) c : (forall i, (i < n)%nat -> Rabs (u i) <= c) -> Rabs (bigsum n u) <= INR n * c.
Proof.
  induction n as [|n IH]; intros H; cbn [bigsum]; [rewrite Rabs_R0; cbn; lra|]. rewrite S_INR.
  pose proof (Rabs_triang (bigsum n u) (u n)). pose proof (H n ltac:(lia)). specialize (IH ltac:(intros; apply H; lia)). lra.
Qed.

Section Seq.
Variables (n : nat) (G : nat -> nat -> nat -> R).
Hypothesis Sym0 : symm n (G 0%nat).
Hypothesis Step : forall k, qr_step n (G k) (G (S k)).

Lemma seq_sym k : symm n (G k).
Proof. induction k as [|k IH]; [exact Sym0|]. exact (proj1 (step_facts IH (Step k))). Qed.

Lemma lead_grow j k : (j <= n)%nat -> lead n j (G k) <= lead n j (G (S k)).
Proof.
  intros Hj. destruct (step_facts (seq_sym k) (Step k)) as (_ & _ & r & U & HA & HB).
  rewrite (lead_step Hj U HA HB). pose proof (tail_sq_nonneg n j r). lra.
Qed.

Lemma lead_total k : lead n n (G k) = lead n n (G 0%nat).
Proof.
  induction k as [|k IH]; [reflexivity|]. rewrite <- IH.
  destruct (step_facts (seq_sym k) (Step k)) as (_ & _ & r & U & HA & HB).
  rewrite (lead_step (le_n n) U HA HB).
  replace (tail_sq n n r) with 0; [lra|]. symmetry. unfold tail_sq. apply bsum_zero. intros i Hi.
  apply bsum_zero. intros l Hl. destruct (Nat.ltb_spec l n); [auto|lia].
Qed.

Definition total : R := lead n n (G 0%nat).

Lemma sq_diag k i : (i < n)%nat -> mmul n (G k) (G k) i i = bigsum n (fun j => G k i j * G k i j).
Proof. intros Hi. apply bigsum_ext. intros j Hj. now rewrite (seq_sym k Hj Hi). Qed.

Lemma sq_diag_nonneg k i : (i < n)%nat -> 0 <= mmul n (G k) (G k) i i.
Proof. intros Hi. rewrite sq_diag by auto. apply bsum_nonneg. intros. apply Rle_0_sqr. Qed.

Lemma lead_le j k : (j <= n)%nat -> lead n j (G k) <= total.
Proof.
  intros Hj. unfold total. rewrite <- (lead_total k). apply bigsum_le_len; [exact Hj|].
  intros i Hi. now apply sq_diag_nonneg.
Qed.

Lemma entry_le k i j : (i < n)%nat -> (j < n)%nat -> G k i j * G k i j <= total.
Proof.
  intros Hi Hj. unfold total. rewrite <- (lead_total k).
  eapply Rle_trans; [|apply (@bsum_ge n (fun i => mmul n (G k) (G k) i i) i); [intros; now apply sq_diag_nonneg|exact Hi]].
  rewrite sq_diag by auto.
  apply (@bsum_ge n (fun j => G k i j * G k i j) j); [intros; apply Rle_0_sqr|exact Hj].
Qed.

Lemma lead_cv j : (j <= n)%nat -> exists T : R, is_lim_seq (fun k => lead n j (G k)) T.
Proof.
  intros Hj. destruct (ex_finite_lim_seq_incr (fun k => lead n j (G k)) total) as (T & H).
  - intros k. now apply lead_grow.
  - intros k. now apply lead_le.
  - exists T. exact H.
Qed.

(** the growth of all leading traces together *)
Definition growth (k : nat) : R := bigsum n (fun j => lead n j (G (S k)) - lead n j (G k)).

Lemma growth_cv : is_lim_seq growth 0.
Proof.
  unfold growth.
  replace (Finite 0) with (Finite (bigsum n (fun _ => 0))) by now rewrite bigsum_0.
  apply (@lim_bigsum n (fun j k => lead n j (G (S k)) - lead n j (G k)) (fun _ => 0)). intros j Hj.
  destruct (@lead_cv j ltac:(lia)) as (T & HT).
  replace (Finite 0) with (Finite (T - T)) by (f_equal; lra).
  apply is_lim_seq_minus'; [|exact HT]. apply (is_lim_seq_incr_1 (fun k => lead n j (G k))). exact HT.
Qed.

Lemma off_diag_bound k p q : (p < n)%nat -> (q < n)%nat -> p <> q ->
  Rabs (mmul n (G k) (G k) p q) <= INR n * sqrt (growth k * total).
Proof.
  intros Hp Hq Npq. destruct (step_facts (seq_sym k) (Step k)) as (_ & _ & r & U & HA & HB).
  rewrite HA by auto. unfold mmul, tr. apply bigsum_abs. intros l Hl.
  assert (Hg : forall a b : nat, (a < n)%nat -> (b < n)%nat -> a <> b -> r a b * r a b <= growth k).
  { intros a b Ha Hb Nab. assert (Hpos : forall j, (j < n)%nat -> 0 <= lead n j (G (S k)) - lead n j (G k)).
    { intros j Hj. pose proof (@lead_grow j k ltac:(lia)). lra. }
    destruct (Nat.lt_ge_cases b a) as [H|H].
    - rewrite U by auto. rewrite Rmult_0_l. apply bsum_nonneg. exact Hpos.
    - eapply Rle_trans; [|apply (@bsum_ge n _ b Hpos Hb)]. cbv beta.
      rewrite (@lead_step n b _ _ r ltac:(lia) U HA HB).
      pose proof (@tail_sq_ge n b r a b ltac:(lia) ltac:(lia) ltac:(lia)). lra. }
  assert (Ht : forall a b : nat, (a < n)%nat -> (b < n)%nat -> r a b * r a b <= total).
  { intros a b Ha Hb. unfold total. rewrite <- (lead_total k).
    eapply Rle_trans; [|apply (@bsum_ge n (fun i => mmul n (G k) (G k) i i) b); [intros; now apply sq_diag_nonneg|exact Hb]].
    rewrite HA by auto. unfold mmul, tr.
    apply (@bsum_ge n (fun i => r i b * r i b) a); [intros; apply Rle_0_sqr|exact Ha]. }
  rewrite <- sqrt_Rsqr_abs. apply sqrt_le_1_alt. unfold Rsqr.
  assert (K : (r l p * r l p) * (r l q * r l q) <= growth k * total).
  { pose proof (Rle_0_sqr (r l p)) as P1. pose proof (Rle_0_sqr (r l q)) as P2. unfold Rsqr in P1, P2.
    destruct (Nat.eq_dec l p) as [->|N].
    - rewrite Rmult_comm. apply Rmult_le_compat; auto.
    - apply Rmult_le_compat; auto. }
  lra.
Qed.

Lemma off_diag_cv p q : (p < n)%nat -> (q < n)%nat -> p <> q ->
  is_lim_seq (fun k => mmul n (G k) (G k) p q) 0.
Proof.
  intros Hp Hq N. apply lim_0_bound with (v := fun k => INR n * sqrt (growth k * total)).
  - intros k. now apply off_diag_bound.
  - replace (Finite 0) with (Finite (INR n * sqrt (0 * total))) by (f_equal; rewrite Rmult_0_l, sqrt_0; lra).
    apply is_lim_seq_mult'; [apply is_lim_seq_const|]. apply lim_sqrt.
    apply is_lim_seq_mult'; [apply growth_cv|apply is_lim_seq_const].
Qed.

Lemma diag_cv i : (i < n)%nat -> exists d, 0 <= d /\ is_lim_seq (fun k => mmul n (G k) (G k) i i) d.
Proof.
  intros Hi. destruct (@lead_cv i ltac:(lia)) as (T0 & H0). destruct (@lead_cv (S i) ltac:(lia)) as (T1 & H1).
  exists (T1 - T0).
  assert (L : is_lim_seq (fun k => mmul n (G k) (G k) i i) (T1 - T0)).
  { apply is_lim_seq_ext with (u := fun k => lead n (S i) (G k) - lead n i (G k)).
    - intros k. unfold lead. cbn [bigsum]. lra.
    - now apply is_lim_seq_minus'. }
  split; [|exact L].
  pose proof (is_lim_seq_le (fun _ => 0) (fun k => mmul n (G k) (G k) i i) 0 (T1 - T0)) as Q. cbn in Q.
  apply Q; [|apply is_lim_seq_const|exact L]. intros k. now apply sq_diag_nonneg.
Qed.

Lemma square_cv : exists d : nat -> R, (forall i, (i < n)%nat -> 0 <= d i) /\
  forall i j, (i < n)%nat -> (j < n)%nat -> is_lim_seq (fun k => mmul n (G k) (G k) i j) (if (i =? j)%nat then d i else 0).
Proof.
  assert (E : forall m, (m <= n)%nat -> exists d : nat -> R, forall i, (i < m)%nat ->
     0 <= d i /\ is_lim_seq (fun k => mmul n (G k) (G k) i i) (d i)).
  { induction m as [|m IH]; intros Hm; [exists (fun _ => 0); intros; lia|].
    destruct IH as (d & Hd); [lia|]. destruct (@diag_cv m ltac:(lia)) as (x & Hx).
    exists (fun i => if (i =? m)%nat then x else d i). intros i Hi.
    destruct (Nat.eqb_spec i m) as [->|N]; [exact Hx|apply Hd; lia]. }
  destruct (E n (le_n n)) as (d & Hd). exists d. split; [intros; now apply Hd|].
  intros i j Hi Hj. destruct (Nat.eqb_spec i j) as [<-|N]; [now apply Hd|now apply off_diag_cv].
Qed.

End Seq.
