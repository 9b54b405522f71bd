(** QR iteration of a symmetric positive semidefinite matrix converges to a
    diagonal matrix. *)
From Coq Require Import List Arith ZArith Bool Lia Reals Lra.
From Coquelicot Require Import Coquelicot.
From Verif Require Import Base SpecReal SpecMtx SpecDecomp PDet PMtxR PChol PQr PBalTerm PQrSeq PQrLim SpecEig PQrMx.
Set Implicit Arguments.
Local Open Scope R_scope.

(** elements converge *)
Definition to_matrix (n : nat) (G : nat -> nat -> nat -> R) (g : nat -> nat -> R) : Prop :=
  forall i j, (i < n)%nat -> (j < n)%nat -> is_lim_seq (fun k => G k i j) (g i j).

Lemma lim_ldet n G g : to_matrix n G g -> is_lim_seq (fun k => ldet n (G k)) (ldet n g).
Proof.
  revert G g. induction n as [|n IH]; intros G g H; [apply is_lim_seq_const|]. cbn [ldet].
  apply (@lim_bigsum (S n) (fun i k => ldet n (minor 0 i (G k)) * G k O i * sgn i)
                           (fun i => ldet n (minor 0 i g) * g O i * sgn i)).
  intros i Hi. apply is_lim_seq_mult'; [|apply is_lim_seq_const].
  apply is_lim_seq_mult'; [|apply H; lia].
  apply (IH (fun k => minor 0 i (G k)) (minor 0 i g)). intros a b Ha Hb. unfold minor.
  apply H; unfold skip_at; destruct Nat.ltb; lia.
Qed.

Lemma lim_unique (u : nat -> R) (a b : R) : is_lim_seq u a -> is_lim_seq u b -> a = b.
Proof. intros H K. apply is_lim_seq_unique in H. apply is_lim_seq_unique in K. rewrite H in K. now injection K. Qed.

Lemma psd_diag n a i : psd n a -> (i < n)%nat -> 0 <= a i i.
Proof.
  intros P Hi. pose proof (P (fun k => if (k =? i)%nat then 1 else 0)) as Q.
  rewrite (bigsum_ext n _ (fun p => if (p =? i)%nat then a i i else 0)) in Q.
  - rewrite (bigsum_delta n (fun _ => a i i) i Hi) in Q. exact Q.
  - intros p Hp. destruct (Nat.eqb_spec p i) as [->|N].
    + rewrite (bigsum_ext n _ (fun q => if (q =? i)%nat then a i i else 0)).
      * exact (bigsum_delta n (fun _ => a i i) i Hi).
      * intros q Hq. destruct (Nat.eqb_spec q i) as [->|]; lra.
    + apply bsum_zero. intros. lra.
Qed.

Section Seq.
Variables (n : nat) (G : nat -> nat -> nat -> R).
Hypothesis Sym0 : symm n (G 0%nat).
Hypothesis Step : forall k, qr_step n (G k) (G (S k)).
Hypothesis Psd0 : psd n (G 0%nat).

Lemma seq_psd k : psd n (G k).
Proof.
  induction k as [|k IH]; [exact Psd0|].
  destruct (step_facts (seq_sym G Sym0 Step k) (Step k)) as (_ & (q & _ & H) & _).
  exact (psd_conj _ _ _ _ H IH).
Qed.

Let M := total n G.

(** an off-diagonal element is bounded by what the square has off its diagonal *)
Definition eps (k : nat) : R :=
  bigsum n (fun i => bigsum n (fun j => if (i =? j)%nat then 0 else G k i j * mmul n (G k) (G k) j i)).

Lemma cube_bound k i j : (i < n)%nat -> (j < n)%nat -> i <> j ->
  Rabs (G k i j) * (G k i j * G k i j) <= eps k.
Proof.
  intros Hi Hj Nij. set (a := G k). set (s := fun i => sqrt (mmul n a a i i)).
  pose proof (tr_ineq n a s (seq_sym G Sym0 Step k) (seq_psd k)) as H. cbv zeta in H.
  assert (D : forall i, (i < n)%nat -> s i * s i = mmul n a a i i).
  { intros c Hc. apply sqrt_def. now apply (sq_diag_nonneg G Sym0 Step). }
  eapply Rle_trans; [|eapply Rle_trans; [exact H|]].
  - assert (P : forall j b, 0 <= s b * ((a b j - dg s b j) * (a b j - dg s b j))).
    { intros c b. apply Rmult_le_pos; [apply sqrt_pos|apply Rle_0_sqr]. }
    eapply Rle_trans; [|apply (@bsum_ge n (fun j => bigsum n (fun b => s b * ((a b j - dg s b j) * (a b j - dg s b j)))) j);
      [intros; apply bsum_nonneg; auto|exact Hj]].
    eapply Rle_trans; [|apply (@bsum_ge n (fun b => s b * ((a b j - dg s b j) * (a b j - dg s b j))) i); [intros; apply P|exact Hi]].
    cbv beta. unfold dg. destruct (Nat.eqb_spec i j) as [|_]; [contradiction|].
    replace (a i j - 0) with (a i j) by lra.
    apply Rmult_le_compat_r; [apply Rle_0_sqr|]. unfold s. rewrite <- sqrt_Rsqr_abs.
    apply sqrt_le_1_alt. unfold a. rewrite (sq_diag G Sym0 Step) by auto.
    apply (@bsum_ge n (fun j => G k i j * G k i j) j); [intros; apply Rle_0_sqr|exact Hj].
  - right. unfold eps. apply bigsum_ext. intros p Hp. apply bigsum_ext. intros q Hq. unfold dg.
    rewrite (Nat.eqb_sym q p). destruct (Nat.eqb_spec p q) as [->|N].
    + rewrite D by auto. lra.
    + unfold a. lra.
Qed.

Lemma entry_abs k i j : (i < n)%nat -> (j < n)%nat -> Rabs (G k i j) <= sqrt M.
Proof. intros Hi Hj. rewrite <- sqrt_Rsqr_abs. apply sqrt_le_1_alt. now apply (entry_le G Sym0 Step). Qed.

Lemma eps_cv : is_lim_seq eps 0.
Proof.
  replace (Finite 0) with (Finite (bigsum n (fun _ => bigsum n (fun _ => 0)))).
  2:{ f_equal. apply bsum_zero. intros. apply bsum_zero. auto. }
  apply (@lim_bigsum n (fun i k => bigsum n (fun j => if (i =? j)%nat then 0 else G k i j * mmul n (G k) (G k) j i))
     (fun _ => bigsum n (fun _ => 0))). intros i Hi.
  apply (@lim_bigsum n (fun j k => if (i =? j)%nat then 0 else G k i j * mmul n (G k) (G k) j i) (fun _ => 0)). intros j Hj.
  destruct (Nat.eqb_spec i j) as [|N]; [apply is_lim_seq_const|].
  apply lim_0_bound with (v := fun k => sqrt M * Rabs (mmul n (G k) (G k) j i)).
  - intros k. rewrite Rabs_mult. apply Rmult_le_compat_r; [apply Rabs_pos|]. now apply entry_abs.
  - replace (Finite 0) with (Finite (sqrt M * 0)) by (f_equal; lra).
    apply is_lim_seq_mult'; [apply is_lim_seq_const|]. apply -> is_lim_seq_abs_0.
    apply (off_diag_cv G Sym0 Step); auto.
Qed.

Lemma psd_off_cv i j : (i < n)%nat -> (j < n)%nat -> i <> j -> is_lim_seq (fun k => G k i j) 0.
Proof.
  intros Hi Hj N. apply lim_0_bound with (v := fun k => sqrt (sqrt (sqrt M * eps k))).
  - intros k. set (x := G k i j).
    replace (Rabs x) with (sqrt (sqrt (Rabs x * (Rabs x * (x * x))))).
    + apply sqrt_le_1_alt, sqrt_le_1_alt. unfold x.
      apply Rmult_le_compat; [apply Rabs_pos| |now apply entry_abs|now apply cube_bound].
      apply Rmult_le_pos; [apply Rabs_pos|apply Rle_0_sqr].
    + pose proof (Rabs_pos x). replace (x * x) with (Rabs x * Rabs x) by (rewrite <- Rabs_mult; apply Rabs_pos_eq, Rle_0_sqr).
      replace (Rabs x * (Rabs x * (Rabs x * Rabs x))) with ((Rabs x * Rabs x) * (Rabs x * Rabs x)) by ring.
      rewrite sqrt_square by (apply Rmult_le_pos; auto). now apply sqrt_square.
  - replace (Finite 0) with (Finite (sqrt (sqrt (sqrt M * 0)))) by (f_equal; rewrite Rmult_0_r, !sqrt_0; auto).
    apply lim_sqrt, lim_sqrt. apply is_lim_seq_mult'; [apply is_lim_seq_const|apply eps_cv].
Qed.

Lemma psd_cv : exists l : nat -> R, (forall i, (i < n)%nat -> 0 <= l i) /\ to_matrix n G (dg l).
Proof.
  destruct (square_cv G Sym0 Step) as (d & Hd & HL). exists (fun i => sqrt (d i)). split; [intros; apply sqrt_pos|].
  intros i j Hi Hj. unfold dg. destruct (Nat.eqb_spec i j) as [<-|N]; [|now apply psd_off_cv].
  apply is_lim_seq_ext with (u := fun k => sqrt (G k i i * G k i i)).
  { intros k. apply sqrt_square. apply (psd_diag (seq_psd k) Hi). }
  apply lim_sqrt.
  assert (O : is_lim_seq (fun k => bigsum n (fun j => if (j =? i)%nat then 0 else G k i j * G k i j)) 0).
  { replace (Finite 0) with (Finite (bigsum n (fun _ => 0))) by now rewrite bigsum_0.
    apply (@lim_bigsum n (fun j k => if (j =? i)%nat then 0 else G k i j * G k i j) (fun _ => 0)). intros j Hj'.
    destruct (Nat.eqb_spec j i) as [|N]; [apply is_lim_seq_const|].
    replace (Finite 0) with (Finite (0 * 0)) by (f_equal; lra). apply is_lim_seq_mult'; apply psd_off_cv; auto. }
  apply is_lim_seq_ext with (u := fun k => mmul n (G k) (G k) i i - bigsum n (fun j => if (j =? i)%nat then 0 else G k i j * G k i j)).
  - intros k. rewrite (sq_diag G Sym0 Step) by auto. rewrite <- bsum_minus.
    rewrite (bigsum_ext n _ (fun j => if (j =? i)%nat then G k i j * G k i j else 0)).
    + exact (bigsum_delta n (fun j => G k i j * G k i j) i Hi).
    + intros j _. destruct (j =? i)%nat; lra.
  - replace (Finite (d i)) with (Finite (d i - 0)) by (f_equal; lra).
    apply is_lim_seq_minus'; [|exact O]. specialize (HL i i Hi Hi). rewrite Nat.eqb_refl in HL. exact HL.
Qed.

End Seq.
