(** Proofs about the model of src/probability.c. *)
From Coq Require Import List Arith ZArith Bool Lia Reals Lra Psatz Factorial.
From Verif Require Import Base BaseFacts SpecVec SpecReal MVec PVec PVecR NumR Libm LibmR RTac Out
  SpecProb MProb.
Import ListNotations.
Set Implicit Arguments.
Local Open Scope R_scope.

(** * Factorial *)
Definition int_ok (z : Z) : Prop := (INT_MIN <= z <= INT_MAX)%Z.
Lemma int_ok_int z : int_ok z -> int_ z = Ok z.
Proof.
  intros (A & B). unfold int_, in_int. rewrite (proj2 (Z.leb_le _ _) A), (proj2 (Z.leb_le _ _) B).
  reflexivity.
Qed.
Lemma int_bad z : ~ int_ok z -> int_ z = UB IntOverflow.
Proof.
  intros H. unfold int_, in_int. destruct (Z.leb_spec INT_MIN z), (Z.leb_spec z INT_MAX); try reflexivity.
  exfalso. apply H. split; assumption.
Qed.

Definition zfact (n : nat) : Z := Z.of_nat (fact n).
Lemma zfact_S n : zfact (S n) = (Z.of_nat (S n) * zfact n)%Z.
Proof. unfold zfact. cbn [fact]. rewrite <- Nat2Z.inj_mul. f_equal. Qed.
Lemma zfact_pos n : (0 < zfact n)%Z.
Proof. unfold zfact. pose proof (lt_O_fact n). lia. Qed.
Lemma zfact_mono a b : (a <= b)%nat -> (zfact a <= zfact b)%Z.
Proof. intros H. unfold zfact. pose proof (fact_le a b H). lia. Qed.

(** n * (n-1) * ... * (n-j) *)
Fixpoint falling (n : Z) (j : nat) : Z :=
  match j with O => n | S j => (falling n j * (n - Z.of_nat (S j)))%Z end.
Lemma falling_fact n j : (j < n)%nat -> (falling (Z.of_nat n) j * zfact (n - S j) = zfact n)%Z.
Proof.
  induction j as [|j IH]; intros H.
  - cbn [falling]. destruct n as [|n]; [lia|]. rewrite zfact_S. f_equal. f_equal. lia.
  - cbn [falling]. rewrite <- IH by lia. replace (n - S j)%nat with (S (n - S (S j)))%nat by lia.
    rewrite zfact_S. replace (Z.of_nat (S (n - S (S j)))) with (Z.of_nat n - Z.of_nat (S j))%Z by lia.
    ring.
Qed.
Lemma falling_bound n j : (j < n)%nat -> (0 < falling (Z.of_nat n) j <= zfact n)%Z.
Proof.
  intros H. pose proof (falling_fact H) as E. pose proof (zfact_pos (n - S j)) as P.
  pose proof (zfact_pos n). split; [nia|]. nia.
Qed.

Lemma factorial_loop n : (1 <= n)%nat -> int_ok (zfact n) ->
  for_ (n - 1) 1 (fun i n2 => int_ (n2 * (Z.of_nat n - Z.of_nat i))) (Z.of_nat n) = Ok (zfact n).
Proof.
  intros Hn Hz.
  assert (G : forall m lo z, (lo + m = n)%nat -> (1 <= lo)%nat -> z = falling (Z.of_nat n) (lo - 1) ->
    for_ m lo (fun i n2 => int_ (n2 * (Z.of_nat n - Z.of_nat i))) z = Ok (zfact n)).
  { induction m as [|m IH]; intros lo z E L ->.
    - cbn [for_]. f_equal. pose proof (@falling_fact n (lo - 1) ltac:(lia)) as F.
      replace (n - S (lo - 1))%nat with O in F by lia. cbn in F. unfold zfact in *. lia.
    - cbn [for_]. rewrite int_ok_int.
      + cbn [bind]. apply IH; [lia|lia|]. replace (S lo - 1)%nat with (S (lo - 1)) by lia.
        cbn [falling]. f_equal. lia.
      + pose proof (@falling_bound n lo ltac:(lia)) as B.
        destruct lo as [|lo]; [lia|]. cbn [falling] in B. replace (S lo - 1)%nat with lo by lia.
        destruct Hz as (_ & Hz). unfold int_ok, INT_MIN in *. lia. }
  apply G; [lia|lia|reflexivity].
Qed.

Lemma factorial_ok n : int_ok (zfact n) -> prob_factorial (Z.of_nat n) = Ok (zfact n).
Proof.
  intros H. unfold prob_factorial.
  destruct (Z.eqb_spec (Z.of_nat n) 0); [replace n with 0%nat by lia; reflexivity|].
  destruct (Z.eqb_spec (Z.of_nat n) 1); [replace n with 1%nat by lia; reflexivity|].
  destruct (Z.ltb_spec (Z.of_nat n) 0); [lia|]. cbn [orb]. rewrite Nat2Z.id. apply factorial_loop; [lia|exact H].
Qed.

Lemma zfact12 n : (n <= 12)%nat -> int_ok (zfact n).
Proof.
  intros H. pose proof (zfact_pos n). pose proof (zfact_mono H).
  split; unfold INT_MIN, INT_MAX; [lia|].
  apply Z.le_trans with (zfact 12); [assumption|]. rewrite !zfact_S. cbn -[Z.le Z.mul]. lia.
Qed.
Lemma zfact13 n : (13 <= n)%nat -> (INT_MAX < zfact n)%Z.
Proof.
  intros H. apply Z.lt_le_trans with (zfact 13); [|now apply zfact_mono].
  rewrite !zfact_S. unfold INT_MAX. cbn -[Z.lt Z.mul]. lia.
Qed.

Lemma factorial_overflow n : (13 <= n)%nat -> prob_factorial (Z.of_nat n) = UB IntOverflow.
Proof.
  intros H. unfold prob_factorial.
  destruct (Z.eqb_spec (Z.of_nat n) 0); [lia|].
  destruct (Z.eqb_spec (Z.of_nat n) 1); [lia|].
  destruct (Z.ltb_spec (Z.of_nat n) 0); [lia|]. cbn [orb]. rewrite Nat2Z.id.
  assert (G : forall m lo z, (lo + m = n)%nat -> (1 <= lo)%nat -> z = falling (Z.of_nat n) (lo - 1) ->
    (m = 0 -> int_ok z)%nat ->
    for_ m lo (fun i n2 => int_ (n2 * (Z.of_nat n - Z.of_nat i))) z = UB IntOverflow).
  { induction m as [|m IH]; intros lo z E L -> HZ.
    - exfalso. specialize (HZ eq_refl). pose proof (@falling_fact n (lo - 1) ltac:(lia)) as F.
      replace (n - S (lo - 1))%nat with O in F by lia. pose proof (zfact13 H).
      destruct HZ as (_ & HZ). change (zfact 0) with 1%Z in F. lia.
    - cbn [for_].
      assert (D : int_ok (falling (Z.of_nat n) (lo - 1) * (Z.of_nat n - Z.of_nat lo)) \/
        ~ int_ok (falling (Z.of_nat n) (lo - 1) * (Z.of_nat n - Z.of_nat lo))).
      { unfold int_ok. lia. }
      destruct D as [D|D].
      + rewrite int_ok_int by exact D. cbn [bind]. apply IH; [lia|lia| |intros _; exact D].
        replace (S lo - 1)%nat with (S (lo - 1)) by lia. cbn [falling]. f_equal. lia.
      + rewrite int_bad by exact D. reflexivity. }
  apply G; [lia|lia|reflexivity|lia].
Qed.

(** * Binomial coefficients *)
Lemma choose_0 n : choose n 0 = 1%nat.
Proof. destruct n; reflexivity. Qed.
Lemma choose_big n : forall k, (n < k)%nat -> choose n k = 0%nat.
Proof.
  induction n as [|n IH]; intros [|k] H; try lia; [reflexivity|]. cbn [choose].
  rewrite !IH by lia. reflexivity.
Qed.
Lemma choose_diag n : choose n n = 1%nat.
Proof. induction n as [|n IH]; [reflexivity|]. cbn [choose]. rewrite IH, choose_big by lia. lia. Qed.
Lemma choose_fact n : forall k, (k <= n)%nat -> (choose n k * (fact k * fact (n - k)) = fact n)%nat.
Proof.
  induction n as [|n IH]; intros k H.
  - replace k with 0%nat by lia. reflexivity.
  - destruct k as [|k].
    + rewrite choose_0. cbn [fact]. replace (S n - 0)%nat with (S n) by lia. cbn [fact]. lia.
    + cbn [choose]. destruct (Nat.eq_dec k n) as [->|NE].
      * rewrite (@choose_big n (S n)), choose_diag by lia. replace (S n - S n)%nat with 0%nat by lia. cbn [fact]. lia.
      * pose proof (IH k ltac:(lia)) as A. pose proof (IH (S k) ltac:(lia)) as B.
        replace (S n - S k)%nat with (S (n - S k)) by lia.
        replace (n - k)%nat with (S (n - S k)) in A by lia.
        change (fact (S n)) with (S n * fact n)%nat.
        change (fact (S (n - S k))) with (S (n - S k) * fact (n - S k))%nat in *.
        change (fact (S k)) with (S k * fact k)%nat in *.
        transitivity (S k * fact n + S (n - S k) * fact n)%nat.
        -- rewrite <- A at 1. rewrite <- B. ring.
        -- rewrite <- Nat.mul_add_distr_r. f_equal. lia.
Qed.

Lemma binomial_coef_ok bc n k : (n <= 12)%nat ->
  prob_binomial_coef bc (Z.of_nat n) k
  = Ok (0%Z, Some (if (k <? 0)%Z then 0%Z else Z.of_nat (choose n (Z.to_nat k)))).
Proof.
  intros Hn. unfold prob_binomial_coef.
  replace (bc && (Z.of_nat n <? 0)%Z) with false by (destruct bc; cbn; lia).
  rewrite Z.gtb_ltb. destruct (Z.ltb_spec k 0) as [Hk|Hk].
  { rewrite orb_true_r. reflexivity. }
  rewrite orb_false_r. destruct (Z.ltb_spec (Z.of_nat n) k) as [L|L].
  { rewrite choose_big by lia. reflexivity. }
  rewrite factorial_ok by now apply zfact12. cbn [bind].
  assert (Ek : k = Z.of_nat (Z.to_nat k)) by lia. set (j := Z.to_nat k) in *.
  rewrite Ek. rewrite factorial_ok by (apply zfact12; lia). cbn [bind].
  replace (Z.of_nat n - Z.of_nat j)%Z with (Z.of_nat (n - j)) by lia.
  rewrite factorial_ok by (apply zfact12; lia). cbn [bind].
  pose proof (@choose_fact n j ltac:(lia)) as F.
  assert (F' : (zfact n = Z.of_nat (choose n j) * (zfact j * zfact (n - j)))%Z).
  { unfold zfact. rewrite <- F. rewrite !Nat2Z.inj_mul. reflexivity. }
  pose proof (zfact_pos j) as P1. pose proof (zfact_pos (n - j)) as P2. pose proof (zfact_pos n) as P3.
  assert (C : (0 < Z.of_nat (choose n j))%Z) by nia.
  destruct (zfact12 Hn) as (_ & HM).
  rewrite int_ok_int by (unfold int_ok, INT_MIN; split; nia). cbn [bind].
  unfold idiv. destruct (Z.eqb_spec (zfact j * zfact (n - j)) 0); [nia|].
  rewrite F', Z.quot_mul by nia. rewrite int_ok_int by (unfold int_ok, INT_MIN; split; nia).
  reflexivity.
Qed.

Lemma binomial_coef_neg n k : (n < 0)%Z -> prob_binomial_coef true n k = Ok ((- EINVAL)%Z, None).
Proof. intros H. unfold prob_binomial_coef. rewrite (proj2 (Z.ltb_lt _ _) H). reflexivity. Qed.

(** * The binomial distribution *)
Lemma successes_choose p n : forall k, (k <= n)%nat ->
  successes p n k = INR (choose n k) * p ^ k * (1 - p) ^ (n - k).
Proof.
  induction n as [|n IH]; intros k H.
  - replace k with 0%nat by lia. cbn. ring.
  - assert (B : forall m j, (m < j)%nat -> successes p m j = 0).
    { induction m as [|m IHm]; intros [|j] Hj; try lia; [reflexivity|]. cbn [successes]. rewrite !IHm by lia. ring. }
    destruct k as [|k].
    + cbn [successes]. rewrite IH by lia. rewrite !choose_0. replace (n - 0)%nat with n by lia.
      replace (S n - 0)%nat with (S n) by lia. cbn [pow INR]. ring.
    + cbn [successes choose]. rewrite plus_INR. rewrite (IH k) by lia. destruct (Nat.eq_dec k n) as [->|NE].
      * rewrite B by lia. rewrite (@choose_big n (S n)) by lia. replace (S n - S n)%nat with 0%nat by lia.
        replace (n - n)%nat with 0%nat by lia. cbn [pow INR]. ring.
      * rewrite IH by lia. replace (S n - S k)%nat with (S (n - S k)) by lia.
        replace (n - k)%nat with (S (n - S k)) by lia. cbn [pow]. ring.
Qed.
Lemma successes_big p n : forall k, (n < k)%nat -> successes p n k = 0.
Proof.
  induction n as [|n IH]; intros [|k] H; try lia; [reflexivity|]. cbn [successes]. rewrite !IH by lia. ring.
Qed.
Lemma successes_nonneg p n : 0 <= p <= 1 -> forall k, 0 <= successes p n k.
Proof.
  intros Hp. induction n as [|n IH]; intros [|k]; cbn [successes]; try lra.
  - apply Rmult_le_pos; [lra|apply IH].
  - pose proof (IH k). pose proof (IH (S k)). apply Rplus_le_le_0_compat; apply Rmult_le_pos; lra.
Qed.

Lemma bigsum_S f n : bigsum (S n) f = bigsum n f + f n.
Proof. reflexivity. Qed.
Lemma bigsum_shift f n : bigsum (S n) f = f 0%nat + bigsum n (fun i => f (S i)).
Proof. induction n as [|n IH]; [cbn; ring|]. rewrite bigsum_S, IH, bigsum_S. ring. Qed.

Lemma successes_sum p n : bigsum (S n) (successes p n) = 1.
Proof.
  induction n as [|n IH]; [cbn; ring|].
  rewrite bigsum_shift. cbn [successes].
  assert (E : forall m, bigsum m (fun i => p * successes p n i + (1 - p) * successes p n (S i))
     = p * bigsum m (successes p n) + (1 - p) * bigsum m (fun i => successes p n (S i))).
  { induction m as [|m IHm]; [cbn; ring|]. rewrite !bigsum_S, IHm. ring. }
  rewrite E, IH.
  replace ((1 - p) * successes p n 0 + (p * 1 + (1 - p) * bigsum (S n) (fun i => successes p n (S i))))
    with (p + (1 - p) * (bigsum (S (S n)) (successes p n))) by (rewrite bigsum_shift; ring).
  rewrite bigsum_S, IH, successes_big by lia. ring.
Qed.

Lemma binomial_term_ok bc n p k : (n <= 12)%nat -> 0 <= p <= 1 -> (0 <= k <= Z.of_nat n)%Z ->
  binomial_term bc (Z.of_nat n) p k = Ok (successes p n (Z.to_nat k)).
Proof.
  intros Hn Hp Hk. unfold binomial_term. rewrite binomial_coef_ok by exact Hn. cbn [bind].
  destruct (Z.ltb_spec k 0); [lia|]. rewrite int_ok_int by (unfold int_ok, INT_MIN, INT_MAX; lia). cbn [bind].
  rewrite <- (Z2Nat.id k) by lia. set (j := Z.to_nat k) in *.
  replace (Z.of_nat n - Z.of_nat j)%Z with (Z.of_nat (n - j)) by lia. rops.
  rewrite !Rpow_nat by lra. cbn [bind]. f_equal. rewrite successes_choose by lia.
  rewrite Nat2Z.id, INR_IZR_INZ. reflexivity.
Qed.

(** beyond n the coefficient is 0: the term vanishes, unless p = 1 *)
Lemma binomial_term_above bc n p k : (n <= 12)%nat -> 0 <= p < 1 -> (Z.of_nat n < k <= INT_MAX)%Z ->
  binomial_term bc (Z.of_nat n) p k = Ok (successes p n (Z.to_nat k)).
Proof.
  intros Hn Hp Hk. unfold binomial_term. rewrite binomial_coef_ok by exact Hn. cbn [bind].
  destruct (Z.ltb_spec k 0); [lia|]. rewrite int_ok_int by (unfold int_ok, INT_MIN, INT_MAX in *; lia). cbn [bind].
  rewrite choose_big by lia. rewrite successes_big by lia.
  rewrite <- (Z2Nat.id k) at 1 by lia. rops.
  rewrite Rpow_nat by lra. rewrite Rpow_pos by lra. cbn [bind]. f_equal. change (Z.of_nat 0) with 0%Z. ring.
Qed.
Lemma binomial_term_above_1 bc n k : (n <= 12)%nat -> (Z.of_nat n < k <= INT_MAX)%Z ->
  binomial_term bc (Z.of_nat n) 1 k = NotReal.
Proof.
  intros Hn Hk. unfold binomial_term. rewrite binomial_coef_ok by exact Hn. cbn [bind].
  destruct (Z.ltb_spec k 0); [lia|]. rewrite int_ok_int by (unfold int_ok, INT_MIN, INT_MAX in *; lia). cbn [bind].
  rops. rewrite Rpow_pos by lra. cbn [bind]. replace (1 - 1) with 0 by ring.
  unfold Rpow. destruct (Rlt_dec 0 0); [lra|]. destruct (Req_EM_T 0 0); [|lra].
  assert (L : IZR (Z.of_nat n - k) < 0) by (apply (IZR_lt _ 0); lia).
  destruct (Req_EM_T (IZR (Z.of_nat n - k)) 0); [lra|]. destruct (Rlt_dec 0 (IZR (Z.of_nat n - k))); [lra|].
  reflexivity.
Qed.

Lemma good_binomial bc n (p : R) : 0 <= p <= 1 -> bad_binomial bc (Z.of_nat n) p = false.
Proof.
  intros Hp. unfold bad_binomial. rops. rewrite !Rltb_false by lra.
  destruct (Z.ltb_spec (Z.of_nat n) 0); [lia|]. destruct bc; reflexivity.
Qed.

Lemma binomial_sum bc n p x :
  (forall k, (k <= x)%nat -> binomial_term bc (Z.of_nat n) p (Z.of_nat k) = Ok (successes p n k)) ->
  for_ (S x) 0 (fun i y => let! t := binomial_term bc (Z.of_nat n) p (Z.of_nat i) in Ok (fadd y t)) f0
  = Ok (bigsum (S x) (successes p n)).
Proof.
  intros H.
  pose proof (@for_fun R (fun i => bigsum i (successes p n)) (S x) 0
    (fun i y => let! t := binomial_term bc (Z.of_nat n) p (Z.of_nat i) in Ok (fadd y t))) as F.
  cbn [bigsum Nat.add] in F. apply F. intros i Hi. rewrite H by lia. reflexivity.
Qed.

Lemma binomial_cdf_ok bc n p x : (n <= 12)%nat -> 0 <= p <= 1 ->
  (0 <= x < INT_MAX)%Z -> (x <= Z.of_nat n)%Z \/ p < 1 ->
  prob_binomial_cdf bc (Z.of_nat n) p x = Ok (bigsum (S (Z.to_nat x)) (successes p n)).
Proof.
  intros Hn Hp Hx Hd. unfold prob_binomial_cdf. rewrite good_binomial by exact Hp.
  destruct (Z.ltb_spec x 0); [lia|]. rewrite binomial_sum.
  - cbn [bind]. destruct (Z.eqb_spec x INT_MAX); [lia|]. reflexivity.
  - intros k Hk. destruct (Nat.leb_spec k n).
    + rewrite binomial_term_ok; [now rewrite Nat2Z.id|exact Hn|exact Hp|lia].
    + destruct Hd as [Hd|Hd]; [lia|]. rewrite binomial_term_above; [now rewrite Nat2Z.id|exact Hn|lra|lia].
Qed.

Lemma bigsum_tail0 f a b : (a <= b)%nat -> (forall k, (a <= k < b)%nat -> f k = 0) -> bigsum b f = bigsum a f.
Proof.
  induction b as [|b IH]; intros H Z; [now replace a with 0%nat by lia|].
  destruct (Nat.eq_dec a (S b)) as [->|NE]; [reflexivity|]. rewrite bigsum_S, IH; [|lia|intros; apply Z; lia].
  rewrite Z by lia. ring.
Qed.
Lemma bigsum_mono f a b : (a <= b)%nat -> (forall k, 0 <= f k) -> bigsum a f <= bigsum b f.
Proof.
  intros H P. induction b as [|b IH]; [replace a with 0%nat by lia; lra|].
  destruct (Nat.eq_dec a (S b)) as [->|NE]; [lra|]. rewrite bigsum_S. pose proof (P b). pose proof (IH ltac:(lia)). lra.
Qed.

(** * Entropy *)
Lemma entropy_guard tl ps (s : R) :
  for_exit (length ps) 0 (fun i sum =>
     let! a := rd (cells ps ++ tl) i in
     if flt a f0 then Ok (inr tt) else Ok (inl (fadd sum a))) s
  = Ok (if forallb (fun p => Rleb 0 p) ps then inl (s + rsum ps) else inr tt).
Proof.
  assert (G : forall l1 l2 s, ps = l1 ++ l2 ->
    for_exit (length l2) (length l1) (fun i sum =>
     let! a := rd (cells ps ++ tl) i in
     if flt a f0 then Ok (inr tt) else Ok (inl (fadd sum a))) s
    = Ok (if forallb (fun p => Rleb 0 p) l2 then inl (s + rsum l2) else inr tt)).
  { intros l1 l2. revert l1. induction l2 as [|p l2 IH]; intros l1 s0 E.
    - cbn. do 2 f_equal. ring.
    - cbn [length for_exit]. rewrite (@rd_cells_app R ps tl (length l1) 0) by (rewrite E, app_length; cbn; lia).
      rewrite E at 1. rewrite app_nth2, Nat.sub_diag by lia. cbn [nth bind]. rops.
      cbn [forallb]. destruct (Rltb_spec p 0).
      + rewrite Rleb_false by lra. reflexivity.
      + rewrite Rleb_true by lra. cbn [bind andb].
        replace (S (length l1)) with (length (l1 ++ [p])) by (rewrite app_length; cbn; lia).
        rewrite IH by (rewrite <- app_assoc; exact E). destruct (forallb _ l2); [|reflexivity].
        cbn [rsum]. do 2 f_equal. ring. }
  exact (G [] ps s eq_refl).
Qed.

Lemma entropy_loop tl ps : Forall (fun p => 0 < p) ps ->
  for_ (length ps) 0 (fun i h =>
     let! a := rd (cells ps ++ tl) i in let! l := flog a in Ok (fsub h (fmul a l))) f0
  = Ok (- rsum (map (fun p => p * ln p) ps)).
Proof.
  intros H.
  rewrite (@for_fold R R (fun h a => h - a * ln a) ps 0).
  - f_equal. assert (G : forall l (s : R), fold_left (fun h a => h - a * ln a) l s = s - rsum (map (fun p => p * ln p) l)).
    { induction l as [|p l IH]; intros s; cbn [fold_left map rsum]; [ring|]. rewrite IH. ring. }
    rewrite G. rops. ring.
  - intros i s Hi. rewrite (@rd_cells_app R ps tl i 0) by exact Hi. cbn [bind]. rops.
    rewrite Rlog_ok; [reflexivity|]. rewrite Forall_forall in H. apply H. apply nth_In. exact Hi.
Qed.
Lemma entropy_loop_0 tl ps : Forall (fun p => 0 <= p) ps -> In 0 ps ->
  for_ (length ps) 0 (fun i h =>
     let! a := rd (cells ps ++ tl) i in let! l := flog a in Ok (fsub h (fmul a l))) f0
  = NotReal :> outcome R.
Proof.
  intros H0 HI.
  assert (G : forall l2 l1 (s : R), ps = l1 ++ l2 -> In 0 l2 ->
    for_ (length l2) (length l1) (fun i h =>
     let! a := rd (cells ps ++ tl) i in let! l := flog a in Ok (fsub h (fmul a l))) s = NotReal).
  { induction l2 as [|p l2 IH]; intros l1 s E I; [destruct I|].
    cbn [length for_]. rewrite (@rd_cells_app R ps tl (length l1) 0) by (rewrite E, app_length; cbn; lia).
    rewrite E at 1. rewrite app_nth2, Nat.sub_diag by lia. cbn [nth bind]. rops.
    destruct (Req_dec p 0) as [Z|NZ].
    - rewrite Rlog_bad by lra. reflexivity.
    - destruct I as [I|I]; [congruence|].
      rewrite Rlog_ok.
      + cbn [bind]. replace (S (length l1)) with (length (l1 ++ [p])) by (rewrite app_length; cbn; lia).
        rewrite (IH (l1 ++ [p])); [reflexivity| |exact I]. rewrite <- app_assoc. exact E.
      + rewrite Forall_forall in H0. assert (0 <= p). { apply H0. rewrite E. apply in_or_app. right. now left. } lra. }
  exact (G ps [] 0 eq_refl HI).
Qed.

Lemma ln2_pos : 0 < ln 2.
Proof. rewrite <- ln_1. apply ln_increasing; lra. Qed.

Lemma forallb_nonneg_iff ps : forallb (fun p => Rleb 0 p) ps = true <-> Forall (fun p => 0 <= p) ps.
Proof.
  rewrite forallb_forall, Forall_forall. split; intros H x Hx; specialize (H x Hx).
  - destruct (Rleb_spec 0 x); [assumption|discriminate].
  - now apply Rleb_true.
Qed.

Lemma entropy_reject ps tl :
  ~ (Forall (fun p => 0 <= p) ps /\ Rabs (rsum ps - 1) <= / 1000000) ->
  prob_entropy true (vec_of ps tl) = Ok ((- EINVAL)%Z, Kept).
Proof.
  intros H. unfold prob_entropy. change (vsz (vec_of ps tl)) with (length ps).
  change (vbuf (vec_of ps tl)) with (cells ps ++ tl). rewrite entropy_guard. cbn [bind].
  destruct (forallb _ ps) eqn:E; [|reflexivity]. apply forallb_nonneg_iff in E. rops.
  destruct (Rltb_spec (1 / 1000000) (Rabs (- (1) + rsum ps))) as [L|L]; [reflexivity|].
  exfalso. apply H. split; [exact E|]. replace (rsum ps - 1) with (- (1) + rsum ps) by ring. lra.
Qed.

Lemma entropy_pass bc ps tl :
  Forall (fun p => 0 <= p) ps -> Rabs (rsum ps - 1) <= / 1000000 ->
  prob_entropy bc (vec_of ps tl) =
  (let! h := for_ (length ps) 0 (fun i h =>
     let! a := rd (cells ps ++ tl) i in let! l := flog a in Ok (fsub h (fmul a l))) f0 in
   let! l2 := flog (flit 2 0) in
   let! h := fdiv h l2 in
   Ok (0%Z, Set_ h)).
Proof.
  intros H HS. unfold prob_entropy. change (vsz (vec_of ps tl)) with (length ps).
  change (vbuf (vec_of ps tl)) with (cells ps ++ tl). destruct bc; [|reflexivity].
  rewrite entropy_guard. cbn [bind]. rewrite (proj2 (forallb_nonneg_iff ps) H).
  match goal with |- context [fgt ?a ?b] => replace (fgt a b) with false; [reflexivity|] end.
  symmetry. rops. apply Rltb_false. replace (- (1) + rsum ps) with (rsum ps - 1) by ring. lra.
Qed.

Lemma entropy_ok bc ps tl :
  Forall (fun p => 0 < p) ps -> Rabs (rsum ps - 1) <= / 1000000 ->
  prob_entropy bc (vec_of ps tl) = Ok (0%Z, Set_ (shannon ps)).
Proof.
  intros H HS. rewrite entropy_pass; [|eapply Forall_impl; [|exact H]; cbn; intros; lra|exact HS].
  rewrite entropy_loop by exact H. cbn [bind]. rops. replace (2 / 1) with 2 by lra.
  rewrite Rlog_ok by lra. cbn [bind]. pose proof ln2_pos. rewrite Rdivo_ok by lra. cbn [bind].
  do 3 f_equal. unfold shannon, log2, Rdiv. rewrite Ropp_mult_distr_l_reverse.
  assert (G : forall l, Forall (fun p => 0 < p) l ->
     rsum (map (fun p => p * (ln (/ p) * / ln 2)) l) = - (rsum (map (fun p => p * ln p) l) * / ln 2)).
  { induction 1 as [|p l Hp HF IH]; cbn [map rsum]; [ring|]. rewrite IH, ln_Rinv by exact Hp. ring. }
  now rewrite G.
Qed.
Lemma entropy_zero bc ps tl :
  Forall (fun p => 0 <= p) ps -> Rabs (rsum ps - 1) <= / 1000000 -> In 0 ps ->
  prob_entropy bc (vec_of ps tl) = NotReal.
Proof. intros H HS HI. rewrite entropy_pass by assumption. rewrite entropy_loop_0 by assumption. reflexivity. Qed.

Lemma ln_le_sub x : 0 < x -> ln x <= x - 1.
Proof.
  intros H. destruct (Req_dec x 1) as [->|NE]; [rewrite ln_1; lra|].
  pose proof (exp_ineq1 (ln x)) as E. rewrite exp_ln in E by exact H.
  assert (ln x <> 0). { intros Z. apply NE. rewrite <- (exp_ln x H), Z. apply exp_0. }
  specialize (E H0). lra.
Qed.

Lemma rsum_le_const (ps : list R) x : Forall (fun p => 0 <= p) ps -> In x ps -> x <= rsum ps.
Proof.
  induction 1 as [|p l Hp HF IH]; intros I; [destruct I|]. cbn [rsum].
  assert (0 <= rsum l). { clear - HF. induction HF; cbn [rsum]; lra. }
  destruct I as [->|I]; [lra|]. specialize (IH I). lra.
Qed.

Lemma shannon_nonneg ps : Forall (fun p => 0 < p) ps -> rsum ps = 1 -> 0 <= shannon ps.
Proof.
  intros H HS.
  assert (B : Forall (fun p => 0 < p <= 1) ps).
  { rewrite Forall_forall in *. intros x Hx. split; [now apply H|]. rewrite <- HS. apply rsum_le_const; [|exact Hx].
    apply Forall_forall. intros y Hy. specialize (H y Hy). lra. }
  unfold shannon. clear H HS. induction B as [|p l Hp HF IH]; cbn [map rsum]; [lra|].
  apply Rplus_le_le_0_compat; [|exact IH]. apply Rmult_le_pos; [lra|]. unfold log2.
  apply Rmult_le_pos; [|pose proof ln2_pos; left; now apply Rinv_0_lt_compat].
  rewrite ln_Rinv by lra. pose proof (@ln_le_sub p ltac:(lra)). lra.
Qed.

Lemma shannon_max ps : Forall (fun p => 0 < p) ps -> rsum ps = 1 -> shannon ps <= log2 (INR (length ps)).
Proof.
  intros H HS. destruct ps as [|p0 l0] eqn:EP; [cbn in HS; lra|]. rewrite <- EP in *.
  assert (Hn : 0 < INR (length ps)) by (rewrite EP; apply lt_0_INR; cbn; lia). set (n := INR (length ps)) in *.
  assert (G : forall l, Forall (fun p => 0 < p) l ->
    rsum (map (fun p => p * log2 (/ p)) l) * ln 2 <= rsum l * ln n + (INR (length l) / n - rsum l)).
  { induction 1 as [|p l Hp HF IH]; cbn [map rsum]; [unfold Rdiv; cbn [length INR]; lra|].
    cbn [length]. rewrite S_INR.
    pose proof (@ln_le_sub (/ (n * p))) as L.
    assert (NP : 0 < n * p) by (apply Rmult_lt_0_compat; assumption).
    specialize (L ltac:(now apply Rinv_0_lt_compat)). rewrite ln_Rinv, ln_mult in L by assumption.
    assert (K : p * (- (ln n + ln p)) <= p * (/ (n * p) - 1)) by (apply Rmult_le_compat_l; [lra|exact L]).
    replace (p * (/ (n * p) - 1)) with (/ n - p) in K by (field; lra).
    unfold log2 at 1. rewrite ln_Rinv by exact Hp.
    replace ((p * (- ln p / ln 2) + rsum (map (fun p1 => p1 * log2 (/ p1)) l)) * ln 2)
      with (p * - ln p + rsum (map (fun p1 => p1 * log2 (/ p1)) l) * ln 2) by (pose proof ln2_pos; field; lra).
    replace ((INR (length l) + 1) / n) with (INR (length l) / n + / n) by (field; lra). lra. }
  specialize (G ps H). rewrite HS in G. fold n in G. replace (n / n) with 1 in G by (field; lra).
  unfold shannon, log2 at 2. apply Rmult_le_reg_r with (ln 2); [apply ln2_pos|].
  replace (ln n / ln 2 * ln 2) with (ln n) by (pose proof ln2_pos; field; lra). lra.
Qed.

(** * Moments of the binomial distribution *)
Definition expect (p : R) (n : nat) (g : nat -> R) : R := bigsum (S n) (fun k => g k * successes p n k).

Lemma bigsum_ext' f g n : (forall k, (k < n)%nat -> f k = g k) -> bigsum n f = bigsum n g.
Proof. induction n as [|n IH]; intros H; [reflexivity|]. cbn [bigsum]. rewrite IH by auto. now rewrite H by lia. Qed.
Lemma bigsum_lin f g a b n : bigsum n (fun k => a * f k + b * g k) = a * bigsum n f + b * bigsum n g.
Proof. induction n as [|n IH]; [cbn; ring|]. cbn [bigsum]. rewrite IH. ring. Qed.

Lemma expect_S p n g : expect p (S n) g = p * expect p n (fun k => g (S k)) + (1 - p) * expect p n g.
Proof.
  unfold expect. rewrite bigsum_shift. cbn [successes].
  rewrite (bigsum_ext' (fun i => g (S i) * (p * successes p n i + (1 - p) * successes p n (S i)))
    (fun i => p * (g (S i) * successes p n i) + (1 - p) * (g (S i) * successes p n (S i)))) by (intros; ring).
  rewrite bigsum_lin.
  assert (E : bigsum (S n) (fun k => g k * successes p n k)
    = g 0%nat * successes p n 0 + bigsum (S n) (fun i => g (S i) * successes p n (S i))).
  { rewrite <- (bigsum_shift (fun i => g i * successes p n i)).
    rewrite (bigsum_S _ (S n)), (@successes_big p n (S n)) by lia. ring. }
  rewrite E. ring.
Qed.
Lemma expect_const p n c : expect p n (fun _ => c) = c.
Proof.
  transitivity (c * bigsum (S n) (successes p n)); [|rewrite successes_sum; ring]. unfold expect.
  generalize (S n). intros m. induction m as [|m IH]; [cbn; ring|]. cbn [bigsum]. rewrite IH. ring.
Qed.
Lemma expect_lin p n f g a b : expect p n (fun k => a * f k + b * g k) = a * expect p n f + b * expect p n g.
Proof. unfold expect. rewrite <- bigsum_lin. apply bigsum_ext'. intros; ring. Qed.
Lemma expect_ext p n f g : (forall k, f k = g k) -> expect p n f = expect p n g.
Proof. intros H. apply bigsum_ext'. intros k _. now rewrite H. Qed.

Lemma expect_id p n : expect p n INR = INR n * p.
Proof.
  induction n as [|n IH]; [unfold expect; cbn; ring|].
  rewrite expect_S, (expect_ext _ _ (fun k => INR (S k)) (fun k => 1 * INR k + 1 * 1)) by (intros; rewrite S_INR; ring).
  rewrite expect_lin, expect_const, IH, S_INR. ring.
Qed.
Lemma expect_sq p n : expect p n (fun k => INR k * INR k) = INR n * p * (1 - p) + (INR n * p) * (INR n * p).
Proof.
  induction n as [|n IH]; [unfold expect; cbn; ring|].
  rewrite expect_S, (expect_ext _ _ (fun k => INR (S k) * INR (S k)) (fun k => 1 * (INR k * INR k) + 1 * (2 * INR k + 1 * 1)))
    by (intros; rewrite S_INR; ring).
  rewrite (expect_lin _ _ (fun k => INR k * INR k)), (expect_lin _ _ INR (fun _ => 1)), expect_const, expect_id, IH, S_INR. ring.
Qed.
Lemma expect_var p n : expect p n (fun k => (INR k - INR n * p) * (INR k - INR n * p)) = INR n * p * (1 - p).
Proof.
  rewrite (expect_ext _ _ _ (fun k => 1 * (INR k * INR k) + 1 * (- (2 * (INR n * p)) * INR k + (INR n * p) * (INR n * p) * 1))) by (intros; ring).
  rewrite (expect_lin _ _ (fun k => INR k * INR k)), (expect_lin _ _ INR (fun _ => 1)), expect_const, expect_id, expect_sq. ring.
Qed.
