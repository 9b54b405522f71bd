(** Balancing ends, over the reals, and ends with a balanced matrix.

    The argument: a scaling at i lowers the sum S of all the absolute values by
    at least a twentieth of the sum of row i and column i.  While only indices
    of a set I are scaled, some entry in a row or a column of I stays above a
    positive bound: otherwise the exponents would fall by more than they can
    along every such entry.  So a scaling in the row or the column of that entry
    lowers S by a fixed amount, and those without it scale a smaller set. *)
From Coq Require Import List Arith ZArith Bool Lia Reals Lra Classical Wellfounded Relations.
From Verif Require Import Base BaseFacts NumR SpecVec SpecReal SpecMtx SpecDecomp MVec MMtx MDecomp
  PVec PVecR PMtx PMtxOps PMtxR PFvec PGram PChol PHouse PQr SpecGauss PGauss PBal.
Import ListNotations.
Set Implicit Arguments.
Local Open Scope R_scope.

(** ** Finite sums and extremes *)
Lemma bsum_nonneg n g : (forall k, (k < n)%nat -> 0 <= g k) -> 0 <= bigsum n g.
Proof.
  induction n as [|n IH]; intros H; cbn [bigsum]; [lra|].
  assert (0 <= bigsum n g) by (apply IH; intros; apply H; lia). specialize (H n). assert (0 <= g n) by (apply H; lia). lra.
Qed.

Lemma bsum_ge n g i : (forall k, (k < n)%nat -> 0 <= g k) -> (i < n)%nat -> g i <= bigsum n g.
Proof.
  induction n as [|n IH]; intros H Hi; [lia|]. cbn [bigsum].
  assert (0 <= bigsum n g) by (apply bsum_nonneg; intros; apply H; lia).
  assert (0 <= g n) by (apply H; lia).
  destruct (Nat.eq_dec i n) as [->|]; [lra|].
  assert (g i <= bigsum n g) by (apply IH; [intros; apply H|]; lia). lra.
Qed.

Lemma bsum_minus n g h : bigsum n (fun k => g k - h k) = bigsum n g - bigsum n h.
Proof. induction n as [|n IH]; cbn [bigsum]; [ring|]. rewrite IH. ring. Qed.

Lemma bsum_zero n g : (forall k, (k < n)%nat -> g k = 0) -> bigsum n g = 0.
Proof. intros H. transitivity (bigsum n (fun _ => 0)); [now apply bigsum_ext|apply bigsum_0]. Qed.

Lemma bsum_pos n g : 0 < bigsum n g -> exists k, (k < n)%nat /\ g k <> 0.
Proof.
  intros H. apply NNPP. intros N. rewrite bsum_zero in H; [lra|]. intros k Hk. destruct (Req_dec (g k) 0); auto. exfalso. eauto.
Qed.

Lemma bsum_one n i : (i < n)%nat -> bigsum n (fun k => if (k =? i)%nat then 1 else 0) = 1.
Proof.
  induction n as [|m IH]; intros Hi; [lia|]. cbn [bigsum]. destruct (Nat.eqb_spec m i) as [->|].
  - rewrite bsum_zero; [ring|]. intros k Hk. destruct (Nat.eqb_spec k i); [lia|auto].
  - rewrite IH by lia. ring.
Qed.

(** a table that is zero off row i and column i *)
Lemma bsum_cross n (h : nat -> nat -> R) i :
  (i < n)%nat -> (forall a b, a <> i -> b <> i -> h a b = 0) ->
  bigsum n (fun a => bigsum n (h a)) = bigsum n (h i) + bigsum n (fun a => h a i) - h i i.
Proof.
  intros Hi H.
  transitivity (bigsum n (fun a => h a i + (bigsum n (h i) - h i i) * (if (a =? i)%nat then 1 else 0))).
  - apply bigsum_ext. intros a Ha. destruct (Nat.eqb_spec a i) as [->|Na]; [ring|].
    transitivity (bigsum n (fun b => h a i * (if (b =? i)%nat then 1 else 0))).
    + apply bigsum_ext. intros b _. destruct (Nat.eqb_spec b i) as [->|Nb]; [ring|]. rewrite H by auto. ring.
    + rewrite <- bigsum_mult_l, bsum_one by auto. ring.
  - rewrite bigsum_plus, <- bigsum_mult_l, bsum_one by auto. ring.
Qed.

Lemma multiple_above d x : 0 < d -> exists N, x <= INR N * d.
Proof.
  intros Hd. exists (Z.to_nat (up (x / d))). destruct (archimed (x / d)) as (H & _).
  assert (IZR (up (x / d)) <= INR (Z.to_nat (up (x / d)))).
  { rewrite INR_IZR_INZ. apply IZR_le. lia. }
  apply Rmult_le_reg_r with (/ d); [now apply Rinv_0_lt_compat|]. rewrite Rmult_assoc, Rinv_r by lra.
  unfold Rdiv in *. lra.
Qed.

Lemma list_min (l : list nat) (e : nat -> Z) : l <> [] -> exists i, In i l /\ forall j, In j l -> (e i <= e j)%Z.
Proof.
  induction l as [|a l IH]; [congruence|]. intros _. destruct l as [|b l].
  - exists a. split; [now left|]. intros j [->|[]]. lia.
  - destruct IH as (i & Hi & Hm); [discriminate|]. destruct (Z_le_gt_dec (e a) (e i)).
    + exists a. split; [now left|]. intros j [->|Hj]; [lia|]. specialize (Hm j Hj). lia.
    + exists i. split; [now right|]. intros j [->|Hj]; [lia|]. auto.
Qed.

Lemma seq_bound n (e : nat -> Z) : exists L, (0 <= L)%Z /\ forall k, (k < n)%nat -> (- L <= e k <= L)%Z.
Proof.
  induction n as [|n (L & HL & IH)]; [exists 0%Z; split; [lia|intros; lia]|].
  exists (L + Z.abs (e n))%Z. split; [lia|]. intros k Hk. destruct (Nat.eq_dec k n) as [->|]; [lia|].
  specialize (IH k). lia.
Qed.

Lemma min_pos1 n (g : nat -> R) : exists m, 0 < m /\ forall k, (k < n)%nat -> g k <> 0 -> m <= Rabs (g k).
Proof.
  induction n as [|n (m & Hm & IH)]; [exists 1; split; [lra|intros; lia]|].
  destruct (Req_dec (g n) 0) as [E|E].
  - exists m. split; auto. intros k Hk Nk. destruct (Nat.eq_dec k n) as [->|]; [contradiction|]. apply IH; auto. lia.
  - pose proof (Rabs_pos_lt _ E). exists (Rmin m (Rabs (g n))). split; [now apply Rmin_glb_lt|].
    intros k Hk Nk. destruct (Nat.eq_dec k n) as [->|]; [apply Rmin_r|].
    eapply Rle_trans; [apply Rmin_l|]. apply IH; auto. lia.
Qed.

Lemma min_pos2 n m (g : nat -> nat -> R) :
  exists d, 0 < d /\ forall i j, (i < n)%nat -> (j < m)%nat -> g i j <> 0 -> d <= Rabs (g i j).
Proof.
  induction n as [|n (d & Hd & IH)]; [exists 1; split; [lra|intros; lia]|].
  destruct (min_pos1 m (g n)) as (d' & Hd' & H'). exists (Rmin d d'). split; [now apply Rmin_glb_lt|].
  intros i j Hi Hj N. destruct (Nat.eq_dec i n) as [->|].
  - eapply Rle_trans; [apply Rmin_r|]. auto.
  - eapply Rle_trans; [apply Rmin_l|]. apply IH; auto. lia.
Qed.

Lemma two_le a b : (a <= b)%Z -> two a <= two b.
Proof.
  intros H. replace b with (a + (b - a))%Z by lia. rewrite two_add.
  assert (1 <= two (b - a)).
  { unfold two. destruct (Z.to_nat (b - a)) eqn:E.
    - replace (b - a)%Z with 0%Z by lia. cbn. lra.
    - replace (b - a)%Z with (Z.of_nat (Z.to_nat (b - a))) by lia. rewrite <- pow_powerRZ. apply pow_R1_Rle. lra. }
  pose proof (two_pos a). nra.
Qed.

Lemma two_lt_inv a b : two a < two b -> (a < b)%Z.
Proof. intros H. destruct (Z_lt_ge_dec a b); auto. assert (two b <= two a) by (apply two_le; lia). lra. Qed.

(** ** Scalings *)
Section W.
Variable n : nat.
Variable f : nat -> nat -> R.

Definition wt (e : nat -> Z) i j := Rabs (balanced n f e i j).
Definition rsum e i := bigsum n (wt e i).
Definition csum e i := bigsum n (fun j => wt e j i).
Definition total e := bigsum n (fun i => bigsum n (wt e i)).
Definition bump (e : nat -> Z) i z : nat -> Z := fun a => (e a + (if (a =? i)%nat then z else 0))%Z.

Lemma wt_pos e i j : 0 <= wt e i j.
Proof. apply Rabs_pos. Qed.

Lemma wt_eq e i j : wt e i j = Rabs (f i j) * two (e j - e i).
Proof. unfold wt, balanced. rewrite Rabs_mult. f_equal. apply Rabs_pos_eq. left. apply two_pos. Qed.

Lemma wt_same e e' i j : e i = e' i -> e j = e' j -> wt e i j = wt e' i j.
Proof. intros A B. rewrite !wt_eq, A, B. reflexivity. Qed.

Lemma total_nonneg e : 0 <= total e.
Proof. apply bsum_nonneg. intros. apply bsum_nonneg. intros. apply wt_pos. Qed.

Lemma rsum_nonneg e i : 0 <= rsum e i.
Proof. apply bsum_nonneg. intros. apply wt_pos. Qed.
Lemma csum_nonneg e i : 0 <= csum e i.
Proof. apply bsum_nonneg. intros. apply wt_pos. Qed.

Lemma rsum_ge e i j : (j < n)%nat -> wt e i j <= rsum e i.
Proof. intros H. apply bsum_ge; auto. intros. apply wt_pos. Qed.
Lemma csum_ge e i j : (j < n)%nat -> wt e j i <= csum e i.
Proof. intros H. apply (@bsum_ge n (fun j => wt e j i)); auto. intros. apply wt_pos. Qed.

Lemma total_bump e i z : (i < n)%nat ->
  total (bump e i z) - total e <= rsum e i / two z + csum e i * two z - rsum e i - csum e i.
Proof.
  intros Hi. pose proof (two_pos z) as Pz. set (e' := bump e i z).
  set (h := fun a b => wt e' a b - wt e a b).
  assert (E : total e' - total e = bigsum n (fun a => bigsum n (h a))).
  { unfold total. rewrite <- bsum_minus. apply bigsum_ext. intros a _. unfold h. now rewrite <- bsum_minus. }
  assert (Hoff : forall a b, a <> i -> b <> i -> h a b = 0).
  { intros a b Ha Hb. unfold h. assert (e' a = e a) by (unfold e', bump; destruct (Nat.eqb_spec a i); lia).
    assert (e' b = e b) by (unfold e', bump; destruct (Nat.eqb_spec b i); lia).
    rewrite (@wt_same e' e a b) by auto. ring. }
  rewrite E, (@bsum_cross n h i) by auto.
  (* along row i *)
  assert (R1 : bigsum n (h i) <= (/ two z - 1) * rsum e i + wt e i i * (1 - / two z)).
  { unfold rsum. rewrite bigsum_mult_l.
    assert (D : forall m, (m <= n)%nat -> bigsum m (h i) =
      bigsum m (fun k => (/ two z - 1) * wt e i k) + (if (i <? m)%nat then wt e i i * (1 - / two z) else 0)).
    { induction m as [|m IH]; intros Hm; cbn [bigsum]; [cbn; ring|]. rewrite IH by lia.
      assert (Hh : h i m = (/ two z - 1) * wt e i m + (if (m =? i)%nat then wt e i i * (1 - / two z) else 0)).
      { unfold h. rewrite !wt_eq. unfold e', bump. rewrite Nat.eqb_refl. destruct (Nat.eqb_spec m i) as [->|].
        - replace (e i + z - (e i + z))%Z with 0%Z by lia. rewrite Z.sub_diag, two_0. ring.
        - replace (e m + 0 - (e i + z))%Z with (e m - e i + - z)%Z by lia. rewrite two_add, two_opp. ring. }
      rewrite Hh. destruct (Nat.ltb_spec i m), (Nat.ltb_spec i (S m)), (Nat.eqb_spec m i); try lia; ring. }
    rewrite D by lia. destruct (Nat.ltb_spec i n); [lra|lia]. }
  assert (C1 : bigsum n (fun a => h a i) <= (two z - 1) * csum e i + wt e i i * (1 - two z)).
  { unfold csum. rewrite bigsum_mult_l.
    assert (D : forall m, (m <= n)%nat -> bigsum m (fun a => h a i) =
      bigsum m (fun k => (two z - 1) * wt e k i) + (if (i <? m)%nat then wt e i i * (1 - two z) else 0)).
    { induction m as [|m IH]; intros Hm; cbn [bigsum]; [cbn; ring|]. rewrite IH by lia.
      assert (Hh : h m i = (two z - 1) * wt e m i + (if (m =? i)%nat then wt e i i * (1 - two z) else 0)).
      { unfold h. rewrite !wt_eq. unfold e', bump. rewrite Nat.eqb_refl. destruct (Nat.eqb_spec m i) as [->|].
        - replace (e i + z - (e i + z))%Z with 0%Z by lia. rewrite Z.sub_diag, two_0. ring.
        - replace (e i + z - (e m + 0))%Z with (e i - e m + z)%Z by lia. rewrite two_add. ring. }
      rewrite Hh. destruct (Nat.ltb_spec i m), (Nat.ltb_spec i (S m)), (Nat.eqb_spec m i); try lia; ring. }
    rewrite D by lia. destruct (Nat.ltb_spec i n); [lra|lia]. }
  assert (H0 : h i i = 0).
  { unfold h. rewrite !wt_eq, !Z.sub_diag. ring. }
  pose proof (wt_pos e i i) as W. rewrite H0.
  assert (Q : 2 <= two z + / two z).
  { assert (two z * / two z = 1) by (field; lra). set (u := two z) in *. set (v := / u) in *.
    assert (0 < v) by (apply Rinv_0_lt_compat; auto). pose proof (Rle_0_sqr (u - v)). unfold Rsqr in *. nra. }
  unfold Rdiv. nra.
Qed.

(** one scaling, at an index of l *)
Definition bstep (l : list nat) (e' e : nat -> Z) : Prop :=
  exists i z, In i l /\ (i < n)%nat /\ 0 < rsum e i /\ 0 < csum e i /\ e' = bump e i z
    /\ total e' <= total e - (rsum e i + csum e i) / 20.

Definition linked (i : nat) : Prop :=
  (i < n)%nat /\ (exists j, (j < n)%nat /\ f i j <> 0) /\ (exists j, (j < n)%nat /\ f j i <> 0).

Lemma linked_of e i : (i < n)%nat -> 0 < rsum e i -> 0 < csum e i -> linked i.
Proof.
  intros Hi Hr Hc. split; auto. split.
  - apply bsum_pos in Hr. destruct Hr as (j & Hj & N). exists j. split; auto. intros Z. apply N.
    rewrite wt_eq, Z, Rabs_R0. ring.
  - apply bsum_pos in Hc. destruct Hc as (j & Hj & N). exists j. split; auto. intros Z. apply N.
    rewrite wt_eq, Z, Rabs_R0. ring.
Qed.

(** while only l is scaled, some entry of its rows and columns stays large *)
Lemma big_entry l e0 : l <> [] -> (forall i, In i l -> linked i) ->
  exists d, 0 < d /\ forall e, (forall k, ~ In k l -> e k = e0 k) ->
  exists a b, (a < n)%nat /\ (b < n)%nat /\ (In a l \/ In b l) /\ d <= wt e a b.
Proof.
  intros Hl HL. destruct (seq_bound n e0) as (L & L0 & HB).
  destruct (min_pos2 n n f) as (m & Hm & Hmin).
  exists (m * two (- L)). split; [apply Rmult_lt_0_compat; auto; apply two_pos|]. intros e He.
  apply NNPP. intros N.
  assert (D : forall a b, (a < n)%nat -> (b < n)%nat -> In a l \/ In b l -> f a b <> 0 -> (e b + L < e a)%Z).
  { intros a b Ha Hb Hin Hf. assert (H : wt e a b < m * two (- L)).
    { apply Rnot_le_lt. intros H. apply N. exists a, b. auto. }
    rewrite wt_eq in H. specialize (Hmin a b Ha Hb Hf). pose proof (two_pos (e b - e a)).
    assert (two (e b - e a) < two (- L)).
    { apply Rmult_lt_reg_l with m; auto. eapply Rle_lt_trans; [|exact H]. apply Rmult_le_compat_r; lra. }
    apply two_lt_inv in H1. lia. }
  destruct (@list_min l e Hl) as (i & Hi & Mi).
  destruct (@list_min l (fun k => (- e k)%Z) Hl) as (i' & Hi' & Mi').
  destruct (HL i Hi) as (Hn & (j & Hj & Fj) & _).
  destruct (HL i' Hi') as (Hn' & _ & (j' & Hj' & Fj')).
  assert (D1 := D i j Hn Hj (or_introl Hi) Fj). assert (D2 := D j' i' Hj' Hn' (or_intror Hi') Fj').
  assert (O1 : ~ In j l) by (intros I; specialize (Mi j I); lia).
  assert (O2 : ~ In j' l) by (intros I; specialize (Mi' j' I); lia).
  rewrite (He j O1) in D1. rewrite (He j' O2) in D2.
  specialize (Mi i' Hi'). assert (B1 := HB j Hj). assert (B2 := HB j' Hj'). lia.
Qed.

Lemma acc_steps : forall m l e, (length l <= m)%nat -> Acc (bstep l) e.
Proof.
  induction m as [|m IHm]; intros l e Hl.
  { destruct l; [|cbn in Hl; lia]. constructor. intros e' (i & z & [] & _). }
  destruct (classic (forall i, In i l -> linked i)) as [HL|HL].
  2:{ apply not_all_ex_not in HL. destruct HL as (i & Hi). apply imply_to_and in Hi. destruct Hi as (Hi & Ni).
      apply (@Acc_incl _ (bstep l) (bstep (remove Nat.eq_dec i l))).
      - intros e' e1 (k & z & Hk & Hkn & Hr & Hc & H). exists k, z. split; [|auto].
        apply in_in_remove; auto. intros ->. apply Ni. eapply linked_of; eauto.
      - apply IHm. pose proof (remove_length_lt Nat.eq_dec l i Hi). lia. }
  destruct l as [|x l0] eqn:El.
  { constructor. intros e' (i & z & [] & _). }
  rewrite <- El in *. clear El.
  destruct (classic (l = [])) as [->|Hne]; [constructor; intros e' (i & z & [] & _)|].
  destruct (@big_entry l e Hne HL) as (d & Hd & Hbig).
  assert (M : forall N e1, (forall k, ~ In k l -> e1 k = e k) -> total e1 <= INR N * (d / 20) -> Acc (bstep l) e1).
  { induction N as [|N IHN]; intros e1 Hout HN.
    - constructor. intros e2 (i & z & _ & _ & Hr & Hc & _ & H). pose proof (total_nonneg e2). cbn [INR] in HN. lra.
    - destruct (Hbig e1 Hout) as (a & b & Ha & Hb & Hin & Hw).
      assert (K : exists k, In k l /\ (k = a \/ k = b)) by (destruct Hin; eauto).
      destruct K as (k & Hk & Kab).
      assert (A : Acc (bstep (remove Nat.eq_dec k l)) e1).
      { apply IHm. pose proof (remove_length_lt Nat.eq_dec l k Hk). lia. }
      clear Hin. revert Hout HN Hw. induction A as [e1 _ IHA]. intros Hout HN Hw.
      constructor. intros e2 (i & z & Hi & Hin & Hr & Hc & E & Ht).
      assert (Hout2 : forall k0, ~ In k0 l -> e2 k0 = e k0).
      { intros k0 H0. rewrite E. unfold bump. destruct (Nat.eqb_spec k0 i) as [->|]; [contradiction|]. rewrite Hout by auto. lia. }
      destruct (Nat.eq_dec i a) as [->|Na].
      { apply IHN; auto. pose proof (@rsum_ge e1 a b Hb). rewrite S_INR in HN. lra. }
      destruct (Nat.eq_dec i b) as [->|Nb].
      { apply IHN; auto. pose proof (@csum_ge e1 b a Ha). rewrite S_INR in HN. lra. }
      apply IHA; auto.
      + exists i, z. split; [|auto]. apply in_in_remove; auto. intros ->. destruct Kab; contradiction.
      + lra.
      + rewrite (@wt_same e2 e1 a b); auto; rewrite E; unfold bump;
          [destruct (Nat.eqb_spec a i)|destruct (Nat.eqb_spec b i)]; try lia; congruence. }
  destruct (@multiple_above (d / 20) (total e)) as (N & HN); [lra|]. apply (M N); auto.
Qed.

End W.

(** ** The scaling loops *)
Lemma lit2 : flit 2 0 = 2.
Proof. change (flit 2 0) with (Rlit 2 0). unfold Rlit. cbn. lra. Qed.
Lemma lit4 : flit 4 0 = 4.
Proof. change (flit 4 0) with (Rlit 4 0). unfold Rlit. cbn. lra. Qed.
Lemma lit95 : flit 95 2 = 95 / 100.
Proof. change (flit 95 2) with (Rlit 95 2). change 2%Z with (Z.of_nat 2). rewrite Rlit_frac. cbn. lra. Qed.

Lemma four_above c r : 0 < c -> exists N, r <= c * 4 ^ N.
Proof.
  intros Hc. destruct (@multiple_above c r Hc) as (N & HN). exists N.
  assert (INR N <= 4 ^ N).
  { clear. induction N as [|N IH]; [cbn; lra|]. rewrite S_INR. cbn [pow].
    assert (1 <= 4 ^ N) by (apply pow_R1_Rle; lra). lra. }
  nra.
Qed.

Lemma bal_up_run r2 : forall N c z0, 0 < c -> r2 <= c * 4 ^ N ->
  exists z c', (forall fuel, (N < fuel)%nat -> bal_up fuel c r2 (two z0) = Ok (two (z0 + z), c'))
    /\ c' = c * two z * two z /\ r2 <= c' /\ (z = 0%Z \/ c' < 4 * r2).
Proof.
  induction N as [|N IH]; intros c z0 Hc HN.
  - cbn [pow] in HN. exists 0%Z, c. split.
    { intros [|fuel] Hf; [lia|]. unfold bal_up. cbn [while_ flt NumR]. destruct (Rltb_spec c r2); [lra|].
      cbn [bind]. now rewrite Z.add_0_r. }
    rewrite two_0. split; [ring|]. split; [lra|auto].
  - destruct (Rlt_dec c r2) as [L|L].
    + destruct (IH (c * 4) (z0 + 1)%Z) as (z & c' & E & Ec & H1 & H2); [lra|cbn [pow] in HN; lra|].
      exists (1 + z)%Z, c'. split.
      { intros [|fuel] Hf; [lia|]. unfold bal_up. cbn [while_ flt NumR]. destruct (Rltb_spec c r2); [|lra].
        cbn [bind fmul NumR]. rewrite lit2, lit4. specialize (E fuel). unfold bal_up in E. cbn [flt fmul NumR] in E. rewrite lit2, lit4 in E.
        replace (two z0 * 2) with (two (z0 + 1)) by (rewrite two_add, two_1; ring). rewrite E by lia. do 3 f_equal. lia. }
      rewrite two_add, two_1. split; [rewrite Ec; ring|]. split; [auto|]. right. destruct H2 as [->|]; [|auto].
      rewrite Ec, two_0. lra.
    + exists 0%Z, c. split.
      { intros [|fuel] Hf; [lia|]. unfold bal_up. cbn [while_ flt NumR]. destruct (Rltb_spec c r2); [lra|].
        cbn [bind]. now rewrite Z.add_0_r. }
      rewrite two_0. split; [ring|]. split; [lra|auto].
Qed.

Lemma bal_down_run r2 : forall N c z0, 0 < c -> c <= r2 * 4 ^ N ->
  exists z c', (forall fuel, (N < fuel)%nat -> bal_down fuel c r2 (two z0) = Ok (two (z0 + z), c'))
    /\ c' = c * two z * two z /\ c' <= r2 /\ (z = 0%Z \/ r2 < 4 * c').
Proof.
  induction N as [|N IH]; intros c z0 Hc HN.
  - cbn [pow] in HN. exists 0%Z, c. split.
    { intros [|fuel] Hf; [lia|]. unfold bal_down, fgt. cbn [while_ flt NumR]. destruct (Rltb_spec r2 c); [lra|].
      cbn [bind]. now rewrite Z.add_0_r. }
    rewrite two_0. split; [ring|]. split; [lra|auto].
  - destruct (Rlt_dec r2 c) as [L|L].
    + destruct (IH (c / 4) (z0 + - (1))%Z) as (z & c' & E & Ec & H1 & H2); [lra|cbn [pow] in HN; lra|].
      exists (- (1) + z)%Z, c'. split.
      { intros [|fuel] Hf; [lia|]. unfold bal_down, fgt. cbn [while_ flt NumR]. destruct (Rltb_spec r2 c); [|lra].
        rewrite lit2, lit4. cbn [fdiv NumR]. rewrite !Rdivo_ok by lra. cbn [bind].
        specialize (E fuel). unfold bal_down, fgt in E. cbn [flt fdiv NumR] in E. rewrite lit2, lit4 in E.
        replace (two z0 / 2) with (two (z0 + - (1))) by (rewrite two_add, two_opp, two_1; reflexivity).
        rewrite E by lia. do 3 f_equal. lia. }
      rewrite two_add, two_opp, two_1. split; [rewrite Ec; field|]. split; [auto|]. right. destruct H2 as [->|]; [|auto].
      rewrite Ec, two_0. lra.
    + exists 0%Z, c. split.
      { intros [|fuel] Hf; [lia|]. unfold bal_down, fgt. cbn [while_ flt NumR]. destruct (Rltb_spec r2 c); [lra|].
        cbn [bind]. now rewrite Z.add_0_r. }
      rewrite two_0. split; [ring|]. split; [lra|auto].
Qed.

(** the power of two they find is the best one *)
Lemma best_scale c r z k : 0 < c -> 0 < r -> r / 2 <= c * two z * two z <= 2 * r ->
  c * two z + r / two z <= c * two k + r / two k.
Proof.
  intros Hc Hr (H1 & H2). pose proof (two_pos z) as Pz. pose proof (two_pos k) as Pk.
  set (x := c * two z). set (y := r / two z).
  assert (Hx : 0 < x) by (apply Rmult_lt_0_compat; auto).
  assert (Hy : 0 < y) by (apply Rdiv_lt_0_compat; auto).
  assert (Y : r = y * two z) by (unfold y; field; lra).
  assert (B1 : y <= 2 * x).
  { apply Rmult_le_reg_r with (two z); auto. unfold x in *. lra. }
  assert (B2 : x <= 2 * y).
  { apply Rmult_le_reg_r with (two z); auto. unfold x in *. lra. }
  set (t := two (k - z)). assert (Pt : 0 < t) by apply two_pos.
  replace (two k) with (two z * t) by (unfold t; rewrite <- two_add; f_equal; lia).
  replace (c * (two z * t)) with (x * t) by (unfold x; ring).
  replace (r / (two z * t)) with (y / t) by (unfold y; field; lra).
  assert (T : k = z \/ 2 <= t \/ t <= / 2).
  { destruct (Z.lt_trichotomy k z) as [H|[H|H]]; auto; right.
    - right. unfold t. replace (/ 2) with (two (- (1))) by (rewrite two_opp, two_1; reflexivity). apply two_le. lia.
    - left. unfold t. rewrite <- two_1. apply two_le. lia. }
  assert (E : x * t + y / t - (x + y) = (t - 1) * (x - y / t)) by (field; lra).
  assert (0 <= (t - 1) * (x - y / t)); [|lra].
  destruct T as [->|[T|T]].
  - unfold t. rewrite Z.sub_diag, two_0. lra.
  - assert (y / t <= y / 2).
    { unfold Rdiv. apply Rmult_le_compat_l; [lra|]. apply Rinv_le_contravar; lra. }
    apply Rmult_le_pos; lra.
  - assert (y * 2 <= y / t).
    { unfold Rdiv. apply Rmult_le_compat_l; [lra|]. replace 2 with (/ / 2) by field. apply Rinv_le_contravar; lra. }
    nra.
Qed.

(** ** Rounds, sweeps, the whole run *)
Lemma bind_eq A B (m : outcome A) (k : A -> outcome B) x : m = Ok x -> bind m k = k x.
Proof. now intros ->. Qed.

Section Run.
Variable bc : bool.
Variable n : nat.
Variable f : nat -> nat -> R.
Variable tl : buf R.

Definition state (e : nat -> Z) : buf R := mbuf (mat_of n n (balanced n f e) tl).
Definition settled (e : nat -> Z) (i : nat) : Prop :=
  rsum n f e i = 0 \/ csum n f e i = 0 \/
  forall k, 95 / 100 * (csum n f e i + rsum n f e i) <= csum n f e i * two k + rsum n f e i / two k.

Lemma bal_round_run e i g h done : (i < n)%nat -> 0 <= g -> 0 <= h ->
  exists F e' d',
  (forall fuel, (F <= fuel)%nat ->
     bal_round fuel n i (state e, done, (Some g, Some h)) = Ok (state e', d', (Some 0, Some 0)))
  /\ (g = 0 -> h = 0 -> (e' = e /\ d' = done /\ settled e i) \/ (d' = false /\ bstep n f (seq 0 n) e' e)).
Proof.
  intros Hi Hg Hh.
  set (r := g + rsum n f e i). set (c := h + csum n f e i).
  pose proof (rsum_nonneg n f e i) as R0. pose proof (csum_nonneg n f e i) as C0.
  assert (Hsum : for_ n 0 (fun j '(row, col) =>
      let! rv := lval row in
      let! x := rd (state e) (i * n + j)%nat in
      let! cv := lval col in
      let! y := rd (state e) (j * n + i)%nat in
      Ok (Some (rv + Rabs x), Some (cv + Rabs y))) (Some g, Some h) = Ok (Some r, Some c)).
  { unfold state. rewrite bal_sums by auto. reflexivity. }
  destruct (classic (r = 0 \/ c = 0)) as [Z|Z].
  { exists 0%nat, e, done. split.
    - intros fuel _. unfold bal_round. cbn [fadd fabs NumR]. erewrite bind_eq by exact Hsum. cbv beta iota.
      cbn [bind lval]. unfold fne. cbn [feq NumR f0].
      replace (negb (Reqb c 0) && negb (Reqb r 0)) with false; [reflexivity|].
      destruct (Reqb_spec c 0), (Reqb_spec r 0); cbn; auto. destruct Z; contradiction.
    - intros -> ->. left. split; [reflexivity|]. split; [reflexivity|]. unfold settled. unfold r, c in Z.
      rewrite !Rplus_0_l in Z. tauto. }
  apply not_or_and in Z. destruct Z as (Zr & Zc).
  assert (Pr : 0 < r) by (unfold r in *; lra). assert (Pc : 0 < c) by (unfold c in *; lra).
  destruct (@four_above c (r / 2) Pc) as (N1 & HN1).
  destruct (@bal_up_run (r / 2) N1 c 0%Z Pc HN1) as (z1 & c1 & Eu & Ec1 & U1 & U2).
  assert (Pc1 : 0 < c1) by lra.
  destruct (@four_above (r * 2) c1) as (N2 & HN2); [lra|].
  destruct (@bal_down_run (r * 2) N2 c1 (0 + z1)%Z Pc1 HN2) as (z2 & c2 & Ed & Ec2 & D1 & D2).
  set (z := (0 + z1 + z2)%Z) in *.
  assert (Ec : c2 = c * two z * two z).
  { rewrite Ec2, Ec1. unfold z. rewrite Z.add_0_l, two_add. ring. }
  assert (B : r / 2 <= c2 <= 2 * r).
  { split; [|lra]. destruct D2 as [->|]; [|lra]. rewrite Ec2, two_0. lra. }
  pose proof (two_pos z) as Pz.
  assert (Et : (c2 + r) / two z = c * two z + r / two z) by (rewrite Ec; field; lra).
  set (pass := Rltb ((c2 + r) / two z) (95 / 100 * (c + r))).
  set (e' := if pass then bump e i z else e). set (d' := if pass then false else done).
  exists (S (N1 + N2)), e', d'. split.
  - intros fuel Hf. unfold bal_round. cbn [fadd fabs NumR]. erewrite bind_eq by exact Hsum. cbv beta iota.
    cbn [bind lval]. unfold fne. cbn [feq NumR f0].
    destruct (Reqb_spec c 0); [contradiction|]. destruct (Reqb_spec r 0); [contradiction|]. cbn [negb andb].
    rewrite lit2, lit95. cbn [fdiv NumR]. rewrite Rdivo_ok by lra. cbn [bind].
    change f1 with (two 0). rewrite (Eu fuel) by lia. cbn [bind].
    cbn [fmul NumR]. rewrite (Ed fuel) by lia. cbn [bind].
    rewrite Rdivo_ok by lra. cbn [bind flt NumR]. fold pass. unfold e', d'. destruct pass.
    + rewrite Rdivo_ok by lra. cbn [bind].
      replace (two 0 / two z) with (/ two z) by (rewrite two_0; field; lra).
      pose proof (bal_scale (balanced n f e) tl z Hi) as E3. cbn [fmul NumR] in E3.
      match type of E3 with _ = Ok ?v => 
        match goal with |- context[for_ n 0 ?b0 (state e)] =>
          assert (E4 : for_ n 0 b0 (state e) = Ok v) by exact E3; rewrite E4 end end.
      cbn [bind]. do 3 f_equal. unfold state. f_equal. apply mat_ext. intros a b _ _. unfold balanced, bump.
      rewrite Rmult_assoc, <- two_add. f_equal. f_equal. lia.
    + reflexivity.
  - intros -> ->. unfold e', d', pass. unfold c, r in *. rewrite !Rplus_0_l in *.
    destruct (Rltb_spec ((c2 + rsum n f e i) / two z) (95 / 100 * (csum n f e i + rsum n f e i))) as [P|P].
    + right. split; [reflexivity|]. exists i, z. split; [apply in_seq; lia|]. split; [auto|]. split; [auto|].
      split; [auto|]. split; [reflexivity|]. pose proof (@total_bump n f e i z Hi). rewrite Et in P. lra.
    + left. split; [reflexivity|]. split; [reflexivity|]. right. right. intros k.
      apply Rnot_lt_le in P. rewrite Et in P. eapply Rle_trans; [exact P|]. apply best_scale; auto. rewrite <- Ec. lra.
Qed.

(** the rounds from lo on *)
Lemma bal_rounds_run : forall m lo e done, (lo + m <= n)%nat ->
  exists F e' d',
  (forall fuel, (F <= fuel)%nat ->
     for_ m lo (bal_round fuel n) (state e, done, (Some 0, Some 0)) = Ok (state e', d', (Some 0, Some 0)))
  /\ ((e' = e /\ d' = done /\ forall i, (lo <= i < lo + m)%nat -> settled e i)
      \/ (d' = false /\ clos_trans _ (bstep n f (seq 0 n)) e' e)).
Proof.
  induction m as [|m IH]; intros lo e done Hm.
  - exists 0%nat, e, done. split; [reflexivity|]. left. split; [auto|]. split; [auto|]. intros; lia.
  - destruct (@bal_round_run e lo 0 0 done) as (F1 & e1 & d1 & E1 & P1); [lia|lra|lra|].
    destruct (IH (S lo) e1 d1) as (F2 & e2 & d2 & E2 & P2); [lia|].
    exists (F1 + F2)%nat, e2, d2. split.
    + intros fuel Hf. cbn [for_]. rewrite E1 by lia. cbn [bind]. apply E2. lia.
    + destruct (P1 eq_refl eq_refl) as [(-> & -> & S1)|(-> & T1)].
      * destruct P2 as [(-> & -> & S2)|(-> & T2)].
        -- left. split; [auto|]. split; [auto|]. intros i Hi. destruct (Nat.eq_dec i lo) as [->|]; [auto|]. apply S2. lia.
        -- right. auto.
      * right. destruct P2 as [(-> & -> & _)|(-> & T2)]; (split; [reflexivity|]).
        -- now apply t_step.
        -- eapply t_trans; [exact T2|]. now apply t_step.
Qed.

Definition sweep (fuel : nat) : buf R * (option R * option R) -> outcome (buf R * (option R * option R) + buf R) :=
  fun '(b, rowcol) =>
    let! (b, done, rowcol) := for_ n 0 (bal_round fuel n) (b, true, rowcol) in
    if (done : bool) then Ok (inr b) else Ok (inl (b, rowcol)).

Lemma sweeps_run e : exists F e',
  (forall fo fi, (F <= fo)%nat -> (F <= fi)%nat -> while_ fo (sweep fi) (state e, (Some 0, Some 0)) = Ok (state e'))
  /\ forall i, (i < n)%nat -> settled e' i.
Proof.
  assert (A : Acc (clos_trans _ (bstep n f (seq 0 n))) e).
  { apply Acc_clos_trans. apply (@acc_steps n f n). rewrite seq_length. auto. }
  induction A as [e _ IH].
  destruct (@bal_rounds_run n 0 e true) as (F1 & e1 & d1 & E1 & P1); [lia|].
  destruct P1 as [(-> & -> & S1)|(-> & T1)].
  - exists (S F1), e. split.
    + intros [|fo] fi Ho Hi; [lia|]. cbn [while_]. unfold sweep at 1. rewrite E1 by lia. reflexivity.
    + intros i Hi. apply S1. lia.
  - destruct (IH e1 T1) as (F2 & e2 & E2 & S2). exists (S (F1 + F2)), e2. split; [|exact S2].
    intros [|fo] fi Ho Hi; [lia|]. cbn [while_]. unfold sweep at 1. rewrite E1 by lia. cbn [bind]. apply E2; lia.
Qed.

(** whatever non-negative values row and col start with *)
Lemma sweeps_garbage e g h : 0 <= g -> 0 <= h -> exists F e',
  (forall fo fi, (F <= fo)%nat -> (F <= fi)%nat -> while_ fo (sweep fi) (state e, (Some g, Some h)) = Ok (state e')).
Proof.
  intros Hg Hh. destruct (Nat.eq_dec n 0) as [En|En].
  { exists 1%nat, e. intros [|fo] fi Ho Hi; [lia|]. cbn [while_]. unfold sweep at 1. rewrite En. reflexivity. }
  destruct (@bal_round_run e 0 g h true) as (F0 & e0 & d0 & E0 & _); [lia|auto|auto|].
  destruct (@bal_rounds_run (n - 1) 1 e0 d0) as (F1 & e1 & d1 & E1 & _); [lia|].
  destruct (sweeps_run e1) as (F2 & e2 & E2 & _).
  assert (E : forall fi, (F0 + F1 <= fi)%nat -> for_ n 0 (bal_round fi n) (state e, true, (Some g, Some h))
      = Ok (state e1, d1, (Some 0, Some 0))).
  { intros fi Hi. replace n with (S (n - 1)) at 1 by lia. cbn [for_]. rewrite E0 by lia. cbn [bind]. apply E1. lia. }
  exists (S (F0 + F1 + F2)), (if d1 then e1 else e2). intros [|fo] fi Ho Hi; [lia|]. cbn [while_]. unfold sweep at 1.
  rewrite E by lia. cbn [bind]. destruct d1; cbn [bind]; [reflexivity|]. apply E2; lia.
Qed.

Lemma balance_eq fuel row0 col0 mo t0 : room n n mo -> rest mo = tl ->
  mtx_balance bc fuel row0 col0 (mat_of n n f t0) mo
  = let! b := while_ fuel (sweep fuel) (state (fun _ => 0%Z), (row0, col0)) in Ok (0%Z, Mtx n n b).
Proof.
  intros Hm Ht. unfold mtx_balance. pose proof Hm as (Hr & Hc & _).
  change (mrows (mat_of n n f t0)) with n. change (mcols (mat_of n n f t0)) with n.
  rewrite Hr, Hc, !Nat.eqb_refl. cbn [negb orb]. rewrite Bool.andb_false_r.
  rewrite mtx_copy_ok by exact Hm. cbn [bind Z.eqb negb]. rewrite Ht.
  replace (state (fun _ => 0%Z)) with (mbuf (mat_of n n f tl)); [reflexivity|].
  unfold state. f_equal. apply mat_ext. intros i j _ _. unfold balanced. rewrite Z.sub_diag, two_0. ring.
Qed.
End Run.

Theorem balance_ends bc n f tl mo : room n n mo -> exists F e,
  (forall fuel, (F <= fuel)%nat ->
     mtx_balance bc fuel (Some 0) (Some 0) (mat_of n n f tl) mo = Ok (0%Z, mat_of n n (balanced n f e) (rest mo)))
  /\ forall i, (i < n)%nat -> settled n f e i.
Proof.
  intros Hm. destruct (@sweeps_run n f (rest mo) (fun _ => 0%Z)) as (F & e & E & S). exists F, e. split; [|exact S].
  intros fuel Hf. rewrite (@balance_eq bc n f (rest mo)) by auto. rewrite E by auto. reflexivity.
Qed.

Theorem balance_ends_garbage bc n f tl mo g h : room n n mo -> 0 <= g -> 0 <= h -> exists F e,
  forall fuel, (F <= fuel)%nat ->
     mtx_balance bc fuel (Some g) (Some h) (mat_of n n f tl) mo = Ok (0%Z, mat_of n n (balanced n f e) (rest mo)).
Proof.
  intros Hm Hg Hh. destruct (@sweeps_garbage n f (rest mo) (fun _ => 0%Z) g h Hg Hh) as (F & e & E). exists F, e.
  intros fuel Hf. rewrite (@balance_eq bc n f (rest mo)) by auto. rewrite E by auto. reflexivity.
Qed.

Theorem eigenvalues_end bc n f tl vs vb iter : (0 < n)%nat -> (n <= length vb)%nat -> (vs <= length vb)%nat ->
  exists F rc v', forall fuel, (F <= fuel)%nat ->
  mtx_eigenvalues bc fuel (Some 0) (Some 0) (mat_of n n f tl) (Vec vs vb) iter = Ok (rc, v').
Proof.
  intros Hn Hl Hvs. destruct (@balance_ends bc n f tl (mtx_def n n) (room_def n n)) as (F & e & E & _).
  rewrite rest_def in E.
  destruct (@qrd_hessenberg bc n (balanced n f e) [] (mtx_def n n) (mtx_def n n)) as (q & r & Eq & Oq & _);
    [lia|apply room_def|apply room_def|]. rewrite !rest_def in Eq.
  destruct (@qrd_iter_ok bc n r [] (mat_of n n q []) iter) as (p & A & Ei & _); [auto|apply mat_room|].
  rewrite mat_rest in Ei.
  set (vb0 := cells (repeat f0 vs) ++ skipn vs vb).
  assert (Hl0 : (n <= length vb0)%nat).
  { unfold vb0. rewrite app_length, cells_length, repeat_length, skipn_length. lia. }
  destruct (mtx_is_sym_ok bc n f tl) as (b & Es & Hb).
  assert (K : exists rc v', (if b then
      let! (vb, _) := for_ n 0 (fun g '(vb, diag) =>
        let! diag := lget bc (mat_of n n A []) g g diag in
        let! dv := lval diag in
        let! vb := wr vb g dv in
        Ok (vb, diag)) (vb0, None) in
      Ok (0%Z, Vec vs vb)
    else
      let! s := eig_scan bc n (mat_of n n A []) n 0 (vb0, 0%nat, None, None) in
      let '(vb, real, diag, sdiag) := s in
      let! sdiag := lget bc (mat_of n n A []) (n - 1) (n - 2) sdiag in
      let! sv := lval sdiag in
      let! (vb, real) :=
        if is_big sv then Ok (vb, real)
        else
          let! diag := lget bc (mat_of n n A []) (n - 1) (n - 1) diag in
          let! dv := lval diag in
          let! vb := wr vb real dv in
          Ok (vb, S real) in
      let v := Vec real vb in
      if negb (real =? n)%nat then Ok ((- ECOMPLEXVAL)%Z, v)
      else let! (_, v) := vec_zte v in Ok (0%Z, v)) = Ok (rc, v')).
  { destruct b.
    - destruct (@eig_diag bc n A [] vb0 Hl0) as (d & Ed). erewrite bind_eq by exact Ed. cbv beta iota. eauto.
    - assert (Hn2 : (2 <= n)%nat).
      { destruct (le_lt_dec 2 n); auto. exfalso. enough (false = true) by discriminate. apply Hb. intros i j Hi Hj.
        assert (i = 0%nat) by lia. assert (j = 0%nat) by lia. subst. apply asym_R.
        replace (f 0%nat 0%nat - f 0%nat 0%nat) with 0 by ring. rewrite Rabs_R0. lra. }
      destruct (@eig_scan_ok bc n A [] n 0 vb0 0%nat None None) as (vb' & real' & d' & sd' & Ee & H1 & H2 & H3 & H4);
        [lia|lia|auto|].
      unfold buf in *. rewrite Ee. cbn [bind]. rewrite lget_mat by lia. cbn [bind lval].
      destruct (is_big (A (n - 1)%nat (n - 2)%nat)) eqn:Eb; cbn [bind].
      + destruct (Nat.eqb_spec real' n); [lia|]. cbn [negb]. eauto.
      + rewrite lget_mat by lia. cbn [bind lval]. rewrite wr_ok by lia. cbn [bind].
        destruct (Nat.eqb_spec (S real') n) as [Er|Er]; cbn [negb]; [|eauto].
        assert (Ha : forall k, (0 <= k < n - 1)%nat -> is_big (A (S k) k) = false).
        { intros k Hk. destruct (is_big (A (S k) k)) eqn:Ek; auto. exfalso.
          assert (real' < 0 + (n - 1 - 0))%nat; [|lia]. apply H3. exists k. split; auto. }
        destruct (H4 Ha) as (Hr & Hv).
        assert (EV : Vec (S real') (upd vb' real' (Some (A (n - 1)%nat (n - 1)%nat)))
                   = vec_of (tab n (dg A)) (skipn n vb0)).
        { unfold vec_of. rewrite tab_length. f_equal; [exact Er|].
          rewrite Hv. cbn [firstn app]. replace (n - 1 - 0)%nat with real' by lia.
          rewrite (@skipn_cons_nth _ vb0 real' None) by lia.
          assert (W := @wr_mid R (cells (tab real' (fun k => dg A (0 + k)%nat))) (skipn (S real') vb0)
                         (nth real' vb0 None) (A (n - 1)%nat (n - 1)%nat)).
          rewrite cells_length, tab_length in W. rewrite wr_ok in W.
          2:{ rewrite app_length, cells_length, tab_length. cbn [length]. lia. }
          apply (f_equal (fun o => match o with Ok x => x | _ => [] end)) in W.
          unfold buf in *. rewrite W.
          replace (tab n (dg A)) with (tab real' (dg A) ++ [dg A real']).
          2:{ rewrite <- tab_snoc. f_equal. exact Er. }
          rewrite cells_app, <- app_assoc. rewrite Er. replace (n - 1)%nat with real' by lia. reflexivity. }
        rewrite EV, vec_zte_ok. cbn [bind]. eauto. }
  destruct K as (rc & v' & K). exists F, rc, v'. intros fuel Hf. unfold mtx_eigenvalues.
  change (mrows (mat_of n n f tl)) with n. rewrite E by auto. cbn [bind]. rewrite Eq. cbn [bind].
  rewrite Ei. cbn [bind]. rewrite vec_init_ok by auto. cbn [bind vbuf vsz]. rewrite Es. cbn [bind]. exact K.
Qed.
