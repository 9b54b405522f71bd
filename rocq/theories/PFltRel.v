(** Relative accuracy of products, quotients, square roots and sums of
    positive terms. *)
From Coq Require Import Floats.PrimFloat.
From Flocq Require Import Core Relative.
From Coq Require Import ZArith Reals Lra Lia Bool.
From Coq Require FloatOps SpecFloat.
From Verif Require Import Base NumF SpecPhys SpecFlt SpecFltRel PFlt PFltUnit PFltQuat PRgbFlt PFltStat PFltVar PPoly.
Open Scope R_scope.

Notation q := (1 + uu) (only parsing).

Lemma q_ge1 : 1 <= q.
Proof. pose proof uu_pos. lra. Qed.
Lemma qk_ge1 k : 1 <= q ^ k.
Proof. apply pow_R1_Rle, q_ge1. Qed.
Lemma qk_pos k : 0 < q ^ k.
Proof. pose proof (qk_ge1 k). lra. Qed.
Lemma qk_mono a b : (a <= b)%nat -> q ^ a <= q ^ b.
Proof. intros. apply Rle_pow; auto. apply q_ge1. Qed.

Lemma qk_le2 k : (k <= 100)%nat -> q ^ k <= 2.
Proof.
  intros H. apply Rle_trans with (q ^ 100); [now apply qk_mono|]. rewrite uu_val.
  replace (1 + / 9007199254740992) with (9007199254740993 / 9007199254740992) by field.
  apply Rle_trans with ((1 + / 200) ^ 100).
  - apply pow_incr. lra.
  - lra.
Qed.

Definition btw (k : nat) (t : R) : Prop := / q ^ k <= t <= q ^ k.

Lemma btw_pos k t : btw k t -> 0 < t.
Proof. intros (H & _). pose proof (Rinv_0_lt_compat _ (qk_pos k)). lra. Qed.
Lemma btw_0 : btw 0 1.
Proof. split; cbn; lra. Qed.
Lemma btw_mono a b t : (a <= b)%nat -> btw a t -> btw b t.
Proof.
  intros H (L & U). pose proof (qk_mono a b H). split; [|lra].
  eapply Rle_trans; [|exact L]. apply Rinv_le_contravar; auto. apply qk_pos.
Qed.
Lemma btw_mul a b s t : btw a s -> btw b t -> btw (a + b) (s * t).
Proof.
  intros (L1 & U1) (L2 & U2). pose proof (Rinv_0_lt_compat _ (qk_pos a)). pose proof (Rinv_0_lt_compat _ (qk_pos b)).
  unfold btw. rewrite pow_add, Rinv_mult. split; apply Rmult_le_compat; lra.
Qed.
Lemma btw_inv a t : btw a t -> btw a (/ t).
Proof.
  intros H. pose proof (btw_pos _ _ H). destruct H as (L & U). pose proof (qk_pos a). split.
  - apply Rinv_le_contravar; auto.
  - rewrite <- (Rinv_inv (q ^ a)). apply Rinv_le_contravar; auto. now apply Rinv_0_lt_compat.
Qed.
Lemma btw_sqrt a t : btw a t -> btw a (sqrt t).
Proof.
  intros H. pose proof (btw_pos _ _ H) as P. destruct H as (L & U). pose proof (qk_ge1 a) as Q.
  assert (/ q ^ a <= 1) by (pose proof (Rinv_le_contravar 1 (q ^ a)) as I; rewrite Rinv_1 in I; apply I; lra).
  pose proof (sqrt_sqrt t ltac:(lra)) as S. pose proof (sqrt_lt_R0 t P) as S0.
  unfold btw. destruct (Rle_lt_dec 1 t).
  - assert (1 <= sqrt t) by (rewrite <- sqrt_1; now apply sqrt_le_1_alt). assert (sqrt t <= t) by nra. lra.
  - assert (sqrt t <= 1) by (rewrite <- sqrt_1; apply sqrt_le_1_alt; lra). assert (t <= sqrt t) by nra. lra.
Qed.
Lemma btw_size k t : (k <= 100)%nat -> btw k t -> / 2 <= t <= 2.
Proof.
  intros K (L & U). pose proof (qk_le2 k K). split; [|lra]. eapply Rle_trans; [|exact L].
  apply Rinv_le_contravar; auto. apply qk_pos.
Qed.

(** Rounding to nearest, away from underflow *)
Lemma rnd_rel r : / 2 ^ 1000 <= Rabs r -> exists t, btw 1 t /\ rnd64 r = r * t.
Proof.
  intros H.
  assert (B : bpow radix2 (-1074 + 53 - 1) <= Rabs r).
  { eapply Rle_trans; [|exact H]. replace (/ 2 ^ 1000) with (bpow radix2 (-1000)).
    - apply bpow_le. lia.
    - change (-1000)%Z with (- (1000))%Z. rewrite bpow_opp, <- (IZR_Zpower radix2) by lia. now rewrite pow_IZR. }
  assert (E : rnd64 r = round radix2 (FLX_exp 53) ZnearestE r).
  { change (SpecFloat.fexp FloatOps.prec FloatOps.emax) with (FLT_exp (-1074) 53).
    apply round_FLT_FLX. exact B. }
  destruct (@relative_error_N_FLX'_ex radix2 53 eq_refl (fun x => negb (Z.even x)) r) as (d & D & Ed).
  exists (1 + d). rewrite E. split; [|exact Ed].
  assert (U : u_ro radix2 53 = uu) by (rewrite <- uu_bpow; reflexivity).
  rewrite U in D. pose proof uu_pos as P. unfold btw. rewrite pow_1.
  assert (I : / q = 1 - uu / q) by (field; lra).
  assert (J : uu / q <= uu).
  { pose proof (Rinv_le_contravar 1 q) as K. rewrite Rinv_1 in K. specialize (K ltac:(lra) ltac:(lra)).
    unfold Rdiv. nra. }
  unfold Rabs in D. destruct Rcase_abs; lra.
Qed.

(** x is r up to k roundings, and |r| is between 2^-e and 2^e *)
Definition nice (k e : nat) (x : double) (r : R) : Prop :=
  finite x /\ (exists t, btw k t /\ FR x = r * t) /\ / 2 ^ e <= Rabs r <= 2 ^ e.

Lemma nice_within k e x r : nice k e x r -> within k x r.
Proof. intros (F & T & _). split; auto. Qed.
Lemma within_mono a b x r : (a <= b)%nat -> within a x r -> within b x r.
Proof. intros H (F & t & T & E). split; auto. exists t. split; auto. now apply (btw_mono a b). Qed.

Lemma p2 e : 0 < 2 ^ e.
Proof. apply pow_lt. lra. Qed.
Lemma ip2 e : 0 < / 2 ^ e.
Proof. apply Rinv_0_lt_compat, p2. Qed.

Lemma nice_nz k e x r : nice k e x r -> r <> 0.
Proof. intros (_ & _ & L & _) ->. rewrite Rabs_R0 in L. pose proof (ip2 e). lra. Qed.

Lemma nice_moderate x : moderate x -> nice 0 100 x (FR x).
Proof. intros (F & B). split; auto. split; auto. exists 1. split; [apply btw_0|ring]. Qed.

(** the size of an operand, or of the exact result of an operation on operands *)
Lemma size k e r t : (k <= 100)%nat -> (e <= 998)%nat -> btw k t -> / 2 ^ e <= Rabs r <= 2 ^ e ->
  / 2 ^ 1000 <= Rabs (r * t) <= big.
Proof.
  intros K He T (L & U). pose proof (btw_size k t K T) as (T1 & T2). rewrite Rabs_mult, (Rabs_pos_eq t) by lra.
  pose proof (ip2 e). pose proof (p2 e). unfold big.
  assert (A : / 2 ^ 1000 <= / 2 ^ e * / 2).
  { rewrite <- Rinv_mult. apply Rinv_le_contravar; [apply Rmult_lt_0_compat; [apply p2|lra]|].
    replace (2 ^ e * 2) with (2 ^ (S e)) by (cbn [pow]; ring). apply Rle_pow; [lra|lia]. }
  assert (B : 2 ^ e * 2 <= 2 ^ 1000).
  { replace (2 ^ e * 2) with (2 ^ (S e)) by (cbn [pow]; ring). apply Rle_pow; [lra|lia]. }
  split.
  - eapply Rle_trans; [exact A|]. apply Rmult_le_compat; lra.
  - eapply Rle_trans; [|exact B]. apply Rmult_le_compat; try lra; try apply Rabs_pos.
Qed.

Lemma nice_rnd k e (z : double) r t :
  (k < 100)%nat -> (e <= 998)%nat -> finite z -> btw k t -> / 2 ^ e <= Rabs r <= 2 ^ e ->
  FR z = rnd64 (r * t) -> nice (S k) e z r.
Proof.
  intros K He F T B E. destruct (size k e r t) as (L & _); auto; [lia|].
  destruct (rnd_rel _ L) as (s & Ts & Es). split; [exact F|]. split; [|exact B].
  exists (t * s). split; [|rewrite E, Es; ring].
  replace (S k) with (k + 1)%nat by lia. now apply btw_mul.
Qed.

Lemma size_mul a b r s : / 2 ^ a <= Rabs r <= 2 ^ a -> / 2 ^ b <= Rabs s <= 2 ^ b ->
  / 2 ^ (a + b) <= Rabs (r * s) <= 2 ^ (a + b).
Proof.
  intros (L1 & U1) (L2 & U2). rewrite pow_add, Rinv_mult, Rabs_mult. pose proof (ip2 a). pose proof (ip2 b).
  split; apply Rmult_le_compat; lra.
Qed.
Lemma size_inv a r : / 2 ^ a <= Rabs r <= 2 ^ a -> / 2 ^ a <= Rabs (/ r) <= 2 ^ a.
Proof.
  intros (L & U). pose proof (ip2 a). pose proof (p2 a).
  rewrite Rabs_inv. split.
  - apply Rinv_le_contravar; lra.
  - rewrite <- (Rinv_inv (2 ^ a)). now apply Rinv_le_contravar.
Qed.

Lemma nice_mul j k a b x y r s :
  nice j a x r -> nice k b y s -> (j + k < 100)%nat -> (a + b <= 998)%nat ->
  nice (S (j + k)) (a + b) (x * y)%float (r * s).
Proof.
  intros (F1 & (t1 & T1 & E1) & B1) (F2 & (t2 & T2 & E2) & B2) K He.
  pose proof (btw_mul _ _ _ _ T1 T2) as T. pose proof (size_mul _ _ _ _ B1 B2) as B.
  assert (X : FR x * FR y = r * s * (t1 * t2)) by (rewrite E1, E2; ring).
  assert (F : finite (x * y)%float).
  { apply mul_finite; auto. rewrite X. apply (size (j + k) (a + b)); auto; lia. }
  apply nice_rnd with (t := t1 * t2); auto. rewrite <- X. now apply mul_rnd.
Qed.

Lemma nice_div j k a b x y r s :
  nice j a x r -> nice k b y s -> (j + k < 100)%nat -> (a + b <= 998)%nat ->
  nice (S (j + k)) (a + b) (x / y)%float (r / s).
Proof.
  intros N1 N2 K He. pose proof (nice_nz _ _ _ _ N2) as Hs.
  destruct N1 as (F1 & (t1 & T1 & E1) & B1), N2 as (F2 & (t2 & T2 & E2) & B2).
  pose proof (btw_mul _ _ _ _ T1 (btw_inv _ _ T2)) as T. pose proof (size_mul _ _ _ _ B1 (size_inv _ _ B2)) as B.
  pose proof (btw_pos _ _ T2).
  assert (X : FR x / FR y = r * / s * (t1 * / t2)) by (rewrite E1, E2; field; lra).
  assert (Y : FR y <> 0) by (rewrite E2; apply Rmult_integral_contrapositive_currified; lra).
  assert (F : finite (x / y)%float).
  { apply div_finite; auto. rewrite X. apply (size (j + k) (a + b)); auto; lia. }
  change (r / s) with (r * / s). apply nice_rnd with (t := t1 * / t2); auto. rewrite <- X. now apply div_rnd.
Qed.

Lemma nice_sqrt k a x r :
  nice k a x r -> 0 < r -> (k < 100)%nat -> (a <= 998)%nat -> nice (S k) a (PrimFloat.sqrt x) (sqrt r).
Proof.
  intros (F1 & (t1 & T1 & E1) & B1) R K He. pose proof (btw_pos _ _ T1) as P.
  assert (G : 0 <= FR x) by (rewrite E1; apply Rmult_le_pos; lra).
  assert (F : finite (PrimFloat.sqrt x)) by now apply sqrt_finite.
  assert (X : sqrt (FR x) = sqrt r * sqrt t1) by (rewrite E1; apply sqrt_mult; lra).
  assert (B : / 2 ^ a <= Rabs (sqrt r) <= 2 ^ a).
  { rewrite Rabs_pos_eq in * by (try apply sqrt_pos; lra). pose proof (sqrt_sqrt r ltac:(lra)) as S.
    pose proof (sqrt_lt_R0 r R) as S0.
    assert (1 <= 2 ^ a) by (apply pow_R1_Rle; lra).
    assert (/ 2 ^ a <= 1) by (pose proof (Rinv_le_contravar 1 (2 ^ a)) as I; rewrite Rinv_1 in I; apply I; lra).
    destruct (Rle_lt_dec 1 r).
    - assert (1 <= sqrt r) by (rewrite <- sqrt_1; now apply sqrt_le_1_alt). assert (sqrt r <= r) by nra. lra.
    - assert (sqrt r <= 1) by (rewrite <- sqrt_1; apply sqrt_le_1_alt; lra). assert (r <= sqrt r) by nra. lra. }
  apply nice_rnd with (t := sqrt t1); auto; [now apply btw_sqrt|]. rewrite <- X. now apply sqrt_rnd.
Qed.

Lemma nice_opp k a x r : nice k a x r -> nice k a (- x)%float (- r).
Proof.
  intros (F & (t & T & E) & B). split; [now apply opp_finite|]. split.
  - exists t. split; auto. rewrite opp_FR, E. ring.
  - now rewrite Rabs_Ropp.
Qed.

Lemma nice_add k a x y r s :
  nice k a x r -> nice k a y s -> 0 < r -> 0 < s -> (k < 99)%nat -> (a < 998)%nat ->
  nice (S k) (S a) (x + y)%float (r + s).
Proof.
  intros (F1 & (t1 & T1 & E1) & B1) (F2 & (t2 & T2 & E2) & B2) R0 S0 K He.
  rewrite Rabs_pos_eq in B1, B2 by lra. pose proof (ip2 a). pose proof (p2 a).
  assert (B : / 2 ^ (Datatypes.S a) <= Rabs (r + s) <= 2 ^ (Datatypes.S a)).
  { rewrite Rabs_pos_eq by lra. cbn [pow]. rewrite Rinv_mult. split; lra. }
  set (t := (r * t1 + s * t2) / (r + s)).
  assert (T : btw k t).
  { unfold t. destruct T1 as (L1 & U1), T2 as (L2 & U2). split.
    - apply Rmult_le_reg_r with (r + s); [lra|]. unfold Rdiv. rewrite Rmult_assoc, Rinv_l by lra. nra.
    - apply Rmult_le_reg_r with (r + s); [lra|]. unfold Rdiv. rewrite Rmult_assoc, Rinv_l by lra. nra. }
  assert (X : FR x + FR y = (r + s) * t) by (rewrite E1, E2; unfold t; field; lra).
  destruct (size k (Datatypes.S a) (r + s) t) as (_ & U); auto; try lia.
  assert (F : finite (x + y)%float) by (apply add_finite; auto; now rewrite X).
  apply nice_rnd with (t := t); auto; try lia. rewrite <- X. now apply add_rnd.
Qed.

Lemma nice_mono j k a b x r : (j <= k)%nat -> (a <= b)%nat -> nice j a x r -> nice k b x r.
Proof.
  intros H1 H2 (F & (t & T & E) & (L & U)). split; auto. split; [exists t; split; auto; now apply (btw_mono j)|].
  assert (M : 2 ^ a <= 2 ^ b) by (apply Rle_pow; [lra|auto]). split; [|lra].
  eapply Rle_trans; [|exact L]. apply Rinv_le_contravar; auto. apply p2.
Qed.

(** ** Literals *)
Lemma FR_posZ z : (0 < z < 2 ^ 53)%Z -> finite (F_of_Z z) /\ FR (F_of_Z z) = IZR z.
Proof.
  intros H. destruct (FR_of_nat (Z.to_nat z)) as (A & B); [rewrite Z2Nat.id; lia|].
  rewrite Z2Nat.id in A, B by lia. rewrite INR_IZR_INZ, Z2Nat.id in B by lia. auto.
Qed.

Lemma nice_Z z : (0 < z < 2 ^ 53)%Z -> nice 0 53 (F_of_Z z) (IZR z).
Proof.
  intros H. destruct (FR_posZ z H) as (F & E). split; auto. split; [exists 1; split; [apply btw_0|lra]|].
  assert (1 <= IZR z) by (apply IZR_le; lia). rewrite Rabs_pos_eq by lra. split.
  - pose proof (Rinv_le_contravar 1 (2 ^ 53)) as I. rewrite Rinv_1 in I.
    assert (1 <= 2 ^ 53) by (apply pow_R1_Rle; lra). specialize (I ltac:(lra) ltac:(lra)). lra.
  - rewrite pow_IZR. apply IZR_le. change (2 ^ Z.of_nat 53)%Z with (2 ^ 53)%Z. lia.
Qed.

Lemma prz_neg p : powerRZ 2 (Z.neg p) = / IZR (2 ^ Z.pos p).
Proof. cbn [powerRZ]. rewrite pow_IZR. now rewrite positive_nat_Z. Qed.
Lemma prz_pos p : powerRZ 2 (Z.pos p) = IZR (2 ^ Z.pos p).
Proof. cbn [powerRZ]. rewrite pow_IZR. now rewrite positive_nat_Z. Qed.

Lemma FR_pow10 n : (n <= 22)%nat -> finite (F_pow10 n) /\ FR (F_pow10 n) = 10 ^ n.
Proof.
  intros H. do 23 (destruct n as [|n]; [split; [now vm_compute|]; unfold FR;
    match goal with |- context [FloatOps.Prim2SF ?x] =>
      let y := eval vm_compute in (FloatOps.Prim2SF x) in
      replace (FloatOps.Prim2SF x) with y by (vm_compute; reflexivity) end; cbv iota;
    rewrite ?prz_neg, ?prz_pos;
    repeat match goal with |- context [(2 ^ Z.pos ?p)%Z] =>
      let v := eval vm_compute in (2 ^ Z.pos p)%Z in change (2 ^ Z.pos p)%Z with v end;
    try change (powerRZ 2 0) with 1; cbn [pow]; lra|]).
  lia.
Qed.

Lemma nice_lit m e : (0 < m < 2 ^ 53)%Z -> (0 <= e <= 22)%Z ->
  nice 1 127 (F_lit m e) (IZR m / 10 ^ (Z.to_nat e)).
Proof.
  intros Hm He. unfold F_lit. destruct (Z.leb_spec 0 e); [|lia].
  assert (P : nice 0 74 (F_pow10 (Z.to_nat e)) (10 ^ Z.to_nat e)).
  { destruct (FR_pow10 (Z.to_nat e)) as (F & E); [lia|]. split; auto. split; [exists 1; split; [apply btw_0|lra]|].
    assert (1 <= 10 ^ Z.to_nat e) by (apply pow_R1_Rle; lra). rewrite Rabs_pos_eq by lra. split.
    - pose proof (Rinv_le_contravar 1 (2 ^ 74)) as I. rewrite Rinv_1 in I.
      assert (1 <= 2 ^ 74) by (apply pow_R1_Rle; lra). specialize (I ltac:(lra) ltac:(lra)). lra.
    - apply Rle_trans with (10 ^ 22); [apply Rle_pow; [lra|lia]|lra]. }
  exact (nice_div _ _ _ _ _ _ _ _ (nice_Z m Hm) P ltac:(lia) ltac:(lia)).
Qed.

Lemma nice_half : nice 0 1 (F_lit 5 1) (1 / 2).
Proof.
  destruct (FR_posZ 5) as (_ & _); [lia|]. split; [now vm_compute|]. split.
  - exists 1. split; [apply btw_0|]. unfold FR.
    replace (FloatOps.Prim2SF (F_lit 5 1)) with (SpecFloat.S754_finite false 4503599627370496 (-53)) by (vm_compute; reflexivity).
    rewrite prz_neg. change (2 ^ 53)%Z with 9007199254740992%Z. lra.
  - rewrite Rabs_pos_eq by lra. lra.
Qed.

Lemma lit_int m : (0 < m < 2 ^ 20)%Z -> F_lit (10 * m) 1 = F_of_Z m -> nice 0 53 (F_lit (10 * m) 1) (IZR m).
Proof. intros H E. rewrite E. apply nice_Z. lia. Qed.

Lemma nice_two : nice 0 53 (F_lit 20 1) 2.
Proof. apply (lit_int 2); [lia|now vm_compute]. Qed.
Lemma nice_three : nice 0 53 (F_lit 30 1) 3.
Proof. apply (lit_int 3); [lia|now vm_compute]. Qed.
Lemma nice_four : nice 0 53 (F_lit 40 1) 4.
Proof. apply (lit_int 4); [lia|now vm_compute]. Qed.
Lemma nice_light : nice 0 53 (F_lit 2997924580 1) 299792458.
Proof. replace (F_lit 2997924580 1) with (F_of_Z 299792458) by (vm_compute; reflexivity). apply nice_Z. lia. Qed.

Lemma within_eq j k e x r s : nice j e x r -> (j <= k)%nat -> r = s -> within k x s.
Proof. intros H L <-. apply nice_within in H. now apply (within_mono j). Qed.

(** ** Guards *)
Lemma pos_lt x : positive x -> (x <? zero)%float = false.
Proof. intros ((F & _) & P). rewrite ltb_dec by (auto; apply finite_zero). rewrite FR_zero. destruct Rlt_dec; auto. lra. Qed.
Lemma pos_le x : positive x -> (x <=? zero)%float = false.
Proof. intros ((F & _) & P). rewrite leb_dec by (auto; apply finite_zero). rewrite FR_zero. destruct Rle_dec; auto. lra. Qed.
Lemma mod_eq x : moderate x -> (x =? zero)%float = false.
Proof.
  intros (F & L & _). rewrite eqb_dec by (auto; apply finite_zero). rewrite FR_zero. destruct Req_EM_T as [E|]; auto.
  rewrite E, Rabs_R0 in L. pose proof (ip2 100). lra.
Qed.
Lemma pos_mod x : positive x -> moderate x.
Proof. now intros (H & _). Qed.

Lemma nice_sum j k a b x y r s :
  nice j a x r -> nice k b y s -> 0 < r -> 0 < s -> (Nat.max j k < 99)%nat -> (Nat.max a b < 998)%nat ->
  nice (S (Nat.max j k)) (S (Nat.max a b)) (x + y)%float (r + s).
Proof.
  intros H1 H2 R0 S0 K He. apply nice_add; auto; (eapply nice_mono; [| |eassumption]; lia).
Qed.

Lemma nice_eq0 k e x r : nice k e x r -> (x =? zero)%float = false.
Proof.
  intros H. pose proof (nice_nz _ _ _ _ H) as Z. destruct H as (F & (t & T & E) & _). pose proof (btw_pos _ _ T).
  rewrite eqb_dec by (auto; apply finite_zero). rewrite FR_zero. destruct Req_EM_T as [C|]; auto.
  rewrite E in C. apply Rmult_integral in C. lra.
Qed.
Lemma mod_sq x : moderate x -> 0 < FR x * FR x.
Proof. intros (_ & L & _). pose proof (ip2 100). assert (FR x <> 0) by (intros C; rewrite C, Rabs_R0 in L; lra). nra. Qed.
Lemma nice_coulomb : nice 0 53 (F_lit 8987551787 0) 8987551787.
Proof. replace (F_lit 8987551787 0) with (F_of_Z 8987551787) by (vm_compute; reflexivity). apply nice_Z. lia. Qed.
Lemma nice_thousand : nice 0 53 (F_lit 1000 0) 1000.
Proof. replace (F_lit 1000 0) with (F_of_Z 1000) by (vm_compute; reflexivity). apply nice_Z. lia. Qed.
Lemma nice_million : nice 0 53 (F_lit 1000000 0) 1000000.
Proof. replace (F_lit 1000000 0) with (F_of_Z 1000000) by (vm_compute; reflexivity). apply nice_Z. lia. Qed.

(** The constants of consts.h *)
Lemma nice_const m e r : (0 < m < 2 ^ 53)%Z -> (0 <= e <= 22)%Z -> IZR m = r * IZR (10 ^ e) -> nice 1 127 (F_lit m e) r.
Proof.
  intros Hm He E. replace r with (IZR m / 10 ^ Z.to_nat e); [now apply nice_lit|].
  rewrite E, pow_IZR, Z2Nat.id by lia. field. apply IZR_neq. pose proof (Z.pow_pos_nonneg 10 e). lia.
Qed.
Lemma nice_g : nice 1 127 (F_lit 9807 3) gravity.
Proof. apply nice_const; try lia. change (10 ^ 3)%Z with 1000%Z. unfold gravity. lra. Qed.
Lemma nice_G : nice 1 127 (F_lit 667408 16) newton_G.
Proof. apply nice_const; try lia. change (10 ^ 16)%Z with 10000000000000000%Z. unfold newton_G. lra. Qed.
Lemma nice_gas : nice 1 127 (F_lit 8314462618 9) gas_R.
Proof. apply nice_const; try lia. change (10 ^ 9)%Z with 1000000000%Z. unfold gas_R. lra. Qed.
Lemma nice_pi : nice 1 127 (F_lit 314159265359 11) pi11.
Proof. apply nice_const; try lia. change (10 ^ 11)%Z with 100000000000%Z. unfold pi11. lra. Qed.
Lemma nice_eps : nice 1 127 (F_lit 885 14) vacuum_eps.
Proof. apply nice_const; try lia. change (10 ^ 14)%Z with 100000000000000%Z. unfold vacuum_eps. lra. Qed.
Lemma nice_milli : nice 1 127 (F_lit 10 4) (/ 1000).
Proof. apply nice_const; try lia. change (10 ^ 4)%Z with 10000%Z. lra. Qed.
Lemma consts_pos : 0 < gravity /\ 0 < newton_G /\ 0 < gas_R /\ 0 < pi11 /\ 0 < vacuum_eps.
Proof. unfold gravity, newton_G, gas_R, pi11, vacuum_eps. lra. Qed.

Lemma qk_lin k : (k <= 12)%nat -> (1 + uu) ^ k <= 1 + INR k * (9 / 8) * uu.
Proof.
  intros H. pose proof uu_pos as U. assert (U2 : uu <= / 1000000) by (rewrite uu_val; lra).
  assert (G : forall k, (k <= 12)%nat -> 1 <= (1 + uu) ^ k <= 1 + INR k * (9 / 8) * uu).
  { intros j. induction j as [|j IH]; intros Hj; [cbn; lra|]. specialize (IH ltac:(lia)).
    rewrite S_INR. cbn [pow]. assert (0 <= INR j <= 12) by (split; [apply pos_INR|replace 12 with (INR 12) by (cbn; lra); apply le_INR; lia]).
    split; [nra|]. apply Rle_trans with ((1 + uu) * (1 + INR j * (9 / 8) * uu)); [apply Rmult_le_compat_l; lra|]. nra. }
  now apply G.
Qed.

Lemma within_rel k y r : (k <= 12)%nat -> within k y r -> Rabs (FR y - r) <= INR k * (9 / 8) * uu * Rabs r.
Proof.
  intros K (_ & t & (L & U) & E). pose proof (qk_lin k K) as Q. set (b := INR k * (9 / 8) * uu) in *.
  assert (B0 : 0 <= b) by (unfold b; pose proof (pos_INR k); pose proof uu_pos; apply Rmult_le_pos; lra).
  assert (L' : 1 - b <= / (1 + uu) ^ k).
  { apply Rle_trans with (/ (1 + b)).
    - apply Rmult_le_reg_r with (1 + b); [lra|]. rewrite Rinv_l by lra. nra.
    - apply Rinv_le_contravar; auto. apply (qk_pos k). }
  rewrite E. replace (r * t - r) with ((t - 1) * r) by ring. rewrite Rabs_mult.
  apply Rmult_le_compat_r; [apply Rabs_pos|]. unfold Rabs. destruct Rcase_abs; lra.
Qed.
