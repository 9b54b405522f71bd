(** Colorimetry: correlated colour temperature (C108, C109). *)
From Coq Require Import List Arith ZArith Bool Reals Lra Lia.
From Verif Require Import Base BaseFacts SpecReal SpecMtx SpecColor NumR Libm LibmR Out RTac
  MVec MMtx PVecR PStat PStatReg MColorTab MColor PropColor PropColor2.
Import ListNotations.
Set Implicit Arguments.
Local Open Scope R_scope.

Implicit Types (bc cap : bool) (i j k : nat).

(** ** The table of colour temperatures *)

Lemma ct_uv_length : length ct_uv_tab = 304%nat.
Proof. reflexivity. Qed.

Lemma ct_uv_ok i : (i < 304)%nat -> ct_uv i = Ok (locus_t i, locus_u i, locus_v i).
Proof.
  intros H. unfold ct_uv, elt, locus_t, locus_u, locus_v.
  destruct (nth_error ct_uv_tab i) as [[[t u] v]|] eqn:E;
    [|apply nth_error_None in E; rewrite ct_uv_length in E; lia].
  rewrite (nth_error_nth _ _ _ E). cbn [bind fst snd]. unfold ct_uv_tab_e0, ct_uv_tab_e1, ct_uv_tab_e2. num.
  rewrite (Rlit_div t 6 1000000), (Rlit_div u 8 100000000), (Rlit_div v 8 100000000)
    by (reflexivity || discriminate).
  replace (10 ^ 6) with 1000000 by lra. replace (10 ^ 8) with 100000000 by lra. reflexivity.
Qed.

Lemma dist_uv_ok i (a : uv R) : (i < 304)%nat -> dist_uv i a = Ok (locus_d2 i (cu a) (cv a)).
Proof.
  intros H. unfold dist_uv. rewrite ct_uv_ok by exact H. cbn [bind]. num.
  unfold locus_d2. f_equal. ring.
Qed.

(** The search finds an entry at the least distance, the first one if there
    are several; with no entry closer than 1 it answers entry 0. *)
Lemma nearest_spec (a : uv R) :
  exists best k, nearest a = Ok (best, k) /\ (k < 304)%nat
    /\ (forall i, (i < 304)%nat -> best <= locus_d2 i (cu a) (cv a))
    /\ ((k = 0%nat /\ best = 1)
        \/ (best = locus_d2 k (cu a) (cv a) /\ best < 1
            /\ forall i, (i < k)%nat -> best < locus_d2 i (cu a) (cv a))).
Proof.
  unfold nearest. change (flit 10 1) with (Rlit 10 1). rewrite lit_10_1.
  destruct (@for_inv _ (fun n (s : R * nat) => let '(best, k) := s in
      (k < 304)%nat /\ (forall i, (i < n)%nat -> best <= locus_d2 i (cu a) (cv a))
      /\ ((k = 0%nat /\ best = 1) \/ ((k < n)%nat /\ best = locus_d2 k (cu a) (cv a) /\ best < 1
            /\ forall i, (i < k)%nat -> best < locus_d2 i (cu a) (cv a))))
    304%nat 0%nat (fun i s => let '(best, k) := s in
       let! d := dist_uv i a in Ok (if (d <? best)%num then (d, i) else s)) (1, 0%nat)) as ((best, k) & E & K & M & C).
  - cbv beta iota. split; [lia|]. split; [lia|]. left. auto.
  - intros i [best k] Hi (K & M & C). rewrite dist_uv_ok by lia. cbn [bind]. num.
    destruct (Rltb_spec (locus_d2 i (cu a) (cv a)) best) as [L|L]; eexists; (split; [reflexivity|]); cbv beta iota.
    + split; [lia|]. split.
      * intros j Hj. destruct (Nat.eq_dec j i) as [->|Nj]; [lra|]. specialize (M j ltac:(lia)). lra.
      * right. split; [lia|]. split; [reflexivity|]. split.
        -- destruct C as [[_ ->]|(_ & _ & B & _)]; lra.
        -- intros j Hj. specialize (M j Hj). lra.
    + split; [exact K|]. split.
      * intros j Hj. destruct (Nat.eq_dec j i) as [->|Nj]; [lra|]. apply M. lia.
      * destruct C as [C|(C1 & C2)]; [left; exact C|right; split; [lia|exact C2]].
  - exists best, k. split; [exact E|]. split; [exact K|]. split; [exact M|].
    destruct C as [C|(_ & C)]; auto.
Qed.

(** temperatures increase along the table *)
Lemma locus_t_check :
  forallb (fun i => (fst (fst (nth i ct_uv_tab (0, 0, 0))) <? fst (fst (nth (S i) ct_uv_tab (0, 0, 0))))%Z)
    (seq 0 303) = true.
Proof. vm_compute. reflexivity. Qed.
Lemma locus_t_step i : (i < 303)%nat -> locus_t i < locus_t (S i).
Proof.
  intros H. pose proof locus_t_check as C. rewrite forallb_forall in C. specialize (C i).
  rewrite in_seq in C. specialize (C ltac:(lia)). apply Z.ltb_lt, IZR_lt in C.
  unfold locus_t. apply Rmult_lt_compat_r; [lra|exact C].
Qed.
Lemma locus_t_mono i j : (i < j < 304)%nat -> locus_t i < locus_t j.
Proof.
  intros [H1 H2]. induction j as [|j IH]; [lia|].
  destruct (Nat.eq_dec i j) as [->|E]; [apply locus_t_step; lia|].
  eapply Rlt_trans; [apply IH; lia|apply locus_t_step; lia].
Qed.

(** entries two apart are distinct points *)
Definition gapZ (i : nat) : Z :=
  let '(_, u1, v1) := nth i ct_uv_tab (0, 0, 0)%Z in
  let '(_, u2, v2) := nth (S (S i)) ct_uv_tab (0, 0, 0)%Z in
  ((u2 - u1) * (u2 - u1) + (v2 - v1) * (v2 - v1))%Z.
Lemma gap_check : forallb (fun i => (0 <? gapZ i)%Z) (seq 0 302) = true.
Proof. vm_compute. reflexivity. Qed.

(** squared length of the chord between the neighbours of entry k *)
Definition chord2 (k : nat) : R :=
  (locus_u (k + 1) - locus_u (k - 1)) ^ 2 + (locus_v (k + 1) - locus_v (k - 1)) ^ 2.

Lemma chord2_pos k : (0 < k < 303)%nat -> 0 < chord2 k.
Proof.
  intros H. pose proof gap_check as C. rewrite forallb_forall in C. specialize (C (k - 1)%nat).
  rewrite in_seq in C. specialize (C ltac:(lia)). apply Z.ltb_lt, IZR_lt in C.
  assert (E : chord2 k = IZR (gapZ (k - 1)) / 10 ^ 16).
  { unfold chord2, gapZ, locus_u, locus_v. replace (S (S (k - 1))) with (k + 1)%nat by lia.
    destruct (nth (k - 1) ct_uv_tab (0, 0, 0)%Z) as [[t1 u1] v1].
    destruct (nth (k + 1) ct_uv_tab (0, 0, 0)%Z) as [[t2 u2] v2]. cbn [fst snd].
    rewrite plus_IZR, !mult_IZR, !minus_IZR. field. }
  rewrite E. lra.
Qed.

(** ** Powers and polynomials *)

(** k0 + k1 x + ... + k6 x^6 *)
Definition poly_val (k : list R) (x : R) : R :=
  nth 0 k 0 + nth 1 k 0 * x + nth 2 k 0 * x ^ 2 + nth 3 k 0 * x ^ 3 + nth 4 k 0 * x ^ 4
  + nth 5 k 0 * x ^ 5 + nth 6 k 0 * x ^ 6.

Lemma poly6_ok (k : list R) x : length k = 7%nat -> poly6 k x = Ok (poly_val k x).
Proof.
  intros H. destruct k as [|k0 [|k1 [|k2 [|k3 [|k4 [|k5 [|k6 [|? ?]]]]]]]]; try discriminate H.
  unfold poly6, poly_val. num. cbn [fpow NumMR].
  change 6 with (IZR (Z.of_nat 6)). change 5 with (IZR (Z.of_nat 5)). change 4 with (IZR (Z.of_nat 4)).
  change 3 with (IZR (Z.of_nat 3)). change 2 with (IZR (Z.of_nat 2)).
  rewrite !Rpow_int by lia. cbn [bind elt nth_error nth]. f_equal. ring.
Qed.

(** ** C108: Ohno 2014 *)

Definition clear (f : option Z) : Prop := f = Some 0%Z.

(** coefficients of the formula for Duv, ohno2014_tab read as decimals *)
Definition duv_coeffs : list R := map (fun m => IZR m / 10 ^ 8) ohno2014_tab.

(** temperature the code computes when entry k is the nearest *)
Definition cct_code (k : nat) (u v : R) : R :=
  let dp := locus_d2 (k - 1) u v in
  let dn := locus_d2 (k + 1) u v in
  locus_t (k - 1) + (locus_t (k + 1) - locus_t (k - 1)) * ((dp ^ 2 - dn ^ 2 + chord2 k) / (2 * chord2 k)).
Definition duv_code (u v : R) : R :=
  let r := sqrt ((u - 292 / 1000) ^ 2 + (v - 24 / 100) ^ 2) in
  r - poly_val duv_coeffs (acos ((u - 292 / 1000) / r)).

(** an exact computation of the distances for colours with 10 decimals *)
Definition d2Z (i : nat) (mu mv : Z) : Z :=
  let '(_, u, v) := nth i ct_uv_tab (0, 0, 0)%Z in
  ((100 * u - mu) * (100 * u - mu) + (100 * v - mv) * (100 * v - mv))%Z.
Lemma d2Z_ok i mu mv : locus_d2 i (IZR mu / 10 ^ 10) (IZR mv / 10 ^ 10) = IZR (d2Z i mu mv) / 10 ^ 20.
Proof.
  unfold locus_d2, d2Z, locus_u, locus_v. destruct (nth i ct_uv_tab (0, 0, 0)%Z) as [[t u] v]. cbn [fst snd].
  rewrite plus_IZR, !mult_IZR, !minus_IZR, !mult_IZR. field.
Qed.

Lemma nearest_at (a : uv R) mu mv k :
  cu a = IZR mu / 10 ^ 10 -> cv a = IZR mv / 10 ^ 10 -> (k < 304)%nat ->
  forallb (fun i => (i =? k)%nat || (d2Z k mu mv <? d2Z i mu mv)%Z) (seq 0 304) = true ->
  (d2Z k mu mv <? 10 ^ 20)%Z = true ->
  exists best, nearest a = Ok (best, k).
Proof.
  intros Eu Ev Hk F B. destruct (nearest_spec a) as (best & k' & E & K & M & C).
  exists best. rewrite E. do 2 f_equal. rewrite Eu, Ev in *.
  apply Z.ltb_lt, IZR_lt in B. change (IZR (10 ^ 20)) with 100000000000000000000 in B.
  pose proof (M k Hk) as Mk. rewrite d2Z_ok in Mk.
  assert (best < 1) by lra.
  destruct C as [[_ ->]|(C & _)]; [lra|]. rewrite d2Z_ok in C.
  rewrite forallb_forall in F. specialize (F k'). rewrite in_seq in F. specialize (F ltac:(lia)).
  apply orb_true_iff in F. destruct F as [F|F]; [now apply Nat.eqb_eq|].
  apply Z.ltb_lt, IZR_lt in F. lra.
Qed.

(** the point where the formula for Duv would divide by zero is outside the
    temperature range *)
Lemma pole_far (a : uv R) :
  cu a = 292 / 1000 -> cv a = 24 / 100 -> exists best, nearest a = Ok (best, 303%nat).
Proof.
  intros Eu Ev. apply (@nearest_at a 2920000000 2400000000 303); [lra|lra|lia| |];
    vm_compute; reflexivity.
Qed.

Lemma acos_arg x y : 0 < x ^ 2 + y ^ 2 -> -1 <= x / sqrt (x ^ 2 + y ^ 2) <= 1.
Proof.
  intros H. set (r := sqrt (x ^ 2 + y ^ 2)). assert (P : 0 < r) by now apply sqrt_lt_R0.
  assert (E : r * r = x ^ 2 + y ^ 2) by (apply sqrt_sqrt; lra).
  assert (B : - r <= x <= r).
  { split; [|]; pose proof (pow2_ge_0 y); nra. }
  split; apply Rmult_le_reg_r with r; try exact P; unfold Rdiv; rewrite Rmult_assoc, Rinv_l; lra.
Qed.

Lemma ohno2014_at (a : uv R) (o : cct R) best k :
  clear (fu a) -> clear (fv a) -> nearest a = Ok (best, k) -> (k < 304)%nat ->
  ((k = 0 \/ k = 303)%nat ->
    ohno2014 a o = Ok ((- EINVAL)%Z, Cct 0 0 (Some 0%Z) (Some 0%Z)))
  /\ ((0 < k < 303)%nat ->
    ohno2014 a o = Ok (0%Z, Cct (cct_code k (cu a) (cv a)) (duv_code (cu a) (cv a)) (Some 0%Z) (Some 0%Z))).
Proof.
  unfold clear. intros Fu Fv E K.
  unfold ohno2014. rewrite Fu, Fv. cbn [flag Z.eqb negb bind]. rewrite E. cbn [bind].
  rewrite !ct_uv_ok by lia. cbn [bind]. num. split.
  - intros [-> | ->].
    + destruct (Rltb_spec (locus_t 0) (locus_t 1)) as [L|L]; [reflexivity|].
      pose proof (@locus_t_mono 0 1 ltac:(lia)). lra.
    + destruct (Rltb_spec (locus_t (304 - 2)) (locus_t 303)) as [L|L]; [now rewrite orb_true_r|].
      pose proof (@locus_t_mono (304 - 2) 303 ltac:(lia)). lra.
  - intros Hk.
    destruct (Rltb_spec (locus_t k) (locus_t 1)) as [L|L].
    { exfalso. destruct (Nat.eq_dec k 1) as [->|N]; [lra|].
      pose proof (@locus_t_mono 1 k ltac:(lia)). lra. }
    destruct (Rltb_spec (locus_t (304 - 2)) (locus_t k)) as [L'|L'].
    { exfalso. destruct (Nat.eq_dec k (304 - 2)) as [->|N]; [lra|].
      pose proof (@locus_t_mono k (304 - 2) ltac:(lia)). lra. }
    cbn [orb]. destruct (Nat.eqb_spec k 0); [lia|].
    rewrite !dist_uv_ok by lia. rewrite !ct_uv_ok by lia. cbn [bind].
    pose proof (chord2_pos Hk) as CP.
    replace ((locus_u (k + 1) - locus_u (k - 1)) * (locus_u (k + 1) - locus_u (k - 1)) +
      (locus_v (k + 1) - locus_v (k - 1)) * (locus_v (k + 1) - locus_v (k - 1))) with (chord2 k)
      by (unfold chord2; ring).
    rewrite (Rsqrto_ok (chord2 k)) by lra. cbn [bind].
    assert (SP : 0 < sqrt (chord2 k)) by now apply sqrt_lt_R0.
    assert (SS : sqrt (chord2 k) * sqrt (chord2 k) = chord2 k) by (apply sqrt_sqrt; lra).
    replace (Rlit 20 1) with 2 by (lits; lra).
    rewrite Rdivo_ok by lra. cbn [bind]. rewrite Rdivo_ok by lra. cbn [bind].
    replace (Rlit 292 3) with (292 / 1000) by (lits; lra). replace (Rlit 24 2) with (24 / 100) by (lits; lra).
    set (x := cu a - 292 / 1000). set (y := cv a - 24 / 100).
    replace (x * x + y * y) with (x ^ 2 + y ^ 2) by ring.
    assert (Pole : 0 < x ^ 2 + y ^ 2).
    { pose proof (pow2_ge_0 x) as X. pose proof (pow2_ge_0 y) as Y.
      destruct (Rle_lt_or_eq_dec 0 (x ^ 2 + y ^ 2)) as [P|P]; [lra|exact P|exfalso].
      assert (X0 : x = 0) by nra. assert (Y0 : y = 0) by nra.
      destruct (@pole_far a) as (b' & E'); [unfold x in X0; lra|unfold y in Y0; lra|].
      rewrite E in E'. injection E' as _ ->. lia. }
    rewrite Rsqrto_ok by lra. cbn [bind].
    assert (RP : 0 < sqrt (x ^ 2 + y ^ 2)) by now apply sqrt_lt_R0.
    rewrite Rdivo_ok by lra. cbn [bind]. cbn [facos NumMR]. unfold Racos.
    destruct (acos_arg Pole) as [A1 A2].
    destruct (Rle_dec (-1) _); [|lra]. destruct (Rle_dec _ 1); [|lra]. cbn [bind].
    rewrite poly6_ok by reflexivity. cbn [bind]. do 3 f_equal.
    + unfold cct_code. f_equal. f_equal.
      set (q := sqrt (chord2 k)) in *. rewrite <- SS. field. lra.
Qed.

Lemma nearest_first (a : uv R) k :
  first_nearest k (cu a) (cv a) -> locus_d2 k (cu a) (cv a) < 1 -> exists best, nearest a = Ok (best, k).
Proof.
  intros (K & M & F) L. destruct (nearest_spec a) as (best & k' & E & K' & M' & C).
  exists best. rewrite E. do 2 f_equal. pose proof (M' k K) as B.
  destruct C as [[_ ->]|(-> & _ & C)]; [lra|]. pose proof (M k' K') as B'.
  destruct (lt_eq_lt_dec k k') as [[H|H]|H]; [|now symmetry|].
  - specialize (C k H). lra.
  - specialize (F k' H). lra.
Qed.

(** Let entry k be the first one nearest to the colour, closer than 1, and let
    the flags be clear.  At either end of the table the answer is -EINVAL;
    elsewhere temperature and Duv are those of entries k - 1 and k + 1. *)
Theorem C108_ohno2014 (a : uv R) (o : cct R) k :
  clear (fu a) -> clear (fv a) -> first_nearest k (cu a) (cv a) -> locus_d2 k (cu a) (cv a) < 1 ->
  ((k = 0 \/ k = 303)%nat ->
    ohno2014 a o = Ok ((- EINVAL)%Z, Cct 0 0 (Some 0%Z) (Some 0%Z)))
  /\ ((0 < k < 303)%nat ->
    ohno2014 a o = Ok (0%Z, Cct (cct_code k (cu a) (cv a)) (duv_code (cu a) (cv a)) (Some 0%Z) (Some 0%Z))).
Proof.
  intros Fu Fv N L. destruct (nearest_first a N L) as (best & E).
  apply (ohno2014_at a o Fu Fv E). apply N.
Qed.

(** Colours further than 1 from the whole locus are rejected. *)
Theorem C108_far (a : uv R) (o : cct R) :
  clear (fu a) -> clear (fv a) -> (forall i, (i < 304)%nat -> 1 <= locus_d2 i (cu a) (cv a)) ->
  ohno2014 a o = Ok ((- EINVAL)%Z, Cct 0 0 (Some 0%Z) (Some 0%Z)).
Proof.
  intros Fu Fv H. destruct (nearest_spec a) as (best & k & E & K & M & C).
  assert (k = 0%nat) as ->.
  { destruct C as [[-> _]|(C & L & _)]; [reflexivity|]. specialize (H k K). lra. }
  apply (ohno2014_at a o Fu Fv E K). now left.
Qed.

(** Every colour with clear flags gets one of the two answers. *)
Theorem C108_total (a : uv R) (o : cct R) :
  clear (fu a) -> clear (fv a) ->
  exists rc r, ohno2014 a o = Ok (rc, r) /\ (rc = 0 \/ rc = - EINVAL)%Z.
Proof.
  intros Fu Fv. destruct (nearest_spec a) as (best & k & E & K & _).
  destruct (ohno2014_at a o Fu Fv E K) as [A B].
  destruct (Nat.eq_dec k 0) as [H|H]; [rewrite A by auto; eauto|].
  destruct (Nat.eq_dec k 303) as [H'|H']; [rewrite A by auto; eauto|].
  rewrite B by lia. eauto.
Qed.

(** What the triangular solution of Ohno's paper asks for: the foot of the
    perpendicular from the colour on the chord between the two neighbours,
    read off linearly. *)
Definition cct_foot (k : nat) (u v t : R) : Prop :=
  exists s,
    (u - (locus_u (k - 1) + s * (locus_u (k + 1) - locus_u (k - 1)))) * (locus_u (k + 1) - locus_u (k - 1))
    + (v - (locus_v (k - 1) + s * (locus_v (k + 1) - locus_v (k - 1)))) * (locus_v (k + 1) - locus_v (k - 1)) = 0
    /\ t = locus_t (k - 1) + s * (locus_t (k + 1) - locus_t (k - 1)).

(** The code squares distances that are already squared.  Measured from the
    middle of the two neighbours' temperatures, the displacement it returns is
    the correct one times the sum of the two squared distances, so nearly
    nothing for colours near the locus: the answer is a table entry. *)
Theorem C108_attenuated k u v t :
  (0 < k < 303)%nat -> cct_foot k u v t ->
  let mid := (locus_t (k - 1) + locus_t (k + 1)) / 2 in
  cct_code k u v - mid = (t - mid) * (locus_d2 (k - 1) u v + locus_d2 (k + 1) u v).
Proof.
  intros Hk (s & F & ->) mid. pose proof (chord2_pos Hk) as P. unfold cct_code, mid.
  assert (E : locus_d2 (k - 1) u v - locus_d2 (k + 1) u v = (2 * s - 1) * chord2 k).
  { unfold locus_d2, chord2 in *.
    set (a := locus_u (k - 1)) in *. set (b := locus_u (k + 1)) in *.
    set (c := locus_v (k - 1)) in *. set (d := locus_v (k + 1)) in *.
    replace (((a - u) ^ 2 + (c - v) ^ 2 - ((b - u) ^ 2 + (d - v) ^ 2)))
      with ((2 * s - 1) * ((b - a) ^ 2 + (d - c) ^ 2)
            + 2 * ((u - (a + s * (b - a))) * (b - a) + (v - (c + s * (d - c))) * (d - c))) by ring.
    rewrite F. ring. }
  set (p := locus_d2 (k - 1) u v) in *. set (n := locus_d2 (k + 1) u v) in *. set (l := chord2 k) in *.
  replace (p ^ 2 - n ^ 2) with ((p + n) * (p - n)) by ring. rewrite E. field. lra.
Qed.

(** A colour on the chord between two neighbouring entries, two fifths of the
    way from 6492.6 K to 6557.5 K: the triangular solution is above 6518 K, the
    answer below 6493 K. *)
Definition colour_6518 : uv R :=
  Uv (IZR 2003645100 / 10 ^ 10) (IZR 3102420320 / 10 ^ 10) 0 0 (Some 0%Z) (Some 0%Z).

Lemma nearest_first_at mu mv k :
  (k < 304)%nat ->
  forallb (fun i => (i =? k)%nat || (d2Z k mu mv <? d2Z i mu mv)%Z) (seq 0 304) = true ->
  first_nearest k (IZR mu / 10 ^ 10) (IZR mv / 10 ^ 10).
Proof.
  intros Hk F. rewrite forallb_forall in F.
  assert (G : forall i, (i < 304)%nat -> i <> k ->
     locus_d2 k (IZR mu / 10 ^ 10) (IZR mv / 10 ^ 10) < locus_d2 i (IZR mu / 10 ^ 10) (IZR mv / 10 ^ 10)).
  { intros i Hi Ni. specialize (F i). rewrite in_seq in F. specialize (F ltac:(lia)).
    apply orb_true_iff in F. destruct F as [F|F]; [apply Nat.eqb_eq in F; now contradict F|].
    apply Z.ltb_lt, IZR_lt in F. rewrite !d2Z_ok. lra. }
  split; [exact Hk|]. split.
  - intros i Hi. destruct (Nat.eq_dec i k) as [->|Ni]; [lra|]. left. now apply G.
  - intros i Hi. apply G; lia.
Qed.

Lemma colour_6518_nearest : first_nearest 189 (cu colour_6518) (cv colour_6518).
Proof. apply nearest_first_at; [lia|vm_compute; reflexivity]. Qed.
Lemma colour_6518_close : locus_d2 189 (cu colour_6518) (cv colour_6518) < 1.
Proof. cbn [colour_6518 cu cv]. rewrite d2Z_ok. vm_compute d2Z. lra. Qed.

Lemma entry_188 : locus_t 188 = 6428311262 / 10 ^ 6 /\ locus_u 188 = 20083156 / 10 ^ 8 /\ locus_v 188 = 31088335 / 10 ^ 8.
Proof. repeat split. Qed.
Lemma entry_190 : locus_t 190 = 6557520318 / 10 ^ 6 /\ locus_u 190 = 20016675 / 10 ^ 8 /\ locus_v 190 = 30996824 / 10 ^ 8.
Proof. repeat split. Qed.

Theorem C108_accuracy_refuted o :
  exists r t, ohno2014 colour_6518 o = Ok (0%Z, r) /\ ct r < 6493
    /\ first_nearest 189 (cu colour_6518) (cv colour_6518)
    /\ cct_foot 189 (cu colour_6518) (cv colour_6518) t /\ 6518 < t.
Proof.
  destruct (@C108_ohno2014 colour_6518 o 189) as [_ A];
    [reflexivity|reflexivity|apply colour_6518_nearest|apply colour_6518_close|].
  rewrite A by lia. eexists. 
  destruct entry_188 as (T1 & U1 & V1). destruct entry_190 as (T2 & U2 & V2).
  set (s := ((cu colour_6518 - locus_u 188) * (locus_u 190 - locus_u 188)
             + (cv colour_6518 - locus_v 188) * (locus_v 190 - locus_v 188)) / chord2 189).
  assert (F : cct_foot 189 (cu colour_6518) (cv colour_6518) (locus_t 188 + s * (locus_t 190 - locus_t 188))).
  { exists s. split; [|reflexivity]. pose proof (@chord2_pos 189 ltac:(lia)) as P. unfold s.
    change (189 - 1)%nat with 188%nat in *. change (189 + 1)%nat with 190%nat in *. unfold chord2 in *.
    change (189 - 1)%nat with 188%nat in *. change (189 + 1)%nat with 190%nat in *. field. lra. }
  eexists. split; [reflexivity|]. cbn [ct]. split; [|split; [apply colour_6518_nearest|split; [exact F|]]].
  - unfold cct_code, locus_d2, chord2. change (189 - 1)%nat with 188%nat. change (189 + 1)%nat with 190%nat.
    rewrite T1, U1, V1, T2, U2, V2. cbn [colour_6518 cu cv]. lra.
  - unfold s, chord2. change (189 - 1)%nat with 188%nat. change (189 + 1)%nat with 190%nat.
    rewrite T1, U1, V1, T2, U2, V2. cbn [colour_6518 cu cv]. lra.
Qed.

(** The early exit for colours out of range clears the invalid flags: the
    error is visible in the return value only. *)
Theorem C108_range_flags_refuted o :
  exists r, ohno2014 (Uv 2 2 0 0 (Some 0%Z) (Some 0%Z)) o = Ok ((- EINVAL)%Z, r)
    /\ ct r = 0 /\ fct r = Some 0%Z /\ fduv r = Some 0%Z.
Proof.
  rewrite C108_far; [eexists; split; [reflexivity|auto]|reflexivity|reflexivity|].
  assert (F : forallb (fun i => (10 ^ 20 <=? d2Z i 20000000000 20000000000)%Z) (seq 0 304) = true)
    by (vm_compute; reflexivity).
  rewrite forallb_forall in F. intros i Hi. specialize (F i). rewrite in_seq in F. specialize (F ltac:(lia)).
  apply Z.leb_le, IZR_le in F. change (IZR (10 ^ 20)) with 100000000000000000000 in F.
  cbn [cu cv]. replace 2 with (IZR 20000000000 / 10 ^ 10) by lra. rewrite d2Z_ok. lra.
Qed.

(** ** C108: flags, and the other two methods *)

(** A colour flagged invalid is rejected by every method, which marks both
    results invalid. *)
Theorem C108_rejects method (a : uv R) (o : cct R) x y :
  fu a = Some x -> fv a = Some y -> x <> 0%Z \/ y <> 0%Z ->
  uv60_cct method a o = Ok ((- EINVAL)%Z, Cct (ct o) (duv o) (Some 1%Z) (Some 1%Z)).
Proof.
  intros Fu Fv H. unfold uv60_cct, mccamy, ohno2011, ohno2014. rewrite Fu, Fv. cbn [flag bind].
  destruct (Z.eqb_spec x 0) as [->|N]; cbn [negb bind].
  - destruct (Z.eqb_spec y 0) as [->|N']; [destruct H; now contradict H|]. cbn [negb bind].
    now destruct (method =? 0)%Z, (method =? 1)%Z.
  - now destruct (method =? 0)%Z, (method =? 1)%Z.
Qed.

(** McCamy's cubic in n = (x - 0.3320) / (0.1858 - y), where x and y are the
    colour's chromaticity coordinates.  Duv is 0 and marked invalid; the
    temperature's own flag keeps whatever it was. *)
Theorem C108_mccamy (a : uv R) (o : cct R) y :
  clear (fu a) -> clear (fv a) -> uv60_xyy a = Ok (0%Z, y) ->
  py y <> 1858 / 10000 ->
  let n := (px y - 3320 / 10000) / (1858 / 10000 - py y) in
  uv60_cct 0 a o = Ok (0%Z, Cct (449 * n ^ 3 + 3525 * n ^ 2 + (68233 / 10) * n + 552033 / 100) 0 (fct o) (Some 1%Z)).
Proof.
  intros Fu Fv E P n. unfold clear in Fu, Fv. unfold uv60_cct. cbn [Z.eqb]. unfold mccamy. rewrite Fu, Fv.
  cbn [flag Z.eqb negb bind]. rewrite E. cbn [bind]. num.
  replace (Rlit 3320 4) with (3320 / 10000) by (lits; lra).
  replace (Rlit 1858 4) with (1858 / 10000) by (lits; lra).
  rewrite Rdivo_ok by lra. cbn [bind]. fold n. cbn [fpow NumMR].
  change 3 with (IZR (Z.of_nat 3)) at 1. change 2 with (IZR (Z.of_nat 2)) at 1.
  rewrite !Rpow_int by lia. cbn [bind]. do 3 f_equal. lits. lra.
Qed.

Example C108_mccamy_case :
  let a := Uv (2 / 10) (3 / 10) 0 0 (Some 0%Z) (Some 0%Z) in
  exists y, uv60_xyy a = Ok (0%Z, y) /\ py y <> 1858 / 10000 /\ clear (fu a) /\ clear (fv a).
Proof.
  cbv zeta. rewrite uv60_xyy_eq by (cbn [cu cv]; lra). eexists. split; [reflexivity|].
  cbn [py cu cv]. split; [lra|split; reflexivity].
Qed.

(** A black-body chromaticity straight from zsl_clr_conv_ct_uv60 into a fresh
    structure cannot be handed to zsl_clr_conv_uv60_cct: its flags were never
    written. *)
Theorem C108_chain_refuted method t obs (o : cct R) :
  t <> 0 -> known obs ->
  exists a, ct_uv60 t obs uv_local = Ok (0%Z, a) /\ uv60_cct method a o = UB Uninit.
Proof.
  intros Ht Ho. eexists. split; [now apply C110_uv|].
  unfold uv60_cct, mccamy, ohno2011, ohno2014. cbn [fu uv_local flag bind].
  now destruct (method =? 0)%Z, (method =? 1)%Z.
Qed.

Print Assumptions C108_ohno2014.
Print Assumptions C108_far.
Print Assumptions C108_total.
Print Assumptions C108_attenuated.
Print Assumptions C108_accuracy_refuted.
Print Assumptions C108_range_flags_refuted.
Print Assumptions C108_rejects.
Print Assumptions C108_mccamy.
Print Assumptions C108_chain_refuted.
