(** C175: laws of zsl_prob_entropy.  [shannon] is not used in the statements:
    they relate answers of the function to each other. *)
From Coq Require Import List Arith ZArith Bool Lia Reals Lra Permutation.
From Verif Require Import Base BaseFacts SpecVec SpecReal MVec PVecR NumR Libm LibmR RTac Out MProb SpecProb PStat PProb.
Import ListNotations.
Local Open Scope R_scope.

(** A distribution without impossible outcomes *)
Definition distribution (ps : list R) : Prop := Forall (fun p => 0 < p) ps /\ rsum ps = 1.

(** A two-stage experiment: outcome i has probability [fst], and is followed by
    a second experiment with the distribution [snd].  All final outcomes: *)
Definition two_stage (st : list (R * list R)) : list R :=
  flat_map (fun pq => map (Rmult (fst pq)) (snd pq)) st.

Lemma entropy_dist bc ps tl : distribution ps -> prob_entropy bc (vec_of ps tl) = Ok (0%Z, Set_ (shannon ps)).
Proof. intros [H S]. apply entropy_ok; [exact H|]. rewrite S, Rminus_diag_eq, Rabs_R0 by reflexivity. lra. Qed.

Lemma shannon_app a b : shannon (a ++ b) = shannon a + shannon b.
Proof. unfold shannon. now rewrite map_app, rsum_app. Qed.

Lemma shannon_scale p qs : 0 < p -> Forall (fun q => 0 < q) qs ->
  shannon (map (Rmult p) qs) = p * shannon qs + rsum qs * (p * log2 (/ p)).
Proof.
  intros Hp. unfold shannon, log2. pose proof ln2_pos as L2. induction 1 as [|q qs Hq H IH]; cbn [map rsum]; [ring|].
  rewrite IH. rewrite !ln_Rinv by (try apply Rmult_lt_0_compat; assumption). rewrite ln_mult by assumption.
  field. lra.
Qed.

Lemma rsum_scale p qs : rsum (map (Rmult p) qs) = p * rsum qs.
Proof. induction qs as [|q qs IH]; cbn [map rsum]; [ring|]. rewrite IH. ring. Qed.

Lemma two_stage_dist st : distribution (map fst st) -> Forall (fun pq => distribution (snd pq)) st ->
  distribution (two_stage st) /\
  shannon (two_stage st) = shannon (map fst st) + rsum (map (fun pq => fst pq * shannon (snd pq)) st).
Proof.
  intros [P S] H.
  assert (G : Forall (fun p => 0 < p) (two_stage st) /\ rsum (two_stage st) = rsum (map fst st) /\
    shannon (two_stage st) = shannon (map fst st) + rsum (map (fun pq => fst pq * shannon (snd pq)) st)).
  { clear S. induction H as [|[p qs] st [Q SQ] H IH]; [repeat split; [constructor|cbn; unfold shannon; cbn; ring]|].
    inversion P as [|? ? Hp P']; subst. destruct (IH P') as (A & B & C). unfold two_stage in *.
    cbn [flat_map map fst snd] in *. split; [|split].
    - apply Forall_app. split; [|exact A]. apply Forall_map. eapply Forall_impl; [|exact Q].
      intros q Hq. now apply Rmult_lt_0_compat.
    - rewrite rsum_app, B, rsum_scale, SQ. cbn [rsum]. ring.
    - rewrite shannon_app, C, shannon_scale, SQ by assumption.
      change (shannon (p :: map fst st)) with (p * log2 (/ p) + shannon (map fst st)).
      cbn [map rsum fst snd]. ring. }
  destruct G as (A & B & C). repeat split; [exact A| |exact C]. now rewrite B, S.
Qed.

(** The chain rule: the entropy of a two-stage experiment is the entropy of the
    first stage plus the mean entropy of the second *)
Theorem C175_chain bc st (hs : list R) t :
  distribution (map fst st) -> Forall (fun pq => distribution (snd pq)) st ->
  Forall2 (fun pq h => prob_entropy bc (vec_of (snd pq) t) = Ok (0%Z, Set_ h)) st hs ->
  exists h1, prob_entropy bc (vec_of (map fst st) t) = Ok (0%Z, Set_ h1) /\
    prob_entropy bc (vec_of (two_stage st) t) = Ok (0%Z, Set_ (h1 + rsum (map2 Rmult (map fst st) hs))).
Proof.
  intros P H E. destruct (two_stage_dist st P H) as [D S].
  exists (shannon (map fst st)). rewrite !entropy_dist, S by assumption. split; [reflexivity|].
  do 4 f_equal. clear P D S. revert H. induction E as [|[p qs] h st hs A E IH]; intros H; [reflexivity|].
  inversion H as [|? ? Q H']; subst. cbn [map fst snd map2 rsum] in *. rewrite IH by exact H'.
  rewrite entropy_dist in A by exact Q. injection A as ->. reflexivity.
Qed.

(** Independent experiments: entropies add *)
Theorem C175_independent bc ps qs t : distribution ps -> distribution qs ->
  exists hp hq, prob_entropy bc (vec_of ps t) = Ok (0%Z, Set_ hp) /\
    prob_entropy bc (vec_of qs t) = Ok (0%Z, Set_ hq) /\
    prob_entropy bc (vec_of (flat_map (fun p => map (Rmult p) qs) ps) t) = Ok (0%Z, Set_ (hp + hq)).
Proof.
  intros P Q. exists (shannon ps), (shannon qs). rewrite !entropy_dist by assumption.
  split; [reflexivity|]. split; [reflexivity|].
  set (st := map (fun p => (p, qs)) ps).
  assert (M : map fst st = ps) by (unfold st; rewrite map_map; apply map_id).
  destruct (two_stage_dist st) as [D S].
  - now rewrite M.
  - apply Forall_map, Forall_forall. intros; exact Q.
  - assert (W : two_stage st = flat_map (fun p => map (Rmult p) qs) ps).
    { unfold two_stage, st. clear. induction ps as [|p ps IH]; [reflexivity|]. cbn [map flat_map fst snd]. now rewrite IH. }
    rewrite W in *. rewrite entropy_dist by exact D. rewrite S, M. do 4 f_equal.
    unfold st. rewrite map_map. cbn [fst snd].
    transitivity (rsum ps * shannon qs); [|rewrite (proj2 P); ring].
    clear. induction ps as [|p ps IH]; cbn [map rsum]; [ring|]. rewrite IH. ring.
Qed.

(** The order of the outcomes does not matter *)
Theorem C175_order bc ps qs t : distribution ps -> Permutation ps qs ->
  prob_entropy bc (vec_of qs t) = prob_entropy bc (vec_of ps t).
Proof.
  intros P E. assert (Q : distribution qs).
  { destruct P as [A B]. split; [now apply (Permutation_Forall E)|]. now rewrite <- (rsum_perm _ _ E). }
  rewrite !entropy_dist by assumption. do 3 f_equal. unfold shannon. symmetry. apply rsum_perm, Permutation_map, E.
Qed.

Lemma ln_lt_sub x : 0 < x -> x <> 1 -> ln x < x - 1.
Proof.
  intros H N. assert (E : 1 + ln x < exp (ln x)).
  { apply exp_ineq1. intros L. apply N. rewrite <- (exp_ln x), L by exact H. apply exp_0. }
  rewrite exp_ln in E by exact H. lra.
Qed.

(** Equally likely outcomes have the largest entropy, and only they *)
Theorem C175_maximum bc ps t : distribution ps ->
  exists h, prob_entropy bc (vec_of ps t) = Ok (0%Z, Set_ h) /\
    (h = log2 (INR (length ps)) <-> Forall (fun p => p = / INR (length ps)) ps).
Proof.
  intros P. exists (shannon ps). split; [now apply entropy_dist|]. destruct P as [P S].
  pose proof ln2_pos as L2.
  assert (Hn : 0 < INR (length ps)) by (destruct ps; [cbn in S; lra|apply lt_0_INR; cbn; lia]).
  set (n := INR (length ps)) in *.
  set (gap := fun p => p * (/ (n * p) - 1 - ln (/ (n * p)))).
  assert (G : forall l, Forall (fun p => 0 < p) l ->
    rsum (map gap l) = INR (length l) / n - rsum l + rsum l * ln n - shannon l * ln 2).
  { unfold gap, shannon, log2. induction 1 as [|p l Hp H IH]; [cbn; field; lra|].
    cbn [map rsum length]. rewrite S_INR, IH. rewrite !ln_Rinv by (try apply Rmult_lt_0_compat; assumption).
    rewrite ln_mult by assumption. field. lra. }
  assert (Z : rsum (map gap ps) = (log2 n - shannon ps) * ln 2).
  { rewrite G, S by exact P. fold n. unfold log2. field. lra. }
  assert (N : forall p, 0 < p -> 0 <= gap p /\ (gap p = 0 <-> p = / n)).
  { intros p Hp. unfold gap. assert (NP : 0 < / (n * p)) by (apply Rinv_0_lt_compat; now apply Rmult_lt_0_compat).
    destruct (Req_dec (/ (n * p)) 1) as [E|E].
    - rewrite E, ln_1. split; [lra|]. split; [|lra]. intros _.
      assert (n * p = 1) by (rewrite <- (Rinv_inv (n * p)), E; apply Rinv_1).
      apply Rmult_eq_reg_l with n; [|lra]. rewrite Rinv_r; lra.
    - pose proof (ln_lt_sub _ NP E) as L. split; [apply Rmult_le_pos; lra|].
      assert (0 < p * (/ (n * p) - 1 - ln (/ (n * p)))) by (apply Rmult_lt_0_compat; lra).
      split; [lra|]. intros ->. exfalso. apply E. rewrite Rinv_r by lra. apply Rinv_1. }
  assert (ZZ : shannon ps = log2 n <-> rsum (map gap ps) = 0).
  { rewrite Z. split; [intros ->; ring|]. intros K. apply Rmult_integral in K. lra. }
  rewrite ZZ. clear - P N. clearbody gap. clearbody n. induction P as [|p l Hp H IH]; cbn [map rsum]; [split; [constructor|reflexivity]|].
  assert (0 <= rsum (map gap l)) by (apply rsum_nonneg, Forall_map; eapply Forall_impl; [|exact H]; intros; now apply N).
  destruct (N p Hp) as [A B]. split.
  - intros E. constructor; [apply B; lra|apply IH; lra].
  - intros E. inversion E as [|? ? E1 E2]; subst x l0. apply B in E1. apply IH in E2. lra.
Qed.

(** a coin, then a die for heads only *)
Example C175_ex : let st := [(1 / 2, repeat (1 / 6) 6); (1 / 2, [1])] in
  distribution (map fst st) /\ Forall (fun pq => distribution (snd pq)) st /\
  two_stage st = repeat (1 / 2 * (1 / 6)) 6 ++ [1 / 2 * 1].
Proof.
  cbn. unfold distribution. cbn. repeat split; repeat constructor; cbn; try lra.
Qed.
Print Assumptions C175_chain.
Print Assumptions C175_independent.
Print Assumptions C175_order.
Print Assumptions C175_maximum.
