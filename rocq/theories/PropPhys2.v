(** Physics helpers: conservation laws, inverse pairs, combinations of any
    number of components, transients, and where the guards fall short. *)
From Coq Require Import ZArith Reals Lra Lia Psatz Bool.
From Coquelicot Require Import Coquelicot.
From Coq Require Import List.
From Verif Require Import Base NumR Libm LibmR RTac Out MVec MPhys MPhysVec SpecPhys RPi PropPhys.
From Verif Require Import BaseFacts SpecVec SpecReal PVec PVecR PStat.
Import ListNotations.
Local Open Scope R_scope.

(** the number a successful call stored *)
Lemma answers_unique r valid law x :
  answers r valid law -> r = Ok (0%Z, Set_ x) -> valid /\ law x.
Proof.
  intros [A B] E. destruct (Classical_Prop.classic valid) as [V|V].
  - destruct (A V) as (y & Y & L). rewrite E in Y. injection Y as <-. auto.
  - rewrite (B V) in E. discriminate E.
Qed.

(** ** C87: conservation *)

(** A merge of two bodies keeps their momentum and never gains kinetic energy. *)
Theorem C87_inelastic m1 v1 m2 v2 v :
  mom_inelas m1 v1 m2 v2 = Ok (0%Z, Set_ v) ->
  m1 * v1 + m2 * v2 = (m1 + m2) * v
  /\ (m1 + m2) * v^2 / 2 <= m1 * v1^2 / 2 + m2 * v2^2 / 2
  /\ ((m1 + m2) * v^2 / 2 = m1 * v1^2 / 2 + m2 * v2^2 / 2 -> m1 = 0 \/ m2 = 0 \/ v1 = v2).
Proof.
  intros E. pose proof (proj2 (proj2 (proj2 (proj2 C86_momentum)))) as A.
  destruct (answers_unique _ _ _ _ (A m1 v1 m2 v2) E) as ((P & Q & S) & L).
  assert (K : (m1 + m2) * (m1 * v1^2 + m2 * v2^2 - (m1 + m2) * v^2) = m1 * m2 * (v1 - v2)^2).
  { replace ((m1 + m2) * (m1 * v1^2 + m2 * v2^2 - (m1 + m2) * v^2))
      with ((m1 + m2) * (m1 * v1^2 + m2 * v2^2) - ((m1 + m2) * v)^2) by ring.
    rewrite <- L. ring. }
  assert (0 <= m1 * m2 * (v1 - v2)^2) by (apply Rmult_le_pos; [nra | apply pow2_ge_0]).
  split; [exact L|]. split.
  - apply Rnot_lt_le; intros C. nra.
  - intros Z. assert (Y : m1 * m2 * (v1 - v2)^2 = 0) by (rewrite <- K; nra).
    destruct (Req_dec m1 0); [now left|]. destruct (Req_dec m2 0); [now right; left|]. right; right.
    apply Rmult_integral in Y. destruct Y as [Y|Y]; [apply Rmult_integral in Y; tauto|].
    apply Rminus_diag_uniq. apply Rmult_integral in Y. destruct Y as [|Y]; [assumption|]. lra.
Qed.
Example C87_inelastic_case : gives (mom_inelas 2 3 1 0) 2.
Proof. unfold gives, mom_inelas. rops. rcases. divs. repeat f_equal. lra. Qed.

(** Any number of bodies that merge one after the other: momentum is the sum
    of the momenta, and kinetic energy is at most the sum of the energies. *)
Fixpoint merge (m v : R) (bs : list (R * R)) : outcome (Z * out R) :=
  match bs with
  | [] => Ok (0%Z, Set_ v)
  | (m', v') :: bs =>
      match mom_inelas m v m' v' with
      | Ok (0%Z, Set_ w) => merge (m + m') w bs
      | r => r
      end
  end.
Theorem C87_merge_all bs m v :
  0 < m -> Forall (fun b => 0 <= fst b) bs ->
  exists w, gives (merge m v bs) w
    /\ m * v + rsum (map (fun b => fst b * snd b) bs) = (m + rsum (map fst bs)) * w
    /\ (m + rsum (map fst bs)) * w^2 / 2
       <= m * v^2 / 2 + rsum (map (fun b => fst b * snd b ^ 2 / 2) bs).
Proof.
  intros H F. revert m v H. induction F as [|[m' v'] bs P F IH]; intros m v H; cbn [merge map rsum fst snd] in *.
  - exists v. unfold gives. split; [reflexivity|]. split; nra.
  - pose proof (proj2 (proj2 (proj2 (proj2 C86_momentum)))) as A.
    destruct (proj1 (A m v m' v')) as (w & E & L); [lra|].
    destruct (C87_inelastic _ _ _ _ _ E) as (_ & K & _). rewrite E.
    destruct (IH (m + m') w) as (u & G & M & Q); [lra|].
    exists u. split; [exact G|]. split; [|lra].
    rewrite <- L in M. rewrite <- (Rplus_assoc m m'). rewrite <- M. ring.
Qed.
Example C87_merge_all_case : 0 < 1 /\ Forall (fun b : R * R => 0 <= fst b) [(2, 3); (1, -1)].
Proof. split; [lra|]. repeat constructor; cbn; lra. Qed.

(** The second body's velocity keeps the momentum, whatever velocity the
    caller supplies for the first one after the collision.  Kinetic energy is
    kept exactly when the caller's velocity reverses the relative velocity (or
    nothing happened), so "elastic" depends on the caller. *)
Theorem C87_elastic m1 u1 w1 m2 u2 w2 :
  mom_elas m1 u1 w1 m2 u2 = Ok (0%Z, Set_ w2) ->
  m1 * u1 + m2 * u2 = m1 * w1 + m2 * w2
  /\ (m1 * u1^2 / 2 + m2 * u2^2 / 2 = m1 * w1^2 / 2 + m2 * w2^2 / 2
      <-> m1 = 0 \/ w1 = u1 \/ w1 - w2 = - (u1 - u2)).
Proof.
  intros E. pose proof (proj1 (proj2 (proj2 (proj2 C86_momentum)))) as A.
  destruct (answers_unique _ _ _ _ (A m1 u1 w1 m2 u2) E) as ((P & Q) & L).
  split; [exact L|].
  assert (K : (m1 * u1^2 + m2 * u2^2) - (m1 * w1^2 + m2 * w2^2)
              = m1 * (u1 - w1) * ((u1 - u2) + (w1 - w2))).
  { assert (M : m2 * (w2 - u2) = m1 * (u1 - w1)) by lra.
    transitivity (m1 * (u1 - w1) * (u1 + w1) - m2 * (w2 - u2) * (w2 + u2)); [ring|]. rewrite M. ring. }
  split.
  - intros H. assert (Z : m1 * (u1 - w1) * ((u1 - u2) + (w1 - w2)) = 0) by (rewrite <- K; lra).
    apply Rmult_integral in Z. destruct Z as [Z|Z]; [|right; right; lra].
    apply Rmult_integral in Z. destruct Z; [now left | right; left; lra].
  - intros H. enough (m1 * (u1 - w1) * ((u1 - u2) + (w1 - w2)) = 0) by lra.
    destruct H as [H|[H|H]]; [rewrite H; ring | rewrite H; ring |].
    replace (u1 - u2 + (w1 - w2)) with 0 by lra. ring.
Qed.
(** Equal masses, the second at rest, and a caller who says the first stops:
    the velocities are exchanged. *)
Example C87_elastic_case : gives (mom_elas 1 5 0 1 0) 5.
Proof. unfold gives, mom_elas. rops. rcases. divs. repeat f_equal. lra. Qed.
Theorem C87_elastic_energy_refuted :
  gives (mom_elas 1 5 5 1 0) 0 /\ gives (mom_elas 1 1 (-3) 1 0) 4
  /\ 1 * 1^2 / 2 + 1 * 0^2 / 2 < 1 * (-3)^2 / 2 + 1 * 4^2 / 2.
Proof.
  split; [|split]; [unfold gives, mom_elas; rops; rcases; divs; repeat f_equal; lra .. | lra].
Qed.

(** A gas, a pipe or a lever taken through any sequence of settings keeps its
    invariant, and coming back to the first setting restores the first value. *)
Definition then_ (r : outcome (Z * out R)) (k : R -> outcome (Z * out R)) : outcome (Z * out R) :=
  match r with Ok (0%Z, Set_ x) => k x | _ => r end.
Fixpoint tour (step : R -> R -> R -> outcome (Z * out R)) (s x : R) (ss : list R) : outcome (Z * out R) :=
  match ss with
  | [] => Ok (0%Z, Set_ x)
  | s' :: ss => then_ (step s x s') (fun x' => tour step s' x' ss)
  end.

Lemma tour_keeps (step : R -> R -> R -> outcome (Z * out R)) (I : R -> R -> R) (ok : R -> Prop) (okx : R -> Prop)
  (H : forall s x s', ok s -> okx x -> ok s' -> exists x', step s x s' = Ok (0%Z, Set_ x') /\ okx x' /\ I s' x' = I s x) ss :
  forall s x, ok s -> okx x -> Forall ok ss ->
  exists y, gives (tour step s x ss) y /\ okx y /\ I (last ss s) y = I s x.
Proof.
  induction ss as [|s' ss IH]; intros s x Hs Hx F; cbn [tour].
  - exists x. repeat split; auto.
  - inversion F as [|? ? F1 F2]; subst. destruct (H s x s' Hs Hx F1) as (x' & E & X & K).
    rewrite E. cbn [then_]. destruct (IH s' x' F1 X F2) as (y & G & Y & L).
    exists y. split; [exact G|]. split; [exact Y|]. rewrite <- K, <- L.
    destruct ss; [reflexivity|]. f_equal. clear. revert s s' r. induction ss; intros; [reflexivity|].
    change (last (r :: a :: ss) s) with (last (a :: ss) s). change (last (r :: a :: ss) s') with (last (a :: ss) s').
    apply (IHss s s' a).
Qed.

Theorem C87_boyle p v ps :
  0 < p -> 0 <= v -> Forall (fun x => 0 < x) ps ->
  exists w, gives (tour gas_boyle p v ps) w /\ 0 <= w /\ last ps p * w = p * v.
Proof.
  intros Hp Hv F. apply (tour_keeps gas_boyle (fun p v => p * v) (fun x => 0 < x) (fun x => 0 <= x)); auto.
  intros s x s' P Q P'.
  destruct (proj1 (proj1 (proj2 (proj2 C86_gases)) s x s')) as (w & E & L); [lra|].
  exists w. split; [exact E|]. split; [|now symmetry]. apply Rnot_lt_le; intros N. nra.
Qed.
Theorem C87_charles t v ts :
  0 < t -> 0 <= v -> Forall (fun x => 0 < x) ts ->
  exists w, gives (tour gas_charles_lussac t v ts) w /\ 0 <= w /\ w / last ts t = v / t.
Proof.
  intros Hp Hv F. apply (tour_keeps gas_charles_lussac (fun t v => v / t) (fun x => 0 < x) (fun x => 0 <= x)); auto.
  intros s x s' P Q P'.
  destruct (proj1 (proj2 (proj2 (proj2 C86_gases)) s x s')) as (w & E & L); [lra|].
  exists w. split; [exact E|]. split.
  - rewrite <- L. repeat apply Rmult_le_pos; try lra. apply Rlt_le, Rinv_0_lt_compat; lra.
  - rewrite <- L. field. lra.
Qed.
Theorem C87_flow a v l :
  0 < a -> 0 <= v -> Forall (fun x => 0 < x) l ->
  exists w, gives (tour fluid_flow_rate a v l) w /\ 0 <= w /\ last l a * w = a * v.
Proof.
  intros Hp Hv F. apply (tour_keeps fluid_flow_rate (fun p v => p * v) (fun x => 0 < x) (fun x => 0 <= x)); auto.
  intros s x s' P Q P'.
  destruct (proj1 (proj1 (proj2 (proj2 (proj2 (proj2 C86_fluids)))) s x s')) as (w & E & L); [lra|].
  exists w. split; [exact E|]. split; [|now symmetry]. apply Rnot_lt_le; intros N. nra.
Qed.
Theorem C87_hydraulic a f l :
  0 < a -> 0 <= f -> Forall (fun x => 0 < x) l ->
  exists w, gives (tour fluid_force_prop a f l) w /\ 0 <= w /\ w / last l a = f / a.
Proof.
  intros Hp Hv F. apply (tour_keeps fluid_force_prop (fun p v => v / p) (fun x => 0 < x) (fun x => 0 <= x)); auto.
  intros s x s' P Q P'.
  destruct (proj1 (proj1 (proj2 (proj2 (proj2 (proj2 (proj2 C86_fluids))))) s x s')) as (w & E & L); [lra|].
  exists w. split; [exact E|]. split.
  - rewrite <- L. repeat apply Rmult_le_pos; try lra. apply Rlt_le, Rinv_0_lt_compat; lra.
  - rewrite <- L. field. lra.
Qed.
Theorem C87_lever d f l :
  0 < d -> Forall (fun x => 0 < x) l ->
  exists w, gives (tour dyn_lever d f l) w /\ last l d * w = d * f.
Proof.
  intros Hp F.
  destruct (tour_keeps dyn_lever (fun p v => p * v) (fun x => 0 < x) (fun x => True)) with (ss := l) (s := d) (x := f)
    as (w & G & _ & K); eauto.
  intros s x s' P Q P'.
  destruct (proj1 (proj2 (proj2 (proj2 (proj2 (proj2 (proj2 C86_dynamics))))) s x s')) as (w & E & L); [lra|].
  exists w. split; [exact E|]. split; [trivial | now symmetry].
Qed.
(** Carnot: along any sequence of rising temperatures the entropy Q/T stays. *)
Theorem C87_carnot t q ts :
  0 < t -> Forall (fun x => t <= x) ts -> (forall i, (S i < length ts)%nat -> nth i ts 0 <= nth (S i) ts 0) ->
  exists w, gives (tour (fun tc qc th => thermo_carnot_engine tc qc th) t q ts) w /\ w / last ts t = q / t.
Proof.
  revert t q. induction ts as [|t' ts IH]; intros t q H F M; cbn [tour].
  - exists q. split; reflexivity.
  - inversion F as [|? ? F1 F2]; subst.
    destruct (proj1 (proj2 (proj2 (proj2 (proj2 (proj2 C86_thermo)))) t q t')) as (x & E & L); [lra|].
    rewrite E. cbn [then_].
    destruct (IH t' x) as (w & G & K).
    + lra.
    + clear IH E L x F. revert t' F1 F2 M. induction ts as [|u ts IHt]; intros t' F1 F2 M; [constructor|].
      inversion F2; subst. pose proof (M 0%nat ltac:(cbn; lia)) as M0. cbn in M0. constructor; [exact M0|].
      eapply Forall_impl; [|apply (IHt u); auto; intros i Hi; apply (M (S i)); cbn in *; lia].
      cbn. intros; lra.
    + intros i Hi. apply (M (S i)). cbn in *. lia.
    + exists w. split; [exact G|].
      replace (last (t' :: ts) t) with (last ts t'); [lra|].
      clear. destruct ts; [reflexivity|]. revert t t' r. induction ts; intros; [reflexivity|].
      change (last (r :: a :: ts) t') with (last (a :: ts) t').
      change (last (t' :: r :: a :: ts) t) with (last (r :: a :: ts) t).
      change (last (r :: a :: ts) t) with (last (a :: ts) t).
      apply (IHts t t' a).
Qed.
Example C87_tours_case : 0 < 2 /\ 0 <= 3 /\ Forall (fun x => 0 < x) [1; 4; 2].
Proof. split; [lra|]. split; [lra|]. repeat constructor; lra. Qed.

(** Bernoulli: along any sequence of sections the sum of static and dynamic
    pressure stays (pressures are in kilopascals), as long as the static
    pressure stays positive, which the code does not check. *)
Fixpoint pipe (d v p : R) (vs : list R) : outcome (Z * out R) :=
  match vs with
  | [] => Ok (0%Z, Set_ p)
  | v' :: vs => then_ (fluid_bernoulli d v p v') (fun p' => pipe d v' p' vs)
  end.
Theorem C87_bernoulli d v p vs :
  0 <= d -> 0 <= v -> Forall (fun w => 0 <= w /\ d * w^2 / 2 <= 1000 * p + d * v^2 / 2) vs -> 0 <= p ->
  exists q, gives (pipe d v p vs) q /\ 0 <= q
    /\ 1000 * q + d * (last vs v)^2 / 2 = 1000 * p + d * v^2 / 2.
Proof.
  intros D. revert v p. induction vs as [|w vs IH]; intros v p V F P; cbn [pipe].
  - exists p. split; [reflexivity|]. split; [exact P | reflexivity].
  - inversion F as [|? ? F1 F2]; subst.
    destruct (proj1 (proj1 (proj2 (proj2 (proj2 (proj2 (proj2 (proj2 C86_fluids)))))) d v p w)) as (q & E & L); [lra|].
    rewrite E. cbn [then_]. destruct (IH w q) as (y & G & Y & K).
    + lra.
    + eapply Forall_impl; [|exact F2]. cbv beta. intros a [A B]. split; [exact A | lra].
    + lra.
    + exists y. split; [exact G|]. split; [exact Y|]. rewrite L, <- K. f_equal. f_equal. f_equal. f_equal.
      destruct vs; [reflexivity|]. clear. revert v w r. induction vs; intros; [reflexivity|].
      change (last (r :: a :: vs) w) with (last (a :: vs) w).
      change (last (w :: r :: a :: vs) v) with (last (r :: a :: vs) v).
      change (last (r :: a :: vs) v) with (last (a :: vs) v). apply (IHvs v w a).
Qed.
Example C87_bernoulli_case :
  Forall (fun w => 0 <= w /\ 1000 * w^2 / 2 <= 1000 * 100 + 1000 * 1^2 / 2) [2; 4].
Proof. repeat constructor; lra. Qed.

(** A transformer back to its own number of turns restores the voltage, and
    energy bookkeeping closes: what is left over completes the initial sum. *)
Theorem C87_transformer n1 v1 n2 v2 :
  (n1 <> 0)%Z -> (n2 <> 0)%Z -> ecmp_trans n1 v1 n2 = Ok (0%Z, Set_ v2) ->
  gives (ecmp_trans n2 v2 n1) v1.
Proof.
  intros H1 H2 E. pose proof (proj1 (proj2 (proj2 (proj2 (proj2 C86_components))))) as A.
  destruct (answers_unique _ _ _ _ (A n1 v1 n2) E) as (_ & L).
  destruct (proj1 (A n2 v2 n1) H2) as (w & W & K). unfold gives. rewrite W. repeat f_equal.
  apply (Rmult_eq_reg_r (IZR n2)); [lra | now apply not_0_IZR].
Qed.
Example C87_transformer_case : gives (ecmp_trans 100 230 5) (230 * 5 / 100).
Proof. unfold gives, ecmp_trans. rops. cbn [Z.eqb]. divs. reflexivity. Qed.
