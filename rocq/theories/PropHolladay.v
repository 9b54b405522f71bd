(** C178: of all smooth curves through the table with the same end conditions
    the cubic spline bends least. *)
From Coquelicot Require Import Coquelicot.
From Coq Require Import List Arith ZArith Bool Lia Reals Lra Psatz.
From Verif Require Import Base BaseFacts NumR Out MInterp SpecInterp PInterp PropInterp PHolladay.
Import ListNotations.
Local Open Scope R_scope.

(** The knots below k are smaller *)
Lemma incr_lt (x : nat -> R) n : (forall i, (S i < n)%nat -> x i < x (S i)) ->
  forall i j, (i < j < n)%nat -> x i < x j.
Proof.
  intros inc i j. induction j as [|j IH]; intros H; [lia|]. destruct (Nat.eq_dec i j) as [->|D]; [apply inc; lia|].
  apply Rlt_trans with (x j); [apply IH; lia|apply inc; lia].
Qed.

(** the number of an interval between knots that holds t *)
Lemma same_segment (x : nat -> R) n i k t : (forall i, (S i < n)%nat -> x i < x (S i)) ->
  (S i < n)%nat -> (S k < n)%nat -> (i = 0%nat \/ x i <= t) -> (S i = (n - 1)%nat \/ t < x (S i)) ->
  x k < t < x (S k) -> i = k.
Proof.
  intros inc Hi Hk A B C. pose proof (incr_lt x n inc) as M.
  destruct (Nat.lt_trichotomy i k) as [L|[L|L]]; [|exact L|].
  - destruct B as [B|B]; [lia|]. destruct (Nat.eq_dec (S i) k) as [<-|D]; [lra|]. pose proof (M (S i) k ltac:(lia)). lra.
  - destruct A as [->|A]; [lia|]. destruct (Nat.eq_dec (S k) i) as [<-|D]; [lra|]. pose proof (M (S k) i ltac:(lia)). lra.
Qed.

(** s is the interpolating function; f is any other twice continuously
    differentiable function through the table, with the given slope at each end
    where one is asked for (a slope above 0.99e30 means: none) *)
Theorem C178_least_bending :
  forall fuel xs ys y2 yp1 ypn,
  let n := length xs in let x := fun i => nth i xs 0 in let y := fun i => nth i ys 0 in
  let huge := 990000000000000000000000000000 in
  (3 <= n)%nat -> length ys = n -> length y2 = n -> (n <= fuel)%nat ->
  (forall i, (S i < n)%nat -> x i < x (S i)) ->
  exists z s, interp_cubic_calc true xs ys y2 yp1 ypn = Ok (0%Z, z) /\
    (forall t, interp_cubic_arr fuel xs ys z t = Ok (0%Z, Set_ (s t))) /\
    ex_RInt (fun t => Derive_n s 2 t ^ 2) (x 0%nat) (x (n - 1)%nat) /\
    forall f f1 f2 : R -> R,
      (forall t, is_derive f t (f1 t)) -> (forall t, is_derive f1 t (f2 t)) -> (forall t, continuous f2 t) ->
      (forall i, (i < n)%nat -> f (x i) = y i) ->
      (yp1 <= huge -> f1 (x 0%nat) = yp1) -> (ypn <= huge -> f1 (x (n - 1)%nat) = ypn) ->
      RInt (fun t => Derive_n s 2 t ^ 2) (x 0%nat) (x (n - 1)%nat)
      <= RInt (fun t => f2 t ^ 2) (x 0%nat) (x (n - 1)%nat).
Proof.
  intros fuel xs ys y2 yp1 ypn n x y huge n3 Ly L2 HF inc.
  destruct (C66_spline fuel xs ys y2 yp1 ypn n3 Ly L2 HF inc) as (zs & E & Lz & A & _ & J & E0 & En).
  set (z := fun i => nth i zs 0) in *.
  set (P := fun i => cubic (x i) (y i) (z i) (x (S i)) (y (S i)) (z (S i))).
  set (s := fun t => match interp_cubic_arr fuel xs ys (cells zs) t with Ok (_, Set_ v) => v | _ => 0 end).
  assert (SV : forall t, exists i, (S i < n)%nat /\ (i = 0%nat \/ x i <= t) /\ (S i = (n - 1)%nat \/ t < x (S i)) /\
    interp_cubic_arr fuel xs ys (cells zs) t = Ok (0%Z, Set_ (s t)) /\ s t = P i t).
  { intros t. destruct (A t) as (i & Hi & B & C & D). exists i. split; [exact Hi|]. split; [exact B|]. split; [exact C|].
    unfold s. rewrite D. split; reflexivity. }
  assert (SP : forall k t, (S k < n)%nat -> x k < t < x (S k) -> s t = P k t).
  { intros k t Hk Ht. destruct (SV t) as (i & Hi & B & C & _ & D).
    rewrite <- (same_segment x n i k t inc Hi Hk B C Ht). exact D. }
  set (cv := fun k => curv (x k) (x (S k)) (z k) (z (S k))).
  assert (SD : forall k t, (S k < n)%nat -> x k < t < x (S k) -> Derive_n s 2 t = cv k t).
  { intros k t Hk Ht. rewrite (Derive_n_ext_loc s (P k)).
    - apply is_derive_n_unique. unfold P, cv, curv. apply cubic_second. lra.
    - assert (HE : 0 < Rmin (t - x k) (x (S k) - t)) by (apply Rmin_glb_lt; lra).
      exists (mkposreal _ HE). intros r Hr. apply SP; [exact Hk|].
      unfold ball in Hr. cbn in Hr. unfold AbsRing_ball, abs, minus, plus, opp in Hr. cbn in Hr.
      pose proof (Rmin_l (t - x k) (x (S k) - t)). pose proof (Rmin_r (t - x k) (x (S k) - t)).
      apply Rabs_def2 in Hr. lra. }
  set (D := fun t => Derive_n s 2 t ^ 2).
  assert (SI : forall k, (S k < n)%nat -> ex_RInt D (x k) (x (S k)) /\ RInt D (x k) (x (S k)) = RInt (fun t => cv k t ^ 2) (x k) (x (S k))).
  { intros k Hk. pose proof (inc k Hk) as L.
    assert (X : forall t, Rmin (x k) (x (S k)) < t < Rmax (x k) (x (S k)) -> cv k t ^ 2 = D t).
    { intros t. rewrite Rmin_left, Rmax_right by lra. intros Ht. unfold D. now rewrite (SD k t Hk Ht). }
    split.
    - apply (ex_RInt_ext (V := R_NormedModule) _ _ _ _ X). apply sq_int. intros t. apply curv_cont.
    - symmetry. apply (RInt_ext (V := R_CompleteNormedModule) _ _ _ _ X). }
  assert (WI : forall m, (m < n)%nat -> ex_RInt D (x 0%nat) (x m)).
  { induction m as [|m IH]; intros Hm; [apply ex_RInt_point|].
    apply (ex_RInt_Chasles (V := R_NormedModule)) with (x m); [apply IH; lia|now apply SI]. }
  exists (cells zs), s. split; [exact E|]. split; [|split].
  - intros t. destruct (SV t) as (i & _ & _ & _ & B & _). exact B.
  - apply WI. lia.
  - intros f f1 f2 D1 D2 C2 Hf Hp1 Hpn.
    set (lft := fun k => slope (x k) (y k) (z k) (x (S k)) (y (S k)) (z (S k)) (x k)).
    set (rgt := fun k => slope (x k) (y k) (z k) (x (S k)) (y (S k)) (z (S k)) (x (S k))).
    assert (JJ : forall k, (S (S k) < n)%nat -> rgt k = lft (S k)).
    { intros k Hk. destruct (J k Hk) as (d1 & d2 & J1 & J2 & _).
      pose proof (inc k ltac:(lia)) as P1. pose proof (inc (S k) Hk) as P2.
      apply is_derive_unique in J1, J2. rewrite (is_derive_unique _ _ _ (cubic_slope _ _ _ _ _ _ _ P1)) in J1.
      rewrite (is_derive_unique _ _ _ (cubic_slope _ _ _ _ _ _ _ P2)) in J2.
      unfold rgt, lft, x, y, z. exact (eq_trans J1 (eq_sym J2)). }
    assert (ST : forall m, (S m < n)%nat ->
      RInt D (x 0%nat) (x (S m)) + 2 * (z (S m) * (f1 (x (S m)) - rgt m) - z 0%nat * (f1 (x 0%nat) - lft 0%nat))
      <= RInt (fun t => f2 t ^ 2) (x 0%nat) (x (S m))).
    { assert (SG : forall m, (S m < n)%nat ->
        RInt D (x m) (x (S m)) + 2 * (z (S m) * (f1 (x (S m)) - rgt m) - z m * (f1 (x m) - lft m))
        <= RInt (fun t => f2 t ^ 2) (x m) (x (S m))).
      { intros m Hm. rewrite (proj2 (SI m Hm)).
        apply (segment_energy (x m) (x (S m)) (y m) (z m) (y (S m)) (z (S m)) f f1 f2); auto; apply Hf; lia. }
      induction m as [|m IH]; intros Hm; [now apply SG|].
      specialize (IH ltac:(lia)). specialize (SG (S m) Hm). rewrite <- (JJ m Hm) in SG.
      pose proof (RInt_Chasles (V := R_CompleteNormedModule) D (x 0%nat) (x (S m)) (x (S (S m))) (WI (S m) ltac:(lia)) (proj1 (SI (S m) Hm))) as Q1.
      pose proof (RInt_Chasles (V := R_CompleteNormedModule) (fun t => f2 t ^ 2) (x 0%nat) (x (S m)) (x (S (S m)))
        (sq_int f2 _ _ C2) (sq_int f2 _ _ C2)) as Q2.
      match type of Q1 with plus ?p ?q = ?r => assert (Q1' : r = (p + q)%R) by (symmetry; exact Q1) end.
      match type of Q2 with plus ?p ?q = ?r => assert (Q2' : r = (p + q)%R) by (symmetry; exact Q2) end.
      rewrite Q1', Q2'. clear - IH SG. lra. }
    specialize (ST (n - 2)%nat ltac:(lia)). pose proof (inc (n - 2)%nat ltac:(lia)) as PN.
    replace (S (n - 2)) with (n - 1)%nat in * by lia.
    assert (Z0 : z 0%nat * (f1 (x 0%nat) - lft 0%nat) = 0).
    { pose proof (inc 0%nat ltac:(lia)) as P0. destruct (Rlt_dec _ yp1) as [H|H].
      - pose proof (is_derive_n_unique _ _ _ _ E0) as U.
        rewrite (is_derive_n_unique _ _ _ _ (cubic_second _ _ _ _ _ _ _ P0)) in U.
        assert (z 0%nat = 0); [|nra]. etransitivity; [|exact U]. unfold z, x. cbv beta. ring.
      - pose proof (is_derive_unique _ _ _ E0) as U.
        rewrite (is_derive_unique _ _ _ (cubic_slope _ _ _ _ _ _ _ P0)) in U.
        assert (G : f1 (x 0%nat) = lft 0%nat).
        { rewrite Hp1 by (unfold huge; lra). symmetry. exact U. }
        rewrite G. ring. }
    assert (ZN : z (n - 1)%nat * (f1 (x (n - 1)%nat) - rgt (n - 2)%nat) = 0).
    { destruct (Rlt_dec _ ypn) as [H|H].
      - pose proof (is_derive_n_unique _ _ _ _ En) as U. fold n in U. replace (S (n - 2)) with (n - 1)%nat in U by lia.
        rewrite (is_derive_n_unique _ _ _ _ (cubic_second _ _ _ _ _ _ _ PN)) in U.
        assert (z (n - 1)%nat = 0); [|nra]. etransitivity; [|exact U]. unfold z, x in *. cbv beta in *. field. lra.
      - pose proof (is_derive_unique _ _ _ En) as U. fold n in U. replace (S (n - 2)) with (n - 1)%nat in U by lia.
        rewrite (is_derive_unique _ _ _ (cubic_slope _ _ _ _ _ _ _ PN)) in U.
        assert (G : f1 (x (n - 1)%nat) = rgt (n - 2)%nat).
        { rewrite Hpn by (unfold huge; lra). symmetry. unfold rgt. replace (S (n - 2)) with (n - 1)%nat by lia. exact U. }
        rewrite G. ring. }
    fold D. rewrite Z0, ZN in ST. clear - ST. lra.
Qed.
Print Assumptions C178_least_bending.

Example C178_ex : let xs := [0; 1; 3; 4] in (3 <= length xs)%nat /\
  (forall i, (S i < length xs)%nat -> nth i xs 0 < nth (S i) xs 0) /\
  (* a competitor through (t, t^2) with the slopes 0 and 8 *)
  (forall t, is_derive (fun t => t ^ 2) t (2 * t)) /\ (forall t, is_derive (fun t => 2 * t) t 2) /\
  (forall i, (i < 4)%nat -> nth i xs 0 ^ 2 = nth i [0; 1; 9; 16] 0).
Proof.
  cbn zeta. split; [cbn; lia|]. split.
  { intros i Hi. cbn in Hi. destruct i as [|[|[|i]]]; cbn; [lra|lra|lra|lia]. }
  split; [intros t; auto_derive; [exact I|ring]|]. split; [intros t; auto_derive; [exact I|ring]|].
  intros i Hi. destruct i as [|[|[|[|i]]]]; cbn; [ring|ring|ring|ring|lia].
Qed.
