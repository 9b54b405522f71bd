(** C177: the cubic spline reproduces cubic polynomials. *)
From Coquelicot Require Import Coquelicot.
From Coq Require Import List Arith ZArith Bool Lia Reals Lra Psatz.
From Verif Require Import Base BaseFacts SpecVec SpecReal NumR Out MInterp SpecInterp PInterp PropInterp.
Import ListNotations.
Local Open Scope R_scope.

(** A value of |w| that no other exceeds *)
Lemma argmax (w : nat -> R) n : (0 < n)%nat -> exists k, (k < n)%nat /\ forall i, (i < n)%nat -> Rabs (w i) <= Rabs (w k).
Proof.
  induction n as [|n IH]; intros H; [lia|]. destruct n as [|n].
  - exists 0%nat. split; [lia|]. intros i Hi. replace i with 0%nat by lia. lra.
  - destruct IH as (k & K & M); [lia|]. destruct (Rle_lt_dec (Rabs (w (S n))) (Rabs (w k))) as [L|L].
    + exists k. split; [lia|]. intros i Hi. destruct (Nat.eq_dec i (S n)) as [->|D]; [exact L|apply M; lia].
    + exists (S n). split; [lia|]. intros i Hi. destruct (Nat.eq_dec i (S n)) as [->|D]; [lra|]. specialize (M i ltac:(lia)). lra.
Qed.

(** The equations of a spline have one solution *)
Lemma spline_unique (x w : nat -> R) n : (3 <= n)%nat -> (forall i, (S i < n)%nat -> x i < x (S i)) ->
  (forall i, (S (S i) < n)%nat -> (x (S i) - x i) * (w i + 2 * w (S i)) + (x (S (S i)) - x (S i)) * (2 * w (S i) + w (S (S i))) = 0) ->
  (w 0%nat = 0 \/ 2 * w 0%nat + w 1%nat = 0) ->
  (w (n - 1)%nat = 0 \/ w (n - 2)%nat + 2 * w (n - 1)%nat = 0) ->
  forall i, (i < n)%nat -> w i = 0.
Proof.
  intros n3 inc E E0 En. destruct (argmax w n ltac:(lia)) as (k & K & M).
  assert (Z : w k = 0).
  { destruct (Nat.eq_dec k 0) as [->|K0]; [|destruct (Nat.eq_dec k (n - 1)) as [->|K1]].
    - destruct E0 as [E0|E0]; [exact E0|]. specialize (M 1%nat ltac:(lia)). revert M. unfold Rabs.
      destruct (Rcase_abs (w 1%nat)), (Rcase_abs (w 0%nat)); lra.
    - destruct En as [En|En]; [exact En|]. specialize (M (n - 2)%nat ltac:(lia)). revert M. unfold Rabs.
      destruct (Rcase_abs (w (n - 2)%nat)), (Rcase_abs (w (n - 1)%nat)); lra.
    - destruct k as [|k]; [lia|]. specialize (E k ltac:(lia)).
      pose proof (inc k ltac:(lia)) as A. pose proof (inc (S k) ltac:(lia)) as B.
      pose proof (M k ltac:(lia)) as M1. pose proof (M (S (S k)) ltac:(lia)) as M2.
      set (h := x (S k) - x k) in *. set (g := x (S (S k)) - x (S k)) in *.
      assert (Hh : 0 < h) by (unfold h; lra). assert (Hg : 0 < g) by (unfold g; lra).
      revert M1 M2. unfold Rabs.
      destruct (Rcase_abs (w k)), (Rcase_abs (w (S k))), (Rcase_abs (w (S (S k)))); intros; nra. }
  intros i Hi. specialize (M i Hi). rewrite Z, Rabs_R0 in M. pose proof (Rabs_pos (w i)).
  destruct (Req_dec (w i) 0) as [|N]; [assumption|]. pose proof (Rabs_pos_lt _ N). lra.
Qed.

(** a + b t + c t^2 + d t^3 and its derivatives *)
Definition poly3 (a b c d t : R) : R := a + b * t + c * t ^ 2 + d * t ^ 3.
Definition poly3' (b c d t : R) : R := b + 2 * c * t + 3 * d * t ^ 2.
Definition poly3'' (c d t : R) : R := 2 * c + 6 * d * t.

Lemma cubic_poly3 a b c d u v t : u < v ->
  cubic u (poly3 a b c d u) (poly3'' c d u) v (poly3 a b c d v) (poly3'' c d v) t = poly3 a b c d t.
Proof. intros H. unfold cubic, poly3, poly3''. field. lra. Qed.

Lemma slope_right a b c d u v z0 z1 : u < v ->
  slope u (poly3 a b c d u) z0 v (poly3 a b c d v) z1 v
  = poly3' b c d v + (v - u) * ((z0 - poly3'' c d u) + 2 * (z1 - poly3'' c d v)) / 6.
Proof. intros H. unfold slope, poly3, poly3', poly3''. field. lra. Qed.
Lemma slope_left a b c d u v z0 z1 : u < v ->
  slope u (poly3 a b c d u) z0 v (poly3 a b c d v) z1 u
  = poly3' b c d u - (v - u) * (2 * (z0 - poly3'' c d u) + (z1 - poly3'' c d v)) / 6.
Proof. intros H. unfold slope, poly3, poly3', poly3''. field. lra. Qed.

(** The table lies on a cubic polynomial and each end condition is true of that
    polynomial (its slope there is given, or no slope is asked for and its
    curvature there is zero): the spline is the polynomial, at every t *)
Theorem C177_reproduces fuel xs y2 yp1 ypn a b c d :
  let n := length xs in let x := fun i => nth i xs 0 in let g := poly3 a b c d in
  (3 <= n)%nat -> length y2 = n -> (n <= fuel)%nat ->
  (forall i, (S i < n)%nat -> x i < x (S i)) ->
  (if Rlt_dec 990000000000000000000000000000 yp1 then is_derive_n g 2 (x 0%nat) 0 else is_derive g (x 0%nat) yp1) ->
  (if Rlt_dec 990000000000000000000000000000 ypn then is_derive_n g 2 (x (n - 1)%nat) 0 else is_derive g (x (n - 1)%nat) ypn) ->
  exists zs, interp_cubic_calc true xs (map g xs) y2 yp1 ypn = Ok (0%Z, cells zs) /\
    forall t, interp_cubic_arr fuel xs (map g xs) (cells zs) t = Ok (0%Z, Set_ (g t)).
Proof.
  intros n x g n3 L2 HF inc B0 Bn.
  assert (D1 : forall t, is_derive g t (poly3' b c d t)) by (intros t; unfold g, poly3, poly3'; auto_derive; [exact I|ring]).
  assert (D2 : forall t, is_derive_n g 2 t (poly3'' c d t)).
  { intros t. cbn [is_derive_n Derive_n]. apply is_derive_ext with (poly3' b c d).
    - intros s. symmetry. apply is_derive_unique, D1.
    - unfold poly3', poly3''. auto_derive; [exact I|ring]. }
  destruct (C66_spline fuel xs (map g xs) y2 yp1 ypn n3 ltac:(apply map_length) L2 HF inc)
    as (zs & E & Lz & A & _ & J & E0 & En).
  exists zs. split; [exact E|].
  assert (Y : forall i, (i < n)%nat -> nth i (map g xs) 0 = g (x i)).
  { intros i Hi. rewrite (nth_indep _ 0 (g 0)) by (now rewrite map_length). apply map_nth. }
  fold n in E, A, J, E0, En. fold x in A, J, E0, En.
  set (z := fun i => nth i zs 0) in *.
  assert (W : forall i, (i < n)%nat -> z i - poly3'' c d (x i) = 0).
  { apply (spline_unique x (fun i => z i - poly3'' c d (x i)) n n3 inc).
    - intros i Hi. destruct (J i Hi) as (d1 & d2 & J1 & J2 & _).
      pose proof (inc i ltac:(lia)) as P1. pose proof (inc (S i) Hi) as P2.
      rewrite !Y in J1, J2 by lia.
      pose proof (is_derive_unique _ _ _ J1) as U1. pose proof (is_derive_unique _ _ _ J2) as U2.
      rewrite (is_derive_unique _ _ _ (cubic_slope _ _ _ _ _ _ _ P1)) in U1.
      rewrite (is_derive_unique _ _ _ (cubic_slope _ _ _ _ _ _ _ P2)) in U2.
      unfold g in U1, U2. rewrite slope_right in U1 by exact P1. rewrite slope_left in U2 by exact P2.
      pose proof (eq_trans U1 (eq_sym U2)) as U. cbn beta.
      match type of U with ?p = ?q => assert (U' : @eq R p q) by exact U end.
      unfold z, x in *. cbv beta in *. clear - U'. lra.
    - pose proof (inc 0%nat ltac:(lia)) as P. rewrite !Y in E0 by lia.
      destruct (Rlt_dec _ yp1).
      + left. pose proof (is_derive_n_unique _ _ _ _ E0) as U. pose proof (is_derive_n_unique _ _ _ _ B0) as V.
        rewrite (is_derive_n_unique _ _ _ _ (cubic_second _ _ _ _ _ _ _ P)) in U.
        rewrite (is_derive_n_unique _ _ _ _ (D2 _)) in V. cbn beta. rewrite V.
        etransitivity; [|exact U]. unfold z, x. cbv beta. ring.
      + right. pose proof (is_derive_unique _ _ _ E0) as U. pose proof (is_derive_unique _ _ _ B0) as V.
        rewrite (is_derive_unique _ _ _ (cubic_slope _ _ _ _ _ _ _ P)) in U.
        rewrite (is_derive_unique _ _ _ (D1 _)) in V. unfold g in U. rewrite slope_left in U by exact P. cbn beta.
        rewrite <- V in U. unfold z, x in *. cbv beta in *. apply Rmult_eq_reg_l with (nth 1 xs 0 - nth 0 xs 0); [clear - U|]; lra.
    - pose proof (inc (n - 2)%nat ltac:(lia)) as P. rewrite !Y in En by lia.
      replace (S (n - 2)) with (n - 1)%nat in * by lia.
      destruct (Rlt_dec _ ypn).
      + left. pose proof (is_derive_n_unique _ _ _ _ En) as U. pose proof (is_derive_n_unique _ _ _ _ Bn) as V.
        rewrite (is_derive_n_unique _ _ _ _ (cubic_second _ _ _ _ _ _ _ P)) in U.
        rewrite (is_derive_n_unique _ _ _ _ (D2 _)) in V. cbn beta. rewrite V, Rminus_0_r. etransitivity; [|exact U]. unfold z, x in *. cbv beta in *. field. lra.
      + right. pose proof (is_derive_unique _ _ _ En) as U. pose proof (is_derive_unique _ _ _ Bn) as V.
        rewrite (is_derive_unique _ _ _ (cubic_slope _ _ _ _ _ _ _ P)) in U.
        rewrite (is_derive_unique _ _ _ (D1 _)) in V. unfold g in U. rewrite slope_right in U by exact P. cbn beta.
        rewrite <- V in U. unfold z, x in *. cbv beta in *. apply Rmult_eq_reg_l with (nth (n - 1) xs 0 - nth (n - 2) xs 0); [clear - U|]; lra. }
  intros t. destruct (A t) as (i & Hi & _ & _ & R). rewrite R. do 3 f_equal.
  rewrite !Y by lia. pose proof (W i ltac:(lia)) as W0. pose proof (W (S i) Hi) as W1.
  apply Rminus_diag_uniq in W0, W1. unfold z, x in W0, W1. cbv beta in W0, W1. rewrite W0, W1. unfold g.
  apply cubic_poly3. exact (inc i Hi).
Qed.
Print Assumptions C177_reproduces.

(** Data on a straight line, no slopes asked for: the line, everywhere *)
Theorem C177_line fuel xs y2 yp1 ypn a b :
  let n := length xs in
  (3 <= n)%nat -> length y2 = n -> (n <= fuel)%nat ->
  (forall i, (S i < n)%nat -> nth i xs 0 < nth (S i) xs 0) ->
  990000000000000000000000000000 < yp1 -> 990000000000000000000000000000 < ypn ->
  exists zs, interp_cubic_calc true xs (map (fun t => a + b * t) xs) y2 yp1 ypn = Ok (0%Z, cells zs) /\
    forall t, interp_cubic_arr fuel xs (map (fun t => a + b * t) xs) (cells zs) t = Ok (0%Z, Set_ (a + b * t)).
Proof.
  intros n n3 L2 HF inc H1 Hn.
  assert (G : forall t, poly3 a b 0 0 t = a + b * t) by (intros t; unfold poly3; ring).
  assert (D2 : forall u, is_derive_n (poly3 a b 0 0) 2 u 0).
  { intros u. cbn [is_derive_n Derive_n]. apply is_derive_ext with (fun _ => b).
    - intros s. symmetry. apply is_derive_unique. unfold poly3. auto_derive; [exact I|ring].
    - auto_derive; [exact I|ring]. }
  destruct (C177_reproduces fuel xs y2 yp1 ypn a b 0 0 n3 L2 HF inc) as (zs & E & A).
  - destruct (Rlt_dec _ yp1); [apply D2|contradiction].
  - destruct (Rlt_dec _ ypn); [apply D2|contradiction].
  - exists zs. rewrite (map_ext _ _ G) in E. split; [exact E|]. intros t. specialize (A t).
    rewrite (map_ext _ _ G), G in A. exact A.
Qed.
Print Assumptions C177_line.

(** t^3 at 0, 1, 3 with its slopes 0 and 27: the value at 2 is 8 *)
Example C177_ex : exists z, interp_cubic_calc true [0; 1; 3] [0; 1; 27] (fresh 3) 0 27 = Ok (0%Z, z) /\
  interp_cubic_arr 3 [0; 1; 3] [0; 1; 27] z 2 = Ok (0%Z, Set_ 8).
Proof.
  assert (D : forall t, is_derive (poly3 0 0 0 1) t (3 * t ^ 2)) by (intros t; unfold poly3; auto_derive; [exact I|ring]).
  destruct (C177_reproduces 3 [0; 1; 3] (fresh 3) 0 27 0 0 0 1) as (zs & E & A).
  - cbn; lia.
  - reflexivity.
  - cbn; lia.
  - intros i Hi. cbn in Hi. destruct i as [|[|i]]; cbn; [lra|lra|lia].
  - destruct (Rlt_dec _ 0); [lra|]. assert (Z : 3 * 0 ^ 2 = 0) by ring. pose proof (D 0) as D0. rewrite Z in D0. exact D0.
  - destruct (Rlt_dec _ 27); [lra|]. assert (Z : 3 * 3 ^ 2 = 27) by ring. pose proof (D 3) as D0. rewrite Z in D0. exact D0.
  - specialize (A 2).
    replace (map (poly3 0 0 0 1) [0; 1; 3]) with [0; 1; 27] in * by (cbn [map]; unfold poly3; repeat f_equal; ring).
    exists (cells zs). split; [exact E|]. rewrite A. do 3 f_equal. unfold poly3. ring.
Qed.
