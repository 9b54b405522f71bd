(** What constant readings do to the orientation of a fusion filter at rest:
    the turn of the predicted directions in one step of Mahony's filter, and
    the limit of the cosine between the predicted and the measured vertical. *)
From Coquelicot Require Import Coquelicot.
From Coq Require Import List Arith ZArith Bool Reals Lra Lia.
From Verif Require Import Base BaseFacts NumR SpecReal RTac SpecMtx MQuat SpecQuat PQuat PQuatRot PQuatTrig PQuatEul MFusion
  SpecFusion PFusion PFusion2.
Import ListNotations.
Local Open Scope R_scope.

(** one integration step turns every predicted direction about the rate *)
Lemma spin_prod t (w : v3) q : unit_quat q ->
  spin t w q = qnormalise (hprod (mkq 1 (vscale (t / 2) w)) q).
Proof.
  intros U. unfold spin. rewrite (qnormalise_of_unit q U). f_equal.
  destruct w as [[x y] z], q as [r i j k]. unfold hprod, pure, qplus, qscale, mkq, re, im, vadd, vscale, vcross, vdot.
  cbn. f_equal; ring.
Qed.

Definition turn (s : v3) (v : v3) : v3 :=
  vadd v (vscale (2 / (1 + vdot s s)) (vadd (vcross s v) (vcross s (vcross s v)))).

Lemma rotate_spin t (w : v3) q x : unit_quat q ->
  rotate (spin t w q) x = turn (vscale (t / 2) w) (rotate q x).
Proof.
  intros U. rewrite spin_prod by exact U. set (s := vscale (t / 2) w).
  assert (P : 0 < 1 + vdot s s).
  { destruct s as [[a b] c]. unfold vdot. nra. }
  assert (N : qdot (hprod (mkq 1 s) q) (hprod (mkq 1 s) q) = 1 + vdot s s).
  { rewrite qdot_hprod. unfold unit_quat in U. rewrite U. destruct s as [[a b] c].
    unfold qdot, mkq, re, im, vdot. cbn. ring. }
  unfold qnormalise, qnorm. rewrite N. set (n := sqrt (1 + vdot s s)) in *.
  assert (Hn : 0 < n) by now apply sqrt_lt_R0.
  assert (Hn2 : n * n = 1 + vdot s s) by (apply sqrt_sqrt; lra).
  rewrite <- hprod_scale_l. rewrite rotate_hprod; [|  |exact U].
  2:{ unfold unit_quat. rewrite qdot_scale.
      replace (qdot (mkq 1 s) (mkq 1 s)) with (n * n)
        by (rewrite Hn2; destruct s as [[a b] c]; unfold qdot, mkq, re, im, vdot; cbn; ring).
      field. lra. }
  unfold turn. rewrite <- Hn2. destruct (rotate q x) as [[a b] c], s as [[d e] f].
  unfold rotate, qscale, mkq, re, im, vadd, vscale, vcross. cbn.
  f_equal; [f_equal|]; field; lra.
Qed.

(** the cosine to a fixed direction after the turn *)
Lemma dot_turn (s a v : v3) :
  vdot a (turn s v)
  = vdot a v + 2 / (1 + vdot s s) * (vdot s (vcross v a) + (vdot a s * vdot s v - vdot s s * vdot a v)).
Proof.
  unfold turn. set (k := 2 / _). destruct s as [[x y] z], a as [[a b] c], v as [[d e] f].
  unfold vdot, vadd, vscale, vcross. ring.
Qed.
Lemma turn_bound (s a v : v3) : vdot a a = 1 -> vdot v v = 1 ->
  vdot a s * vdot s v - vdot s s * vdot a v <= vdot s s.
Proof.
  intros Ha Hv.
  assert (E : vdot a s * vdot s v - vdot s s * vdot a v = - vdot (vcross s a) (vcross s v)).
  { destruct s as [[x y] z], a as [[a b] c], v as [[d e] f]. unfold vdot, vcross. ring. }
  rewrite E.
  assert (X : forall u : v3, vdot u u = 1 -> vdot (vcross s u) (vcross s u) <= vdot s s).
  { intros u Hu.
    assert (vdot (vcross s u) (vcross s u) = vdot s s * vdot u u - vdot s u * vdot s u).
    { destruct s as [[x y] z], u as [[a' b'] c']. unfold vdot, vcross. ring. }
    rewrite H, Hu. pose proof (Rle_0_sqr (vdot s u)). unfold Rsqr in *. lra. }
  pose proof (X a Ha) as Xa. pose proof (X v Hv) as Xv.
  assert (Y : 0 <= vdot (vadd (vcross s a) (vcross s v)) (vadd (vcross s a) (vcross s v))).
  { destruct (vadd (vcross s a) (vcross s v)) as [[x y] z]. unfold vdot. nra. }
  assert (Z : vdot (vadd (vcross s a) (vcross s v)) (vadd (vcross s a) (vcross s v))
              = vdot (vcross s a) (vcross s a) + vdot (vcross s v) (vcross s v) + 2 * vdot (vcross s a) (vcross s v)).
  { destruct (vcross s a) as [[x y] z], (vcross s v) as [[x' y'] z']. unfold vdot, vadd. ring. }
  lra.
Qed.
Lemma vdot_sqr (v : v3) : 0 <= vdot v v.
Proof. destruct v as [[x y] z]. unfold vdot. nra. Qed.
Lemma vdot_zero (v : v3) : vdot v v = 0 -> v = (0, 0, 0).
Proof. destruct v as [[x y] z]. unfold vdot. intros H. f_equal; [f_equal|]; nra. Qed.
Lemma cos_bounds (a v : v3) : vdot a a = 1 -> vdot v v = 1 -> -1 <= vdot a v <= 1.
Proof.
  intros Ha Hv.
  pose proof (vdot_sqr (vadd a v)) as P. pose proof (vdot_sqr (vsub a v)) as M.
  assert (E1 : vdot (vadd a v) (vadd a v) = vdot a a + vdot v v + 2 * vdot a v)
    by (destruct a as [[x y] z], v as [[x' y'] z']; unfold vdot, vadd; ring).
  assert (E2 : vdot (vsub a v) (vsub a v) = vdot a a + vdot v v - 2 * vdot a v)
    by (destruct a as [[x y] z], v as [[x' y'] z']; unfold vsub, vdot, vadd, vscale; ring).
  lra.
Qed.

(** turning by a multiple of a x v: the exact new cosine *)
Lemma cross_step (k : R) (a v : v3) : vdot a a = 1 -> vdot v v = 1 ->
  let c := vdot a v in
  vdot a (turn (vscale k (vcross a v)) v) = c - 2 * k * (1 - c * c) * (1 + k * c) / (1 + k * k * (1 - c * c)).
Proof.
  intros Ha Hv c. rewrite dot_turn.
  assert (L : vdot (vcross a v) (vcross a v) = 1 - c * c).
  { unfold c. replace (vdot (vcross a v) (vcross a v)) with (vdot a a * vdot v v - vdot a v * vdot a v)
      by (destruct a as [[x y] z], v as [[x' y'] z']; unfold vdot, vcross; ring). rewrite Ha, Hv. ring. }
  set (s := vscale k (vcross a v)).
  assert (S : vdot s s = k * k * (1 - c * c)).
  { rewrite <- L. unfold s. destruct (vcross a v) as [[x y] z]. unfold vdot, vscale. ring. }
  assert (D : vdot s (vcross v a) = - k * (1 - c * c)).
  { rewrite <- L. unfold s. destruct a as [[x y] z], v as [[x' y'] z']. unfold vdot, vscale, vcross. ring. }
  assert (A0 : vdot a s = 0).
  { unfold s. destruct a as [[x y] z], v as [[x' y'] z']. unfold vdot, vscale, vcross. ring. }
  rewrite D, A0, S. fold c. pose proof (cos_bounds a v Ha Hv) as B. fold c in B.
  field. assert (0 <= k * k * (1 - c * c)) by (apply Rmult_le_pos; nra). lra.
Qed.

(** a sequence of cosines that follows this law tends to -1 *)
Lemma law_limit (k : R) (c : nat -> R) : 0 < k < 1 ->
  (forall n, -1 <= c n <= 1) -> c 0%nat < 1 ->
  (forall n, c (S n) = c n - 2 * k * (1 - c n * c n) * (1 + k * c n) / (1 + k * k * (1 - c n * c n))) ->
  is_lim_seq c (-1).
Proof.
  intros Hk B C0 L.
  assert (P : forall n, 0 <= (1 - c n * c n) * (1 + k * c n)).
  { intros n. specialize (B n). apply Rmult_le_pos; nra. }
  assert (D : forall n, 1 <= 1 + k * k * (1 - c n * c n) <= 2).
  { intros n. specialize (B n). assert (0 <= 1 - c n * c n <= 1) by nra. assert (0 < k * k < 1) by nra. nra. }
  assert (S0 : forall n, k * ((1 - c n * c n) * (1 + k * c n)) <= c n - c (S n)).
  { intros n. rewrite L. specialize (P n). specialize (D n).
    replace (c n - _) with (2 * (k * ((1 - c n * c n) * (1 + k * c n))) / (1 + k * k * (1 - c n * c n)))
      by (field; lra).
    assert (X : 0 <= k * ((1 - c n * c n) * (1 + k * c n))) by (apply Rmult_le_pos; lra).
    apply (Rle_div_r _ _ (1 + k * k * (1 - c n * c n))); [lra|]. set (y := k * ((1 - c n * c n) * (1 + k * c n))) in *. set (d := 1 + k * k * _) in *.
    clearbody y d. nra. }
  assert (Dec : forall n, c (S n) <= c n).
  { intros n. specialize (S0 n). specialize (P n).
    assert (0 <= k * ((1 - c n * c n) * (1 + k * c n))) by (apply Rmult_le_pos; lra). lra. }
  destruct (ex_finite_lim_seq_decr c (-1) Dec (fun n => proj1 (B n))) as [l Hl].
  assert (Hl1 : is_lim_seq (fun n => c (S n)) l) by now apply is_lim_seq_incr_1 in Hl.
  assert (Hd : is_lim_seq (fun n => c n - c (S n)) 0).
  { replace 0 with (l - l) by ring. now apply is_lim_seq_minus'. }
  assert (Hp : is_lim_seq (fun n => k * ((1 - c n * c n) * (1 + k * c n))) 0).
  { apply (is_lim_seq_le_le (fun _ => 0) _ (fun n => c n - c (S n))).
    - intros n. split; [|apply S0]. specialize (P n). apply Rmult_le_pos; lra.
    - apply is_lim_seq_const.
    - exact Hd. }
  assert (Hq : is_lim_seq (fun n => k * ((1 - c n * c n) * (1 + k * c n))) (k * ((1 - l * l) * (1 + k * l)))).
  { apply is_lim_seq_mult'; [apply is_lim_seq_const|]. apply is_lim_seq_mult'.
    - apply is_lim_seq_minus'; [apply is_lim_seq_const|]. now apply is_lim_seq_mult'.
    - apply is_lim_seq_plus'; [apply is_lim_seq_const|]. apply is_lim_seq_mult'; [apply is_lim_seq_const|exact Hl]. }
  pose proof (is_lim_seq_unique _ _ Hp) as E1. pose proof (is_lim_seq_unique _ _ Hq) as E2.
  rewrite E1 in E2. injection E2 as E2.
  assert (Ll : -1 <= l).
  { assert (H : Rbar_le (-1) l); [|exact H].
    apply (is_lim_seq_le (fun _ => -1) c (-1) l); [intros n; apply B|apply is_lim_seq_const|exact Hl]. }
  assert (Lu : l <= c 0%nat).
  { assert (H : Rbar_le l (c 0%nat)); [|exact H].
    apply (is_lim_seq_le c (fun _ => c 0%nat) l (c 0%nat)); [|exact Hl|apply is_lim_seq_const].
    induction n; [lra|]. specialize (Dec n). lra. }
  assert (l = -1).
  { assert (0 < 1 + k * l) by nra.
    assert (M0 : 1 - l * l = 0).
    { apply Rmult_eq_reg_r with (k * (1 + k * l)); [|nra].
      transitivity (k * ((1 - l * l) * (1 + k * l))); [ring|]. rewrite <- E2. ring. }
    nra. }
  now subst l.
Qed.

(** when the cosine to a tends to -1 the direction tends to -a *)
Lemma opposite_limit (a : v3) (v : nat -> v3) : vdot a a = 1 -> (forall n, vdot (v n) (v n) = 1) ->
  is_lim_seq (fun n => vdot a (v n)) (-1) ->
  forall j, (j < 3)%nat -> is_lim_seq (fun n => coord j (v n)) (- coord j a).
Proof.
  intros Ha Hv H j Hj.
  assert (Z : is_lim_seq (fun n => 2 + 2 * vdot a (v n)) 0).
  { replace 0 with (2 + 2 * -1) by ring. apply is_lim_seq_plus'; [apply is_lim_seq_const|].
    apply is_lim_seq_mult'; [apply is_lim_seq_const|exact H]. }
  assert (Q : is_lim_seq (fun n => (coord j (v n) + coord j a) * (coord j (v n) + coord j a)) 0).
  { apply (is_lim_seq_le_le (fun _ => 0) _ (fun n => 2 + 2 * vdot a (v n))); [|apply is_lim_seq_const|exact Z].
    intros n. specialize (Hv n). split; [apply Rle_0_sqr|].
    assert (E : 2 + 2 * vdot a (v n) = vdot (vadd (v n) a) (vadd (v n) a)).
    { replace 2 with (vdot a a + vdot (v n) (v n)) at 1 by lra.
      destruct a as [[x y] z], (v n) as [[x' y'] z']. unfold vdot, vadd. ring. }
    rewrite E. destruct a as [[x y] z], (v n) as [[x' y'] z']. unfold vdot, vadd.
    destruct j as [|[|[|j]]]; [| | |lia]; cbn [coord];
      pose proof (Rle_0_sqr (x' + x)); pose proof (Rle_0_sqr (y' + y)); pose proof (Rle_0_sqr (z' + z));
      unfold Rsqr in *; lra. }
  assert (Y : is_lim_seq (fun n => sqrt ((coord j (v n) + coord j a) * (coord j (v n) + coord j a))) (sqrt 0)).
  { apply (is_lim_seq_continuous sqrt); [apply continuity_pt_sqrt; lra|exact Q]. }
  rewrite sqrt_0 in Y.
  assert (A : is_lim_seq (fun n => coord j (v n) + coord j a) 0).
  { apply <- is_lim_seq_abs_0. eapply is_lim_seq_ext; [|exact Y]. intros n. apply sqrt_Rsqr_abs. }
  replace (- coord j a) with (0 - coord j a) by ring.
  apply (is_lim_seq_ext (fun n => (coord j (v n) + coord j a) - coord j a)); [intros; ring|].
  apply is_lim_seq_minus'; [exact A|apply is_lim_seq_const].
Qed.
