(** Repeated interpolation towards a fixed orientation reaches it in the limit. *)
From Coquelicot Require Import Coquelicot.
From Coq Require Import List Arith ZArith Bool Reals Lra Lia.
From Verif Require Import Base BaseFacts NumR SpecReal RTac SpecMtx MQuat SpecQuat PQuat PQuatRot PQuatTrig PQuatEul MFusion
  SpecFusion PFusion PFusion2.
Import ListNotations.
Local Open Scope R_scope.

Lemma qdot_sqr q : 0 <= qdot q q.
Proof. destruct q as [a b c d]. unfold qdot, re, im, vdot. cbn. nra. Qed.
Lemma qdot_mix al p q : qdot (mix al p q) (mix al p q)
  = (1 - al) * (1 - al) * qdot p p + al * al * qdot q q + 2 * (al * (1 - al)) * qdot p q.
Proof.
  destruct p as [a0 b0 c0 d0], q as [a1 b1 c1 d1].
  unfold mix, qdot, qplus, qscale, mkq, re, im, vdot, vadd, vscale. cbn. ring.
Qed.
Lemma qdot_mix_r al p q : qdot (mix al p q) q = (1 - al) * qdot p q + al * qdot q q.
Proof.
  destruct p as [a0 b0 c0 d0], q as [a1 b1 c1 d1].
  unfold mix, qdot, qplus, qscale, mkq, re, im, vdot, vadd, vscale. cbn. ring.
Qed.
Lemma qdot_scale_l (s : R) p q : qdot (qscale s p) q = s * qdot p q.
Proof.
  destruct p as [a0 b0 c0 d0], q as [a1 b1 c1 d1].
  unfold qdot, qscale, mkq, re, im, vdot, vscale. cbn. ring.
Qed.

Definition nsq (al c : R) : R := (1 - al) * (1 - al) + al * al + 2 * (al * (1 - al)) * c.

Lemma nsq_low al c : 0 <= al <= 1 -> -1 <= c -> (1 - 2 * al) * (1 - 2 * al) <= nsq al c.
Proof.
  intros Ha Hc. assert (0 <= (al * (1 - al)) * (1 + c)) by (apply Rmult_le_pos; nra).
  replace (nsq al c) with ((1 - 2 * al) * (1 - 2 * al) + 2 * ((al * (1 - al)) * (1 + c))) by (unfold nsq; ring). lra.
Qed.
Lemma nsq_high al c : 0 <= al <= 1 -> c <= 1 -> nsq al c <= 1.
Proof.
  intros Ha Hc. assert (0 <= (al * (1 - al)) * (1 - c)) by (apply Rmult_le_pos; nra).
  replace (nsq al c) with (1 - 2 * ((al * (1 - al)) * (1 - c))) by (unfold nsq; ring). lra.
Qed.
Lemma nsq_pos al c : 0 <= al <= 1 -> -1 <= c -> 0 <= nsq al c.
Proof. intros Ha Hc. pose proof (nsq_low al c Ha Hc). pose proof (Rle_0_sqr (1 - 2 * al)). unfold Rsqr in *. lra. Qed.

Lemma lerp_law al p q : unit_quat p -> unit_quat q -> / 1000000 <= qnorm (mix al p q) ->
  qdot (unitised (mix al p q)) q * sqrt (nsq al (qdot p q)) = (1 - al) * qdot p q + al.
Proof.
  intros Up Uq Hn. rewrite unitised_normalise by exact Hn. unfold qnormalise.
  rewrite qdot_scale_l, qdot_mix_r.
  assert (E : qnorm (mix al p q) = sqrt (nsq al (qdot p q))).
  { unfold qnorm. rewrite qdot_mix. unfold unit_quat in *. rewrite Up, Uq. unfold nsq. f_equal. ring. }
  rewrite <- E. unfold unit_quat in Uq. rewrite Uq. field. lra.
Qed.

Lemma lerp_grow al c c' : 0 <= al <= 1 -> -1 <= c <= 1 -> 0 < sqrt (nsq al c) ->
  c' * sqrt (nsq al c) = (1 - al) * c + al -> c <= c'.
Proof.
  intros Ha Hc Hn E. set (n := sqrt (nsq al c)) in *.
  assert (N2 : n * n = nsq al c).
  { apply sqrt_sqrt, nsq_pos; lra. }
  assert (A : 0 <= al * (1 - al)) by nra.
  assert (N1 : n <= 1). { assert (n * n <= 1) by (rewrite N2; apply nsq_high; lra). nra. }
  assert (N3 : 1 - 2 * al <= n).
  { destruct (Rle_dec (1 - 2 * al) 0); [lra|].
    assert ((1 - 2 * al) * (1 - 2 * al) <= n * n) by (rewrite N2; apply nsq_low; lra). nra. }
  assert (c * n <= c' * n); [|apply Rmult_le_reg_r with n; lra].
  rewrite E. destruct (Rle_dec 0 c); [nra|].
  assert (0 <= - c * (n - (1 - 2 * al))) by (apply Rmult_le_pos; lra). nra.
Qed.

Lemma lerp_limit al (c : nat -> R) : 0 < al <= 1 ->
  (forall n, -1 <= c n <= 1) -> -1 < c 0%nat ->
  (forall n, 0 < sqrt (nsq al (c n))) ->
  (forall n, c (S n) * sqrt (nsq al (c n)) = (1 - al) * c n + al) ->
  is_lim_seq c 1.
Proof.
  intros Ha B C0 N L.
  assert (Inc : forall n, c n <= c (S n)).
  { intros n. apply (lerp_grow al); [lra|apply B|apply N|apply L]. }
  destruct (ex_finite_lim_seq_incr c 1 Inc (fun n => proj2 (B n))) as [l Hl].
  assert (Hl1 : is_lim_seq (fun n => c (S n)) l) by now apply is_lim_seq_incr_1 in Hl.
  assert (P : forall x, -1 <= x -> 0 <= nsq al x).
  { intros x Hx. apply nsq_pos; lra. }
  assert (Ll : c 0%nat <= l).
  { assert (H : Rbar_le (c 0%nat) l); [|exact H].
    apply (is_lim_seq_le (fun _ => c 0%nat) c (c 0%nat) l); [|apply is_lim_seq_const|exact Hl].
    induction n; [lra|]. specialize (Inc n). lra. }
  assert (Lu : l <= 1).
  { assert (H : Rbar_le l 1); [|exact H].
    apply (is_lim_seq_le c (fun _ => 1) l 1); [intros n; apply B|exact Hl|apply is_lim_seq_const]. }
  assert (Hn : is_lim_seq (fun n => sqrt (nsq al (c n))) (sqrt (nsq al l))).
  { apply (is_lim_seq_continuous sqrt (fun n => nsq al (c n)));
      [apply continuity_pt_sqrt, P; lra|].
    unfold nsq. apply is_lim_seq_plus'; [apply is_lim_seq_const|].
    apply is_lim_seq_mult'; [apply is_lim_seq_const|exact Hl]. }
  assert (H1 : is_lim_seq (fun n => c (S n) * sqrt (nsq al (c n))) (l * sqrt (nsq al l)))
    by now apply is_lim_seq_mult'.
  assert (H2 : is_lim_seq (fun n => c (S n) * sqrt (nsq al (c n))) ((1 - al) * l + al)).
  { apply (is_lim_seq_ext (fun n => (1 - al) * c n + al)); [intros n; now rewrite L|].
    apply is_lim_seq_plus'; [|apply is_lim_seq_const].
    apply is_lim_seq_mult'; [apply is_lim_seq_const|exact Hl]. }
  pose proof (is_lim_seq_unique _ _ H1) as E1. rewrite (is_lim_seq_unique _ _ H2) in E1. injection E1 as E1.
  set (m := sqrt (nsq al l)) in *.
  assert (M : m * m = nsq al l) by (apply sqrt_sqrt, P; lra).
  assert (M0 : 0 <= m) by apply sqrt_pos.
  assert (Q : (1 - l * l) * (al * (al + 2 * (1 - al) * l)) = 0).
  { assert (E2 : (l * m) * (l * m) = ((1 - al) * l + al) * ((1 - al) * l + al)) by now rewrite <- E1.
    replace ((l * m) * (l * m)) with (l * l * (m * m)) in E2 by ring. rewrite M in E2. unfold nsq in E2. nra. }
  apply Rmult_integral in Q. destruct Q as [Q|Q].
  - assert (l = 1) by nra. now subst l.
  - exfalso. apply Rmult_integral in Q. destruct Q as [Q|Q]; [lra|].
    assert (m * m = (1 - al) * (1 - al)).
    { rewrite M. replace (nsq al l) with ((1 - al) * (1 - al) + al * (al + 2 * (1 - al) * l)) by (unfold nsq; ring). rewrite Q. ring. }
    assert (m = 1 - al) by nra. rewrite H0 in E1. nra.
Qed.

Lemma same_limit (t : quat R) (u : nat -> quat R) : unit_quat t -> (forall n, unit_quat (u n)) ->
  is_lim_seq (fun n => qdot (u n) t) 1 ->
  forall j, is_lim_seq (fun n => qcomp j (u n)) (qcomp j t).
Proof.
  intros Ut Uu H j.
  assert (Z : is_lim_seq (fun n => 2 - 2 * qdot (u n) t) 0).
  { replace 0 with (2 - 2 * 1) by ring. apply is_lim_seq_minus'; [apply is_lim_seq_const|].
    apply is_lim_seq_mult'; [apply is_lim_seq_const|exact H]. }
  assert (Q : is_lim_seq (fun n => (qcomp j (u n) - qcomp j t) * (qcomp j (u n) - qcomp j t)) 0).
  { apply (is_lim_seq_le_le (fun _ => 0) _ (fun n => 2 - 2 * qdot (u n) t)); [|apply is_lim_seq_const|exact Z].
    intros n. specialize (Uu n). split; [apply Rle_0_sqr|]. unfold unit_quat in *.
    replace (2 - 2 * qdot (u n) t) with (qdot (u n) (u n) + qdot t t - 2 * qdot (u n) t) by lra.
    destruct t as [a b c d], (u n) as [a' b' c' d']. unfold qdot, re, im, vdot. cbn [qr qi qj qk].
    pose proof (Rle_0_sqr (a' - a)); pose proof (Rle_0_sqr (b' - b)); pose proof (Rle_0_sqr (c' - c));
      pose proof (Rle_0_sqr (d' - d)); unfold Rsqr in *.
    destruct j as [|[|[|j]]]; cbn [qcomp qr qi qj qk]; lra. }
  assert (Y : is_lim_seq (fun n => sqrt ((qcomp j (u n) - qcomp j t) * (qcomp j (u n) - qcomp j t))) (sqrt 0)).
  { apply (is_lim_seq_continuous sqrt); [apply continuity_pt_sqrt; lra|exact Q]. }
  rewrite sqrt_0 in Y.
  assert (A : is_lim_seq (fun n => qcomp j (u n) - qcomp j t) 0).
  { apply <- is_lim_seq_abs_0. eapply is_lim_seq_ext; [|exact Y]. intros n. apply sqrt_Rsqr_abs. }
  replace (qcomp j t) with (0 + qcomp j t) by ring.
  apply (is_lim_seq_ext (fun n => (qcomp j (u n) - qcomp j t) + qcomp j t)); [intros; ring|].
  apply is_lim_seq_plus'; [exact A|apply is_lim_seq_const].
Qed.
