(** The polynomials of zsl_prob_erf_inv (src/probability.c:95-132), in s = - ln (1 - x^2):
    they increase, by their coefficients in Bernstein's basis.  Written by a generator. *)
From Coq Require Import List Reals Lra Lia.
From Coquelicot Require Import Coquelicot.
From Verif Require Import Base NumR Libm LibmR RTac MProb.
Import ListNotations.
Local Open Scope R_scope.

Definition qm (s : R) : R := (221556723 / 250000000) + (58003869 / 250000000) * s + (115392581 / 10000000000) * s * s + (-115734339 / 50000000000) * s * s * s + (-4615551 / 31250000000) * s * s * s * s + (14038269 / 250000000000) * s * s * s * s * s + (56481813 / 500000000000000) * s * s * s * s * s * s + (-122774793 / 100000000000000) * s * s * s * s * s * s * s + (17910681 / 125000000000000) * s * s * s * s * s * s * s * s + (-67984729 / 12500000000000000) * s * s * s * s * s * s * s * s * s.
Definition qt (s : R) : R := (210004121 / 250000000) + (264646143 / 1000000000) * s + (241592899 / 50000000000) * s * s + (-75674703 / 25000000000) * s * s * s + (49194121 / 125000000000) * s * s * s * s + (-56821791 / 2000000000000) * s * s * s * s * s + (61075167 / 50000000000000) * s * s * s * s * s * s + (-293243101 / 10000000000000000) * s * s * s * s * s * s * s + (303697567 / 1000000000000000000) * s * s * s * s * s * s * s * s.
Definition dqm (s : R) : R := (58003869 / 250000000) + (115392581 / 5000000000) * s + (-347203017 / 50000000000) * s * s + (-4615551 / 7812500000) * s * s * s + (14038269 / 50000000000) * s * s * s * s + (169445439 / 250000000000000) * s * s * s * s * s + (-859423551 / 100000000000000) * s * s * s * s * s * s + (17910681 / 15625000000000) * s * s * s * s * s * s * s + (-611862561 / 12500000000000000) * s * s * s * s * s * s * s * s.
Definition dqt (s : R) : R := (264646143 / 1000000000) + (241592899 / 25000000000) * s + (-227024109 / 25000000000) * s * s + (49194121 / 31250000000) * s * s * s + (-56821791 / 400000000000) * s * s * s * s + (183225501 / 25000000000000) * s * s * s * s * s + (-2052701707 / 10000000000000000) * s * s * s * s * s * s + (303697567 / 125000000000000000) * s * s * s * s * s * s * s.

Lemma qm_horner s : horner (- s) erf_inv_mid (flit 543877832 17) = qm s.
Proof. unfold horner, erf_inv_mid, qm. cbn [fold_left]. rops. field. Qed.
Lemma qt_horner s : horner (- s) erf_inv_tail (flit 303697567 18) = qt s.
Proof. unfold horner, erf_inv_tail, qt. cbn [fold_left]. rops. field. Qed.

Lemma qm_horner' s : horner (- s) erf_inv_mid (543877832 / 100000000000000000) = qm s.
Proof. rewrite <- qm_horner. f_equal. rops. reflexivity. Qed.
Lemma qt_horner' s : horner (- s) erf_inv_tail (303697567 / 1000000000000000000) = qt s.
Proof. rewrite <- qt_horner. f_equal. rops. reflexivity. Qed.

Lemma qm_derive s : is_derive qm s (dqm s).
Proof. unfold qm, dqm. auto_derive; [exact I|]. field. Qed.
Lemma qt_derive s : is_derive qt s (dqt s).
Proof. unfold qt, dqt. auto_derive; [exact I|]. field. Qed.

Lemma bern_nonneg b u v i j : 0 <= b -> 0 <= u -> 0 <= v -> 0 <= b * (u ^ i * v ^ j).
Proof. intros. apply Rmult_le_pos; [assumption|]. apply Rmult_le_pos; now apply pow_le. Qed.

Lemma dqm_pos s : (0) <= s <= (49 / 8) -> 1 / 10 <= dqm s.
Proof.
  intros Hs. set (u := (s - (0)) / (49 / 8)). set (v := 1 - u).
  assert (Hu : 0 <= u) by (unfold u; lra). assert (Hv : 0 <= v) by (unfold v, u; lra).
  assert (E : dqm s - 1 / 10 = (33003869 / 250000000) * (u ^ 0 * v ^ 8) + (47899188789 / 40000000000) * (u ^ 1 * v ^ 7) + (14161324628423 / 3200000000000) * (u ^ 2 * v ^ 6) + (69300179841347 / 8000000000000) * (u ^ 3 * v ^ 5) + (409487994125721 / 40960000000000) * (u ^ 4 * v ^ 4) + (60285217249414559311 / 8192000000000000000) * (u ^ 5 * v ^ 3) + (437045302409868773173 / 131072000000000000000) * (u ^ 6 * v ^ 2) + (56694242574660070047 / 65536000000000000000) * (u ^ 7 * v ^ 1) + (20568248586906317627039 / 209715200000000000000000) * (u ^ 8 * v ^ 0)).
  { replace s with ((0) + (49 / 8) * u) by (unfold u; field). unfold dqm, v. field. }
  assert (0 <= dqm s - 1 / 10); [|lra]. rewrite E.
  repeat (apply Rplus_le_le_0_compat; [|apply bern_nonneg; lra]). apply bern_nonneg; lra.
Qed.

Lemma dqt_pos_near s : (49 / 8) <= s <= (20) -> 1 / 10 <= dqt s.
Proof.
  intros Hs. set (u := (s - (49 / 8)) / (111 / 8)). set (v := 1 - u).
  assert (Hu : 0 <= u) by (unfold u; lra). assert (Hv : 0 <= v) by (unfold v, u; lra).
  assert (E : dqt s - 1 / 10 = (25711636699003165527683 / 262144000000000000000000) * (u ^ 0 * v ^ 7) + (6613685683001178639217 / 13107200000000000000000) * (u ^ 1 * v ^ 6) + (46080812441700351177 / 40960000000000000000) * (u ^ 2 * v ^ 5) + (315785110266849419 / 204800000000000000) * (u ^ 3 * v ^ 4) + (343400636045699 / 320000000000000) * (u ^ 4 * v ^ 3) + (23317552603887 / 40000000000000) * (u ^ 5 * v ^ 2) + (108637005119 / 1000000000000) * (u ^ 6 * v ^ 1) + (398739587 / 25000000000) * (u ^ 7 * v ^ 0)).
  { replace s with ((49 / 8) + (111 / 8) * u) by (unfold u; field). unfold dqt, v. field. }
  assert (0 <= dqt s - 1 / 10); [|lra]. rewrite E.
  repeat (apply Rplus_le_le_0_compat; [|apply bern_nonneg; lra]). apply bern_nonneg; lra.
Qed.

Lemma dqt_pos s : (49 / 8) <= s -> 1 / 10 <= dqt s.
Proof.
  intros Hs. destruct (Rle_dec s 20) as [L|L]; [apply dqt_pos_near; lra|].
  set (u := s - 20). assert (Hu : 0 <= u) by (unfold u; lra).
  assert (E : dqt s - 1 / 10 = (398739587 / 25000000000) * (u ^ 0 * 1 ^ 0) + (27117831 / 125000000000) * (u ^ 1 * 1 ^ 0) + (863754687 / 625000000000) * (u ^ 2 * 1 ^ 0) + (180223451 / 625000000000) * (u ^ 3 * 1 ^ 0) + (1975452619 / 50000000000000) * (u ^ 4 * 1 ^ 0) + (3881345073 / 1250000000000000) * (u ^ 5 * 1 ^ 0) + (6743555217 / 50000000000000000) * (u ^ 6 * 1 ^ 0) + (303697567 / 125000000000000000) * (u ^ 7 * 1 ^ 0)).
  { replace s with (20 + u) by (unfold u; ring). unfold dqt. field. }
  assert (0 <= dqt s - 1 / 10); [|lra]. rewrite E.
  repeat (apply Rplus_le_le_0_compat; [|apply bern_nonneg; lra]). apply bern_nonneg; lra.
Qed.

Lemma incr_by_derive (f df : R -> R) a b : a < b -> (forall s, is_derive f s (df s)) -> (forall s, a <= s <= b -> 1 / 10 <= df s) -> f a < f b.
Proof.
  intros L D P. destruct (MVT_gen f a b df) as (c & Hc & E).
  - intros x _. apply D.
  - intros x _. apply derivable_continuous_pt. exists (df x). apply is_derive_Reals, D.
  - rewrite Rmin_left, Rmax_right in Hc by lra. specialize (P c Hc). nra.
Qed.

Lemma qm_incr a b : 0 <= a -> a < b -> b <= 49 / 8 -> qm a < qm b.
Proof. intros. apply incr_by_derive with dqm; auto using qm_derive. intros s Hs. apply dqm_pos. lra. Qed.
Lemma qt_incr a b : 49 / 8 <= a -> a < b -> qt a < qt b.
Proof. intros. apply incr_by_derive with dqt; auto using qt_derive. intros s Hs. apply dqt_pos. lra. Qed.
Lemma qm_pos s : 0 <= s <= 49 / 8 -> 4 / 5 < qm s.
Proof.
  intros Hs. assert (Z : 4 / 5 < qm 0) by (unfold qm; lra). destruct (Req_dec s 0) as [->|N]; [exact Z|].
  assert (qm 0 < qm s) by (apply qm_incr; lra). lra.
Qed.
Lemma qt_pos s : 49 / 8 <= s -> 2 < qt s.
Proof.
  intros Hs. assert (Z : 2 < qt (49 / 8)) by (unfold qt; lra). destruct (Req_dec s (49 / 8)) as [->|N]; [exact Z|].
  assert (qt (49 / 8) < qt s) by (apply qt_incr; lra). lra.
Qed.
