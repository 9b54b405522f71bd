(** The singular value decomposition on wide matrices, for any number type. *)
From Coq Require Import List Arith ZArith Bool Lia.
From Verif Require Import Base BaseFacts MVec MMtx MDecomp.
Import ListNotations.
Set Implicit Arguments.

Section S.
Variable T : Type.
Context {N : Num T}.
Variable bc : bool.

Lemma bind_inv A B (m : outcome A) (k : A -> outcome B) y :
  bind m k = Ok y -> exists x, m = Ok x /\ k x = Ok y.
Proof. destruct m; cbn; try discriminate. eauto. Qed.

Lemma wr_len (b : buf T) i x b' : wr b i x = Ok b' -> length b' = length b.
Proof. unfold wr. destruct (i <? length b)%nat; [|discriminate]. injection 1 as <-. apply upd_length. Qed.

Lemma get_col_len (m : mtx T) j v rc v' : mtx_get_col bc m j v = Ok (rc, v') -> length v' = length v.
Proof.
  unfold mtx_get_col. intros E. apply bind_inv in E. destruct E as (r & E & E2). injection E2 as E2.
  assert (L : match r with inl w => length w = length v | inr (_, w) => length w = length v end).
  2:{ destruct r as [w|(c & w)]; injection E2 as _ <-; exact L. }
  clear E2 rc v'. revert E. generalize 0%nat at 1 as lo. generalize (mrows m) as n. intros n lo.
  assert (H0 : length v = length v) by reflexivity. revert H0. generalize v at 1 3 as w.
  revert lo. induction n as [|n IH]; intros lo w Hw E; cbn [for_exit] in E.
  - injection E as <-. exact Hw.
  - apply bind_inv in E. destruct E as (s & E1 & E). apply bind_inv in E1. destruct E1 as ((c & x) & _ & E1).
    destruct x as [x|].
    + apply bind_inv in E1. destruct E1 as (w1 & E1 & E3). injection E3 as <-.
      apply (IH (S lo) w1); auto. apply wr_len in E1. congruence.
    + injection E1 as <-. injection E as <-. exact Hw.
Qed.

Lemma svd_wide fuel row0 col0 mida midb (m u e v : mtx T) iter :
  (0 < mrows m < mcols m)%nat ->
  forall out, mtx_svd bc fuel row0 col0 mida midb m u e v iter <> Ok out.
Proof.
  intros (H0 & H1) out E. unfold mtx_svd in E.
  apply bind_inv in E. destruct E as ((?, at_) & _ & E).
  apply bind_inv in E. destruct E as ((?, aat) & _ & E).
  apply bind_inv in E. destruct E as ((?, ata) & _ & E).
  apply bind_inv in E. destruct E as ((?, ev) & _ & E).
  apply bind_inv in E. destruct E as ((?, e1) & _ & E).
  apply bind_inv in E. destruct E as (e2 & _ & E).
  apply bind_inv in E. destruct E as ((?, v1) & _ & E).
  apply bind_inv in E. destruct E as (s & E & _).
  rewrite (proj2 (Nat.leb_le _ _)) in E by lia.
  remember (mrows m) as r. destruct r as [|r]; [lia|]. cbn [for_] in E.
  apply bind_inv in E. destruct E as (s1 & E & _).
  apply bind_inv in E. destruct E as ((c1, ui) & E1 & E).
  apply get_col_len in E1. rewrite fresh_length in E1.
  apply bind_inv in E. destruct E as ((c2, ui2) & E2 & E).
  unfold mtx_from_arr in E2. apply bind_inv in E2. destruct E2 as (b & E2 & _).
  unfold blit in E2. rewrite E1 in E2. cbn [mrows mcols mtx_def] in E2.
  destruct (Nat.leb_spec (0 + mcols m * 1) (S r)); [lia|discriminate].
Qed.

Lemma pinv_wide fuel row0 col0 mida midb (m pinv : mtx T) iter :
  (0 < mrows m < mcols m)%nat ->
  forall out, mtx_pinv bc fuel row0 col0 mida midb m pinv iter <> Ok out.
Proof.
  intros H out E. unfold mtx_pinv in E.
  apply bind_inv in E. destruct E as (x & E & _). eapply svd_wide; eauto.
Qed.

End S.
