(** Not-a-number in sums and products of lists *)
From Coq Require Import Floats.PrimFloat.
From Coq Require Import ZArith Bool List Lia.
From Verif Require Import Base NumF BaseFacts SpecVec SpecFltNan MVec MMtx MStat PVec PFltVar PNanQuat PNanPhys PPoly.
Import ListNotations.

Lemma nan_fold_acc (xs : list double) a : nanf a -> nanf (fold_left fadd xs a).
Proof. revert a. induction xs as [|x xs IH]; intros a H; [exact H|]. cbn [fold_left]. apply IH. now apply nan_add_l. Qed.

Lemma nan_fold (xs : list double) a : Exists nanf xs -> nanf (fold_left fadd xs a).
Proof.
  intros H. revert a. induction H as [x xs H|x xs H IH]; intros a; cbn [fold_left]; [|apply IH].
  apply nan_fold_acc. now apply nan_add_r.
Qed.

Lemma nan_total xs : nan_among xs -> nanf (total xs).
Proof. intros H. apply nan_fold. now apply nan_among_nanf. Qed.

Lemma nan_map2 (f : double -> double -> double) xs ys :
  (forall a b, nanf a \/ nanf b -> nanf (f a b)) -> length xs = length ys ->
  Exists nanf xs \/ Exists nanf ys -> Exists nanf (map2 f xs ys).
Proof.
  intros F. revert ys. induction xs as [|x xs IH]; intros [|y ys] L; try discriminate L.
  - intros [H|H]; inversion H.
  - injection L as L. cbn [map2]. intros [H|H]; inversion H; subst; auto using Exists_cons_hd, Exists_cons_tl.
Qed.

Lemma nan_dots xs ys : length xs = length ys -> nan_among xs \/ nan_among ys -> nanf (dot xs ys).
Proof.
  intros L H. apply nan_fold. apply nan_map2; auto.
  - intros a b [N|N]; [now apply nan_mul_l | now apply nan_mul_r].
  - destruct H; [left|right]; now apply nan_among_nanf.
Qed.

Lemma nan_among_map2_sub (xs ys : list double) : length xs = length ys -> nan_among xs \/ nan_among ys -> nan_among (map2 fsub xs ys).
Proof.
  intros L H. assert (E : Exists nanf (map2 fsub xs ys)).
  { apply nan_map2; auto.
    - intros a b [N|N]; [now apply nan_sub_l | now apply nan_sub_r].
    - destruct H; [left|right]; now apply nan_among_nanf. }
  revert E. apply Exists_impl. intros a. apply is_nan_nanf.
Qed.

Lemma nan_nonempty (xs : list double) : nan_among xs -> xs <> [].
Proof. intros H ->. inversion H. Qed.

Lemma nan_mean xs : nan_among xs -> nanf (fmean xs).
Proof. intros H. apply nan_div_l. now apply nan_total. Qed.

Lemma nan_fdev xs : nan_among xs -> Forall nanf (fdev xs).
Proof.
  intros H. unfold fdev. apply Forall_forall. intros y I. apply in_map_iff in I. destruct I as (x & <- & _).
  apply nan_add_r, nan_opp. now apply nan_mean.
Qed.

Lemma fdev_among xs : nan_among xs -> nan_among (fdev xs).
Proof.
  intros H. pose proof (nan_nonempty xs H) as E. pose proof (nan_fdev xs H) as F. destruct xs as [|x xs]; [contradiction|].
  apply Exists_cons_hd. inversion F; subst. now apply is_nan_nanf.
Qed.

Lemma demean_F bc (xs : list double) tx : xs <> [] ->
  sta_demean bc (vec_of xs tx) (vdef (length xs)) = Ok (0%Z, vec_of (fdev xs) []).
Proof.
  intros H. unfold sta_demean, vdef. change (vsz (vec_of xs tx)) with (length xs). cbn [vsz].
  rewrite Nat.eqb_refl. cbn [negb]. rewrite andb_false_r.
  rewrite vec_copy_ok by (unfold fresh; rewrite repeat_length; lia). cbn [bind].
  unfold sta_mean. rewrite vec_ar_mean_ok by exact H.
  cbn [fdiv NumF bind lval]. rewrite vec_scalar_add_ok. cbn [bind].
  unfold fresh. rewrite skipn_all2 by (rewrite repeat_length; lia). reflexivity.
Qed.

Lemma fdev_length xs : length (fdev xs) = length xs.
Proof. apply map_length. Qed.
