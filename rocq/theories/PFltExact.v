(** Exact laws of binary64 arithmetic, from the standard library's
    specification of the primitive operations *)
From Coq Require Import ZArith Bool List.
From Coq Require Import PrimFloat FloatOps FloatAxioms SpecFloat.
From Verif Require Import Base NumF SpecVec.
Import ListNotations.

Lemma SFmul_comm p em x y : SFmul p em x y = SFmul p em y x.
Proof.
  destruct x as [a|a| |a m e], y as [b|b| |b n g]; cbn; try reflexivity;
    try (now rewrite xorb_comm).
  now rewrite xorb_comm, Pos.mul_comm, Z.add_comm.
Qed.

Lemma SFadd_comm p em x y : SFadd p em x y = SFadd p em y x.
Proof.
  destruct x as [a|a| |a m e], y as [b|b| |b n g]; cbn; try reflexivity;
    try (destruct a, b; reflexivity).
  now rewrite Z.min_comm, Z.add_comm.
Qed.

Lemma F_mul_comm x y : (x * y = y * x)%float.
Proof. apply Prim2SF_inj. rewrite !mul_spec. apply SFmul_comm. Qed.

Lemma F_add_comm x y : (x + y = y + x)%float.
Proof. apply Prim2SF_inj. rewrite !add_spec. apply SFadd_comm. Qed.

(** Rounding ignores the sign *)
Lemma round_aux_abs p em s m e l :
  SFabs (binary_round_aux p em s m e l) = SFabs (binary_round_aux p em false m e l).
Proof.
  unfold binary_round_aux. destruct (shr_fexp p em m e l) as [a b].
  destruct (shr_fexp p em (round_nearest_even (shr_m a) (loc_of_shr_record a)) b loc_Exact) as [c d].
  destruct (shr_m c); cbn; try reflexivity. destruct (d <=? em - p)%Z; reflexivity.
Qed.

Lemma round_abs p em s m e :
  SFabs (binary_round p em s m e) = SFabs (binary_round p em false m e).
Proof. unfold binary_round. destruct shl_align as [a b]. apply round_aux_abs. Qed.

Lemma normalize_abs p em z e s t :
  SFabs (binary_normalize p em (- z) e s) = SFabs (binary_normalize p em z e t).
Proof. destruct z; cbn; try reflexivity; rewrite !(round_abs _ _ true); reflexivity. Qed.

Lemma SFsub_abs p em x y : SFabs (SFsub p em x y) = SFabs (SFsub p em y x).
Proof.
  destruct x as [a|a| |a m e], y as [b|b| |b n g]; cbn; try reflexivity;
    try (destruct a, b; reflexivity).
  rewrite (Z.min_comm g e).
  rewrite <- normalize_abs with (s := false). f_equal. f_equal. ring.
Qed.

Lemma F_sub_abs x y : (abs (x - y) = abs (y - x))%float.
Proof. apply Prim2SF_inj. rewrite !abs_spec, !sub_spec. apply SFsub_abs. Qed.

Lemma SFmul_abs p em x : SFmul p em x x = SFmul p em (SFabs x) (SFabs x).
Proof. destruct x as [[|]|[|]| |[|] m e]; reflexivity. Qed.

Lemma F_sqr_abs x : (x * x = abs x * abs x)%float.
Proof. apply Prim2SF_inj. rewrite !mul_spec, abs_spec. apply SFmul_abs. Qed.

Lemma F_sqr_sub x y : ((x - y) * (x - y) = (y - x) * (y - x))%float.
Proof. now rewrite F_sqr_abs, F_sub_abs, <- F_sqr_abs. Qed.

Lemma dot_F_comm (xs ys : list float) : dot xs ys = dot ys xs.
Proof.
  unfold dot. f_equal. revert ys.
  induction xs as [|x xs IH]; intros [|y ys]; cbn; auto. f_equal; auto. apply F_mul_comm.
Qed.

Lemma dot_F_sub (xs ys : list float) :
  dot (map2 fsub xs ys) (map2 fsub xs ys) = dot (map2 fsub ys xs) (map2 fsub ys xs).
Proof.
  unfold dot. f_equal. revert ys.
  induction xs as [|x xs IH]; intros [|y ys]; cbn; auto. f_equal; auto. apply F_sqr_sub.
Qed.
