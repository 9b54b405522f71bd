(** The bending energy of a cubic segment (for C178). *)
From Coquelicot Require Import Coquelicot.
From Coq Require Import List Arith ZArith Bool Lia Reals Lra Psatz.
From Verif Require Import Base SpecInterp PropInterp.
Local Open Scope R_scope.

Lemma gen_derive (a b c f g : R -> R) k t a' b' c' f' g' :
  is_derive a t a' -> is_derive b t b' -> is_derive c t c' -> is_derive f t f' -> is_derive g t g' ->
  is_derive (fun t => 2 * (a t * (g t - b t) - k * (f t - c t))) t (2 * (a' * (g t - b t) + a t * (g' - b') - k * (f' - c'))).
Proof.
  intros A B C F G. auto_derive.
  - repeat split; eexists; eassumption.
  - apply is_derive_unique in A, B, C, F, G.
    change (Derive (fun x => a x) t) with (Derive a t). change (Derive (fun x => b x) t) with (Derive b t).
    change (Derive (fun x => c x) t) with (Derive c t). change (Derive (fun x => f x) t) with (Derive f t).
    change (Derive (fun x => g x) t) with (Derive g t). rewrite A, B, C, F, G. ring.
Qed.

Section Seg.
Variables (u v y0 z0 y1 z1 : R) (f f1 f2 : R -> R).
Hypothesis uv : u < v.
Hypothesis D1 : forall t, is_derive f t (f1 t).
Hypothesis D2 : forall t, is_derive f1 t (f2 t).
Hypothesis C2 : forall t, continuous f2 t.
Hypothesis fu : f u = y0.
Hypothesis fv : f v = y1.

Definition curv (t : R) : R := z0 + (t - u) * ((z1 - z0) / (v - u)).
Local Notation sl := (slope u y0 z0 v y1 z1).
Local Notation cu := (cubic u y0 z0 v y1 z1).
Definition bend (t : R) : R := 2 * (curv t * (f1 t - sl t) - (z1 - z0) / (v - u) * (f t - cu t)).
Definition bend' (t : R) : R := 2 * (curv t * (f2 t - curv t)).

Lemma curv_derive t : is_derive curv t ((z1 - z0) / (v - u)).
Proof. unfold curv. auto_derive; [exact I|]. ring. Qed.
Lemma slope_derive t : is_derive sl t (curv t).
Proof. unfold slope, curv. auto_derive; [exact I|]. field. lra. Qed.

Lemma bend_derive t : is_derive bend t (bend' t).
Proof.
  unfold bend'. replace (2 * (curv t * (f2 t - curv t)))
    with (2 * ((z1 - z0) / (v - u) * (f1 t - sl t) + curv t * (f2 t - curv t) - (z1 - z0) / (v - u) * (f1 t - sl t))) by ring.
  apply (gen_derive curv sl cu f f1); [apply curv_derive|apply slope_derive|now apply cubic_slope|apply D1|apply D2].
Qed.

Lemma curv_cont t : continuous curv t.
Proof. apply (ex_derive_continuous curv). eexists. apply curv_derive. Qed.
Lemma bend'_cont t : continuous bend' t.
Proof.
  unfold bend'. apply (continuous_scal_r 2 (fun t => curv t * (f2 t - curv t))).
  apply (continuous_mult curv (fun t => f2 t - curv t)); [apply curv_cont|].
  apply (continuous_minus f2 curv); [apply C2|apply curv_cont].
Qed.

Lemma sq_int (g : R -> R) a b : (forall t, continuous g t) -> ex_RInt (fun t => g t ^ 2) a b.
Proof.
  intros H. apply (ex_RInt_continuous (V := R_CompleteNormedModule)). intros t _.
  apply (continuous_ext (fun t => g t * g t)); [intros; cbn; ring|]. apply (continuous_mult g g); apply H.
Qed.

Lemma segment_energy :
  RInt (fun t => curv t ^ 2) u v + 2 * (z1 * (f1 v - sl v) - z0 * (f1 u - sl u)) <= RInt (fun t => f2 t ^ 2) u v.
Proof.
  assert (B : is_RInt bend' u v (bend v - bend u)).
  { apply (is_RInt_derive bend bend'); intros; [apply bend_derive|apply bend'_cont]. }
  assert (V : bend v - bend u = 2 * (z1 * (f1 v - sl v) - z0 * (f1 u - sl u))).
  { unfold bend. rewrite fu, fv.
    replace (cu u) with y0 by (unfold cubic; field; lra). replace (cu v) with y1 by (unfold cubic; field; lra).
    replace (curv v) with z1 by (unfold curv; field; lra). replace (curv u) with z0 by (unfold curv; field; lra). ring. }
  rewrite <- V, <- (is_RInt_unique _ _ _ _ B).
  pose proof (sq_int curv u v curv_cont) as I1. assert (I2 : ex_RInt bend' u v) by (eexists; exact B).
  pose proof (RInt_plus (V := R_CompleteNormedModule) (fun t => curv t ^ 2) bend' u v I1 I2) as PL.
  change (RInt (fun t => curv t ^ 2) u v + RInt bend' u v) with (plus (RInt (fun t => curv t ^ 2) u v) (RInt bend' u v)).
  rewrite <- PL.
  apply RInt_le; [lra| |apply sq_int, C2|].
  - apply (ex_RInt_plus (V := R_NormedModule)); assumption.
  - intros t _. unfold bend', plus; cbn. pose proof (Rle_0_sqr (f2 t - curv t)) as Q. unfold Rsqr in Q. nra.
Qed.
End Seg.
