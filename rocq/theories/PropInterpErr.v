(** C179: error of linear interpolation in a table of a smooth function. *)
From Coquelicot Require Import Coquelicot.
From Coq Require Import List Arith ZArith Bool Lia Reals Lra Psatz.
From Verif Require Import Base BaseFacts NumR Out MInterp SpecInterp PInterp PropInterp.
Import ListNotations.
Local Open Scope R_scope.

Lemma mvt (g g1 : R -> R) a b : a < b -> (forall t, a <= t <= b -> is_derive g t (g1 t)) ->
  exists c, a <= c <= b /\ g b - g a = g1 c * (b - a).
Proof.
  intros H D. destruct (MVT_gen g a b g1) as (c & C & E).
  - intros t. rewrite Rmin_left, Rmax_right by lra. intros Ht. apply D. lra.
  - intros t. rewrite Rmin_left, Rmax_right by lra. intros Ht. apply derivable_continuous_pt.
    exists (g1 t). apply is_derive_Reals, D, Ht.
  - rewrite Rmin_left, Rmax_right in C by lra. eauto.
Qed.

(** A chord lies above a function whose second derivative is not negative *)
Lemma convex_chord (c c1 c2 : R -> R) u t v : u < t < v ->
  (forall s, u <= s <= v -> is_derive c s (c1 s)) -> (forall s, u <= s <= v -> is_derive c1 s (c2 s)) ->
  (forall s, u <= s <= v -> 0 <= c2 s) -> (v - u) * c t <= (v - t) * c u + (t - u) * c v.
Proof.
  intros H D1 D2 P.
  destruct (mvt c c1 u t) as (p & Hp & Ep); [lra|intros; apply D1; lra|].
  destruct (mvt c c1 t v) as (q & Hq & Eq); [lra|intros; apply D1; lra|].
  assert (M : c1 p <= c1 q).
  { destruct (Req_dec p q) as [->|N]; [lra|]. destruct (mvt c1 c2 p q) as (r & Hr & Er); [lra|intros; apply D2; lra|].
    pose proof (P r ltac:(lra)). nra. }
  assert ((v - t) * (c t - c u) <= (t - u) * (c v - c t)); [|lra].
  rewrite Ep, Eq. assert (0 <= (t - u) * (v - t)) by nra. nra.
Qed.

Lemma chord_error (g g1 g2 : R -> R) M u t v : u <= t <= v -> u < v ->
  (forall s, u <= s <= v -> is_derive g s (g1 s)) -> (forall s, u <= s <= v -> is_derive g1 s (g2 s)) ->
  (forall s, u <= s <= v -> Rabs (g2 s) <= M) ->
  Rabs ((v - t) * g u + (t - u) * g v - (v - u) * g t) <= (v - u) * (M / 2 * ((t - u) * (v - t))).
Proof.
  intros Ht H D1 D2 B.
  destruct (Req_dec t u) as [->|N1]; [|destruct (Req_dec t v) as [->|N2]].
  - replace ((v - u) * g u + (u - u) * g v - (v - u) * g u) with 0 by ring. rewrite Rabs_R0. right. ring.
  - replace ((v - v) * g u + (v - u) * g v - (v - u) * g v) with 0 by ring. rewrite Rabs_R0. right. ring.
  - assert (T : u < t < v) by lra.
    assert (S1 : forall k s, u <= s <= v -> is_derive (fun s => k * g s + M / 2 * s ^ 2) s (k * g1 s + M * s)).
    { intros k s Hs. pose proof (D1 s Hs) as E. auto_derive; [repeat split; eexists; exact E|].
      change (Derive (fun x => g x) s) with (Derive g s). rewrite (is_derive_unique _ _ _ E). field. }
    assert (S2 : forall k s, u <= s <= v -> is_derive (fun s => k * g1 s + M * s) s (k * g2 s + M)).
    { intros k s Hs. pose proof (D2 s Hs) as E. auto_derive; [repeat split; eexists; exact E|].
      change (Derive (fun x => g1 x) s) with (Derive g1 s). rewrite (is_derive_unique _ _ _ E). ring. }
    pose proof (convex_chord _ _ _ u t v T (S1 1) (S2 1)) as A.
    pose proof (convex_chord _ _ _ u t v T (S1 (-1)) (S2 (-1))) as A'.
    cbv beta in A, A'.
    assert (BB : forall s, u <= s <= v -> - M <= g2 s <= M) by (intros s Hs; specialize (B s Hs); now apply Rabs_le_between).
    specialize (A ltac:(intros s Hs; specialize (BB s Hs); lra)).
    specialize (A' ltac:(intros s Hs; specialize (BB s Hs); lra)).
    apply Rabs_le. split; nra.
Qed.

(** Between the points of a table of g, the answer differs from g by at most
    M h^2 / 8, where M bounds the second derivative and h the spacing *)
Theorem C179_error fuel xy x (g g1 g2 : R -> R) M h :
  fits xy -> (length xy < fuel)%nat ->
  (forall i, (S i < length xy)%nat -> / 1000000 <= X xy (S i) - X xy i <= h) ->
  (forall i, (i < length xy)%nat -> Y xy i = g (X xy i)) ->
  let lo := X xy 0 in let hi := X xy (length xy - 1) in
  (forall s, lo <= s <= hi -> is_derive g s (g1 s)) -> (forall s, lo <= s <= hi -> is_derive g1 s (g2 s)) ->
  (forall s, lo <= s <= hi -> Rabs (g2 s) <= M) -> lo <= x <= hi ->
  exists y, interp_lin_y_arr fuel xy x = Ok (0%Z, Set_ y) /\ Rabs (y - g x) <= M * h ^ 2 / 8.
Proof.
  intros F HF G HY lo hi D1 D2 B Hx.
  destruct (C64_table fuel xy x F HF (fun i Hi => proj1 (G i Hi)) Hx) as (i & y & E & L & I & O & _).
  exists y. split; [exact E|]. unfold on_line in O. rewrite !HY in O by lia. destruct (G i L) as [G1 G2].
  assert (A : ascending xy) by (intros j Hj; specialize (G j Hj); lra).
  assert (R : lo <= X xy i /\ X xy (S i) <= hi) by (split; apply ascending_le; auto; lia).
  set (u := X xy i) in *. set (v := X xy (S i)) in *.
  pose proof (chord_error g g1 g2 M u x v I ltac:(lra)) as C.
  specialize (C ltac:(intros; apply D1; lra) ltac:(intros; apply D2; lra) ltac:(intros; apply B; lra)).
  assert (M0 : 0 <= M) by (eapply Rle_trans; [apply Rabs_pos|apply (B x Hx)]).
  replace ((v - x) * g u + (x - u) * g v - (v - u) * g x) with ((v - u) * (y - g x)) in C by lra.
  rewrite Rabs_mult, (Rabs_pos_eq (v - u)) in C by lra.
  apply Rmult_le_reg_l in C; [|lra]. eapply Rle_trans; [exact C|].
  assert (Q : (x - u) * (v - x) <= h ^ 2 / 4).
  { pose proof (Rle_0_sqr ((x - u) - (v - x))) as S. unfold Rsqr in S. assert ((v - u) * (v - u) <= h * h) by nra. nra. }
  replace (M * h ^ 2 / 8) with (M / 2 * (h ^ 2 / 4)) by field. apply Rmult_le_compat_l; lra.
Qed.
Print Assumptions C179_error.

(** In a table of a convex function the answer is never too small *)
Theorem C179_convex fuel xy x (g g1 g2 : R -> R) :
  fits xy -> (length xy < fuel)%nat ->
  (forall i, (S i < length xy)%nat -> / 1000000 <= X xy (S i) - X xy i) ->
  (forall i, (i < length xy)%nat -> Y xy i = g (X xy i)) ->
  let lo := X xy 0 in let hi := X xy (length xy - 1) in
  (forall s, lo <= s <= hi -> is_derive g s (g1 s)) -> (forall s, lo <= s <= hi -> is_derive g1 s (g2 s)) ->
  (forall s, lo <= s <= hi -> 0 <= g2 s) -> lo <= x <= hi ->
  exists y, interp_lin_y_arr fuel xy x = Ok (0%Z, Set_ y) /\ g x <= y.
Proof.
  intros F HF G HY lo hi D1 D2 B Hx.
  destruct (C64_table fuel xy x F HF G Hx) as (i & y & E & L & I & O & _).
  exists y. split; [exact E|]. unfold on_line in O. rewrite !HY in O by lia. pose proof (G i L) as G1.
  assert (A : ascending xy) by (intros j Hj; specialize (G j Hj); lra).
  assert (R : lo <= X xy i /\ X xy (S i) <= hi) by (split; apply ascending_le; auto; lia).
  set (u := X xy i) in *. set (v := X xy (S i)) in *.
  apply Rmult_le_reg_l with (v - u); [lra|].
  destruct (Req_dec x u) as [->|N1]; [|destruct (Req_dec x v) as [->|N2]]; [lra|lra|].
  pose proof (convex_chord g g1 g2 u x v ltac:(lra)) as C.
  specialize (C ltac:(intros; apply D1; lra) ltac:(intros; apply D2; lra) ltac:(intros; apply B; lra)). lra.
Qed.
Print Assumptions C179_convex.

(** The square function at 0, 1, 2: the bound 2 * 1 / 8 is attained half way *)
Example C179_ex : let xy := [(0, 0); (1, 1); (2, 4)] in
  exists y, interp_lin_y_arr 4 xy (1 / 2) = Ok (0%Z, Set_ y) /\ Rabs (y - (1 / 2) ^ 2) <= 2 * 1 ^ 2 / 8.
Proof.
  cbn zeta. apply (C179_error 4 [(0, 0); (1, 1); (2, 4)] (1 / 2) (fun s => s ^ 2) (fun s => 2 * s) (fun _ => 2)).
  - split; cbn; lia.
  - cbn; lia.
  - intros i Hi. cbn in Hi. destruct i as [|[|i]]; [unfold X; cbn; lra..|lia].
  - intros i Hi. cbn in Hi. destruct i as [|[|[|i]]]; [unfold X, Y; cbn; lra..|lia].
  - intros s _. auto_derive; [exact I|ring].
  - intros s _. auto_derive; [exact I|ring].
  - intros s _. rewrite Rabs_pos_eq; lra.
  - unfold X. cbn. lra.
Qed.
