(** C183: slopes of the table interpolation. *)
From Coq Require Import List Arith ZArith Bool Lia Reals Lra Psatz.
From Verif Require Import Base BaseFacts NumR RTac Out MInterp SpecInterp PInterp PropInterp.
Import ListNotations.
Local Open Scope R_scope.

Definition separated_table (xy : list (R * R)) : Prop :=
  forall i, (S i < length xy)%nat -> / 1000000 <= X xy (S i) - X xy i.
(** The segments of the table rise by at least [lo] and at most [hi] per unit *)
Definition slopes_between (lo hi : R) (xy : list (R * R)) : Prop :=
  forall i, (S i < length xy)%nat ->
  lo * (X xy (S i) - X xy i) <= Y xy (S i) - Y xy i <= hi * (X xy (S i) - X xy i).

Lemma knots lo hi xy i j : slopes_between lo hi xy -> (i <= j)%nat -> (j < length xy)%nat ->
  lo * (X xy j - X xy i) <= Y xy j - Y xy i <= hi * (X xy j - X xy i).
Proof.
  intros S H. induction H as [|j H IH]; intros L; [lra|].
  specialize (IH ltac:(lia)). specialize (S j L). lra.
Qed.
Lemma knots_lt xy i j : separated_table xy -> (i < j)%nat -> (j < length xy)%nat -> X xy i < X xy j.
Proof.
  intros S H. induction H as [|j H IH]; intros L; [specialize (S i L); lra|].
  specialize (IH ltac:(lia)). specialize (S j L). lra.
Qed.
(** A part of a segment, from its left end and to its right end *)
Lemma part lo hi x1 y1 x3 y3 x y : x1 < x3 -> x1 <= x <= x3 -> on_line x1 y1 x3 y3 x y ->
  lo * (x3 - x1) <= y3 - y1 <= hi * (x3 - x1) ->
  y = y1 + (y3 - y1) / (x3 - x1) * (x - x1) /\ lo <= (y3 - y1) / (x3 - x1) <= hi.
Proof.
  unfold on_line. intros H B O S. split.
  - apply (Rmult_eq_reg_r (x3 - x1)); [|lra]. field_simplify; [|lra]. lra.
  - assert (E : (y3 - y1) / (x3 - x1) * (x3 - x1) = y3 - y1) by (field; lra).
    set (s := _ / _) in *. clearbody s. split; apply (Rmult_le_reg_r (x3 - x1)); lra.
Qed.

(** The answers rise by at least [lo] and at most [hi] per unit, over any
    distance and any number of segments *)
Theorem C183_slopes fuel xy lo hi x x' :
  fits xy -> (length xy < fuel)%nat -> separated_table xy -> slopes_between lo hi xy ->
  X xy 0 <= x -> x <= x' -> x' <= X xy (length xy - 1) ->
  exists y y', interp_lin_y_arr fuel xy x = Ok (0%Z, Set_ y) /\ interp_lin_y_arr fuel xy x' = Ok (0%Z, Set_ y') /\
    lo * (x' - x) <= y' - y <= hi * (x' - x).
Proof.
  intros H HF G SL Hx L Hx'.
  destruct (C64_table fuel xy x H HF G ltac:(lra)) as (i & y & E & Li & B & O & _).
  destruct (C64_table fuel xy x' H HF G ltac:(lra)) as (j & y' & E' & Lj & B' & O' & _).
  exists y, y'. split; [exact E|]. split; [exact E'|].
  pose proof (G i Li) as Gi. pose proof (G j Lj) as Gj.
  destruct (part lo hi (X xy i) (Y xy i) (X xy (S i)) (Y xy (S i)) x y ltac:(lra) B O (SL i Li)) as (Ey & Si).
  destruct (part lo hi (X xy j) (Y xy j) (X xy (S j)) (Y xy (S j)) x' y' ltac:(lra) B' O' (SL j Lj)) as (Ey' & Sj).
  assert (Q : Y xy (S i) = Y xy i + (Y xy (S i) - Y xy i) / (X xy (S i) - X xy i)
    * (X xy (S i) - X xy i)) by (field; lra).
  assert (Q' : Y xy (S j) = Y xy j + (Y xy (S j) - Y xy j) / (X xy (S j) - X xy j)
    * (X xy (S j) - X xy j)) by (field; lra).
  destruct (Nat.lt_trichotomy i j) as [C|[C|C]].
  - pose proof (knots lo hi xy (S i) j SL C ltac:(lia)) as K.
    set (s := (Y xy (S i) - Y xy i) / _) in *. set (s' := (Y xy (S j) - Y xy j) / _) in *.
    clearbody s s'. nra.
  - subst j. set (s := (Y xy (S i) - Y xy i) / _) in *. clearbody s. nra.
  - assert (D : (S j < i)%nat \/ S j = i) by lia. destruct D as [D|D].
    + pose proof (knots_lt xy (S j) i G D ltac:(lia)). lra.
    + subst i. assert (P : x = x') by lra. assert (P' : x' = X xy (S j)) by lra.
      set (s := (Y xy (S (S j)) - _) / _) in *. set (s' := (Y xy (S j) - Y xy j) / _) in *.
      clearbody s s'. rewrite P, P' in *. nra.
Qed.
Print Assumptions C183_slopes.

(** A table that never falls gives answers that never fall, a table that always
    rises gives answers that always rise *)
Theorem C183_monotone fuel xy x x' :
  fits xy -> (length xy < fuel)%nat -> separated_table xy ->
  X xy 0 <= x -> x < x' -> x' <= X xy (length xy - 1) ->
  exists y y', interp_lin_y_arr fuel xy x = Ok (0%Z, Set_ y) /\ interp_lin_y_arr fuel xy x' = Ok (0%Z, Set_ y') /\
    ((forall i, (S i < length xy)%nat -> Y xy i <= Y xy (S i)) -> y <= y') /\
    ((forall i, (S i < length xy)%nat -> Y xy i < Y xy (S i)) -> y < y').
Proof.
  intros H HF G Hx L Hx'.
  (* bounds of the slopes *)
  assert (M : forall n, exists lo hi, 0 <= hi /\
    (forall i, (i < n)%nat -> (S i < length xy)%nat ->
       lo * (X xy (S i) - X xy i) <= Y xy (S i) - Y xy i <= hi * (X xy (S i) - X xy i)) /\
    ((forall i, (S i < length xy)%nat -> Y xy i <= Y xy (S i)) -> 0 <= lo) /\
    ((forall i, (S i < length xy)%nat -> Y xy i < Y xy (S i)) -> 0 < lo)).
  { induction n as [|n (lo & hi & Z & B & P & Q)].
    - exists 1, 0. split; [lra|]. split; [intros; lia|]. split; intros; lra.
    - destruct (Nat.lt_ge_cases (S n) (length xy)) as [N|N].
      + pose proof (G n N) as Gn. set (s := (Y xy (S n) - Y xy n) / (X xy (S n) - X xy n)).
        assert (E : s * (X xy (S n) - X xy n) = Y xy (S n) - Y xy n) by (unfold s; field; lra).
        exists (Rmin lo s), (Rmax hi s). pose proof (Rmin_l lo s). pose proof (Rmin_r lo s).
        pose proof (Rmax_l hi s). pose proof (Rmax_r hi s). split; [lra|]. split; [|split].
        * intros i Hi Li. destruct (Nat.eq_dec i n) as [->|D]; [nra|].
          specialize (B i ltac:(lia) Li). specialize (G i Li). nra.
        * intros A. specialize (P A). specialize (A n N). apply Rmin_glb; [exact P|]. nra.
        * intros A. specialize (Q A). specialize (A n N). apply Rmin_glb_lt; [exact Q|]. nra.
      + exists lo, hi. split; [exact Z|]. split; [|split; assumption].
        intros i Hi Li. apply B; lia. }
  destruct (M (length xy)) as (lo & hi & _ & B & P & Q).
  assert (SL : slopes_between lo hi xy) by (intros i Li; apply B; lia).
  destruct (C183_slopes fuel xy lo hi x x' H HF G SL Hx ltac:(lra) Hx') as (y & y' & E & E' & D).
  exists y, y'. split; [exact E|]. split; [exact E'|]. split; intros A.
  - specialize (P A). nra.
  - specialize (Q A). nra.
Qed.
Print Assumptions C183_monotone.

(** If no segment is steeper than [m], arguments at most [d] apart give answers
    at most [m d] apart: there are no jumps, also not at the points of the table *)
Theorem C183_no_jumps fuel xy m x x' :
  fits xy -> (length xy < fuel)%nat -> separated_table xy ->
  (forall i, (S i < length xy)%nat -> Rabs (Y xy (S i) - Y xy i) <= m * (X xy (S i) - X xy i)) ->
  X xy 0 <= x <= X xy (length xy - 1) -> X xy 0 <= x' <= X xy (length xy - 1) ->
  exists y y', interp_lin_y_arr fuel xy x = Ok (0%Z, Set_ y) /\ interp_lin_y_arr fuel xy x' = Ok (0%Z, Set_ y') /\
    Rabs (y' - y) <= m * Rabs (x' - x).
Proof.
  intros H HF G B Hx Hx'.
  assert (SL : slopes_between (- m) m xy).
  { intros i Li. specialize (B i Li). unfold Rabs in B. destruct (Rcase_abs _); lra. }
  destruct (Rle_or_lt x x') as [L|L].
  - destruct (C183_slopes fuel xy _ _ x x' H HF G SL ltac:(lra) L ltac:(lra)) as (y & y' & E & E' & D).
    exists y, y'. split; [exact E|]. split; [exact E'|]. rewrite (Rabs_pos_eq (x' - x)) by lra. apply Rabs_le. lra.
  - destruct (C183_slopes fuel xy _ _ x' x H HF G SL ltac:(lra) ltac:(lra) ltac:(lra)) as (y' & y & E' & E & D).
    exists y, y'. split; [exact E|]. split; [exact E'|]. rewrite (Rabs_left (x' - x)) by lra. apply Rabs_le. lra.
Qed.
Print Assumptions C183_no_jumps.

Example C183_ex : let xy := [(0, 0); (1, 1); (3, 2)] in
  fits xy /\ separated_table xy /\ slopes_between (1 / 2) 1 xy.
Proof.
  cbn zeta. split; [split; cbn; lia|].
  split; intros i Hi; cbn in Hi; (destruct i as [|[|i]]; [unfold X, Y; cbn; lra..|lia]).
Qed.
