(** Properties C63-C66: interpolation (src/interp.c), in real arithmetic.

    Vocabulary (SpecInterp): [X xy i] and [Y xy i] are the abscissa and
    ordinate of entry i of a table; [ascending], [descending]; [on_line];
    [cubic x0 y0 z0 x1 y1 z1] is the cubic through two points with given second
    derivatives there.  [is_derive], [is_derive_n] are Coquelicot's
    derivatives.  [Set_ y]: an output parameter set to y; [NaN]: set to NAN;
    [Kept]: not written.  fuel bounds the number of steps of a search; any
    number above the length of the table will do.  The search adds two indices
    as unsigned int: tables are assumed to have at most 2^31 entries. *)
From Coquelicot Require Import Coquelicot.
From Coq Require Import List Arith ZArith Bool Lia Reals Lra Psatz.
From Verif Require Import Base BaseFacts NumR Libm LibmR RTac Out MInterp SpecInterp PInterp PSpline.
Import List ListNotations.
Local Open Scope R_scope.

Definition fits (xy : list (R * R)) : Prop :=
  (2 <= length xy)%nat /\ (Z.of_nat (length xy) <= 2147483648)%Z.
Lemma fits_U xy : fits xy -> (2 * Z.of_nat (length xy) <= UINT)%Z.
Proof. intros (_ & H). unfold UINT. lia. Qed.

(** * C63: the search *)
Theorem C63_ascending :
  forall fuel xy x, fits xy -> (length xy < fuel)%nat -> ascending xy ->
  X xy 0 <= x <= X xy (length xy - 1) ->
  exists i, interp_find_x fuel xy x = Ok (0%Z, Z.of_nat i)
  /\ (S i < length xy)%nat /\ X xy i <= x <= X xy (S i).
Proof.
  intros fuel xy x H HF HA Hx.
  destruct (find_x_asc (proj1 H) (fits_U _ H) HF HA Hx) as (i & E & L & B & _). eauto.
Qed.
Print Assumptions C63_ascending.

Theorem C63_descending :
  forall fuel xy x, fits xy -> (length xy < fuel)%nat -> descending xy ->
  X xy (length xy - 1) < X xy 0 -> X xy (length xy - 1) <= x <= X xy 0 ->
  exists i, interp_find_x fuel xy x = Ok (0%Z, Z.of_nat i)
  /\ (S i < length xy)%nat /\ X xy (S i) <= x <= X xy i.
Proof. intros fuel xy x H HF HA HO Hx. exact (find_x_desc (proj1 H) (fits_U _ H) HF HA HO Hx). Qed.
Print Assumptions C63_descending.

(** Outside the table: -EINVAL, and the index is n past its last entry, -1
    before its first. *)
Theorem C63_outside :
  forall fuel xy x, fits xy ->
  let first := X xy 0 in let last := X xy (length xy - 1) in
  (first <= last -> last < x -> interp_find_x fuel xy x = Ok ((- EINVAL)%Z, Z.of_nat (length xy)))
  /\ (first <= last -> x < first -> interp_find_x fuel xy x = Ok ((- EINVAL)%Z, (-1)%Z))
  /\ (last < first -> x < last -> interp_find_x fuel xy x = Ok ((- EINVAL)%Z, Z.of_nat (length xy)))
  /\ (last < first -> first < x -> interp_find_x fuel xy x = Ok ((- EINVAL)%Z, (-1)%Z)).
Proof. intros fuel xy x H. exact (find_x_outside fuel xy x (proj1 H) (fits_U _ H)). Qed.
Print Assumptions C63_outside.

Theorem C63_short :
  forall fuel (xy : list (R * R)) x, (length xy < 2)%nat ->
  interp_find_x fuel xy x = Ok ((- EINVAL)%Z, (-1)%Z).
Proof. intros. now apply find_x_short. Qed.
Print Assumptions C63_short.

(** Whatever the table, sorted or not, the search ends, stays inside the table
    and answers the index of a segment. *)
Theorem C63_total :
  forall fuel xy x, fits xy -> (length xy < fuel)%nat ->
  exists rc idx, interp_find_x fuel xy x = Ok (rc, idx)
  /\ (rc = 0%Z -> (0 <= idx)%Z /\ (idx + 1 < Z.of_nat (length xy))%Z)
  /\ (rc <> 0%Z -> idx = (-1)%Z \/ idx = Z.of_nat (length xy)).
Proof.
  intros fuel xy x H HF. rewrite (find_x_unfold fuel xy x (proj1 H) (fits_U _ H)).
  set (n := length xy) in *. destruct H as (H2 & H). set (order := Rleb (X xy 0) (X xy (n - 1))).
  destruct (_ || _) eqn:E1; [eexists _, _; split; [reflexivity|]; split; [discriminate|auto]|].
  destruct (_ || _) eqn:E2 at 1; [eexists _, _; split; [reflexivity|]; split; [discriminate|auto]|].
  destruct (@bisect_ok xy (up_of x order) ltac:(unfold UINT; fold n; lia) fuel 0 n ltac:(lia) ltac:(lia)) as (i & W & B & D1 & D2).
  change (Z.of_nat 0) with 0%Z in W. rewrite W. cbn [bind].
  destruct (Reqb_spec x (X xy 0)) as [E0|N0]; [eexists _, _; split; [reflexivity|]; split; [lia|congruence]|].
  destruct (Reqb_spec x (X xy (n - 1))) as [E3|N3]; [eexists _, _; split; [reflexivity|]; split; [lia|congruence]|].
  eexists _, _. split; [reflexivity|]. split; [|congruence]. intros _. split; [lia|].
  destruct (Nat.eq_dec (S i) n) as [E|NE]; [|lia]. exfalso.
  replace i with (n - 1)%nat in * by lia. destruct D1 as [D1|D1]; [lia|].
  unfold up_of in D1. clear - D1 E1 N3. destruct order; cbn [negb] in *;
    rewrite ?andb_true_r, ?andb_false_r, ?orb_false_r in *; cbn [orb] in *.
  - destruct (Rleb_spec (X xy (n - 1)) x); [|discriminate]. destruct (Rltb_spec (X xy (n - 1)) x); [discriminate|lra].
  - destruct (Rleb_spec x (X xy (n - 1))); [|discriminate]. destruct (Rltb_spec x (X xy (n - 1))); [discriminate|lra].
Qed.
Print Assumptions C63_total.

Definition tbl : list (R * R) := [(0, 5); (1, 7); (3, 3); (4, 4)].
Example C63_case : fits tbl /\ ascending tbl
  /\ exists i, interp_find_x 10 tbl 2 = Ok (0%Z, Z.of_nat i) /\ X tbl i <= 2 <= X tbl (S i).
Proof.
  assert (F : fits tbl) by (split; cbn; lia).
  assert (A : ascending tbl).
  { intros i Hi. cbn in Hi. destruct i as [|[|[|i]]]; [unfold X; cbn; lra..|lia]. }
  split; [exact F|]. split; [exact A|].
  destruct (C63_ascending 10 tbl 2 F) as (i & E & _ & B); [cbn; lia|exact A|unfold X; cbn; lra|eauto].
Qed.

(** * C64: linear interpolation *)
Theorem C64_two_points :
  forall x1 y1 x3 y3 x, / 1000000 <= x3 - x1 -> x1 <= x <= x3 ->
  exists y, interp_lin_y (x1, y1) (x3, y3) x = Ok (0%Z, Set_ y)
  /\ on_line x1 y1 x3 y3 x y /\ Rmin y1 y3 <= y <= Rmax y1 y3
  /\ (x = x1 -> y = y1) /\ (x = x3 -> y = y3).
Proof.
  intros x1 y1 x3 y3 x H Hx. eexists. split; [now apply lin_y_ok|]. split; [unfold on_line; field; lra|].
  split; [apply line_between; lra|]. split; intros ->; field; lra.
Qed.
Print Assumptions C64_two_points.

Theorem C64_two_points_rejects :
  forall x1 y1 x3 y3 x, Rabs (x3 - x1) < / 1000000 \/ x < x1 \/ x3 < x ->
  interp_lin_y (x1, y1) (x3, y3) x = Ok ((- EINVAL)%Z, NaN).
Proof.
  intros x1 y1 x3 y3 x H. unfold interp_lin_y. destruct (no_delta x1 x3) eqn:E; [reflexivity|].
  destruct H as [H|H]; [apply no_delta_R in H; congruence|]. rops.
  destruct H as [H|H]; [rewrite (Rltb_true x x1) by lra|rewrite (Rltb_true x3 x) by lra; rewrite orb_true_r]; reflexivity.
Qed.
Print Assumptions C64_two_points_rejects.

(** A table whose neighbouring abscissae are at least 1e-6 apart. *)
Theorem C64_table :
  forall fuel xy x, fits xy -> (length xy < fuel)%nat ->
  (forall i, (S i < length xy)%nat -> / 1000000 <= X xy (S i) - X xy i) ->
  X xy 0 <= x <= X xy (length xy - 1) ->
  exists i y, interp_lin_y_arr fuel xy x = Ok (0%Z, Set_ y)
  /\ (S i < length xy)%nat /\ X xy i <= x <= X xy (S i)
  /\ on_line (X xy i) (Y xy i) (X xy (S i)) (Y xy (S i)) x y
  /\ Rmin (Y xy i) (Y xy (S i)) <= y <= Rmax (Y xy i) (Y xy (S i)).
Proof.
  intros fuel xy x H HF G Hx.
  assert (A : ascending xy) by (intros i Hi; specialize (G i Hi); lra).
  destruct (C63_ascending fuel xy x H HF A Hx) as (i & E & L & B).
  destruct (C64_two_points (X xy i) (Y xy i) (X xy (S i)) (Y xy (S i)) x (G i L) B) as (y & Ey & O & M & _).
  exists i, y. split; [|auto]. unfold interp_lin_y_arr, interp_arr. rewrite E. cbn [bind negb Z.eqb].
  rewrite point_ok by lia. cbn [bind]. replace (Z.of_nat i + 1)%Z with (Z.of_nat (S i)) by lia.
  rewrite point_ok by lia. cbn [bind]. rewrite Ey. reflexivity.
Qed.
Print Assumptions C64_table.

(** The table points themselves are reproduced. *)
Theorem C64_table_points :
  forall fuel xy k, fits xy -> (length xy < fuel)%nat ->
  (forall i, (S i < length xy)%nat -> / 1000000 <= X xy (S i) - X xy i) ->
  (k < length xy)%nat ->
  interp_lin_y_arr fuel xy (X xy k) = Ok (0%Z, Set_ (Y xy k)).
Proof.
  intros fuel xy k H HF G Hk.
  assert (A : ascending xy) by (intros i Hi; specialize (G i Hi); lra).
  assert (R : X xy 0 <= X xy k <= X xy (length xy - 1)) by (split; apply ascending_le; auto; lia).
  destruct (C64_table fuel xy (X xy k) H HF G R) as (i & y & E & L & B & O & _). rewrite E. do 3 f_equal.
  pose proof (G i L) as Gi. unfold on_line in O.
  assert (D : k = i \/ k = S i).
  { destruct (Nat.lt_trichotomy k i) as [K|[K|K]]; [|auto|].
    - pose proof (ascending_le A (i := S k) (j := i) ltac:(lia)). pose proof (G k ltac:(lia)). lra.
    - destruct (Nat.eq_dec k (S i)) as [K'|K']; [auto|].
      pose proof (ascending_le A (i := S (S i)) (j := k) ltac:(lia)). pose proof (G (S i) ltac:(lia)). lra. }
  destruct D as [->| ->].
  - apply Rmult_eq_reg_r with (X xy (S i) - X xy i); lra.
  - apply Rmult_eq_reg_r with (X xy (S i) - X xy i); [|lra]. lra.
Qed.
Print Assumptions C64_table_points.

Theorem C64_table_rejects :
  forall fuel xy x, fits xy -> X xy 0 <= X xy (length xy - 1) ->
  x < X xy 0 \/ X xy (length xy - 1) < x ->
  interp_lin_y_arr fuel xy x = Ok ((- EINVAL)%Z, NaN).
Proof.
  intros fuel xy x H O D. destruct (C63_outside fuel xy x H) as (A & B & _). unfold interp_lin_y_arr, interp_arr.
  destruct D as [D|D]; [rewrite B by assumption|rewrite A by assumption]; reflexivity.
Qed.
Print Assumptions C64_table_rejects.

(** A descending table finds its segment, but the interpolation then rejects
    every argument, because it requires the left point to come first. *)
Theorem C64_descending_refuted :
  forall fuel xy x, fits xy -> (length xy < fuel)%nat ->
  (forall i, (S i < length xy)%nat -> X xy (S i) < X xy i) ->
  X xy (length xy - 1) <= x <= X xy 0 ->
  interp_lin_y_arr fuel xy x = Ok ((- EINVAL)%Z, NaN).
Proof.
  intros fuel xy x H HF G Hx.
  assert (A : descending xy) by (intros i Hi; specialize (G i Hi); lra).
  assert (O : X xy (length xy - 1) < X xy 0).
  { destruct H as (H & _). apply Rle_lt_trans with (X xy 1); [apply descending_le; auto; lia|apply G; lia]. }
  destruct (C63_descending fuel xy x H HF A O Hx) as (i & E & L & B). pose proof (G i L).
  unfold interp_lin_y_arr, interp_arr. rewrite E. cbn [bind negb Z.eqb].
  rewrite point_ok by lia. cbn [bind]. replace (Z.of_nat i + 1)%Z with (Z.of_nat (S i)) by lia.
  rewrite point_ok by lia. cbn [bind]. rewrite C64_two_points_rejects by lra. reflexivity.
Qed.
Print Assumptions C64_descending_refuted.

(** zsl_interp_lerp *)
Theorem C64_lerp :
  forall v0 v1 t,
  (0 <= t <= 1 -> interp_lerp v0 v1 t = Ok (0%Z, Set_ (v0 + t * (v1 - v0)))
     /\ Rmin v0 v1 <= v0 + t * (v1 - v0) <= Rmax v0 v1)
  /\ (t < 0 \/ 1 < t -> interp_lerp v0 v1 t = Ok ((- EINVAL)%Z, NaN)).
Proof.
  intros v0 v1 t. unfold interp_lerp. rops. split.
  - intros H. rewrite !Rltb_false by lra. cbn [orb]. split; [do 3 f_equal; lra|].
    unfold Rmin, Rmax. destruct (Rle_dec v0 v1); nra.
  - intros [H|H]; [rewrite (Rltb_true t 0) by lra|rewrite (Rltb_true _ t) by lra; rewrite orb_true_r]; reflexivity.
Qed.
Print Assumptions C64_lerp.

(** The inverse function: the abscissa of a given ordinate. *)
Theorem C64_inverse :
  forall x1 y1 x3 y3 y, / 1000000 <= Rabs (x3 - x1) -> y1 <> y3 -> Rmin y1 y3 <= y <= Rmax y1 y3 ->
  exists x, interp_lin_x (x1, y1) (x3, y3) y = Ok (0%Z, Set_ x)
  /\ on_line x1 y1 x3 y3 x y /\ Rmin x1 x3 <= x <= Rmax x1 x3.
Proof.
  intros x1 y1 x3 y3 y H N B. eexists. split; [|split].
  - unfold interp_lin_x. rewrite no_delta_false by exact H. rops.
    unfold Rmin, Rmax in B. destruct (Rltb_spec y1 y3); destruct (Rle_dec y1 y3); try lra;
      rewrite !Rltb_false by lra; cbn [orb]; rewrite Rdivo_ok by lra; reflexivity.
  - unfold on_line. field. lra.
  - set (t := (y - y1) / (y3 - y1)).
    assert (T : 0 <= t <= 1).
    { assert (E : t * (y3 - y1) = y - y1) by (unfold t; field; lra).
      unfold Rmin, Rmax in B. destruct (Rle_dec y1 y3); split; nra. }
    replace (((y3 - y) * x1 + (y - y1) * x3) / (y3 - y1)) with (x1 + t * (x3 - x1)) by (unfold t; field; lra).
    unfold Rmin, Rmax. destruct (Rle_dec x1 x3); nra.
Qed.
Print Assumptions C64_inverse.

(** On a horizontal segment the inverse divides 0 by 0. *)
Theorem C64_inverse_flat_refuted :
  forall x1 x3 y, / 1000000 <= Rabs (x3 - x1) -> interp_lin_x (x1, y) (x3, y) y = NotReal.
Proof.
  intros x1 x3 y H. unfold interp_lin_x. rewrite no_delta_false by exact H. rops.
  rewrite (Rltb_false y y) by lra. rewrite !(Rltb_false y y) by lra. cbn [orb].
  replace (y - y) with 0 by ring. rewrite Rdivo_0. reflexivity.
Qed.
Print Assumptions C64_inverse_flat_refuted.

Example C64_case : interp_lin_y_arr 10 tbl 3 = Ok (0%Z, Set_ 3).
Proof.
  change 3 with (X tbl 2) at 1. change 3 with (Y tbl 2). apply C64_table_points.
  - apply C63_case.
  - cbn; lia.
  - intros i Hi. cbn in Hi. destruct i as [|[|[|i]]]; [unfold X; cbn; lra..|lia].
  - cbn; lia.
Qed.

(** * C65: nearest neighbour *)
(** What holds: the answer is the ordinate of one of the two enclosing points;
    it is the nearer one (the upper one half way) when x3 = 2 * x1. *)
Theorem C65_neighbour_partial :
  forall x1 y1 x3 y3 x, / 1000000 <= x3 - x1 -> x1 <= x <= x3 ->
  exists y, interp_nn (x1, y1) (x3, y3) x = Ok (0%Z, Set_ y)
  /\ (y = y1 \/ y = y3)
  /\ (x3 = 2 * x1 -> y = if Rlt_dec (x - x1) (x3 - x) then y1 else y3).
Proof.
  intros x1 y1 x3 y3 x H Hx. unfold interp_nn. rewrite no_delta_false by (rewrite Rabs_pos_eq; lra).
  rops. rewrite !Rltb_false by lra. cbn [orb]. eexists. split; [reflexivity|].
  destruct (Rleb_spec (x1 * (15 / 10)) x); (split; [auto|]); intros E; destruct (Rlt_dec (x - x1) (x3 - x)); auto; lra.
Qed.
Print Assumptions C65_neighbour_partial.

(** What fails: the decision point is 1.5 * x1 instead of the midpoint.  Here
    100.9 is nearer to 101, and -1 to -1.5. *)
Theorem C65_nearest_refuted :
  interp_nn (100, 1) (101, 2) (1009 / 10) = Ok (0%Z, Set_ 1)
  /\ interp_nn (-2, 1) (2, 2) (-1) = Ok (0%Z, Set_ 2).
Proof.
  split; (unfold interp_nn; rewrite no_delta_false by (rewrite Rabs_pos_eq; lra); rops;
    rewrite !Rltb_false by lra; cbn [orb]).
  - rewrite Rleb_false by lra. reflexivity.
  - rewrite Rleb_true by lra. reflexivity.
Qed.
Print Assumptions C65_nearest_refuted.

Theorem C65_table_partial :
  forall fuel xy x, fits xy -> (length xy < fuel)%nat ->
  (forall i, (S i < length xy)%nat -> / 1000000 <= X xy (S i) - X xy i) ->
  X xy 0 <= x <= X xy (length xy - 1) ->
  exists i y, interp_nn_arr fuel xy x = Ok (0%Z, Set_ y)
  /\ (S i < length xy)%nat /\ X xy i <= x <= X xy (S i) /\ (y = Y xy i \/ y = Y xy (S i)).
Proof.
  intros fuel xy x H HF G Hx.
  assert (A : ascending xy) by (intros i Hi; specialize (G i Hi); lra).
  destruct (C63_ascending fuel xy x H HF A Hx) as (i & E & L & B).
  destruct (C65_neighbour_partial (X xy i) (Y xy i) (X xy (S i)) (Y xy (S i)) x (G i L) B) as (y & Ey & D & _).
  exists i, y. split; [|auto]. unfold interp_nn_arr, interp_arr. rewrite E. cbn [bind negb Z.eqb].
  rewrite point_ok by lia. cbn [bind]. replace (Z.of_nat i + 1)%Z with (Z.of_nat (S i)) by lia.
  rewrite point_ok by lia. cbn [bind]. rewrite Ey. reflexivity.
Qed.
Print Assumptions C65_table_partial.

Theorem C65_rejects :
  forall x1 y1 x3 y3 x,
  (Rabs (x3 - x1) < / 1000000 -> interp_nn (x1, y1) (x3, y3) x = Ok ((- EINVAL)%Z, NaN))
  /\ (/ 1000000 <= Rabs (x3 - x1) -> x < x1 \/ x3 < x -> interp_nn (x1, y1) (x3, y3) x = Ok ((- EINVAL)%Z, Kept)).
Proof.
  intros x1 y1 x3 y3 x. unfold interp_nn. split.
  - intros H. apply no_delta_R in H. now rewrite H.
  - intros H D. rewrite no_delta_false by exact H. rops.
    destruct D as [D|D]; [rewrite (Rltb_true x x1) by lra|rewrite (Rltb_true x3 x) by lra; rewrite orb_true_r]; reflexivity.
Qed.
Print Assumptions C65_rejects.

(** * C66: cubic splines *)
Definition slope (x0 y0 z0 x1 y1 z1 x : R) : R :=
  (y1 - y0) / (x1 - x0) - (x1 - x0) * (2 * z0 + z1) / 6
  + (x - x0) * z0 + (x - x0) ^ 2 * ((z1 - z0) / (2 * (x1 - x0))).
Lemma cubic_slope x0 y0 z0 x1 y1 z1 x : x0 < x1 -> is_derive (cubic x0 y0 z0 x1 y1 z1) x (slope x0 y0 z0 x1 y1 z1 x).
Proof. intros H. unfold cubic, slope. auto_derive; [exact I|]. field. lra. Qed.
Lemma cubic_second x0 y0 z0 x1 y1 z1 x : x0 < x1 ->
  is_derive_n (cubic x0 y0 z0 x1 y1 z1) 2 x (z0 + (x - x0) * ((z1 - z0) / (x1 - x0))).
Proof.
  intros H. cbn [is_derive_n Derive_n].
  apply is_derive_ext with (slope x0 y0 z0 x1 y1 z1).
  - intros t. symmetry. apply is_derive_unique. now apply cubic_slope.
  - unfold slope. auto_derive; [exact I|]. field. lra.
Qed.

Lemma cubic_second' x0 y0 z0 x1 y1 z1 x l : x0 < x1 -> l = z0 + (x - x0) * ((z1 - z0) / (x1 - x0)) ->
  is_derive_n (cubic x0 y0 z0 x1 y1 z1) 2 x l.
Proof. intros H ->. now apply cubic_second. Qed.

(** xs and ys are the table, zs the second derivatives computed by
    zsl_interp_cubic_calc, S i the polynomial of segment i. *)
Theorem C66_spline :
  forall fuel xs ys y2 yp1 ypn,
  let n := length xs in let x := fun i => nth i xs 0 in let y := fun i => nth i ys 0 in
  (3 <= n)%nat -> length ys = n -> length y2 = n -> (n <= fuel)%nat ->
  (forall i, (S i < n)%nat -> x i < x (S i)) ->
  exists zs, interp_cubic_calc true xs ys y2 yp1 ypn = Ok (0%Z, cells zs) /\ length zs = n /\
  let z := fun i => nth i zs 0 in
  let P := fun i => cubic (x i) (y i) (z i) (x (S i)) (y (S i)) (z (S i)) in
  (* the value at any t is that of the segment t lies in, the end segments being extended *)
  (forall t, exists i, (S i < n)%nat /\ (i = 0%nat \/ x i <= t) /\ (S i = (n - 1)%nat \/ t < x (S i))
     /\ interp_cubic_arr fuel xs ys (cells zs) t = Ok (0%Z, Set_ (P i t)))
  (* every segment joins its two table points *)
  /\ (forall i, (S i < n)%nat -> P i (x i) = y i /\ P i (x (S i)) = y (S i))
  (* neighbouring segments have the same first and second derivative where they meet *)
  /\ (forall i, (S (S i) < n)%nat -> exists d1 d2,
        is_derive (P i) (x (S i)) d1 /\ is_derive (P (S i)) (x (S i)) d1
        /\ is_derive_n (P i) 2 (x (S i)) d2 /\ is_derive_n (P (S i)) 2 (x (S i)) d2)
  (* end conditions: the given slope, or zero curvature for a huge one *)
  /\ (if Rlt_dec 990000000000000000000000000000 yp1 then is_derive_n (P 0%nat) 2 (x 0%nat) 0
      else is_derive (P 0%nat) (x 0%nat) yp1)
  /\ (if Rlt_dec 990000000000000000000000000000 ypn then is_derive_n (P (n - 2)%nat) 2 (x (n - 1)%nat) 0
      else is_derive (P (n - 2)%nat) (x (n - 1)%nat) ypn).
Proof.
  intros fuel xs ys y2 yp1 ypn n x y n3 Ly L2 HF inc.
  set (Z := ZZ x y n (z_first yp1) (u_first x y yp1) (q_last ypn) (u_last x y n ypn)).
  exists (map Z (seq 0 n)). split; [apply calc_run; assumption|].
  split; [now rewrite map_length, seq_length|].
  intros z P.
  assert (Ez : forall i, (i < n)%nat -> z i = Z i) by (intros i Hi; unfold z; now rewrite nth_map_seq).
  assert (Hz : -1 < z_first yp1 <= 0) by (unfold z_first; destruct (Rlt_dec _ _); lra).
  assert (Hq : 0 <= q_last ypn <= 1) by (unfold q_last; destruct (Rlt_dec _ _); lra).
  split; [|split; [|split; [|split]]].
  - intros t. destruct (@arr_run fuel xs ys Z t) as (i & A & B & C & D); try assumption.
    exists i. split; [exact A|]. split; [exact B|]. split; [exact C|].
    etransitivity; [exact D|]. unfold P. rewrite !Ez by lia. reflexivity.
  - intros i Hi. pose proof (inc i Hi). unfold P, cubic. split; field; lra.
  - intros i Hi. pose proof (inc i ltac:(lia)) as A. pose proof (inc (S i) Hi) as B.
    exists (slope (x i) (y i) (z i) (x (S i)) (y (S i)) (z (S i)) (x (S i))), (z (S i)).
    split; [now apply cubic_slope|]. split; [|split].
    + replace (slope (x i) (y i) (z i) (x (S i)) (y (S i)) (z (S i)) (x (S i)))
        with (slope (x (S i)) (y (S i)) (z (S i)) (x (S (S i))) (y (S (S i))) (z (S (S i))) (x (S i)));
        [now apply cubic_slope|].
      pose proof (@ZZ_inner x y n n3 inc (z_first yp1) (u_first x y yp1) (q_last ypn) (u_last x y n ypn) Hz
        (S i) ltac:(lia) ltac:(lia)) as E. fold Z in E.
      replace (S i - 1)%nat with i in E by lia. rewrite <- !Ez in E by lia.
      unfold sig, rhs in E. replace (S i - 1)%nat with i in E by lia. replace (S i + 1)%nat with (S (S i)) in E by lia.
      unfold slope.
      set (h := x (S i) - x i) in *. set (k := x (S (S i)) - x (S i)) in *.
      replace (x (S (S i)) - x i) with (h + k) in E by (unfold h, k; ring).
      assert (Hh : 0 < h) by (unfold h; lra). assert (Hk : 0 < k) by (unfold k; lra).
      replace (x (S i) - x (S i)) with 0 by ring.
      set (dy := y (S (S i)) - y (S i)) in *. set (dx := y (S i) - y i) in *.
      assert (E' : h * z i + 2 * (h + k) * z (S i) + k * z (S (S i)) = 6 * (dy / k - dx / h)).
      { replace (6 * (dy / k - dx / h)) with ((6 * (dy / k - dx / h) / (h + k)) * (h + k)) by (field; lra).
        rewrite <- E. field. lra. }
      replace (h ^ 2 * ((z (S i) - z i) / (2 * h))) with (h * (z (S i) - z i) / 2) by (field; lra).
      lra.
    + apply cubic_second'; [exact A|]. field. lra.
    + apply cubic_second'; [exact B|]. field. lra.
  - pose proof (inc 0%nat ltac:(lia)) as A.
    pose proof (@ZZ_first x y n n3 (z_first yp1) (u_first x y yp1) (q_last ypn) (u_last x y n ypn)) as E. fold Z in E.
    rewrite <- !Ez in E by lia. unfold z_first, u_first in E. destruct (Rlt_dec _ yp1) as [G|G].
    + replace 0 with (z 0%nat + (x 0%nat - x 0%nat) * ((z 1%nat - z 0%nat) / (x 1%nat - x 0%nat))); [now apply cubic_second|].
      rewrite E. field. lra.
    + replace yp1 with (slope (x 0%nat) (y 0%nat) (z 0%nat) (x 1%nat) (y 1%nat) (z 1%nat) (x 0%nat)); [now apply cubic_slope|].
      unfold slope. rewrite E. field. lra.
  - pose proof (inc (n - 2)%nat ltac:(lia)) as A.
    pose proof (@ZZ_last x y n n3 inc (z_first yp1) (u_first x y yp1) (q_last ypn) (u_last x y n ypn) Hz Hq) as E. fold Z in E.
    rewrite <- !Ez in E by lia. unfold q_last, u_last in E. unfold P. replace (S (n - 2)) with (n - 1)%nat in * by lia.
    destruct (Rlt_dec _ ypn) as [G|G].
    + replace 0 with (z (n - 2)%nat + (x (n - 1)%nat - x (n - 2)%nat) * ((z (n - 1)%nat - z (n - 2)%nat) / (x (n - 1)%nat - x (n - 2)%nat)));
        [now apply cubic_second|]. replace (z (n - 1)%nat) with 0 by lra. field. lra.
    + replace ypn with (slope (x (n - 2)%nat) (y (n - 2)%nat) (z (n - 2)%nat) (x (n - 1)%nat) (y (n - 1)%nat) (z (n - 1)%nat) (x (n - 1)%nat));
        [now apply cubic_slope|].
      unfold slope. set (h := x (n - 1)%nat - x (n - 2)%nat) in *. assert (0 < h) by (unfold h; lra).
      replace (z (n - 1)%nat) with (3 / h * (ypn - (y (n - 1)%nat - y (n - 2)%nat) / h) - 1 / 2 * z (n - 2)%nat) by lra.
      field. lra.
Qed.
Print Assumptions C66_spline.

(** At every knot the spline returns the knot's ordinate. *)
Theorem C66_knots :
  forall fuel xs ys y2 yp1 ypn k,
  (3 <= length xs)%nat -> length ys = length xs -> length y2 = length xs -> (length xs <= fuel)%nat ->
  (forall i, (S i < length xs)%nat -> nth i xs 0 < nth (S i) xs 0) -> (k < length xs)%nat ->
  exists z, interp_cubic_calc true xs ys y2 yp1 ypn = Ok (0%Z, z)
  /\ interp_cubic_arr fuel xs ys z (nth k xs 0) = Ok (0%Z, Set_ (nth k ys 0)).
Proof.
  intros fuel xs ys y2 yp1 ypn k n3 Ly L2 HF inc Hk.
  destruct (C66_spline fuel xs ys y2 yp1 ypn n3 Ly L2 HF inc) as (zs & E & _ & A & B & _).
  exists (cells zs). split; [exact E|]. destruct (A (nth k xs 0)) as (i & Hi & D1 & D2 & ->). do 3 f_equal.
  assert (M : forall a b, (a < b < length xs)%nat -> nth a xs 0 < nth b xs 0).
  { intros a b. induction b as [|b IH]; intros L; [lia|]. destruct (Nat.eq_dec a b) as [->|NE]; [apply inc; lia|].
    apply Rlt_trans with (nth b xs 0); [apply IH; lia|apply inc; lia]. }
  assert (D : k = i \/ k = S i).
  { destruct (Nat.lt_trichotomy k i) as [K|[K|K]]; [|auto|].
    - destruct D1 as [->|D1]; [lia|]. specialize (M k i ltac:(lia)). lra.
    - destruct (Nat.eq_dec k (S i)) as [K'|K']; [auto|].
      destruct D2 as [D2|D2]; [lia|]. specialize (M (S i) k ltac:(lia)). lra. }
  destruct (B i Hi) as (B1 & B2). destruct D as [->| ->]; assumption.
Qed.
Print Assumptions C66_knots.

Theorem C66_rejects :
  forall fuel xs ys (y2 : buf R) yp1 ypn x,
  ((length xs < 3)%nat -> forall alloc,
     interp_cubic_calc alloc xs ys y2 yp1 ypn = Ok ((- EINVAL)%Z, y2)
     /\ interp_cubic_arr fuel xs ys y2 x = Ok ((- EINVAL)%Z, Kept))
  /\ ((3 <= length xs)%nat -> interp_cubic_calc false xs ys y2 yp1 ypn = Ok ((- ENOMEM)%Z, y2)).
Proof.
  intros. unfold interp_cubic_calc, interp_cubic_arr. split.
  - intros H alloc. destruct (Nat.ltb_spec (length xs) 3); [auto|lia].
  - intros H. destruct (Nat.ltb_spec (length xs) 3); [lia|reflexivity].
Qed.
Print Assumptions C66_rejects.

Example C66_case :
  exists z, interp_cubic_calc true [0; 1; 3; 4] [5; 7; 3; 4] (fresh 4) 0 1 = Ok (0%Z, z)
  /\ interp_cubic_arr 4 [0; 1; 3; 4] [5; 7; 3; 4] z 3 = Ok (0%Z, Set_ 3).
Proof.
  apply (C66_knots 4 [0; 1; 3; 4] [5; 7; 3; 4] (fresh 4) 0 1 2); try (cbn; lia).
  intros i Hi. cbn in Hi. destruct i as [|[|[|i]]]; [cbn; lra..|lia].
Qed.
