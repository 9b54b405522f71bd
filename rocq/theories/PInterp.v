(** Proofs about the model of src/interp.c: search, linear and nearest
    neighbour interpolation. *)
From Coq Require Import List Arith ZArith Bool Lia Reals Lra Psatz.
From Verif Require Import Base BaseFacts NumR Libm LibmR RTac Out MInterp SpecInterp.
Import ListNotations.
Set Implicit Arguments.
Local Open Scope R_scope.

Lemma point_ok (xy : list (R * R)) i : (i < length xy)%nat -> point xy (Z.of_nat i) = Ok (X xy i, Y xy i).
Proof.
  intros H. unfold point. destruct (Z.ltb_spec (Z.of_nat i) 0); [lia|]. rewrite Nat2Z.id.
  rewrite (nth_error_nth' xy (0, 0) H). unfold X, Y. now destruct (nth i xy (0, 0)).
Qed.

Lemma ascending_le xy : ascending xy -> forall i j, (i <= j < length xy)%nat -> X xy i <= X xy j.
Proof.
  intros H i j. induction j as [|j IH]; intros L; [replace i with 0%nat by lia; lra|].
  destruct (Nat.eq_dec i (S j)) as [->|NE]; [lra|]. apply Rle_trans with (X xy j); [apply IH; lia|apply H; lia].
Qed.
Lemma descending_le xy : descending xy -> forall i j, (i <= j < length xy)%nat -> X xy j <= X xy i.
Proof.
  intros H i j. induction j as [|j IH]; intros L; [replace i with 0%nat by lia; lra|].
  destruct (Nat.eq_dec i (S j)) as [->|NE]; [lra|]. apply Rle_trans with (X xy j); [apply H; lia|apply IH; lia].
Qed.

(** bisection, for a test [up] on entries *)
Definition bisect (xy : list (R * R)) (up : R -> bool) (s : Z * Z) : outcome ((Z * Z) + Z) :=
  let '(lower, upper) := s in
  if ((upper - lower) mod UINT >? 1)%Z then
    let mid := Z.shiftr ((upper + lower) mod UINT) 1 in
    let! (xm, _) := point xy mid in
    if up xm then Ok (inl (mid, upper)) else Ok (inl (lower, mid))
  else Ok (inr lower).

Lemma bisect_ok xy up : (2 * Z.of_nat (length xy) <= UINT)%Z ->
  forall fuel lo hi, (lo < hi <= length xy)%nat -> (hi - lo < fuel)%nat ->
  exists i, while_ fuel (bisect xy up) (Z.of_nat lo, Z.of_nat hi) = Ok (Z.of_nat i)
  /\ (lo <= i < hi)%nat /\ (i = lo \/ up (X xy i) = true) /\ (S i = hi \/ up (X xy (S i)) = false).
Proof.
  intros HU. unfold UINT in HU. induction fuel as [|fuel IH]; intros lo hi H HF; [lia|].
  cbn [while_]. unfold bisect at 1. unfold UINT. rewrite Z.mod_small by lia.
  rewrite Z.gtb_ltb. destruct (Z.ltb_spec 1 (Z.of_nat hi - Z.of_nat lo)) as [L|L].
  - rewrite Z.mod_small by lia. rewrite Z.shiftr_div_pow2 by lia. change (2 ^ 1)%Z with 2%Z.
    assert (EM : ((Z.of_nat hi + Z.of_nat lo) / 2)%Z = Z.of_nat ((hi + lo) / 2)).
    { rewrite Nat2Z.inj_div, Nat2Z.inj_add. reflexivity. }
    rewrite EM. set (mid := ((hi + lo) / 2)%nat) in *.
    assert (M : (lo < mid < hi)%nat).
    { unfold mid. split; [apply Nat.div_le_lower_bound|apply Nat.div_lt_upper_bound]; lia. }
    rewrite point_ok by lia. cbn [bind]. destruct (up (X xy mid)) eqn:E; cbn [bind].
    + destruct (IH mid hi ltac:(lia) ltac:(lia)) as (i & W & B & D1 & D2). exists i. split; [exact W|].
      split; [lia|]. split; [|exact D2]. destruct D1 as [->|D1]; auto.
    + destruct (IH lo mid ltac:(lia) ltac:(lia)) as (i & W & B & D1 & D2). exists i. split; [exact W|].
      split; [lia|]. split; [exact D1|]. destruct D2 as [D2|D2]; [right; now rewrite D2|auto].
  - exists lo. cbn [bind]. split; [reflexivity|]. split; [lia|]. split; [auto|left; lia].
Qed.

Lemma while_ext S A (b b' : S -> outcome (S + A)) : (forall s, b s = b' s) ->
  forall fuel s, while_ fuel b s = while_ fuel b' s.
Proof.
  intros H. induction fuel as [|fuel IH]; intros s; [reflexivity|]. cbn [while_]. rewrite H.
  destruct (b' s) as [[s'|r]| | |]; cbn [bind]; auto.
Qed.

Definition up_of (x : R) (order : bool) (xm : R) : bool :=
  (Rleb xm x && order) || (Rleb x xm && negb order).

Lemma find_x_unfold fuel xy x : (2 <= length xy)%nat -> (2 * Z.of_nat (length xy) <= UINT)%Z ->
  let n := length xy in let order := Rleb (X xy 0) (X xy (n - 1)) in
  interp_find_x fuel xy x =
  if (Rltb (X xy (n - 1)) x && order) || (Rltb x (X xy (n - 1)) && negb order) then Ok ((- EINVAL)%Z, Z.of_nat n)
  else if (Rltb x (X xy 0) && order) || (Rltb (X xy 0) x && negb order) then Ok ((- EINVAL)%Z, (-1)%Z)
  else let! lower := while_ fuel (bisect xy (up_of x order)) (0%Z, Z.of_nat n) in
       if Reqb x (X xy 0) then Ok (0%Z, 0%Z)
       else if Reqb x (X xy (n - 1)) then Ok (0%Z, (Z.of_nat n - 2)%Z)
       else Ok (0%Z, lower).
Proof.
  intros Hn HU. cbv zeta. unfold interp_find_x.
  destruct (Z.ltb_spec (Z.of_nat (length xy)) 2); [lia|].
  replace (Z.of_nat (length xy) - 1)%Z with (Z.of_nat (length xy - 1)) by lia.
  rewrite point_ok by lia. change 0%Z with (Z.of_nat 0) at 1. rewrite point_ok by lia. cbn [bind]. rops.
  rewrite (Z.mod_small (Z.of_nat (length xy))) by (unfold UINT in *; lia).
  reflexivity.
Qed.

Lemma find_x_asc fuel xy x : (2 <= length xy)%nat -> (2 * Z.of_nat (length xy) <= UINT)%Z ->
  (length xy < fuel)%nat -> ascending xy -> X xy 0 <= x <= X xy (length xy - 1) ->
  exists i, interp_find_x fuel xy x = Ok (0%Z, Z.of_nat i) /\ (S i < length xy)%nat /\ X xy i <= x <= X xy (S i)
    /\ (x < X xy (length xy - 1) -> X xy 0 < x -> x < X xy (S i)).
Proof.
  intros Hn HU HF HA Hx. rewrite find_x_unfold by assumption.
  set (n := length xy) in *.
  rewrite (Rleb_true (X xy 0) (X xy (n - 1))) by lra. cbn [negb]. rewrite !andb_false_r, !andb_true_r, !orb_false_r.
  rewrite !Rltb_false by lra.
  destruct (@bisect_ok xy (up_of x true) HU fuel 0 n ltac:(lia) ltac:(lia)) as (i & W & B & D1 & D2).
  change (Z.of_nat 0) with 0%Z in W. rewrite W. cbn [bind].
  destruct (Reqb_spec x (X xy 0)) as [E0|N0].
  { exists 0%nat. split; [reflexivity|]. split; [lia|]. split; [split; [lra|]|lra]. rewrite E0. apply HA. lia. }
  destruct (Reqb_spec x (X xy (n - 1))) as [E1|N1].
  { exists (n - 2)%nat. split; [do 2 f_equal; lia|]. split; [lia|]. replace (S (n - 2)) with (n - 1)%nat by lia.
    split; [split; [|lra]|lra]. rewrite E1. replace (n - 1)%nat with (S (n - 2)) by lia. apply HA. lia. }
  assert (U : forall k, up_of x true (X xy k) = true <-> X xy k <= x).
  { intros k. unfold up_of. cbn [negb]. rewrite andb_false_r, andb_true_r, orb_false_r.
    destruct (Rleb_spec (X xy k) x); split; intros; auto; try discriminate; contradiction. }
  assert (A : X xy i <= x). { destruct D1 as [->|D1]; [lra|now apply U]. }
  assert (S i <> n). { intros E. replace i with (n - 1)%nat in A by lia. lra. }
  destruct D2 as [D2|D2]; [contradiction|].
  assert (C : x < X xy (S i)). { apply Rnot_le_lt. intros L. apply U in L. congruence. }
  exists i. split; [reflexivity|]. split; [lia|]. split; [lra|]. intros; lra.
Qed.

Lemma find_x_desc fuel xy x : (2 <= length xy)%nat -> (2 * Z.of_nat (length xy) <= UINT)%Z ->
  (length xy < fuel)%nat -> descending xy -> X xy (length xy - 1) < X xy 0 ->
  X xy (length xy - 1) <= x <= X xy 0 ->
  exists i, interp_find_x fuel xy x = Ok (0%Z, Z.of_nat i) /\ (S i < length xy)%nat /\ X xy (S i) <= x <= X xy i.
Proof.
  intros Hn HU HF HA HO Hx. rewrite find_x_unfold by assumption.
  set (n := length xy) in *.
  rewrite (Rleb_false (X xy 0) (X xy (n - 1))) by lra. cbn [negb]. rewrite !andb_false_r, !andb_true_r. cbn [orb].
  rewrite !Rltb_false by lra.
  destruct (@bisect_ok xy (up_of x false) HU fuel 0 n ltac:(lia) ltac:(lia)) as (i & W & B & D1 & D2).
  change (Z.of_nat 0) with 0%Z in W. rewrite W. cbn [bind].
  destruct (Reqb_spec x (X xy 0)) as [E0|N0].
  { exists 0%nat. split; [reflexivity|]. split; [lia|]. split; [|lra]. rewrite E0. apply HA. lia. }
  destruct (Reqb_spec x (X xy (n - 1))) as [E1|N1].
  { exists (n - 2)%nat. split; [do 2 f_equal; lia|]. split; [lia|]. replace (S (n - 2)) with (n - 1)%nat by lia.
    split; [lra|]. rewrite E1. replace (n - 1)%nat with (S (n - 2)) by lia. apply HA. lia. }
  assert (U : forall k, up_of x false (X xy k) = true <-> x <= X xy k).
  { intros k. unfold up_of. cbn [negb]. rewrite andb_false_r, andb_true_r. cbn [orb].
    destruct (Rleb_spec x (X xy k)); split; intros; auto; try discriminate; contradiction. }
  assert (A : x <= X xy i). { destruct D1 as [->|D1]; [lra|now apply U]. }
  assert (S i <> n). { intros E. replace i with (n - 1)%nat in A by lia. lra. }
  destruct D2 as [D2|D2]; [contradiction|].
  assert (C : X xy (S i) < x). { apply Rnot_le_lt. intros L. apply U in L. congruence. }
  exists i. split; [reflexivity|]. split; [lia|]. lra.
Qed.

Lemma find_x_outside fuel xy x : (2 <= length xy)%nat -> (2 * Z.of_nat (length xy) <= UINT)%Z ->
  let a := X xy 0 in let b := X xy (length xy - 1) in
  (a <= b -> b < x -> interp_find_x fuel xy x = Ok ((- EINVAL)%Z, Z.of_nat (length xy)))
  /\ (a <= b -> x < a -> interp_find_x fuel xy x = Ok ((- EINVAL)%Z, (-1)%Z))
  /\ (b < a -> x < b -> interp_find_x fuel xy x = Ok ((- EINVAL)%Z, Z.of_nat (length xy)))
  /\ (b < a -> a < x -> interp_find_x fuel xy x = Ok ((- EINVAL)%Z, (-1)%Z)).
Proof.
  intros Hn HU. cbv zeta. rewrite find_x_unfold by assumption. set (n := length xy) in *.
  repeat split; intros O L.
  - rewrite (Rleb_true (X xy 0)) by lra. rewrite Rltb_true by lra. reflexivity.
  - rewrite (Rleb_true (X xy 0)) by lra. rewrite (Rltb_false (X xy (n - 1)) x), (Rltb_true x (X xy 0)) by lra.
    cbn [negb]. rewrite andb_false_r. reflexivity.
  - rewrite (Rleb_false (X xy 0)) by lra. rewrite (Rltb_true x (X xy (n - 1))) by lra.
    rewrite andb_false_r. reflexivity.
  - rewrite (Rleb_false (X xy 0)) by lra. rewrite (Rltb_false x (X xy (n - 1))), (Rltb_true (X xy 0) x) by lra.
    rewrite !andb_false_r. reflexivity.
Qed.

Lemma find_x_short fuel (xy : list (R * R)) x : (length xy < 2)%nat -> interp_find_x fuel xy x = Ok ((- EINVAL)%Z, (-1)%Z).
Proof. intros H. unfold interp_find_x. destruct (Z.ltb_spec (Z.of_nat (length xy)) 2); [reflexivity|lia]. Qed.

(** * Two points *)
Lemma no_delta_R (a b : R) : no_delta a b = true <-> Rabs (b - a) < / 1000000.
Proof.
  unfold no_delta. rops. rewrite andb_true_iff. split.
  - intros (A & B). destruct (Rltb_spec (b - a) (1 / 1000000)); [|discriminate].
    destruct (Rltb_spec (- (b - a)) (1 / 1000000)); [|discriminate]. apply Rabs_def1; lra.
  - intros H. apply Rabs_def2 in H. rewrite !Rltb_true by lra. auto.
Qed.
Lemma no_delta_false (a b : R) : / 1000000 <= Rabs (b - a) -> no_delta a b = false.
Proof. intros H. destruct (no_delta a b) eqn:E; [|reflexivity]. apply no_delta_R in E. lra. Qed.

Lemma lin_y_ok x1 y1 x3 y3 x : / 1000000 <= x3 - x1 -> x1 <= x <= x3 ->
  interp_lin_y (x1, y1) (x3, y3) x = Ok (0%Z, Set_ ((x - x1) * (y3 - y1) / (x3 - x1) + y1)).
Proof.
  intros H Hx. unfold interp_lin_y. rewrite no_delta_false by (rewrite Rabs_pos_eq; lra).
  rops. rewrite !Rltb_false by lra. cbn [orb]. rewrite Rdivo_ok by lra. reflexivity.
Qed.

Lemma line_between x1 y1 x3 y3 x : x1 < x3 -> x1 <= x <= x3 ->
  Rmin y1 y3 <= (x - x1) * (y3 - y1) / (x3 - x1) + y1 <= Rmax y1 y3.
Proof.
  intros H Hx. set (t := (x - x1) / (x3 - x1)).
  assert (T : 0 <= t <= 1).
  { unfold t. split; [apply Rmult_le_pos; [lra|left; apply Rinv_0_lt_compat; lra]|].
    apply Rmult_le_reg_r with (x3 - x1); [lra|]. unfold Rdiv. rewrite Rmult_assoc, Rinv_l by lra. lra. }
  replace ((x - x1) * (y3 - y1) / (x3 - x1) + y1) with (t * (y3 - y1) + y1) by (unfold t; field; lra).
  unfold Rmin, Rmax. destruct (Rle_dec y1 y3); nra.
Qed.
