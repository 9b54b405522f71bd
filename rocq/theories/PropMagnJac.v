(** C168: the derivatives of the iterative magnetometer calibration. *)
From Coq Require Import List Arith ZArith Bool Lia Reals Lra.
From Coquelicot Require Import Coquelicot.
From Verif Require Import Base BaseFacts RTac SpecVec SpecReal SpecMtx MVec MMtx MDecomp MStat MCal
  NumR PVec PVecR PMtx PMtxOps PMtxR SpecCal PCal SpecMagnJac PMagnJac PMagnStep.
Import ListNotations.
Set Implicit Arguments.
Local Open Scope R_scope.

(** ** The sphere fit *)

(** Entry 0 of the row of derivatives is the derivative of the misfit with
    respect to the radius; entry 1+k is the sum of -(h_k - b_k) / |h + b| *)
Theorem C168_sphere_row bc n p tl (b : nat -> R) tb :
  (forall i, (i < n)%nat -> rnorm (moved_by b (p i)) <> 0) ->
  exists row, magn_jac_shp bc (mat_of n 3 p tl) (vec_of [b 0%nat; b 1%nat; b 2%nat] tb) = Ok (mat_of 1 4 (fun _ k => row k) [])
  /\ (forall r, is_derive (fun x => misfit_sphere n p x b) r (row 0%nat))
  /\ forall k, (k < 3)%nat -> row (S k) = bigsum n (fun i => - (p i k - b k) / rnorm (moved_by b (p i))).
Proof.
  intros Hf. exists (shp_entry n p b). split; [now apply jac_shp_row|]. split; [|reflexivity].
  intros r. unfold misfit_sphere, shp_entry. evar_last.
  - apply bigsum_derive with (d := fun _ => 1). intros i Hi. auto_derive; auto.
  - clear. induction n as [|n IH]; [reflexivity|]. cbn [bigsum]. rewrite IH, S_INR. reflexivity.
Qed.

(** The derivative with respect to the offset is the sum of -(h_k + b_k) / |h + b| *)
Theorem C168_sphere_derivative n p r (b : nat -> R) k :
  (forall i, (i < n)%nat -> rnorm (moved_by b (p i)) <> 0) -> (k < 3)%nat ->
  is_derive (fun x => misfit_sphere n p r (with_par b k x)) (b k)
            (bigsum n (fun i => - (p i k + b k) / rnorm (moved_by b (p i)))).
Proof.
  intros Hf Hk. unfold misfit_sphere. apply bigsum_derive. intros i Hi. specialize (Hf i Hi).
  assert (G : is_derive (fun x => r - rnorm (moved_by (with_par b k x) (p i))) (b k)
     (- ((p i 0%nat + b 0%nat) * (if (0 =? k)%nat then 1 else 0) + (p i 1%nat + b 1%nat) * (if (1 =? k)%nat then 1 else 0)
         + (p i 2%nat + b 2%nat) * (if (2 =? k)%nat then 1 else 0)) / rnorm (moved_by b (p i)))).
  { assert (E : forall j, with_par b k (b k) j = b j).
    { intros j. unfold with_par. destruct (Nat.eqb_spec j k); congruence. }
    evar_last.
    - unfold moved_by. apply norm3_derive with (du := if (0 =? k)%nat then 1 else 0)
        (dv := if (1 =? k)%nat then 1 else 0) (dw := if (2 =? k)%nat then 1 else 0);
        [unfold with_par; match goal with |- context [(?a =? k)%nat] => destruct (a =? k)%nat end; auto_derive; auto; ring..|].
      cbv beta; rewrite !E. exact Hf.
    - cbv beta. rewrite !E. reflexivity. }
  evar_last; [exact G|]. destruct k as [|[|[|k]]]; [| | |lia]; cbn [Nat.eqb]; f_equal; ring.
Qed.

(** They agree when the offset is still zero *)
Theorem C168_sphere_origin_partial bc n p tl tb r k : (k < 3)%nat ->
  (forall i, (i < n)%nat -> rnorm (moved_by (fun _ => 0) (p i)) <> 0) ->
  exists row, magn_jac_shp bc (mat_of n 3 p tl) (vec_of [0; 0; 0] tb) = Ok (mat_of 1 4 (fun _ k => row k) [])
  /\ is_derive (fun x => misfit_sphere n p r (with_par (fun _ => 0) k x)) 0 (row (S k)).
Proof.
  intros Hk Hf. exists (shp_entry n p (fun _ => 0)). split; [now apply (@jac_shp_row bc n p tl (fun _ => 0))|].
  evar_last; [exact (@C168_sphere_derivative n p r (fun _ => 0) k Hf Hk)|].
  unfold shp_entry. apply bigsum_ext. intros i _. f_equal. ring.
Qed.

(** In general they do not: one reading (3, 0, 0) with offset (6, 0, 0), where
    the two have opposite signs *)
Definition lone (i j : nat) : R := if (j =? 0)%nat then 3 else 0.
Definition shift (j : nat) : R := if (j =? 0)%nat then 6 else 0.
Lemma lone_norm : rnorm (moved_by shift (lone 0)) = 9.
Proof.
  unfold rnorm, moved_by, lone, shift. cbn. replace (_ + _) with (9 * 9) by ring. apply sqrt_square. lra.
Qed.
Theorem C168_sphere_refuted bc tl tb : ~ (forall n p b row k,
  (forall i, (i < n)%nat -> rnorm (moved_by b (p i)) <> 0) -> (k < 3)%nat ->
  magn_jac_shp bc (mat_of n 3 p tl) (vec_of [b 0%nat; b 1%nat; b 2%nat] tb) = Ok (mat_of 1 4 (fun _ k => row k) []) ->
  is_derive (fun x => misfit_sphere n p 0 (with_par b k x)) (b k) (row (S k))).
Proof.
  intros H. assert (Hf : forall i, (i < 1)%nat -> rnorm (moved_by shift (lone i)) <> 0).
  { intros i Hi. replace i with 0%nat by lia. rewrite lone_norm. lra. }
  specialize (H 1%nat lone shift (shp_entry 1 lone shift) 0%nat Hf ltac:(lia) (@jac_shp_row bc 1 lone tl shift tb Hf)).
  pose proof (@C168_sphere_derivative 1 lone 0 shift 0%nat Hf ltac:(lia)) as D.
  apply is_derive_unique in H. apply is_derive_unique in D. rewrite H in D.
  revert D. cbn [shp_entry bigsum]. rewrite lone_norm. unfold lone, shift. cbn [Nat.eqb]. lra.
Qed.

(** ** The ellipsoid fit *)

(** Parameters in the order of the row: the diagonal of K, then its other
    entries, then the offset *)
Definition row_order : list nat := [0; 3; 5; 1; 2; 4; 6; 7; 8]%nat.

(** The derivative of the misfit with respect to an entry of K *)
Lemma soft_derivative n p r (g : nat -> R) e :
  (forall i, (i < n)%nat -> rnorm (corrected3 (soft g) (hard g) (p i)) <> 0) -> (e < 6)%nat ->
  is_derive (fun x => misfit_ellipsoid n p r (with_par g (nth e row_order 0%nat) x)) (g (nth e row_order 0%nat))
            (elli_entry n p (hard g) g e).
Proof.
  intros Hf He. unfold misfit_ellipsoid, elli_entry. apply bigsum_derive. intros i Hi. specialize (Hf i Hi).
  set (k := nth e row_order 0%nat).
  assert (E : forall j, with_par g k (g k) j = g j).
  { intros j. unfold with_par. destruct (Nat.eqb_spec j k); congruence. }
  unfold corrected3 in *. cbn [map] in *. cbv zeta.
  set (v := rnorm _) in Hf |- *.
  set (h := fun j => p i j + hard g j).
  set (dw := fun a => bigsum 3 (fun j => (if (match a, j with
     | 0, 0 => 0 | 0, 1 | 1, 0 => 1 | 0, 2 | 2, 0 => 2 | 1, 1 => 3 | 1, 2 | 2, 1 => 4 | _, _ => 5 end =? k)%nat then 1 else 0) * h j)).
  assert (Dw : forall a, (a < 3)%nat -> is_derive (fun x => corrected (soft (with_par g k x)) (hard (with_par g k x)) (p i) a) (g k) (dw a)).
  { intros a Ha. assert (Hh : forall x j, hard (with_par g k x) j = hard g j).
    { intros x j. unfold hard, with_par. replace (6 + j =? k)%nat with false; [reflexivity|].
      symmetry. apply Nat.eqb_neq. unfold k, row_order. destruct e as [|[|[|[|[|[|]]]]]]; cbn; lia. }
    apply is_derive_ext with (fun x => bigsum 3 (fun j => soft (with_par g k x) a j * h j)).
    { intros x. unfold corrected. apply bigsum_ext. intros j _. unfold h. now rewrite Hh. }
    unfold dw. apply bigsum_derive. intros j Hj.
    destruct a as [|[|[|]]]; [| | |lia]; destruct j as [|[|[|]]]; try lia; cbn [soft]; unfold with_par;
      match goal with |- context [(?a =? k)%nat] => destruct (a =? k)%nat end; auto_derive; auto; ring. }
  evar_last.
  - apply norm3_derive with (du := dw 0%nat) (dv := dw 1%nat) (dw := dw 2%nat); [apply Dw; lia..|].
    assert (Ec : forall a, corrected (soft (with_par g k (g k))) (hard (with_par g k (g k))) (p i) a = corrected (soft g) (hard g) (p i) a).
    { intros a. unfold corrected. apply bigsum_ext. intros j _. unfold hard. rewrite E. f_equal.
      destruct a as [|[|[|]]]; destruct j as [|[|[|]]]; cbn [soft]; apply E. }
    cbv beta; rewrite !Ec. exact Hf.
  - assert (Ec : forall a, corrected (soft (with_par g k (g k))) (hard (with_par g k (g k))) (p i) a = corrected (soft g) (hard g) (p i) a).
    { intros a. unfold corrected. apply bigsum_ext. intros j _. unfold hard. rewrite E. f_equal.
      destruct a as [|[|[|]]]; destruct j as [|[|[|]]]; cbn [soft]; apply E. }
    cbv beta. rewrite !Ec. fold v. set (w := corrected (soft g) (hard g) (p i)).
    unfold dw. cbn [bigsum]. fold (h 0%nat) (h 1%nat) (h 2%nat).
    destruct e as [|[|[|[|[|[|]]]]]]; [| | | | | |lia]; unfold k, row_order; cbn [nth Nat.eqb]; unfold Rdiv; ring.
Qed.

(** ... and with respect to the offset *)
Lemma hard_derivative n p r (g : nat -> R) c :
  (forall i, (i < n)%nat -> rnorm (corrected3 (soft g) (hard g) (p i)) <> 0) -> (c < 3)%nat ->
  is_derive (fun x => misfit_ellipsoid n p r (with_par g (6 + c) x)) (g (6 + c)%nat)
            (bigsum n (fun i => - bigsum 3 (fun a => corrected (soft g) (hard g) (p i) a * soft g a c)
                                / rnorm (corrected3 (soft g) (hard g) (p i)))).
Proof.
  intros Hf Hc. unfold misfit_ellipsoid. apply bigsum_derive. intros i Hi. specialize (Hf i Hi).
  set (k := (6 + c)%nat).
  assert (E : forall j, with_par g k (g k) j = g j).
  { intros j. unfold with_par. destruct (Nat.eqb_spec j k); congruence. }
  unfold corrected3 in *. cbn [map] in *.
  assert (Hs : forall x a j, soft (with_par g k x) a j = soft g a j).
  { intros x a j. destruct a as [|[|[|]]]; destruct j as [|[|[|]]]; reflexivity. }
  assert (Dw : forall a, (a < 3)%nat -> is_derive (fun x => corrected (soft (with_par g k x)) (hard (with_par g k x)) (p i) a) (g k) (soft g a c)).
  { intros a Ha. evar_last.
    - unfold corrected. apply bigsum_derive with (d := fun j => if (j =? c)%nat then soft g a j else 0). intros j Hj.
      apply is_derive_ext with (fun x => soft g a j * (p i j + (if (j =? c)%nat then x else g (6 + j)%nat))).
      { intros x. rewrite Hs. unfold hard, with_par, k. replace (6 + j =? 6 + c)%nat with (j =? c)%nat; [reflexivity|].
        destruct (Nat.eqb_spec j c), (Nat.eqb_spec (6 + j) (6 + c)); auto; lia. }
      destruct (j =? c)%nat; auto_derive; auto; ring.
    - cbn [bigsum]. destruct c as [|[|[|]]]; [| | |lia]; cbn [Nat.eqb]; ring. }
  assert (Ec : forall a, corrected (soft (with_par g k (g k))) (hard (with_par g k (g k))) (p i) a = corrected (soft g) (hard g) (p i) a).
  { intros a. unfold corrected. apply bigsum_ext. intros j _. rewrite Hs. unfold hard. now rewrite E. }
  evar_last.
  - apply norm3_derive with (du := soft g 0%nat c) (dv := soft g 1%nat c) (dw := soft g 2%nat c); [apply Dw; lia..|].
    cbv beta; rewrite !Ec. exact Hf.
  - cbv beta. rewrite !Ec. cbn [bigsum]. unfold Rdiv. ring.
Qed.

(** While the offset is the one of the sphere fit (that is, in the first step)
    entry e < 6 of the row is the derivative of the misfit with respect to an
    entry of K: but in the order K00 K11 K22 K01 K02 K12, while the parameters
    the increments are added to are kept as K00 K01 K02 K11 K12 K22 *)
Theorem C168_ellipsoid_row bc n p tl tb r (g : nat -> R) :
  (forall i, (i < n)%nat -> rnorm (corrected3 (soft g) (hard g) (p i)) <> 0) ->
  exists row, magn_jac_elli bc (mat_of n 3 p tl) (vec_of [g 6%nat; g 7%nat; g 8%nat] tb) (Mtx 9 1 (cells (map g (seq 0 9))))
    = Ok (mat_of 1 9 (fun _ e => row e) [])
  /\ (forall e, (e < 6)%nat ->
        is_derive (fun x => misfit_ellipsoid n p r (with_par g (nth e row_order 0%nat) x)) (g (nth e row_order 0%nat)) (row e))
  /\ (forall c, (c < 3)%nat ->
        row (6 + c)%nat = bigsum n (fun i => - corrected (soft g) (hard g) (p i) c / rnorm (corrected3 (soft g) (hard g) (p i)))).
Proof.
  intros Hf. exists (elli_entry n p (hard g) g). split; [now apply (@jac_elli_row bc n p tl (hard g))|]. split.
  - intros e He. now apply soft_derivative.
  - intros c Hc. destruct c as [|[|[|]]]; [reflexivity..|lia].
Qed.

(** Its last three entries are the derivatives with respect to the offset if K
    is the identity, as it is in the first step *)
Theorem C168_ellipsoid_first_partial bc n p tl tb r (g : nat -> R) :
  (forall i j, (i < 3)%nat -> (j < 3)%nat -> soft g i j = if (i =? j)%nat then 1 else 0) ->
  (forall i, (i < n)%nat -> rnorm (corrected3 (soft g) (hard g) (p i)) <> 0) ->
  exists row, magn_jac_elli bc (mat_of n 3 p tl) (vec_of [g 6%nat; g 7%nat; g 8%nat] tb) (Mtx 9 1 (cells (map g (seq 0 9))))
    = Ok (mat_of 1 9 (fun _ e => row e) [])
  /\ forall e, (e < 9)%nat ->
        is_derive (fun x => misfit_ellipsoid n p r (with_par g (nth e row_order 0%nat) x)) (g (nth e row_order 0%nat)) (row e).
Proof.
  intros Hi Hf. destruct (@C168_ellipsoid_row bc n p tl tb r g Hf) as (row & E & D1 & D2). exists row. split; [exact E|].
  intros e He. destruct (Nat.lt_ge_cases e 6) as [L|L]; [now apply D1|].
  destruct (Nat.le_exists_sub 6 e L) as (c & -> & _). rewrite Nat.add_comm in *.
  assert (Hc : (c < 3)%nat) by lia.
  replace (nth (6 + c) row_order 0%nat) with (6 + c)%nat by (destruct c as [|[|[|]]]; [reflexivity..|lia]).
  rewrite D2 by auto. evar_last; [now apply hard_derivative|].
  apply bigsum_ext. intros i Hin. f_equal. f_equal. cbn [bigsum].
  destruct c as [|[|[|]]]; [| | |lia]; rewrite !Hi by lia; cbn [Nat.eqb]; ring.
Qed.

(** The order matters: one reading (0, 3, 0), no offset, K the identity.  Entry
    1 is the derivative with respect to K11, and the increment computed from it
    is added to K01, on which the misfit does not depend at all *)
Definition lone_y (i j : nat) : R := if (j =? 1)%nat then 3 else 0.
Definition start (k : nat) : R := match k with 0%nat | 3%nat | 5%nat => 1 | _ => 0 end.
Lemma lone_y_norm : rnorm (corrected3 (soft start) (hard start) (lone_y 0)) = 3.
Proof.
  unfold rnorm, corrected3, corrected, soft, hard, start, lone_y. cbn. replace (_ + _) with (3 * 3) by ring. apply sqrt_square. lra.
Qed.
Theorem C168_ellipsoid_refuted bc tl tb : ~ (forall n p g row e,
  (forall i, (i < n)%nat -> rnorm (corrected3 (soft g) (hard g) (p i)) <> 0) -> (e < 9)%nat ->
  magn_jac_elli bc (mat_of n 3 p tl) (vec_of [g 6%nat; g 7%nat; g 8%nat] tb) (Mtx 9 1 (cells (map g (seq 0 9))))
    = Ok (mat_of 1 9 (fun _ e => row e) []) ->
  is_derive (fun x => misfit_ellipsoid n p 0 (with_par g e x)) (g e) (row e)).
Proof.
  intros H. assert (Hf : forall i, (i < 1)%nat -> rnorm (corrected3 (soft start) (hard start) (lone_y i)) <> 0).
  { intros i Hi. replace i with 0%nat by lia. rewrite lone_y_norm. lra. }
  pose proof (H 1%nat lone_y start (elli_entry 1 lone_y (hard start) start) 1%nat Hf ltac:(lia)
    (@jac_elli_row bc 1 lone_y tl (hard start) tb start Hf)) as D.
  pose proof (@soft_derivative 1 lone_y 0 start 3%nat Hf ltac:(lia)) as D2.
  cbn [nth row_order] in D2.
  apply is_derive_unique in D. apply is_derive_unique in D2. rewrite D in D2.
  revert D2. unfold elli_entry. cbn [bigsum]. rewrite lone_y_norm.
  unfold corrected, soft, hard, start, lone_y. cbn. lra.
Qed.

(** And once K is not the identity the last three entries are not derivatives *)
Definition twice (k : nat) : R := match k with 0%nat | 3%nat | 5%nat => 2 | _ => 0 end.
Lemma lone_y_norm2 : rnorm (corrected3 (soft twice) (hard twice) (lone_y 0)) = 6.
Proof.
  unfold rnorm, corrected3, corrected, soft, hard, twice, lone_y. cbn. replace (_ + _) with (6 * 6) by ring. apply sqrt_square. lra.
Qed.
Theorem C168_ellipsoid_offset_refuted bc tl tb : exists row,
  magn_jac_elli bc (mat_of 1 3 lone_y tl) (vec_of [twice 6%nat; twice 7%nat; twice 8%nat] tb) (Mtx 9 1 (cells (map twice (seq 0 9))))
    = Ok (mat_of 1 9 (fun _ e => row e) [])
  /\ is_derive (fun x => misfit_ellipsoid 1 lone_y 0 (with_par twice 7 x)) (twice 7%nat) (-2) /\ row 7%nat = -1.
Proof.
  assert (Hf : forall i, (i < 1)%nat -> rnorm (corrected3 (soft twice) (hard twice) (lone_y i)) <> 0).
  { intros i Hi. replace i with 0%nat by lia. rewrite lone_y_norm2. lra. }
  exists (elli_entry 1 lone_y (hard twice) twice). split; [exact (@jac_elli_row bc 1 lone_y tl (hard twice) tb twice Hf)|]. split.
  - evar_last; [exact (@hard_derivative 1 lone_y 0 twice 1%nat Hf ltac:(lia))|].
    cbn [bigsum]. rewrite lone_y_norm2. unfold corrected, soft, hard, twice, lone_y. cbn. lra.
  - unfold elli_entry. cbn [bigsum]. rewrite lone_y_norm2. unfold corrected, soft, hard, twice, lone_y. cbn. lra.
Qed.

(** ** What comes of it *)

(** A zero in the row of derivatives makes the matrix of the step singular;
    zsl_mtx_inv answers the identity then, and the step is n (R - |h|) long
    where the readings call for R - |h|.  Readings evenly spread around the
    origin on a sphere of radius rho, with a first guess r of the radius: after
    one pass over n readings the error of the radius has been multiplied by
    (1 - n)^n *)
Theorem C168_radius_diverges bc n p tl l mu r rho tb :
  mu <> 0 -> 0 < rho ->
  (forall i, (i < n)%nat -> rnorm [p i 0%nat; p i 1%nat; p i 2%nat] = rho) ->
  (forall k, (k < 3)%nat -> bigsum n (fun i => p i k) = 0) ->
  exists r', magn_sphere bc (mat_of n 3 p tl) l mu r (vec_of [0; 0; 0] tb) = Ok (r', vec_of [0; 0; 0] tb)
  /\ r' - rho = (1 - INR n) ^ n * (r - rho).
Proof.
  intros H1 H2 H3 H4. eexists. split; [apply magn_sphere_diverges; eassumption|]. ring.
Qed.

(** The call as a whole: two opposite readings of magnitude 3, (3, 0, 0) and
    (-3, 0, 0).  The answer is 0 (success), no offset, and a matrix that
    multiplies the readings by 181 *)
Definition opposite (i j : nat) : R := if (j =? 0)%nat then (if (i =? 0)%nat then 3 else -3) else 0.
Definition by181 (i j : nat) : R := if (i =? j)%nat then (if (i =? 0)%nat then 181 else 1) else 0.

Lemma norm_x a : rnorm [a; 0; 0] = Rabs a.
Proof. unfold rnorm. cbn. replace (_ + _) with (Rsqr a) by (unfold Rsqr; ring). apply sqrt_Rsqr_abs. Qed.

Lemma opposite_row i (g : nat -> R) : (i < 2)%nat -> (forall k, (0 < k < 9)%nat -> g k = start k) ->
  rnorm (corrected3 (soft g) (hard g) (opposite i)) = 3 * Rabs (g 0%nat).
Proof.
  intros Hi Hg. unfold corrected3, corrected, soft, hard. cbn [map bigsum Nat.add]. rewrite (Hg 1%nat), (Hg 2%nat), (Hg 3%nat), (Hg 4%nat), (Hg 5%nat), (Hg 6%nat), (Hg 7%nat), (Hg 8%nat) by lia. unfold start.
  assert (E : opposite i 1%nat = 0 /\ opposite i 2%nat = 0) by (split; reflexivity). destruct E as (-> & ->).
  replace [_; _; _] with [g 0%nat * opposite i 0%nat; 0; 0] by (f_equal; [ring|f_equal; [ring|f_equal; ring]]).
  rewrite norm_x, Rabs_mult, Rmult_comm. f_equal.
  destruct i as [|[|]]; [| |lia]; unfold opposite; cbn [Nat.eqb]; [apply Rabs_pos_eq; lra|].
  rewrite Rabs_left by lra. lra.
Qed.

(** the row: only its first entry is not zero *)
Lemma opposite_entry b (g : nat -> R) e : (forall k, (0 < k < 9)%nat -> g k = start k) -> (forall k, (k < 3)%nat -> b k = 0) ->
  g 0%nat <> 0 -> (e < 9)%nat ->
  elli_entry 2 opposite b g e = if (e =? 0)%nat then - 6 * (g 0%nat / Rabs (g 0%nat)) else 0.
Proof.
  intros Hg Hb Ng He. assert (Na : Rabs (g 0%nat) <> 0) by now apply Rabs_no_R0.
  unfold elli_entry. cbn [bigsum]. cbv zeta. rewrite !opposite_row by (auto; lia).
  unfold corrected, soft, hard. cbn [bigsum]. rewrite !Hb by lia. rewrite (Hg 1%nat), (Hg 2%nat), (Hg 3%nat), (Hg 4%nat), (Hg 5%nat) by lia. unfold start, opposite. cbn [Nat.eqb].
  destruct e as [|[|[|[|[|[|[|[|[|e]]]]]]]]]; try lia; cbn [Nat.eqb]; field; exact Na.
Qed.

(** the nine parameters with x for K00 *)
Definition gx (x : R) (k : nat) : R := if (k =? 0)%nat then x else start k.
Lemma gx_start x k : (0 < k < 9)%nat -> gx x k = start k.
Proof. intros H. unfold gx. destruct (Nat.eqb_spec k 0); [lia|reflexivity]. Qed.
Lemma gx_cells x : map (gx x) (seq 0 9) = [x; 0; 0; 1; 0; 1; 0; 0; 0].
Proof. reflexivity. Qed.

(** one step of the ellipsoid fit *)
Lemma opposite_step bc tl tb r l x : x <> 0 -> exists row t,
  magn_jac_elli bc (mat_of 2 3 opposite tl) (vec_of [0; 0; 0] tb) (Mtx 9 1 (cells (map (gx x) (seq 0 9)))) = Ok row
  /\ magn_step bc 9 row l (mat_of 9 9 mid []) r = Ok (mat_of 9 9 mid [], mat_of 9 1 t [])
  /\ forall e, (e < 9)%nat -> t e 0%nat = if (e =? 0)%nat then 6 * (x / Rabs x) * r else 0.
Proof.
  intros Nx. assert (En : forall e, (e < 9)%nat -> elli_entry 2 opposite (fun _ => 0) (gx x) e = if (e =? 0)%nat then - 6 * (x / Rabs x) else 0).
  { intros e He. apply (@opposite_entry (fun _ => 0) (gx x) e); auto. intros k Hk. now apply gx_start. }
  do 2 eexists. split; [|split].
  - apply (@jac_elli_row bc 2 opposite tl (fun _ => 0) tb (gx x)). intros i Hi. rewrite opposite_row by (auto; intros; now apply gx_start).
    unfold gx. cbn [Nat.eqb]. pose proof (Rabs_no_R0 x Nx). pose proof (Rabs_pos x). lra.
  - apply magn_step_singular with (r := 1%nat); [lia|]. now rewrite En by lia.
  - intros e He. cbv beta. rewrite En by auto. destruct (e =? 0)%nat; ring.
Qed.

(** the two steps take K00 from 1 to -11 and 181 *)
Definition k00 (j : nat) : R := match j with 0%nat => 1 | 1%nat => -11 | _ => 181 end.

Lemma opposite_ellipsoid bc tl tb l mu :
  magn_ellipsoid bc (mat_of 2 3 opposite tl) l mu 1 (vec_of [0; 0; 0] tb)
  = Ok (Mtx 9 1 (cells (map (gx 181) (seq 0 9))), l * mu).
Proof.
  unfold magn_ellipsoid. change (mrows (mat_of 2 3 opposite tl)) with 2%nat.
  do 3 (erewrite bind_eq by reflexivity).
  rewrite mtx_init_identity with (r := 9%nat) (c := 9%nat) by apply room_def. rewrite rest_def. erewrite bind_eq by reflexivity.
  cbv beta iota.
  match goal with |- context [for_ 2 0 ?B0 ?s0] =>
   destruct (@for_inv _ (fun j (st : mtx R * R * R * mtx R) =>
     let '(g, l', s, idx) := st in
     g = Mtx 9 1 (cells (map (gx (k00 j)) (seq 0 9))) /\ idx = mat_of 9 9 mid []
     /\ (j = 0%nat -> s = 0) /\ l' = match j with 0%nat => l | _ => l * mu end) 2 0%nat B0 s0)
     as ((((g & l') & s) & idx) & E & E1 & _ & _ & E2) end.
  { repeat split. }
  { intros j (((g & l') & s) & idx) Hj (-> & -> & Es & El). cbv beta iota.
    assert (Nx : k00 j <> 0) by (destruct j as [|[|]]; cbn [k00]; lra).
    assert (Fe : forall i x, (i < 2)%nat -> magn_f_elli bc (vec_of [opposite i 0%nat; opposite i 1%nat; opposite i 2%nat] [])
       (Mtx 9 1 (cells (map (gx x) (seq 0 9)))) = Ok (3 * Rabs x)).
    { intros i x Hi. rewrite gx_cells, magn_f_elli_ok. f_equal.
      change (3 * Rabs x) with (3 * Rabs (gx x 0%nat)). rewrite <- (@opposite_row i (gx x) Hi) by (intros; now apply gx_start).
      unfold corrected3, corrected, soft, hard, gx, start. cbn [map bigsum Nat.add Nat.eqb]. f_equal. apply list3_eq; ring. }
    destruct (opposite_step bc tl tb (fsub (Num := NumR) 1 (3 * Rabs (k00 j))) l' Nx) as (row & t & Er & Et & Ht).
    erewrite bind_eq by exact Er. erewrite bind_eq by (apply magn_row_ok; lia).
    erewrite bind_eq by (apply Fe; lia). erewrite bind_eq by exact Et. cbv beta iota.
    match goal with |- context [for_ 9 0 ?B0 ?s0] => replace (for_ 9 0 B0 s0) with
      (Ok (cells [k00 j + t 0%nat 0%nat; 0 + t 1%nat 0%nat; 0 + t 2%nat 0%nat; 1 + t 3%nat 0%nat; 0 + t 4%nat 0%nat;
                  1 + t 5%nat 0%nat; 0 + t 6%nat 0%nat; 0 + t 7%nat 0%nat; 0 + t 8%nat 0%nat])) by reflexivity end.
    erewrite bind_eq by reflexivity. rewrite !Ht by lia. cbn [Nat.eqb]. rewrite !Rplus_0_r.
    assert (Ek : k00 j + 6 * (k00 j / Rabs (k00 j)) * fsub (Num := NumR) 1 (3 * Rabs (k00 j)) = k00 (S j)).
    { cbn [fsub NumR]. destruct j as [|[|]]; [| |lia]; cbn [k00]; [rewrite Rabs_R1|rewrite Rabs_left by lra]; field; lra. }
    rewrite Ek. rewrite <- gx_cells.
    destruct j as [|[|]]; [| |lia]; cbn [Nat.sub Nat.ltb Nat.leb].
    - erewrite bind_eq by (apply magn_row_ok; lia). erewrite bind_eq by (apply Fe; lia).
      rewrite Es by reflexivity. unfold magn_lambda. cbn [fdiv fofZ fmul fadd NumR]. rewrite Rdivo_ok.
      2: { cbn. lra. }
      erewrite (@bind_eq R) by reflexivity. cbn [flt NumR].
      match goal with |- context [Rltb ?a 0] => destruct (Rltb_spec a 0) as [L|L] end.
      { exfalso. revert L. cbn [fsub NumR k00]. change (IZR (Z.of_nat (0 + 1))) with 1. change (IZR (Z.of_nat 0)) with 0.
        unfold Rabs. destruct Rcase_abs; lra. }
      cbn [bind]. eexists. split; [reflexivity|]. cbv beta iota. repeat split; [discriminate|]. now rewrite El.
    - eexists. split; [reflexivity|]. cbv beta iota. repeat split; [discriminate|]. now rewrite El. }
  rewrite E. cbn [bind]. subst g l'. reflexivity.
Qed.

Theorem C168_two_readings_refuted bc fuel g tl l mu K bb :
  (4 <= fuel)%nat -> room 3 3 K -> (3 <= length bb)%nat -> 1 <= mu ->
  cal_magn bc fuel (Some g) (mat_of 2 3 opposite tl) l mu K (Vec 3 bb)
  = Ok (0%Z, (l * mu, mat_of 3 3 by181 (rest K), vec_of [0; 0; 0] (skipn 3 bb))).
Proof.
  intros Hf HK Hb Hmu. pose proof HK as (Kr & Kc & _). unfold cal_magn. rewrite Kr, Kc.
  change (mcols (mat_of 2 3 opposite tl)) with 3%nat. cbn [vsz Nat.eqb negb orb].
  replace (mu <? flit 10 1)%num with false.
  2: { assert (E : (flit 10 1 : R) = 1) by (cbn [flit NumR]; lits; lra). rewrite E. cbn [flt NumR]. destruct (Rltb_spec mu 1); auto; lra. }
  rewrite andb_false_r.
  erewrite bind_eq.
  2: { apply magn_start_axes with (c := fun _ => 0) (rho := fun j => if (j =? 0)%nat then 3 else 0); auto.
       - intros j _ x y Hx Hy. unfold col_of in Hx, Hy. cbn [seq map In] in Hx, Hy. unfold opposite in Hx, Hy. cbn [Nat.eqb] in Hx, Hy.
         destruct (j =? 0)%nat; decompose [or] Hx; decompose [or] Hy; subst; try contradiction; try (now left); right;
           unfold Rabs; destruct Rcase_abs; lra.
       - intros j Hj. unfold reaches_poles, opposite. destruct j as [|j]; cbn [Nat.eqb].
         + split; [exists 0%nat|exists 1%nat]; (split; [lia|cbn [Nat.eqb]; lra]).
         + split; exists 0%nat; (split; [lia|lra]).
       - intros i j Hi Hj. unfold opposite. destruct (j =? 0)%nat; [destruct (i =? 0)%nat|]; lra. }
  cbv beta iota. cbn [vbuf Nat.eqb]. rewrite Ropp_0.
  change (Vec (vsz (Vec 3 bb)) (cells [0; 0; 0] ++ skipn 3 bb)) with (vec_of [0; 0; 0] (skipn 3 bb)).
  erewrite bind_eq.
  2: { apply magn_sphere_diverges with (rho := 3); [lra|lra| |].
       - intros i Hi. destruct i as [|[|]]; [| |lia]; unfold opposite; cbn [Nat.eqb]; rewrite norm_x; unfold Rabs; destruct Rcase_abs; lra.
       - intros k Hk. unfold opposite. cbn [bigsum Nat.eqb]. destruct (k =? 0)%nat; ring. }
  cbv beta iota. replace (3 + _) with 1 by (cbn [INR pow]; field).
  rewrite mtx_init_identity with (r := 3%nat) (c := 3%nat) by auto. erewrite bind_eq by reflexivity. cbv beta iota.
  erewrite bind_eq.
  2: { apply opposite_ellipsoid. }
  cbv beta iota. cbn [mbuf]. rewrite gx_cells.
  destruct (@magn_sym_mat 181 0 0 1 0 1 [0; 0; 0] K HK) as (k & Ek & Hk).
  erewrite bind_eq by exact Ek. erewrite bind_eq by reflexivity.
  do 3 f_equal. cbn [mrows mcols]. f_equal.
  replace (mat_of 3 3 by181 (rest K)) with (mat_of 3 3 k (rest K)); [reflexivity|].
  apply mat_ext. intros i j Hi Hj. rewrite Hk by auto. unfold by181.
  destruct i as [|[|[|i]]], j as [|[|[|j]]]; try lia; reflexivity.
Qed.

(** *** Non-vacuity *)
Example C168_sphere_ex : exists row, magn_jac_shp true (mat_of 1 3 lone []) (vec_of [6; 0; 0] []) = Ok (mat_of 1 4 (fun _ k => row k) [])
  /\ row 0%nat = 1 /\ row 1%nat = / 3.
Proof.
  assert (Hf : forall i, (i < 1)%nat -> rnorm (moved_by shift (lone i)) <> 0).
  { intros i Hi. replace i with 0%nat by lia. rewrite lone_norm. lra. }
  exists (shp_entry 1 lone shift). split; [exact (@jac_shp_row true 1 lone [] shift [] Hf)|].
  cbn [shp_entry bigsum INR]. rewrite lone_norm. unfold lone, shift. cbn [Nat.eqb]. split; lra.
Qed.
Example C168_ellipsoid_ex : forall i, (i < 1)%nat -> rnorm (corrected3 (soft start) (hard start) (lone_y i)) <> 0.
Proof. intros i Hi. replace i with 0%nat by lia. rewrite lone_y_norm. lra. Qed.

Example C168_radius_ex : exists r', magn_sphere true (mat_of 2 3 opposite []) 1 10 1 (vec_of [0; 0; 0] []) = Ok (r', vec_of [0; 0; 0] [])
  /\ r' - 3 = (1 - 2) ^ 2 * (1 - 3).
Proof.
  replace ((1 - 2) ^ 2) with ((1 - INR 2) ^ 2) by (cbn [INR pow]; ring). apply C168_radius_diverges; [lra|lra| |].
  - intros i Hi. destruct i as [|[|]]; [| |lia]; unfold opposite; cbn [Nat.eqb]; rewrite norm_x; unfold Rabs; destruct Rcase_abs; lra.
  - intros k Hk. unfold opposite. cbn [bigsum Nat.eqb]. destruct (k =? 0)%nat; ring.
Qed.
Example C168_two_readings_ex : cal_magn true 4 (Some 0) (mat_of 2 3 opposite []) 1 10 (mtx_def 3 3) (Vec 3 (fresh 3))
  = Ok (0%Z, (1 * 10, mat_of 3 3 by181 [], vec_of [0; 0; 0] [])).
Proof. rewrite C168_two_readings_refuted; [reflexivity|lia|apply room_def|cbn; lia|lra]. Qed.

Print Assumptions C168_sphere_row.
Print Assumptions C168_sphere_derivative.
Print Assumptions C168_sphere_origin_partial.
Print Assumptions C168_sphere_refuted.
Print Assumptions C168_ellipsoid_row.
Print Assumptions C168_ellipsoid_first_partial.
Print Assumptions C168_ellipsoid_refuted.
Print Assumptions C168_ellipsoid_offset_refuted.
Print Assumptions C168_radius_diverges.
Print Assumptions C168_two_readings_refuted.
