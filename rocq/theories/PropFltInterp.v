(** Property C153: interpolating in a table in double precision
    (zsl_interp_lin_y, zsl_interp_lin_y_arr).

    [FR x] is the real value of a double, [gam 6] = (1 + 2^-53)^6 - 1, [eta] =
    2^-1075.  [line x1 y1 x3 y3 x] is the ordinate at x of the straight line
    through two points.  For a table xy of doubles, [X (map FR2 xy) i] and
    [Y (map FR2 xy) i] are the values of the coordinates of its entry i.
    [tame]: the coordinates are finite and at most 2^400. *)
From Coq Require Import Floats.PrimFloat.
From Coq Require Import ZArith Reals Lra Lia List Bool Arith.
From Verif Require Import Base BaseFacts NumF NumR Out SpecInterp SpecFlt MInterp PInterp PFlt PFltUnit PFltVar PRgbFlt PropInterp PFltCmp PFltInterp PPoly.
Import ListNotations.
Open Scope R_scope.

(** * Two points *)
Theorem C153_two_points :
  forall x1 y1 x3 y3 x : double, tame [(x1, y1); (x3, y3)] -> finite x ->
  1001 / 1000000000 <= FR x3 - FR x1 -> FR x1 <= FR x <= FR x3 ->
  exists r, interp_lin_y (x1, y1) (x3, y3) x = Ok (0%Z, Set_ r) /\ finite r
  /\ Rabs (FR r - (FR y1 + (FR x - FR x1) * (FR y3 - FR y1) / (FR x3 - FR x1)))
     <= gam 6 * (Rabs (FR y1) + Rabs (FR y3 - FR y1)) + 2 ^ 21 * eta.
Proof.
  intros x1 y1 x3 y3 x HT Fx G B.
  destruct (HT (x1, y1) ltac:(now left)) as (F1 & F2 & B1 & B2). destruct (HT (x3, y3) ltac:(right; now left)) as (F3 & F4 & B3 & B4).
  eexists. exact (lin_y_flt F1 F2 F3 F4 Fx B1 B2 B3 B4 G B).
Qed.
Print Assumptions C153_two_points.

(** * A table *)
Theorem C153_table :
  forall fuel (xy : list (double * double)) x, fits (map FR2 xy) -> (length xy < fuel)%nat ->
  tame xy -> finite x ->
  (forall i, (S i < length xy)%nat -> 1001 / 1000000000 <= X (map FR2 xy) (S i) - X (map FR2 xy) i) ->
  X (map FR2 xy) 0 <= FR x <= X (map FR2 xy) (length xy - 1) ->
  exists i r, interp_lin_y_arr fuel xy x = Ok (0%Z, Set_ r) /\ finite r
  /\ (S i < length xy)%nat /\ X (map FR2 xy) i <= FR x <= X (map FR2 xy) (S i)
  /\ Rabs (FR r - line (X (map FR2 xy) i) (Y (map FR2 xy) i) (X (map FR2 xy) (S i)) (Y (map FR2 xy) (S i)) (FR x))
     <= gam 6 * (Rabs (Y (map FR2 xy) i) + Rabs (Y (map FR2 xy) (S i) - Y (map FR2 xy) i)) + 2 ^ 21 * eta.
Proof.
  intros fuel xy x Hf HF HT Fx G B.
  assert (HA : ascending (map FR2 xy)) by (intros i Hi; rewrite map_length in Hi; specialize (G i Hi); lra).
  assert (Fp : forall p, In p xy -> finite (fst p)) by (intros p Hp; apply (HT p Hp)).
  assert (HF' : (length (map FR2 xy) < fuel)%nat) by (now rewrite map_length).
  rewrite <- (map_length FR2 xy) in B.
  destruct (C63_ascending fuel (map FR2 xy) (FR x) Hf HF' HA B) as (i & E & Hi & Bi). rewrite map_length in Hi.
  rewrite <- find_x_FR in E by auto. destruct (@lin_y_arr_at fuel xy x i HT Fx E Hi (G i Hi) Bi) as (r & Er & Fr & A & _). eauto 10.
Qed.
Print Assumptions C153_table.

(** Every entry of the table but the last is reproduced exactly. *)
Theorem C153_nodes :
  forall fuel (xy : list (double * double)) k, fits (map FR2 xy) -> (length xy < fuel)%nat -> tame xy ->
  (forall i, (S i < length xy)%nat -> 1001 / 1000000000 <= X (map FR2 xy) (S i) - X (map FR2 xy) i) ->
  (S k < length xy)%nat ->
  let '(x, y) := nth k xy (PrimFloat.zero, PrimFloat.zero) in
  exists r, interp_lin_y_arr fuel xy x = Ok (0%Z, Set_ r) /\ finite r /\ FR r = FR y.
Proof.
  intros fuel xy k Hf HF HT G Hk. fold (pt xy k). destruct (pt xy k) as [x y] eqn:Ek.
  assert (HA : ascending (map FR2 xy)) by (intros i Hi; rewrite map_length in Hi; specialize (G i Hi); lra).
  assert (Fp : forall p, In p xy -> finite (fst p)) by (intros p Hp; apply (HT p Hp)).
  assert (HF' : (length (map FR2 xy) < fuel)%nat) by (now rewrite map_length).
  assert (EX : FR x = X (map FR2 xy) k) by (rewrite X_pt, Ek; reflexivity).
  assert (EY : FR y = Y (map FR2 xy) k) by (rewrite Y_pt, Ek; reflexivity).
  assert (Fx : finite x) by (apply (Fp (x, y)); rewrite <- Ek; apply nth_In; lia).
  assert (AL : forall i j, (i <= j < length xy)%nat -> X (map FR2 xy) i <= X (map FR2 xy) j) by (intros; apply ascending_le; auto; rewrite map_length; lia).
  assert (B : X (map FR2 xy) 0 <= FR x <= X (map FR2 xy) (length (map FR2 xy) - 1)) by (rewrite EX, map_length; split; apply AL; lia).
  destruct (find_x_asc (proj1 Hf) (fits_U _ Hf) HF' HA B) as (i & E & Hi & Bi & Bs). rewrite map_length in Hi, Bs.
  rewrite <- find_x_FR in E by auto. destruct (@lin_y_arr_at fuel xy x i HT Fx E Hi (G i Hi) Bi) as (r & Er & Fr & _ & Ex).
  exists r. split; [exact Er|]. split; [exact Fr|]. rewrite EY. rewrite EX in *.
  assert (i = k) as ->; [|auto].
  pose proof (G k Hk) as Gk. pose proof (AL (S k) (length xy - 1)%nat ltac:(lia)).
  destruct (Nat.lt_trichotomy i k) as [K|[K|K]]; [|exact K|].
  - pose proof (G i Hi). pose proof (AL (S i) k ltac:(lia)). pose proof (AL 0%nat i ltac:(lia)). lra.
  - pose proof (AL (S k) i ltac:(lia)). lra.
Qed.
Print Assumptions C153_nodes.

Definition ex_lin : list (double * double) := [(0, -1); (1, 1e-17)]%float.
Lemma ex_tame : tame ex_lin.
Proof.
  assert (U : forall x, finite x -> PrimFloat.leb x 1%float = true -> PrimFloat.leb (- 1)%float x = true -> Rabs (FR x) <= lim).
  { intros x Fx H1 H2. rewrite leb_dec in H1, H2 by (auto; reflexivity).
    assert (E1 : FR 1%float = 1) by exact FR_one. assert (E2 : FR (- 1)%float = - 1) by (change (- 1)%float with (PrimFloat.opp 1%float); rewrite opp_FR; now rewrite E1).
    rewrite E1 in H1. rewrite E2 in H2. destruct Rle_dec in H1; [|discriminate]. destruct Rle_dec in H2; [|discriminate].
    apply Rle_trans with 1; [apply Rabs_le; lra|unfold lim; apply pow_R1_Rle; lra]. }
  intros p [<-|[<-|[]]]; cbn [fst snd]; (split; [reflexivity|split; [reflexivity|split; apply U; reflexivity]]).
Qed.

(** The last entry need not be: the ordinate is rounded away. *)
Theorem C153_last_refuted :
  exists xy : list (double * double), fits (map FR2 xy) /\ tame xy
  /\ (forall i, (S i < length xy)%nat -> 1001 / 1000000000 <= X (map FR2 xy) (S i) - X (map FR2 xy) i)
  /\ exists x y, last xy (PrimFloat.zero, PrimFloat.zero) = (x, y) /\ 0 < FR y
     /\ interp_lin_y_arr 3 xy x = Ok (0%Z, Set_ PrimFloat.zero).
Proof.
  exists ex_lin. assert (FX0 : FR 0%float = 0) by exact FR_zero. assert (FX1 : FR 1%float = 1) by exact FR_one.
  refine (conj _ (conj ex_tame (conj _ _))).
  - unfold fits. cbn. lia.
  - intros i Hi. cbn in Hi. assert (i = 0%nat) as -> by lia. rewrite !X_pt. cbn [pt nth ex_lin fst snd]. rewrite FX0, FX1. lra.
  - exists 1%float, 1e-17%float. split; [reflexivity|]. split.
    + unfold FR. replace (FloatOps.Prim2SF 1e-17%float) with (SpecFloat.S754_finite false 6490371073168535 (-109)) by (vm_compute; reflexivity).
      apply Rmult_lt_0_compat; [lra|]. apply powerRZ_lt. lra.
    + vm_compute. reflexivity.
Qed.
Print Assumptions C153_last_refuted.
