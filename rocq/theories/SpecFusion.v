(** Specification vocabulary for the sensor fusion filters: readings, the
    integration of a rotation rate, the corrections of Madgwick's and Mahony's
    filters, and histories of feeds.  Nothing here refers to the model of the
    code except the type of quaternions and outcomes. *)
From Coq Require Import List Arith ZArith Reals.
From Verif Require Import Base SpecReal SpecMtx NumR MQuat SpecQuat.
Import ListNotations.
Local Open Scope R_scope.

Definition vsub (u v : v3) : v3 := vadd u (vscale (-1) v).
Definition vnormalise (v : v3) : v3 := vscale (/ vlen v) v.
Definition qnormalise (q : quat R) : quat R := qscale (/ qnorm q) q.
Definition pure (v : v3) : quat R := mkq 0 v.

(** q turned for a time t at the angular velocity w, to first order, and
    normalised *)
Definition spin (t : R) (w : v3) (q : quat R) : quat R :=
  qnormalise (qplus (qnormalise q) (qscale (t / 2) (hprod (pure w) (qnormalise q)))).

(** a reading is usable when its length exceeds 1e-6 *)
Definition usable (v : option v3) : option v3 :=
  match v with
  | Some v => if Rlt_dec (/ 1000000) (vlen v) then Some v else None
  | None => None
  end.
(** a reading is absent when it is not given or shorter than 1e-6 *)
Definition present (v : option v3) : option v3 :=
  match v with
  | Some v => if Rlt_dec (vlen v) (/ 1000000) then None else Some v
  | None => None
  end.

(** the magnetic field in the earth's frame, (north, down): from the
    inclination when it is known, in degrees with the library's value of pi,
    else from the reading turned by the present orientation *)
Definition field (u : quat R) (incl : option R) (m : v3) : R * R :=
  match incl with
  | Some i => let d := i * (314159265359 / 100000000000) / 180 in (cos d, sin d)
  | None => let h := rotate u m in
            (sqrt (coord 0 h * coord 0 h + coord 1 h * coord 1 h), coord 2 h)
  end.

(** Madgwick's correction: for the misalignment f of a reading, the sum over
    the coordinates of f of the gradient of that coordinate *)
Definition dot_rows (f : v3) (r1 r2 r3 : quat R) : quat R :=
  qplus (qscale (coord 0 f) r1) (qplus (qscale (coord 1 f) r2) (qscale (coord 2 f) r3)).

Definition gravity_grad (u : quat R) (f : v3) : quat R :=
  dot_rows f (Quat (- 2 * qj u) (2 * qk u) (- 2 * qr u) (2 * qi u))
             (Quat (2 * qi u) (2 * qr u) (2 * qk u) (2 * qj u))
             (Quat 0 (- 4 * qi u) (- 4 * qj u) 0).

Definition field_grad (u : quat R) (bx bz : R) (f : v3) : quat R :=
  dot_rows f
    (Quat (- 2 * bz * qj u) (2 * bz * qk u) (- 4 * bx * qj u - 2 * bz * qr u)
          (- 4 * bx * qk u + 2 * bz * qi u))
    (Quat (- 2 * bx * qk u + 2 * bz * qi u) (2 * bz * qj u + 2 * bz * qr u)
          (2 * bx * qi u - 2 * bz * qk u) (- 2 * bx * qr u + 2 * bz * qj u))
    (Quat (2 * bx * qj u) (2 * bx * qk u - 4 * bz * qi u) (2 * bx * qr u - 2 * bz * qj u)
          (2 * bx * qi u)).

(** the direction of a gradient; that of the zero gradient is (1, 0, 0, 0) *)
Definition qdir (g : quat R) : quat R :=
  if Req_EM_T (qnorm g) 0 then qone else qnormalise g.

Definition madg_dir (u : quat R) (incl : option R) (a m : option v3) : quat R :=
  match usable a with
  | None => qzero
  | Some a =>
      let ga := gravity_grad u (vsub (rotate u (0, 0, 1)) (vnormalise a)) in
      match present m with
      | None => qdir ga
      | Some m =>
          let m := vnormalise m in
          let (bx, bz) := field u incl m in
          qdir (qplus ga (field_grad u bx bz (vsub (rotate u (bx, 0, bz)) m)))
      end
  end.

(** Mahony's error: the sum of the cross products of the readings with the
    estimated directions *)
Definition mahn_error (u : quat R) (incl : option R) (a : v3) (m : option v3) : v3 :=
  let ea := vcross (vnormalise a) (rotate u (0, 0, 1)) in
  match present m with
  | None => ea
  | Some m =>
      let m := vnormalise m in
      let (bx, bz) := field u incl m in
      vadd ea (vcross m (rotate u (bx, 0, bz)))
  end.

(** ** The Kalman filter *)
(** a quaternion as four numbers, and the four basis quaternions *)
Definition qcomp (i : nat) (q : quat R) : R :=
  match i with 0%nat => qr q | 1%nat => qi q | 2%nat => qj q | _ => qk q end.
Definition qbasis (j : nat) : quat R :=
  match j with
  | 0%nat => Quat 1 0 0 0 | 1%nat => Quat 0 1 0 0 | 2%nat => Quat 0 0 1 0 | _ => Quat 0 0 0 1
  end.

(** v |-> v + (t / 2) v w *)
Definition kF (t : R) (w : v3) (i j : nat) : R :=
  qcomp i (qplus (qbasis j) (qscale (t / 2) (hprod (qbasis j) (pure w)))).
(** d |-> q d *)
Definition kW (q : quat R) (i j : nat) : R := qcomp i (hprod q (pure (basis j))).

(** predicted measurements *)
Definition kh (q b : quat R) (i _ : nat) : R :=
  if (i <? 3)%nat then 2 * coord i (rotate q (0, 0, -1)) else 2 * coord (i - 3) (rotate q (im b)).
Definition kz (a m : v3) (i _ : nat) : R := if (i <? 3)%nat then coord i a else coord (i - 3) m.

(** the entry for the j-th component of q of the derivative of the i-th
    coordinate of the vector v of the earth's frame seen from the body *)
Definition seen_d (q : quat R) (v : v3) (i j : nat) : R :=
  coord i (vadd (vscale (2 * re (qbasis j)) (vcross (vscale (-1) (im q)) v))
    (vadd (vscale (2 * re q) (vcross (vscale (-1) (im (qbasis j))) v))
       (vadd (vscale 2 (vcross (im (qbasis j)) (vcross (im q) v)))
             (vscale 2 (vcross (im q) (vcross (im (qbasis j)) v)))))).
Definition kH (q b : quat R) (i j : nat) : R :=
  if (i <? 3)%nat then seen_d q (0, 0, -1) i j else seen_d q (im b) (i - 3) j.

(** the noise of the measurements *)
Definition kR (va vm : R) (i j : nat) : R :=
  if (i =? j)%nat then if (i <? 3)%nat then va else vm else 0.

(** *** The update of an extended Kalman filter
    transpose; predicted covariance F P F^t + var_g (t/2)^2 W W^t *)
Definition mtr (f : nat -> nat -> R) : nat -> nat -> R := fun i j => f j i.
Definition kPred (t vg : R) (w : v3) (q : quat R) (P : nat -> nat -> R) : nat -> nat -> R :=
  fun i j => mmul 4 (mmul 4 (kF t w) P) (mtr (kF t w)) i j
             + mmul 3 (kW q) (mtr (kW q)) i j * (vg * (t / 2) * (t / 2)).

(** S = H P H^t + V, K = P H^t S^-1, (1 - K H) P, q + K (z - h) *)
Definition kS (H V P : nat -> nat -> R) (i j : nat) : R := mmul 4 (mmul 4 H P) (mtr H) i j + V i j.
Definition kK (H P Si : nat -> nat -> R) : nat -> nat -> R := mmul 6 (mmul 4 P (mtr H)) Si.
Definition kPnew (K H P : nat -> nat -> R) : nat -> nat -> R :=
  mmul 4 (fun i j => mid i j - mmul 6 K H i j) P.
Definition kq (q : quat R) (K : nat -> nat -> R) (z h : nat -> nat -> R) : quat R :=
  let c i := mmul 6 K (fun i j => z i j - h i j) i 0%nat in
  qplus q (Quat (c 0%nat) (c 1%nat) (c 2%nat) (c 3%nat)).

Definition clamp (lim x : R) : R := if Rlt_dec lim x then lim else if Rlt_dec x (- lim) then - lim else x.
Definition vmap (f : R -> R) (v : v3) : v3 := match v with (x, y, z) => (f x, f y, f z) end.

(** a history of feeds, whatever each of them returns; [None] if one of them
    has no defined outcome *)
Fixpoint history {I S} (feed : I -> S -> outcome (Z * S)) (l : list I) (s : S) : outcome S :=
  match l with
  | [] => Ok s
  | i :: l' => let! r := feed i s in history feed l' (snd r)
  end.

(** *** Quadratic forms: symmetric and positive semi-definite matrices *)
Definition qform (n : nat) (f : nat -> nat -> R) (x : nat -> R) : R :=
  bigsum n (fun i => bigsum n (fun j => x i * f i j * x j)).
Definition psd (n : nat) (f : nat -> nat -> R) : Prop := forall x, 0 <= qform n f x.
Definition sym (n : nat) (f : nat -> nat -> R) : Prop :=
  forall i j, (i < n)%nat -> (j < n)%nat -> f i j = f j i.
(** h is the inverse of the n x n matrix f *)
Definition inverse_of (n : nat) (f h : nat -> nat -> R) : Prop :=
  forall i j, (i < n)%nat -> (j < n)%nat ->
    bigsum n (fun k => f i k * h k j) = (if (i =? j)%nat then 1 else 0) /\
    bigsum n (fun k => h i k * f k j) = (if (i =? j)%nat then 1 else 0).
