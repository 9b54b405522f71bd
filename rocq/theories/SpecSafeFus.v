(** The readings given to a fusion filter, and the filters as steps of a
    history ([history], SpecFusion.v): only what a filter keeps from one feed to
    the next is state. *)
From Coq Require Import List Arith ZArith.
From Verif Require Import Base Libm SpecSafe MQuat MFusion.
Set Implicit Arguments.

(** acos and asin always answer (C: a NaN outside their domain) *)
Definition total_libm T (M : NumM T) : Prop :=
  (forall x : T, exists y, facos x = Ok y) /\ (forall x : T, exists y, fasin x = Ok y).

(** One feed's pointers to the accelerometer, magnetometer and gyroscope vectors *)
Definition reading T : Type := (option (vec T) * option (vec T) * option (vec T))%type.
Definition accel T (i : reading T) := fst (fst i).
Definition magn T (i : reading T) := snd (fst i).
Definition gyro T (i : reading T) := snd i.

(** A pointer to three numbers; NULL or such a pointer *)
Definition given T (p : option (vec T)) : Prop := exists v, p = Some v /\ vec_filled 3 v.
Definition given_or_null T (p : option (vec T)) : Prop := p = None \/ given p.
(** Accelerometer and magnetometer readings are optional *)
Definition well_formed T (i : reading T) : Prop :=
  given_or_null (accel i) /\ given_or_null (magn i) /\ given (gyro i).
Definition all_given T (i : reading T) : Prop := given (accel i) /\ given (magn i) /\ given (gyro i).
Definition all_optional T (i : reading T) : Prop :=
  given_or_null (accel i) /\ given_or_null (magn i) /\ given_or_null (gyro i).

Section Steps.
Context {T : Type} {N : Num T} {M : NumM T}.
Variable bc : bool.
Definition the_sens (i : reading T) (q : quat T) : sens := Sens (accel i) (magn i) (gyro i) q.

Definition madg_run freq beta incl (i : reading T) (q : quat T) : outcome (Z * quat T) :=
  let! (rc, s) := madg_feed bc freq beta incl (the_sens i q) in Ok (rc, sq s).
Definition comp_run freq alpha (i : reading T) (q : quat T) : outcome (Z * quat T) :=
  let! (rc, s) := comp_feed bc freq alpha (the_sens i q) in Ok (rc, sq s).
Definition saam_run (i : reading T) (q : quat T) : outcome (Z * quat T) :=
  let! (rc, s) := saam_feed bc (the_sens i q) in Ok (rc, sq s).
Definition mahn_run freq incl (i : reading T) (st : mahn_cfg * quat T) : outcome (Z * (mahn_cfg * quat T)) :=
  let! ((rc, s), c) := mahn_feed bc freq incl (fst st) (the_sens i (snd st)) in Ok (rc, (c, sq s)).
Definition aqua_run freq (i : reading T) (st : Z * aqua_cfg * quat T) : outcome (Z * (Z * aqua_cfg * quat T)) :=
  let! (((rc, s), c), ini) := aqua_feed bc freq (fst (fst st)) (snd (fst st)) (the_sens i (snd st)) in
  Ok (rc, (ini, c, sq s)).
Definition kalm_run freq incl (i : reading T) (st : Z * kalm_cfg * quat T) : outcome (Z * (Z * kalm_cfg * quat T)) :=
  let! (((rc, s), c), ini) := kalm_feed bc freq (fst (fst st)) incl (snd (fst st)) (the_sens i (snd st)) in
  Ok (rc, (ini, c, sq s)).
End Steps.
