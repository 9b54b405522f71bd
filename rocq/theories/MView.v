(** Attitudes and Euler angles in memory, and vectors that are views of them:
    src/orientation/ahrs.c:12-20, src/orientation/euler.c:14-22.

    In C the three angles of an object are a union of the fields (roll, pitch,
    yaw; x, y, z) with the array idx[3] (include/zsl/orientation/ahrs.h:48-64,
    include/zsl/orientation/euler.h), and zsl_att_to_vec and zsl_eul_to_vec make
    the vector point to that array.  Here the memory is a store of buffers; the
    array of object p is buffer p, the fields are its three cells. *)
From Coq Require Import List Arith ZArith Bool.
From Verif Require Import Base Libm Out MVec MMtx MQuat MAhrs.
Import ListNotations.
Set Implicit Arguments.
Local Open Scope num_scope.

Section View.
Variable bc : bool.   (* CONFIG_ZSL_BOUNDS_CHECKS *)
Context {T : Type} {N : Num T}.

(** zsl_att_to_vec, src/orientation/ahrs.c:12-20: v->sz = 3, v->data = a->idx *)
Definition att_to_vec_st (p : nat) : Z * vref := (0%Z, VR 3 p).

(** zsl_eul_to_vec, src/orientation/euler.c:14-22: v->sz = 3, v->data = e->idx *)
Definition eul_to_vec_st (p : nat) : Z * vref := (0%Z, VR 3 p).

(** Reading the fields of the attitude object p, whose flags are s: the first
    union of struct zsl_attitude, include/zsl/orientation/ahrs.h:49-64 *)
Definition att_fields (st : store T) (p : nat) (s : Z) : outcome (att T) :=
  let! x := srd st p 0 in let! y := srd st p 1 in let! z := srd st p 2 in
  Ok (Att x y z s).

(** Reading the fields of the Euler object p, include/zsl/orientation/euler.h *)
Definition eul_fields (st : store T) (p : nat) : outcome (euler T) :=
  let! x := srd st p 0 in let! y := srd st p 1 in let! z := srd st p 2 in
  Ok (Euler x y z).

(** A vector function with one argument called on a reference: it works on the
    memory the vector points to. *)
Definition on_ref (f : vec T -> outcome (Z * vec T)) (st : store T) (v : vref)
  : outcome (Z * store T) :=
  match nth_error st (rptr v) with
  | None => UB OOBRead
  | Some b => let! (rc, w) := f (Vec (rsz v) b) in Ok (rc, upd st (rptr v) (vbuf w))
  end.

(** Calls a program can make through views of the objects p, q (vectors.c:71-160) *)
Inductive vcall : Type :=
| CNeg (p : nat)              (* zsl_vec_neg *)
| CShift (p : nat) (s : T)    (* zsl_vec_scalar_add *)
| CScale (p : nat) (s : T)    (* zsl_vec_scalar_mult *)
| CRev (p : nat)              (* zsl_vec_rev *)
| CAdd (p q r : nat)          (* zsl_vec_add *)
| CSub (p q r : nat).         (* zsl_vec_sub *)

Definition vcall_run (st : store T) (c : vcall) : outcome (Z * store T) :=
  match c with
  | CNeg p => on_ref vec_neg st (snd (att_to_vec_st p))
  | CShift p s => on_ref (fun v => vec_scalar_add v s) st (snd (att_to_vec_st p))
  | CScale p s => on_ref (fun v => vec_scalar_mult v s) st (snd (att_to_vec_st p))
  | CRev p => on_ref vec_rev st (snd (att_to_vec_st p))
  | CAdd p q r => vec_add_st bc st (snd (att_to_vec_st p)) (snd (att_to_vec_st q)) (snd (att_to_vec_st r))
  | CSub p q r => vec_sub_st bc st (snd (att_to_vec_st p)) (snd (att_to_vec_st q)) (snd (att_to_vec_st r))
  end.

(** A history of such calls; the answer lists the return values *)
Fixpoint vcalls_run (st : store T) (cs : list vcall) : outcome (list Z * store T) :=
  match cs with
  | [] => Ok ([], st)
  | c :: cs =>
      let! (rc, st) := vcall_run st c in
      let! (rcs, st) := vcalls_run st cs in
      Ok (rc :: rcs, st)
  end.
End View.
