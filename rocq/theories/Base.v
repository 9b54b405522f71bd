(** Base of the model: outcomes of C executions, buffers, loops, arithmetic.

    Nothing in this file models one particular function of /repo; it fixes the
    meaning of the C constructs the model uses. *)
From Coq Require Import List Arith ZArith Bool Lia.
Import ListNotations.
Set Implicit Arguments.

(** ** Outcomes *)

(** Reasons for C undefined behaviour. *)
Inductive ub : Type :=
| OOBRead        (* read outside the buffer *)
| OOBWrite       (* write outside the buffer *)
| Uninit         (* use of an indeterminate value *)
| NullDeref      (* dereference of NULL *)
| IntOverflow    (* signed overflow, or float-to-integer conversion out of range *)
| IntDivZero.    (* integer division by zero *)

(** Outcome of running a C function.  [NotReal]: exact arithmetic only, an
    operation whose IEEE result would be inf/NaN although its operands are
    numbers (x/0, sqrt of a negative, log of a non-positive, ...).
    [OutOfFuel]: the fuel given to an unbounded loop or recursion ran out. *)
Inductive outcome (A : Type) : Type :=
| Ok (a : A)
| UB (u : ub)
| NotReal
| OutOfFuel.
Arguments Ok {A} a.
Arguments UB {A} u.
Arguments NotReal {A}.
Arguments OutOfFuel {A}.

Definition bind {A B} (m : outcome A) (k : A -> outcome B) : outcome B :=
  match m with
  | Ok a => k a
  | UB u => UB u
  | NotReal => NotReal
  | OutOfFuel => OutOfFuel
  end.

Notation "'let!' x := m 'in' k" := (bind m (fun x => k))
  (at level 200, x pattern, m at level 100, k at level 200, right associativity).

(** ** errno values (the C library's <errno.h>; only their being positive and
    distinct matters) *)
Definition EAGAIN : Z := 11.
Definition ENOMEM : Z := 12.
Definition EINVAL : Z := 22.
Definition ENOSYS : Z := 88.
(** include/zsl/matrices.h: EEIGENSIZE, ECOMPLEXVAL *)
Definition EEIGENSIZE : Z := 100.
Definition ECOMPLEXVAL : Z := 101.

(** ** Arithmetic of zsl_real_t *)

(** The operations the C code applies to zsl_real_t values.
    Division and square root may have no real result, hence [outcome];
    the floating-point instance always answers [Ok]. *)
Class Num (T : Type) : Type := {
  f0 : T;                       (* 0.0 *)
  f1 : T;                       (* 1.0 *)
  fadd : T -> T -> T;
  fsub : T -> T -> T;
  fmul : T -> T -> T;
  fdiv : T -> T -> outcome T;
  fneg : T -> T;
  fabs : T -> T;
  fsqrt : T -> outcome T;
  flt : T -> T -> bool;         (* x < y *)
  fle : T -> T -> bool;         (* x <= y *)
  feq : T -> T -> bool;         (* x == y *)
  fbits : T -> T -> bool;       (* same representation, as memcmp sees it *)
  flit : Z -> Z -> T;           (* decimal literal: flit m e = m * 10^-e *)
  fofZ : Z -> T;                (* conversion from an integer *)
  fnan : T                      (* NAN *)
}.

Definition fgt {T} {N : Num T} (x y : T) : bool := flt y x.
Definition fge {T} {N : Num T} (x y : T) : bool := fle y x.
Definition fne {T} {N : Num T} (x y : T) : bool := negb (feq x y).

Declare Scope num_scope.
Delimit Scope num_scope with num.
Infix "+" := fadd : num_scope.
Infix "-" := fsub : num_scope.
Infix "*" := fmul : num_scope.
Notation "- x" := (fneg x) : num_scope.
Infix "<?" := flt : num_scope.
Infix "<=?" := fle : num_scope.
Infix ">?" := fgt : num_scope.
Infix ">=?" := fge : num_scope.
Infix "=?" := feq : num_scope.

(** ** Buffers *)

(** An array object: its length is its capacity, [None] is an element with an
    indeterminate value. *)
Definition buf (T : Type) := list (option T).

(** A buffer all of whose elements have a value. *)
Definition cells {T} (xs : list T) : buf T := map Some xs.

(** A freshly declared local array of n elements. *)
Definition fresh {T} (n : nat) : buf T := repeat None n.

(** b[i] as an rvalue *)
Definition rd {T} (b : buf T) (i : nat) : outcome T :=
  match nth_error b i with
  | Some (Some x) => Ok x
  | Some None => UB Uninit
  | None => UB OOBRead
  end.

Fixpoint upd {A} (l : list A) (i : nat) (x : A) : list A :=
  match l, i with
  | [], _ => []
  | _ :: l', O => x :: l'
  | y :: l', S i' => y :: upd l' i' x
  end.

(** b[i] = x *)
Definition wr {T} (b : buf T) (i : nat) (x : T) : outcome (buf T) :=
  if i <? length b then Ok (upd b i (Some x)) else UB OOBWrite.

(** memcpy(&dst[d], &src[s], n * sizeof(elt)) *)
Definition blit {T} (src : buf T) (s : nat) (dst : buf T) (d n : nat)
  : outcome (buf T) :=
  if s + n <=? length src then
    if d + n <=? length dst then
      Ok (firstn d dst ++ firstn n (skipn s src) ++ skipn (d + n) dst)
    else UB OOBWrite
  else UB OOBRead.

(** memset(dst, 0, n * sizeof(elt)): all-zero bytes are the number 0.0 *)
Definition zero_fill {T} {N : Num T} (dst : buf T) (n : nat) : outcome (buf T) :=
  if n <=? length dst then Ok (repeat (Some f0) n ++ skipn n dst) else UB OOBWrite.

(** ** Loops *)

(** [for_ n lo body s]: n iterations with the index running from lo up. *)
Fixpoint for_ {S} (n lo : nat) (body : nat -> S -> outcome S) (s : S) : outcome S :=
  match n with
  | O => Ok s
  | Datatypes.S n' => let! s' := body lo s in for_ n' (Datatypes.S lo) body s'
  end.

(** for (i = lo; i < hi; i++) body *)
Definition for_range {S} (lo hi : nat) (body : nat -> S -> outcome S) (s : S) :=
  for_ (hi - lo) lo body s.

(** Loop whose body may leave the loop early (return/break) with a value. *)
Fixpoint for_exit {S R} (n lo : nat) (body : nat -> S -> outcome (S + R)) (s : S)
  : outcome (S + R) :=
  match n with
  | O => Ok (inl s)
  | Datatypes.S n' =>
      let! r := body lo s in
      match r with
      | inl s' => for_exit n' (Datatypes.S lo) body s'
      | inr x => Ok (inr x)
      end
  end.

(** while loop with fuel; the body answers inl to go on, inr to stop. *)
Fixpoint while_ {S R} (fuel : nat) (body : S -> outcome (S + R)) (s : S) : outcome R :=
  match fuel with
  | O => OutOfFuel
  | Datatypes.S f =>
      let! r := body s in
      match r with
      | inl s' => while_ f body s'
      | inr x => Ok x
      end
  end.

(** ** Objects *)

(** struct zsl_vec, include/zsl/vectors.h:38-47 *)
Record vec (T : Type) : Type := Vec { vsz : nat; vbuf : buf T }.
Arguments Vec {T}.
Arguments vsz {T}.
Arguments vbuf {T}.

(** struct zsl_mtx, include/zsl/matrices.h *)
Record mtx (T : Type) : Type := Mtx { mrows : nat; mcols : nat; mbuf : buf T }.
Arguments Mtx {T}.
Arguments mrows {T}.
Arguments mcols {T}.
Arguments mbuf {T}.

(** ** Stores: several buffers, named by position, that may be shared *)

Definition store (T : Type) := list (buf T).

Definition srd {T} (st : store T) (p i : nat) : outcome T :=
  match nth_error st p with
  | Some b => rd b i
  | None => UB NullDeref
  end.

Definition swr {T} (st : store T) (p i : nat) (x : T) : outcome (store T) :=
  match nth_error st p with
  | Some b => let! b' := wr b i x in Ok (upd st p b')
  | None => UB NullDeref
  end.

(** memcpy between buffers of a store *)
Definition sblit {T} (st : store T) (src s dst d n : nat) : outcome (store T) :=
  match nth_error st src, nth_error st dst with
  | Some b, Some b' => let! b'' := blit b s b' d n in Ok (upd st dst b'')
  | _, _ => UB NullDeref
  end.
