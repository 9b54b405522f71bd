(** The C math library functions zscilib calls (include/zsl/zsl.h:83-107). *)
From Coq Require Import ZArith.
From Verif Require Import Base.

(** Functions whose argument may lie outside their real domain answer an
    [outcome]. *)
Class NumM (T : Type) : Type := {
  fexp : T -> T;
  flog : T -> outcome T;
  flog10 : T -> outcome T;
  fpow : T -> T -> outcome T;
  fsin : T -> T;
  fcos : T -> T;
  ftan : T -> outcome T;
  fasin : T -> outcome T;
  facos : T -> outcome T;
  fatan : T -> T;
  fatan2 : T -> T -> T;            (* atan2(y, x) *)
  fsinh : T -> T;
  fcosh : T -> T;
  ftanh : T -> T;
  ffloor : T -> T;
  fceil : T -> T;
  fround : T -> T;                 (* halves away from zero *)
  ftrunc : T -> Z                  (* conversion to an integer type, before any range check *)
}.
