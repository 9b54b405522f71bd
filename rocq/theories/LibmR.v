(** The mathematical functions, over Coq's reals: exact arithmetic. *)
From Coq Require Import ZArith Reals Lra.
From Verif Require Import Base Libm.
Local Open Scope R_scope.

Definition Rlog (x : R) : outcome R := if Rlt_dec 0 x then Ok (ln x) else NotReal.
Definition Rlog10 (x : R) : outcome R := if Rlt_dec 0 x then Ok (ln x / ln 10) else NotReal.

(** pow: real exponent for a positive base; integer exponents for a
    negative base; 0^0 = 1, 0^y = 0 for y > 0. *)
Definition Rpow (x y : R) : outcome R :=
  if Rlt_dec 0 x then Ok (Rpower x y)
  else if Req_EM_T x 0 then
    if Req_EM_T y 0 then Ok 1 else if Rlt_dec 0 y then Ok 0 else NotReal
  else if Req_EM_T y (IZR (Int_part y)) then Ok (powerRZ x (Int_part y))
  else NotReal.

Definition Rtan (x : R) : outcome R := if Req_EM_T (cos x) 0 then NotReal else Ok (tan x).
Definition Rasin (x : R) : outcome R :=
  if Rle_dec (-1) x then if Rle_dec x 1 then Ok (asin x) else NotReal else NotReal.
Definition Racos (x : R) : outcome R :=
  if Rle_dec (-1) x then if Rle_dec x 1 then Ok (acos x) else NotReal else NotReal.

(** atan2(y, x): the angle of the point (x, y) in (-pi, pi]; 0 at the origin. *)
Definition Ratan2 (y x : R) : R :=
  if Rlt_dec 0 x then atan (y / x)
  else if Rlt_dec x 0 then
    if Rle_dec 0 y then atan (y / x) + PI else atan (y / x) - PI
  else if Rlt_dec 0 y then PI / 2
  else if Rlt_dec y 0 then - (PI / 2)
  else 0.

Definition Rfloor (x : R) : R := IZR (Int_part x).
Definition Rceil (x : R) : R := - Rfloor (- x).
Definition Rround (x : R) : R :=
  if Rle_dec 0 x then Rfloor (x + 1 / 2) else - Rfloor (- x + 1 / 2).
Definition RtruncZ (x : R) : Z := if Rle_dec 0 x then Int_part x else (- Int_part (- x))%Z.

#[global] Instance NumMR : NumM R := {
  fexp := exp;
  flog := Rlog;
  flog10 := Rlog10;
  fpow := Rpow;
  fsin := sin;
  fcos := cos;
  ftan := Rtan;
  fasin := Rasin;
  facos := Racos;
  fatan := atan;
  fatan2 := Ratan2;
  fsinh := sinh;
  fcosh := cosh;
  ftanh := tanh;
  ffloor := Rfloor;
  fceil := Rceil;
  fround := Rround;
  ftrunc := RtruncZ
}.
