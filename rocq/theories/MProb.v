(** Model of src/probability.c.  Pointer parameters that are only read are
    passed by value. *)
From Coq Require Import List Arith ZArith Bool.
From Verif Require Import Base MVec Libm Out.
Import ListNotations.
Set Implicit Arguments.
Local Open Scope num_scope.

(** erf, of which no other file makes use (include/zsl/zsl.h:103) *)
Class NumErf (T : Type) : Type := { ferf : T -> T }.

Section Prob.
Context {T : Type} {N : Num T} {M : NumM T}.

(** CONFIG_ZSL_BOUNDS_CHECKS *)
Variable bc : bool.

(** return -EINVAL; from a function returning zsl_real_t *)
Definition einval_value : T := fofZ (- EINVAL).

(** zsl_prob_uni_pdf, src/probability.c:14-28 *)
Definition prob_uni_pdf (a b x : T) : outcome T :=
  if bc && (a >=? b) then Ok einval_value
  else if (x >=? a) && (x <=? b) then fdiv f1 (b - a) else Ok f0.

(** zsl_prob_uni_mean, src/probability.c:30-42 *)
Definition prob_uni_mean (a b : T) : outcome (Z * out T) :=
  if bc && (a >=? b) then Ok ((- EINVAL)%Z, Kept)
  else Ok (0%Z, Set_ (flit 5 1 * (a + b))).

(** zsl_prob_uni_var, src/probability.c:44-56 *)
Definition prob_uni_var (a b : T) : outcome (Z * out T) :=
  if bc && (a >=? b) then Ok ((- EINVAL)%Z, Kept)
  else let! v := fdiv ((b - a) * (b - a)) (flit 120 1) in Ok (0%Z, Set_ v).

(** zsl_prob_uni_cdf, src/probability.c:58-74 *)
Definition prob_uni_cdf (a b x : T) : outcome T :=
  if bc && (a >=? b) then Ok einval_value
  else if (x >=? a) && (x <=? b) then fdiv (x - a) (b - a)
  else if x <? a then Ok f0 else Ok f1.

(** ZSL_PI and ZSL_E, include/zsl/consts.h *)
Definition zsl_pi : T := flit 314159265359 11.
Definition zsl_e : T := flit 271828182845 11.

(** zsl_prob_normal_pdf, src/probability.c:76-84 *)
Definition prob_normal_pdf (m s x : T) : outcome T :=
  let! r := fsqrt (flit 2 0 * zsl_pi) in
  let! k := fdiv f1 (s * r) in
  let! z := fdiv (x - m) s in
  let! e := fpow zsl_e (- flit 5 1 * z * z) in
  Ok (k * e).

(** zsl_prob_normal_cdf, src/probability.c:86-93 *)
Definition prob_normal_cdf {E : NumErf T} (m s x : T) : outcome T :=
  let! r := fsqrt (flit 2 0) in
  let! z := fdiv (x - m) (s * r) in
  Ok (flit 5 1 * (f1 + ferf z)).

(** p = ZSL_FMA(p, t, c1); p = ZSL_FMA(p, t, c2); ...  The single rounding of
    fma is not modelled. *)
Definition horner (t : T) (cs : list T) (p : T) : T := fold_left (fun p c => p * t + c) cs p.

(** the coefficients of zsl_prob_erf_inv, src/probability.c:110-128 *)
Definition erf_inv_tail : list T :=
  [ flit 293243101 16; flit 122150334 14; flit 284108955 13; flit 393552968 12;
    flit 302698812 11; flit 483185798 11; - flit 264646143 9; flit 840016484 9 ].
Definition erf_inv_mid : list T :=
  [ flit 143285448 15; flit 122774793 14; flit 112963626 15; - flit 561530760 13;
    - flit 147697632 12; flit 231468678 11; flit 115392581 10; - flit 232015476 9;
    flit 886226892 9 ].

(** zsl_prob_erf_inv, src/probability.c:95-132 *)
Definition prob_erf_inv (x : T) : outcome T :=
  if bc && ((x <=? - flit 10 1) || (x >=? flit 10 1)) then Ok einval_value
  else
    let t := x * (f0 - x) + f1 in
    let! t := flog t in
    let p := if fabs t >? flit 6125 3 then horner t erf_inv_tail (flit 303697567 18)
             else horner t erf_inv_mid (flit 543877832 17) in
    Ok (x * p).

(** zsl_prob_normal_cdf_inv, src/probability.c:134-149 *)
Definition prob_normal_cdf_inv (m s p : T) : outcome T :=
  if bc && ((p <=? f0) || (p >=? f1)) then Ok einval_value
  else
    let x := flit 20 1 * p - flit 10 1 in
    let! r := fsqrt (flit 20 1) in
    let! y := prob_erf_inv x in
    Ok (m + s * r * y).

(** zsl_prob_factorial, src/probability.c:151-166 *)
Definition prob_factorial (n : Z) : outcome Z :=
  if ((n =? 0) || (n =? 1))%Z then Ok 1%Z
  else if (n <? 0)%Z then Ok (- EINVAL)%Z
  else for_ (Z.to_nat n - 1) 1 (fun i n2 => int_ (n2 * (n - Z.of_nat i))) n.

(** zsl_prob_binomial_coef, src/probability.c:168-187.  Second component: *c,
    [None] when it is not written. *)
Definition prob_binomial_coef (n k : Z) : outcome (Z * option Z) :=
  if bc && (n <? 0)%Z then Ok ((- EINVAL)%Z, None)
  else if ((k >? n) || (k <? 0))%Z%bool then Ok (0%Z, Some 0%Z)
  else
    let! a := prob_factorial n in
    let! b := prob_factorial k in
    let! c := prob_factorial (n - k) in
    let! d := int_ (b * c) in
    let! q := idiv a d in
    Ok (0%Z, Some q).

(** c * ZSL_POW(p, x) * ZSL_POW(1. - p, n - x) with the coefficient c computed
    by zsl_prob_binomial_coef *)
Definition binomial_term (n : Z) (p : T) (x : Z) : outcome T :=
  let! (_, c) := prob_binomial_coef n x in
  let! c := match c with Some c => Ok c | None => UB Uninit end in
  let! d := int_ (n - x) in
  let! a := fpow p (fofZ x) in
  let! b := fpow (f1 - p) (fofZ d) in
  Ok (fofZ c * a * b).

(** if (p > 1.0 || p < 0.0) ...; if (n < 0) ... *)
Definition bad_binomial (n : Z) (p : T) : bool :=
  bc && ((p >? flit 10 1) || (p <? f0) || (n <? 0)%Z).

(** zsl_prob_binomial_pdf, src/probability.c:189-206 *)
Definition prob_binomial_pdf (n : Z) (p : T) (x : Z) : outcome T :=
  if bad_binomial n p then Ok einval_value else binomial_term n p x.

(** zsl_prob_binomial_mean, src/probability.c:208-224 *)
Definition prob_binomial_mean (n : Z) (p : T) : outcome (Z * out T) :=
  if bad_binomial n p then Ok ((- EINVAL)%Z, Kept) else Ok (0%Z, Set_ (fofZ n * p)).

(** zsl_prob_binomial_var, src/probability.c:226-242 *)
Definition prob_binomial_var (n : Z) (p : T) : outcome (Z * out T) :=
  if bad_binomial n p then Ok ((- EINVAL)%Z, Kept)
  else Ok (0%Z, Set_ (fofZ n * p * (f1 - p))).

(** zsl_prob_binomial_cdf, src/probability.c:244-270.  For x = INT_MAX the loop
    counter overflows. *)
Definition prob_binomial_cdf (n : Z) (p : T) (x : Z) : outcome T :=
  if bad_binomial n p then Ok einval_value
  else if (x <? 0)%Z then Ok f0
  else
    let! y := for_ (S (Z.to_nat x)) 0 (fun i y =>
        let! t := binomial_term n p (Z.of_nat i) in Ok (y + t)) f0 in
    if (x =? INT_MAX)%Z then UB IntOverflow else Ok y.

(** zsl_prob_entropy, src/probability.c:274-299 *)
Definition prob_entropy (v : vec T) : outcome (Z * out T) :=
  let! bad := (if bc then
                 let! r := for_exit (vsz v) 0 (fun i sum =>
                     let! a := rd (vbuf v) i in
                     if a <? f0 then Ok (inr tt) else Ok (inl (sum + a))) (- f1) in
                 match r with
                 | inr _ => Ok true
                 | inl sum => Ok (fabs sum >? flit 1 6)
                 end
               else Ok false) in
  if bad : bool then Ok ((- EINVAL)%Z, Kept)
  else
    let! h := for_ (vsz v) 0 (fun i h =>
        let! a := rd (vbuf v) i in
        let! l := flog a in
        Ok (h - a * l)) f0 in
    let! l2 := flog (flit 2 0) in
    let! h := fdiv h l2 in
    Ok (0%Z, Set_ h).

(** zsl_prob_bayes, src/probability.c:301-321 *)
Definition prob_bayes (pa pb pba : T) : outcome (Z * out T) :=
  if bc && ((pa <? f0) || (pa >? f1)) then Ok ((- EINVAL)%Z, Kept)
  else if bc && ((pb <=? f0) || (pb >? f1) || (pb <? pa * pba)) then Ok ((- EINVAL)%Z, Kept)
  else if bc && ((pba <? f0) || (pba >? f1)) then Ok ((- EINVAL)%Z, Kept)
  else let! q := fdiv (pba * pa) pb in Ok (0%Z, Set_ q).

End Prob.
