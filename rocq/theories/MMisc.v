(** Model of the parts around the numerics: the execution time macros
    (include/zsl/instrumentation.h), the measurement header
    (include/zsl/measurement/measurement.h), the printing functions and the
    shell commands (src/shell.c, src/orientation/shell.c,
    src/colorimetry/shell.c). *)
From Coq Require Import List Arith ZArith Bool String Ascii.
From Verif Require Import Base Libm Out MVec MMtx MQuat MAhrs MColor.
Import ListNotations.
Set Implicit Arguments.
Local Open Scope num_scope.

(** ** Execution time *)

(** uint32_t arithmetic *)
Definition u32 (x : Z) : Z := (x mod 2 ^ 32)%Z.

(** ZSL_INSTR_STOP, include/zsl/instrumentation.h:25-29: the number of cycles,
    before Zephyr's k_cyc_to_ns_floor32.  t is the value read by
    ZSL_INSTR_START and fin the present value of the counter. *)
Definition instr_cycles (t fin : Z) : Z :=
  if (fin <? t)%Z then u32 (u32 (4294967295 - t) + fin) else u32 (fin - t).
Definition instr_stop (to_ns : Z -> Z) (t fin : Z) : Z := to_ns (instr_cycles t fin).

(** ** The measurement header *)

(** struct zsl_mes_header, include/zsl/measurement/measurement.h:63-142.
    scale_factor is the int8_t; the others are unsigned. *)
Record mes : Type := Mes {
  base_type : Z; ext_type : Z;
  data_format : Z; encoding : Z; compression : Z; timestamp : Z; flags_rsvd : Z;
  si_unit : Z; ctype : Z; scale_factor : Z;
  len : Z; fragment : Z; src_rsvd : Z; samples : Z; sourceid : Z }.

(** The unions' 32-bit members, for a little-endian target whose compiler
    allocates bit-fields from the least significant bit (the header is
    documented as little-endian).  The flags have 16 bits:
    include/zsl/measurement/measurement.h:72-87, the words: :65-91, :94-117, :120-141. *)
Definition flags_bits (h : mes) : Z :=
  (data_format h + encoding h * 2 ^ 3 + compression h * 2 ^ 7 + timestamp h * 2 ^ 10 + flags_rsvd h * 2 ^ 13)%Z.
Definition filter_bits (h : mes) : Z := (base_type h + ext_type h * 2 ^ 8 + flags_bits h * 2 ^ 16)%Z.
Definition unit_bits (h : mes) : Z := (si_unit h + ctype h * 2 ^ 16 + (scale_factor h mod 2 ^ 8) * 2 ^ 24)%Z.
Definition srclen_bits (h : mes) : Z :=
  (len h + (fragment h + src_rsvd h * 2 ^ 2 + samples h * 2 ^ 4) * 2 ^ 16 + sourceid h * 2 ^ 24)%Z.

(** reading w bits at position p; an int8_t from its bits *)
Definition field (word p w : Z) : Z := ((word / 2 ^ p) mod 2 ^ w)%Z.
Definition int8 (b : Z) : Z := if (b <? 128)%Z then b else (b - 256)%Z.

(** The members read from the three words, same place *)
Definition mes_of_bits (f u s : Z) : mes :=
  Mes (field f 0 8) (field f 8 8)
      (field f 16 3) (field f 19 4) (field f 23 3) (field f 26 3) (field f 29 3)
      (field u 0 16) (field u 16 8) (int8 (field u 24 8))
      (field s 0 16) (field s 16 2) (field s 18 2) (field s 20 4) (field s 24 8).

(** ** Printing: what is handed to printf, in order.  [PNum] is a "%f " of the
    number; the formatting of a number is the C library's. *)
Inductive item (T : Type) : Type := PNum (x : T) | PText (s : string).
Arguments PNum {T}. Arguments PText {T}.

Definition newline : string := String (ascii_of_nat 10) EmptyString.

Section Misc.
Context {T : Type} {N : Num T} {M : NumM T}.

(** zsl_vec_print, src/vectors.c:515-523 *)
Definition vec_print (v : vec T) : outcome (Z * list (item T)) :=
  let! o := for_ (vsz v) 0 (fun g o => let! x := rd (vbuf v) g in Ok (o ++ [PNum x])) [] in
  Ok (0%Z, o ++ [PText (newline ++ newline)]).

(** zsl_mtx_print, src/matrices.c:1930-1952 *)
Definition mtx_print (bc : bool) (m : mtx T) : outcome (Z * list (item T)) :=
  let! r := for_exit (mrows m) 0 (fun i o =>
      let! r := for_exit (mcols m) 0 (fun j o =>
          let! (rc, x) := mtx_get bc m i j in
          match x with
          | None => Ok (inr ((- EINVAL)%Z, o ++ [PText "Error reading"]))
          | Some x => Ok (inl (o ++ [PNum x]))
          end) o in
      Ok (match r with inl o => inl (o ++ [PText newline]) | inr e => inr e end)) [] in
  Ok (match r with inl o => (0%Z, o ++ [PText newline]) | inr e => e end).

(** zsl_quat_print, src/orientation/quaternions.c:714-720 *)
Definition quat_print (q : quat T) : Z * list (item T) :=
  (0%Z, [PNum (qr q); PText " + "; PNum (qi q); PText " i + "; PNum (qj q); PText " j + "; PNum (qk q); PText " k"; PText newline]).

(** zsl_eul_print, src/orientation/euler.c:24-28 *)
Definition eul_print (e : euler T) : Z * list (item T) :=
  (0%Z, [PText "("; PNum (ex e); PText ", "; PNum (ey e); PText ", "; PNum (ez e); PText ")"; PText (newline ++ newline)]).

(** ** Shell commands.  argv is the array of arguments, the command's name
    first; [strtof] is the C library's.  A NULL argument is handed to strcmp
    when there are too few. *)
Variable strtof : string -> T.

Definition arg (argv : list string) (i : nat) : outcome string :=
  match nth_error argv i with
  | Some a => Ok a
  | None => if (i =? List.length argv)%nat then UB NullDeref else UB OOBRead
  end.

(** zsl_shell_cmd_version, src/shell.c:14-23 *)
Definition cmd_version (version : string) (argv : list string) : outcome (Z * list (item T)) :=
  Ok (0%Z, [PText version]).

(** zsl_orient_shell_invalid_arg, _missing_arg, _rc_code,
    src/orientation/shell.c:14-36; zsl_clr_shell_invalid_arg, src/colorimetry/shell.c:14-20 *)
Definition invalid_arg (a : string) : outcome (Z * list (item T)) :=
  Ok ((- EINVAL)%Z, [PText "Error: invalid argument "; PText a]).
Definition missing_arg (a : string) : outcome (Z * list (item T)) :=
  Ok ((- EINVAL)%Z, [PText "Error: missing argument: "; PText a]).
Definition rc_code (rc : Z) : outcome (Z * list (item T)) :=
  Ok ((- EINVAL)%Z, [PText "Error: unexpected return code"]).

(** zsl_orient_shell_cmd_lat2g, src/orientation/shell.c:38-85; the texts of the
    help are left out *)
Definition cmd_lat2g (argv : list string) : outcome (Z * list (item T)) :=
  let argc := List.length argv in
  let! help := if (argc =? 1)%nat then Ok true else let! a := arg argv 1 in Ok (String.eqb a "help") in
  if (help : bool) then Ok (0%Z, [PText "help"])
  else if (argc =? 2)%nat then missing_arg "altitude"
  else if (3 <? argc)%nat then let! a := arg argv 3 in invalid_arg a
  else
    let! a1 := arg argv 1 in
    let lat := strtof a1 in
    if lat <=? f0 then invalid_arg a1
    else
      let! a2 := arg argv 2 in
      let alt := strtof a2 in
      if (alt >? flit 100000 1) || (alt <? - flit 5000 1) then invalid_arg a2
      else
        let! (rc, g) := grav_lat_alt lat alt in
        if negb (rc =? 0)%Z then rc_code rc
        else match g with
             | Set_ g => Ok (0%Z, [PNum g; PText " m/s^2"])
             | _ => Ok (0%Z, [PNum f0; PText " m/s^2"])   (* g keeps its 0.0 *)
             end.

(** (unsigned int)ct: undefined outside the range of the type (C11 6.3.1.4p1);
    as in [to_u8], answered by NotReal *)
Definition to_u32 (x : T) : outcome Z :=
  let z := ftrunc x in
  if (0 <=? z)%Z && (z <? 2 ^ 32)%Z then Ok z else NotReal.

(** zsl_clr_shell_cmd_ct2rgb, src/colorimetry/shell.c:22-64.  Answers the
    return code, the temperature printed and the colour printed; the help's
    texts and the gamut warning are left out.  [None] is the help. *)
Definition cmd_ct2rgb (bc cap : bool) (argv : list string) : outcome (Z * option (Z * rgb8)) :=
  let! srgb := rgbccm_get 0 in
  let! a := arg argv 1 in
  if String.eqb a "help" then Ok (0%Z, None)
  else
    let ct := strtof a in
    if ct <=? f0 then Ok ((- EINVAL)%Z, None)
    else
      let z := Some 0%Z in
      let! (_, rgb) := ct_rgb8 bc cap ct 0%Z srgb (Rgb8 0 0 0 0 z z z z) in
      let! k := to_u32 ct in
      Ok (0%Z, Some (k, rgb)).

(** zsl_clr_shell_cmd_ct2rgbf, src/colorimetry/shell.c:66-108; as above *)
Definition cmd_ct2rgbf (bc cap : bool) (argv : list string) : outcome (Z * option (Z * rgbf T)) :=
  let! srgb := rgbccm_get 0 in
  let! a := arg argv 1 in
  if String.eqb a "help" then Ok (0%Z, None)
  else
    let ct := strtof a in
    if ct <=? f0 then Ok ((- EINVAL)%Z, None)
    else
      let z := Some 0%Z in
      let! (_, rgb) := ct_rgbf bc cap ct 0%Z srgb (Rgbf f0 f0 f0 f0 z z z z) in
      let! k := to_u32 ct in
      Ok (0%Z, Some (k, rgb)).

End Misc.
