(** Specifications for the colorimetry theorems, independent of the model. *)
From Coq Require Import List ZArith Bool Reals.
From Verif Require Import SpecReal MColorTab.
Import ListNotations.
Local Open Scope R_scope.

(** v limited to the interval [0, 1] *)
Definition clamp01 (v : R) : R := Rmin 1 (Rmax 0 v).

(** a colour channel inside the gamut, full scale excluded *)
Definition in_gamut (v : R) : Prop := 0 <= v < 1.

(** What one channel of the output must be for the linear value v: v itself,
    or v limited to [0, 1] when capping is on, and a flag that is 0 exactly
    for the values inside the gamut. *)
Definition channel_of (cap : bool) (v w : R) (fl : option Z) : Prop :=
  w = (if cap then clamp01 v else v)
  /\ ((in_gamut v /\ fl = Some 0%Z) \/ (~ in_gamut v /\ fl = Some 1%Z)).

(** the same for an eight-bit channel: always limited, scaled to 255 and
    rounded down *)
Definition channel8_of (v : R) (k : Z) (fl : option Z) : Prop :=
  (0 <= k <= 255)%Z /\ IZR k <= 255 * clamp01 v < IZR k + 1
  /\ ((in_gamut v /\ fl = Some 0%Z) \/ (~ in_gamut v /\ fl = Some 1%Z)).

(** row i of a 3 x 3 matrix applied to (x, y, z) *)
Definition row3 (f : nat -> nat -> R) (i : nat) (x y z : R) : R :=
  f i 0%nat * x + f i 1%nat * y + f i 2%nat * z.

(** The colour matching functions of the two standard observers (0: 2 degrees,
    1: 10 degrees) at sample i, that is at 360 + 5 i nanometres. *)
Definition cmf (obs : Z) (i : nat) : Z * Z * Z :=
  nth i (if (obs =? 1)%Z then obs10_tab else obs2_tab) (0, 0, 0)%Z.
Definition decimals (obs : Z) : R := if (obs =? 1)%Z then 10 ^ 12 else 10 ^ 8.
Definition xbar (obs : Z) (i : nat) : R := IZR (fst (fst (cmf obs i))) / decimals obs.
Definition ybar (obs : Z) (i : nat) : R := IZR (snd (fst (cmf obs i))) / decimals obs.
Definition zbar (obs : Z) (i : nat) : R := IZR (snd (cmf obs i)) / decimals obs.

(** the sample a wavelength in nanometres is looked up in *)
Definition sample (nm : Z) : nat := Z.to_nat ((nm - 360) / 5).
(** wavelengths the colour matching functions cover *)
Definition visible (nm : Z) : bool := ((360 <=? nm) && (nm <=? 830))%Z.

(** Tristimulus sum of a spectrum, for one colour matching function *)
Definition tristim (bar : nat -> R) (s : list (Z * R)) : R :=
  rsum (map (fun p => if visible (fst p) then snd p * bar (sample (fst p)) else 0) s).

(** Planck's law: spectral radiant exitance of a black body at t kelvin and a
    wavelength in metres *)
Definition planck_c1 : R := 374183162616761619 / 10 ^ 33.   (* 3.7418e-16 W m^2 *)
Definition planck_c2 : R := 14387863142323088 / 10 ^ 18.    (* 1.4388e-2 m K *)
Definition planck (t l : R) : R := planck_c1 / (l ^ 5 * (exp (planck_c2 / (l * t)) - 1)).
(** wavelength of sample i in metres *)
Definition wavelength (i : nat) : R := (360 + 5 * INR i) / 10 ^ 9.

(** The luminous efficiency functions at sample i, that is at 380 + 5 i
    nanometres (1: scotopic, otherwise photopic) *)
Definition lum (lef : Z) (i : nat) : R :=
  IZR (snd (nth i (if (lef =? 1)%Z then scotopic_tab else photopic_tab) (0, 0)%Z)) / 10 ^ 7.

(** Entry i of the table of colour temperatures: kelvin, u, v *)
Definition locus_t (i : nat) : R := IZR (fst (fst (nth i ct_uv_tab (0, 0, 0)%Z))) / 10 ^ 6.
Definition locus_u (i : nat) : R := IZR (snd (fst (nth i ct_uv_tab (0, 0, 0)%Z))) / 10 ^ 8.
Definition locus_v (i : nat) : R := IZR (snd (nth i ct_uv_tab (0, 0, 0)%Z)) / 10 ^ 8.
(** squared distance of (u, v) to entry i *)
Definition locus_d2 (i : nat) (u v : R) : R := (locus_u i - u) ^ 2 + (locus_v i - v) ^ 2.

(** entry k is the first one nearest to (u, v) *)
Definition first_nearest (k : nat) (u v : R) : Prop :=
  (k < 304)%nat
  /\ (forall i, (i < 304)%nat -> locus_d2 k u v <= locus_d2 i u v)
  /\ (forall i, (i < k)%nat -> locus_d2 k u v < locus_d2 i u v).
