(** Properties C164 and C165: the codes of the measurement header and the table
    of atomic weights. *)
From Coq Require Import List ZArith Bool String Lia.
From Verif Require Import Base MMisc MCodes PropMisc.
Import ListNotations.
Local Open Scope Z_scope.

(** * C164: the codes of the measurement header *)

(** a name stands for one code and a code for one name *)
Definition unambiguous (l : list (string * Z)) : Prop :=
  forall n c n' c', In (n, c) l -> In (n', c') l -> (n = n' <-> c = c').

(** every code of the list is in one of the ranges *)
Definition mapped (l : list (string * Z)) (rs : list (Z * Z)) : Prop :=
  forall n c, In (n, c) l -> exists lo hi, In (lo, hi) rs /\ lo <= c <= hi.

Lemma unambiguous_dec l : NoDup (map fst l) -> NoDup (map snd l) -> unambiguous l.
Proof.
  intros F S n c n' c' H H'.
  assert (K : forall A B (f : A -> B) (l : list A) x y, NoDup (map f l) -> In x l -> In y l -> f x = f y -> x = y).
  { intros A B f k x y N. induction k as [|z k IH]; intros X Y E; [destruct X|]. inversion N as [|? ? N1 N2]; subst.
    destruct X as [->|X], Y as [->|Y]; auto.
    - exfalso. apply N1. rewrite E. now apply in_map.
    - exfalso. apply N1. rewrite <- E. now apply in_map. }
  split; intros E.
  - pose proof (K _ _ fst l _ _ F H H' E) as Q. congruence.
  - pose proof (K _ _ snd l _ _ S H H' E) as Q. congruence.
Qed.

Lemma mapped_dec l rs : forallb (fun p => existsb (fun r => (fst r <=? snd p) && (snd p <=? snd r)) rs) l = true -> mapped l rs.
Proof.
  intros H n c I. rewrite forallb_forall in H. apply H in I. apply existsb_exists in I.
  destruct I as ((lo & hi) & R & E). cbn in E. apply andb_true_iff in E. exists lo, hi. split; [exact R | lia].
Qed.

Fixpoint nodup_z (l : list Z) : bool := match l with [] => true | x :: l => negb (existsb (Z.eqb x) l) && nodup_z l end.
Fixpoint nodup_s (l : list string) : bool := match l with [] => true | x :: l => negb (existsb (String.eqb x) l) && nodup_s l end.
Lemma nodup_z_ok l : nodup_z l = true -> NoDup l.
Proof.
  induction l as [|x l IH]; cbn; intros H; constructor; apply andb_true_iff in H; destruct H as [A B]; auto.
  intros I. apply negb_true_iff in A. rewrite <- not_true_iff_false in A. apply A, existsb_exists. exists x. split; [auto | apply Z.eqb_refl].
Qed.
Lemma nodup_s_ok l : nodup_s l = true -> NoDup l.
Proof.
  induction l as [|x l IH]; cbn; intros H; constructor; apply andb_true_iff in H; destruct H as [A B]; auto.
  intros I. apply negb_true_iff in A. rewrite <- not_true_iff_false in A. apply A, existsb_exists. exists x. split; [auto | apply String.eqb_refl].
Qed.
Ltac clear_codes := apply unambiguous_dec; [apply nodup_s_ok | apply nodup_z_ok]; vm_compute; reflexivity.

Theorem C164_unambiguous :
  unambiguous mes_types /\ unambiguous mes_units /\ unambiguous mes_ctypes /\ unambiguous mes_scales
  /\ unambiguous mes_colors /\ unambiguous mes_lights /\ unambiguous mes_temps
  /\ unambiguous mes_formats /\ unambiguous mes_encodings /\ unambiguous mes_compressions
  /\ unambiguous mes_fragments /\ unambiguous mes_timestamps.
Proof. refine (conj _ (conj _ (conj _ (conj _ (conj _ (conj _ (conj _ (conj _ (conj _ (conj _ (conj _ _))))))))))); clear_codes. Qed.
Print Assumptions C164_unambiguous.

(** the memory maps of the headers: base.h:46-50, unit.h:37-43, unit.h:102-112,
    ext_color.h:32-36, ext_light.h:32-36; 0 and the largest value are reserved *)
Theorem C164_maps :
  mapped mes_types [(0, 0); (0x10, 0x7F); (0xF0, 0xFE); (0xFF, 0xFF)]
  /\ mapped mes_ctypes [(0, 0); (0x10, 0x4F); (0x80, 0x8F); (0xF0, 0xFE); (0xFF, 0xFF)]
  /\ mapped mes_units [(0, 0); (0x10, 0x1F); (0x20, 0x3F); (0x80, 0x8F); (0x100, 0x7FFF); (0xFF00, 0xFFFE); (0xFFFF, 0xFFFF)]
  /\ mapped mes_colors [(0, 0); (0x10, 0x1F); (0x30, 0x4F)]
  /\ mapped mes_lights [(0, 0); (0x10, 0x3F); (0x40, 0x5F)].
Proof. refine (conj _ (conj _ (conj _ (conj _ _)))); apply mapped_dec; vm_compute; reflexivity. Qed.
Print Assumptions C164_maps.

Definition of (l : list (string * Z)) (c : Z) : Prop := exists n, In (n, c) l.

(** a header filled with the published codes *)
Definition published (h : mes) : Prop :=
  of mes_types (base_type h)
  /\ (of mes_colors (ext_type h) \/ of mes_lights (ext_type h) \/ of mes_temps (ext_type h))
  /\ of mes_formats (data_format h) /\ of mes_encodings (encoding h) /\ of mes_compressions (compression h)
  /\ of mes_timestamps (timestamp h) /\ flags_rsvd h = 0
  /\ of mes_units (si_unit h) /\ of mes_ctypes (ctype h) /\ of mes_scales (scale_factor h)
  /\ bits 16 (len h) /\ of mes_fragments (fragment h) /\ src_rsvd h = 0 /\ bits 4 (samples h) /\ bits 8 (sourceid h).

Lemma of_within l c lo hi : mapped l [(lo, hi)] -> of l c -> lo <= c <= hi.
Proof. intros M (n & I). destruct (M n c I) as (a & b & [E|[]] & H). injection E as <- <-. exact H. Qed.

(** Every published code fits its member: the header keeps it *)
Theorem C164_header :
  forall h, published h -> mes_ok h /\ mes_of_bits (filter_bits h) (unit_bits h) (srclen_bits h) = h.
Proof.
  intros h H.
  assert (O : mes_ok h).
  { destruct H as (A & B & C & D & E & F & G & U & T & S & L & Fr & R & Sa & So). unfold mes_ok, bits in *.
    assert (Bx : 0 <= ext_type h <= 255).
    { destruct B as [B|[B|B]]; (eapply of_within; [|exact B]); apply mapped_dec; vm_compute; reflexivity. }
    apply (of_within _ _ 0 255) in A; [|apply mapped_dec; vm_compute; reflexivity].
    apply (of_within _ _ 0 7) in C; [|apply mapped_dec; vm_compute; reflexivity].
    apply (of_within _ _ 0 15) in D; [|apply mapped_dec; vm_compute; reflexivity].
    apply (of_within _ _ 0 7) in E; [|apply mapped_dec; vm_compute; reflexivity].
    apply (of_within _ _ 0 7) in F; [|apply mapped_dec; vm_compute; reflexivity].
    apply (of_within _ _ 0 65535) in U; [|apply mapped_dec; vm_compute; reflexivity].
    apply (of_within _ _ 0 255) in T; [|apply mapped_dec; vm_compute; reflexivity].
    apply (of_within _ _ (-128) 127) in S; [|apply mapped_dec; vm_compute; reflexivity].
    apply (of_within _ _ 0 3) in Fr; [|apply mapped_dec; vm_compute; reflexivity].
    rewrite G, R. pows. lia. }
  split; [exact O | exact (proj1 (C131_members O))].
Qed.
Print Assumptions C164_header.

(** Two measurements whose published headers have the same words have the same
    type, unit, representation and scale, by name *)
Theorem C164_told_apart :
  forall h h' t t' u u' c c' s s', published h -> published h' ->
  In (t, base_type h) mes_types -> In (t', base_type h') mes_types ->
  In (u, si_unit h) mes_units -> In (u', si_unit h') mes_units ->
  In (c, ctype h) mes_ctypes -> In (c', ctype h') mes_ctypes ->
  In (s, scale_factor h) mes_scales -> In (s', scale_factor h') mes_scales ->
  filter_bits h = filter_bits h' -> unit_bits h = unit_bits h' -> srclen_bits h = srclen_bits h' ->
  t = t' /\ u = u' /\ c = c' /\ s = s'.
Proof.
  intros h h' t t' u u' c c' s s' P P' T T' U U' C C' S S' F W L.
  assert (E : h = h').
  { rewrite <- (proj2 (C164_header h P)), <- (proj2 (C164_header h' P')). now rewrite F, W, L. }
  subst h'. destruct C164_unambiguous as (Ut & Uu & Uc & Us & _).
  repeat split; [eapply Ut | eapply Uu | eapply Uc | eapply Us]; eauto.
Qed.
Print Assumptions C164_told_apart.

Example C164_example :
  published (Mes 0x1B 0x44 1 1 0 2 0 0x1B05 0x10 (-3) 12 0 0 4 7)
  /\ In ("LIGHT"%string, 0x1B) mes_types /\ In ("LUMEN_PER_METER_2"%string, 0x1B05) mes_units.
Proof.
  assert (I : forall l n c, existsb (fun p => String.eqb n (fst p) && Z.eqb c (snd p)) l = true -> In (n, c) l).
  { intros l n c H. apply existsb_exists in H. destruct H as ((a & b) & K & E). cbn in E. apply andb_true_iff in E.
    destruct E as (E1 & E2). apply String.eqb_eq in E1. apply Z.eqb_eq in E2. now subst. }
  split; [|split; apply I; vm_compute; reflexivity].
  unfold published; cbn [base_type ext_type data_format encoding compression timestamp flags_rsvd si_unit ctype scale_factor len fragment src_rsvd samples sourceid].
  refine (conj _ (conj _ (conj _ (conj _ (conj _ (conj _ (conj _ (conj _ (conj _ (conj _ (conj _ (conj _ (conj _ (conj _ _)))))))))))))).
  - exists "LIGHT"%string. apply I. vm_compute. reflexivity.
  - right. left. exists "PHOTO_ILLUMINANCE"%string. apply I. vm_compute. reflexivity.
  - exists "CBOR"%string. apply I. vm_compute. reflexivity.
  - exists "BASE64"%string. apply I. vm_compute. reflexivity.
  - exists "NONE"%string. apply I. vm_compute. reflexivity.
  - exists "EPOCH_64"%string. apply I. vm_compute. reflexivity.
  - reflexivity.
  - exists "LUMEN_PER_METER_2"%string. apply I. vm_compute. reflexivity.
  - exists "IEEE754_FLOAT32"%string. apply I. vm_compute. reflexivity.
  - exists "MILLI"%string. apply I. vm_compute. reflexivity.
  - unfold bits. lia.
  - exists "NONE"%string. apply I. vm_compute. reflexivity.
  - reflexivity.
  - unfold bits. lia.
  - unfold bits. lia.
Qed.

(** * C165: the table of atomic weights *)

(** the published names number the elements from 1 to 118 without a gap *)
Theorem C165_numbers : unambiguous elements /\ (forall z, 1 <= z <= 118 <-> of elements z).
Proof.
  split; [clear_codes|]. intros z. split.
  - intros H. assert (E : existsb (fun p => Z.eqb z (snd p)) elements = true).
    { assert (A : forall n : nat, (n < 118)%nat -> existsb (fun p => Z.eqb (Z.of_nat (S n)) (snd p)) elements = true).
      { assert (B : forallb (fun n => existsb (fun p => Z.eqb (Z.of_nat (S n)) (snd p)) elements) (seq 0 118) = true) by (vm_compute; reflexivity).
        intros n Hn. rewrite forallb_forall in B. apply B, in_seq. lia. }
      specialize (A (Z.to_nat (z - 1))). replace (Z.of_nat (S (Z.to_nat (z - 1)))) with z in A by lia. apply A. lia. }
    apply existsb_exists in E. destruct E as ((n & c) & I & E). cbn in E. apply Z.eqb_eq in E. subst. now exists n.
  - intros H. apply (of_within elements z 1 118); [apply mapped_dec; vm_compute; reflexivity | exact H].
Qed.
Print Assumptions C165_numbers.

(** looking up an element stays inside the table; other indices above 118 do not *)
Theorem C165_lookup :
  forall z, (of elements z -> exists w, atom_weight z = Ok w /\ (0 < w <-> z <= 94) /\ 0 <= w)
  /\ (118 < z \/ z < 0 -> atom_weight z = UB OOBRead).
Proof.
  intros z. split.
  - intros H. apply C165_numbers in H.
    assert (B : forallb (fun n => match nth_error atom_weights (S n) with
      | Some w => (0 <=? w) && Bool.eqb (0 <? w) (Z.of_nat (S n) <=? 94) | None => false end) (seq 0 118) = true) by (vm_compute; reflexivity).
    rewrite forallb_forall in B. specialize (B (Z.to_nat (z - 1)) ltac:(apply in_seq; lia)). cbv beta in B.
    replace (S (Z.to_nat (z - 1))) with (Z.to_nat z) in B by lia. rewrite Z2Nat.id in B by lia.
    unfold atom_weight. destruct (Z.ltb_spec z 0); [lia|]. destruct (nth_error atom_weights (Z.to_nat z)) as [w|]; [|discriminate B].
    exists w. split; [reflexivity|]. apply andb_true_iff in B. destruct B as (B1 & B2). apply Bool.eqb_prop in B2.
    split; [|lia]. destruct (Z.ltb_spec 0 w), (Z.leb_spec z 94); try discriminate B2; lia.
  - intros H. unfold atom_weight. destruct (Z.ltb_spec z 0); [reflexivity|].
    replace (nth_error atom_weights (Z.to_nat z)) with (@None Z); [reflexivity|]. symmetry. apply nth_error_None.
    change (List.length atom_weights) with 119%nat. lia.
Qed.
Print Assumptions C165_lookup.

(** Heavier elements have higher numbers, except for the known pairs argon and
    potassium, cobalt and nickel, tellurium and iodine, thorium and protactinium,
    uranium and neptunium *)
Theorem C165_order :
  forall z w w', 1 <= z < 94 -> atom_weight z = Ok w -> atom_weight (z + 1) = Ok w' ->
  (w' < w <-> z = 18 \/ z = 27 \/ z = 52 \/ z = 90 \/ z = 92) /\ w <> w'.
Proof.
  intros z w w' Hz E E'.
  assert (B : forallb (fun n => match atom_weight (Z.of_nat (S n)), atom_weight (Z.of_nat (S n) + 1) with
    | Ok w, Ok w' => negb (w =? w') && Bool.eqb (w' <? w) (existsb (Z.eqb (Z.of_nat (S n))) [18; 27; 52; 90; 92])
    | _, _ => false end) (seq 0 93) = true) by (vm_compute; reflexivity).
  rewrite forallb_forall in B. specialize (B (Z.to_nat (z - 1)) ltac:(apply in_seq; lia)). cbv beta in B.
  replace (Z.of_nat (S (Z.to_nat (z - 1)))) with z in B by lia. rewrite E, E' in B.
  apply andb_true_iff in B. destruct B as (B1 & B2). apply Bool.eqb_prop in B2.
  split; [|intros Q; subst; rewrite Z.eqb_refl in B1; discriminate B1].
  rewrite <- Z.ltb_lt, B2, existsb_exists. split.
  - intros (x & I & X). apply Z.eqb_eq in X. subst x. cbn in I. lia.
  - intros D. exists z. split; [cbn; lia | apply Z.eqb_refl].
Qed.
Print Assumptions C165_order.

(** An atom weighs about as much as its protons and at most 1.6 times as many
    neutrons *)
Theorem C165_range :
  forall z w, 1 <= z <= 94 -> atom_weight z = Ok w -> z * 10000 <= w /\ (2 <= z -> 19800 * z <= w <= 26100 * z).
Proof.
  intros z w Hz E.
  assert (B : forallb (fun n => match atom_weight (Z.of_nat (S n)) with
    | Ok w => (Z.of_nat (S n) * 10000 <=? w) && ((Z.of_nat (S n) <? 2) || ((19800 * Z.of_nat (S n) <=? w) && (w <=? 26100 * Z.of_nat (S n))))
    | _ => false end) (seq 0 94) = true) by (vm_compute; reflexivity).
  rewrite forallb_forall in B. specialize (B (Z.to_nat (z - 1)) ltac:(apply in_seq; lia)). cbv beta in B.
  replace (Z.of_nat (S (Z.to_nat (z - 1)))) with z in B by lia. rewrite E in B. lia.
Qed.
Print Assumptions C165_range.

Example C165_example : atom_weight 26 = Ok 558450 /\ In ("IRON"%string, 26) elements.
Proof. split; [vm_compute; reflexivity|]. do 25 right. left. reflexivity. Qed.
