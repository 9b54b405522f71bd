(** Coq's real numbers as a field in the sense of the Mathematical Components
    library, so that its matrices, determinants and adjugates can be used. *)
From Coq Require Import Reals Lra ClassicalEpsilon.
Set Warnings "-notation-overridden,-ambiguous-paths".
From mathcomp Require Import all_ssreflect all_algebra.
Set Implicit Arguments.
Unset Strict Implicit.
Unset Printing Implicit Defensive.
Local Delimit Scope R_scope with Re.

Definition eqr (x y : R) : bool := if Req_EM_T x y then true else false.
Lemma eqrP : Equality.axiom eqr.
Proof. move=> x y; rewrite /eqr; case: Req_EM_T => H; by constructor. Qed.

Canonical R_eqMixin := EqMixin eqrP.
Canonical R_eqType := Eval hnf in EqType R R_eqMixin.

Definition pickR (P : pred R) (n : nat) : option R :=
  match excluded_middle_informative (exists x, P x) with
  | left H => Some (proj1_sig (constructive_indefinite_description _ H))
  | right _ => None
  end.

Lemma pickR_some P n x : pickR P n = Some x -> P x.
Proof.
rewrite /pickR; case: excluded_middle_informative => // H.
by case: constructive_indefinite_description => y Hy /= [<-].
Qed.
Lemma pickR_ex (P : pred R) : (exists x, P x) -> exists n, pickR P n.
Proof. by move=> H; exists 0; rewrite /pickR; case: excluded_middle_informative. Qed.
Lemma pickR_ext (P Q : pred R) : P =1 Q -> pickR P =1 pickR Q.
Proof.
move=> E n. have -> : P = Q; last by [].
apply: FunctionalExtensionality.functional_extensionality => x. exact: E.
Qed.

Definition R_choiceMixin : choiceMixin R := Choice.Mixin pickR_some pickR_ex pickR_ext.
Canonical R_choiceType := Eval hnf in ChoiceType R R_choiceMixin.

Lemma RplusA : associative Rplus. Proof. move=> *; ring. Qed.
Lemma RplusC : commutative Rplus. Proof. move=> *; ring. Qed.
Lemma Rplus0 : left_id R0 Rplus. Proof. move=> *; ring. Qed.
Lemma RplusN : left_inverse R0 Ropp Rplus. Proof. move=> *; ring. Qed.
Definition R_zmodMixin := ZmodMixin RplusA RplusC Rplus0 RplusN.
Canonical R_zmodType := Eval hnf in ZmodType R R_zmodMixin.

Lemma RmultA : associative Rmult. Proof. move=> *; ring. Qed.
Lemma RmultC : commutative Rmult. Proof. move=> *; ring. Qed.
Lemma Rmult1 : left_id R1 Rmult. Proof. move=> *; ring. Qed.
Lemma RmultD : left_distributive Rmult Rplus. Proof. move=> *; ring. Qed.
Lemma R1_neq0 : R1 != R0 :> R.
Proof. apply/eqP => H. lra. Qed.
Definition R_ringMixin := ComRingMixin RmultA RmultC Rmult1 RmultD R1_neq0.
Canonical R_ringType := Eval hnf in RingType R R_ringMixin.
Canonical R_comRingType := Eval hnf in ComRingType R RmultC.

Definition Rinvx (r : R) : R := if Req_EM_T r R0 then r else Rinv r.
Definition unitR (r : R) : bool := r != R0 :> R.
Lemma RmultRinvx : {in unitR, left_inverse R1 Rinvx Rmult}.
Proof.
move=> r; rewrite -topredE /unitR /Rinvx => /= /eqP H.
case: Req_EM_T => // K. by rewrite Rinv_l.
Qed.
Lemma RinvxRmult : {in unitR, right_inverse R1 Rinvx Rmult}.
Proof. move=> r H. rewrite RmultC. exact: RmultRinvx. Qed.
Lemma intro_unit_R x y : Rmult y x = R1 /\ Rmult x y = R1 -> unitR x.
Proof.
move=> [H _]. apply/eqP => E. rewrite E in H. move: H. rewrite Rmult_0_r => H. lra.
Qed.
Lemma Rinvx_out : {in predC unitR, Rinvx =1 id}.
Proof.
move=> x; rewrite inE /= /Rinvx -if_neg. case: Req_EM_T => //= H. rewrite /in_mem /= /unitR.
by case/negP; apply/eqP.
Qed.
Definition R_unitRingMixin := UnitRingMixin RmultRinvx RinvxRmult intro_unit_R Rinvx_out.
Canonical R_unitRing := Eval hnf in UnitRingType R R_unitRingMixin.
Canonical R_comUnitRingType := Eval hnf in [comUnitRingType of R].

Lemma R_idomainMixin x y : Rmult x y = R0 -> (x == R0 :> R) || (y == R0 :> R).
Proof.
move=> H. case: (Rmult_integral _ _ H) => ->; by rewrite eqxx ?orbT.
Qed.
Canonical R_idomainType := Eval hnf in IdomainType R R_idomainMixin.
Lemma R_fieldMixin : GRing.Field.mixin_of [unitRingType of R].
Proof. by []. Qed.
Canonical R_fieldType := FieldType R R_fieldMixin.
