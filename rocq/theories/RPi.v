(** pi to thirteen decimals. *)
From Coq Require Import Reals Lra Machin Ratan Psatz.
Local Open Scope R_scope.

Lemma PI_bounds : 3.1415926535897 < PI < 3.1415926535899.
Proof.
  pose proof (PI_2_3_7_ineq 7) as [L U].
  unfold PI_2_3_7_tg, Ratan_seq, tg_alt in L, U. cbn [sum_f_R0 Nat.mul Nat.add] in L, U.
  cbn [INR pow] in L, U. lra.
Qed.
