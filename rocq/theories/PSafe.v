(** A logic for the absence of undefined behaviour, for any arithmetic, and the
    matrix functions in it. *)
From Coq Require Import List Arith ZArith Bool Lia.
From Verif Require Import Base BaseFacts SpecVec SpecMtx SpecSafe MVec MMtx PVec PMtx PMtxOps.
Import ListNotations.
Set Implicit Arguments.
Local Open Scope num_scope.
Local Open Scope nat_scope.

Section Logic.
Variables NR OF : Prop.

(** m ends in P, or in NotReal if NR allows it, or in OutOfFuel if OF does *)
Definition wp A (P : A -> Prop) (m : outcome A) : Prop :=
  match m with Ok a => P a | UB _ => False | NotReal => NR | OutOfFuel => OF end.

Lemma wp_bind A B (P : A -> Prop) (Q : B -> Prop) m k :
  wp P m -> (forall a, P a -> wp Q (k a)) -> wp Q (bind m k).
Proof. destruct m; cbn; auto. Qed.

Lemma wp_eq A (P : A -> Prop) m a : m = Ok a -> P a -> wp P m.
Proof. now intros ->. Qed.

Lemma wp_imp A (P Q : A -> Prop) m : wp P m -> (forall a, P a -> Q a) -> wp Q m.
Proof. destruct m; cbn; auto. Qed.

Lemma wp_for X (P : nat -> X -> Prop) n lo body s :
  P lo s -> (forall i s, lo <= i < lo + n -> P i s -> wp (P (S i)) (body i s)) ->
  wp (P (lo + n)) (for_ n lo body s).
Proof.
  revert lo s. induction n as [|n IH]; intros lo s Hs Hb.
  - cbn. now rewrite Nat.add_0_r.
  - cbn [for_]. apply wp_bind with (P := P (S lo)); [apply Hb; auto; lia|].
    intros s' Hs'. replace (lo + S n) with (S lo + n) by lia. apply IH; auto.
    intros i t Hi. apply Hb. lia.
Qed.

Lemma wp_for0 X (P : X -> Prop) n lo body s :
  P s -> (forall i s, lo <= i < lo + n -> P s -> wp P (body i s)) -> wp P (for_ n lo body s).
Proof. intros Hs Hb. apply (@wp_for X (fun _ => P)); auto. Qed.

Lemma wp_range X (P : nat -> X -> Prop) lo hi body s :
  lo <= hi -> P lo s -> (forall i s, lo <= i < hi -> P i s -> wp (P (S i)) (body i s)) ->
  wp (P hi) (for_range lo hi body s).
Proof.
  intros H Hs Hb. unfold for_range. replace hi with (lo + (hi - lo)) at 1 by lia.
  apply wp_for; auto. intros i t Hi. apply Hb. lia.
Qed.

Lemma wp_for_exit Y X (P : Y -> Prop) (Q : X -> Prop) n lo body s :
  P s -> (forall i s, lo <= i < lo + n -> P s -> wp (fun r => match r with inl s => P s | inr x => Q x end) (body i s)) ->
  wp (fun r => match r with inl s => P s | inr x => Q x end) (for_exit n lo body s).
Proof.
  revert lo s. induction n as [|n IH]; intros lo s Hs Hb; [exact Hs|].
  cbn [for_exit]. eapply wp_bind; [apply Hb; auto; lia|]. intros [s'|x] H'; [|exact H'].
  apply IH; auto. intros i t Hi. apply Hb. lia.
Qed.

Lemma wp_while Y X (P : Y -> Prop) (Q : X -> Prop) fuel body s :
  OF -> P s -> (forall s, P s -> wp (fun r => match r with inl s => P s | inr x => Q x end) (body s)) ->
  wp Q (while_ fuel body s).
Proof.
  intros HO. revert s. induction fuel as [|n IH]; intros s Hs Hb; [exact HO|].
  cbn [while_]. eapply wp_bind; [apply Hb; auto|]. intros [s'|x] H'; [|exact H']. now apply IH.
Qed.

End Logic.

Lemma wp_weaken (NR NR' OF OF' : Prop) A (P : A -> Prop) m :
  (NR -> NR') -> (OF -> OF') -> wp NR OF P m -> wp NR' OF' P m.
Proof. destruct m; cbn; auto. Qed.

Lemma wp_safe T (N : Num T) A (P : A -> Prop) m : wp (~ total N) False P m -> safe N P m.
Proof.
  destruct m as [a|u| |]; cbn; intros H; [|contradiction| |contradiction].
  - split; [|split; [|split]]; [now intros u E|discriminate|now intros r [= <-]|eauto].
  - split; [|split; [|split]]; [now intros u E|discriminate|discriminate|intros t; contradiction].
Qed.

Lemma wp_never_ub NR OF A (P : A -> Prop) m : wp NR OF P m -> never_ub m.
Proof. intros H w E. now rewrite E in H. Qed.

Section Mat.
Context {T : Type} {N : Num T}.
Variable bc : bool.
Variable OF : Prop.
Hypothesis L : lawful N.
Notation NR := (~ total N).
Notation "'WP' P m" := (wp NR OF P m) (at level 10, P at level 9, m at level 9).

Lemma wp_div a b : WP (fun _ => True) (fdiv a b).
Proof.
  destruct L as (D & _). destruct (D a b) as [(c & E)|E]; rewrite E; cbn; auto.
  intros (H & _). destruct (H a b). congruence.
Qed.
Lemma wp_sqrt a : WP (fun _ => True) (fsqrt a).
Proof.
  destruct L as (_ & D). destruct (D a) as [(c & E)|E]; rewrite E; cbn; auto.
  intros (_ & H). destruct (H a). congruence.
Qed.

(** an r x c matrix all of whose elements have values *)
Definition ism (r c : nat) (tl : buf T) (m : mtx T) : Prop := exists f, m = mat_of r c f tl.

Lemma ism_mat r c f tl : ism r c tl (mat_of r c f tl).
Proof. now exists f. Qed.
Lemma ism_room r c tl m : ism r c tl m -> room r c m.
Proof. intros (f & ->). apply mat_room. Qed.
Lemma ism_rest r c tl m : ism r c tl m -> rest m = tl.
Proof. intros (f & ->). apply mat_rest. Qed.

Definition snd_is A B (P : B -> Prop) (x : A * B) : Prop := P (snd x).
Definition code0 B (P : B -> Prop) (x : Z * B) : Prop := fst x = 0%Z /\ P (snd x).

Lemma wp_lget r c tl m i j x : ism r c tl m -> i < r -> j < c ->
  WP (fun y => exists v, y = Some v) (lget bc m i j x).
Proof. intros (f & ->) Hi Hj. eapply wp_eq; [apply lget_mat; eassumption|eauto]. Qed.

Lemma wp_lval x : (exists v, x = Some v) -> WP (fun _ => True) (lval (x : option T)).
Proof. now intros (v & ->). Qed.

Lemma wp_set r c tl m i j x : ism r c tl m -> i < r -> j < c -> WP (code0 (ism r c tl)) (mtx_set bc m i j x).
Proof. intros (f & ->) Hi Hj. eapply wp_eq; [apply mtx_set_mat; eassumption|split; [reflexivity|apply ism_mat]]. Qed.

Lemma wp_copy r c tl md m : room r c md -> ism r c tl m -> WP (code0 (ism r c (rest md))) (mtx_copy bc md m).
Proof. intros H (f & ->). eapply wp_eq; [apply mtx_copy_ok; eassumption|split; [reflexivity|apply ism_mat]]. Qed.

Lemma wp_init0 r c m : room r c m -> WP (code0 (ism r c (rest m))) (mtx_init bc m None).
Proof. intros H. eapply wp_eq; [apply mtx_init_empty; eassumption|split; [reflexivity|apply ism_mat]]. Qed.
Lemma wp_init_e r c m : room r c m -> WP (code0 (ism r c (rest m))) (mtx_init bc m (Some (entry_fn_empty bc))).
Proof. intros H. eapply wp_eq; [apply (@mtx_init_gen _ _ bc r c) with (g := fun _ _ => f0); [exact H|reflexivity]|split; [reflexivity|apply ism_mat]]. Qed.
Lemma wp_init1 r c m : room r c m -> WP (code0 (ism r c (rest m))) (mtx_init bc m (Some (entry_fn_identity bc))).
Proof. intros H. eapply wp_eq; [apply mtx_init_identity; eassumption|split; [reflexivity|apply ism_mat]]. Qed.

(** a buffer whose first n elements have values *)
Definition isb (n : nat) (b : buf T) : Prop := exists xs tl, length xs = n /\ b = cells xs ++ tl.

Lemma isb_length n b : isb n b -> n <= length b.
Proof. intros (xs & tl & H & ->). rewrite app_length. unfold cells. rewrite map_length. lia. Qed.

Lemma wp_rd n b i : isb n b -> i < n -> WP (fun _ => True) (rd b i).
Proof.
  intros (xs & tl & H & ->) Hi. unfold rd. rewrite nth_error_app1 by (unfold cells; rewrite map_length; lia).
  unfold cells. destruct (nth_error (map Some xs) i) eqn:E.
  - apply nth_error_In in E. apply in_map_iff in E. destruct E as (y & <- & _). exact I.
  - apply nth_error_None in E. rewrite map_length in E. lia.
Qed.

Lemma wp_rd_m r c tl m k : ism r c tl m -> k < r * c -> WP (fun _ => True) (rd (mbuf m) k).
Proof.
  intros (f & ->) Hk. apply wp_rd with (n := r * c); auto. do 2 eexists. split; [|reflexivity].
  now rewrite map_length, seq_length.
Qed.

Lemma wp_get_row r c tl m i v : ism r c tl m -> i < r -> c <= length v ->
  WP (code0 (fun w => isb c w /\ length w = length v)) (mtx_get_row bc m i v).
Proof.
  intros (f & ->) Hi Hv. eapply wp_eq; [apply mtx_get_row_ok; eassumption|split; [reflexivity|]]. cbn. split.
  - do 2 eexists. split; [apply row_of_length|reflexivity].
  - rewrite app_length, skipn_length. unfold cells. rewrite map_length, row_of_length. lia.
Qed.
Lemma wp_get_col r c tl m j v : ism r c tl m -> j < c -> r <= length v ->
  WP (code0 (fun w => isb r w /\ length w = length v)) (mtx_get_col bc m j v).
Proof.
  intros (f & ->) Hi Hv. eapply wp_eq; [apply mtx_get_col_ok; eassumption|split; [reflexivity|]]. cbn. split.
  - do 2 eexists. split; [apply col_of_length|reflexivity].
  - rewrite app_length, skipn_length. unfold cells. rewrite map_length, col_of_length. lia.
Qed.
Lemma wp_set_row r c tl m i v : ism r c tl m -> i < r -> isb c v -> WP (code0 (ism r c tl)) (mtx_set_row bc m i v).
Proof.
  intros (f & ->) Hi (xs & tv & Hx & ->).
  eapply wp_eq; [now apply mtx_set_row_ok with (d := f0)|split; [reflexivity|apply ism_mat]].
Qed.
Lemma wp_set_col r c tl m j v : ism r c tl m -> j < c -> isb r v -> WP (code0 (ism r c tl)) (mtx_set_col bc m j v).
Proof.
  intros (f & ->) Hi (xs & tv & Hx & ->).
  eapply wp_eq; [now apply mtx_set_col_ok with (d := f0)|split; [reflexivity|apply ism_mat]].
Qed.

Lemma wp_mult r n c ta tb ma mb mc : ism r n ta ma -> ism n c tb mb -> room r c mc ->
  WP (code0 (ism r c (rest mc))) (mtx_mult bc ma mb mc).
Proof. intros (f & ->) (g & ->) H. eapply wp_eq; [apply mtx_mult_ok; eassumption|split; [reflexivity|apply ism_mat]]. Qed.
Lemma wp_trans r c ta ma mb : ism r c ta ma -> room c r mb -> WP (code0 (ism c r (rest mb))) (mtx_trans bc ma mb).
Proof. intros (f & ->) H. eapply wp_eq; [apply mtx_trans_ok; eassumption|split; [reflexivity|apply ism_mat]]. Qed.
Lemma wp_scalar r c tl m s : ism r c tl m -> WP (code0 (ism r c tl)) (mtx_scalar_mult_d m s).
Proof. intros (f & ->). eapply wp_eq; [apply mtx_scalar_mult_d_ok; eassumption|split; [reflexivity|apply ism_mat]]. Qed.
Lemma wp_add r c ta tb ma mb mc : ism r c ta ma -> ism r c tb mb -> room r c mc ->
  WP (code0 (ism r c (rest mc))) (mtx_add bc ma mb mc).
Proof.
  intros (f & ->) (g & ->) H.
  eapply wp_eq; [apply mtx_zip_ok with (h := fun i j => (f i j + g i j)%num); auto|split; [reflexivity|apply ism_mat]].
Qed.
Lemma wp_sub r c ta tb ma mb mc : ism r c ta ma -> ism r c tb mb -> room r c mc ->
  WP (code0 (ism r c (rest mc))) (mtx_sub bc ma mb mc).
Proof.
  intros (f & ->) (g & ->) H.
  eapply wp_eq; [apply mtx_zip_ok with (h := fun i j => (f i j - g i j)%num); auto|split; [reflexivity|apply ism_mat]].
Qed.
Lemma wp_add_d r c ta tb ma mb : ism r c ta ma -> ism r c tb mb -> WP (code0 (ism r c ta)) (mtx_add_d bc ma mb).
Proof.
  intros (f & ->) (g & ->).
  eapply wp_eq; [apply mtx_zip_d_ok with (h := fun i j => (f i j + g i j)%num); auto|split; [reflexivity|apply ism_mat]].
Qed.
Lemma wp_sum_rows r c tl m i j : ism r c tl m -> i < r -> j < r -> WP (code0 (ism r c tl)) (mtx_sum_rows_d bc m i j).
Proof. intros (f & ->) Hi Hj. eapply wp_eq; [apply mtx_sum_rows_d_ok; eassumption|split; [reflexivity|apply ism_mat]]. Qed.
Lemma wp_scalar_row r c tl m i s : ism r c tl m -> i < r -> WP (code0 (ism r c tl)) (mtx_scalar_mult_row_d bc m i s).
Proof. intros (f & ->) Hi. eapply wp_eq; [apply mtx_scalar_mult_row_d_ok; eassumption|split; [reflexivity|apply ism_mat]]. Qed.

End Mat.
