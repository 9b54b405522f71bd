(** Safety of the vector, quaternion, attitude and other small functions in any
    arithmetic: weakest preconditions. *)
From Coq Require Import List Arith ZArith Bool Lia.
From Verif Require Import Base BaseFacts Libm Out SpecVec SpecMtx SpecSafe SpecSafeVec MVec MMtx MQuat MAhrs MProb MPhysVec
  PVec PMtx PMtxOps PSafe PSafeMx PSafeQr PSafeFus PSafeStat PropSafe.
Import ListNotations.
Set Implicit Arguments.
Local Open Scope num_scope.

Section V.
Context {T : Type} {N : Num T} {M : NumM T}.
Variable bc : bool.
Hypothesis L : lawful N.
Hypothesis LM : lawful_libm N M.
Notation NR := (~ total N).
Notation OF := False.
Notation "'WP' P m" := (wp NR OF P m) (at level 10, P at level 9, m at level 9).
Notation any := (fun _ => True).
Implicit Types u v w x : vec T.

Lemma wf_isv v : wf v <-> isv (vsz v) v.
Proof.
  unfold wf, vec_filled, isv. split; intros (_ & H); (split; [reflexivity|]); [now apply filled_isb|now apply isb_filled].
Qed.
Lemma isv_wf n v : isv n v -> wf v /\ vsz v = n.
Proof. intros (H & B). split; [|auto]. apply wf_isv. split; [auto|now rewrite H]. Qed.

Lemma wp_none m : answers_or_none N m -> WP any m.
Proof. intros [(x & ->)|(-> & H)]; [exact I|exact H]. Qed.

Lemma vf_isv n v : vec_filled n v <-> isv n v.
Proof. unfold vec_filled, isv. split; intros (E & H); (split; [exact E|]); [now apply filled_isb|now apply isb_filled]. Qed.

Lemma dor_of (old : vec T) n v : isv n v -> done_or_refused old n (0%Z, v).
Proof. intros H. left. split; [reflexivity|now apply vf_isv]. Qed.
Lemma dor_no (old : vec T) n : done_or_refused old n ((- EINVAL)%Z, old).
Proof. right. now split. Qed.

(** a vector with values is a list and a rest *)
Ltac lists := repeat match goal with
  | H : wf ?v |- _ => apply wf_isv in H
  | H : isv ?n ?v |- _ => is_var v; let xs := fresh "xs" in let tl := fresh "tl" in let Lx := fresh "Lx" in
      destruct (isv_of H) as (xs & tl & Lx & ->); clear H
  end; cbn [vsz vec_of] in *.
Ltac mism H := match type of H with unless_checked _ _ => destruct H as [->|H]; [|exfalso; try tauto; try congruence; intuition congruence] end.

Lemma wp_zip op v w x : wf v -> wf w -> fits x -> unless_checked bc (vsz v = vsz w /\ vsz v = vsz x) ->
  WP (done_or_refused x (vsz v)) (vec_zip bc op v w x).
Proof.
  intros Hv Hw Hx Hs. destruct (Nat.eq_dec (vsz v) (vsz w)) as [E1|E1].
  2: { mism Hs. rewrite vec_zip_mismatch by auto. apply dor_no. }
  destruct (Nat.eq_dec (vsz v) (vsz x)) as [E2|E2].
  2: { mism Hs. rewrite vec_zip_mismatch by auto. apply dor_no. }
  lists. destruct x as [s b]. unfold fits in Hx. cbn in E2, Hx. subst s.
  rewrite vec_zip_ok by (auto; lia). cbn [wp]. apply dor_of. apply of_isv. rewrite map2_length; lia.
Qed.

Lemma wp_dot2 v w : wf v -> wf w -> unless_checked bc (vsz v = vsz w) ->
  WP (fun r => fst r = 0%Z /\ (exists d, snd r = Some d) \/ fst r = (- EINVAL)%Z /\ snd r = None) (vec_dot bc v w).
Proof.
  intros Hv Hw Hs. destruct (Nat.eq_dec (vsz v) (vsz w)) as [E1|E1].
  2: { mism Hs. rewrite vec_dot_mismatch by auto. right. now split. }
  lists. rewrite vec_dot_ok by auto. cbn. eauto.
Qed.

Lemma wp_norm1 v : wf v -> WP any (vec_norm bc v).
Proof. intros H. apply wf_isv in H. eapply wp_norm; eauto. Qed.

Lemma wp_dist v w : wf v -> wf w -> unless_checked bc (vsz v = vsz w) -> WP any (vec_dist bc v w).
Proof.
  intros Hv Hw Hs. destruct (Nat.eq_dec (vsz v) (vsz w)) as [E1|E1].
  2: { mism Hs. rewrite vec_dist_mismatch by auto. exact I. }
  lists. rewrite vec_dist_ok by auto. now apply wp_sqrt.
Qed.

Lemma wp_project u v w : wf u -> wf v -> fits w -> unless_checked bc (vsz v = vsz w /\ vsz v = vsz u) ->
  WP (done_or_refused w (vsz u)) (vec_project bc u v w).
Proof.
  intros Hu Hv Hw Hs. destruct (Nat.eq_dec (vsz v) (vsz w)) as [E1|E1].
  2: { mism Hs. rewrite vec_project_mismatch by auto. apply dor_no. }
  destruct (Nat.eq_dec (vsz v) (vsz u)) as [E2|E2].
  2: { mism Hs. rewrite vec_project_mismatch by auto. apply dor_no. }
  lists. destruct w as [s b]. unfold fits in Hw. cbn in E1, Hw. subst s. rewrite E2.
  rewrite vec_project_ok by (auto; lia). eapply wp_bind; [now apply wp_div|]. intros s _.
  cbn [wp]. apply dor_of. apply of_isv. now rewrite map_length.
Qed.

Lemma wp_cross3 v w c : wf v -> wf w -> fits c -> unless_checked bc (vsz v = 3 /\ vsz w = 3 /\ vsz c = 3)%nat ->
  WP (done_or_refused c 3) (vec_cross bc v w c).
Proof.
  intros Hv Hw Hc Hs.
  destruct (Nat.eq_dec (vsz v) 3) as [E1|E1]. 2: { mism Hs. rewrite vec_cross_mismatch by auto. apply dor_no. }
  destruct (Nat.eq_dec (vsz w) 3) as [E2|E2]. 2: { mism Hs. rewrite vec_cross_mismatch by auto. apply dor_no. }
  destruct (Nat.eq_dec (vsz c) 3) as [E3|E3]. 2: { mism Hs. rewrite vec_cross_mismatch by auto. apply dor_no. }
  apply wf_isv in Hv, Hw. rewrite E1 in Hv. rewrite E2 in Hw. unfold fits in Hc. rewrite E3 in Hc.
  eapply wp_imp; [eapply wp_cross; eauto|]. intros (rc & r) (E & H). cbn in *. subst rc. now apply dor_of.
Qed.

Lemma wp_unit1 v : wf v -> (1 <= vsz v)%nat -> WP (fun r => fst r = 0%Z /\ vec_filled (vsz v) (snd r)) (vec_to_unit bc v).
Proof.
  intros H Hn. apply wf_isv in H. eapply wp_imp; [eapply wp_to_unit; eauto|]. intros (rc & r) (E & B). split; [exact E|now apply vf_isv].
Qed.

Lemma wp_scalar_add v s : wf v -> WP (fun r => fst r = 0%Z /\ vec_filled (vsz v) (snd r)) (vec_scalar_add v s).
Proof. intros H. lists. rewrite vec_scalar_add_ok. split; [reflexivity|]. cbn [snd]. apply vf_isv, of_isv. now rewrite map_length. Qed.
Lemma wp_scalar_mult v s : wf v -> WP (fun r => fst r = 0%Z /\ vec_filled (vsz v) (snd r)) (vec_scalar_mult v s).
Proof. intros H. lists. rewrite vec_scalar_mult_ok. split; [reflexivity|]. cbn [snd]. apply vf_isv, of_isv. now rewrite map_length. Qed.
Lemma wp_neg v : wf v -> WP (fun r => fst r = 0%Z /\ vec_filled (vsz v) (snd r)) (vec_neg v).
Proof. intros H. lists. rewrite vec_neg_ok. split; [reflexivity|]. cbn [snd]. apply vf_isv, of_isv. now rewrite map_length. Qed.
Lemma wp_scalar_div v s : wf v -> WP (fun r => vec_filled (vsz v) (snd r)) (vec_scalar_div v s).
Proof.
  intros H. apply wf_isv in H. eapply wp_imp; [eapply wp_vdiv; eauto|]. intros r B. now apply vf_isv.
Qed.
Lemma wp_rev v : wf v -> (1 <= vsz v)%nat -> WP (fun r => fst r = 0%Z /\ vec_filled (vsz v) (snd r)) (vec_rev v).
Proof.
  intros H Hn. lists. rewrite vec_rev_ok by (intros ->; cbn in Hn; lia). split; [reflexivity|]. cbn [snd]. apply vf_isv, of_isv. now rewrite rev_length.
Qed.
Lemma wp_zte1 v : wf v -> WP (fun r => fst r = 0%Z /\ vec_filled (vsz v) (snd r)) (vec_zte v).
Proof.
  intros H. apply wf_isv in H. eapply wp_imp; [eapply wp_zte; eauto|]. intros (rc & r) (E & B). split; [exact E|now apply vf_isv].
Qed.
Lemma wp_equal v w eps : wf v -> wf w -> WP any (vec_is_equal v w eps).
Proof.
  intros Hv Hw. destruct (Nat.eq_dec (vsz v) (vsz w)) as [E1|E1]; [|rewrite vec_is_equal_mismatch by auto; exact I].
  lists. rewrite vec_is_equal_ok by auto. exact I.
Qed.
Lemma wp_nonneg v : wf v -> WP any (vec_is_nonneg v).
Proof. intros Hv. lists. rewrite vec_is_nonneg_ok. exact I. Qed.
Lemma wp_count v y eps : wf v -> WP any (vec_contains v y eps).
Proof. intros Hv. lists. rewrite vec_contains_ok. exact I. Qed.
Lemma wp_average v : wf v -> WP (fun r => fst r = 0%Z /\ (exists d, snd r = Some d) \/ fst r = (- EINVAL)%Z /\ snd r = None) (vec_ar_mean v).
Proof.
  intros Hv. unfold vec_ar_mean. destruct (vsz v <? 1)%nat; [right; now split|].
  lists. eapply wp_bind; [apply (@wp_for0 NR OF _ any); [exact I|]|].
  - intros i s Hi _. eapply wp_bind; [eapply wp_rd'; [exists xs, tl; split; reflexivity|lia]|]. intros; exact I.
  - intros s _. eapply wp_bind; [now apply wp_div|]. intros m _. cbn. eauto.
Qed.

(** copies; zsl_vec_copy does not look at the size of its destination *)
Lemma wp_copy_v v w : wf v -> (vsz v <= length (vbuf w))%nat -> WP (fun r => fst r = 0%Z /\ vec_filled (vsz v) (snd r)) (vec_copy w v).
Proof.
  intros H Hl. apply wf_isv in H. eapply wp_imp; [eapply wp_vcopy_to; eauto|]. intros (rc & r) (E & B & _). split; [exact E|now apply vf_isv].
Qed.
Lemma wp_arr_v v a : fits v -> filled (vsz v) a -> WP (fun r => fst r = 0%Z /\ vec_filled (vsz v) (snd r)) (vec_from_arr v a).
Proof.
  intros Hv Ha. eapply wp_imp; [eapply wp_from_arr_v; [reflexivity|exact Hv|now apply filled_isb]|].
  intros (rc & r) (E & B). split; [exact E|now apply vf_isv].
Qed.
Lemma wp_init_v v : fits v -> WP (fun r => fst r = 0%Z /\ vec_filled (vsz v) (snd r)) (vec_init v).
Proof.
  intros Hv. eapply wp_imp; [eapply wp_vinit; [reflexivity|exact Hv]|]. intros (rc & r) (E & B & _). split; [exact E|now apply vf_isv].
Qed.

Lemma wp_subset W v off len s : wf v -> fits s -> (0 <= off < W)%Z -> (0 <= len < W)%Z ->
  (Z.of_nat (vsz v) + Z.of_nat (vsz s) <= W)%Z ->
  WP (done_or_refused s (Nat.min (Z.to_nat len) (vsz v - Z.to_nat off))) (vec_get_subset true W v off len s).
Proof.
  intros Hv Hs Ho Hn HW. lists. destruct s as [ns bs]. unfold fits in Hs. cbn in Hs, HW.
  destruct (Z_lt_le_dec off (Z.of_nat (length xs))) as [H1|H1].
  2: { rewrite vec_get_subset_einval by (auto; lia). apply dor_no. }
  destruct (Z_lt_le_dec (off + len) W) as [H0|H0].
  2: { rewrite vec_get_subset_einval by (auto; lia). apply dor_no. }
  destruct (le_lt_dec (Nat.min (Z.to_nat len) (length xs - Z.to_nat off)) ns) as [H2|H2].
  2: { rewrite vec_get_subset_einval by (auto; lia). apply dor_no. }
  rewrite vec_get_subset_ok by (auto; lia). cbn [wp]. apply dor_of, of_isv.
  rewrite firstn_length, skipn_length. lia.
Qed.

(** sums; zsl_vec_sum does not look at the size of w *)
Lemma wp_vsum (vs : list (vec T)) n w : Forall (@wf T) vs -> (n <= length vs)%nat ->
  (forall v0, nth_error vs 0 = Some v0 -> filled (vsz v0) (vbuf w)) ->
  unless_checked bc (forall v v', In v vs -> In v' vs -> vsz v = vsz v') ->
  WP (fun r => fst r = 0%Z /\ (forall v0, nth_error vs 0 = Some v0 -> vec_filled (vsz v0) (snd r))
     \/ fst r = (- EINVAL)%Z /\ snd r = w) (vec_sum bc vs n w).
Proof.
  intros Hv Hn Hw Hs. unfold vec_sum. destruct (Nat.eqb_spec n 0) as [->|N0]; [right; now split|].
  assert (G : forall i, (i < n)%nat -> exists v, nth_vec vs i = Ok v /\ In v vs /\ wf v).
  { intros i Hi. unfold nth_vec. destruct (nth_error vs i) as [v|] eqn:E; [|apply nth_error_None in E; lia].
    exists v. split; [reflexivity|]. apply nth_error_In in E. split; [exact E|]. rewrite Forall_forall in Hv. auto. }
  destruct (G 0%nat) as (v0 & E0 & I0 & W0); [lia|]. rewrite E0. cbn [bind].
  assert (N1 : nth_error vs 0 = Some v0).
  { unfold nth_vec in E0. destruct (nth_error vs 0); [now injection E0 as ->|discriminate]. }
  specialize (Hw _ N1).
  assert (Loop : (forall i v, (i < n)%nat -> nth_vec vs i = Ok v -> vsz v = vsz v0) ->
    WP (fun r => fst r = 0%Z /\ (forall v0, nth_error vs 0 = Some v0 -> vec_filled (vsz v0) (snd r)) \/ fst r = (- EINVAL)%Z /\ snd r = w)
      (let! b := for_ n 0 (fun i b =>
                    let! vi := nth_vec vs i in
                    for_ (vsz v0) 0 (fun j b =>
                      let! a := rd b j in
                      let! c := rd (vbuf vi) j in
                      wr b j (a + c)) b) (vbuf w) in
        Ok (0%Z, Vec (vsz v0) b))).
  { intros Sz. eapply wp_bind.
    - apply (@wp_for0 NR OF _ (fun b => isb (vsz v0) b)); [now apply filled_isb|].
      intros i b Hi B. destruct (G i) as (v & E & _ & Wv); [lia|]. pose proof (Sz i v ltac:(lia) E) as Zv. rewrite E. cbn [bind].
      apply (@wp_for0 NR OF _ (fun b => isb (vsz v0) b)); [exact B|]. intros j c Hj C.
      eapply wp_bind; [eapply wp_rd'; [exact C|lia]|]. intros a _.
      apply wf_isv in Wv. destruct Wv as (_ & Bv). rewrite Zv in Bv.
      eapply wp_bind; [eapply wp_rd'; [exact Bv|lia]|]. intros d _.
      eapply wp_imp; [eapply wp_wr; [exact C|lia]|]. now intros b' (H & _).
    - intros b B. cbn. left. split; [reflexivity|]. intros v1 E1. change (nth_error vs 0 = Some v1) in E1. rewrite N1 in E1. injection E1 as <-.
      apply vf_isv. split; [reflexivity|exact B]. }
  destruct bc.
  - destruct (for_exit n 0 _ tt) as [[[]|[]]|u| |] eqn:E; cbn [bind].
    + apply Loop. intros i v Hi Ei. clear Loop Hs.
      enough (K : forall lo, for_exit n lo (fun i (_ : unit) => let! vi := nth_vec vs i in
          if negb (vsz v0 =? vsz vi)%nat then Ok (inr tt) else Ok (inl tt)) tt = Ok (inl tt) ->
          forall i v, (lo <= i < lo + n)%nat -> nth_vec vs i = Ok v -> vsz v = vsz v0) by (apply (K 0%nat E i); auto; lia).
      clear. intros lo. revert lo. induction n as [|n IH]; intros lo E i v Hi Ei; [lia|].
      cbn [for_exit] in E. destruct (nth_vec vs lo) as [vl| | |] eqn:El; cbn [bind] in E; try discriminate E.
      destruct (Nat.eqb_spec (vsz v0) (vsz vl)) as [Q|Q]; cbn [negb bind] in E; [|discriminate E].
      destruct (Nat.eq_dec i lo) as [->|]; [congruence|]. apply (IH (S lo) E i); auto. lia.
    + right. now split.
    + exfalso. assert (X : wp NR OF (fun _ : unit + unit => True) (UB u)); [|exact X]. rewrite <- E.
      eapply wp_imp; [apply (@wp_for_exit NR OF _ _ any any); [exact I|]|auto]. intros i s Hi _.
      destruct (G i) as (v & Ev & _); [lia|]. rewrite Ev. cbn [bind]. destruct (negb _); exact I.
    + assert (X : wp NR OF (fun _ : unit + unit => True) NotReal); [|exact X]. rewrite <- E.
      eapply wp_imp; [apply (@wp_for_exit NR OF _ _ any any); [exact I|]|auto]. intros i s Hi _.
      destruct (G i) as (v & Ev & _); [lia|]. rewrite Ev. cbn [bind]. destruct (negb _); exact I.
    + exfalso. assert (X : wp NR OF (fun _ : unit + unit => True) OutOfFuel); [|exact X]. rewrite <- E.
      eapply wp_imp; [apply (@wp_for_exit NR OF _ _ any any); [exact I|]|auto]. intros i s Hi _.
      destruct (G i) as (v & Ev & _); [lia|]. rewrite Ev. cbn [bind]. destruct (negb _); exact I.
  - cbn [bind]. apply Loop. intros i v Hi Ei. destruct Hs as [H|Hs]; [discriminate H|]. apply Hs; [|exact I0].
    unfold nth_vec in Ei. destruct (nth_error vs i) eqn:X; [|discriminate Ei]. injection Ei as ->. eapply nth_error_In; eauto.
Qed.

Lemma wp_vmean (vs : list (vec T)) n w : Forall (@wf T) vs -> (1 <= n <= length vs)%nat ->
  (forall v0, nth_error vs 0 = Some v0 -> filled (vsz v0) (vbuf w)) ->
  unless_checked bc (forall v v', In v vs -> In v' vs -> vsz v = vsz v') ->
  WP any (vec_mean bc vs n w).
Proof.
  intros Hv (H1 & Hn) Hw Hs. unfold vec_mean.
  assert (B : exists b, (if bc then let! v0 := nth_vec vs 0 in Ok (negb (vsz w =? vsz v0)%nat) else Ok false) = Ok b).
  { destruct bc; [|eauto]. unfold nth_vec. destruct (nth_error vs 0) eqn:E; [cbn; eauto|apply nth_error_None in E; lia]. }
  destruct B as (b & ->). cbn [bind]. destruct b; [exact I|].
  eapply wp_bind; [now apply wp_vsum|]. intros (rc & m) H. cbn [fst snd] in H. destruct (negb (rc =? 0)%Z) eqn:E; [exact I|].
  destruct H as [(_ & H)|(-> & _)]; [|discriminate E].
  destruct (nth_error vs 0) as [v0|] eqn:E0; [|apply nth_error_None in E0; lia].
  specialize (H _ eq_refl). apply vf_isv in H.
  eapply wp_bind; [now apply wp_div|]. intros s _. eapply wp_bind; [eapply wp_vmult; exact H|]. intros (rc' & m') _. exact I.
Qed.
End V.
