(** Histories of feeds in any arithmetic, and the facts the fusion filters rely
    on in exact and binary64 arithmetic. *)
From Coq Require Import List Arith ZArith Bool Lia Reals Lra.
From Verif Require Import Base BaseFacts NumR Libm LibmR RTac Out SpecVec SpecMtx SpecQuat SpecFusion SpecSafe SpecSafeFus
  MVec MMtx MQuat MFusion PVec PMtx PMtxOps PQuat PSafe PSafeMx PSafeQr PropSafe PSafeFus.
Import ListNotations.
Set Implicit Arguments.
Local Open Scope num_scope.

Lemma given_iso T (p : option (vec T)) : given_or_null p -> iso p.
Proof. intros [->|(v & -> & H1 & H2)]; cbn; auto. split; [exact H1|now apply filled_isb]. Qed.
Lemma given_isv T (p : option (vec T)) : given p -> exists v, p = Some v /\ isv 3 v.
Proof. intros (v & -> & H1 & H2). exists v. split; auto. split; [exact H1|now apply filled_isb]. Qed.
Lemma given_some T (p : option (vec T)) : given p -> p <> None.
Proof. intros (v & -> & _). discriminate. Qed.
Lemma all_given_wf T (i : reading T) : all_given i -> all_optional i.
Proof. intros (H1 & H2 & H3). repeat split; now right. Qed.

Lemma wp_history NR OF I S (G : I -> Prop) (Inv : S -> Prop) feed l s :
  (forall i s, G i -> Inv s -> wp NR OF (fun x : Z * S => Inv (snd x)) (feed i s)) ->
  Forall G l -> Inv s -> wp NR OF Inv (history feed l s).
Proof.
  intros H. revert s. induction l as [|i l IH]; intros s Hl Hs; [exact Hs|].
  inversion Hl; subst. cbn [history]. eapply wp_bind; [now apply H|]. intros r Hr. now apply IH.
Qed.

Section H.
Context {T : Type} {N : Num T} {M : NumM T}.
Variable bc : bool.
Hypothesis L : lawful N.
Notation "'WP' P m" := (wp (~ total N) False P m) (at level 10, P at level 9, m at level 9).
Notation any := (fun _ => True).
Hypothesis Hacos : forall x : T, WP any (facos x).
Hypothesis Hasin : forall x : T, WP any (fasin x).
Hypothesis Hz : (fabs f0 >? flit 1 6) = false.
Hypothesis Hzd : forall m x : T, fdiv f0 m = Ok x -> (fabs x >? flit 1 6) = false.

Lemma iss_of (i : reading T) q : well_formed i -> iss (the_sens i q).
Proof.
  intros (H1 & H2 & H3). split; [now apply given_iso|split; [now apply given_iso|now apply given_isv]].
Qed.

Lemma hist_madg freq beta incl l q : Forall (@well_formed T) l -> WP any (history (madg_run bc freq beta incl) l q).
Proof.
  intros Hl. eapply wp_history; [|exact Hl|exact I]. intros i s Hi _. unfold madg_run.
  eapply wp_bind; [apply wp_madg_feed; auto using iss_of|]. now intros (rc & s') _.
Qed.
Lemma hist_comp freq al l q : (forall t, period freq = Ok t -> (t <? f0) = false) ->
  Forall (@well_formed T) l -> WP any (history (comp_run bc freq al) l q).
Proof.
  intros Hf Hl. eapply wp_history; [|exact Hl|exact I]. intros i s Hi _. unfold comp_run.
  eapply wp_bind; [apply wp_comp_feed; auto using iss_of|]. now intros (rc & s') _.
Qed.
Lemma hist_saam l q : Forall (fun i : reading T => given_or_null (accel i) /\ given_or_null (magn i)) l ->
  (bc = false \/ Forall (fun i : reading T => accel i <> None /\ magn i <> None) l) ->
  WP any (history (saam_run bc) l q).
Proof.
  intros Hl Hn. eapply wp_history with (G := fun i : reading T => (given_or_null (accel i) /\ given_or_null (magn i)) /\
    (bc = false \/ (accel i <> None /\ magn i <> None))); [|clear q; revert Hn; induction Hl; constructor; auto|exact I].
  - intros i s ((H1 & H2) & H3) _. unfold saam_run.
    eapply wp_bind; [apply wp_saam_feed; auto using given_iso|]. now intros (rc & s') _.
  - split; auto. destruct Hn as [|Hn]; [now left|right]. now inversion Hn.
  - apply IHHl. destruct Hn as [|Hn]; [now left|right]. now inversion Hn.
Qed.
Lemma hist_mahn freq incl l c q : Forall (@well_formed T) l -> vec_filled 3 (intfb c) ->
  WP (fun st => vec_filled 3 (intfb (fst st))) (history (mahn_run bc freq incl) l (c, q)).
Proof.
  intros Hl (Hc & Hb). eapply wp_imp with (P := fun st : mahn_cfg * quat T => isv 3 (intfb (fst st))).
  - eapply wp_history; [|exact Hl|split; [exact Hc|now apply filled_isb]]. intros i (c' & s) Hi Hv. unfold mahn_run.
    eapply wp_bind; [apply wp_mahn_feed; auto using iss_of|]. intros ((rc & s') & c2) (_ & H). exact H.
  - intros st (H1 & H2). split; [exact H1|now apply isb_filled].
Qed.
End H.

Section H2.
Context {T : Type} {N : Num T} {M : NumM T}.
Variable bc : bool.
Hypothesis L : lawful N.
Notation "'WP' P m" := (wp (~ total N) False P m) (at level 10, P at level 9, m at level 9).
Notation any := (fun _ => True).
Hypothesis Hacos : forall x : T, WP any (facos x).
Hypothesis Hasin : forall x : T, WP any (fasin x).
Hypothesis Hz : (fabs f0 >? flit 1 6) = false.
Hypothesis Hzd : forall m x : T, fdiv f0 m = Ok x -> (fabs x >? flit 1 6) = false.
Hypothesis H01 : in01 f0.
Hypothesis Hk : forall me k al, in01 al -> (me >? flit 1 1) = true -> (me <? flit 2 1) = true ->
  fdiv (flit 2 1 - me) (flit 1 1) = Ok k -> in01 (al * k).
Hypothesis Hslerp : forall h r i j k e u, fsqrt h = Ok r -> quat_to_unit quat_identity = Ok e ->
  quat_to_unit (Quat r i j k) = Ok u ->
  (fabs (qr e * qr u + qi e * qi u + qj e * qj u + qk e * qk u + flit 10 1) <? flit 1 6) = false.

Lemma hist_aqua freq ini c l q : Forall (@well_formed T) l ->
  (ini <> 0%Z \/ bc = false \/ Forall (fun i : reading T => accel i <> None) l) ->
  WP any (history (aqua_run bc freq) l (ini, c, q)).
Proof.
  intros Hl Hn. revert ini c q Hn. induction Hl as [|i l Hi Hl IH]; intros ini c q Hn; [exact I|].
  cbn [history]. unfold aqua_run at 1. cbn [fst snd]. unfold bind at 1 2.
  assert (W := @wp_aqua_feed T N M bc False L Hacos Hz H01 Hk Hslerp freq ini c (the_sens i q) (iss_of _ Hi)).
  assert (G : ini <> 0%Z \/ sa (the_sens i q) <> None \/ bc = false).
  { destruct Hn as [|[|Hn]]; auto. inversion Hn; subst. right; now left. }
  specialize (W G). destruct (aqua_feed bc freq ini c (the_sens i q)) as [(((rc & s) & c') & ini')|u| |]; try exact W.
  cbn [snd]. apply IH. destruct W as (_ & W). destruct Hn as [Hn|[Hn|Hn]]; auto. right; right. now inversion Hn.
Qed.
End H2.

Section H3.
Context {T : Type} {N : Num T} {M : NumM T}.
Variable bc : bool.
Hypothesis L : lawful N.
Notation "'WP' P m" := (wp (~ total N) False P m) (at level 10, P at level 9, m at level 9).
Notation any := (fun _ => True).
Hypothesis Hz : (fabs f0 >? flit 1 6) = false.
Hypothesis Hzd : forall m x : T, fdiv f0 m = Ok x -> (fabs x >? flit 1 6) = false.

Lemma hist_kalm freq incl ini c l q : Forall (@all_optional T) l ->
  (bc = true \/ Forall (@all_given T) l) ->
  room 4 4 (kP c) -> (ini <> 0%Z -> mtx_filled 4 4 (kP c)) ->
  WP any (history (kalm_run bc freq incl) l (ini, c, q)).
Proof.
  intros Hl Hn HR HP.
  eapply wp_imp with (P := fun st : Z * kalm_cfg * quat T => isP (fst (fst st)) (kP (snd (fst st)))); [|auto].
  eapply wp_history with (G := fun i => all_optional i /\ (bc = true \/ all_given i)).
  - intros i ((ini' & c') & q') ((G1 & G2 & G3) & G4) HI. cbn [fst snd] in HI. unfold kalm_run. cbn [fst snd].
    eapply wp_bind.
    + apply wp_kalm_feed with (s := the_sens i q'); [exact L|exact Hz|exact Hzd|now apply given_iso|now apply given_iso|now apply given_iso| |exact HI].
      destruct G4 as [|(K1 & K2 & K3)]; [now left|right]. repeat split; now apply given_some.
    + intros (((rc & s') & c2) & ini2) (_ & _ & _ & H & _). exact H.
  - destruct Hn as [Hb|Hn].
    + revert Hl. apply Forall_impl. intros i Hi. split; auto.
    + revert Hn. apply Forall_impl. intros i Hi. split; [now apply all_given_wf|now right].
  - cbn [fst snd]. split; [exact HR|]. intros Hi. specialize (HP Hi). eexists. exact (filled_ism N HP).
Qed.
End H3.

(** ** Exact arithmetic *)
Local Open Scope R_scope.
Lemma R_not_total : ~ total NumR.
Proof.
  intros (H & _). destruct (H 1 0) as (c & E). cbn in E. unfold Rdivo in E.
  destruct (Req_EM_T 0 0); [discriminate|lra].
Qed.
Lemma R_acos x : wp (~ total NumR) False (fun _ => True) (@facos R NumMR x).
Proof. cbn. unfold Racos. repeat destruct (Rle_dec _ _); cbn; auto using R_not_total. Qed.
Lemma R_asin x : wp (~ total NumR) False (fun _ => True) (@fasin R NumMR x).
Proof. cbn. unfold Rasin. repeat destruct (Rle_dec _ _); cbn; auto using R_not_total. Qed.
Lemma R_z : (@fabs R NumR f0 >? flit 1 6)%num = false.
Proof. rops. rewrite Rabs_R0. now rcases. Qed.
Lemma R_zd (m x : R) : fdiv f0 m = Ok x -> (fabs x >? flit 1 6)%num = false.
Proof.
  cbn [fdiv NumR]. unfold Rdivo. destruct (Req_EM_T m 0); [discriminate|]. intros [= <-].
  rops. unfold Rdiv. rewrite Rmult_0_l, Rabs_R0. now rcases.
Qed.
Lemma R_01 : in01 (N := NumR) f0.
Proof. unfold in01. rops. now rcases. Qed.
Lemma R_k (me k al : R) : in01 al -> (me >? flit 1 1)%num = true -> (me <? flit 2 1)%num = true ->
  fdiv (flit 2 1 - me)%num (flit 1 1) = Ok k -> in01 (al * k)%num.
Proof.
  unfold in01. rops. unfold Rdivo. destruct (Req_EM_T _ _) as [E|_]; [lra|].
  intros H1 H2 H3 [= <-].
  destruct (Rltb_spec al 0) as [|A1]; [discriminate|]. destruct (Rltb_spec (10 / 10) al) as [|A2]; [discriminate|].
  destruct (Rltb_spec (1 / 10) me) as [B1|]; [|discriminate]. destruct (Rltb_spec me (2 / 10)) as [B2|]; [|discriminate].
  assert (0 <= al * ((2 / 10 - me) / (1 / 10))) by (apply Rmult_le_pos; [lra|apply Rmult_le_pos; lra]).
  assert (al * ((2 / 10 - me) / (1 / 10)) <= 1 * 1) by (apply Rmult_le_compat; lra).
  now rcases.
Qed.
Lemma R_period freq : (0 <= freq)%Z -> forall t : R, period (N := NumR) freq = Ok t -> (t <? f0)%num = false.
Proof.
  intros H t. unfold period. cbn [fdiv NumR]. unfold Rdivo. destruct (Req_EM_T _ _) as [|E]; [discriminate|].
  intros [= <-]. apply IZR_le in H. cbn [fofZ NumR] in *. assert (0 < IZR freq) by lra. rops.
  assert (0 <= 10 / 10 / IZR freq) by (apply Rmult_le_pos; [lra|left; now apply Rinv_0_lt_compat]).
  now rcases.
Qed.
Lemma R_slerp (h r i j k : R) e u : fsqrt h = Ok r -> quat_to_unit (N := NumR) quat_identity = Ok e ->
  quat_to_unit (N := NumR) (Quat r i j k) = Ok u ->
  (fabs (qr e * qr u + qi e * qi u + qj e * qj u + qk e * qk u + flit 10 1) <? flit 1 6)%num = false.
Proof.
  rewrite !quat_to_unit_ok. cbn [fsqrt NumR]. unfold Rsqrto. destruct (Rle_dec 0 h); [|discriminate].
  intros [= <-] [= <-] [= <-]. rewrite (unitised_of_unit quat_identity).
  2:{ unfold unit_quat, qdot, quat_identity. cbn. lra. }
  unfold quat_identity. cbn [qr qi qj qk]. rops.
  assert (H : 0 <= qr (unitised (Quat (sqrt h) i j k))).
  { unfold unitised. destruct (Rlt_dec _ _) as [Hl|Hl]; cbn; [lra|]. apply Rmult_le_pos; [|apply sqrt_pos].
    left. apply Rinv_0_lt_compat. lra. }
  rewrite Rabs_right by lra. now rcases.
Qed.
