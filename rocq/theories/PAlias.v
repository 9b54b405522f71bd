(** Calls that write their result over an operand: lemmas. *)
From Coq Require Import List Arith ZArith Bool Lia Reals Lra.
From Verif Require Import Base NumR BaseFacts SpecMtx SpecVec SpecReal SpecGauss MVec MMtx MAlias PVec PVecR PMtx PMtxOps PMtxR PDet PGauss.
Import ListNotations.
Set Implicit Arguments.
Local Open Scope R_scope.

(** ** Projection *)
Lemma scale_store (st : store R) p xs tl s n :
  nth_error st p = Some (cells xs ++ tl) -> length xs = n ->
  for_ n 0 (fun i st => let! a := srd st p i in swr st p i (fmul a s)) st
  = Ok (upd st p (cells (map (fun x => fmul x s) xs) ++ tl)).
Proof.
  intros E L.
  assert (Lp : (p < length st)%nat) by (apply nth_error_Some; congruence).
  assert (G : forall todo done, xs = done ++ todo ->
    for_ (length todo) (length done) (fun i st => let! a := srd st p i in swr st p i (fmul a s))
      (upd st p (cells (map (fun x => fmul x s) done ++ todo) ++ tl))
    = Ok (upd st p (cells (map (fun x => fmul x s) (done ++ todo)) ++ tl))).
  { induction todo as [|a todo IH]; intros done Ex; cbn [for_ length].
    - now rewrite !app_nil_r.
    - unfold srd at 1. rewrite nth_error_upd_eq by auto. cbn [bind].
      rewrite rd_cells_app with (d := a) by (rewrite app_length, map_length; cbn; lia). cbn [bind].
      assert (Lm : length done = length (map (fun x => fmul x s) done)) by (now rewrite map_length).
      rewrite Lm, nth_middle.
      unfold swr at 1. rewrite nth_error_upd_eq by auto. cbn [bind].
      rewrite wr_cells_app by (rewrite app_length, map_length; cbn; lia). cbn [bind].
      rewrite upd_upd, upd_app_mid, <- Lm.
      specialize (IH (done ++ [a])). rewrite app_length, Nat.add_1_r in IH. rewrite map_app in IH.
      rewrite <- !app_assoc in IH. apply IH. exact Ex. }
  specialize (G xs [] eq_refl). cbn [app length map] in G. rewrite <- L.
  rewrite upd_same in G by exact E. exact G.
Qed.

Lemma project_into (st : store R) bc pu pv pw us vs ws tu tv tw n :
  nth_error st pu = Some (cells us ++ tu) -> nth_error st pv = Some (cells vs ++ tv) ->
  length us = n -> length vs = n -> (pw < length st)%nat ->
  sblit st pu 0 pw 0 n = Ok (upd st pw (cells us ++ tw)) ->
  nth_error (upd st pw (cells us ++ tw)) pu = Some (cells us ++ tu) ->
  (exists t, nth_error (upd st pw (cells us ++ tw)) pv = Some (cells ws ++ t)) -> length ws = n ->
  rdot us us <> 0 ->
  vec_project_st bc st (VR n pu) (VR n pv) (VR n pw)
  = Ok (0%Z, upd st pw (cells (map (fun x => x * (rdot ws us / rdot us us)) us) ++ tw)).
Proof.
  intros Eu Ev Lu Lv Lw B Eu' (t & Ev') Lws Hd. unfold vec_project_st. cbn [rsz rptr].
  rewrite Nat.eqb_refl. cbn [negb orb]. rewrite andb_false_r. rewrite B. cbn [bind].
  rewrite (@sdot_ok _ _ _ _ _ _ _ _ _ _ Ev' Eu') by auto. cbn [bind].
  rewrite (@sdot_ok _ _ _ _ _ _ _ _ _ _ Eu' Eu') by auto. cbn [bind].
  rewrite !dot_rdot. cbn [fdiv NumR]. rewrite Rdivo_ok by exact Hd. cbn [bind].
  erewrite scale_store; [|apply nth_error_upd_eq; auto|auto]. cbn [bind]. rewrite upd_upd. reflexivity.
Qed.

Lemma sblit_cells (st : store R) p q us tu b n :
  nth_error st p = Some (cells us ++ tu) -> nth_error st q = Some b -> length us = n -> (n <= length b)%nat ->
  sblit st p 0 q 0 n = Ok (upd st q (cells us ++ skipn n b)).
Proof. intros E1 E2 L Lb. unfold sblit. rewrite E1, E2. subst n. rewrite blit_cells by auto. reflexivity. Qed.

Lemma project_over_first bc (st : store R) pu pv us vs tu tv n :
  nth_error st pu = Some (cells us ++ tu) -> nth_error st pv = Some (cells vs ++ tv) ->
  length us = n -> length vs = n -> rdot us us <> 0 ->
  vec_project_st bc st (VR n pu) (VR n pv) (VR n pu)
  = Ok (0%Z, upd st pu (cells (map (fun x => x * (rdot vs us / rdot us us)) us) ++ tu)).
Proof.
  intros Eu Ev Lu Lv Hd.
  assert (L : (pu < length st)%nat) by (apply nth_error_Some; congruence).
  assert (S : upd st pu (cells us ++ tu) = st) by now apply upd_same.
  eapply project_into; eauto; rewrite ?S; eauto.
  unfold sblit. rewrite Eu. rewrite blit_cells by (auto; rewrite app_length, cells_length; lia).
  rewrite skipn_app_all by (now rewrite cells_length). cbn [bind]. now rewrite S.
Qed.

Lemma project_over_second bc (st : store R) pu pv us vs tu tv n :
  nth_error st pu = Some (cells us ++ tu) -> nth_error st pv = Some (cells vs ++ tv) -> pu <> pv ->
  length us = n -> length vs = n -> rdot us us <> 0 ->
  vec_project_st bc st (VR n pu) (VR n pv) (VR n pv) = Ok (0%Z, upd st pv (cells us ++ tv)).
Proof.
  intros Eu Ev Ne Lu Lv Hd.
  assert (L : (pv < length st)%nat) by (apply nth_error_Some; congruence).
  erewrite project_into with (ws := us) (tw := tv); eauto.
  - assert (E : map (fun x => x * (rdot us us / rdot us us)) us = us); [|now rewrite E].
    rewrite <- map_id. apply map_ext. intros x. unfold Rdiv. rewrite Rinv_r by auto. lra.
  - rewrite (@sblit_cells st pu pv us tu (cells vs ++ tv)) by (auto; rewrite app_length, cells_length; lia).
    rewrite skipn_app_all by (rewrite cells_length; auto). reflexivity.
  - rewrite nth_error_upd_ne by auto. exact Eu.
  - exists tv. now apply nth_error_upd_eq.
Qed.

Lemma some_nonzero us : Exists (fun x => x <> 0) us -> rdot us us <> 0.
Proof.
  intros Hu E. apply rdot_self_zero in E. rewrite Exists_exists in Hu.
  destruct Hu as (x & Hx & H0). rewrite Forall_forall in E. now apply H0, E.
Qed.

(** ** Inverse *)
Lemma gj_mid n k : (k <= n)%nat -> forall i j, (i < n)%nat -> (j < n)%nat -> gj n k mid i j = mid i j.
Proof.
  induction k as [|k IH]; intros Hk i j Hi Hj; [reflexivity|]. cbn [gj].
  assert (I := IH ltac:(lia)). set (g := gj n k mid) in *.
  assert (P : pivoted n k g = g).
  { unfold pivoted. destruct Req_EM_T as [E|]; auto. exfalso. rewrite I in E by lia.
    unfold mid in E. rewrite Nat.eqb_refl in E. cbn in E. lra. }
  rewrite P. unfold cleared. rewrite !I by lia. unfold mid. cbn [f1 f0 NumR].
  rewrite Nat.eqb_refl. destruct (Nat.eqb_spec i k) as [->|]; [field|].
  replace (0 / 1) with 0 by field. ring.
Qed.

Lemma nonsing_mid n : nonsing n mid.
Proof.
  intros x H i Hi. specialize (H i Hi). unfold kills in H. rewrite <- H.
  symmetry. rewrite (bigsum_ext n _ (fun j => if (j =? i)%nat then x j else 0)).
  - now apply (bigsum_delta n (fun k => x k)).
  - intros j Hj. unfold mid. cbn [f1 f0 NumR]. rewrite Nat.eqb_sym. destruct (Nat.eqb_spec j i); ring.
Qed.

Lemma mtx_inv_self_ok bc n (f : nat -> nat -> R) tf :
  (0 < n)%nat -> n <> 3%nat -> mtx_inv_self bc (mat_of n n f tf) = Ok (0%Z, mat_of n n mid tf).
Proof.
  intros Hn H3. unfold mtx_inv_self.
  change (mrows (mat_of n n f tf)) with n. change (mcols (mat_of n n f tf)) with n.
  rewrite (proj2 (Nat.eqb_neq n 3)) by auto. rewrite Nat.eqb_refl. cbn [negb].
  rewrite mtx_copy_local. cbn [bind]. change (negb (0 =? 0)%Z) with false. cbv iota.
  rewrite (@mtx_init_identity _ _ bc n n) by apply mat_room. cbn [bind]. change (negb (0 =? 0)%Z) with false. cbv iota.
  rewrite mat_rest. rewrite mtx_deter_ok by auto. cbn [bind]. destruct (feq _ _); [reflexivity|].
  rewrite gauss_reduc_ok; [|apply mat_room|apply nonsing_mid|].
  - cbn [bind]. f_equal. f_equal. apply mat_ext. intros i j Hi Hj.
    rewrite <- (@mmul_id_r n (gjh n n mid mid) i j) by auto. rewrite gjh_mmul by auto. now apply gj_mid.
  - intros k i Hk Hi. rewrite gj_mid by lia. unfold mid. cbn [f1 f0 NumR].
    destruct (i =? k)%nat; [right; rewrite Rabs_R1; lra|now left].
Qed.
