(** Property C158: results written over an operand.

    C03, C09, C22, C24, C26 and C67 say that adding, multiplying, transposing,
    the cross product and the quaternion product may overwrite an operand.
    Here are the calls where the answer depends on which operand it is. *)
From Coq Require Import List Arith ZArith Bool Lia Reals Lra PrimFloat.
From Verif Require Import Base NumR NumF BaseFacts SpecMtx SpecVec SpecReal SpecGauss MVec MMtx MAlias PVec PVecR PMtx PMtxOps PMtxR PDet PAlias.
Import ListNotations.
Local Open Scope R_scope.

(** zsl_vec_project(u, v, u): the projection of v on u replaces u; nothing else changes. *)
Theorem C158_project_over_u :
  forall bc (st : store R) pu pv us vs tu tv n,
  nth_error st pu = Some (cells us ++ tu) -> nth_error st pv = Some (cells vs ++ tv) ->
  length us = n -> length vs = n -> Exists (fun x => x <> 0) us ->
  exists k ws,
    vec_project_st bc st (VR n pu) (VR n pv) (VR n pu) = Ok (0%Z, upd st pu (cells ws ++ tu))
    /\ ws = rscale k us /\ rdot (map2 Rminus vs ws) us = 0.
Proof.
  intros bc st pu pv us vs tu tv n Eu Ev Lu Lv H. pose proof (some_nonzero H) as P.
  exists (rdot vs us / rdot us us), (rscale (rdot vs us / rdot us us) us). split; [|split; [reflexivity|]].
  - rewrite (@project_over_first bc st pu pv us vs tu tv n) by auto. now rewrite map_mult_r_scale.
  - rewrite rdot_sub_l by (unfold rscale; rewrite map_length; congruence). rewrite rdot_scale_l. field. auto.
Qed.
Print Assumptions C158_project_over_u.

(** zsl_vec_project(u, v, v): v becomes a copy of u, whatever v was.  That is
    its projection only if v - u is orthogonal to u. *)
Theorem C158_project_over_v_refuted :
  forall bc (st : store R) pu pv us vs tu tv n,
  nth_error st pu = Some (cells us ++ tu) -> nth_error st pv = Some (cells vs ++ tv) -> pu <> pv ->
  length us = n -> length vs = n -> Exists (fun x => x <> 0) us ->
  vec_project_st bc st (VR n pu) (VR n pv) (VR n pv) = Ok (0%Z, upd st pv (cells us ++ tv))
  /\ forall vs', length vs' = n ->
       vec_project_st bc (upd st pv (cells vs' ++ tv)) (VR n pu) (VR n pv) (VR n pv)
       = vec_project_st bc st (VR n pu) (VR n pv) (VR n pv).
Proof.
  intros bc st pu pv us vs tu tv n Eu Ev Ne Lu Lv H. pose proof (some_nonzero H) as P.
  assert (L : (pv < length st)%nat) by (apply nth_error_Some; congruence).
  assert (E : vec_project_st bc st (VR n pu) (VR n pv) (VR n pv) = Ok (0%Z, upd st pv (cells us ++ tv)))
    by (eapply project_over_second; eauto).
  split; [exact E|]. intros vs' Lv'. rewrite E. rewrite <- (upd_upd st pv (cells vs' ++ tv) (cells us ++ tv)).
  eapply project_over_second; eauto; [rewrite nth_error_upd_ne by auto; exact Eu | now apply nth_error_upd_eq].
Qed.
Print Assumptions C158_project_over_v_refuted.

Example C158_project_example :
  vec_project_st true [cells [F 2 0; F 0 0]; cells [F 3 0; F 5 0]] (VR 2 0) (VR 2 1) (VR 2 0)
  = Ok (0%Z, [cells [F 3 0; F 0 0]; cells [F 3 0; F 5 0]])
  /\ vec_project_st true [cells [F 2 0; F 0 0]; cells [F 3 0; F 5 0]] (VR 2 0) (VR 2 1) (VR 2 1)
  = Ok (0%Z, [cells [F 2 0; F 0 0]; cells [F 2 0; F 0 0]]).
Proof. vm_compute. split; reflexivity. Qed.

(** zsl_mtx_inv(m, m) answers 0 and the identity matrix for every matrix that
    is not 3 x 3: the copy it makes of m is not what it inverts. *)
Theorem C158_inverse_in_place_refuted :
  forall bc n (f : nat -> nat -> R) tf, (0 < n)%nat -> n <> 3%nat ->
  mtx_inv_self bc (mat_of n n f tf) = Ok (0%Z, mat_of n n (fun i j => if (i =? j)%nat then 1 else 0) tf).
Proof. intros. now apply mtx_inv_self_ok. Qed.
Print Assumptions C158_inverse_in_place_refuted.

(** The inverse of diag(a, 1, 1), in place *)
Theorem C158_inverse3_in_place_refuted :
  forall bc a, a <> 0 ->
  mtx_inv_self bc (mat_of 3 3 (fun i j => if (i =? j)%nat then if (i =? 0)%nat then a else 1 else 0) [])
  = Ok (0%Z, mat_of 3 3 (fun i j => if (i =? j)%nat then / a else 0) []).
Proof.
  intros bc a Ha. unfold mtx_inv_self.
  set (f := fun i j : nat => if (i =? j)%nat then if (i =? 0)%nat then a else 1 else 0).
  change (mrows (mat_of 3 3 f []) =? 3)%nat with true. cbv iota.
  unfold mtx_inv_3x3_self.
  change (mrows (mat_of 3 3 f [])) with 3%nat. change (mcols (mat_of 3 3 f [])) with 3%nat.
  rewrite Nat.eqb_refl. cbn [negb]. rewrite andb_false_r.
  rewrite deter_3x3_ok. cbn [bind]. change (negb (0 =? 0)%Z) with false. cbv iota.
  assert (D : ldet 3 f = a) by (unfold f; cbn; ring). rewrite D.
  assert (A : mtx_adjoint_3x3_self bc (mat_of 3 3 f []) = Ok (0%Z, mat_of 3 3 (fun i j => if (i =? j)%nat then 1 else 0) [])).
  { unfold mtx_adjoint_3x3_self, adjoint_3x3_st.
    change (mrows (mat_of 3 3 f [])) with 3%nat. change (mcols (mat_of 3 3 f [])) with 3%nat. cbn [rrows rcols mptr].
    rewrite Nat.eqb_refl. cbn [negb orb]. rewrite andb_false_r.
    cbn -[Rmult Rminus]. unfold mat_of. cbn -[Rmult Rminus]. repeat f_equal; ring. }
  rewrite A. cbn [bind]. change (negb (0 =? 0)%Z) with false. cbv iota. cbn [lval bind].
  unfold fne. cbn [feq NumR f0]. unfold Reqb. destruct (Req_EM_T a 0); [contradiction|]. cbn [negb].
  cbn [fdiv f1 NumR]. rewrite Rdivo_ok by auto. cbn [bind].
  rewrite mtx_scalar_mult_d_ok. cbn [bind]. f_equal. f_equal. apply mat_ext. intros i j _ _.
  cbn [fmul NumR]. destruct (i =? j)%nat; field; auto.
Qed.
Print Assumptions C158_inverse3_in_place_refuted.

(** zsl_mtx_adjoint(m, m), 2 x 2: the second row is computed from the new first row. *)
Theorem C158_adjoint2_in_place_refuted :
  forall bc a b c d,
  mtx_adjoint_self bc (Mtx 2 2 (cells [a; b; c; d])) = Ok (0%Z, Mtx 2 2 (cells [d; - c; c; d]))
  /\ mtx_adjoint bc (Mtx 2 2 (cells [a; b; c; d])) (mtx_def 2 2) = Ok (0%Z, Mtx 2 2 (cells [d; - c; - b; a])).
Proof.
  intros [] a b c d; (split;
   [unfold mtx_adjoint_self | unfold mtx_adjoint]; cbn -[Rmult Rplus Ropp]; unfold cells; cbn [map]; repeat f_equal; ring).
Qed.
Print Assumptions C158_adjoint2_in_place_refuted.

(** zsl_mtx_adjoint(m, m) of diag(a, 1, 1), whose adjoint is diag(1, a, a) *)
Theorem C158_adjoint3_in_place_refuted :
  forall bc a,
  mtx_adjoint_self bc (Mtx 3 3 (cells [a; 0; 0; 0; 1; 0; 0; 0; 1]))
  = Ok (0%Z, Mtx 3 3 (cells [1; 0; 0; 0; 1; 0; 0; 0; 1]))
  /\ mtx_adjoint bc (Mtx 3 3 (cells [a; 0; 0; 0; 1; 0; 0; 0; 1])) (mtx_def 3 3)
  = Ok (0%Z, Mtx 3 3 (cells [1; 0; 0; 0; a; 0; 0; 0; a])).
Proof.
  intros [] a; (split; [unfold mtx_adjoint_self, mtx_adjoint_3x3_self | unfold mtx_adjoint, mtx_adjoint_3x3];
   cbn -[Rmult Rminus]; unfold cells; cbn [map]; repeat f_equal; ring).
Qed.
Print Assumptions C158_adjoint3_in_place_refuted.

(** A matrix of the wrong shape is refused and left as it was, also in place *)
Theorem C158_shape_refused :
  forall (T : Type) (N : Num T) bc (m : mtx T), mrows m <> mcols m ->
  mtx_adjoint_3x3_self bc m = Ok ((- EINVAL)%Z, m)
  /\ mtx_inv_3x3_self bc m = Ok ((- EINVAL)%Z, m)
  /\ mtx_inv_self bc m = Ok ((- EINVAL)%Z, m)
  /\ mtx_adjoint_self true m = Ok ((- EINVAL)%Z, m).
Proof.
  intros T N bc m H. apply Nat.eqb_neq in H.
  assert (A : forall b, mtx_adjoint_3x3_self b m = Ok ((- EINVAL)%Z, m)).
  { intros b. unfold mtx_adjoint_3x3_self, adjoint_3x3_st. cbn [rrows rcols]. rewrite H. cbn [negb orb bind nth]. now destruct m. }
  assert (I : mtx_inv_3x3_self bc m = Ok ((- EINVAL)%Z, m)) by (unfold mtx_inv_3x3_self; now rewrite H).
  refine (conj (A bc) (conj I (conj _ _))).
  - unfold mtx_inv_self. destruct (mrows m =? 3)%nat; [exact I | now rewrite H].
  - unfold mtx_adjoint_self. destruct (mrows m =? 3)%nat; [apply A | now rewrite H].
Qed.
Print Assumptions C158_shape_refused.

Theorem C158_size_refused :
  forall (T : Type) (N : Num T) (m : mtx T), mrows m <> 3%nat ->
  mtx_adjoint_3x3_self true m = Ok ((- EINVAL)%Z, m) /\ mtx_inv_3x3_self true m = Ok ((- EINVAL)%Z, m).
Proof.
  intros T N m H. destruct (Nat.eq_dec (mrows m) (mcols m)) as [E|E].
  - apply Nat.eqb_neq in H. split.
    + unfold mtx_adjoint_3x3_self, adjoint_3x3_st. cbn [rrows rcols]. rewrite <- E, Nat.eqb_refl, H. cbn [negb orb andb bind nth].
      destruct m as [r c b]. cbn in *. now subst.
    + unfold mtx_inv_3x3_self. rewrite <- E, Nat.eqb_refl, H. reflexivity.
  - destruct (@C158_shape_refused T N true m E) as (A & B & _). auto.
Qed.
Print Assumptions C158_size_refused.

Example C158_refused_example : mrows (mat_of 2 3 (fun _ _ => 0) []) <> mcols (mat_of 2 3 (fun _ _ => 0) [])
  /\ mrows (mat_of 2 2 (fun _ _ => 0) []) <> 3%nat.
Proof. split; cbn; discriminate. Qed.


(** zsl_vec_sort(v, v) answers 0 and overwrites elements before they are counted. *)
Theorem C158_sort_in_place_refuted :
  vec_sort_self 10 (Some nan) (vec_of [2; 1]%float []) = Ok (0%Z, vec_of [1; 1]%float [])
  /\ vec_sort_self 10 (Some nan) (vec_of [3; 1; 2]%float []) = Ok (0%Z, vec_of [1; 1; 2]%float [])
  /\ vec_sort 10 (Some nan) (vec_of [3; 1; 2]%float []) (Vec 3 (fresh 3)) = Ok (0%Z, vec_of [1; 2; 3]%float []).
Proof. vm_compute. repeat split. Qed.
Print Assumptions C158_sort_in_place_refuted.
