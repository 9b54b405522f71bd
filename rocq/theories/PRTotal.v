(** Exact arithmetic with a total division: where the library tests a number
    before dividing by it, the run is the same. *)
From Coq Require Import List Arith ZArith Bool Lia Reals Lra.
From Verif Require Import Base BaseFacts NumR RTac SpecVec SpecMtx SpecSafe MVec MMtx PVec PMtx PMtxOps PSafe PSafeMx PropSafe.
Import ListNotations.
Set Implicit Arguments.
Local Open Scope R_scope.

Definition NumRt : Num R := {|
  f0 := 0; f1 := 1; fadd := Rplus; fsub := Rminus; fmul := Rmult; fdiv := fun x y => Ok (x / y);
  fneg := Ropp; fabs := Rabs; fsqrt := fun x => Ok (sqrt x); flt := Rltb; fle := Rleb; feq := Reqb;
  fbits := Reqb; flit := Rlit; fofZ := IZR; fnan := 0 |}.

Lemma total_Rt : total NumRt.
Proof. split; intros; eexists; reflexivity. Qed.
Lemma lawful_Rt : lawful NumRt.
Proof. apply total_lawful, total_Rt. Qed.
Lemma Rt_answers A (P : A -> Prop) (m : outcome A) : wp (~ total NumRt) False P m -> exists r, m = Ok r /\ P r.
Proof.
  destruct m as [a|u| |]; cbn; intros H; try contradiction; [eauto|]. exfalso. exact (H total_Rt).
Qed.

Lemma bind_ext A B (m : outcome A) (k k' : A -> outcome B) : (forall a, k a = k' a) -> bind m k = bind m k'.
Proof. intros H. destruct m; cbn; auto. Qed.
Lemma not_tiny x : is_tiny (N := NumR) x = false -> x <> 0.
Proof.
  unfold is_tiny. rops. intros H ->. revert H. rcases; discriminate.
Qed.
Lemma Rdivo_Rt x y : y <> 0 -> Rdivo x y = Ok (x / y).
Proof. intros H. unfold Rdivo. destruct (Req_EM_T y 0); [contradiction|reflexivity]. Qed.

Section X.
Variable bc : bool.
Implicit Types m mg mi : mtx R.

Lemma elim_body_Rt mg mi i j : gauss_elim_body (N := NumR) bc mg mi i j = gauss_elim_body (N := NumRt) bc mg mi i j.
Proof.
  unfold gauss_elim_body.
  change (mtx_get (T := R) bc mg i j) with (mtx_get (T := R) bc mg i j).
  apply bind_ext. intros (rc & [y|]); [|reflexivity].
  change (is_tiny (N := NumRt) y) with (is_tiny (N := NumR) y).
  destruct (is_tiny y) eqn:Ey; [reflexivity|]. apply not_tiny in Ey.
  match goal with |- bind ?a ?k = bind ?b ?k' => assert (E : a = b); [|rewrite E; reflexivity] end.
  apply for_exit_ext. intros p ((mg' & mi') & x) _. destruct (p =? i)%nat; [reflexivity|].
  apply bind_ext. intros x'. apply bind_ext. intros xv.
  change (is_big (N := NumRt) xv) with (is_big (N := NumR) xv). destruct (is_big xv); [|reflexivity].
  cbn [fdiv NumR NumRt]. rewrite Rdivo_Rt by exact Ey. reflexivity.
Qed.
Lemma gauss_elim_Rt m mg mi i j : mtx_gauss_elim (N := NumR) bc m mg mi i j = mtx_gauss_elim (N := NumRt) bc m mg mi i j.
Proof.
  unfold mtx_gauss_elim. apply bind_ext. intros (rc & mg'). destruct (negb _); [reflexivity|]. apply elim_body_Rt.
Qed.
Lemma norm_elem_Rt m mn mi i j : mtx_norm_elem (N := NumR) bc m mn mi i j = mtx_norm_elem (N := NumRt) bc m mn mi i j.
Proof.
  unfold mtx_norm_elem. apply bind_ext. intros (rc & mg'). destruct (negb _); [reflexivity|].
  unfold norm_elem_body. apply bind_ext. intros (rc' & [y|]); [|reflexivity].
  change (is_tiny (N := NumRt) y) with (is_tiny (N := NumR) y).
  destruct (is_tiny y) eqn:Ey; [reflexivity|]. apply not_tiny in Ey.
  cbn [fdiv NumR NumRt]. rewrite Rdivo_Rt by exact Ey. reflexivity.
Qed.
Lemma gauss_reduc_Rt m mi mg : mtx_gauss_reduc (N := NumR) bc m mi mg = mtx_gauss_reduc (N := NumRt) bc m mi mg.
Proof.
  unfold mtx_gauss_reduc. apply bind_ext. intros (rc & mg').
  match goal with |- bind ?a ?k = bind ?b ?k' => assert (E : a = b); [|rewrite E; reflexivity] end.
  apply for_ext. intros k ((((mi1 & mg1) & v) & x) & y) _.
  apply bind_ext. intros x'. apply bind_ext. intros xv.
  match goal with |- bind ?a ?k = bind ?b ?k' => change b with a end.
  apply bind_ext. intros (((mi2 & mg2) & v2) & y2).
  unfold mtx_gauss_elim_d. rewrite gauss_elim_Rt. apply bind_ext. intros (rc1 & (mg3 & mi3)).
  unfold mtx_norm_elem_d. rewrite norm_elem_Rt. reflexivity.
Qed.
Lemma inv_Rt m mi : mtx_inv (N := NumR) bc m mi = mtx_inv (N := NumRt) bc m mi.
Proof.
  unfold mtx_inv. destruct (mrows m =? 3)%nat.
  - unfold mtx_inv_3x3. destruct (_ || _); [reflexivity|]. destruct (_ && _); [reflexivity|].
    apply bind_ext. intros (rc & d). destruct (negb _); [reflexivity|].
    apply bind_ext. intros (rc' & mi'). destruct (negb _); [reflexivity|].
    apply bind_ext. intros d'. change (fne (N := NumRt) d' f0) with (fne (N := NumR) d' f0).
    destruct (fne d' f0) eqn:E; [|reflexivity]. cbn [fdiv NumR NumRt]. rewrite Rdivo_Rt; [reflexivity|].
    revert E. unfold fne. cbn [feq f0 NumR]. destruct (Reqb_spec d' 0); [discriminate|auto].
  - destruct (_ || _); [reflexivity|]. destruct (_ && _); [reflexivity|].
    apply bind_ext. intros (rc & mt). destruct (negb _); [reflexivity|].
    apply bind_ext. intros (rc' & mi'). destruct (negb _); [reflexivity|].
    apply bind_ext. intros (rc2 & d').
    match goal with |- (if ?a then _ else _) = (if ?b then _ else _) => change b with a; destruct a; [reflexivity|] end.
    rewrite gauss_reduc_Rt. reflexivity.
Qed.

(** In exact arithmetic the elimination and the inversion always answer *)
Lemma inv_answers n m mi : mtx_filled n n m -> room n n mi ->
  exists r, mtx_inv (N := NumR) bc m mi = Ok (0%Z, r) /\ mtx_filled n n r.
Proof.
  intros Hm Hi. rewrite inv_Rt.
  destruct (Rt_answers _ _ (@wp_inv R NumRt bc False lawful_Rt n _ m mi (filled_ism NumRt Hm) Hi)) as ((rc & r) & E & E0 & t & H).
  cbn in E0. subst rc. exists r. split; [exact E|]. cbn in H. eauto using ism_filled.
Qed.
Lemma gauss_reduc_answers r c ci m mi mg : (r <= c)%nat -> mtx_filled r c m -> mtx_filled r ci mi -> room r c mg ->
  exists mi' mg', mtx_gauss_reduc (N := NumR) bc m mi mg = Ok (0%Z, (mi', mg')) /\ mtx_filled r ci mi' /\ mtx_filled r c mg'.
Proof.
  intros Hrc Hm Hi Hg. rewrite gauss_reduc_Rt.
  destruct (Rt_answers _ _ (@wp_gauss_reduc R NumRt bc False lawful_Rt r c _ ci _ m mi mg Hrc (filled_ism NumRt Hm) (filled_ism NumRt Hi) Hg))
    as ((rc & (mi' & mg')) & E & E0 & H1 & H2).
  cbn in E0, H1, H2. subst rc. eauto 10 using ism_filled.
Qed.
End X.
