(** Not-a-number through straight-line formulas: tactics. *)
From Coq Require Import Floats.PrimFloat.
From Coq Require Import ZArith Bool List Lia.
From Verif Require Import Base Out NumF Libm BaseFacts SpecFltNan PBal PNanQuat PPoly.
Import ListNotations.

Lemma nan_div_l x y : nanf x -> nanf (x / y)%float.
Proof. unfold nanf. intros H. rewrite FloatAxioms.div_spec, H. reflexivity. Qed.
Lemma nan_opp x : nanf x -> nanf (- x)%float.
Proof. unfold nanf. intros H. rewrite FloatAxioms.opp_spec, H. reflexivity. Qed.

Lemma lost_set y : nanf y -> lost (Set_ y).
Proof. intros H. cbn. now apply is_nan_nanf. Qed.

Lemma libs (M : NumM double) : nan_through M ->
  (forall x, nanf x -> nanf (fexp x)) /\ (forall x, nanf x -> nanf (fsin x)) /\ (forall x, nanf x -> nanf (fcos x))
  /\ (forall x y, nanf x -> flog10 x = Ok y -> nanf y) /\ (forall x y, nanf x -> fasin x = Ok y -> nanf y)
  /\ (forall x y z, nanf x -> (y =? 0)%float = false -> fpow x y = Ok z -> nanf z)
  /\ (forall x y z, nanf y -> (x =? 1)%float = false -> fpow x y = Ok z -> nanf z).
Proof.
  intros (A & B & C & D & E & F & G). repeat split; intros *; rewrite <- ?is_nan_nanf; eauto.
Qed.

(** some value known to be NaN occurs in t *)
Ltac has t := match goal with H : nanf ?v |- _ => match t with context [v] => idtac end end.

Ltac nan_step :=
  first [ assumption | lazymatch goal with
  | |- nanf (- _)%float => apply nan_opp; nan_step
  | |- nanf (PrimFloat.sqrt _) => apply nan_sqrt; nan_step
  | |- nanf (PrimFloat.abs _) => apply nan_abs; nan_step
  | |- nanf (?a + ?b)%float => first [has a; apply nan_add_l; nan_step | has b; apply nan_add_r; nan_step]
  | |- nanf (?a - ?b)%float => first [has a; apply nan_sub_l; nan_step | has b; apply nan_sub_r; nan_step]
  | |- nanf (?a * ?b)%float => first [has a; apply nan_mul_l; nan_step | has b; apply nan_mul_r; nan_step]
  | |- nanf (?a / ?b)%float => first [has a; apply nan_div_l; nan_step | has b; apply nan_div_r; nan_step]
  | H : forall x, nanf x -> nanf (fexp x) |- nanf (fexp ?a) => has a; apply H; nan_step
  | H : forall x, nanf x -> nanf (fsin x) |- nanf (fsin ?a) => has a; apply H; nan_step
  | H : forall x, nanf x -> nanf (fcos x) |- nanf (fcos ?a) => has a; apply H; nan_step
  end ].

(** what the library answers with a code *)
Ltac nan_libs :=
  repeat match goal with
  | H : forall x y, nanf x -> ?f x = Ok y -> nanf y, E : ?f ?a = Ok ?z |- _ =>
      lazymatch goal with N : nanf z |- _ => fail | _ => idtac end;
      has a; assert (nanf z) by (apply (H a z); [nan_step | exact E])
  | H : forall x y z, nanf x -> _ -> fpow x y = Ok z -> nanf z, E : fpow ?a ?b = Ok ?z |- _ =>
      lazymatch goal with N : nanf z |- _ => fail | _ => idtac end;
      has a; assert (nanf z) by (apply (H a b z); [nan_step | vm_compute; reflexivity | exact E])
  | H : forall x y z, nanf y -> _ -> fpow x y = Ok z -> nanf z, E : fpow ?a ?b = Ok ?z |- _ =>
      lazymatch goal with N : nanf z |- _ => fail | _ => idtac end;
      has b; assert (nanf z) by (apply (H a b z); [nan_step | vm_compute; reflexivity | exact E])
  end.

(** every argument in turn, every path through the guards *)
Ltac nan_cases H :=
  unfold nan_among in H;
  repeat match type of H with
  | Exists _ (_ :: _) => apply Exists_cons in H; destruct H as [H|H]
  | Exists _ [] => apply Exists_nil in H; contradiction
  end.

Ltac paths E :=
  repeat first
  [ match type of E with (if ?b then _ else _) = Ok _ => destruct b end
  | match type of E with bind (if ?b then _ else _) _ = Ok _ => destruct b end
  | match type of E with bind (Ok _) _ = Ok _ => cbn [bind] in E end
  | match type of E with bind ?m _ = Ok _ => let x := fresh "x" in let K := fresh "K" in
      destruct m as [x| | |] eqn:K; cbn [bind] in E; try discriminate E end ];
  match type of E with Ok _ = Ok _ => injection E as <- <- | _ => idtac end.

Ltac nan_in d :=
  match goal with L : nan_through ?M |- _ =>
    let H := fresh "H" in let E := fresh "E" in
    destruct (libs M L) as (? & ? & ? & ? & ? & ? & ?);
    intros; match goal with H : nan_among _ |- _ => nan_cases H; apply is_nan_nanf in H end;
    match goal with E : _ = Ok _ |- _ =>
      unfold d in E; cbn [flt fle feq f0 f1 fadd fsub fmul fdiv fneg fabs fsqrt flit fofZ NumF bind] in E;
      cbv zeta in E; paths E end; first [exact I | nan_libs; apply lost_set; nan_step]
  end.

(** a sum over a vector *)
Lemma nan_loop (g : double -> outcome double) (xs : list double) tl r0 r :
  (forall a q, nanf a -> g a = Ok q -> nanf q) ->
  Exists nanf xs ->
  for_ (length xs) 0 (fun j r => let! a := rd (cells xs ++ tl) j in let! q := g a in Ok (r + q)%float) r0 = Ok r ->
  nanf r.
Proof.
  intros G X E. apply Exists_exists in X. destruct X as (x & I & Nx). apply (In_nth _ _ zero) in I. destruct I as (k & K & <-).
  match type of E with for_ ?n ?l ?b ?s = _ => pose proof (@for_ok_inv double (fun i r => (k < i)%nat -> nanf r) n l b s r) as F end.
  apply F; auto; [lia|]. clear F E.
  intros i s1 s2 Hi IH B J. rewrite (rd_cells_app xs tl zero) in B by lia. cbn [bind] in B.
  apply bind_ok in B. destruct B as (q & Q & B). injection B as <-.
  destruct (Nat.eq_dec i k) as [->|N]; [apply nan_add_r; eapply G; eauto | apply nan_add_l, IH; lia].
Qed.

Lemma nan_among_nanf xs : nan_among xs -> Exists nanf xs.
Proof. apply Exists_impl. intros a. apply is_nan_nanf. Qed.
