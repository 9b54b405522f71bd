(** Determinants, adjoints and the 3x3 inverse computed by the library, in real
    arithmetic, in terms of the Laplace expansion [ldet]. *)
From Coq Require Import List Arith ZArith Bool Lia Reals Lra.
From Verif Require Import Base NumR BaseFacts SpecMtx SpecReal MVec MMtx PMtx PMtxOps PMtxR.
Import ListNotations.
Set Implicit Arguments.
Local Open Scope R_scope.

Lemma for_exit_inv S X (P : nat -> S -> Prop) n lo (body : nat -> S -> outcome (S + X)) s :
  P lo s ->
  (forall i s, (lo <= i < lo + n)%nat -> P i s ->
     exists s', body i s = Ok (inl s') /\ P (Datatypes.S i) s') ->
  exists s', for_exit n lo body s = Ok (inl s') /\ P (lo + n)%nat s'.
Proof.
  revert lo s; induction n as [|n IH]; intros lo s H0 H; cbn [for_exit].
  - exists s. rewrite Nat.add_0_r. auto.
  - destruct (H lo s) as (s1 & E & H1); [lia|auto|]. rewrite E. cbn [bind].
    destruct (IH (Datatypes.S lo) s1 H1) as (s2 & E2 & H2).
    + intros i s' Hi. apply H. lia.
    + exists s2. split; auto. now replace (lo + Datatypes.S n)%nat with (Datatypes.S lo + n)%nat by lia.
Qed.

Definition sgn (g : nat) : R := if Nat.even g then 1 else -1.
Definition minor (i j : nat) (f : nat -> nat -> R) : nat -> nat -> R :=
  fun a b => f (skip_at i a) (skip_at j b).

(** Laplace expansion along the first row *)
Fixpoint ldet (n : nat) (f : nat -> nat -> R) : R :=
  match n with
  | O => 1
  | Datatypes.S n' => bigsum (Datatypes.S n') (fun g => ldet n' (minor 0 g f) * f O g * sgn g)
  end.

Lemma ldet_ext n f g :
  (forall i j, (i < n)%nat -> (j < n)%nat -> f i j = g i j) -> ldet n f = ldet n g.
Proof.
  revert f g; induction n as [|n IH]; intros f g H; [reflexivity|]. cbn [ldet].
  apply bigsum_ext. intros k Hk. rewrite (H O k) by lia. f_equal. f_equal.
  apply IH. intros i j Hi Hj. unfold minor. apply H; unfold skip_at.
  - destruct (_ <? _)%nat; lia.
  - destruct (Nat.ltb_spec j k); lia.
Qed.

Lemma ldet_1 f : ldet 1 f = f O O.
Proof. cbn. unfold sgn. cbn. ring. Qed.
Lemma ldet_2 f : ldet 2 f = f O O * f 1%nat 1%nat - f 1%nat O * f O 1%nat.
Proof. cbn. unfold sgn, minor, skip_at. cbn. ring. Qed.
Lemma ldet_3 f :
  ldet 3 f = f 0%nat 0%nat * (f 1%nat 1%nat * f 2%nat 2%nat - f 2%nat 1%nat * f 1%nat 2%nat)
           - f 1%nat 0%nat * (f 0%nat 1%nat * f 2%nat 2%nat - f 2%nat 1%nat * f 0%nat 2%nat)
           + f 2%nat 0%nat * (f 0%nat 1%nat * f 1%nat 2%nat - f 1%nat 1%nat * f 0%nat 2%nat).
Proof. cbn. unfold sgn, minor, skip_at. cbn. ring. Qed.

Section Det.
Variable bc : bool.
Implicit Types f g : nat -> nat -> R.

Lemma deter_3x3_ok f tl :
  mtx_deter_3x3 bc (mat_of 3 3 f tl) = Ok (0%Z, Some (ldet 3 f)).
Proof.
  unfold mtx_deter_3x3. change (mrows (mat_of 3 3 f tl)) with 3%nat.
  change (mcols (mat_of 3 3 f tl)) with 3%nat. rewrite Nat.eqb_refl. cbn [negb]. rewrite andb_false_r.
  rewrite !(@rd_mat_flat R 3 3 f) by lia. cbn [bind]. cbn -[ldet Rmult Rminus Rplus].
  rewrite ldet_3. do 3 f_equal; ring.
Qed.

Lemma deter_f_ok n : forall f tl fuel,
  (0 < n)%nat -> (n <= fuel)%nat -> deter_f bc fuel (mat_of n n f tl) = Ok (0%Z, Some (ldet n f)).
Proof.
  induction n as [|n IH]; intros f tl fuel Hn Hf; [lia|].
  destruct (Nat.eq_dec n 0) as [->|N0].
  { destruct fuel; [lia|]. cbn [deter_f mrows mat_of].
    pose proof (@rd_mat_flat R 1 1 f tl 0 ltac:(lia)) as E. cbn [mbuf mat_of] in *. rewrite E.
    cbn [bind]. rewrite ldet_1. reflexivity. }
  destruct (Nat.eq_dec n 1) as [->|N1].
  { destruct fuel; [lia|]. cbn [deter_f]. change (mrows (mat_of 2 2 f tl)) with 2%nat. cbv iota.
    rewrite !(@rd_mat_flat R 2 2 f) by lia. cbn [bind]. rewrite ldet_2. reflexivity. }
  destruct (Nat.eq_dec n 2) as [->|N2].
  { destruct fuel; [lia|]. cbn [deter_f]. change (mrows (mat_of 3 3 f tl)) with 3%nat. cbv iota.
    apply deter_3x3_ok. }
  destruct fuel as [|fuel]; [lia|].
  assert (E4 : exists k, n = S (S (S k))) by (exists (n - 3)%nat; lia).
  destruct E4 as (k & Ek).
  assert (U : deter_f bc (S fuel) (mat_of (S n) (S n) f tl) =
      if bc && negb (S n =? S n)%nat then Ok ((- EINVAL)%Z, None)
      else
            let! r := for_exit (S n) 0 (fun (g : nat) '(d, mr, cur) =>
                let! cur := lget bc (mat_of (S n) (S n) f tl) 0 g cur in
                let! (_, mr) := mtx_init bc mr None in
                let! (_, mr) := mtx_reduce bc (mat_of (S n) (S n) f tl) mr 0 g in
                let! (rc, dtmp) := deter_f bc fuel mr in
                if negb (rc =? 0)%Z then Ok (inr ((- EINVAL)%Z, Some d))
                else
                  let! dt := lval dtmp in
                  let! c := lval cur in
                  let sign := if Nat.even g then f1 else fneg f1 in
                  Ok (inl (fadd d (fmul (fmul dt c) sign), mr, cur)))
              (f0, mtx_def n n, None) in
            Ok (match r with inl (d, _, _) => (0%Z, Some d) | inr e => e end)).
  { rewrite Ek. reflexivity. }
  rewrite U. clear U. rewrite Nat.eqb_refl. cbn [negb]. rewrite andb_false_r.
  match goal with |- context [for_exit (S n) 0 ?b ?s] =>
    destruct (@for_exit_inv _ _ (fun (g : nat) (st : R * mtx R * option R) =>
       let '(d, mr, cur) := st in
       room n n mr /\ d = bigsum g (fun j => ldet n (minor 0 j f) * f O j * sgn j)) (S n) 0%nat b s)
      as (((d, mr), cur) & E & _ & Hd) end.
  { split; [apply room_def|reflexivity]. }
  { intros i ((d & mr) & cur) Hi (Hr & Hd). cbv beta iota.
    rewrite lget_mat by lia. cbn [bind]. rewrite (@mtx_init_empty _ _ bc n n) by auto. cbn [bind].
    rewrite mtx_reduce_ok by (try apply mat_room; lia). cbn [bind].
    rewrite IH by lia. cbn [bind lval].
    change (negb (0 =? 0)%Z) with false. cbv iota.
    eexists. split; [reflexivity|]. split; [apply mat_room|].
    cbn [bigsum]. rewrite <- Hd. unfold sgn, minor. cbn [fadd fmul f1 fneg NumR].
    destruct (Nat.even i); ring. }
  rewrite E. cbn [bind]. rewrite Hd. reflexivity.
Qed.

Lemma mtx_deter_ok n f tl :
  (0 < n)%nat -> mtx_deter bc (mat_of n n f tl) = Ok (0%Z, Some (ldet n f)).
Proof. intros. apply deter_f_ok; auto. Qed.

(** ** Cofactor matrix: every size other than three *)
Lemma mtx_adjoint_ok n f tl ma :
  (1 < n)%nat -> n <> 3%nat -> room n n ma ->
  mtx_adjoint bc (mat_of n n f tl) ma
  = Ok (0%Z, mat_of n n (fun i j => ldet (n - 1) (minor i j f) * sgn (i + j)) (rest ma)).
Proof.
  intros Hn H3 Hm. unfold mtx_adjoint.
  change (mrows (mat_of n n f tl)) with n. change (mcols (mat_of n n f tl)) with n.
  rewrite (proj2 (Nat.eqb_neq n 3)) by auto. rewrite Nat.eqb_refl. cbn [negb]. rewrite andb_false_r.
  destruct (room_otab Hm) as (F & E). set (tm := rest ma) in *. clearbody tm. subst ma.
  set (g := fun i j => ldet (n - 1) (minor i j f) * sgn (i + j)).
  match goal with |- context [for_ n 0 ?b ?s] =>
   assert (L : exists x y, for_ n 0 b s = Ok (mat_of n n g tm, x, y)) end.
  { match goal with |- exists x y, for_ n 0 ?b ?s = _ => set (body := b); set (s0 := s) end.
    pose (P := fun (i : nat) (st : mtx R * mtx R * option R) => let '(ma, mr, d) := st in
         ma = otab n n (upto n (i * n) g F) tm /\ room (n-1) (n-1) mr).
    assert (K : exists s', for_ n 0 body s0 = Ok s' /\ P n s').
    { apply (@for_inv _ P n 0%nat).
      { unfold s0. split; [|apply room_def]. cbn [Nat.mul]. symmetry. apply upto_0. }
      intros i ((ma & mr) & d) Hi (Ea & Hr). unfold body.
      match goal with |- exists s', for_ n 0 ?b ?s = _ /\ _ =>
        destruct (@for_inv _ (fun j (st : mtx R * mtx R * option R) => let '(ma, mr, d) := st in
           ma = otab n n (upto n (i * n + j) g F) tm /\ room (n-1) (n-1) mr) n 0%nat b s)
          as (s' & Es & Ps) end.
      { rewrite Nat.add_0_r. auto. }
      { intros j ((ma' & mr') & d') Hj (Ea' & Hr'). cbv beta iota zeta.
        assert (Sn : n = S (n - 1)) by lia.
        assert (Rn : mtx_reduce bc (mat_of n n f tl) mr' i j = Ok (0%Z, mat_of (n-1) (n-1) (minor i j f) (rest mr'))).
        { rewrite Sn at 1 2. rewrite mtx_reduce_ok by (auto; lia). reflexivity. }
        rewrite Rn. cbn [bind]. rewrite mtx_deter_ok by lia. cbn [bind lval].
        subst ma'. rewrite mtx_set_otab by lia. cbn [bind]. eexists. split; [reflexivity|]. cbv beta iota.
        split; [|apply mat_room].
        replace (i * n + S j)%nat with (S (i * n + j)) by lia.
        rewrite <- upto_step by lia. reflexivity. }
      exists s'. split; auto. destruct s' as ((ma' & mr') & d'). destruct Ps as (P1 & P2). split; auto.
      rewrite P1. do 2 f_equal. lia. }
    destruct K as (((ma & mr) & d) & K & K1 & K2). exists mr, d. rewrite K, K1. now rewrite upto_all. }
  destruct L as (x & y & L). rewrite L. reflexivity.
Qed.

(** ** 3x3 adjoint *)
Definition adj3 f : nat -> nat -> R := fun i j => ldet 2 (minor j i f) * sgn (i + j).

Lemma mtx_adjoint_3x3_ok f tl ma :
  room 3 3 ma -> mtx_adjoint_3x3 bc (mat_of 3 3 f tl) ma = Ok (0%Z, mat_of 3 3 (adj3 f) (rest ma)).
Proof.
  intros Hm. pose proof Hm as (Hr & Hc & _). unfold mtx_adjoint_3x3. rewrite Hr, Hc.
  destruct (room_otab Hm) as (F & E). set (tm := rest ma) in *. clearbody tm. subst ma.
  change (mrows (mat_of 3 3 f tl)) with 3%nat. change (mcols (mat_of 3 3 f tl)) with 3%nat.
  unfold adjoint_3x3_st. cbn [rrows rcols mptr]. rewrite Nat.eqb_refl. cbn [negb orb].
  rewrite andb_false_r.
  pose (V := fun k : nat => f (k / 3)%nat (k mod 3)%nat).
  assert (S9 : forall k a b c d G, (k < 9)%nat -> (a < 9)%nat -> (b < 9)%nat -> (c < 9)%nat -> (d < 9)%nat ->
    (fun (st : store R) '(k, (a, b), (c, d)) =>
      let! xa := srd st 0 a in
      let! xb := srd st 0 b in
      let! xc := srd st 0 c in
      let! xd := srd st 0 d in
      swr st 1 k (fsub (fmul xa xb) (fmul xc xd)))
    ([mbuf (mat_of 3 3 f tl); mbuf (otab 3 3 G tm)] : store R) (k, (a, b), (c, d)) =
    Ok [mbuf (mat_of 3 3 f tl);
        mbuf (otab 3 3 (fupd G (k / 3)%nat (k mod 3)%nat (Some (V a * V b - V c * V d))) tm)]).
  { intros k a b c d G Hk Ha Hb Hc' Hd. cbv beta iota.
    unfold srd, swr. cbn [nth_error]. rewrite !rd_mat_flat by lia. cbn [bind].
    destruct (@flat_bounds 3 3 k) as (K1 & K2 & K3); [lia|]. rewrite K3 at 1.
    rewrite wr_otab by auto. reflexivity. }
  cbv zeta. cbv beta in S9.
  do 9 (rewrite S9 by lia; cbn [bind]).
  cbn [nth]. do 2 f_equal.
  match goal with |- Mtx 3 3 (mbuf (otab 3 3 ?G tm)) = _ => change (Mtx 3 3 (mbuf (otab 3 3 G tm))) with (otab 3 3 G tm) end.
  apply otab_mat. intros i j Hi Hj. unfold adj3. rewrite ldet_2. unfold minor, skip_at, sgn.
  destruct i as [|[|[|]]]; [| | |lia]; (destruct j as [|[|[|]]]; [| | |lia]);
    cbn; f_equal; unfold V; cbn; ring.
Qed.

(** ** 3x3 inverse *)
Lemma mtx_inv_3x3_ok f tl mi :
  room 3 3 mi ->
  mtx_inv_3x3 bc (mat_of 3 3 f tl) mi
  = Ok (0%Z, mat_of 3 3 (if Req_EM_T (ldet 3 f) 0 then mid else fun i j => adj3 f i j * (1 / ldet 3 f)) (rest mi)).
Proof.
  intros Hm. pose proof Hm as (Hr & Hc & _). unfold mtx_inv_3x3. rewrite Hr, Hc.
  change (mrows (mat_of 3 3 f tl)) with 3%nat. change (mcols (mat_of 3 3 f tl)) with 3%nat.
  rewrite Nat.eqb_refl. cbn [negb orb]. rewrite andb_false_r.
  rewrite deter_3x3_ok. cbn [bind]. change (negb (0 =? 0)%Z) with false. cbv iota.
  rewrite mtx_adjoint_3x3_ok by auto. cbn [bind]. change (negb (0 =? 0)%Z) with false. cbv iota.
  cbn [lval bind]. unfold fne. cbn [feq NumR f0]. unfold Reqb.
  destruct (Req_EM_T (ldet 3 f) 0) as [Z|NZ]; cbn [negb].
  - rewrite (@mtx_init_identity _ _ bc 3 3) by apply mat_room. rewrite mat_rest. reflexivity.
  - cbn [fdiv NumR f1]. unfold Rdivo. destruct (Req_EM_T (ldet 3 f) 0); [contradiction|]. cbn [bind].
    rewrite mtx_scalar_mult_d_ok. reflexivity.
Qed.

End Det.
