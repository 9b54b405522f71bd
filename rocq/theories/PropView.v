(** C173: vectors made from attitudes and Euler angles are the angles. *)
From Coq Require Import List Arith ZArith Lia Reals Lra.
From Verif Require Import Base BaseFacts NumR Libm Out SpecVec MVec MMtx MQuat MAhrs PVec PMtx RTac MView SpecView.
Import ListNotations.

Section Proofs.
Variable bc : bool.
Context {T : Type} {N : Num T}.

Definition trip (a : triple T) : list T := let '(x, y, z) := a in [x; y; z].

Lemma memory_map n (A : nat -> triple T) : memory n A = map (fun p => cells (trip (A p))) (seq 0 n).
Proof. apply map_ext. intros p. destruct (A p) as [[x y] z]. reflexivity. Qed.

Lemma memory_nth n A p : (p < n)%nat -> nth_error (memory n A) p = Some (cells (trip (A p))).
Proof.
  intros H. rewrite memory_map. erewrite map_nth_error; [reflexivity|].
  rewrite (nth_error_nth' _ O) by (now rewrite seq_length). now rewrite seq_nth.
Qed.

Lemma memory_upd n A p a : (p < n)%nat -> upd (memory n A) p (cells (trip a)) = memory n (assign A p a).
Proof.
  intros H. rewrite !memory_map, upd_map_seq by exact H.
  apply map_ext. intros k. unfold assign. now destruct (k =? p)%nat.
Qed.

Lemma on_ref_ok n A p f g :
  (p < n)%nat -> f (vec_of (trip (A p)) []) = Ok (0%Z, vec_of (trip g) []) ->
  on_ref f (memory n A) (VR 3 p) = Ok (0%Z, memory n (assign A p g)).
Proof.
  intros H F. unfold on_ref. cbn [rptr rsz]. rewrite (memory_nth _ _ _ H).
  assert (E : Vec 3 (cells (trip (A p))) = vec_of (trip (A p)) []).
  { destruct (A p) as [[x y] z]. reflexivity. }
  rewrite E, F. cbn [bind]. rewrite <- memory_upd by exact H.
  unfold vec_of. cbn [vbuf]. now rewrite app_nil_r.
Qed.

Lemma vcall_ok n A c : uses_below n c ->
  vcall_run bc (memory n A) c = Ok (0%Z, memory n (effect A c)).
Proof.
  destruct c as [p|p s|p s|p|p q r|p q r]; cbn [uses_below vcall_run effect]; intros H;
    unfold att_to_vec_st; cbn [snd].
  - apply on_ref_ok; [exact H|]. rewrite vec_neg_ok. now destruct (A p) as [[x y] z].
  - apply on_ref_ok; [exact H|]. rewrite vec_scalar_add_ok. now destruct (A p) as [[x y] z].
  - apply on_ref_ok; [exact H|]. rewrite vec_scalar_mult_ok. now destruct (A p) as [[x y] z].
  - apply on_ref_ok; [exact H|]. rewrite vec_rev_ok by (now destruct (A p) as [[x y] z]).
    now destruct (A p) as [[x y] z].
  - destruct H as (Hp & Hq & Hr). unfold vec_add_st.
    rewrite (@vec_zip_st_ok _ bc fadd (memory n A) p q r 3 (trip (A p)) (trip (A q)) [] [] (cells (trip (A r)))).
    + rewrite <- memory_upd by exact Hr.
      destruct (A p) as [[x y] z], (A q) as [[x' y'] z'], (A r) as [[x'' y''] z'']. reflexivity.
    + rewrite app_nil_r. now apply memory_nth.
    + now destruct (A p) as [[x y] z].
    + rewrite app_nil_r. now apply memory_nth.
    + now destruct (A q) as [[x y] z].
    + now apply memory_nth.
    + destruct (A r) as [[x y] z]. cbn. lia.
  - destruct H as (Hp & Hq & Hr). unfold vec_sub_st.
    rewrite (@vec_zip_st_ok _ bc fsub (memory n A) p q r 3 (trip (A p)) (trip (A q)) [] [] (cells (trip (A r)))).
    + rewrite <- memory_upd by exact Hr.
      destruct (A p) as [[x y] z], (A q) as [[x' y'] z'], (A r) as [[x'' y''] z'']. reflexivity.
    + rewrite app_nil_r. now apply memory_nth.
    + now destruct (A p) as [[x y] z].
    + rewrite app_nil_r. now apply memory_nth.
    + now destruct (A q) as [[x y] z].
    + now apply memory_nth.
    + destruct (A r) as [[x y] z]. cbn. lia.
Qed.

Lemma vcalls_ok n cs : forall A, Forall (uses_below n) cs ->
  vcalls_run bc (memory n A) cs = Ok (repeat 0%Z (length cs), memory n (effects A cs)).
Proof.
  induction cs as [|c cs IH]; intros A H; [reflexivity|].
  inversion H as [|? ? H1 H2]; subst. cbn [vcalls_run].
  rewrite vcall_ok by exact H1. cbn [bind]. rewrite IH by exact H2. reflexivity.
Qed.

Lemma fields_ok n (A : nat -> triple T) p s : (p < n)%nat ->
  att_fields (memory n A) p s = (let '(x, y, z) := A p in Ok (Att x y z s)) /\
  eul_fields (memory n A) p = (let '(x, y, z) := A p in Ok (Euler x y z)).
Proof.
  intros H. unfold att_fields, eul_fields, srd. rewrite (memory_nth _ _ _ H).
  destruct (A p) as [[x y] z]. split; reflexivity.
Qed.
End Proofs.

(** Any history of vector calls through views: every call answers 0, and the
    fields of every object are what the same history of operations on triples
    gives; an object that is not written keeps its angles, the flags stay. *)
Theorem C173_history :
  forall T (N : Num T) bc n (A : nat -> triple T) cs,
  Forall (uses_below n) cs ->
  exists st, vcalls_run bc (memory n A) cs = Ok (repeat 0%Z (length cs), st) /\
    forall p s, (p < n)%nat ->
      att_fields st p s = (let '(x, y, z) := effects A cs p in Ok (Att x y z s)) /\
      eul_fields st p = (let '(x, y, z) := effects A cs p in Ok (Euler x y z)).
Proof.
  intros T N bc n A cs H. exists (memory n (effects A cs)). split.
  - now apply vcalls_ok.
  - intros p s Hp. now apply fields_ok.
Qed.
Print Assumptions C173_history.

(** Both functions answer 0 and a vector of three elements on the object. *)
Theorem C173_view :
  forall T (N : Num T) n (A : nat -> triple T) p i x y z,
  (p < n)%nat -> A p = (x, y, z) ->
  fst (att_to_vec_st p) = 0%Z /\ rsz (snd (att_to_vec_st p)) = 3%nat /\
  srd (memory n A) (rptr (snd (att_to_vec_st p))) i
  = match i with 0 => Ok x | 1 => Ok y | 2 => Ok z | _ => UB OOBRead end /\
  eul_to_vec_st p = att_to_vec_st p /\
  att_to_vec (Att x y z 0) = (0%Z, vec_of [x; y; z] []) /\
  eul_to_vec (Euler x y z) = (0%Z, vec_of [x; y; z] []).
Proof.
  intros T N n A p i x y z H E. repeat (split; [reflexivity|]). split.
  - unfold srd, att_to_vec_st. cbn [snd rptr]. rewrite (memory_nth _ _ _ H), E.
    destruct i as [|[|[|[|i]]]]; reflexivity.
  - repeat split.
Qed.
Print Assumptions C173_view.

(** The conversion to radians is multiplication through the view. *)
Theorem C173_radians :
  forall T (N : Num T) bc x y z s,
  exists st, vcall_run bc (memory 1 (fun _ => (x, y, z))) (CScale 0 DEG_TO_RAD) = Ok (0%Z, st) /\
    eul_fields st 0 = Ok (snd (att_to_euler (Att x y z s))).
Proof.
  intros T N bc x y z s. eexists. split; [apply vcall_ok; cbn; lia|].
  rewrite (proj2 (fields_ok 1 _ 0 s (Nat.lt_succ_diag_r 0))). reflexivity.
Qed.
Print Assumptions C173_radians.

(** two attitudes; add the second to the first, halve the first, negate the second *)
Example C173_example :
  Forall (uses_below 2) [CAdd 0 1 0; CScale 0 (1 / 2)%R; CNeg 1] /\
  effects (fun p => match p with 0 => (10, 20, 30) | _ => (30, 40, 50) end)%R
    [CAdd 0 1 0; CScale 0 (1 / 2)%R; CNeg 1] 0 = (20, 30, 40)%R.
Proof.
  split; [repeat constructor|]. cbn.
  repeat match goal with |- (_, _) = (_, _) => f_equal end; rops; lra.
Qed.
