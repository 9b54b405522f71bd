(** C169: functions of the user that are called for each entry of a matrix. *)
From Coq Require Import List Arith ZArith Bool Lia Reals Lra FinFun.
From Verif Require Import Base BaseFacts SpecVec SpecMtx MVec MMtx NumR PVec PMtx SpecCallback.
Import ListNotations.
Set Implicit Arguments.

(** ** Order of the calls *)

Lemma in_turn_app S l1 l2 (f : nat -> nat -> S -> outcome (Z * S)) s :
  in_turn (l1 ++ l2) f s = (let! (rc, s') := in_turn l1 f s in if (rc =? 0)%Z then in_turn l2 f s' else Ok (rc, s')).
Proof.
  revert s; induction l1 as [|(i, j) l1 IH]; intros s; cbn [in_turn app bind]; [reflexivity|].
  destruct (f i j s) as [[rc s']| | |]; cbn [bind]; try reflexivity.
  destruct (Z.eqb_spec rc 0) as [->|Hrc]; [apply IH|]. cbn [bind]. apply Z.eqb_neq in Hrc. now rewrite Hrc.
Qed.

Lemma each_entry_calls S r c (f : nat -> nat -> S -> outcome (Z * S)) s :
  each_entry r c f s = in_turn (row_major r c) f s.
Proof.
  unfold each_entry, row_major. set (body := fun (i : nat) (s : S) => for_exit c 0 _ s).
  assert (B : forall i s, body i s = bind (in_turn (map (fun y => (i, y)) (seq 0 c)) f s)
      (fun p => Ok (if (fst p =? 0)%Z then inl (snd p) else inr p))).
  { intros i. unfold body. generalize 0. induction c as [|n IH]; intros lo t; cbn [for_exit seq map in_turn]; [reflexivity|].
    destruct (f i lo t) as [[rc t']| | |]; cbn [bind]; try reflexivity.
    destruct (rc =? 0)%Z eqn:E; cbn [bind]; [apply IH|]. cbn [fst]. now rewrite E. }
  clearbody body. set (cs := seq 0 c) in *. clearbody cs. generalize 0 as lo. revert s. induction r as [|n IH]; intros s lo; cbn [for_exit seq list_prod in_turn bind]; [reflexivity|].
  rewrite B, in_turn_app.
  destruct (in_turn (map _ _) f s) as [[rc s']| | |]; cbn [bind fst snd]; try reflexivity.
  destruct (Z.eqb_spec rc 0) as [->|Hrc]; cbn [bind]; [apply IH|reflexivity].
Qed.

Section Calls.
Context {T} `{Num T} (bc : bool).

(** zsl_mtx_unary_func calls the function for each entry, row after row, and
    stops with its answer if that is not 0 *)
Theorem C169_unary_calls (m : mtx T) f :
  mtx_unary_func m (Some f) = in_turn (row_major (mrows m) (mcols m)) (fun i j m => f m i j) m.
Proof. apply each_entry_calls. Qed.

(** zsl_mtx_init does the same *)
Theorem C169_init_calls (m : mtx T) f :
  mtx_init bc m (Some f) = in_turn (row_major (mrows m) (mcols m)) (fun i j m => f m i j) m.
Proof. apply each_entry_calls. Qed.

(** zsl_mtx_binary_func does the same with three matrices of the same shape *)
Theorem C169_binary_calls (ma mb mc : mtx T) f :
  mrows mb = mrows ma -> mcols mb = mcols ma -> mrows mc = mrows ma -> mcols mc = mcols ma ->
  mtx_binary_func bc ma mb mc (Some f) = in_turn (row_major (mrows ma) (mcols ma)) (fun i j mc => f ma mb mc i j) mc.
Proof.
  intros E1 E2 E3 E4. unfold mtx_binary_func. rewrite E1, E2, E3, E4, !Nat.eqb_refl. cbn [negb orb]. rewrite andb_false_r.
  apply each_entry_calls.
Qed.

(** ... and refuses others when bounds are checked, without a call *)
Theorem C169_binary_refused (ma mb mc : mtx T) f : bc = true ->
  ~ (mrows mb = mrows ma /\ mcols mb = mcols ma /\ mrows mc = mrows ma /\ mcols mc = mcols ma) ->
  mtx_binary_func bc ma mb mc f = Ok ((- EINVAL)%Z, mc).
Proof.
  intros -> N. unfold mtx_binary_func. cbn [andb].
  destruct (Nat.eqb_spec (mrows ma) (mrows mb)), (Nat.eqb_spec (mrows mb) (mrows mc)),
    (Nat.eqb_spec (mcols ma) (mcols mb)), (Nat.eqb_spec (mcols mb) (mcols mc)); cbn [negb orb]; try reflexivity.
  exfalso. apply N. repeat split; congruence.
Qed.

Lemma in_turn_idle S l (s : S) : in_turn l (fun _ _ s => Ok (0%Z, s)) s = Ok (0%Z, s).
Proof. induction l as [|(i, j) l IH]; [reflexivity|]. exact IH. Qed.

(** Without a function nothing is done *)
Theorem C169_null (m ma mb mc : mtx T) :
  mtx_unary_func m None = Ok (0%Z, m)
  /\ (mrows mb = mrows ma -> mcols mb = mcols ma -> mrows mc = mrows ma -> mcols mc = mcols ma ->
      mtx_binary_func bc ma mb mc None = Ok (0%Z, mc)).
Proof.
  split; [unfold mtx_unary_func; rewrite each_entry_calls; apply in_turn_idle|].
  intros E1 E2 E3 E4. unfold mtx_binary_func. rewrite E1, E2, E3, E4, !Nat.eqb_refl. cbn [negb orb]. rewrite andb_false_r.
  rewrite each_entry_calls. apply in_turn_idle.
Qed.

End Calls.

(** The list holds each entry once *)
Theorem C169_each_once r c :
  NoDup (row_major r c) /\ (forall i j, In (i, j) (row_major r c) <-> i < r /\ j < c)
  /\ forall i j, i < r -> j < c -> nth_error (row_major r c) (i * c + j) = Some (i, j).
Proof.
  unfold row_major. split; [|split].
  - generalize 0 at 1. induction r as [|n IH]; intros lo; cbn [seq list_prod]; [constructor|].
    assert (D : forall (l1 l2 : list (nat * nat)), NoDup l1 -> NoDup l2 -> (forall x, In x l1 -> In x l2 -> False) -> NoDup (l1 ++ l2)).
    { induction l1 as [|x l1 J]; cbn [app]; intros l2 N1 N2 X; [exact N2|]. inversion N1; subst. constructor.
      - rewrite in_app_iff. intros [I|I]; [auto|]. apply (X x); [now left|exact I].
      - apply J; auto. intros y I1 I2. apply (X y); [now right|exact I2]. }
    apply D; [|apply IH|].
    + apply Injective_map_NoDup; [|apply seq_NoDup]. intros x y E. congruence.
    + intros (x, y) I1 I2. apply in_map_iff in I1. destruct I1 as (z & E & _). injection E as <- <-.
      apply in_prod_iff in I2. rewrite in_seq in I2. lia.
  - intros i j. rewrite in_prod_iff, !in_seq. lia.
  - intros i j Hi Hj. assert (G : forall lo, nth_error (list_prod (seq lo r) (seq 0 c)) (i * c + j) = Some (lo + i, j)); [|apply G].
    revert i Hi. induction r as [|n IH]; intros i Hi lo; [lia|]. cbn [seq list_prod].
    destruct i as [|i].
    + cbn [Nat.mul Nat.add]. rewrite nth_error_app1 by (rewrite map_length, seq_length; lia).
      rewrite nth_error_map. rewrite (nth_error_nth' _ 0) by (rewrite seq_length; lia). rewrite seq_nth by lia.
      cbn [option_map]. now rewrite Nat.add_0_r.
    + rewrite nth_error_app2 by (rewrite map_length, seq_length; lia). rewrite map_length, seq_length.
      replace (S i * c + j - c) with (i * c + j) by lia. rewrite IH by lia. do 2 f_equal. lia.
Qed.

(** ** Functions that replace the entry they are called for *)

Lemma row_major_length r c : length (row_major r c) = r * c.
Proof. unfold row_major. now rewrite prod_length, !seq_length. Qed.

Lemma in_turn_prefix A (st : nat -> A) r c (f : nat -> nat -> A -> outcome (Z * A)) n : n <= r * c ->
  (forall i j, i < r -> j < c -> i * c + j < n -> f i j (st (i * c + j)) = Ok (0%Z, st (S (i * c + j)))) ->
  in_turn (firstn n (row_major r c)) f (st 0) = Ok (0%Z, st n).
Proof.
  intros Hn Hf. induction n as [|n IH]; [reflexivity|].
  destruct (@flat_bounds r c n ltac:(lia)) as (B1 & B2 & B3).
  assert (E : firstn (S n) (row_major r c) = firstn n (row_major r c) ++ [(n / c, n mod c)]).
  { pose proof (proj2 (proj2 (C169_each_once r c)) _ _ B1 B2) as N. rewrite <- B3 in N.
    revert N. generalize (n / c, n mod c) as x. clear. revert n. induction (row_major r c) as [|y l IH]; intros n x N; destruct n; try discriminate.
    - cbn in N. injection N as ->. reflexivity.
    - cbn [nth_error] in N. cbn [firstn app]. f_equal. now apply IH. }
  rewrite E, in_turn_app, IH by (try lia; intros; apply Hf; lia).
  cbn [bind Z.eqb in_turn]. rewrite B3 at 3. rewrite Hf by lia. rewrite <- B3. reflexivity.
Qed.

Lemma before_flat c a b i j : b < c -> j < c -> before a b i j = (i * c + j <? a * c + b).
Proof.
  intros Hb Hj. unfold before. destruct (Nat.ltb_spec i a), (Nat.eqb_spec i a), (Nat.ltb_spec j b), (Nat.ltb_spec (i * c + j) (a * c + b));
    cbn [orb andb]; try reflexivity; exfalso; nia.
Qed.

Section Edits.
Context {T} `{Num T} (bc : bool).

(** A callback that reads its entry and puts [g i j x] in place of x, or
    answers [code i j] without a change where that is not 0 *)
Definition edit (code : nat -> nat -> Z) (g : nat -> nat -> T -> T) (m : mtx T) (i j : nat) : outcome (Z * mtx T) :=
  if (code i j =? 0)%Z then
    let! (rc, x) := mtx_get bc m i j in
    match x with
    | None => Ok (rc, m)
    | Some x => mtx_set bc m i j (g i j x)
    end
  else Ok (code i j, m).

Definition edited (c n : nat) (g : nat -> nat -> T -> T) (f : nat -> nat -> T) (i j : nat) : T :=
  if i * c + j <? n then g i j (f i j) else f i j.

Lemma edit_prefix r c f tl code g n : n <= r * c ->
  (forall i j, i < r -> j < c -> i * c + j < n -> code i j = 0%Z) ->
  in_turn (firstn n (row_major r c)) (fun i j m => edit code g m i j) (mat_of r c f tl)
  = Ok (0%Z, mat_of r c (edited c n g f) tl).
Proof.
  intros Hn Hc.
  pose proof (@in_turn_prefix (mtx T) (fun k => mat_of r c (edited c k g f) tl) r c (fun i j m => edit code g m i j) n Hn) as P.
  cbv beta in P. replace (mat_of r c (edited c 0 g f) tl) with (mat_of r c f tl) in P; [apply P|].
  - intros i j Hi Hj L. unfold edit. rewrite Hc by auto. cbn [Z.eqb]. rewrite mtx_get_mat by auto. cbn [bind].
    rewrite mtx_set_mat by auto. do 2 f_equal. apply mat_ext. intros a b Ha Hb. unfold fupd, edited.
    destruct (Nat.eqb_spec a i) as [->|Na]; [destruct (Nat.eqb_spec b j) as [->|Nb]|]; cbn [andb].
    + rewrite Nat.ltb_irrefl. replace (i * c + j <? S (i * c + j)) with true by (symmetry; apply Nat.ltb_lt; lia). reflexivity.
    + replace (i * c + b <? S (i * c + j)) with (i * c + b <? i * c + j); [reflexivity|].
      destruct (Nat.ltb_spec (i * c + b) (i * c + j)), (Nat.ltb_spec (i * c + b) (S (i * c + j))); auto; lia.
    + replace (a * c + b <? S (i * c + j)) with (a * c + b <? i * c + j); [reflexivity|].
      destruct (Nat.ltb_spec (a * c + b) (i * c + j)), (Nat.ltb_spec (a * c + b) (S (i * c + j))); auto; try lia.
      exfalso. apply Na. apply (@flat_inj c a b i j); auto. lia.
  - apply mat_ext. intros i j _ _. reflexivity.
Qed.

(** With a function that always succeeds, every entry is replaced *)
Theorem C169_unary_map r c f tl (g : nat -> nat -> T -> T) :
  mtx_unary_func (mat_of r c f tl) (Some (edit (fun _ _ => 0%Z) g)) = Ok (0%Z, mat_of r c (fun i j => g i j (f i j)) tl).
Proof.
  rewrite C169_unary_calls. cbn [mat_of mrows mcols]. rewrite <- (firstn_all (row_major r c)), row_major_length.
  change (Mtx r c _) with (mat_of r c f tl). rewrite edit_prefix by auto. do 2 f_equal. apply mat_ext. intros i j Hi Hj.
  unfold edited. replace (i * c + j <? r * c) with true; [reflexivity|]. symmetry. apply Nat.ltb_lt. now apply flat_lt.
Qed.

(** At the first failure, in row-major order, its code is answered; the entries
    visited before have been replaced and no other *)
Theorem C169_unary_stops r c f tl code (g : nat -> nat -> T -> T) a b :
  a < r -> b < c -> code a b <> 0%Z ->
  (forall i j, i < r -> j < c -> before a b i j = true -> code i j = 0%Z) ->
  mtx_unary_func (mat_of r c f tl) (Some (edit code g))
  = Ok (code a b, mat_of r c (fun i j => if before a b i j then g i j (f i j) else f i j) tl).
Proof.
  intros Ha Hb Hab Hc. rewrite C169_unary_calls. cbn [mat_of mrows mcols].
  rewrite <- (firstn_skipn (a * c + b) (row_major r c)), in_turn_app.
  change (Mtx r c _) with (mat_of r c f tl).
  pose proof (flat_lt Ha Hb) as L.
  rewrite edit_prefix by (try lia; intros i j Hi Hj Q; apply Hc; auto; rewrite (@before_flat c) by auto; now apply Nat.ltb_lt).
  cbn [bind Z.eqb].
  assert (E : exists l, skipn (a * c + b) (row_major r c) = (a, b) :: l).
  { pose proof (proj2 (proj2 (C169_each_once r c)) _ _ Ha Hb) as N. clear -N. revert N. generalize (a * c + b) as n.
    induction (row_major r c) as [|y l IH]; intros n N; destruct n; try discriminate.
    - cbn in N. injection N as ->. now exists l.
    - cbn [nth_error] in N. cbn [skipn]. now apply IH. }
  destruct E as (l & ->). cbn [in_turn]. unfold edit at 1. apply Z.eqb_neq in Hab. rewrite Hab. cbn [bind]. rewrite Hab.
  do 2 f_equal. apply mat_ext. intros i j Hi Hj. unfold edited. now rewrite (@before_flat c) by auto.
Qed.

(** A callback that combines the entries of two matrices into a third *)
Definition combine (g : nat -> nat -> T -> T -> T) (ma mb mc : mtx T) (i j : nat) : outcome (Z * mtx T) :=
  let! (rc, x) := mtx_get bc ma i j in
  let! (rc', y) := mtx_get bc mb i j in
  match x, y with
  | Some x, Some y => mtx_set bc mc i j (g i j x y)
  | _, _ => Ok (rc, mc)
  end.

Theorem C169_binary_zip r c fa fb ta tb mc (g : nat -> nat -> T -> T -> T) : room r c mc ->
  mtx_binary_func bc (mat_of r c fa ta) (mat_of r c fb tb) mc (Some (combine g))
  = Ok (0%Z, mat_of r c (fun i j => g i j (fa i j) (fb i j)) (rest mc)).
Proof.
  intros Hm. pose proof Hm as (Er & Ec & _). rewrite C169_binary_calls by auto.
  pose proof (@mtx_init_gen T _ bc r c mc (Some (fun m i j => combine g (mat_of r c fa ta) (mat_of r c fb tb) m i j))
    (fun i j => g i j (fa i j) (fb i j)) Hm) as P.
  rewrite C169_init_calls in P. rewrite Er, Ec in P. cbn [mat_of mrows mcols]. apply P.
  intros m i j Hr Hi Hj. unfold combine. rewrite !mtx_get_mat by auto. reflexivity.
Qed.
End Edits.

(** *** Non-vacuity *)
Example C169_stops_ex : mtx_unary_func (mat_of 2 2 (fun i j => INR (i + j)) [])
    (Some (edit true (fun i j => if (i =? 1)%nat && (j =? 0)%nat then (-5)%Z else 0%Z) (fun _ _ x => (x + 1)%R)))
  = Ok ((-5)%Z, mat_of 2 2 (fun i j => if before 1 0 i j then (INR (i + j) + 1)%R else INR (i + j)) []).
Proof.
  apply (C169_unary_stops true (r := 2) (c := 2) (fun i j => INR (i + j)) [] (fun i j => if (i =? 1)%nat && (j =? 0)%nat then (-5)%Z else 0%Z) (fun _ _ x => (x + 1)%R) (a := 1) (b := 0)); [lia|lia|discriminate|].
  intros i j Hi Hj B. destruct i as [|[|]], j as [|[|]]; try lia; try reflexivity. discriminate.
Qed.
Example C169_zip_ex : mtx_binary_func true (mat_of 1 2 (fun _ j => INR j) []) (mat_of 1 2 (fun _ _ => 2%R) []) (mtx_def 1 2)
    (Some (combine true (fun _ _ x y => (x * y)%R))) = Ok (0%Z, mat_of 1 2 (fun _ j => (INR j * 2)%R) []).
Proof. rewrite C169_binary_zip by apply room_def. reflexivity. Qed.

Print Assumptions C169_unary_calls.
Print Assumptions C169_init_calls.
Print Assumptions C169_binary_calls.
Print Assumptions C169_binary_refused.
Print Assumptions C169_null.
Print Assumptions C169_each_once.
Print Assumptions C169_unary_map.
Print Assumptions C169_unary_stops.
Print Assumptions C169_binary_zip.
