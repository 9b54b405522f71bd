(** Structural facts about the matrix model, for any arithmetic. *)
From Coq Require Import List Arith ZArith Bool Lia Program.Basics.
From Verif Require Import Base BaseFacts SpecVec SpecMtx MVec MMtx PVec.
Import ListNotations.
Set Implicit Arguments.
Local Open Scope num_scope.
Local Open Scope nat_scope.

(** ** Loops *)

Lemma for_exit_fun S R (g : nat -> S) n lo (body : nat -> S -> outcome (S + R)) :
  (forall i, lo <= i < lo + n -> body i (g i) = Ok (inl (g (Datatypes.S i)))) ->
  for_exit n lo body (g lo) = Ok (inl (g (lo + n))).
Proof.
  revert lo; induction n as [|n IH]; intros lo H; cbn [for_exit].
  - now rewrite Nat.add_0_r.
  - rewrite H by lia. cbn [bind]. rewrite IH by (intros; apply H; lia).
    now replace (lo + Datatypes.S n) with (Datatypes.S lo + n) by lia.
Qed.

Lemma for_exit_ext S R n lo (b1 b2 : nat -> S -> outcome (S + R)) s :
  (forall i s, lo <= i < lo + n -> b1 i s = b2 i s) -> for_exit n lo b1 s = for_exit n lo b2 s.
Proof.
  revert lo s; induction n as [|n IH]; intros lo s H; cbn [for_exit]; auto.
  rewrite H by lia. destruct (b2 lo s) as [[s'|x]| | |]; cbn [bind]; auto.
  apply IH. intros; apply H; lia.
Qed.

Lemma nested_for S (st : nat -> S) r c (body : nat -> nat -> S -> outcome S) :
  (forall i j, i < r -> j < c -> body i j (st (i * c + j)) = Ok (st (Datatypes.S (i * c + j)))) ->
  for_ r 0 (fun i s => for_ c 0 (body i) s) (st 0) = Ok (st (r * c)).
Proof.
  intros H.
  rewrite (@for_fun S (fun i => st (i * c)) r 0).
  - reflexivity.
  - intros i Hi.
    pose proof (@for_fun S (fun j => st (i * c + j)) c 0 (body i)) as E.
    cbn [Nat.add] in E. rewrite Nat.add_0_r in E. rewrite E.
    + now replace (Datatypes.S i * c) with (i * c + c) by lia.
    + intros j Hj. rewrite H by lia. now rewrite Nat.add_succ_r.
Qed.

Lemma each_entry_ok S (st : nat -> S) r c (fn : nat -> nat -> S -> outcome (Z * S)) :
  (forall i j, i < r -> j < c -> fn i j (st (i * c + j)) = Ok (0%Z, st (Datatypes.S (i * c + j)))) ->
  each_entry r c fn (st 0) = Ok (0%Z, st (r * c)).
Proof.
  intros H. unfold each_entry.
  set (body := fun (i : nat) (s : S) => _).
  pose proof (@for_exit_fun S (Z * S) (fun i => st (i * c)) r 0 body) as E.
  cbn [Nat.add] in E. cbn [Nat.mul] in E. rewrite E; [reflexivity|].
  intros i Hi. unfold body.
  match goal with |- for_exit _ _ ?f _ = _ => set (b := f) end.
  pose proof (@for_exit_fun S (Z * S) (fun j => st (i * c + j)) c 0 b) as E2.
  cbn [Nat.add] in E2. rewrite Nat.add_0_r in E2. rewrite E2.
  - do 3 f_equal. lia.
  - intros j Hj. unfold b. rewrite H by lia. cbn [bind]. cbn.
    now rewrite Nat.add_succ_r.
Qed.

Lemma each_entry_first S r c (fn : nat -> nat -> S -> outcome (Z * S)) s rc s' :
  0 < r -> 0 < c -> rc <> 0%Z -> fn 0 0 s = Ok (rc, s') -> each_entry r c fn s = Ok (rc, s').
Proof.
  intros Hr Hc Hrc E. unfold each_entry.
  destruct r as [|r]; [lia|]. destruct c as [|c]; [lia|].
  cbn [for_exit]. rewrite E. cbn [bind]. apply Z.eqb_neq in Hrc. now rewrite Hrc.
Qed.

(** ** Tables *)

Lemma flat_lt r c i j : i < r -> j < c -> i * c + j < r * c.
Proof. intros. nia. Qed.

Lemma flat_inj c i j a b : j < c -> b < c -> i * c + j = a * c + b <-> i = a /\ j = b.
Proof. intros; split; [|intros (-> & ->); auto]. intros E. assert (i = a) by nia. subst. lia. Qed.

Lemma flat_div c i j : j < c -> (i * c + j) / c = i.
Proof. intros. rewrite Nat.div_add_l by lia. rewrite Nat.div_small by lia. lia. Qed.

Lemma flat_mod c i j : j < c -> (i * c + j) mod c = j.
Proof. intros. rewrite Nat.add_comm, Nat.mod_add by lia. now apply Nat.mod_small. Qed.

Lemma flat_bounds r c k : k < r * c -> k / c < r /\ k mod c < c /\ k = k / c * c + k mod c.
Proof.
  intros H. assert (c <> 0) by nia. split; [|split].
  - apply Nat.div_lt_upper_bound; lia.
  - now apply Nat.mod_upper_bound.
  - rewrite (Nat.div_mod k c) at 1 by auto. lia.
Qed.

(** A matrix with possibly uninitialised elements. *)
Definition otab {T} (r c : nat) (F : nat -> nat -> option T) (tl : buf T) : mtx T :=
  Mtx r c (map (fun k => F (k / c) (k mod c)) (seq 0 (r * c)) ++ tl).

Definition fupd {A} (F : nat -> nat -> A) i j x : nat -> nat -> A :=
  fun a b => if (a =? i) && (b =? j) then x else F a b.

Lemma mat_otab T r c (f : nat -> nat -> T) tl :
  mat_of r c f tl = otab r c (fun i j => Some (f i j)) tl.
Proof. unfold mat_of, otab, cells. now rewrite map_map. Qed.

Lemma otab_ext T r c (F G : nat -> nat -> option T) tl :
  (forall i j, i < r -> j < c -> F i j = G i j) -> otab r c F tl = otab r c G tl.
Proof.
  intros H. unfold otab. f_equal. f_equal. apply map_ext_in. intros k Hk.
  apply in_seq in Hk. apply H; apply (@flat_bounds r c k); lia.
Qed.

Lemma mat_ext T r c (f g : nat -> nat -> T) tl :
  (forall i j, i < r -> j < c -> f i j = g i j) -> mat_of r c f tl = mat_of r c g tl.
Proof. intros H. rewrite !mat_otab. apply otab_ext. intros. now rewrite H. Qed.

Lemma otab_mat T r c (F : nat -> nat -> option T) f tl :
  (forall i j, i < r -> j < c -> F i j = Some (f i j)) -> otab r c F tl = mat_of r c f tl.
Proof. intros H. rewrite mat_otab. now apply otab_ext. Qed.

Lemma otab_length T r c (F : nat -> nat -> option T) tl :
  length (mbuf (otab r c F tl)) = r * c + length tl.
Proof. cbn. now rewrite app_length, map_length, seq_length. Qed.

Lemma otab_room T r c (F : nat -> nat -> option T) tl : room r c (otab r c F tl).
Proof. repeat split. rewrite otab_length. lia. Qed.

Lemma mat_room T r c (f : nat -> nat -> T) tl : room r c (mat_of r c f tl).
Proof. rewrite mat_otab. apply otab_room. Qed.

Lemma skipn_app_all A (l r : list A) n : length l = n -> skipn n (l ++ r) = r.
Proof. intros <-. rewrite skipn_app, skipn_all, Nat.sub_diag. reflexivity. Qed.

Lemma otab_rest T r c (F : nat -> nat -> option T) tl : rest (otab r c F tl) = tl.
Proof. unfold rest, otab. cbn [mrows mcols mbuf]. apply skipn_app_all. now rewrite map_length, seq_length. Qed.

Lemma mat_rest T r c (f : nat -> nat -> T) tl : rest (mat_of r c f tl) = tl.
Proof. rewrite mat_otab. apply otab_rest. Qed.

Lemma mat_of_inj T r c (f g : nat -> nat -> T) tl tl' :
  mat_of r c f tl = mat_of r c g tl' ->
  (forall i j, i < r -> j < c -> f i j = g i j) /\ tl = tl'.
Proof.
  intros E. split.
  - intros i j Hi Hj. pose proof (flat_lt Hi Hj) as Hk.
    assert (E2 : nth_error (mbuf (mat_of r c f tl)) (i * c + j)
               = nth_error (mbuf (mat_of r c g tl')) (i * c + j)) by now rewrite E.
    cbn [mat_of mbuf] in E2. unfold cells in E2. rewrite !map_map in E2.
    rewrite !nth_error_app1 in E2 by now rewrite map_length, seq_length.
    rewrite !nth_error_map in E2.
    assert (N1 : nth_error (seq 0 (r * c)) (i * c + j) = Some (i * c + j)).
    { rewrite (nth_error_nth' _ 0) by now rewrite seq_length. now rewrite seq_nth. }
    rewrite N1 in E2. cbn [option_map] in E2. rewrite flat_div, flat_mod in E2 by auto.
    congruence.
  - rewrite <- (mat_rest r c f tl), <- (mat_rest r c g tl'). now rewrite E.
Qed.

Lemma room_otab T r c (m : mtx T) :
  room r c m -> exists F, m = otab r c F (rest m).
Proof.
  intros (Hr & Hc & Hl). exists (fun i j => nth (i * c + j) (mbuf m) None).
  destruct m as [r' c' b]. cbn [mrows mcols mbuf] in *. subst r' c'.
  unfold otab, rest. cbn [mrows mcols mbuf]. f_equal.
  rewrite <- (firstn_skipn (r * c) b) at 1. f_equal.
  apply nth_list_ext with (d := None).
  - rewrite firstn_length, map_length, seq_length. lia.
  - rewrite firstn_length. intros k Hk. rewrite nth_map_seq by lia.
    destruct (@flat_bounds r c k) as (H1 & H2 & H3); [lia|]. rewrite <- H3.
    rewrite <- (firstn_skipn (r * c) b) at 2. rewrite app_nth1; auto.
    rewrite firstn_length. lia.
Qed.

Lemma rd_otab T r c (F : nat -> nat -> option T) tl i j :
  i < r -> j < c ->
  rd (mbuf (otab r c F tl)) (i * c + j) = match F i j with Some x => Ok x | None => UB Uninit end.
Proof.
  intros Hi Hj. pose proof (flat_lt Hi Hj). unfold rd, otab. cbn [mbuf].
  rewrite nth_error_app1 by now rewrite map_length, seq_length.
  rewrite nth_error_map.
  rewrite (nth_error_nth' (seq 0 (r * c)) 0) by now rewrite seq_length.
  rewrite seq_nth by auto. cbn [option_map Nat.add].
  rewrite flat_div, flat_mod by auto. now destruct (F i j).
Qed.

Lemma rd_otab_some T r c (F : nat -> nat -> option T) tl i j x :
  i < r -> j < c -> F i j = Some x -> rd (mbuf (otab r c F tl)) (i * c + j) = Ok x.
Proof. intros. rewrite rd_otab by auto. now rewrite H1. Qed.

Lemma rd_mat T r c (f : nat -> nat -> T) tl i j :
  i < r -> j < c -> rd (mbuf (mat_of r c f tl)) (i * c + j) = Ok (f i j).
Proof. intros. rewrite mat_otab. now apply rd_otab_some. Qed.

Lemma upd_map_seq A (g : nat -> A) n k x :
  k < n -> upd (map g (seq 0 n)) k x = map (fun a => if a =? k then x else g a) (seq 0 n).
Proof.
  intros H. apply nth_list_ext with (d := x).
  - now rewrite upd_length, !map_length.
  - rewrite upd_length, map_length, seq_length. intros i Hi.
    rewrite nth_upd by now rewrite map_length, seq_length.
    rewrite !nth_map_seq by auto.
    destruct (Nat.eq_dec k i), (i =? k) eqn:E; auto;
      apply Nat.eqb_eq in E || apply Nat.eqb_neq in E; lia.
Qed.

Lemma wr_otab T r c (F : nat -> nat -> option T) tl i j x :
  i < r -> j < c ->
  wr (mbuf (otab r c F tl)) (i * c + j) x = Ok (mbuf (otab r c (fupd F i j (Some x)) tl)).
Proof.
  intros Hi Hj. pose proof (flat_lt Hi Hj). rewrite wr_ok by (rewrite otab_length; lia).
  f_equal. unfold otab. cbn [mbuf]. rewrite upd_app_l by now rewrite map_length, seq_length.
  f_equal. rewrite upd_map_seq by auto. apply map_ext_in. intros k Hk. apply in_seq in Hk.
  destruct (@flat_bounds r c k) as (H1 & H2 & H3); [lia|].
  unfold fupd. rewrite H3 at 1.
  destruct (k / c * c + k mod c =? i * c + j) eqn:E.
  - apply Nat.eqb_eq in E. apply flat_inj in E; auto. destruct E as (-> & ->).
    now rewrite !Nat.eqb_refl.
  - destruct ((k / c =? i) && (k mod c =? j)) eqn:E2; auto.
    apply andb_true_iff in E2. destruct E2 as (A & B).
    apply Nat.eqb_eq in A. apply Nat.eqb_eq in B. apply Nat.eqb_neq in E. congruence.
Qed.

Lemma fupd_eq A (F : nat -> nat -> A) i j x : fupd F i j x i j = x.
Proof. unfold fupd. now rewrite !Nat.eqb_refl. Qed.

Lemma fupd_ne A (F : nat -> nat -> A) i j x a b :
  a <> i \/ b <> j -> fupd F i j x a b = F a b.
Proof.
  intros H. unfold fupd. destruct (a =? i) eqn:A1; auto. destruct (b =? j) eqn:B1; auto.
  apply Nat.eqb_eq in A1. apply Nat.eqb_eq in B1. lia.
Qed.

Lemma wr_mat T r c (f : nat -> nat -> T) tl i j x :
  i < r -> j < c ->
  wr (mbuf (mat_of r c f tl)) (i * c + j) x = Ok (mbuf (mat_of r c (fupd f i j x) tl)).
Proof.
  intros Hi Hj. rewrite mat_otab, wr_otab by auto. f_equal. f_equal.
  apply otab_mat. intros. unfold fupd. now destruct (_ && _).
Qed.

(** Flat access: a loop over all elements. *)
Lemma rd_mat_flat T r c (f : nat -> nat -> T) tl k :
  k < r * c -> rd (mbuf (mat_of r c f tl)) k = Ok (f (k / c) (k mod c)).
Proof.
  intros H. destruct (@flat_bounds r c k) as (H1 & H2 & H3); auto.
  rewrite H3 at 1. now apply rd_mat.
Qed.

(** The sequential filling of a table, position n reached. *)
Definition upto {T} c n (g : nat -> nat -> T) (F : nat -> nat -> option T) : nat -> nat -> option T :=
  fun a b => if a * c + b <? n then Some (g a b) else F a b.

Lemma upto_step T r c (g : nat -> nat -> T) F tl i j :
  i < r -> j < c ->
  otab r c (fupd (upto c (i * c + j) g F) i j (Some (g i j))) tl
  = otab r c (upto c (S (i * c + j)) g F) tl.
Proof.
  intros Hi Hj. apply otab_ext. intros a b Ha Hb. unfold fupd, upto.
  destruct ((a =? i) && (b =? j)) eqn:E.
  - apply andb_true_iff in E. destruct E as (A & B).
    apply Nat.eqb_eq in A. apply Nat.eqb_eq in B. subst.
    assert (H : i * c + j <? S (i * c + j) = true) by (apply Nat.ltb_lt; lia). now rewrite H.
  - assert (a * c + b <> i * c + j).
    { rewrite flat_inj by auto. intros (-> & ->). rewrite !Nat.eqb_refl in E. discriminate. }
    destruct (a * c + b <? i * c + j) eqn:E1, (a * c + b <? S (i * c + j)) eqn:E2; auto;
      apply Nat.ltb_lt in E1 || apply Nat.ltb_ge in E1;
      apply Nat.ltb_lt in E2 || apply Nat.ltb_ge in E2; lia.
Qed.

Lemma upto_all T r c (g : nat -> nat -> T) F tl : otab r c (upto c (r * c) g F) tl = mat_of r c g tl.
Proof.
  apply otab_mat. intros i j Hi Hj. unfold upto.
  assert (H : i * c + j <? r * c = true) by (apply Nat.ltb_lt; now apply flat_lt). now rewrite H.
Qed.

Lemma upto_0 T r c (g : nat -> nat -> T) F tl : otab r c (upto c 0 g F) tl = otab r c F tl.
Proof. now apply otab_ext. Qed.

Lemma upto_lt T c n (g : nat -> nat -> T) F a b : a * c + b < n -> upto c n g F a b = Some (g a b).
Proof. intros H. unfold upto. apply Nat.ltb_lt in H. now rewrite H. Qed.

Lemma upto_ge T c n (g : nat -> nat -> T) F a b : n <= a * c + b -> upto c n g F a b = F a b.
Proof. intros H. unfold upto. apply Nat.ltb_ge in H. now rewrite H. Qed.

(** A flat loop writing every element. *)
Lemma for_otab T r c (g : nat -> nat -> T) F tl (body : nat -> buf T -> outcome (buf T)) :
  (forall i j, i < r -> j < c ->
     body (i * c + j) (mbuf (otab r c (upto c (i * c + j) g F) tl))
     = wr (mbuf (otab r c (upto c (i * c + j) g F) tl)) (i * c + j) (g i j)) ->
  for_ (r * c) 0 body (mbuf (otab r c F tl)) = Ok (mbuf (mat_of r c g tl)).
Proof.
  intros H. rewrite <- (upto_0 r c g F tl).
  pose proof (@for_fun (buf T) (fun n => mbuf (otab r c (upto c n g F) tl)) (r * c) 0 body) as E.
  cbn [Nat.add] in E. rewrite E; [now rewrite upto_all|].
  intros k Hk. destruct (@flat_bounds r c k) as (H1 & H2 & H3); [lia|].
  rewrite H3. rewrite H by auto. rewrite wr_otab by auto. now rewrite upto_step.
Qed.

(** A matrix whose buffer was replaced. *)
Lemma mtx_eta_otab T r c (F G : nat -> nat -> option T) tl tl' :
  Mtx (mrows (otab r c F tl)) (mcols (otab r c F tl)) (mbuf (otab r c G tl')) = otab r c G tl'.
Proof. reflexivity. Qed.

Lemma mtx_eta_mat T r c (f g : nat -> nat -> T) tl tl' :
  Mtx (mrows (mat_of r c f tl)) (mcols (mat_of r c f tl)) (mbuf (mat_of r c g tl')) = mat_of r c g tl'.
Proof. reflexivity. Qed.

Section MtxFacts.
Context {T : Type} {N : Num T}.
Variable bc : bool.

Lemma in_range r c i j : i < r -> j < c -> ((r <=? i) || (c <=? j)) = false.
Proof.
  intros. apply orb_false_iff. split; now apply Nat.leb_gt.
Qed.

Lemma out_range r c i j : ~ (i < r /\ j < c) -> ((r <=? i) || (c <=? j)) = true.
Proof.
  intros. apply orb_true_iff. rewrite !Nat.leb_le. lia.
Qed.

(** ** Element access *)

Lemma mtx_get_otab r c (F : nat -> nat -> option T) tl i j :
  i < r -> j < c ->
  mtx_get bc (otab r c F tl) i j = match F i j with Some x => Ok (0%Z, Some x) | None => UB Uninit end.
Proof.
  intros. unfold mtx_get. cbn [otab mrows mcols].
  rewrite in_range, andb_false_r by auto.
  change (Mtx r c _) with (otab r c F tl).
  match goal with |- bind (rd ?b _) _ = _ => change b with (mbuf (otab r c F tl)) end.
  rewrite rd_otab by auto. now destruct (F i j).
Qed.

Lemma mtx_get_mat r c (f : nat -> nat -> T) tl i j :
  i < r -> j < c -> mtx_get bc (mat_of r c f tl) i j = Ok (0%Z, Some (f i j)).
Proof. intros. rewrite mat_otab. now rewrite mtx_get_otab. Qed.

Lemma lget_mat r c (f : nat -> nat -> T) tl i j x :
  i < r -> j < c -> lget bc (mat_of r c f tl) i j x = Ok (Some (f i j)).
Proof. intros. unfold lget. now rewrite mtx_get_mat. Qed.

Lemma mtx_get_oob (m : mtx T) i j :
  bc = true -> ~ (i < mrows m /\ j < mcols m) -> mtx_get bc m i j = Ok ((- EINVAL)%Z, None).
Proof. intros -> H. unfold mtx_get. now rewrite out_range. Qed.

Lemma mtx_set_otab r c (F : nat -> nat -> option T) tl i j x :
  i < r -> j < c ->
  mtx_set bc (otab r c F tl) i j x = Ok (0%Z, otab r c (fupd F i j (Some x)) tl).
Proof.
  intros. unfold mtx_set. change (mrows (otab r c F tl)) with r. change (mcols (otab r c F tl)) with c.
  rewrite in_range, andb_false_r by auto.
  now rewrite wr_otab.
Qed.

Lemma mtx_set_mat r c (f : nat -> nat -> T) tl i j x :
  i < r -> j < c -> mtx_set bc (mat_of r c f tl) i j x = Ok (0%Z, mat_of r c (fupd f i j x) tl).
Proof.
  intros. rewrite mat_otab, mtx_set_otab by auto. do 2 f_equal. apply otab_mat.
  intros. unfold fupd. now destruct (_ && _).
Qed.

Lemma mtx_set_oob (m : mtx T) i j x :
  bc = true -> ~ (i < mrows m /\ j < mcols m) -> mtx_set bc m i j x = Ok ((- EINVAL)%Z, m).
Proof. intros -> H. unfold mtx_set. now rewrite out_range. Qed.

(** ** Initialisation *)

Lemma mtx_init_gen r c (m : mtx T) fn (g : nat -> nat -> T) :
  room r c m ->
  (forall m' i j, i < r -> j < c -> room r c m' ->
     match fn with None => entry_fn_empty bc m' i j | Some f => f m' i j end = mtx_set bc m' i j (g i j)) ->
  mtx_init bc m fn = Ok (0%Z, mat_of r c g (rest m)).
Proof.
  intros Hm Hf. destruct (room_otab Hm) as (F & E). destruct Hm as (Hr & Hc & Hl).
  unfold mtx_init. rewrite Hr, Hc. rewrite E at 1.
  rewrite <- (upto_0 r c g F (rest m)), <- (upto_all r c g F (rest m)).
  apply (@each_entry_ok _ (fun n => otab r c (upto c n g F) (rest m))).
  intros i j Hi Hj. rewrite Hf by (auto using otab_room).
  rewrite mtx_set_otab by auto. now rewrite upto_step.
Qed.

Lemma mtx_init_empty r c (m : mtx T) :
  room r c m -> mtx_init bc m None = Ok (0%Z, mat_of r c (fun _ _ => f0) (rest m)).
Proof. intros. now apply mtx_init_gen. Qed.

Lemma mtx_init_identity r c (m : mtx T) :
  room r c m -> mtx_init bc m (Some (entry_fn_identity bc)) = Ok (0%Z, mat_of r c mid (rest m)).
Proof. intros. now apply mtx_init_gen. Qed.

(** ** Copying *)

Lemma mtx_from_arr_ok r c (m : mtx T) xs tla :
  room r c m -> length xs = r * c ->
  mtx_from_arr m (cells xs ++ tla) = Ok (0%Z, Mtx r c (cells xs ++ rest m)).
Proof.
  intros (Hr & Hc & Hl) Hx. unfold mtx_from_arr, rest. rewrite Hr, Hc.
  now rewrite blit_cells.
Qed.

Lemma mtx_copy_ok r c (md : mtx T) f tl :
  room r c md -> mtx_copy bc md (mat_of r c f tl) = Ok (0%Z, mat_of r c f (rest md)).
Proof.
  intros (Hr & Hc & Hl). unfold mtx_copy, rest. rewrite Hr, Hc.
  cbn [mat_of mrows mcols mbuf]. rewrite !Nat.eqb_refl. cbn [negb orb]. rewrite andb_false_r.
  rewrite blit_cells; auto. now rewrite map_length, seq_length.
Qed.

Lemma mtx_copy_self r c (f : nat -> nat -> T) tl :
  mtx_copy bc (mat_of r c f tl) (mat_of r c f tl) = Ok (0%Z, mat_of r c f tl).
Proof. rewrite mtx_copy_ok by apply mat_room. now rewrite mat_rest. Qed.

Lemma mtx_copy_mismatch (md ms : mtx T) :
  bc = true -> ~ (mrows md = mrows ms /\ mcols md = mcols ms) ->
  mtx_copy bc md ms = Ok ((- EINVAL)%Z, md).
Proof.
  intros -> H. unfold mtx_copy.
  destruct (mrows md =? mrows ms) eqn:E1, (mcols md =? mcols ms) eqn:E2; cbn; auto.
  apply Nat.eqb_eq in E1, E2. lia.
Qed.

Lemma room_def r c : room r c (mtx_def (T := T) r c).
Proof. repeat split. cbn. rewrite fresh_length. lia. Qed.

Lemma rest_def r c : rest (mtx_def (T := T) r c) = [].
Proof. unfold rest. cbn. rewrite skipn_all2; auto. rewrite fresh_length. lia. Qed.

Lemma mtx_copy_local r c f tl :
  mtx_copy bc (mtx_def r c) (mat_of r c f tl) = Ok (0%Z, mat_of (T := T) r c f []).
Proof. rewrite mtx_copy_ok by apply room_def. now rewrite rest_def. Qed.

(** ** Rows and columns *)

Lemma mtx_get_row_ok r c (f : nat -> nat -> T) tl i v :
  i < r -> c <= length v ->
  mtx_get_row bc (mat_of r c f tl) i v = Ok (0%Z, cells (row_of c f i) ++ skipn c v).
Proof.
  intros Hi Hv. unfold mtx_get_row. cbn [mat_of mcols].
  change (Mtx r c _) with (mat_of r c f tl).
  set (body := fun (j : nat) (v : buf T) => _).
  pose (g := fun j => cells (map (f i) (seq 0 j)) ++ skipn j v).
  pose proof (@for_exit_fun (buf T) (Z * buf T) g c 0 body) as E.
  cbn [Nat.add] in E. change (g 0) with v in E. unfold row_of. rewrite E; [reflexivity|].
  intros j Hj. unfold body. rewrite mtx_get_mat by lia. cbn [bind]. unfold g.
  rewrite (skipn_cons_nth v None) by lia.
  pose proof (@wr_mid T (cells (map (f i) (seq 0 j))) (skipn (S j) v) (nth j v None) (f i j)) as W.
  rewrite cells_length, map_length, seq_length in W. rewrite W. cbn [bind].
  rewrite seq_S, map_app, cells_app. cbn [map cells Nat.add]. now rewrite <- app_assoc.
Qed.

Lemma mtx_get_col_ok r c (f : nat -> nat -> T) tl j v :
  j < c -> r <= length v ->
  mtx_get_col bc (mat_of r c f tl) j v = Ok (0%Z, cells (col_of r f j) ++ skipn r v).
Proof.
  intros Hj Hv. unfold mtx_get_col. cbn [mat_of mrows].
  change (Mtx r c _) with (mat_of r c f tl).
  set (body := fun (i : nat) (v : buf T) => _).
  pose (g := fun i => cells (map (fun i => f i j) (seq 0 i)) ++ skipn i v).
  pose proof (@for_exit_fun (buf T) (Z * buf T) g r 0 body) as E.
  cbn [Nat.add] in E. change (g 0) with v in E. unfold col_of. rewrite E; [reflexivity|].
  intros i Hi. unfold body. rewrite mtx_get_mat by lia. cbn [bind]. unfold g.
  rewrite (skipn_cons_nth v None) by lia.
  pose proof (@wr_mid T (cells (map (fun i => f i j) (seq 0 i))) (skipn (S i) v) (nth i v None) (f i j)) as W.
  rewrite cells_length, map_length, seq_length in W. rewrite W. cbn [bind].
  rewrite seq_S, map_app, cells_app. cbn [map cells Nat.add]. now rewrite <- app_assoc.
Qed.

Lemma mtx_set_row_otab r c (F : nat -> nat -> option T) tl i xs tlv d :
  i < r -> length xs = c ->
  mtx_set_row bc (otab r c F tl) i (cells xs ++ tlv)
  = Ok (0%Z, otab r c (fun a b => if a =? i then Some (nth b xs d) else F a b) tl).
Proof.
  intros Hi Hx. unfold mtx_set_row. change (mcols (otab r c F tl)) with c.
  set (body := fun (j : nat) (m : mtx T) => _).
  pose (st := fun n => otab r c (fun a b => if (a =? i) && (b <? n) then Some (nth b xs d) else F a b) tl).
  assert (E0 : otab r c F tl = st 0).
  { apply otab_ext. intros. cbn. now rewrite andb_false_r. }
  rewrite E0.
  pose proof (@for_exit_fun (mtx T) (Z * mtx T) st c 0 body) as E. cbn [Nat.add] in E. rewrite E.
  - cbn [bind]. do 2 f_equal. apply otab_ext. intros a b Ha Hb.
    apply Nat.ltb_lt in Hb. now rewrite Hb, andb_true_r.
  - intros j Hj. unfold body. rewrite (rd_cells_app _ _ d) by lia. cbn [bind].
    unfold st at 1. rewrite mtx_set_otab by lia. cbn [bind]. rewrite Z.eqb_refl. do 2 f_equal.
    apply otab_ext. intros a b Ha Hb. unfold fupd.
    destruct (a =? i) eqn:E1; cbn [andb]; auto.
    destruct (b =? j) eqn:E2; [apply Nat.eqb_eq in E2; subst|apply Nat.eqb_neq in E2].
    + now rewrite (proj2 (Nat.ltb_lt j (S j))) by lia.
    + destruct (b <? j) eqn:E3, (b <? S j) eqn:E4; auto;
        apply Nat.ltb_lt in E3 || apply Nat.ltb_ge in E3;
        apply Nat.ltb_lt in E4 || apply Nat.ltb_ge in E4; lia.
Qed.

Lemma mtx_set_col_otab r c (F : nat -> nat -> option T) tl j xs tlv d :
  j < c -> length xs = r ->
  mtx_set_col bc (otab r c F tl) j (cells xs ++ tlv)
  = Ok (0%Z, otab r c (fun a b => if b =? j then Some (nth a xs d) else F a b) tl).
Proof.
  intros Hj Hx. unfold mtx_set_col. change (mrows (otab r c F tl)) with r.
  set (body := fun (i : nat) (m : mtx T) => _).
  pose (st := fun n => otab r c (fun a b => if (b =? j) && (a <? n) then Some (nth a xs d) else F a b) tl).
  assert (E0 : otab r c F tl = st 0).
  { apply otab_ext. intros. cbn. now rewrite andb_false_r. }
  rewrite E0.
  pose proof (@for_exit_fun (mtx T) (Z * mtx T) st r 0 body) as E. cbn [Nat.add] in E. rewrite E.
  - cbn [bind]. do 2 f_equal. apply otab_ext. intros a b Ha Hb.
    apply Nat.ltb_lt in Ha. now rewrite Ha, andb_true_r.
  - intros i Hi. unfold body. rewrite (rd_cells_app _ _ d) by lia. cbn [bind].
    unfold st at 1. rewrite mtx_set_otab by lia. cbn [bind]. rewrite Z.eqb_refl. do 2 f_equal.
    apply otab_ext. intros a b Ha Hb. unfold fupd.
    destruct (b =? j) eqn:E1; cbn [andb]; rewrite ?andb_false_r; auto. rewrite andb_true_r.
    destruct (a =? i) eqn:E2; [apply Nat.eqb_eq in E2; subst|apply Nat.eqb_neq in E2].
    + now rewrite (proj2 (Nat.ltb_lt i (S i))) by lia.
    + destruct (a <? i) eqn:E3, (a <? S i) eqn:E4; auto;
        apply Nat.ltb_lt in E3 || apply Nat.ltb_ge in E3;
        apply Nat.ltb_lt in E4 || apply Nat.ltb_ge in E4; lia.
Qed.

Lemma mtx_set_row_ok r c (f : nat -> nat -> T) tl i xs tlv d :
  i < r -> length xs = c ->
  mtx_set_row bc (mat_of r c f tl) i (cells xs ++ tlv)
  = Ok (0%Z, mat_of r c (fun a b => if a =? i then nth b xs d else f a b) tl).
Proof.
  intros. rewrite mat_otab, (mtx_set_row_otab _ _ _ _ d) by auto. do 2 f_equal.
  apply otab_mat. intros. now destruct (_ =? _).
Qed.

Lemma mtx_set_col_ok r c (f : nat -> nat -> T) tl j xs tlv d :
  j < c -> length xs = r ->
  mtx_set_col bc (mat_of r c f tl) j (cells xs ++ tlv)
  = Ok (0%Z, mat_of r c (fun a b => if b =? j then nth a xs d else f a b) tl).
Proof.
  intros. rewrite mat_otab, (mtx_set_col_otab _ _ _ _ d) by auto. do 2 f_equal.
  apply otab_mat. intros. now destruct (_ =? _).
Qed.

Lemma mtx_get_row_oob (m : mtx T) i v :
  bc = true -> mrows m <= i -> 0 < mcols m -> mtx_get_row bc m i v = Ok ((- EINVAL)%Z, v).
Proof.
  intros Hb H Hc. unfold mtx_get_row. destruct (mcols m) eqn:E; [lia|]. cbn [for_exit].
  rewrite mtx_get_oob by (auto; lia). reflexivity.
Qed.

Lemma mtx_get_col_oob (m : mtx T) j v :
  bc = true -> mcols m <= j -> 0 < mrows m -> mtx_get_col bc m j v = Ok ((- EINVAL)%Z, v).
Proof.
  intros Hb H Hc. unfold mtx_get_col. destruct (mrows m) eqn:E; [lia|]. cbn [for_exit].
  rewrite mtx_get_oob by (auto; lia). reflexivity.
Qed.

Lemma mtx_set_row_oob (m : mtx T) i x xs tlv :
  bc = true -> mrows m <= i -> 0 < mcols m ->
  mtx_set_row bc m i (cells (x :: xs) ++ tlv) = Ok ((- EINVAL)%Z, m).
Proof.
  intros Hb H Hc. unfold mtx_set_row. destruct (mcols m) eqn:E; [lia|]. cbn [for_exit].
  cbn [cells map app rd nth_error bind].
  rewrite mtx_set_oob by (auto; lia). reflexivity.
Qed.

Lemma mtx_set_col_oob (m : mtx T) j x xs tlv :
  bc = true -> mcols m <= j -> 0 < mrows m ->
  mtx_set_col bc m j (cells (x :: xs) ++ tlv) = Ok ((- EINVAL)%Z, m).
Proof.
  intros Hb H Hc. unfold mtx_set_col. destruct (mrows m) eqn:E; [lia|]. cbn [for_exit].
  cbn [cells map app rd nth_error bind].
  rewrite mtx_set_oob by (auto; lia). reflexivity.
Qed.

End MtxFacts.
