(** Facts about buffers, stores and loops. *)
From Coq Require Import List Arith ZArith Bool Lia.
From Verif Require Import Base.
Import ListNotations.
Set Implicit Arguments.

(** ** Lists *)

Lemma upd_length A (l : list A) i x : length (upd l i x) = length l.
Proof. revert i; induction l as [|a l IH]; intros [|i]; cbn; auto. Qed.

Lemma nth_error_upd_eq A (l : list A) i x :
  i < length l -> nth_error (upd l i x) i = Some x.
Proof.
  revert i; induction l as [|a l IH]; intros [|i]; cbn; intros H; try lia; auto.
  apply IH; lia.
Qed.

Lemma nth_error_upd_ne A (l : list A) i j x :
  i <> j -> nth_error (upd l i x) j = nth_error l j.
Proof.
  revert i j; induction l as [|a l IH]; intros [|i] [|j]; cbn; intros H; auto; try lia.
Qed.

Lemma nth_error_upd A (l : list A) i j x :
  nth_error (upd l i x) j =
  if Nat.eq_dec i j then (if lt_dec i (length l) then Some x else None) else nth_error l j.
Proof.
  destruct (Nat.eq_dec i j) as [<-|H].
  - destruct (lt_dec i (length l)).
    + now apply nth_error_upd_eq.
    + apply nth_error_None. rewrite upd_length. lia.
  - now apply nth_error_upd_ne.
Qed.

Lemma upd_oob A (l : list A) i x : length l <= i -> upd l i x = l.
Proof.
  revert i; induction l as [|a l IH]; intros [|i]; cbn; intros H; auto; try lia.
  f_equal; apply IH; lia.
Qed.

Lemma nth_upd A (l : list A) i j x d :
  i < length l -> nth j (upd l i x) d = if Nat.eq_dec i j then x else nth j l d.
Proof.
  revert i j; induction l as [|a l IH]; intros i j H; cbn [length] in H; [lia|].
  destruct i as [|i], j as [|j]; cbn [upd nth].
  - now destruct (Nat.eq_dec 0 0).
  - now destruct (Nat.eq_dec 0 (S j)).
  - now destruct (Nat.eq_dec (S i) 0).
  - rewrite IH by lia. destruct (Nat.eq_dec i j), (Nat.eq_dec (S i) (S j)); auto; lia.
Qed.

Lemma upd_app_l A (l r : list A) i x :
  i < length l -> upd (l ++ r) i x = upd l i x ++ r.
Proof.
  revert i; induction l as [|a l IH]; intros [|i]; cbn; intros H; try lia; auto.
  f_equal; apply IH; lia.
Qed.

Lemma upd_app_r A (l r : list A) i x :
  upd (l ++ r) (length l + i) x = l ++ upd r i x.
Proof. induction l as [|a l IH]; cbn; auto. now rewrite IH. Qed.

Lemma upd_app_mid A (l r : list A) a x :
  upd (l ++ a :: r) (length l) x = l ++ x :: r.
Proof.
  replace (length l) with (length l + 0) by lia. now rewrite upd_app_r.
Qed.

Lemma upd_map A B (f : A -> B) l i x : upd (map f l) i (f x) = map f (upd l i x).
Proof. revert i; induction l as [|a l IH]; intros [|i]; cbn; auto. now rewrite IH. Qed.

Lemma upd_upd A (l : list A) i x y : upd (upd l i x) i y = upd l i y.
Proof. revert i; induction l as [|a l IH]; intros [|i]; cbn; auto. now rewrite IH. Qed.

Lemma upd_comm A (l : list A) i j x y :
  i <> j -> upd (upd l i x) j y = upd (upd l j y) i x.
Proof.
  revert i j; induction l as [|a l IH]; intros [|i] [|j] H; cbn; auto; try lia.
  f_equal. apply IH. lia.
Qed.

Lemma upd_same A (l : list A) i x : nth_error l i = Some x -> upd l i x = l.
Proof.
  revert i; induction l as [|a l IH]; intros [|i]; cbn; intros H; auto; try congruence.
  f_equal; auto.
Qed.

Lemma skipn_cons_nth A (l : list A) i d :
  i < length l -> skipn i l = nth i l d :: skipn (S i) l.
Proof.
  revert i; induction l as [|a l IH]; intros [|i]; cbn [skipn length nth]; intros H; try lia; auto.
  rewrite IH by lia. destruct l; auto.
Qed.

Lemma firstn_snoc A (l : list A) i d :
  i < length l -> firstn (S i) l = firstn i l ++ [nth i l d].
Proof.
  revert i; induction l as [|a l IH]; intros [|i]; cbn [firstn length nth app]; intros H; try lia; auto.
  f_equal. apply IH; lia.
Qed.

Lemma list_ext A (l l' : list A) :
  (forall i, nth_error l i = nth_error l' i) -> l = l'.
Proof.
  revert l'; induction l as [|a l IH]; intros [|b l'] H; auto.
  - specialize (H 0); discriminate.
  - specialize (H 0); discriminate.
  - f_equal.
    + specialize (H 0); cbn in H; congruence.
    + apply IH. intros i. exact (H (S i)).
Qed.

Lemma nth_list_ext A (l l' : list A) d :
  length l = length l' -> (forall i, i < length l -> nth i l d = nth i l' d) -> l = l'.
Proof. intros; eapply nth_ext with (d := d) (d' := d); auto. Qed.

Lemma skipn_skipn' A (l : list A) i j : skipn i (skipn j l) = skipn (j + i) l.
Proof.
  revert l; induction j as [|j IH]; intros l; cbn; auto.
  destruct l; auto. now rewrite skipn_nil.
Qed.

Lemma nth_map_seq A (f : nat -> A) n i d : i < n -> nth i (map f (seq 0 n)) d = f i.
Proof.
  intros H. rewrite nth_indep with (d' := f 0) by now rewrite map_length, seq_length.
  rewrite map_nth. now rewrite seq_nth.
Qed.

Lemma map_seq_nth A (l : list A) d : map (fun i => nth i l d) (seq 0 (length l)) = l.
Proof.
  apply nth_list_ext with (d := d); rewrite map_length, seq_length; auto.
  intros i Hi. now rewrite nth_map_seq.
Qed.

(** ** Buffers *)

Lemma cells_length T (xs : list T) : length (cells xs) = length xs.
Proof. apply map_length. Qed.

Lemma cells_app T (xs ys : list T) : cells (xs ++ ys) = cells xs ++ cells ys.
Proof. apply map_app. Qed.

Lemma fresh_length T n : length (@fresh T n) = n.
Proof. apply repeat_length. Qed.

Lemma rd_cells_app T (xs : list T) tl i d :
  i < length xs -> rd (cells xs ++ tl) i = Ok (nth i xs d).
Proof.
  intros H. unfold rd. rewrite nth_error_app1 by now rewrite cells_length.
  unfold cells. rewrite nth_error_map. rewrite (nth_error_nth' xs d H). reflexivity.
Qed.

Lemma rd_cells T (xs : list T) i d :
  i < length xs -> rd (cells xs) i = Ok (nth i xs d).
Proof. intros H. rewrite <- (app_nil_r (cells xs)). now apply rd_cells_app. Qed.

Lemma rd_app_r T (l r : buf T) i : rd (l ++ r) (length l + i) = rd r i.
Proof.
  unfold rd. rewrite nth_error_app2 by lia.
  now replace (length l + i - length l) with i by lia.
Qed.

Lemma rd_app_l T (l r : buf T) i : i < length l -> rd (l ++ r) i = rd l i.
Proof. intros. unfold rd. now rewrite nth_error_app1. Qed.

Lemma rd_mid T (l r : buf T) x : rd (l ++ Some x :: r) (length l) = Ok x.
Proof. replace (length l) with (length l + 0) by lia. now rewrite rd_app_r. Qed.

Lemma rd_oob T (b : buf T) i : length b <= i -> rd b i = UB OOBRead.
Proof.
  intros H. unfold rd. apply nth_error_None in H. now rewrite H.
Qed.

Lemma wr_ok T (b : buf T) i x : i < length b -> wr b i x = Ok (upd b i (Some x)).
Proof. intros H. unfold wr. apply Nat.ltb_lt in H. now rewrite H. Qed.

Lemma wr_oob T (b : buf T) i (x : T) : length b <= i -> wr b i x = UB OOBWrite.
Proof. intros H. unfold wr. apply Nat.ltb_ge in H. now rewrite H. Qed.

Lemma wr_mid T (l r : buf T) o x :
  wr (l ++ o :: r) (length l) x = Ok (l ++ Some x :: r).
Proof.
  rewrite wr_ok.
  - now rewrite upd_app_mid.
  - rewrite app_length; cbn; lia.
Qed.

Lemma wr_cells_app T (xs : list T) tl i x :
  i < length xs -> wr (cells xs ++ tl) i x = Ok (cells (upd xs i x) ++ tl).
Proof.
  intros H. rewrite wr_ok by (rewrite app_length, cells_length; lia).
  rewrite upd_app_l by now rewrite cells_length.
  unfold cells. now rewrite upd_map.
Qed.

Lemma wr_cells T (xs : list T) i x :
  i < length xs -> wr (cells xs) i x = Ok (cells (upd xs i x)).
Proof.
  intros H. rewrite wr_ok by now rewrite cells_length.
  unfold cells. now rewrite upd_map.
Qed.

Lemma blit_ok T (src : buf T) s dst d n :
  s + n <= length src -> d + n <= length dst ->
  blit src s dst d n = Ok (firstn d dst ++ firstn n (skipn s src) ++ skipn (d + n) dst).
Proof.
  intros H1 H2. unfold blit.
  apply Nat.leb_le in H1; apply Nat.leb_le in H2. now rewrite H1, H2.
Qed.

Lemma blit_cells T (xs : list T) tl dst n :
  n = length xs -> n <= length dst ->
  blit (cells xs ++ tl) 0 dst 0 n = Ok (cells xs ++ skipn n dst).
Proof.
  intros -> H. rewrite blit_ok.
  - cbn [firstn skipn app]. rewrite firstn_app, cells_length, Nat.sub_diag.
    rewrite firstn_O, app_nil_r. rewrite <- (cells_length xs) at 1. now rewrite firstn_all.
  - rewrite app_length, cells_length. lia.
  - lia.
Qed.

Lemma zero_fill_ok T {N : Num T} (dst : buf T) n :
  n <= length dst -> zero_fill dst n = Ok (cells (repeat f0 n) ++ skipn n dst).
Proof.
  intros H. unfold zero_fill. apply Nat.leb_le in H. rewrite H.
  f_equal. f_equal. unfold cells. induction n; cbn; auto. f_equal. apply IHn.
  apply Nat.leb_le in H. apply Nat.leb_le. lia.
Qed.

(** ** Stores *)

Lemma srd_eq T (st : store T) p b i : nth_error st p = Some b -> srd st p i = rd b i.
Proof. intros H; unfold srd; now rewrite H. Qed.

Lemma swr_eq T (st : store T) p b i x :
  nth_error st p = Some b -> i < length b ->
  swr st p i x = Ok (upd st p (upd b i (Some x))).
Proof. intros H H'; unfold swr; rewrite H, wr_ok by auto. reflexivity. Qed.

(** ** Loops *)

Lemma for_S S n lo (body : nat -> S -> outcome S) s :
  for_ (Datatypes.S n) lo body s = (let! s' := body lo s in for_ n (Datatypes.S lo) body s').
Proof. reflexivity. Qed.

Lemma for_inv S (P : nat -> S -> Prop) n lo (body : nat -> S -> outcome S) s :
  P lo s ->
  (forall i s, lo <= i < lo + n -> P i s -> exists s', body i s = Ok s' /\ P (Datatypes.S i) s') ->
  exists s', for_ n lo body s = Ok s' /\ P (lo + n) s'.
Proof.
  revert lo s; induction n as [|n IH]; intros lo s H0 Hs.
  - exists s. rewrite Nat.add_0_r. auto.
  - destruct (Hs lo s) as (s1 & E & H1); [lia|auto|].
    cbn [for_]. rewrite E. cbn [bind].
    destruct (IH (Datatypes.S lo) s1 H1) as (s2 & E2 & H2).
    + intros i s2 Hi. apply Hs. lia.
    + exists s2. split; auto. now replace (lo + Datatypes.S n) with (Datatypes.S lo + n) by lia.
Qed.

(** A loop whose state at index i is a known function of i. *)
Lemma for_fun S (g : nat -> S) n lo (body : nat -> S -> outcome S) :
  (forall i, lo <= i < lo + n -> body i (g i) = Ok (g (Datatypes.S i))) ->
  for_ n lo body (g lo) = Ok (g (lo + n)).
Proof.
  intros H.
  destruct (@for_inv S (fun i s => s = g i) n lo body (g lo)) as (s' & E & ->); auto.
  intros i s Hi ->. exists (g (Datatypes.S i)). auto.
Qed.

Lemma for_ext S n lo (b1 b2 : nat -> S -> outcome S) s :
  (forall i s, lo <= i < lo + n -> b1 i s = b2 i s) -> for_ n lo b1 s = for_ n lo b2 s.
Proof.
  revert lo s; induction n as [|n IH]; intros lo s H; cbn [for_]; auto.
  rewrite H by lia. destruct (b2 lo s); cbn [bind]; auto.
  apply IH. intros; apply H; lia.
Qed.

(** Split a loop in two. *)
Lemma for_split S n m lo (body : nat -> S -> outcome S) s :
  for_ (n + m) lo body s = (let! s' := for_ n lo body s in for_ m (lo + n) body s').
Proof.
  revert lo s; induction n as [|n IH]; intros lo s; cbn [for_ Nat.add].
  - cbn [bind]. now rewrite Nat.add_0_r.
  - destruct (body lo s); cbn [bind]; auto.
    rewrite IH. now replace (lo + Datatypes.S n) with (Datatypes.S lo + n) by lia.
Qed.

Lemma for_last S n lo (body : nat -> S -> outcome S) s :
  for_ (Datatypes.S n) lo body s = (let! s' := for_ n lo body s in body (lo + n) s').
Proof.
  replace (Datatypes.S n) with (n + 1) by lia. rewrite for_split.
  destruct (for_ n lo body s); cbn; auto.
  destruct (body (lo + n) a); auto.
Qed.

(** A loop filling positions 0..n-1 of a buffer with g i, where iteration i may
    assume that positions >= i still hold their old contents. *)
Lemma for_fill T (g : nat -> T) n (body : nat -> buf T -> outcome (buf T)) b :
  n <= length b ->
  (forall i, i < n ->
     body i (cells (map g (seq 0 i)) ++ skipn i b)
     = wr (cells (map g (seq 0 i)) ++ skipn i b) i (g i)) ->
  for_ n 0 body b = Ok (cells (map g (seq 0 n)) ++ skipn n b).
Proof.
  intros Hn H.
  change b with ((fun i => cells (map g (seq 0 i)) ++ skipn i b) 0) at 1.
  rewrite (@for_fun _ (fun i => cells (map g (seq 0 i)) ++ skipn i b)); auto.
  intros i Hi. rewrite H by lia.
  destruct (nth_error b i) as [o|] eqn:E.
  - rewrite (@skipn_cons_nth _ b i o) by lia.
    pose proof (wr_mid (cells (map g (seq 0 i))) (skipn (S i) b) (nth i b o) (g i)) as W.
    rewrite cells_length, map_length, seq_length in W.
    rewrite W. f_equal. rewrite seq_S, map_app, cells_app, <- app_assoc. reflexivity.
  - apply nth_error_None in E. lia.
Qed.

(** An accumulating loop is a left fold. *)
Lemma for_fold S A (step : S -> A -> S) (l : list A) d (body : nat -> S -> outcome S) s :
  (forall i s, i < length l -> body i s = Ok (step s (nth i l d))) ->
  for_ (length l) 0 body s = Ok (fold_left step l s).
Proof.
  intros H.
  assert (G : forall l1 l2 s, l = l1 ++ l2 ->
     for_ (length l2) (length l1) body s = Ok (fold_left step l2 s)).
  { intros l1 l2; revert l1; induction l2 as [|a l2 IH]; intros l1 s0 E; cbn [for_ length fold_left]; auto.
    rewrite H by (rewrite E, app_length; cbn; lia). cbn [bind].
    rewrite E, nth_middle. specialize (IH (l1 ++ [a])).
    rewrite app_length, Nat.add_1_r in IH. apply IH. now rewrite <- app_assoc. }
  apply (G [] l s eq_refl).
Qed.

(** Early-exit loops that search: stop at the first element failing a test. *)
Lemma for_exit_forall R A (test : A -> bool) (r : A -> R) (l : list A) d
  (body : nat -> unit -> outcome (unit + R)) :
  (forall i, i < length l ->
     body i tt = Ok (if test (nth i l d) then inl tt else inr (r (nth i l d)))) ->
  for_exit (length l) 0 body tt =
  Ok (match find (fun a => negb (test a)) l with None => inl tt | Some a => inr (r a) end).
Proof.
  intros H.
  assert (G : forall l1 l2, l = l1 ++ l2 ->
     for_exit (length l2) (length l1) body tt =
     Ok (match find (fun a => negb (test a)) l2 with None => inl tt | Some a => inr (r a) end)).
  { intros l1 l2; revert l1; induction l2 as [|a l2 IH]; intros l1 E; cbn [for_exit length find]; auto.
    rewrite H by (rewrite E, app_length; cbn; lia). cbn [bind].
    rewrite E, nth_middle. destruct (test a); cbn [negb]; auto.
    specialize (IH (l1 ++ [a])).
    rewrite app_length, Nat.add_1_r in IH. apply IH. now rewrite <- app_assoc. }
  apply (G [] l eq_refl).
Qed.

Lemma find_none_forallb A (test : A -> bool) l :
  match find (fun a => negb (test a)) l with None => true | Some _ => false end = forallb test l.
Proof.
  induction l as [|a l IH]; cbn; auto. destruct (test a); cbn; auto.
Qed.
