(** Proofs about the cubic splines of src/interp.c. *)
From Coq Require Import List Arith ZArith Bool Lia Reals Lra Psatz.
From Verif Require Import Base BaseFacts NumR Libm LibmR RTac Out MInterp SpecInterp.
Import ListNotations.
Set Implicit Arguments.
Local Open Scope R_scope.

(** * Buffers filled from a function *)
Definition tab (f : nat -> R) (n : nat) : buf R := cells (map f (seq 0 n)).
Definition fill (f : nat -> R) (i : nat) (b : buf R) : buf R := tab f i ++ skipn i b.

Lemma tab_length f n : length (tab f n) = n.
Proof. unfold tab. now rewrite cells_length, map_length, seq_length. Qed.
Lemma rd_tab f n k : (k < n)%nat -> rd (tab f n) k = Ok (f k).
Proof.
  intros H. unfold tab. rewrite (@rd_cells R _ k 0) by now rewrite map_length, seq_length.
  now rewrite nth_map_seq.
Qed.
Lemma tab_ext f g n : (forall k, (k < n)%nat -> f k = g k) -> tab f n = tab g n.
Proof. intros H. unfold tab. f_equal. apply map_ext_in. intros k Hk. apply H. apply in_seq in Hk. lia. Qed.
Lemma rd_fill f i b k : (k < i)%nat -> rd (fill f i b) k = Ok (f k).
Proof.
  intros H. unfold fill. rewrite rd_app_l by now rewrite tab_length. now apply rd_tab.
Qed.
Lemma wr_fill f i b v : (i < length b)%nat -> v = f i -> wr (fill f i b) i v = Ok (fill f (S i) b).
Proof.
  intros H ->. unfold fill. rewrite (@skipn_cons_nth _ b i None H).
  pose proof (@wr_mid R (tab f i) (skipn (S i) b) (nth i b None) (f i)) as E. rewrite tab_length in E.
  unfold buf in *. rewrite E. f_equal.
  unfold tab. rewrite seq_S, map_app, cells_app, <- app_assoc. reflexivity.
Qed.
Lemma fill_full f b : fill f (length b) b = tab f (length b).
Proof. unfold fill. rewrite skipn_all. apply app_nil_r. Qed.
Lemma fill_0 f b : fill f 0 b = b.
Proof. reflexivity. Qed.

Lemma wr_tab f g n k v : (k < n)%nat -> v = g k -> (forall j, (j < n)%nat -> j <> k -> g j = f j) ->
  wr (tab f n) k v = Ok (tab g n).
Proof.
  intros H -> E. rewrite wr_ok by now rewrite tab_length. unfold buf. f_equal.
  apply nth_list_ext with (d := None); [now rewrite upd_length, !tab_length|].
  rewrite upd_length, tab_length. intros j Hj. rewrite nth_upd by now rewrite tab_length.
  assert (T : forall h, nth j (tab h n) None = Some (h j)).
  { intros h. unfold tab, cells. rewrite (nth_indep _ None (Some (h (0%nat)))) by now rewrite !map_length, seq_length.
    rewrite (map_nth Some), (map_nth h), seq_nth by exact Hj. reflexivity. }
  rewrite !T. destruct (Nat.eq_dec k j) as [->|NE]; [reflexivity|]. now rewrite E by auto.
Qed.

(** * The tridiagonal system *)
Section Spline.
Variables (x y : nat -> R) (n : nat).
Hypothesis n3 : (3 <= n)%nat.
Hypothesis inc : forall i, (S i < n)%nat -> x i < x (S i).
Variables z0 u0 qn un : R.
Hypothesis z0_range : -1 < z0 <= 0.
Hypothesis qn_range : 0 <= qn <= 1.

Definition sig (i : nat) : R := (x i - x (i - 1)%nat) / (x (i + 1)%nat - x (i - 1)%nat).
Definition rhs (i : nat) : R :=
  6 * ((y (i + 1)%nat - y i) / (x (i + 1)%nat - x i) - (y i - y (i - 1)%nat) / (x i - x (i - 1)%nat))
  / (x (i + 1)%nat - x (i - 1)%nat).
Fixpoint zz (i : nat) : R := match i with O => z0 | S j => (sig i - 1) / (sig i * zz j + 2) end.
Fixpoint uu (i : nat) : R :=
  match i with O => u0 | S j => (rhs i - sig i * uu j) / (sig i * zz j + 2) end.
Definition lastz : R := (un - qn * uu (n - 2)) / (qn * zz (n - 2) + 1).
(** counted from the last entry *)
Fixpoint back (d : nat) : R :=
  match d with O => lastz | S d' => zz (n - 2 - d') * back d' + uu (n - 2 - d') end.
Definition ZZ (k : nat) : R := back (n - 1 - k).

Lemma sig_range i : (1 <= i)%nat -> (S i < n)%nat -> 0 < sig i < 1.
Proof.
  intros H1 H2. unfold sig. pose proof (inc (i := (i - 1)%nat) ltac:(lia)) as A. pose proof (inc (i := i) H2) as B.
  replace (S (i - 1)) with i in A by lia. replace (i + 1)%nat with (S i) by lia.
  split; [apply Rdiv_lt_0_compat; lra|]. apply Rmult_lt_reg_r with (x (S i) - x (i - 1)%nat); [lra|].
  unfold Rdiv. rewrite Rmult_assoc, Rinv_l by lra. lra.
Qed.
Lemma zz_range i : (S i < n)%nat -> -1 < zz i <= 0.
Proof.
  induction i as [|i IH]; intros H; [exact z0_range|]. cbn [zz].
  specialize (IH ltac:(lia)). pose proof (@sig_range (S i) ltac:(lia) H) as S1. set (s := sig (S i)) in *.
  assert (P : 1 < s * zz i + 2) by nra. split.
  - apply Rmult_lt_reg_r with (s * zz i + 2); [lra|]. unfold Rdiv. rewrite Rmult_assoc, Rinv_l by lra. nra.
  - apply Rmult_le_reg_r with (s * zz i + 2); [lra|]. unfold Rdiv. rewrite Rmult_assoc, Rinv_l by lra. nra.
Qed.
Lemma pivot i : (1 <= i)%nat -> (S i < n)%nat -> 0 < sig i * zz (i - 1) + 2.
Proof.
  intros H1 H2. pose proof (@sig_range i H1 H2). pose proof (@zz_range (i - 1) ltac:(lia)). nra.
Qed.
Lemma last_pivot : 0 < qn * zz (n - 2) + 1.
Proof. pose proof (@zz_range (n - 2) ltac:(lia)). nra. Qed.

Lemma ZZ_step k : (S k < n)%nat -> ZZ k = zz k * ZZ (S k) + uu k.
Proof.
  intros H. unfold ZZ. replace (n - 1 - k)%nat with (S (n - 1 - S k)) by lia. cbn [back].
  replace (n - 2 - (n - 1 - S k))%nat with k by lia. reflexivity.
Qed.
Lemma ZZ_inner i : (1 <= i)%nat -> (S i < n)%nat ->
  sig i * ZZ (i - 1) + 2 * ZZ i + (1 - sig i) * ZZ (S i) = rhs i.
Proof.
  intros H1 H2. rewrite (@ZZ_step (i - 1)) by lia. replace (S (i - 1)) with i by lia.
  rewrite (@ZZ_step i) by exact H2. destruct i as [|i]; [lia|].
  cbn [zz uu]. pose proof (@pivot (S i) H1 H2) as P. replace (S i - 1)%nat with i in * by lia. field. lra.
Qed.
Lemma ZZ_last : ZZ (n - 1) + qn * ZZ (n - 2) = un.
Proof.
  rewrite (@ZZ_step (n - 2)) by lia. replace (S (n - 2)) with (n - 1)%nat by lia.
  unfold ZZ. replace (n - 1 - (n - 1))%nat with 0%nat by lia. cbn [back]. unfold lastz.
  pose proof last_pivot. field. lra.
Qed.
Lemma ZZ_first : ZZ 0 = z0 * ZZ 1 + u0.
Proof. apply ZZ_step. lia. Qed.

(** the loops *)
Variables (xs ys : list R).
Hypothesis xs_len : length xs = n.
Hypothesis ys_len : length ys = n.
Hypothesis xs_x : forall i, nth i xs 0 = x i.
Hypothesis ys_y : forall i, nth i ys 0 = y i.

Lemma rdx i : (i < n)%nat -> rd (cells xs) i = Ok (x i).
Proof. intros H. rewrite (@rd_cells R xs i 0) by lia. now rewrite xs_x. Qed.
Lemma rdy i : (i < n)%nat -> rd (cells ys) i = Ok (y i).
Proof. intros H. rewrite (@rd_cells R ys i 0) by lia. now rewrite ys_y. Qed.

Definition forward (i : nat) (s : buf R * buf R) : outcome (buf R * buf R) :=
  let '(y2, u) := s in
  let! xi := rd (cells xs) i in let! xm := rd (cells xs) (i - 1)%nat in let! xp := rd (cells xs) (i + 1)%nat in
  let! yi := rd (cells ys) i in let! ym := rd (cells ys) (i - 1)%nat in let! yp := rd (cells ys) (i + 1)%nat in
  let x_i_im1 := fsub xi xm in
  let x_ip1_im1 := fsub xp xm in
  let! sigma := fdiv x_i_im1 x_ip1_im1 in
  let! z := rd y2 (i - 1) in
  let p := fadd (fmul sigma z) (flit 20 1) in
  let! q := fdiv (fsub sigma (flit 10 1)) p in
  let! y2 := wr y2 i q in
  let! a := fdiv (fsub yp yi) (fsub xp xi) in
  let! b := fdiv (fsub yi ym) x_i_im1 in
  let ui := fsub a b in
  let! um := rd u (i - 1) in
  let! c := fdiv (fmul (flit 60 1) ui) x_ip1_im1 in
  let! d := fdiv (fsub c (fmul sigma um)) p in
  let! u := wr u i d in
  Ok (y2, u).

Lemma forward_ok y2 u : length y2 = n -> length u = (n - 1)%nat ->
  for_ (n - 2) 1 forward (fill zz 1 y2, fill uu 1 u) = Ok (fill zz (n - 1) y2, tab uu (n - 1)).
Proof.
  intros L1 L2.
  pose proof (@for_fun _ (fun i => (fill zz i y2, fill uu i u)) (n - 2) 1 forward) as F. cbn beta in F.
  rewrite F.
  - replace (1 + (n - 2))%nat with (n - 1)%nat by lia. rewrite <- L2 at 2. rewrite fill_full, L2. reflexivity.
  - intros i Hi. unfold forward. rewrite !rdx, !rdy by lia. cbn [bind].
    pose proof (@pivot i ltac:(lia) ltac:(lia)) as P.
    pose proof (inc (i := (i - 1)%nat) ltac:(lia)) as A. pose proof (inc (i := i) ltac:(lia)) as B.
    replace (S (i - 1)) with i in A by lia. replace (S i) with (i + 1)%nat in B by lia.
    rops. rewrite (Rdivo_ok (x i - _)) by lra. cbn [bind]. rewrite rd_fill by lia. cbn [bind].
    fold (sig i). replace (20 / 10) with 2 by lra. replace (10 / 10) with 1 by lra. replace (60 / 10) with 6 by lra.
    rewrite (Rdivo_ok (sig i - 1)) by lra. cbn [bind].
    rewrite wr_fill; [|lia|destruct i as [|i]; [lia|]; cbn [zz]; now replace (S i - 1)%nat with i by lia].
    cbn [bind]. rewrite !Rdivo_ok by lra. cbn [bind]. rewrite rd_fill by lia. cbn [bind].
    rewrite Rdivo_ok by lra. cbn [bind]. rewrite Rdivo_ok by lra. cbn [bind].
    rewrite wr_fill; [reflexivity|lia|]. destruct i as [|i]; [lia|]. cbn [uu].
    unfold rhs. now replace (S i - 1)%nat with i by lia.
Qed.

Definition backward (u : buf R) (j : nat) (y2 : buf R) : outcome (buf R) :=
  let k := (n - 2 - j)%nat in
  let! a := rd y2 k in
  let! b := rd y2 (k + 1) in
  let! c := rd u k in
  wr y2 k (fadd (fmul a b) c).

Lemma backward_ok :
  for_ (n - 1) 0 (backward (tab uu (n - 1))) (tab (fun k => if (k =? n - 1)%nat then lastz else zz k) n) = Ok (tab ZZ n).
Proof.
  set (g := fun j => tab (fun k => if (k <? n - 1 - j)%nat then zz k else ZZ k) n).
  replace (tab (fun k => if (k =? n - 1)%nat then lastz else zz k) n) with (g 0%nat).
  2:{ apply tab_ext. intros k Hk. destruct (Nat.eqb_spec k (n - 1)) as [->|NE].
      - destruct (Nat.ltb_spec (n - 1) (n - 1 - 0)); [lia|]. unfold ZZ. now replace (n - 1 - (n - 1))%nat with 0%nat by lia.
      - destruct (Nat.ltb_spec k (n - 1 - 0)); [reflexivity|lia]. }
  rewrite (@for_fun _ g (n - 1) 0 (backward (tab uu (n - 1)))).
  - f_equal. apply tab_ext. intros k Hk. destruct (Nat.ltb_spec k (n - 1 - (0 + (n - 1)))); [lia|reflexivity].
  - intros j Hj. unfold backward, g. rewrite !rd_tab by lia. cbn [bind].
    destruct (Nat.ltb_spec (n - 2 - j) (n - 1 - j)); [|lia].
    destruct (Nat.ltb_spec (n - 2 - j + 1) (n - 1 - j)); [lia|]. rops.
    apply wr_tab; [lia| |].
    + destruct (Nat.ltb_spec (n - 2 - j) (n - 1 - S j)); [lia|]. rewrite (@ZZ_step (n - 2 - j)) by lia.
      now replace (S (n - 2 - j)) with (n - 2 - j + 1)%nat by lia.
    + intros k Hk NE. destruct (Nat.ltb_spec k (n - 1 - S j)), (Nat.ltb_spec k (n - 1 - j)); try lia; reflexivity.
Qed.
End Spline.

(** natural (very large) or given end slope *)
Definition natural (s : R) : Prop := 990000000000000000000000000000 < s.

Lemma gt_nat_true s : natural s -> fgt s (flit 99 (-28)) = true.
Proof. intros H. unfold natural in H. rops. apply Rltb_true. lra. Qed.
Lemma gt_nat_false s : ~ natural s -> fgt s (flit 99 (-28)) = false.
Proof. intros H. unfold natural in H. rops. apply Rltb_false. lra. Qed.

Definition z_first (yp1 : R) : R := if Rlt_dec 990000000000000000000000000000 yp1 then 0 else - (1 / 2).
Definition u_first (x y : nat -> R) (yp1 : R) : R :=
  if Rlt_dec 990000000000000000000000000000 yp1 then 0
  else 3 / (x 1%nat - x 0%nat) * ((y 1%nat - y 0%nat) / (x 1%nat - x 0%nat) - yp1).
Definition q_last (ypn : R) : R := if Rlt_dec 990000000000000000000000000000 ypn then 0 else 1 / 2.
Definition u_last (x y : nat -> R) (n : nat) (ypn : R) : R :=
  if Rlt_dec 990000000000000000000000000000 ypn then 0
  else 3 / (x (n - 1)%nat - x (n - 2)%nat)
       * (ypn - (y (n - 1)%nat - y (n - 2)%nat) / (x (n - 1)%nat - x (n - 2)%nat)).

Lemma calc_run xs ys y2 yp1 ypn :
  let n := length xs in let x := fun i => nth i xs 0 in let y := fun i => nth i ys 0 in
  (3 <= n)%nat -> length ys = n -> length y2 = n -> (forall i, (S i < n)%nat -> x i < x (S i)) ->
  interp_cubic_calc true xs ys y2 yp1 ypn
  = Ok (0%Z, tab (ZZ x y n (z_first yp1) (u_first x y yp1) (q_last ypn) (u_last x y n ypn)) n).
Proof.
  intros n x y n3 Ly L2 inc.
  set (z0 := z_first yp1). set (u0 := u_first x y yp1). set (qn := q_last ypn). set (un := u_last x y n ypn).
  assert (Hz : -1 < z0 <= 0) by (unfold z0, z_first; destruct (Rlt_dec _ _); lra).
  assert (Hq : 0 <= qn <= 1) by (unfold qn, q_last; destruct (Rlt_dec _ _); lra).
  unfold interp_cubic_calc. fold n. destruct (Nat.ltb_spec n 3); [lia|]. cbn [negb].
  assert (RX : forall i, (i < n)%nat -> rd (cells xs) i = Ok (x i)) by (intros i Hi; apply rd_cells; exact Hi).
  assert (RY : forall i, (i < n)%nat -> rd (cells ys) i = Ok (y i)) by (intros i Hi; apply rd_cells; lia).
  match goal with |- bind ?m _ = _ =>
    assert (E1 : m = Ok (fill (zz x z0) 1 y2, fill (uu x y z0 u0) 1 (fresh (n - 1)))) end.
  { assert (W1 : forall v, v = z0 -> wr y2 0 v = Ok (fill (zz x z0) 1 y2)).
    { intros v ->. rewrite <- (fill_0 (zz x z0) y2) at 1. apply wr_fill; [lia|reflexivity]. }
    assert (W2 : forall v, v = u0 -> wr (fresh (n - 1)) 0 v = Ok (fill (uu x y z0 u0) 1 (fresh (n - 1)))).
    { intros v ->. rewrite <- (fill_0 (uu x y z0 u0) (fresh (n - 1))) at 1. apply wr_fill; [rewrite fresh_length; lia|reflexivity]. }
    unfold z0, u0, z_first, u_first in W1, W2 |- *. destruct (Rlt_dec _ yp1) as [G|G].
    - rewrite gt_nat_true by exact G. rewrite W2 by reflexivity. cbn [bind]. rewrite W1 by reflexivity. reflexivity.
    - rewrite gt_nat_false by exact G. rewrite W1 by (rops; lra). cbn [bind]. rewrite !RX, !RY by lia. cbn [bind].
      pose proof (inc 0%nat ltac:(lia)). rops. rewrite !Rdivo_ok by lra. cbn [bind].
      rewrite W2; [reflexivity|]. f_equal. lra. }
  rewrite E1. cbn [bind]. clear E1.
  match goal with |- bind ?m _ = _ =>
    assert (E2 : m = Ok (fill (zz x z0) (n - 1) y2, tab (uu x y z0 u0) (n - 1))) end.
  { etransitivity; [|exact (@forward_ok x y n n3 inc z0 u0 Hz xs ys eq_refl Ly (fun _ => eq_refl) (fun _ => eq_refl)
       y2 (fresh (n - 1)) L2 (fresh_length _ _))]. reflexivity. }
  rewrite E2. cbn [bind]. clear E2.
  match goal with |- bind ?m _ = _ => assert (E3 : m = Ok (qn, un)) end.
  { unfold qn, un, q_last, u_last. destruct (Rlt_dec _ ypn) as [G|G].
    - rewrite gt_nat_true by exact G. reflexivity.
    - rewrite gt_nat_false by exact G. rewrite !RX, !RY by lia. cbn [bind].
      pose proof (inc (n - 2)%nat ltac:(lia)) as I. replace (S (n - 2)) with (n - 1)%nat in I by lia.
      rops. rewrite !Rdivo_ok by lra. cbn [bind]. do 2 f_equal; [lra|]. f_equal. lra. }
  rewrite E3. cbn [bind]. clear E3.
  rewrite rd_tab by lia. cbn [bind]. rewrite rd_fill by lia. cbn [bind].
  pose proof (@last_pivot x n n3 inc z0 qn Hz Hq) as P.
  rops. replace (10 / 10) with 1 by lra. rewrite Rdivo_ok by lra. cbn [bind].
  set (z := zz x z0). set (u := uu x y z0 u0). fold z in P.
  match goal with |- bind (wr _ _ ?v) _ = _ => assert (E4 : v = lastz x y n z0 u0 qn un) by reflexivity; rewrite E4 end.
  rewrite <- L2 at 1. replace (length y2 - 1)%nat with (n - 1)%nat by lia.
  assert (EF : fill z (n - 1) y2 = fill (fun k => if (k =? n - 1)%nat then lastz x y n z0 u0 qn un else z k) (n - 1) y2).
  { unfold fill. f_equal. apply tab_ext. intros k Hk. destruct (Nat.eqb_spec k (n - 1)); [lia|reflexivity]. }
  rewrite EF. rewrite wr_fill by (try lia; now rewrite Nat.eqb_refl). cbn [bind].
  replace (S (n - 1)) with (length y2) by lia. rewrite fill_full, L2.
  match goal with |- bind ?m _ = _ => assert (E5 : m = Ok (tab (ZZ x y n z0 u0 qn un) n)) end.
  { etransitivity; [|exact (@backward_ok x y n n3 z0 u0 qn un xs ys eq_refl Ly)]. reflexivity. }
  rewrite E5. reflexivity.
Qed.

(** * Evaluation *)
Definition bisect2 (xs : list R) (x : R) (s : nat * nat) : outcome ((nat * nat) + (nat * nat)) :=
  let '(klo, khi) := s in
  if (1 <? khi - klo)%nat then
    let k := ((khi + klo) / 2)%nat in
    let! xk := rd (cells xs) k in
    if fgt xk x then Ok (inl (klo, k)) else Ok (inl (k, khi))
  else Ok (inr (klo, khi)).

Lemma bisect2_ok xs x : forall fuel lo hi, (lo < hi < length xs)%nat -> (hi - lo < fuel)%nat ->
  exists i, while_ fuel (bisect2 xs x) (lo, hi) = Ok (i, S i) /\ (lo <= i < hi)%nat
    /\ (i = lo \/ nth i xs 0 <= x) /\ (S i = hi \/ x < nth (S i) xs 0).
Proof.
  induction fuel as [|fuel IH]; intros lo hi H HF; [lia|].
  cbn [while_]. unfold bisect2 at 1. destruct (Nat.ltb_spec 1 (hi - lo)) as [L|L].
  - set (mid := ((hi + lo) / 2)%nat).
    assert (M : (lo < mid < hi)%nat).
    { unfold mid. split; [apply Nat.div_le_lower_bound|apply Nat.div_lt_upper_bound]; lia. }
    rewrite (@rd_cells R xs mid 0) by lia. cbn [bind]. rops. destruct (Rltb_spec x (nth mid xs 0)) as [C|C]; cbn [bind].
    + destruct (IH lo mid ltac:(lia) ltac:(lia)) as (i & W & B & D1 & D2). exists i. split; [exact W|].
      split; [lia|]. split; [exact D1|]. destruct D2 as [->|D2]; auto.
    + destruct (IH mid hi ltac:(lia) ltac:(lia)) as (i & W & B & D1 & D2). exists i. split; [exact W|].
      split; [lia|]. split; [|exact D2]. destruct D1 as [->|D1]; [right; lra|auto].
  - exists lo. replace hi with (S lo) by lia. cbn [bind]. split; [reflexivity|]. split; [lia|]. auto.
Qed.

Lemma arr_run fuel xs ys z x :
  let n := length xs in
  (3 <= n)%nat -> length ys = n -> (n <= fuel)%nat -> (forall i, (S i < n)%nat -> nth i xs 0 < nth (S i) xs 0) ->
  exists i, (S i < n)%nat /\ (i = 0%nat \/ nth i xs 0 <= x) /\ (S i = (n - 1)%nat \/ x < nth (S i) xs 0)
  /\ interp_cubic_arr fuel xs ys (tab z n) x
     = Ok (0%Z, Set_ (cubic (nth i xs 0) (nth i ys 0) (z i) (nth (S i) xs 0) (nth (S i) ys 0) (z (S i)) x)).
Proof.
  intros n n3 Ly HF inc. unfold interp_cubic_arr. fold n. destruct (Nat.ltb_spec n 3); [lia|].
  rewrite (@rd_cells R xs 0 0) by (fold n; lia). cbn [bind].
  match goal with |- context [bind ?m (fun b : bool => _)] =>
    assert (E1 : m = Ok (Rleb (nth 0 xs 0) x && Rltb x (nth 1 xs 0))) end.
  { rops. destruct (Rleb_spec (nth 0 xs 0) x); [|reflexivity].
    rewrite (@rd_cells R xs 1 0) by (fold n; lia). reflexivity. }
  rewrite E1. cbn [bind]. clear E1.
  match goal with |- context [bind ?m (fun '(klo, khi) => _)] =>
    assert (E2 : exists i, (S i < n)%nat /\ (i = 0%nat \/ nth i xs 0 <= x) /\ (S i = (n - 1)%nat \/ x < nth (S i) xs 0)
      /\ m = Ok (i, S i)) end.
  { destruct (Rleb_spec (nth 0 xs 0) x); [destruct (Rltb_spec x (nth 1 xs 0))|]; cbn [andb].
    1: exists 0%nat; repeat split; auto; lia.
    all: destruct (@bisect2_ok xs x fuel 0 (n - 1) ltac:(fold n; lia) ltac:(lia)) as (i & W & B & D1 & D2);
      exists i; (split; [lia|]); (split; [exact D1|]); (split; [exact D2|exact W]). }
  destruct E2 as (i & Hi & D1 & D2 & ->). cbn [bind].
  exists i. split; [exact Hi|]. split; [exact D1|]. split; [exact D2|].
  rewrite (@rd_cells R xs (S i) 0), (@rd_cells R xs i 0) by (fold n; lia). cbn [bind].
  pose proof (inc i Hi) as I. rops. rewrite Reqb_false by lra. rewrite !Rdivo_ok by lra. cbn [bind].
  rewrite (@rd_cells R ys i 0), (@rd_cells R ys (S i) 0) by lia. cbn [bind]. rewrite !rd_tab by lia. cbn [bind].
  rewrite Rdivo_ok by lra. cbn [bind]. do 3 f_equal. unfold cubic. field. lra.
Qed.
