(** Cholesky decomposition over the reals. *)
From Coq Require Import List Arith ZArith Bool Lia Reals Lra.
From Verif Require Import Base BaseFacts NumR SpecVec SpecReal SpecMtx MVec MMtx MDecomp
  PVec PVecR PMtx PMtxOps PMtxR PFvec PGram.
Import ListNotations.
Set Implicit Arguments.
Local Open Scope R_scope.

(** ** The algorithm, column by column, and its properties *)
Section C.
Variable m : nat -> nat -> R.

Definition chpiv (L : nat -> nat -> R) (t : nat) : R := m t t - bigsum t (fun k => L t k * L t k).
Definition chcol (L : nat -> nat -> R) (t i : nat) : R :=
  if (i <? t)%nat then 0 else if (i =? t)%nat then sqrt (chpiv L t)
  else (m i t - bigsum t (fun k => L i k * L t k)) / sqrt (chpiv L t).
Fixpoint cholf (t : nat) : nat -> nat -> R :=
  match t with
  | O => fun _ _ => 0
  | S t' => fun i j => if (j =? t')%nat then chcol (cholf t') t' i else cholf t' i j
  end.

Lemma cholf_stable t j i : (j < t)%nat -> cholf t i j = cholf (S j) i j.
Proof.
  induction t as [|t IH]; intros H; [lia|].
  destruct (Nat.eq_dec j t) as [->|]; [reflexivity|].
  transitivity (cholf t i j); [|apply IH; lia].
  cbn [cholf]. destruct (Nat.eqb_spec j t); [lia|reflexivity].
Qed.

Lemma cholf_eq t c j i : (j < t)%nat -> (j < c)%nat -> cholf t i j = cholf c i j.
Proof. intros. rewrite (@cholf_stable t), (@cholf_stable c) by auto. reflexivity. Qed.

Lemma chpiv_ext L L' t : (forall k, (k < t)%nat -> L t k = L' t k) -> chpiv L t = chpiv L' t.
Proof. intros H. unfold chpiv. f_equal. apply bigsum_ext. intros k Hk. now rewrite H. Qed.

Lemma cholf_col c t i : (t < c)%nat -> cholf c i t = chcol (cholf c) t i.
Proof.
  intros H. rewrite cholf_stable by auto. cbn [cholf]. rewrite Nat.eqb_refl. unfold chcol.
  rewrite (@chpiv_ext (cholf t) (cholf c) t) by (intros; apply cholf_eq; lia).
  destruct (i <? t)%nat, (i =? t)%nat; auto. do 2 f_equal. apply bigsum_ext. intros k Hk.
  rewrite !(@cholf_eq t c) by lia. reflexivity.
Qed.

Variable n : nat.
Let L := cholf n.

Lemma L_upper i j : (j < n)%nat -> (i < j)%nat -> L i j = 0.
Proof. intros. unfold L. rewrite cholf_col by auto. unfold chcol. destruct (Nat.ltb_spec i j); [auto|lia]. Qed.
Lemma L_diag j : (j < n)%nat -> L j j = sqrt (chpiv L j).
Proof. intros. unfold L at 1. rewrite cholf_col by auto. unfold chcol. destruct (Nat.ltb_spec j j); [lia|]. now rewrite Nat.eqb_refl. Qed.
Lemma L_low i j : (j < i)%nat -> (i < n)%nat ->
  L i j = (m i j - bigsum j (fun k => L i k * L j k)) / sqrt (chpiv L j).
Proof.
  intros. unfold L at 1. rewrite cholf_col by lia. unfold chcol.
  destruct (Nat.ltb_spec i j); [lia|]. destruct (Nat.eqb_spec i j); [lia|reflexivity].
Qed.

(** Entry of m from the columns done so far *)
Lemma L_entry i j : (j <= i)%nat -> (i < n)%nat -> 0 < chpiv L j ->
  m i j = bigsum (S j) (fun k => L i k * L j k).
Proof.
  intros Hj Hi Hp. cbn [bigsum]. pose proof (sqrt_lt_R0 _ Hp).
  rewrite (L_diag (j := j)) by lia. destruct (Nat.eq_dec i j) as [->|].
  - rewrite L_diag by lia. rewrite sqrt_sqrt by lra. unfold chpiv. lra.
  - rewrite (L_low (i := i)) by lia. field. lra.
Qed.

Lemma bigsum_cut a b (u : nat -> R) : (a <= b)%nat -> (forall k, (a <= k < b)%nat -> u k = 0) -> bigsum b u = bigsum a u.
Proof.
  intros H Z. induction b as [|b IH]; [replace a with O by lia; reflexivity|].
  destruct (Nat.eq_dec a (S b)) as [->|]; auto. cbn [bigsum]. rewrite Z by lia. rewrite IH; [ring|lia|].
  intros. apply Z. lia.
Qed.

Hypothesis Sym : forall i j, (i < n)%nat -> (j < n)%nat -> m i j = m j i.

Lemma L_entry_all t a b : (a < n)%nat -> (b < n)%nat -> (t <= n)%nat -> (a < t \/ b < t)%nat ->
  (forall k, (k < t)%nat -> 0 < chpiv L k) ->
  m a b = bigsum t (fun k => L a k * L b k).
Proof.
  intros Ha Hb Htn Hab Hp.
  destruct (le_lt_dec b a) as [Hle|Hlt].
  - rewrite (@L_entry a b) by (try apply Hp; lia). symmetry. apply bigsum_cut; [lia|].
    intros k Hk. rewrite (@L_upper b k) by lia. ring.
  - rewrite Sym by auto. rewrite (@L_entry b a) by (try apply Hp; lia). symmetry.
    rewrite (bigsum_ext t _ (fun k => L b k * L a k)) by (intros; ring).
    apply bigsum_cut; [lia|]. intros k Hk. rewrite (@L_upper a k) by lia. ring.
Qed.

(** Back substitution *)
Lemma back_subst t : (t < n)%nat -> (forall k, (k < t)%nat -> 0 < chpiv L k) ->
  forall d, (d <= t)%nat -> exists x : nat -> R, x t = 1 /\ (forall i, (i > t)%nat -> x i = 0) /\
    (forall k, (t - d <= k < t)%nat -> bigsum (S t) (fun i => L i k * x i) = 0).
Proof.
  intros Ht Hp d. induction d as [|d IH]; intros Hd.
  - exists (fun i => if (i =? t)%nat then 1 else 0). rewrite Nat.eqb_refl. split; auto. split.
    + intros i Hi. destruct (Nat.eqb_spec i t); [lia|auto].
    + intros. lia.
  - destruct IH as (x & X1 & X2 & X3); [lia|]. set (k0 := (t - S d)%nat).
    assert (D : L k0 k0 <> 0).
    { rewrite L_diag by lia. apply Rgt_not_eq, sqrt_lt_R0, Hp. lia. }
    set (s := bigsum (S t) (fun i => L i k0 * (if (i =? k0)%nat then 0 else x i))).
    exists (fun i => if (i =? k0)%nat then - s / L k0 k0 else x i). split; [|split].
    + destruct (Nat.eqb_spec t k0); [lia|auto].
    + intros i Hi. destruct (Nat.eqb_spec i k0); [lia|auto].
    + intros k Hk. destruct (Nat.eq_dec k k0) as [->|Ne].
      * transitivity (s + bigsum (S t) (fun i => if (i =? k0)%nat then L i k0 * (- s / L k0 k0) else 0)).
        { unfold s at 2. rewrite <- bigsum_plus. apply bigsum_ext. intros i Hi.
          destruct (Nat.eqb_spec i k0); ring. }
        rewrite (bigsum_delta (S t) (fun i => L i k0 * (- s / L k0 k0)) k0) by lia. field. exact D.
      * rewrite <- (X3 k) by lia. apply bigsum_ext. intros i Hi.
        destruct (Nat.eqb_spec i k0) as [->|]; auto. rewrite (@L_upper k0 k) by lia. ring.
Qed.

(** x^T m x *)
Definition quad (k : nat) (x : nat -> R) : R := bigsum k (fun a => bigsum k (fun b => x a * m a b * x b)).

Hypothesis PD : forall x, (exists i, (i < n)%nat /\ x i <> 0) -> 0 < quad n x.

Lemma quad_cut t x : (t <= n)%nat -> (forall i, (i >= t)%nat -> x i = 0) -> quad n x = quad t x.
Proof.
  intros Ht X. unfold quad. rewrite (@bigsum_cut t n) by (auto; intros k Hk; rewrite <- (bigsum_0 n);
    apply bigsum_ext; intros; rewrite X by lia; ring).
  apply bigsum_ext. intros a Ha. apply bigsum_cut; auto. intros b Hb. rewrite (X b) by lia. ring.
Qed.

Lemma bigsum_sq t (u : nat -> R) : bigsum t u * bigsum t u = bigsum t (fun a => bigsum t (fun b => u a * u b)).
Proof.
  rewrite bigsum_mult_r. apply bigsum_ext. intros. apply bigsum_mult_l.
Qed.

Lemma pivots_pos t : (t < n)%nat -> 0 < chpiv L t.
Proof.
  induction t as [t IH] using lt_wf_ind. intros Ht.
  assert (Hp : forall k, (k < t)%nat -> 0 < chpiv L k) by (intros; apply IH; lia).
  destruct (@back_subst t Ht Hp t) as (x & X1 & X2 & X3); [lia|].
  assert (Q : quad n x = chpiv L t); [|rewrite <- Q; apply PD; exists t; split; auto; rewrite X1; lra].
  rewrite (@quad_cut (S t)) by (auto; intros; apply X2; lia).
  transitivity (bigsum t (fun k => bigsum (S t) (fun i => L i k * x i) * bigsum (S t) (fun i => L i k * x i))
                + chpiv L t).
  2:{ rewrite (bigsum_ext t _ (fun _ => 0)); [rewrite bigsum_0; ring|].
      intros k Hk. rewrite X3 by lia. ring. }
  rewrite (bigsum_ext t _ (fun k => bigsum (S t) (fun a => bigsum (S t) (fun b => L a k * x a * (L b k * x b)))))
    by (intros; apply bigsum_sq).
  rewrite bigsum_swap.
  rewrite (bigsum_ext (S t) _ (fun a => bigsum (S t) (fun b => bigsum t (fun k => L a k * x a * (L b k * x b)))))
    by (intros; apply bigsum_swap).
  (* the entry (t, t) is off by the pivot *)
  transitivity (bigsum (S t) (fun a => bigsum (S t) (fun b => bigsum t (fun k => L a k * x a * (L b k * x b))))
     + bigsum (S t) (fun a => if (a =? t)%nat then bigsum (S t) (fun b => if (b =? t)%nat then chpiv L t else 0) else 0)).
  2:{ f_equal. rewrite (bigsum_delta (S t) (fun _ => bigsum (S t) (fun b => if (b =? t)%nat then chpiv L t else 0)) t) by lia.
      rewrite (bigsum_delta (S t) (fun _ => chpiv L t) t) by lia. reflexivity. }
  rewrite <- bigsum_plus. apply bigsum_ext. intros a Ha.
  assert (E : forall b, (b < S t)%nat ->
     x a * m a b * x b = bigsum t (fun k => L a k * x a * (L b k * x b)) +
        (if (a =? t)%nat then if (b =? t)%nat then chpiv L t else 0 else 0)).
  { intros b Hb. transitivity (x a * bigsum t (fun k => L a k * L b k) * x b
        + (if (a =? t)%nat then if (b =? t)%nat then chpiv L t else 0 else 0)).
    - destruct (Nat.eqb_spec a t) as [->|Na].
      + destruct (Nat.eqb_spec b t) as [->|Nb].
        * rewrite X1. unfold chpiv. ring.
        * rewrite (@L_entry_all t t b) by (auto; lia). ring.
      + rewrite (@L_entry_all t a b) by (auto; lia). ring.
    - f_equal. rewrite bigsum_mult_l, bigsum_mult_r. apply bigsum_ext. intros. ring. }
  rewrite (bigsum_ext (S t) _ _ E), bigsum_plus. f_equal.
  destruct (a =? t)%nat; [reflexivity|apply bigsum_0].
Qed.

Lemma chol_product i j : (i < n)%nat -> (j < n)%nat -> m i j = bigsum n (fun k => L i k * L j k).
Proof. intros. apply L_entry_all; auto. intros. apply pivots_pos; auto. Qed.

End C.

(** ** The loops *)
Section Run.
Variable bc : bool.

Lemma chol_sym_ok n (f : nat -> nat -> R) tl :
  exists b, chol_sym bc (mat_of n n f tl) = Ok b /\
  (b = true <-> forall i j, (i < n)%nat -> (j < n)%nat -> f i j = f j i).
Proof.
  unfold chol_sym. change (mrows (mat_of n n f tl)) with n.
  set (M := mat_of n n f tl).
  set (trow := fun i => forallb (fun j => Reqb (f i j) (f j i)) (seq 0 n)).
  match goal with |- context [for_exit n 0 ?b (None, None)] => set (body := b) end.
  destruct (@for_exit_scan _ _ (fun _ _ => True) trow false n 0 body (None, None)) as (A & B); auto.
  - intros i [x y] Hi _. unfold body.
    match goal with |- context [for_exit n 0 ?b (x, y)] => set (inner := b) end.
    destruct (@for_exit_scan _ _ (fun _ _ => True) (fun j => Reqb (f i j) (f j i)) false n 0 inner (x, y))
      as (A & B); auto.
    + intros j [x' y'] Hj _. unfold inner, M. rewrite !lget_mat by lia. cbn [bind lval].
      change (fne (f i j) (f j i)) with (negb (Reqb (f i j) (f j i))).
      destruct (Reqb (f i j) (f j i)); cbn [negb]; eauto.
    + destruct (trow i) eqn:Et; [destruct (A Et) as (s & E & _); eauto|auto].
  - exists (forallb trow (seq 0 n)). split.
    + destruct (forallb trow (seq 0 n)) eqn:E.
      * destruct (A eq_refl) as (s & -> & _). reflexivity.
      * rewrite (B eq_refl). reflexivity.
    + rewrite forallb_forall. split.
      * intros H i j Hi Hj. assert (Hin : In i (seq 0 n)) by (apply in_seq; lia).
        specialize (H i Hin). unfold trow in H. rewrite forallb_forall in H.
        assert (Hin2 : In j (seq 0 n)) by (apply in_seq; lia).
        specialize (H j Hin2). unfold Reqb in H. destruct (Req_EM_T (f i j) (f j i)); [auto|discriminate].
      * intros H i Hi. unfold trow. apply forallb_forall. intros j Hj.
        apply in_seq in Hi, Hj. unfold Reqb. destruct (Req_EM_T (f i j) (f j i)) as [|N]; auto.
        exfalso. apply N, H; lia.
Qed.

Lemma cholesky_run n (f : nat -> nat -> R) tl l :
  room n n l ->
  (forall i j, (i < n)%nat -> (j < n)%nat -> f i j = f j i) ->
  (forall t, (t < n)%nat -> 0 < chpiv f (cholf f n) t) ->
  mtx_cholesky bc (mat_of n n f tl) l = Ok (0%Z, mat_of n n (cholf f n) (rest l)).
Proof.
  intros Hl Hsym Hp. unfold mtx_cholesky.
  change (mrows (mat_of n n f tl)) with n. change (mcols (mat_of n n f tl)) with n.
  assert (Hl' := Hl). destruct Hl' as (Hr & Hc & _). rewrite Hr, Hc, !Nat.eqb_refl. cbn [negb orb].
  rewrite andb_false_r. cbn [andb].
  assert (ES : (if bc then chol_sym bc (mat_of n n f tl) else Ok true) = Ok true).
  { destruct (chol_sym_ok n f tl) as (b & -> & Hb).
    assert (b = true) by (apply Hb; auto). subst b. now destruct bc. }
  rewrite ES. cbn [bind negb].
  rewrite (@mtx_init_gen _ _ bc n n l (Some (entry_fn_empty bc)) (fun _ _ => f0)) by auto.
  cbn [bind].
  set (L := cholf f n).
  (* entries written so far: columns below j, and rows below i of column j *)
  set (H := fun j i a b => if (b <? j)%nat || ((b =? j)%nat && (a <? i)%nat) then L a b else 0).
  assert (HL : forall j i a b, (b < j)%nat -> H j i a b = L a b).
  { intros j i a b Hb. unfold H. destruct (Nat.ltb_spec b j); [reflexivity|lia]. }
  match goal with |- context [for_ n 0 ?b _] => set (body := b) end.
  destruct (@for_inv _ (fun j (s : mtx R * option R * option R) =>
      fst (fst s) = mat_of n n (H j 0%nat) (rest l)) n 0%nat body
      (mat_of n n (fun _ _ => f0) (rest l), None, None)) as (((l' & x') & y') & E & El).
  - apply mat_ext. intros a b Ha Hb. unfold H.
    destruct (Nat.ltb_spec b 0), (Nat.ltb_spec a 0); try lia. now rewrite andb_false_r.
  - intros j ((l1 & x1) & y1) Hj E1. cbn [fst] in E1. subst l1. unfold body.
    match goal with |- context [for_ j 0 ?b _] => set (b1 := b) end.
    destruct (@for_inv _ (fun k (s : R * option R) => fst s = bigsum k (fun k => L j k * L j k)) j 0%nat b1
       (f0, x1)) as ((s1 & x2) & Es & Es1); [reflexivity| |].
    { intros k (s0 & x0) Hk E0. cbn [fst] in E0. subst s0. unfold b1.
      rewrite lget_mat by lia. cbn [bind lval]. eexists. split; [reflexivity|].
      cbn [fst bigsum]. rewrite HL by lia. reflexivity. }
    cbn [fst Nat.add] in Es1. rewrite Es. cbn [bind]. clear Es. subst s1.
    rewrite lget_mat by lia. cbn [bind lval].
    assert (Hpj : 0 < chpiv f L j) by (apply Hp; lia).
    change (fsub (f j j) (bigsum j (fun k => L j k * L j k))) with (chpiv f L j).
    replace (fsqrt (chpiv f L j)) with (Ok (L j j)).
    2:{ unfold L at 1. rewrite L_diag by lia. symmetry. apply Rsqrto_ok. fold L. lra. }
    cbn [bind]. rewrite mtx_set_mat by lia. cbn [bind].
    unfold for_range.
    match goal with |- context [for_ (n - (j + 1)) (j + 1) ?b _] => set (b2 := b) end.
    destruct (@for_inv _ (fun i (s : mtx R * option R * option R) =>
      fst (fst s) = mat_of n n (H j i) (rest l)) (n - (j + 1)) (j + 1)%nat b2
      (mat_of n n (fupd (H j 0%nat) j j (L j j)) (rest l), Some (f j j), y1))
      as (((l3 & x3) & y3) & E3 & El3).
    + cbn [fst]. apply mat_ext. intros a b Ha Hb. unfold H, fupd.
      destruct (Nat.ltb_spec b j), (Nat.eqb_spec b j), (Nat.eqb_spec a j), (Nat.ltb_spec a 0),
        (Nat.ltb_spec a (j + 1)); try lia; cbn [andb orb]; subst; auto.
      symmetry. unfold L. apply L_upper; lia.
    + intros i ((l4 & x4) & y4) Hi E4. cbn [fst] in E4. subst l4. unfold b2.
      match goal with |- context [for_ j 0 ?b _] => set (b3 := b) end.
      destruct (@for_inv _ (fun k (s : R * option R * option R) =>
         fst (fst s) = bigsum k (fun k => L i k * L j k)) j 0%nat b3
         (f0, x4, y4)) as (((s5 & x5) & y5) & E5 & Es5); [reflexivity| |].
      { intros k ((s0 & x0) & y0) Hk E0. cbn [fst] in E0. subst s0. unfold b3.
        rewrite !lget_mat by lia. cbn [bind lval]. eexists. split; [reflexivity|].
        cbn [fst bigsum]. rewrite !HL by lia. reflexivity. }
      cbn [fst Nat.add] in Es5. rewrite E5. cbn [bind]. clear E5. subst s5.
      rewrite !lget_mat by lia. cbn [bind lval].
      assert (Hd : H j i j j = L j j).
      { unfold H. destruct (Nat.ltb_spec j j), (Nat.eqb_spec j j), (Nat.ltb_spec j i); try lia. reflexivity. }
      rewrite Hd.
      change (fsub (f i j) (bigsum j (fun k => L i k * L j k))) with (f i j - bigsum j (fun k => L i k * L j k)).
      replace (fdiv (f i j - bigsum j (fun k => L i k * L j k)) (L j j)) with (Ok (L i j)).
      2:{ symmetry. cbn [fdiv NumR]. rewrite Rdivo_ok.
          - f_equal. unfold L at 4. rewrite L_low by lia. fold L. f_equal. unfold L at 1. now rewrite L_diag by lia.
          - unfold L. rewrite L_diag by lia. apply Rgt_not_eq, sqrt_lt_R0. exact Hpj. }
      cbn [bind]. rewrite mtx_set_mat by lia. cbn [bind]. eexists. split; [reflexivity|]. cbn [fst].
      apply mat_ext. intros a b Ha Hb. unfold H, fupd.
      destruct (Nat.ltb_spec b j), (Nat.eqb_spec b j), (Nat.eqb_spec a i), (Nat.ltb_spec a i),
        (Nat.ltb_spec a (S i)); try lia; cbn [andb orb]; subst; auto.
    + rewrite E3. eexists. split; [reflexivity|]. cbn [fst] in *. rewrite El3.
      apply mat_ext. intros a b Ha Hb. unfold H.
      destruct (Nat.ltb_spec b j), (Nat.ltb_spec b (S j)), (Nat.eqb_spec b j), (Nat.eqb_spec b (S j)),
        (Nat.ltb_spec a (j + 1 + (n - (j + 1)))), (Nat.ltb_spec a 0); try lia; reflexivity.
  - rewrite E. cbn [bind fst] in *. rewrite El. do 2 f_equal. apply mat_ext. intros a b Ha Hb.
    apply HL. lia.
Qed.

Lemma cholesky_bad n c (f : nat -> nat -> R) tl l :
  bc = true ->
  n <> c \/ (exists i j, (i < n)%nat /\ (j < n)%nat /\ f i j <> f j i) \/ mrows l <> n \/ mcols l <> c ->
  mtx_cholesky bc (mat_of n c f tl) l = Ok ((- EINVAL)%Z, l).
Proof.
  intros Hb H. unfold mtx_cholesky.
  change (mrows (mat_of n c f tl)) with n. change (mcols (mat_of n c f tl)) with c.
  destruct (Nat.eqb_spec n c) as [<-|N]; rewrite Hb; cbn [negb andb]; [|reflexivity].
  destruct (chol_sym_ok n f tl) as (b & E & Eb). rewrite Hb in E. rewrite E. cbn [bind].
  destruct b; cbn [negb]; [|reflexivity].
  destruct H as [H|[(i & j & Hi & Hj & N)|H]]; [lia|exfalso; apply N, Eb; auto|].
  destruct (Nat.eqb_spec n (mrows l)), (Nat.eqb_spec n (mcols l)); cbn [negb orb]; auto. lia.
Qed.

Lemma cholesky_spec n (f : nat -> nat -> R) tl l :
  room n n l ->
  (forall i j, (i < n)%nat -> (j < n)%nat -> f i j = f j i) ->
  (forall x : nat -> R, (exists i, (i < n)%nat /\ x i <> 0) ->
     0 < bigsum n (fun a => bigsum n (fun b => x a * f a b * x b))) ->
  exists g, mtx_cholesky bc (mat_of n n f tl) l = Ok (0%Z, mat_of n n g (rest l))
  /\ (forall i j, (i < j)%nat -> (j < n)%nat -> g i j = 0)
  /\ (forall i, (i < n)%nat -> 0 < g i i)
  /\ (forall i j, (i < n)%nat -> (j < n)%nat -> bigsum n (fun k => g i k * g j k) = f i j).
Proof.
  intros Hl Hs Hp.
  assert (P : forall t, (t < n)%nat -> 0 < chpiv f (cholf f n) t) by (apply pivots_pos; auto).
  exists (cholf f n). split; [apply cholesky_run; auto|]. split; [|split].
  - intros i j Hi Hj. apply L_upper; auto.
  - intros i Hi. rewrite L_diag by auto. apply sqrt_lt_R0. auto.
  - intros i j Hi Hj. symmetry. apply chol_product; auto.
Qed.
End Run.
