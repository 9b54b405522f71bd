(** The rows of derivatives of the iterative magnetometer calibration *)
From Coq Require Import List Arith ZArith Bool Lia Reals Lra.
From Coquelicot Require Import Coquelicot.
From Verif Require Import Base BaseFacts RTac SpecVec SpecReal SpecMtx MVec MMtx MDecomp MStat MCal
  NumR PVec PVecR PMtx PMtxOps PMtxR SpecCal PCal SpecMagnJac.
Import ListNotations.
Set Implicit Arguments.
Local Open Scope R_scope.

(** ** What the code puts in the row *)

Definition shp_entry (n : nat) (p : nat -> nat -> R) (b : nat -> R) (k : nat) : R :=
  match k with
  | O => INR n
  | S k => bigsum n (fun i => - (p i k - b k) / rnorm (moved_by b (p i)))
  end.

Lemma jac_shp_row bc n p tl (b : nat -> R) tb :
  (forall i, (i < n)%nat -> rnorm (moved_by b (p i)) <> 0) ->
  magn_jac_shp bc (mat_of n 3 p tl) (vec_of [b 0%nat; b 1%nat; b 2%nat] tb)
  = Ok (mat_of 1 4 (fun _ k => shp_entry n p b k) []).
Proof.
  intros Hf. unfold magn_jac_shp. rewrite mtx_init_empty with (r := 1%nat) (c := 4%nat) by apply room_def.
  rewrite rest_def. cbn [bind]. change (mrows (mat_of n 3 p tl)) with n.
  match goal with |- context [for_ n 0 ?b0 ?s] =>
   destruct (@for_inv _ (fun m d => d = cells [shp_entry m p b 0; shp_entry m p b 1; shp_entry m p b 2; shp_entry m p b 3]) n 0%nat b0 s)
     as (d & E & E1) end.
  { reflexivity. }
  { intros i d Hi ->. rewrite magn_row_ok by lia. cbn [bind].
    rewrite magn_f_shp_ok. cbn [bind]. change [p i 0%nat + b 0%nat; p i 1%nat + b 1%nat; p i 2%nat + b 2%nat] with (moved_by b (p i)).
    set (v := rnorm (moved_by b (p i))). assert (Nv : v <> 0) by (apply Hf; lia).
    rewrite addto_cells by (cbn [length]; lia). cbn [bind upd nth].
    cbn [for_]. unfold vec_of. cbn [vbuf].
    do 3 (rewrite (rd_cells_app _ _ 0) by (cbn [length]; lia); cbn [bind];
      rewrite (rd_cells_app _ _ 0) by (cbn [length]; lia); cbn [bind fdiv NumR];
      rewrite Rdivo_ok by exact Nv; cbn [bind];
      rewrite addto_cells by (cbn [length]; lia); cbn [bind Nat.add upd nth]).
    eexists. split; [reflexivity|]. unfold shp_entry. cbn [bigsum]. rewrite S_INR. fold v.
    cbn [fneg fsub fadd f1 NumR]. reflexivity. }
  rewrite E. cbn [bind]. subst d. f_equal.
Qed.

Definition elli_entry (n : nat) (p : nat -> nat -> R) (b g : nat -> R) (k : nat) : R :=
  bigsum n (fun i =>
    let h j := p i j + b j in
    let w := corrected (soft g) b (p i) in
    let v := rnorm (corrected3 (soft g) (hard g) (p i)) in
    match k with
    | 0%nat => - h 0%nat * w 0%nat / v
    | 1%nat => - h 1%nat * w 1%nat / v
    | 2%nat => - h 2%nat * w 2%nat / v
    | 3%nat => - (h 1%nat * w 0%nat + h 0%nat * w 1%nat) / v
    | 4%nat => - (h 2%nat * w 0%nat + h 0%nat * w 2%nat) / v
    | 5%nat => - (h 2%nat * w 1%nat + h 1%nat * w 2%nat) / v
    | 6%nat => - w 0%nat / v
    | 7%nat => - w 1%nat / v
    | _ => - w 2%nat / v
    end).

Lemma addq_eq (xs : list R) i q v (k : buf R -> outcome (buf R)) :
  v <> 0 -> (i < length xs)%nat ->
  (let! t := fdiv q v in let! J := addto (cells xs) i t in k J) = k (cells (upd xs i (nth i xs 0 + q / v))).
Proof.
  intros Nv Hi. cbn [fdiv NumR]. rewrite Rdivo_ok by auto. cbn [bind]. now rewrite addto_cells by auto.
Qed.

Lemma list9_eq (a b c d e f g h i a' b' c' d' e' f' g' h' i' : R) :
  a = a' -> b = b' -> c = c' -> d = d' -> e = e' -> f = f' -> g = g' -> h = h' -> i = i' ->
  [a; b; c; d; e; f; g; h; i] = [a'; b'; c'; d'; e'; f'; g'; h'; i'].
Proof. congruence. Qed.

Lemma jac_elli_row bc n p tl (b : nat -> R) tb (g : nat -> R) :
  (forall i, (i < n)%nat -> rnorm (corrected3 (soft g) (hard g) (p i)) <> 0) ->
  magn_jac_elli bc (mat_of n 3 p tl) (vec_of [b 0%nat; b 1%nat; b 2%nat] tb) (Mtx 9 1 (cells (map g (seq 0 9))))
  = Ok (mat_of 1 9 (fun _ k => elli_entry n p b g k) []).
Proof.
  intros Hf. unfold magn_jac_elli. rewrite mtx_init_empty with (r := 1%nat) (c := 9%nat) by apply room_def.
  rewrite rest_def. cbn [bind]. change (mrows (mat_of n 3 p tl)) with n.
  match goal with |- context [for_ n 0 ?b0 ?s] =>
   destruct (@for_inv _ (fun m d => d = cells (map (elli_entry m p b g) (seq 0 9))) n 0%nat b0 s)
     as (d & E & E1) end.
  { reflexivity. }
  { intros i d Hi ->. unfold magn_add_elli.
    erewrite bind_eq by (apply magn_row_ok; lia).
    cbn [map seq]. erewrite bind_eq by apply magn_f_elli_ok. cbn [mbuf].
    match goal with |- context [rnorm ?l] => set (v := rnorm l) end.
    assert (Ev : v = rnorm (corrected3 (soft g) (hard g) (p i))).
    { unfold v, corrected3, corrected, soft, hard. cbn [map bigsum Nat.add]. f_equal. apply list3_eq; ring. }
    assert (Nv : v <> 0) by (rewrite Ev; apply Hf; lia).
    do 6 (erewrite bind_eq by (apply rd_vec_of; cbn [length]; lia)).
    do 6 (erewrite bind_eq by (apply (rd_cells _ 0); cbn [length]; lia)).
    cbn [nth]. eexists. split.
    - unfold magn_row_elli. do 8 (rewrite addq_eq by (auto; cbn [length upd]; lia)).
      cbn [fdiv NumR]. rewrite Rdivo_ok by auto. cbn [bind]. apply addto_cells. cbn [length upd]. lia.
    - cbn [upd nth]. f_equal. unfold elli_entry at 10 11 12 13 14 15 16 17 18. cbn [bigsum]. cbv zeta. rewrite <- Ev.
      cbn [fneg fsub fadd fmul NumR].
      unfold corrected, soft. cbn [bigsum].
      apply list9_eq; (match goal with |- ?a + _ = ?c + _ => replace c with a by reflexivity end); apply f_equal; unfold Rdiv; ring. }
  rewrite E. cbn [bind]. subst d. f_equal.
Qed.

(** ** Derivatives *)
Lemma bigsum_derive n (F : nat -> R -> R) x (d : nat -> R) :
  (forall i, (i < n)%nat -> is_derive (F i) x (d i)) ->
  is_derive (fun t => bigsum n (fun i => F i t)) x (bigsum n d).
Proof.
  induction n as [|n IH]; intros H; cbn [bigsum].
  - apply @is_derive_const.
  - apply @is_derive_plus; [apply IH; intros; apply H; lia|apply H; lia].
Qed.

(** the derivative of r - |(u, v, w)| along functions of one parameter *)
Lemma norm3_derive (u v w : R -> R) x du dv dw r :
  is_derive u x du -> is_derive v x dv -> is_derive w x dw -> rnorm [u x; v x; w x] <> 0 ->
  is_derive (fun t => r - rnorm [u t; v t; w t]) x (- (u x * du + v x * dv + w x * dw) / rnorm [u x; v x; w x]).
Proof.
  intros Hu Hv Hw Hn.
  assert (E : forall a b c, rnorm [a; b; c] = sqrt (a * a + b * b + c * c)).
  { intros a b c. unfold rnorm. f_equal. cbn. ring. }
  assert (P : 0 < u x * u x + v x * v x + w x * w x).
  { rewrite E in Hn. pose proof (Rle_0_sqr (u x)). pose proof (Rle_0_sqr (v x)). pose proof (Rle_0_sqr (w x)). unfold Rsqr in *.
    destruct (Rle_lt_or_eq_dec 0 (u x * u x + v x * v x + w x * w x)) as [L|L]; [lra|exact L|].
    rewrite <- L, sqrt_0 in Hn. contradiction. }
  apply is_derive_ext with (fun t => r - sqrt (u t * u t + v t * v t + w t * w t)).
  { intros t. now rewrite E. }
  rewrite E. rewrite E in Hn.
  evar_last.
  - apply @is_derive_minus; [apply @is_derive_const|].
    apply is_derive_sqrt; [|exact P].
    apply @is_derive_plus; [apply @is_derive_plus|]; (apply @is_derive_mult; [eassumption|eassumption|intros; apply Rmult_comm]).
  - cbn. unfold minus, plus, opp, mult, zero. cbn. field. exact Hn.
Qed.
