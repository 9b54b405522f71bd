(** Functions that only compare machine numbers. *)
From Coq Require Import Floats.PrimFloat.
From Coq Require Import ZArith Reals Lra Lia List Bool.
From Verif Require Import Base BaseFacts NumF NumR SpecVec SpecReal SpecMtx SpecInterp SpecFlt MVec MMtx MInterp PMtx PMtxOps PFlt PPoly PRgbFlt PFltStat PNanQuat.
Import ListNotations.
Set Implicit Arguments.
Open Scope R_scope.

(** A number or a NaN, not an infinity *)
Definition fin_or_nan (x : double) : Prop := finite x \/ is_nan x = true.

Lemma nan_not_finite x : is_nan x = true -> finite x -> False.
Proof.
  unfold finite, is_finite, is_nan. intros H1 H2. rewrite H1 in H2. discriminate.
Qed.

(** ** Extrema *)
Section Ext.
Variable key : R -> R.
Variable better : double -> double -> bool.
Hypothesis Hb : forall a b, finite a -> finite b -> better a b = true <-> key (FR a) < key (FR b).
Hypothesis Hn : forall a b, is_nan a = true -> better a b = false.

Lemma pick_fold l : forall b, finite b -> (forall x, In x l -> fin_or_nan x) ->
  let r := fold_left (pick better) l b in
  finite r /\ (r = b \/ In r l) /\ key (FR r) <= key (FR b) /\ (forall x, In x l -> finite x -> key (FR r) <= key (FR x)).
Proof.
  induction l as [|a l IH]; intros b Fb Hl; cbn [fold_left].
  - repeat split; auto; try lra. intros x [].
  - assert (Ha : fin_or_nan a) by (apply Hl; now left). change (pick better b a) with (if better a b then a else b).
    destruct (better a b) eqn:E.
    + destruct Ha as [Fa|Na]; [|rewrite Hn in E by auto; discriminate]. apply Hb in E; auto.
      destruct (IH a Fa ltac:(intros; apply Hl; now right)) as (F & M & L & A). cbn zeta. 
      split; [exact F|]. split; [destruct M; [right; left; auto|right; right; auto]|]. split; [lra|].
      intros x [<-|Hx] Fx; auto.
    + destruct (IH b Fb ltac:(intros; apply Hl; now right)) as (F & M & L & A). cbn zeta.
      split; [exact F|]. split; [destruct M; [left; auto|right; right; auto]|]. split; [lra|].
      intros x [<-|Hx] Fx; auto. destruct (Rle_lt_dec (key (FR b)) (key (FR a))) as [|N]; [lra|]. apply Hb in N; auto. congruence.
Qed.

Lemma extreme_flt r c (f : nat -> nat -> double) tl : (0 < r)%nat -> (0 < c)%nat ->
  finite (f 0 0)%nat -> (forall i j, (i < r)%nat -> (j < c)%nat -> fin_or_nan (f i j)) ->
  exists x, mtx_extreme better (mat_of r c f tl) = Ok (0%Z, x)
  /\ (exists i j, (i < r)%nat /\ (j < c)%nat /\ finite (f i j) /\ x = f i j)
  /\ (forall i j, (i < r)%nat -> (j < c)%nat -> finite (f i j) -> key (FR x) <= key (FR (f i j))).
Proof.
  intros Hr Hc F0 HF. rewrite mtx_extreme_ok by auto. eexists. split; [reflexivity|].
  assert (D : forall k, (k < r * c)%nat -> (k / c < r)%nat /\ (k mod c < c)%nat).
  { intros k Hk. split; [apply Nat.div_lt_upper_bound; lia|apply Nat.mod_upper_bound; lia]. }
  assert (G : forall x, In x (elems r c f) -> exists i j, (i < r)%nat /\ (j < c)%nat /\ x = f i j).
  { unfold elems. intros x Hx. apply in_map_iff in Hx as (k & <- & Hk). apply in_seq in Hk. destruct (D k); [lia|]. eauto. }
  destruct (@pick_fold (elems r c f) (f 0 0)%nat F0) as (F & M & L & A).
  { intros x Hx. destruct (G x Hx) as (i & j & Hi & Hj & ->). auto. }
  split.
  - destruct M as [M|M]; [exists 0%nat, 0%nat; rewrite M; auto|]. destruct (G _ M) as (i & j & Hi & Hj & E). exists i, j. rewrite <- E. auto.
  - intros i j Hi Hj Fij. apply A; auto. unfold elems. apply in_map_iff. exists (i * c + j)%nat. split.
    + rewrite Nat.div_add_l, Nat.div_small, Nat.add_0_r by lia. rewrite Nat.add_comm, Nat.mod_add, Nat.mod_small by lia. reflexivity.
    + apply in_seq. nia.
Qed.

Lemma extreme_idx_flt r c (f : nat -> nat -> double) tl : (0 < r)%nat -> (0 < c)%nat ->
  finite (f 0 0)%nat -> (forall i j, (i < r)%nat -> (j < c)%nat -> fin_or_nan (f i j)) ->
  exists i j, mtx_extreme_idx better (mat_of r c f tl) = Ok (0%Z, (i, j))
  /\ (i < r)%nat /\ (j < c)%nat /\ finite (f i j)
  /\ (forall a b, (a < r)%nat -> (b < c)%nat -> finite (f a b) -> key (FR (f i j)) <= key (FR (f a b)))
  /\ (forall a b, (a < r)%nat -> (b < c)%nat -> finite (f a b) -> (a < i)%nat \/ a = i /\ (b < j)%nat -> key (FR (f i j)) < key (FR (f a b))).
Proof.
  intros Hr Hc F0 HF. rewrite mtx_extreme_idx_ok by auto. set (g := fun k => f (k / c)%nat (k mod c)%nat).
  set (stp := fun (s : double * nat) (k' : nat) => let '(b, k) := s in let a := f (k' / c)%nat (k' mod c)%nat in if better a b then (a, k') else (b, k)).
  assert (D : forall k, (k < r * c)%nat -> (k / c < r)%nat /\ (k mod c < c)%nat).
  { intros k Hk. split; [apply Nat.div_lt_upper_bound; lia|apply Nat.mod_upper_bound; lia]. }
  assert (G : forall k, (k < r * c)%nat -> fin_or_nan (g k)) by (intros k Hk; destruct (D k Hk); apply HF; auto).
  assert (G0 : g 0%nat = f 0%nat 0%nat) by (unfold g; now rewrite Nat.div_0_l, Nat.mod_0_l by lia).
  assert (K : forall n, (n <= r * c)%nat -> exists k, fold_left stp (seq 0 n) (f 0%nat 0%nat, 0%nat) = (g k, k) /\ (k < Nat.max n 1)%nat /\ finite (g k) /\
     (forall k', (k' < n)%nat -> finite (g k') -> key (FR (g k)) <= key (FR (g k'))) /\
     (forall k', (k' < k)%nat -> finite (g k') -> key (FR (g k)) < key (FR (g k')))).
  { induction n as [|n IH]; intros Hnn.
    - exists 0%nat. cbn [seq fold_left]. rewrite G0. repeat split; auto; lia.
    - destruct IH as (k & E & Hk & Fk & A & B); [lia|]. rewrite seq_S, fold_left_app, E. cbn [fold_left Nat.add].
      unfold stp at 1. fold (g n). destruct (better (g n) (g k)) eqn:Eb.
      + destruct (G n ltac:(lia)) as [Fn|Nn]; [|rewrite Hn in Eb by auto; discriminate]. apply Hb in Eb; auto.
        exists n. repeat split; auto; [lia| |].
        * intros k' Hk' Fk'. destruct (Nat.eq_dec k' n) as [->|]; [lra|]. specialize (A k' ltac:(lia) Fk'). lra.
        * intros k' Hk' Fk'. specialize (A k' ltac:(lia) Fk'). lra.
      + exists k. repeat split; auto; [lia|]. intros k' Hk' Fk'. destruct (Nat.eq_dec k' n) as [->|]; [|apply A; auto; lia].
        destruct (Rle_lt_dec (key (FR (g k))) (key (FR (g n)))) as [|N]; [lra|]. apply Hb in N; auto. congruence. }
  destruct (K (r * c)%nat (le_n _)) as (k & -> & Hk & Fk & A & B). cbn [snd].
  assert (Hk' : (k < r * c)%nat) by nia. destruct (D k Hk') as (D1 & D2).
  assert (FI : forall a b, (b < c)%nat -> g (a * c + b)%nat = f a b).
  { intros a b Hb'. unfold g. rewrite Nat.div_add_l, Nat.div_small, Nat.add_0_r by lia. rewrite Nat.add_comm, Nat.mod_add, Nat.mod_small by lia. reflexivity. }
  exists (k / c)%nat, (k mod c)%nat. split; [reflexivity|]. split; [exact D1|]. split; [exact D2|]. split; [exact Fk|]. fold (g k). split.
  - intros a b Ha Hb' Fab. rewrite <- FI in Fab |- * by auto. apply A; auto. nia.
  - intros a b Ha Hb' Fab Ho. rewrite <- FI in Fab |- * by auto. apply B; auto.
    pose proof (Nat.div_mod k c ltac:(lia)). nia.
Qed.
End Ext.

Lemma nan_lt a b : is_nan a = true -> PrimFloat.ltb a b = false.
Proof. intros H. apply nan_ltb_l. now apply is_nan_nanf. Qed.
Lemma nan_lt_r a b : is_nan a = true -> PrimFloat.ltb b a = false.
Proof. intros H. apply nan_ltb_r. now apply is_nan_nanf. Qed.
Lemma lt_key a b : finite a -> finite b -> PrimFloat.ltb a b = true <-> FR a < FR b.
Proof. intros Fa Fb. rewrite ltb_dec by auto. destruct Rlt_dec; split; auto; try discriminate. Qed.

(** ** The table search: the same run as on the real numbers *)
Definition FR2 (p : double * double) : R * R := (FR (fst p), FR (snd p)).

Lemma point_FR xy i : (point (map FR2 xy) i) = match point xy i with Ok p => Ok (FR2 p) | UB u => UB u | NotReal => NotReal | OutOfFuel => OutOfFuel end.
Proof.
  unfold point. destruct (i <? 0)%Z; auto. rewrite nth_error_map. now destruct (nth_error xy (Z.to_nat i)).
Qed.
Lemma point_In A (xy : list A) i p : point xy i = Ok p -> In p xy.
Proof. unfold point. destruct (i <? 0)%Z; [discriminate|]. destruct (nth_error xy (Z.to_nat i)) eqn:E; [|discriminate]. intros [= <-]. eapply nth_error_In; eauto. Qed.

Lemma while_same A B (f g : A -> outcome (A + B)) : (forall a, f a = g a) -> forall n a, while_ n f a = while_ n g a.
Proof. intros H. induction n as [|n IH]; intros a; cbn [while_]; auto. rewrite H. destruct (g a) as [[a'|b]|u| |]; cbn; auto. Qed.

Lemma find_x_FR fuel xy x : finite x -> (forall p, In p xy -> finite (fst p)) ->
  interp_find_x fuel xy x = interp_find_x fuel (map FR2 xy) (FR x).
Proof.
  intros Fx Hxy. unfold interp_find_x. rewrite map_length.
  destruct (Z.of_nat (length xy) <? 2)%Z; [reflexivity|].
  assert (L : forall a b, finite a -> finite b -> flt a b = flt (FR a) (FR b)).
  { intros a b Fa Fb. change (PrimFloat.ltb a b = Rltb (FR a) (FR b)). rewrite ltb_dec by auto. unfold Rltb. destruct Rlt_dec; auto. }
  assert (L2 : forall a b, finite a -> finite b -> fle a b = fle (FR a) (FR b)).
  { intros a b Fa Fb. change (PrimFloat.leb a b = Rleb (FR a) (FR b)). rewrite leb_dec by auto. unfold Rleb. destruct Rle_dec; auto. }
  assert (L3 : forall a b, finite a -> finite b -> feq a b = feq (FR a) (FR b)).
  { intros a b Fa Fb. change (PrimFloat.eqb a b = Reqb (FR a) (FR b)). rewrite eqb_dec by auto. unfold Reqb. destruct Req_EM_T; auto. }
  rewrite !point_FR. destruct (point xy (Z.of_nat (length xy) - 1)) as [[xn yn]|u| |] eqn:E1; auto. cbn [bind].
  destruct (point xy 0) as [[x0 y0]|u| |] eqn:E2; auto. cbn [bind FR2 fst snd].
  assert (Fn : finite xn) by (apply (Hxy _ (point_In _ _ E1))). assert (F0 : finite x0) by (apply (Hxy _ (point_In _ _ E2))).
  unfold fgt, fge. rewrite !L, !L2, !L3 by auto.
  destruct (_ || _); [reflexivity|]. destruct (_ || _); [reflexivity|].
  rewrite (@while_same _ _ _ (fun '(lower, upper) =>
          if ((upper - lower) mod UINT >? 1)%Z then
            let mid := Z.shiftr ((upper + lower) mod UINT) 1 in
            let! (xm, _) := point (map FR2 xy) mid in
            if (fle xm (FR x) && fle (FR x0) (FR xn)) || (fle (FR x) xm && negb (fle (FR x0) (FR xn)))
            then Ok (inl (mid, upper)) else Ok (inl (lower, mid))
          else Ok (inr lower))); [reflexivity|].
  intros [lo up]. destruct (_ >? _)%Z; [|reflexivity]. cbv zeta. rewrite point_FR.
  destruct (point xy (Z.shiftr ((up + lo) mod UINT) 1)) as [[xm ym]|u| |] eqn:E3; auto. cbn [bind FR2 fst snd].
  assert (Fm : finite xm) by (apply (Hxy _ (point_In _ _ E3))). rewrite !L2 by auto. reflexivity.
Qed.
Lemma gt_key a b : finite a -> finite b -> fgt a b = true <-> - FR a < - FR b.
Proof. intros Fa Fb. unfold fgt. rewrite (lt_key Fb Fa). lra. Qed.
Lemma nan_gt a b : is_nan a = true -> fgt a b = false.
Proof. intros H. exact (nan_lt_r a b H). Qed.

Section Stay.
Variable better : double -> double -> bool.
Variables (r c : nat) (f : nat -> nat -> double) (tl : list (option double)).
Hypothesis Hr : (0 < r)%nat.
Hypothesis Hc : (0 < c)%nat.
Hypothesis H0 : forall a, better a (f 0 0)%nat = false.
Lemma nan_stays : mtx_extreme better (mat_of r c f tl) = Ok (0%Z, f 0 0)%nat.
Proof.
  rewrite mtx_extreme_ok by auto. repeat f_equal. induction (elems r c f) as [|a l IH]; cbn [fold_left]; auto.
  unfold pick at 2. now rewrite H0.
Qed.
Lemma nan_stays_idx : mtx_extreme_idx better (mat_of r c f tl) = Ok (0%Z, (0, 0))%nat.
Proof.
  rewrite mtx_extreme_idx_ok by auto. cbv zeta.
  assert (E : forall l, snd (fold_left (fun (s : double * nat) (k' : nat) => let '(b, k) := s in
                let a := f (k' / c)%nat (k' mod c)%nat in if better a b then (a, k') else (b, k)) l (f 0 0, 0)%nat) = 0%nat).
  { induction l as [|a l IH]; cbn [fold_left]; auto. cbv zeta. now rewrite H0. }
  rewrite E. now rewrite Nat.div_0_l, Nat.mod_0_l by lia.
Qed.
End Stay.

(** ** A NaN is in no interval: the search always goes left *)
Lemma nan_le a b : is_nan a = true -> PrimFloat.leb a b = false /\ PrimFloat.leb b a = false.
Proof.
  intros H. apply is_nan_nanf in H. unfold nanf in H. rewrite !FloatAxioms.leb_spec, H. split; [reflexivity|]. now destruct (FloatOps.Prim2SF b).
Qed.
Lemma nan_eq a b : is_nan a = true -> PrimFloat.eqb a b = false.
Proof. intros H. apply is_nan_nanf in H. unfold nanf in H. rewrite FloatAxioms.eqb_spec, H. reflexivity. Qed.

Lemma find_x_nan fuel (xy : list (double * double)) x : (2 <= length xy)%nat -> (Z.of_nat (length xy) <= 2147483648)%Z ->
  (length xy < fuel)%nat -> is_nan x = true -> interp_find_x fuel xy x = Ok (0%Z, 0%Z).
Proof.
  intros H2 HU HF HN. unfold interp_find_x.
  assert (P : forall i, (0 <= i < Z.of_nat (length xy))%Z -> exists p q, point xy i = Ok (p, q)).
  { intros i Hi. unfold point. destruct (Z.ltb_spec i 0); [lia|]. destruct (nth_error xy (Z.to_nat i)) as [[p q]|] eqn:E; eauto.
    apply nth_error_None in E. lia. }
  destruct (Z.ltb_spec (Z.of_nat (length xy)) 2); [lia|].
  destruct (P (Z.of_nat (length xy) - 1)%Z ltac:(lia)) as (xn & yn & ->). destruct (P 0%Z ltac:(lia)) as (x0 & y0 & ->). cbn [bind].
  assert (L1 : forall y, fgt x y = false) by (intros y; exact (nan_lt_r x y HN)).
  assert (L2 : forall y, flt x y = false) by (intros y; exact (nan_lt x y HN)).
  assert (L3 : forall y, fge x y = false) by (intros y; exact (proj2 (nan_le x y HN))).
  assert (L4 : forall y, fle x y = false) by (intros y; exact (proj1 (nan_le x y HN))).
  assert (L5 : forall y, feq x y = false) by (intros y; exact (nan_eq x y HN)).
  rewrite !L1, !L2. cbn [andb orb].
  match goal with |- bind (while_ _ ?b _) _ = _ => set (body := b) end.
  enough (W : forall n hi, (0 < hi < Z.of_nat n)%Z -> (hi <= Z.of_nat (length xy))%Z -> while_ n body (0, hi)%Z = Ok 0%Z).
  { rewrite Z.mod_small by (unfold UINT; lia). rewrite W by lia. cbn [bind]. now rewrite !L5. }
  induction n as [|n IH]; intros hi Hh Hl; [lia|]. cbn [while_]. unfold body at 1. rewrite Z.sub_0_r, Z.add_0_r.
  rewrite !Z.mod_small by (unfold UINT; lia). destruct (hi >? 1)%Z eqn:E; [|reflexivity]. cbv zeta.
  rewrite Z.gtb_lt in E. rewrite Z.shiftr_div_pow2 by lia. change (2 ^ 1)%Z with 2%Z.
  assert (D : (0 < hi / 2 < hi)%Z) by (split; [apply Z.div_str_pos; lia|apply Z.div_lt; lia]).
  destruct (P (hi / 2)%Z ltac:(lia)) as (xm & ym & ->). cbn [bind]. rewrite L3, L4. cbn [andb orb bind]. apply IH; lia.
Qed.
