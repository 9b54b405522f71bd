(** Properties C112-C116: mode, time-weighted mean, weighted median, median
    absolute deviation and errors (src/statistics.c), in real arithmetic.

    Vocabulary (SpecStat): [occ x xs] counts how often x occurs;
    [trapezoids qs] is the area below the polygon through the points
    (time, value); [weight_of test xs ws] the total weight of the data that
    pass the test; [is_weighted_median]; [is_percentile 50] a median.
    [separated xs] (PSort): any two data (and 0) are equal or at least 1e-5
    apart, the library's sorting tolerance. *)
From Coq Require Import List Arith ZArith Bool Lia Reals Lra Psatz Permutation Sorted.
From Verif Require Import Base BaseFacts SpecVec SpecReal SpecStat MVec PVec PVecR PSort NumR
  Libm LibmR RTac MMtx MStat PStat PStatOrd PStatMode.
Import ListNotations.
Local Open Scope R_scope.

(** * C112: the modes are exactly the most frequent values, each listed once *)
Theorem C112_mode :
  forall bc xs tx (w : vec R),
  separated xs -> vsz w = length xs -> (length xs <= length (vbuf w))%nat ->
  exists ms rest, sta_mode bc (vec_of xs tx) w = Ok (0%Z, vec_of ms rest)
  /\ NoDup ms
  /\ forall x, In x ms <-> In x xs /\ forall y, (occ y xs <= occ x xs)%nat.
Proof. exact mode_ok. Qed.
Print Assumptions C112_mode.

Lemma sep_ints xs : (forall x, In x xs -> exists z, x = IZR z) -> separated xs.
Proof.
  intros H x y Hx Hy.
  assert (G : forall x, In x (0 :: xs) -> exists z, x = IZR z).
  { intros u [<-|U]; [now exists 0%Z | auto]. }
  destruct (G x Hx) as (a & ->). destruct (G y Hy) as (b & ->).
  destruct (Z.eq_dec a b) as [->|N]; [now left|]. right. rewrite <- minus_IZR, <- abs_IZR.
  apply (Rle_trans _ 1); [lra|]. apply IZR_le. lia.
Qed.
Lemma sep_1022 : separated [1; 0; 2; 2].
Proof. apply sep_ints. intros x [<-|[<-|[<-|[<-|[]]]]]; [now exists 1%Z | now exists 0%Z | now exists 2%Z | now exists 2%Z]. Qed.
Example C112_case : separated [1; 0; 2; 2] /\ occ 2 [1; 0; 2; 2] = 2%nat /\ occ 0 [1; 0; 2; 2] = 1%nat.
Proof.
  split; [exact sep_1022|]. unfold occ. cbn [count_occ].
  repeat match goal with |- context [Req_EM_T ?a ?b] => destruct (Req_EM_T a b); try lra end.
  split; reflexivity.
Qed.
Theorem C112_mode_rejects :
  forall (v w : vec R), vsz v <> vsz w -> sta_mode true v w = Ok ((- EINVAL)%Z, w).
Proof. intros v w H. unfold sta_mode. apply Nat.eqb_neq in H. now rewrite H. Qed.
Print Assumptions C112_mode_rejects.

(** * C113: time-weighted mean *)

Lemma nth_last_eq {A} (l : list A) d : nth (length l - 1) l d = last l d.
Proof.
  induction l as [|x l IH]; [reflexivity|]. destruct l as [|y l]; [reflexivity|].
  change (last (x :: y :: l) d) with (last (y :: l) d). rewrite <- IH.
  replace (length (x :: y :: l) - 1)%nat with (S (length (y :: l) - 1)) by (cbn; lia). reflexivity.
Qed.

(** The samples ps (time, value) may be given in any order; qs is the same list
    in the order of time. *)
Theorem C113_time_weighted_mean :
  forall bc W fuel g ps qs tv tt',
  separated (map fst ps) -> NoDup (map fst ps) -> (2 <= length ps)%nat ->
  (2 * length ps <= fuel)%nat -> (Z.of_nat (length ps) <= W)%Z ->
  (bc = true -> Forall (fun p => 0 <= snd p) ps) ->
  Permutation ps qs -> StronglySorted (fun p q => fst p < fst q) qs ->
  exists m duration,
  sta_time_weighted_mean bc W fuel (Some g) (vec_of (map snd ps) tv) (vec_of (map fst ps) tt') = Ok (0%Z, Some m)
  /\ duration = fst (last qs (0, 0)) - fst (hd (0, 0) qs) /\ 0 < duration
  /\ m * duration = trapezoids qs
  /\ forall lo hi, Forall (fun p => lo <= snd p <= hi) ps -> lo <= m <= hi.
Proof.
  intros bc W fuel g ps qs tv tt' Hs Hn H2 Hf HW Hp HP HS.
  assert (L : length qs = length ps) by (symmetry; now apply Permutation_length).
  assert (N : qs <> []) by (intros ->; cbn in L; lia).
  set (d := fst (nth (length qs - 1) qs (0, 0)) - fst (nth 0 qs (0, 0))).
  assert (D : d = fst (last qs (0, 0)) - fst (hd (0, 0) qs)).
  { unfold d. f_equal.
    - f_equal. apply nth_last_eq; auto.
    - destruct qs; reflexivity. }
  assert (B : forall lo hi, Forall (fun p => lo <= snd p <= hi) ps ->
      lo * d <= trapezoids qs <= hi * d /\ 0 <= d /\ ((2 <= length qs)%nat -> 0 < d)).
  { intros lo hi F. apply (trap_bounds qs lo hi HS N).
    apply Forall_forall. intros p Ip. rewrite Forall_forall in F. apply F.
    now apply (Permutation_in _ (Permutation_sym HP)). }
  assert (D0 : 0 < d).
  { assert (exists lo hi, Forall (fun p => lo <= snd p <= hi) ps) as (lo & hi & F).
    { clear. induction ps as [|p ps (lo & hi & F)]; [exists 0, 0; constructor|].
      exists (Rmin lo (snd p)), (Rmax hi (snd p)). constructor.
      - split; [apply Rmin_r | apply Rmax_r].
      - revert F. apply Forall_impl. intros q Q. pose proof (Rmin_l lo (snd p)). pose proof (Rmax_l hi (snd p)). lra. }
    apply (proj2 (proj2 (B lo hi F))). lia. }
  exists (trapezoids qs / d), d. split; [|split; [exact D|split; [exact D0|split]]].
  - rewrite twm_ok with (qs := qs); auto; [|lia]. fold d. rewrite Rdivo_ok by lra. reflexivity.
  - field. lra.
  - intros lo hi F. destruct (B lo hi F) as ((B1 & B2) & _ & _).
    split; apply (Rmult_le_reg_r d); auto; unfold Rdiv; rewrite Rmult_assoc, Rinv_l, Rmult_1_r by lra; lra.
Qed.
Print Assumptions C113_time_weighted_mean.
Example C113_case :
  separated (map fst [(3, 4); (1, 2)]) /\ NoDup (map fst [(3, 4); (1, 2)])
  /\ Permutation [(3, 4); (1, 2)] [(1, 2); (3, 4)]
  /\ StronglySorted (fun p q : R * R => fst p < fst q) [(1, 2); (3, 4)].
Proof.
  cbn. split; [|split; [|split]].
  - apply sep_ints. intros x [<-|[<-|[]]]; [now exists 3%Z | now exists 1%Z].
  - constructor; [intros [E|[]]; lra | constructor; [intros [] | constructor]].
  - apply perm_swap.
  - constructor; [repeat constructor | constructor; [cbn; lra | constructor]].
Qed.
Theorem C113_rejects :
  forall W fuel ghost vs ts tv tt',
  length vs <> length ts \/ (exists v, In v vs /\ v < 0)
  \/ (exists i j, (i < j < length ts)%nat /\ Rabs (nth i ts 0 - nth j ts 0) < / 1000000) ->
  sta_time_weighted_mean true W fuel ghost (vec_of vs tv) (vec_of ts tt') = Ok ((- EINVAL)%Z, None).
Proof.
  intros W fuel ghost vs ts tv tt' H. unfold sta_time_weighted_mean.
  change (vsz (vec_of vs tv)) with (length vs). change (vsz (vec_of ts tt')) with (length ts).
  destruct (Nat.eqb_spec (length vs) (length ts)) as [E|E]; [|reflexivity]. cbn [negb].
  unfold vec_of at 1; cbn [vbuf]. rewrite any_neg_R.
  destruct (forallb (fun a => Rleb 0 a) vs) eqn:F; [|reflexivity]. cbn [negb bind].
  destruct H as [H|[H|H]]; [contradiction| |].
  { apply forallb_nonneg in F. rewrite Forall_forall in F. destruct H as (v & I & V). specialize (F v I). lra. }
  destruct H as (i & j & Hij & Hd).
  rewrite (@for_exit_forall unit R (fun a => negb (1 <? length (filter (near a (flit 1 6)) ts))%nat) (fun _ => tt) ts 0).
  2:{ intros k Hk. unfold vec_of at 1; cbn [vbuf]. rewrite rd_cells_app with (d := 0) by lia. cbn [bind].
      rewrite vec_contains_ok. cbn [bind]. destruct (1 <? _)%nat; reflexivity. }
  cbn [bind].
  destruct (find _ ts) eqn:Fi; [reflexivity|]. exfalso.
  assert (I : In (nth i ts 0) ts) by (apply nth_In; lia).
  pose proof (find_none _ _ Fi (nth i ts 0) I) as Q. cbn beta in Q.
  rewrite negb_involutive in Q. apply Nat.ltb_ge in Q.
  assert (G : forall (f : R -> bool) l i j, (i < j < length l)%nat -> f (nth i l 0) = true -> f (nth j l 0) = true ->
              (2 <= length (filter f l))%nat).
  { clear. induction l as [|a l IH]; intros i j Hij Hi Hj; [cbn in Hij; lia|]. cbn [length] in Hij.
    assert (One : forall k, (k < length l)%nat -> f (nth k l 0) = true -> (1 <= length (filter f l))%nat).
    { intros k Hk Fk. assert (In (nth k l 0) (filter f l)) as I by (apply filter_In; split; [now apply nth_In | auto]).
      destruct (filter f l); [destruct I | cbn; lia]. }
    destruct j as [|j]; [lia|]. destruct i as [|i]; cbn [nth filter] in *.
    - rewrite Hi. cbn [length]. specialize (One j ltac:(lia) Hj). lia.
    - specialize (IH i j ltac:(lia) Hi Hj). destruct (f a); cbn [length]; lia. }
  pose proof (G (near (nth i ts 0) (flit 1 6)) ts i j Hij) as G'.
  rewrite !near_R in G'. rewrite lit_1e6 in *. rewrite Rminus_diag_eq, Rabs_R0 in G' by reflexivity.
  specialize (G' ltac:(lra)). rewrite (Rabs_minus_sym (nth j ts 0)) in G'. specialize (G' Hd). unfold buf in *. lia.
Qed.
Print Assumptions C113_rejects.
Example C113_rejects_case : exists v, In v [1; -2] /\ v < 0. Proof. exists (-2). cbn. split; [auto|lra]. Qed.
(** One sample: 0 / 0, with no error. *)
Theorem C113_single_refuted :
  forall W g, (1 <= W)%Z ->
  sta_time_weighted_mean true W 2 (Some g) (vec_of [5] []) (vec_of [1] []) = NotReal.
Proof.
  intros W g HW.
  pose proof (twm_ok true W g 2 [(1, 5)] [(1, 5)] [] []) as E. cbn [map fst snd length] in E.
  rewrite E; auto; try lia; try (repeat constructor; cbn; lra).
  - cbn [trapezoids nth length Nat.sub fst]. unfold Rminus. rewrite Rplus_opp_r, Rdivo_0. reflexivity.
  - apply sep_ints. intros x [<-|[]]. now exists 1%Z.
Qed.
Print Assumptions C113_single_refuted.

(** * C114: weighted median *)

(** Data in ascending order: at most half of the weight lies on either side. *)
Theorem C114_weighted_median_partial :
  forall bc fuel g xs ws tx tw,
  separated xs -> StronglySorted Rle xs -> xs <> [] -> (2 * length xs <= fuel)%nat ->
  length xs = length ws -> Forall (fun w => 0 <= w) ws -> Rabs (rsum ws - 1) <= 1 / 1000000 ->
  exists m, sta_weighted_median bc fuel (Some g) (vec_of xs tx) (vec_of ws tw) = Ok (0%Z, Some m)
  /\ is_weighted_median xs ws m.
Proof. intros. eapply wmed_ok; eauto. Qed.
Print Assumptions C114_weighted_median_partial.
Lemma sorted_123' : StronglySorted Rle [1; 2; 3].
Proof. repeat (constructor; [|repeat (constructor; try lra)]). constructor. Qed.
Example C114_case :
  separated [1; 2; 3] /\ StronglySorted Rle [1; 2; 3] /\ Rabs (rsum [1/2; 1/4; 1/4] - 1) <= 1 / 1000000.
Proof.
  split; [|split].
  - apply sep_ints. intros x [<-|[<-|[<-|[]]]]; [now exists 1%Z | now exists 2%Z | now exists 3%Z].
  - exact sorted_123'.
  - cbn. rewrite Rabs_pos_eq; lra.
Qed.
(** Data in any other order: the values are sorted but the weights stay where
    they are, so the answer is the weighted median of other pairs. *)
Theorem C114_weighted_median_unsorted :
  forall bc fuel g xs ys ws tx tw,
  separated xs -> xs <> [] -> (2 * length xs <= fuel)%nat ->
  Permutation xs ys -> StronglySorted Rle ys ->
  length xs = length ws -> Forall (fun w => 0 <= w) ws -> Rabs (rsum ws - 1) <= 1 / 1000000 ->
  exists m, sta_weighted_median bc fuel (Some g) (vec_of xs tx) (vec_of ws tw) = Ok (0%Z, Some m)
  /\ is_weighted_median ys ws m.
Proof. intros. now apply wmed_ok. Qed.
Print Assumptions C114_weighted_median_unsorted.
(** 80 % of the weight is on the value 3, and the answer is 1. *)
Theorem C114_unsorted_refuted :
  exists bc fuel g xs ws, separated xs /\ xs <> [] /\ (2 * length xs <= fuel)%nat
  /\ length xs = length ws /\ Forall (fun w => 0 <= w) ws /\ rsum ws = 1
  /\ sta_weighted_median bc fuel (Some g) (vec_of xs []) (vec_of ws []) = Ok (0%Z, Some 1)
  /\ weight_of (fun x => Rltb 1 x) xs ws = 9 / 10 /\ ~ is_weighted_median xs ws 1.
Proof.
  exists true, 6%nat, 0, [3; 1; 2], [8/10; 1/10; 1/10].
  assert (S : separated [3; 1; 2]).
  { apply sep_ints. intros x [<-|[<-|[<-|[]]]]; [now exists 3%Z | now exists 1%Z | now exists 2%Z]. }
  assert (P : Permutation [3; 1; 2] [1; 2; 3]).
  { apply (Permutation_cons_append [1; 2] 3). }
  assert (W9 : weight_of (fun x => Rltb 1 x) [3; 1; 2] [8/10; 1/10; 1/10] = 9 / 10).
  { unfold weight_of. cbn [map2 rsum]. rewrite (Rltb_true 1 3), (Rltb_false 1 1), (Rltb_true 1 2) by lra. lra. }
  split; [exact S|]. split; [discriminate|]. split; [cbn; lia|]. split; [reflexivity|].
  split; [repeat constructor; lra|]. split; [cbn; lra|]. split; [|split].
  - destruct (wmed_ok true 0 6 [3; 1; 2] [1; 2; 3] [8/10; 1/10; 1/10] [] []) as (m & E & M1 & M2); auto.
    + discriminate.
    + exact sorted_123'.
    + repeat constructor; lra.
    + cbn. rewrite Rabs_pos_eq; lra.
    + rewrite E. do 3 f_equal. revert M1 M2. unfold weight_of. cbn [map2 rsum].
      destruct (Rltb_spec 1 m); [destruct (Rltb 2 m), (Rltb 3 m); intros; lra|].
      destruct (Rltb_spec m 1); [|intros; lra]. rewrite (Rltb_true m 2), (Rltb_true m 3) by lra. intros. lra.
  - exact W9.
  - intros [_ B]. rewrite W9 in B. cbn in B. lra.
Qed.
Print Assumptions C114_unsorted_refuted.

Theorem C114_rejects :
  forall fuel ghost xs ws tx tw,
  length xs <> length ws \/ (exists w, In w ws /\ w < 0) \/ 1 / 1000000 < Rabs (rsum ws - 1) ->
  sta_weighted_median true fuel ghost (vec_of xs tx) (vec_of ws tw) = Ok ((- EINVAL)%Z, None).
Proof.
  intros fuel ghost xs ws tx tw H. unfold sta_weighted_median.
  change (vsz (vec_of xs tx)) with (length xs). change (vsz (vec_of ws tw)) with (length ws).
  destruct (Nat.eqb_spec (length xs) (length ws)) as [E|E]; [|reflexivity]. cbn [negb].
  destruct H as [H|H]; [contradiction|].
  set (body := fun i s => let! a := rd (vbuf (vec_of ws tw)) i in
                 let s := (s + a)%num in if (a <? f0)%num then Ok (inr tt) else Ok (inl s) : outcome (R + unit)).
  assert (G : forall k n, (n + k = length ws)%nat ->
    (Forall (fun w => 0 <= w) (skipn k ws) -> for_exit n k body (rsum (firstn k ws)) = Ok (inl (rsum ws)))
    /\ ((exists w, In w (skipn k ws) /\ w < 0) -> for_exit n k body (rsum (firstn k ws)) = Ok (inr tt))).
  { intros k n; revert k; induction n as [|n IH]; intros k Hk; cbn [for_exit].
    - rewrite firstn_all2, skipn_all2 by lia. split; [reflexivity|]. intros (w & [] & _).
    - rewrite (@skipn_cons_nth _ ws k 0) by lia. destruct (IH (S k) ltac:(lia)) as [A B].
      unfold body at 1 3. unfold vec_of; cbn [vbuf]. rewrite rd_cells_app with (d := 0) by lia. cbn [bind flt NumR f0].
      destruct (Rltb_spec (nth k ws 0) 0) as [L|L]; cbn [bind fadd].
      + split; [|reflexivity]. intros F. inversion_clear F. lra.
      + rewrite <- firstn_cum by lia. split.
        * intros F. inversion_clear F. auto.
        * intros (w & [<-|I] & N); [lra|]. apply B. eauto. }
  specialize (G 0%nat (length ws) ltac:(lia)). cbn [firstn skipn rsum] in G. destruct G as [A B].
  rewrite E.
  assert (Q : exists r, for_exit (length ws) 0 body 0 = Ok r
              /\ match r with inr _ => True | inl s => 1 / 1000000 < Rabs (s - 1) end).
  { destruct (Forall_dec (fun w => 0 <= w) (Rle_dec 0) ws) as [F|F].
    - exists (inl (rsum ws)). split; [now apply A|]. destruct H as [(w & I & N)|H]; [|exact H].
      rewrite Forall_forall in F. specialize (F w I). lra.
    - exists (inr tt). split; [|trivial]. apply B.
      apply Exists_Forall_neg in F; [|intros x; destruct (Rle_dec 0 x); tauto].
      apply Exists_exists in F. destruct F as (w & I & N). exists w. split; [exact I | lra]. }
  destruct Q as (r & Er & Hr).
  match goal with |- bind (bind ?a _) _ = _ => replace a with (Ok r) by (symmetry; exact Er) end.
  cbn [bind]. destruct r as [s|]; [|reflexivity].
  rewrite lit_1e6, lit_10. unfold fgt. cbn [flt NumR fabs fsub]. rewrite Rltb_true by lra. reflexivity.
Qed.
Print Assumptions C114_rejects.
Example C114_rejects_case : 1 / 1000000 < Rabs (rsum [1/2; 1/4] - 1).
Proof. cbn. rewrite Rabs_left; lra. Qed.

(** * C115: median absolute deviation *)
Theorem C115_median_abs_dev :
  forall bc fuel g xs ys tx,
  separated xs -> xs <> [] -> (2 * length xs <= fuel)%nat -> (Z.of_nat (length xs) <= 2147483647)%Z ->
  Permutation xs ys -> StronglySorted Rle ys ->
  exists med, sta_median bc fuel (Some g) (vec_of xs tx) = Ok (0%Z, Some med)
  /\ is_percentile 50 xs med
  /\ (separated (map (fun x => Rabs (x - med)) xs) ->
      exists mad, sta_median_abs_dev bc fuel (Some g) (vec_of xs tx) = Ok (0%Z, Some mad)
      /\ is_percentile 50 (map (fun x => Rabs (x - med)) xs) mad /\ 0 <= mad).
Proof.
  intros bc fuel g xs ys tx H1 H2 H3 H4 HP HS.
  assert (ys <> []) by (intros ->; apply Permutation_length in HP; destruct xs; auto; discriminate).
  exists (pct 50 ys). split; [now apply median_ok|]. split; [apply (pct_order _ xs ys); auto; lra|].
  intros H5. set (ds := map (fun x => Rabs (x - pct 50 ys)) xs) in *.
  destruct (sort_exists ds) as (zs & ZP & ZS).
  assert (ds <> []) by (unfold ds; destruct xs; [contradiction | discriminate]).
  assert (zs <> []) by (intros ->; apply Permutation_length in ZP; destruct ds; auto; discriminate).
  exists (pct 50 zs). split; [now apply mad_ok with (ys := ys)|].
  split; [apply (pct_order _ ds zs); auto; lra|].
  assert (N : forall i, 0 <= nth i zs 0).
  { intros i. destruct (nth_in_or_default i zs 0) as [I|E]; [|rewrite E; lra].
    apply (Permutation_in _ (Permutation_sym ZP)) in I. unfold ds in I. apply in_map_iff in I.
    destruct I as (x & <- & _). apply Rabs_pos. }
  unfold pct. destruct (Reqb _ _); [|apply N].
  pose proof (N (Z.to_nat (Int_part (50 * INR (length zs) / 100)))).
  pose proof (N (Z.to_nat (Int_part (50 * INR (length zs) / 100)) - 1)%nat). lra.
Qed.
Print Assumptions C115_median_abs_dev.
Example C115_case : separated [1; 2; 3] /\ separated (map (fun x => Rabs (x - 2)) [1; 2; 3]).
Proof.
  split; [apply sep_ints; intros x [<-|[<-|[<-|[]]]]; [now exists 1%Z | now exists 2%Z | now exists 3%Z]|].
  cbn [map]. replace (1 - 2) with (IZR (-1)) by lra. replace (2 - 2) with (IZR 0) by lra.
  replace (3 - 2) with (IZR 1) by lra. rewrite <- !abs_IZR. apply sep_ints.
  intros x [<-|[<-|[<-|[]]]]; eexists; reflexivity.
Qed.

(** * C116: absolute and relative error *)
Theorem C116_abs_err :
  forall v e, exists r, sta_abs_err v e = Ok (0%Z, r)
  /\ 0 <= r /\ (r = 0 <-> v = e) /\ sta_abs_err e v = Ok (0%Z, r) /\ (v = e + r \/ v = e - r).
Proof.
  intros v e. exists (Rabs (v - e)). unfold sta_abs_err. cbn [fabs fsub NumR].
  split; [reflexivity|]. split; [apply Rabs_pos|]. split; [|split].
  - split; [|intros ->; rewrite Rminus_diag_eq, Rabs_R0; auto].
    intros H. destruct (Req_dec (v - e) 0); [lra|]. exfalso. now apply (Rabs_no_R0 (v - e)).
  - now rewrite Rabs_minus_sym.
  - unfold Rabs. destruct (Rcase_abs (v - e)); [right | left]; lra.
Qed.
Print Assumptions C116_abs_err.
(** Percentage of a positive reference; changing the unit of both does not
    change it. *)
Theorem C116_rel_err_partial :
  forall v e, 0 < e ->
  exists r, sta_rel_err v e = Ok (0%Z, r)
  /\ 0 <= r /\ (v = e * (1 + r / 100) \/ v = e * (1 - r / 100))
  /\ forall k, 0 < k -> sta_rel_err (k * v) (k * e) = Ok (0%Z, r).
Proof.
  intros v e E. exists (100 * Rabs (v - e) / e). unfold sta_rel_err. rewrite !lit_100. cbn [fabs fsub fmul fdiv NumR].
  assert (A : forall v e, Rabs (100 * v - 100 * e) = 100 * Rabs (v - e)).
  { intros a b. replace (100 * a - 100 * b) with (100 * (a - b)) by ring. rewrite Rabs_mult, (Rabs_pos_eq 100); lra. }
  split; [|split; [|split]].
  - rewrite Rdivo_ok by lra. cbn [bind]. now rewrite A.
  - pose proof (Rabs_pos (v - e)). apply Rmult_le_pos; [lra|]. apply Rlt_le, Rinv_0_lt_compat, E.
  - unfold Rabs. destruct (Rcase_abs (v - e)); [right | left]; field; lra.
  - intros k K. assert (0 < k * e) by nra. rewrite Rdivo_ok by lra. cbn [bind]. do 2 f_equal.
    replace (100 * (k * v) - 100 * (k * e)) with (k * (100 * v - 100 * e)) by ring.
    rewrite Rabs_mult, (Rabs_pos_eq k), A by lra. field. lra.
Qed.
Print Assumptions C116_rel_err_partial.
(** A negative reference gives a negative error; a zero one divides by zero. *)
Theorem C116_rel_err_refuted :
  (forall v e, e < 0 -> v <> e -> exists r, sta_rel_err v e = Ok (0%Z, r) /\ r < 0)
  /\ (forall v, sta_rel_err v 0 = NotReal).
Proof.
  split; unfold sta_rel_err; rewrite ?lit_100; cbn [fabs fsub fmul fdiv NumR].
  - intros v e E N. eexists. rewrite Rdivo_ok by lra. cbn [bind]. split; [reflexivity|].
    assert (0 < Rabs (100 * v - 100 * e)) by (apply Rabs_pos_lt; lra).
    pose proof (Rinv_lt_0_compat e E). unfold Rdiv. nra.
  - intros v. rewrite Rdivo_0. reflexivity.
Qed.
Print Assumptions C116_rel_err_refuted.
