(** Order statistics: proofs over the real numbers. *)
From Coq Require Import List Arith ZArith Bool Lia Reals Lra Psatz Permutation Sorted.
From Verif Require Import Base BaseFacts SpecVec SpecReal SpecStat MVec PVec PVecR PSort NumR
  Libm LibmR MMtx MStat PStat.
Import ListNotations.
Local Open Scope R_scope.

(** ** Sorted lists *)

Lemma sorted_nth ys i j : StronglySorted Rle ys -> (i <= j < length ys)%nat ->
  nth i ys 0 <= nth j ys 0.
Proof.
  intros S. revert i j; induction S as [|y ys S IH F]; intros i j Hij; cbn in Hij; [lia|].
  destruct i as [|i], j as [|j]; cbn [nth]; try lia; try lra.
  - rewrite Forall_forall in F. apply F, nth_In. lia.
  - apply IH. lia.
Qed.

Lemma sort_unique xs ys :
  StronglySorted Rle xs -> StronglySorted Rle ys -> Permutation xs ys -> xs = ys.
Proof.
  intros S. revert ys; induction S as [|x xs S IH F]; intros ys Sy P.
  - now apply Permutation_nil in P.
  - destruct ys as [|y ys]; [symmetry in P; now apply Permutation_nil in P|].
    inversion Sy as [|? ? Sy' Fy]; subst. rewrite Forall_forall in F, Fy.
    assert (x = y).
    { assert (I1 : In x (y :: ys)) by (eapply Permutation_in; [exact P|now left]).
      assert (I2 : In y (x :: xs))
        by (eapply Permutation_in; [symmetry; exact P|now left]).
      destruct I1 as [->|I1]; auto. destruct I2 as [->|I2]; auto.
      specialize (F y I2). specialize (Fy x I1). lra. }
    subst y. f_equal. apply IH; auto. now apply Permutation_cons_inv in P.
Qed.

Lemma filter_perm_length {A} (f : A -> bool) l l' :
  Permutation l l' -> length (filter f l) = length (filter f l').
Proof.
  induction 1; cbn; auto.
  - destruct (f x); cbn; lia.
  - destruct (f x), (f y); cbn; lia.
  - lia.
Qed.

Lemma filter_all_length {A} (f : A -> bool) l :
  (forall x, In x l -> f x = true) -> length (filter f l) = length l.
Proof.
  induction l as [|a l IH]; intros H; cbn; auto.
  rewrite (H a (or_introl eq_refl)). cbn. rewrite IH; auto. intros x Hx. apply H. now right.
Qed.

Lemma nth_firstn' {A} (l : list A) k i d : (i < k)%nat -> nth i (firstn k l) d = nth i l d.
Proof.
  revert k i; induction l as [|a l IH]; intros [|k] [|i] H; cbn; auto; try lia.
  apply IH. lia.
Qed.

Lemma count_le_sorted ys k t : (k <= length ys)%nat ->
  (forall i, (i < k)%nat -> nth i ys 0 <= t) -> (k <= count_le t ys)%nat.
Proof.
  intros Hk H. unfold count_le. rewrite <- (firstn_skipn k ys) at 1.
  rewrite filter_app, app_length, filter_all_length.
  - rewrite firstn_length. lia.
  - intros x Hx. apply (In_nth _ _ 0) in Hx as (i & Hi & <-).
    rewrite firstn_length in Hi. rewrite nth_firstn' by lia. apply Rleb_true, H. lia.
Qed.

Lemma count_ge_sorted ys k t : (k <= length ys)%nat ->
  (forall i, (k <= i < length ys)%nat -> t <= nth i ys 0) ->
  (length ys - k <= count_ge t ys)%nat.
Proof.
  intros Hk H. unfold count_ge. rewrite <- (firstn_skipn k ys) at 2.
  rewrite filter_app, app_length, (filter_all_length _ (skipn k ys)).
  - rewrite skipn_length. lia.
  - intros x Hx. apply (In_nth _ _ 0) in Hx as (i & Hi & <-).
    rewrite skipn_length in Hi.
    apply Rleb_true.
    replace (nth i (skipn k ys) 0) with (nth (k + i) ys 0).
    + apply H. lia.
    + rewrite <- (firstn_skipn k ys) at 1. rewrite app_nth2; rewrite firstn_length; [|lia].
      f_equal. lia.
Qed.

(** ** zsl_sta_percentile *)


Lemma Int_part_bounds x : IZR (Int_part x) <= x < IZR (Int_part x) + 1.
Proof. destruct (base_Int_part x). lra. Qed.

Lemma Int_part_range x n : 0 <= x -> x < INR n -> (0 <= Int_part x < Z.of_nat n)%Z.
Proof.
  intros H1 H2. pose proof (Int_part_bounds x) as [B1 B2]. split.
  - assert (-1 < Int_part x)%Z; [|lia]. apply lt_IZR. lra.
  - apply lt_IZR. rewrite IZR_nat. lra.
Qed.

Lemma Int_part_IZR' z : Int_part (IZR z) = z.
Proof.
  pose proof (Int_part_bounds (IZR z)) as [B1 B2]. apply le_IZR in B1.
  rewrite <- plus_IZR in B2. apply lt_IZR in B2. lia.
Qed.

Lemma f2int_floor x n : 0 <= x -> x < INR n -> (Z.of_nat n <= 2147483647)%Z ->
  f2int (Rfloor x) = Ok (Int_part x).
Proof.
  intros H1 H2 H3. pose proof (Int_part_range x n H1 H2) as Hr.
  unfold f2int. cbn [ftrunc NumMR]. unfold RtruncZ, Rfloor.
  destruct (Rle_dec 0 (IZR (Int_part x))) as [_|H]; [|exfalso; apply H; apply IZR_le; lia].
  rewrite Int_part_IZR'.
  destruct (Z.leb_spec (-2147483648) (Int_part x)); [|lia].
  destruct (Z.leb_spec (Int_part x) 2147483647); [|lia]. reflexivity.
Qed.

Lemma rdz_nat (b : buf R) k : (0 <= k)%Z -> rdz b k = rd b (Z.to_nat k).
Proof. intros H. unfold rdz. destruct (Z.ltb_spec k 0); [lia|reflexivity]. Qed.

(** what zsl_vec_init and zsl_vec_sort leave in the local vector w *)
Lemma sorted_local (g : R) fuel xs ys tx :
  separated xs -> xs <> [] -> (2 * length xs <= fuel)%nat ->
  Permutation xs ys -> StronglySorted Rle ys ->
  (let! (_, w) := vec_init (vdef (length xs)) in vec_sort fuel (Some g) (vec_of xs tx) w)
  = Ok (0%Z, Vec (length xs) (cells ys)).
Proof.
  intros Hs Hx Hf HP HS. unfold vdef. rewrite vec_init_ok by (rewrite fresh_length; lia).
  cbn [bind]. rewrite skipn_all2 by (rewrite fresh_length; lia).
  destruct (vec_sort_ok g xs tx (length xs) (cells (repeat f0 (length xs)) ++ []) fuel)
    as (zs & E & P & S); auto.
  { rewrite app_length, cells_length, repeat_length. lia. }
  rewrite E. rewrite skipn_all2 by (rewrite app_length, cells_length, repeat_length; cbn; lia).
  rewrite app_nil_r. repeat f_equal. apply sort_unique; auto.
  transitivity xs; auto. now symmetry.
Qed.

Lemma sort_exists xs : exists ys, Permutation xs ys /\ StronglySorted Rle ys.
Proof.
  induction xs as [|x xs (ys & P & S)]; [exists []; split; constructor|].
  assert (I : exists zs, Permutation (x :: ys) zs /\ StronglySorted Rle zs).
  { clear P. induction S as [|y ys S IH F].
    - exists [x]. split; auto. repeat constructor.
    - destruct (Rle_dec x y) as [H|H].
      + exists (x :: y :: ys). split; auto. constructor; [constructor; auto|].
        constructor; auto. revert F. apply Forall_impl. intros; lra.
      + destruct IH as (zs & P & Sz). exists (y :: zs). split.
        * transitivity (y :: x :: ys); [constructor|]. now constructor.
        * constructor; auto. rewrite Forall_forall in *. intros z Hz.
          apply (Permutation_in z (Permutation_sym P)) in Hz. destruct Hz as [<-|Hz]; [lra|auto]. }
  destruct I as (zs & P' & Sz). exists zs. split; auto.
  transitivity (x :: ys); auto.
Qed.

Section Percentile.
Context (bc : bool) (fuel : nat) (g : R).

Lemma percentile_ok xs ys tx p :
  separated xs -> xs <> [] -> (2 * length xs <= fuel)%nat ->
  (Z.of_nat (length xs) <= 2147483647)%Z ->
  Permutation xs ys -> StronglySorted Rle ys -> 0 < p < 100 ->
  sta_percentile bc fuel (Some g) (vec_of xs tx) p = Ok (0%Z, Some (pct p ys)).
Proof.
  intros Hs Hx Hf Hn HP HS Hp. unfold sta_percentile.
  rewrite lit_1000. cbn [fgt flt NumR]. unfold fgt. cbn [flt NumR f0].
  rewrite !Rltb_false by lra. rewrite andb_false_r.
  change (vsz (vec_of xs tx)) with (length xs).
  pose proof (@sorted_local g fuel xs ys tx Hs Hx Hf HP HS) as E.
  destruct (vec_init (vdef (length xs))) as [[rc w]| | |]; cbn [bind] in E |- *; try discriminate.
  rewrite E. cbn [bind]. clear E.
  assert (HL : length ys = length xs) by (symmetry; now apply Permutation_length).
  pose proof (INR_length_pos xs Hx) as Hpos.
  change (fofZ (Z.of_nat (length xs))) with (IZR (Z.of_nat (length xs))). rewrite IZR_nat.
  rewrite lit_100. cbn [fmul fdiv NumR]. rewrite Rdivo_ok by lra. cbn [bind].
  unfold pct. rewrite HL. set (x := p * INR (length xs) / 100).
  assert (Hx0 : 0 < x) by (unfold x; nra).
  assert (Hx1 : x < INR (length xs)) by (unfold x; nra).
  cbn [ffloor NumMR]. rewrite (@f2int_floor x (length xs)) by (auto; lra). cbn [bind].
  pose proof (Int_part_range x (length xs) ltac:(lra) Hx1) as Hr.
  pose proof (Int_part_bounds x) as Hb.
  cbn [feq NumR]. unfold Rfloor. cbn [vbuf].
  destruct (Reqb_spec x (IZR (Int_part x))) as [Ex|Ex].
  - assert (1 <= Int_part x)%Z.
    { assert (0 < Int_part x)%Z; [|lia]. apply lt_IZR. lra. }
    rewrite !rdz_nat by lia. rewrite rd_cells with (d := 0) by lia. cbn [bind].
    rewrite rd_cells with (d := 0) by lia. cbn [bind].
    rewrite lit_2. rewrite Rdivo_ok by lra. cbn [bind].
    replace (Z.to_nat (Int_part x - 1)) with (Z.to_nat (Int_part x) - 1)%nat by lia. reflexivity.
  - rewrite rdz_nat by lia. rewrite rd_cells with (d := 0) by lia. reflexivity.
Qed.

Lemma pct_order p xs ys :
  xs <> [] -> Permutation xs ys -> StronglySorted Rle ys -> 0 < p < 100 ->
  is_percentile p xs (pct p ys).
Proof.
  intros Hx HP HS Hp. pose proof (INR_length_pos xs Hx) as Hpos.
  assert (HL : length ys = length xs) by (symmetry; now apply Permutation_length).
  unfold is_percentile.
  assert (C1 : forall t, count_le t xs = count_le t ys)
    by (intros t; now apply filter_perm_length).
  assert (C2 : forall t, count_ge t xs = count_ge t ys)
    by (intros t; now apply filter_perm_length).
  rewrite C1, C2. clear C1 C2. unfold pct. rewrite HL. set (x := p * INR (length xs) / 100).
  assert (Hx0 : 0 < x) by (unfold x; nra).
  assert (Hx1 : x < INR (length xs)) by (unfold x; nra).
  pose proof (Int_part_range x (length xs) ltac:(lra) Hx1) as Hr.
  pose proof (Int_part_bounds x) as Hb.
  replace (p / 100 * INR (length xs)) with x by (unfold x; field).
  replace ((1 - p / 100) * INR (length xs)) with (INR (length xs) - x) by (unfold x; field).
  set (k := Z.to_nat (Int_part x)) in *.
  assert (Ek : IZR (Int_part x) = INR k)
    by (unfold k; rewrite INR_IZR_INZ, Z2Nat.id by lia; reflexivity).
  assert (Hk : (k < length xs)%nat) by (unfold k; lia).
  rewrite Ek in *.
  destruct (Reqb_spec x (INR k)) as [Ex|Ex].
  - assert (Hk1 : (1 <= k)%nat) by (apply INR_le; cbn; destruct k; [cbn in *; lra|rewrite S_INR; pose proof (pos_INR k); lra]).
    set (t := (nth k ys 0 + nth (k - 1) ys 0) / 2).
    assert (Hm : nth (k - 1) ys 0 <= nth k ys 0) by (apply sorted_nth; auto; lia).
    split.
    + rewrite Ex. apply le_INR. apply count_le_sorted; [lia|]. intros i Hi.
      pose proof (sorted_nth ys i (k - 1) HS ltac:(lia)). unfold t. lra.
    + rewrite Ex. rewrite <- minus_INR by lia. apply le_INR. rewrite <- HL.
      apply count_ge_sorted; [lia|]. intros i Hi.
      pose proof (sorted_nth ys k i HS ltac:(lia)). unfold t. lra.
  - split.
    + apply Rle_trans with (INR (S k)); [rewrite S_INR; lra|]. apply le_INR.
      apply count_le_sorted; [lia|]. intros i Hi. apply sorted_nth; auto; lia.
    + apply Rle_trans with (INR (length ys - k)%nat); [rewrite minus_INR, HL by lia; lra|].
      apply le_INR, count_ge_sorted; [lia|]. intros i Hi. apply sorted_nth; auto; lia.
Qed.

Lemma pct_bounds p xs ys lo hi :
  xs <> [] -> Permutation xs ys -> StronglySorted Rle ys -> 0 < p < 100 ->
  Forall (fun x => lo <= x <= hi) xs -> lo <= pct p ys <= hi.
Proof.
  intros Hx HP HS Hp HF. pose proof (INR_length_pos xs Hx) as Hpos.
  assert (HL : length ys = length xs) by (symmetry; now apply Permutation_length).
  assert (HF' : Forall (fun x => lo <= x <= hi) ys).
  { rewrite Forall_forall in *. intros x I. apply HF. eapply Permutation_in; [symmetry; exact HP|auto]. }
  rewrite Forall_forall in HF'.
  unfold pct. rewrite HL. set (x := p * INR (length xs) / 100).
  assert (Hx0 : 0 < x) by (unfold x; nra).
  assert (Hx1 : x < INR (length xs)) by (unfold x; nra).
  pose proof (Int_part_range x (length xs) ltac:(lra) Hx1) as Hr.
  assert (B1 : lo <= nth (Z.to_nat (Int_part x)) ys 0 <= hi) by (apply HF', nth_In; lia).
  destruct (Reqb _ _); auto.
  assert (B2 : lo <= nth (Z.to_nat (Int_part x) - 1) ys 0 <= hi) by (apply HF', nth_In; lia).
  lra.
Qed.

(** p = 0 reads w.data[-1], p = 100 reads w.data[n] *)
Lemma percentile_ends xs tx p :
  separated xs -> xs <> [] -> (2 * length xs <= fuel)%nat ->
  (Z.of_nat (length xs) <= 2147483647)%Z -> p = 0 \/ p = 100 ->
  sta_percentile bc fuel (Some g) (vec_of xs tx) p = UB OOBRead.
Proof.
  intros Hs Hx Hf Hn Hp. unfold sta_percentile.
  rewrite lit_1000. cbn [fgt flt NumR]. unfold fgt. cbn [flt NumR f0].
  rewrite !Rltb_false by (destruct Hp; lra). rewrite andb_false_r.
  change (vsz (vec_of xs tx)) with (length xs).
  destruct (sort_exists xs) as (ys & HP & HS).
  pose proof (@sorted_local g fuel xs ys tx Hs Hx Hf HP HS) as E.
  destruct (vec_init (vdef (length xs))) as [[rc w]| | |]; cbn [bind] in E |- *; try discriminate.
  rewrite E. cbn [bind]. clear E.
  assert (HL : length ys = length xs) by (symmetry; now apply Permutation_length).
  pose proof (INR_length_pos xs Hx) as Hpos.
  change (fofZ (Z.of_nat (length xs))) with (IZR (Z.of_nat (length xs))).
  rewrite lit_100. cbn [fmul fdiv NumR]. rewrite Rdivo_ok by lra. cbn [bind].
  assert (Ez : exists z, p * IZR (Z.of_nat (length xs)) / 100 = IZR z
                         /\ (z = 0 \/ z = Z.of_nat (length xs))%Z).
  { destruct Hp; subst.
    - exists 0%Z. split; [lra|auto].
    - exists (Z.of_nat (length xs)). split; [field|auto]. }
  destruct Ez as (z & -> & Hz).
  cbn [ffloor NumMR]. unfold Rfloor. rewrite Int_part_IZR'.
  assert (Ei : f2int (IZR z) = Ok z).
  { unfold f2int. cbn [ftrunc NumMR]. unfold RtruncZ.
    destruct (Rle_dec 0 (IZR z)) as [_|H]; [|exfalso; apply H; apply IZR_le; lia].
    rewrite Int_part_IZR'.
    destruct (Z.leb_spec (-2147483648) z); [|lia].
    destruct (Z.leb_spec z 2147483647); [|lia]. reflexivity. }
  rewrite Ei. cbn [bind feq NumR]. rewrite Reqb_true by auto. cbn [vbuf].
  assert (length xs <> 0)%nat by (destruct xs; cbn; [contradiction|lia]).
  destruct Hz as [->| ->].
  - rewrite rdz_nat by lia. cbn [Z.to_nat]. rewrite rd_cells with (d := 0) by lia. reflexivity.
  - rewrite rdz_nat by lia. rewrite rd_oob by (rewrite cells_length; lia). reflexivity.
Qed.

Lemma percentile_einval (v : vec R) p : p < 0 \/ 100 < p ->
  sta_percentile true fuel (Some g) v p = Ok ((- EINVAL)%Z, None).
Proof.
  intros H. unfold sta_percentile. rewrite lit_1000. unfold fgt. cbn [flt NumR f0 andb].
  destruct H; [rewrite (Rltb_true p 0) by auto; rewrite orb_true_r
              |rewrite (Rltb_true 100 p) by auto]; reflexivity.
Qed.

Lemma median_ok xs ys tx :
  separated xs -> xs <> [] -> (2 * length xs <= fuel)%nat ->
  (Z.of_nat (length xs) <= 2147483647)%Z ->
  Permutation xs ys -> StronglySorted Rle ys ->
  sta_median bc fuel (Some g) (vec_of xs tx) = Ok (0%Z, Some (pct 50 ys)).
Proof.
  intros. unfold sta_median. change (fofZ 50) with 50.
  rewrite percentile_ok with (ys := ys) by (auto; lra). reflexivity.
Qed.

Lemma pct_50_odd ys m : length ys = (2 * m + 1)%nat -> pct 50 ys = nth m ys 0.
Proof.
  intros HL. unfold pct. rewrite HL.
  assert (Ex : 50 * INR (2 * m + 1) / 100 = INR m + / 2).
  { rewrite plus_INR, mult_INR. cbn. field. }
  rewrite Ex.
  assert (Ei : Int_part (INR m + / 2) = Z.of_nat m).
  { pose proof (Int_part_bounds (INR m + / 2)) as [B1 B2].
    assert (Int_part (INR m + / 2) < Z.of_nat m + 1)%Z
      by (apply lt_IZR; rewrite plus_IZR, IZR_nat; lra).
    assert (Z.of_nat m - 1 < Int_part (INR m + / 2))%Z
      by (apply lt_IZR; rewrite minus_IZR, IZR_nat; lra).
    lia. }
  rewrite Ei, IZR_nat, Reqb_false by lra. now rewrite Nat2Z.id.
Qed.

Lemma pct_50_even ys m : (1 <= m)%nat -> length ys = (2 * m)%nat ->
  pct 50 ys = (nth m ys 0 + nth (m - 1) ys 0) / 2.
Proof.
  intros Hm HL. unfold pct. rewrite HL.
  assert (Ex : 50 * INR (2 * m) / 100 = IZR (Z.of_nat m)).
  { rewrite mult_INR, IZR_nat. cbn. field. }
  rewrite Ex, Int_part_IZR', Reqb_true by auto. now rewrite Nat2Z.id.
Qed.

Lemma quart_ok xs ys tx :
  separated xs -> xs <> [] -> (2 * length xs <= fuel)%nat ->
  (Z.of_nat (length xs) <= 2147483647)%Z ->
  Permutation xs ys -> StronglySorted Rle ys ->
  sta_quart bc fuel (Some g) (vec_of xs tx)
  = Ok (0%Z, (Some (pct 25 ys), Some (pct 50 ys), Some (pct 75 ys))).
Proof.
  intros. unfold sta_quart. change (fofZ 25) with 25. change (fofZ 50) with 50.
  change (fofZ 75) with 75.
  rewrite !percentile_ok with (ys := ys) by (auto; lra). reflexivity.
Qed.

Lemma quart_range_ok xs ys tx :
  separated xs -> xs <> [] -> (2 * length xs <= fuel)%nat ->
  (Z.of_nat (length xs) <= 2147483647)%Z ->
  Permutation xs ys -> StronglySorted Rle ys ->
  sta_quart_range bc fuel (Some g) (vec_of xs tx)
  = Ok (0%Z, Some (pct 75 ys - pct 25 ys)).
Proof.
  intros. unfold sta_quart_range. change (fofZ 25) with 25. change (fofZ 75) with 75.
  rewrite !percentile_ok with (ys := ys) by (auto; lra). reflexivity.
Qed.

End Percentile.

(** ** Percentiles are ordered; the range *)

Lemma pct_mono ys p q : StronglySorted Rle ys -> ys <> [] -> 0 < p -> p <= q -> q < 100 ->
  pct p ys <= pct q ys.
Proof.
  intros HS Hy Hp Hpq Hq. pose proof (INR_length_pos ys Hy) as Hpos.
  unfold pct. set (x := p * INR (length ys) / 100). set (y := q * INR (length ys) / 100).
  assert (Hx0 : 0 < x) by (unfold x; nra).
  assert (Hxy : x <= y) by (unfold x, y; nra).
  assert (Hy1 : y < INR (length ys)) by (unfold y; nra).
  pose proof (Int_part_range x (length ys) ltac:(lra) ltac:(lra)) as Rx.
  pose proof (Int_part_range y (length ys) ltac:(lra) ltac:(lra)) as Ry.
  pose proof (Int_part_bounds x) as Bx. pose proof (Int_part_bounds y) as By.
  assert (Hk : (Int_part x <= Int_part y)%Z).
  { assert (Int_part x < Int_part y + 1)%Z; [|lia]. apply lt_IZR. rewrite plus_IZR. lra. }
  set (k := Z.to_nat (Int_part x)) in *. set (l := Z.to_nat (Int_part y)) in *.
  assert (nth (k - 1) ys 0 <= nth k ys 0) by (apply sorted_nth; auto; unfold k; lia).
  assert (nth (l - 1) ys 0 <= nth l ys 0) by (apply sorted_nth; auto; unfold l; lia).
  destruct (Z.eq_dec (Int_part x) (Int_part y)) as [E|E].
  - assert (k = l) as <- by (unfold k, l; now rewrite E).
    rewrite E in *.
    destruct (Reqb_spec x (IZR (Int_part y))), (Reqb_spec y (IZR (Int_part y))); lra.
  - assert (nth k ys 0 <= nth (l - 1) ys 0) by (apply sorted_nth; auto; unfold k, l; lia).
    destruct (Reqb _ _), (Reqb _ _); lra.
Qed.

Lemma data_range_ok W (g : R) fuel xs ys tx :
  separated xs -> xs <> [] -> (2 * length xs <= fuel)%nat -> (Z.of_nat (length xs) <= W)%Z ->
  Permutation xs ys -> StronglySorted Rle ys ->
  sta_data_range W fuel (Some g) (vec_of xs tx)
  = Ok (0%Z, Some (nth (length xs - 1) ys 0 - nth 0 ys 0)).
Proof.
  intros Hs Hx Hf HW HP HS. unfold sta_data_range.
  change (vsz (vec_of xs tx)) with (length xs). unfold vdef.
  destruct (vec_sort_ok g xs tx (length xs) (fresh (length xs)) fuel) as (zs & E & P & S); auto.
  { rewrite fresh_length. lia. }
  rewrite E. rewrite skipn_all2 by (rewrite fresh_length; lia). rewrite app_nil_r.
  assert (zs = ys) as ->
    by (apply sort_unique; auto; transitivity xs; auto; now symmetry).
  cbn [bind vbuf].
  assert (length xs <> 0)%nat by (destruct xs; cbn; [contradiction|lia]).
  assert (HL : length ys = length xs) by (symmetry; now apply Permutation_length).
  rewrite Z.mod_small by lia. rewrite rdz_nat by lia.
  replace (Z.to_nat (Z.of_nat (length xs) - 1)) with (length xs - 1)%nat by lia.
  rewrite !rd_cells with (d := 0) by lia. reflexivity.
Qed.

(** ** zsl_sta_trim_mean *)

Lemma get_subset_exact bc W ys n a len :
  n = length ys -> (a + len <= length ys)%nat -> (a < length ys)%nat -> (Z.of_nat (length ys) < W)%Z ->
  vec_get_subset (T := R) bc W (Vec n (cells ys)) (Z.of_nat a) (Z.of_nat len) (vdef len)
  = Ok (0%Z, vec_of (firstn len (skipn a ys)) []).
Proof.
  intros -> H1 H2 HW. pose proof (@vec_get_subset_ok R W ys [] (Z.of_nat a) (Z.of_nat len) len (fresh len)
    ltac:(lia) ltac:(lia) ltac:(lia)) as E.
  cbv zeta in E. rewrite fresh_length in E. rewrite !Nat2Z.id in E.
  replace (Nat.min len (length ys - a)) with len in E by lia.
  specialize (E (le_n _) (le_n _)). rewrite (skipn_all2 (fresh len)) in E by (rewrite fresh_length; lia).
  unfold vec_of at 1 in E. rewrite app_nil_r in E.
  destruct bc; [exact E|]. unfold vec_get_subset in E |- *. cbn [vsz vbuf vdef] in *.
  destruct (Z.leb_spec (Z.of_nat (length ys)) (Z.of_nat a)); [lia|].
  rewrite Z.mod_small in E by lia.
  assert (El : (if (Z.of_nat (length ys) <=? Z.of_nat a + Z.of_nat len)%Z
                then (Z.of_nat (length ys) - Z.of_nat a)%Z else Z.of_nat len) = Z.of_nat len).
  { destruct (Z.leb_spec (Z.of_nat (length ys)) (Z.of_nat a + Z.of_nat len)); lia. }
  rewrite El in E. rewrite Z.ltb_irrefl in E |- *. exact E.
Qed.

Lemma lower_cut ys l : StronglySorted Rle ys ->
  exists a, (a <= length ys)%nat /\ forall i, (i < length ys)%nat -> (l <= nth i ys 0 <-> (a <= i)%nat).
Proof.
  induction 1 as [|y ys S (a & Ha & H) F]; [exists 0%nat; cbn; split; [lia|intros; lia]|].
  destruct (Rle_dec l y) as [Hl|Hl].
  - exists 0%nat. cbn. split; [lia|]. intros [|i] Hi; split; intros; try lia; try lra.
    rewrite Forall_forall in F. specialize (F (nth i ys 0) ltac:(apply nth_In; lia)). lra.
  - exists (Datatypes.S a). cbn. split; [lia|]. intros [|i] Hi.
    + split; intros; [lra|lia].
    + rewrite H by lia. lia.
Qed.

Lemma upper_cut ys h : StronglySorted Rle ys ->
  exists b, (b <= length ys)%nat /\ forall i, (i < length ys)%nat -> (nth i ys 0 <= h <-> (i < b)%nat).
Proof.
  induction 1 as [|y ys S (b & Hb & H) F]; [exists 0%nat; cbn; split; [lia|intros; lia]|].
  destruct (Rle_dec y h) as [Hl|Hl].
  - exists (Datatypes.S b). cbn. split; [lia|]. intros [|i] Hi.
    + split; intros; [lia|lra].
    + rewrite H by lia. lia.
  - exists 0%nat. cbn. split; [lia|]. intros [|i] Hi; split; intros; try lia; try lra.
    rewrite Forall_forall in F. specialize (F (nth i ys 0) ltac:(apply nth_In; lia)). lra.
Qed.


Lemma filter_none {A} (f : A -> bool) l : (forall x, In x l -> f x = false) -> filter f l = [].
Proof.
  induction l as [|a l IH]; intros H; cbn; auto.
  rewrite (H a (or_introl eq_refl)). apply IH. intros x Hx. apply H. now right.
Qed.

Lemma filter_id {A} (f : A -> bool) l : (forall x, In x l -> f x = true) -> filter f l = l.
Proof.
  induction l as [|a l IH]; intros H; cbn; auto.
  rewrite (H a (or_introl eq_refl)). f_equal. apply IH. intros x Hx. apply H. now right.
Qed.

Lemma nth_skipn' {A} (l : list A) k i d : nth i (skipn k l) d = nth (k + i) l d.
Proof.
  revert l; induction k as [|k IH]; intros l; cbn; auto.
  destruct l as [|a l]; [now destruct i|]. apply IH.
Qed.

Lemma filter_cut ys l h a b :
  (a <= b <= length ys)%nat ->
  (forall i, (i < length ys)%nat -> (l <= nth i ys 0 <-> (a <= i)%nat)) ->
  (forall i, (i < length ys)%nat -> (nth i ys 0 <= h <-> (i < b)%nat)) ->
  filter (within l h) ys = firstn (b - a) (skipn a ys).
Proof.
  intros Hab Ha Hb.
  assert (Hw : forall i, (i < length ys)%nat ->
             within l h (nth i ys 0) = ((a <=? i) && (i <? b))%nat).
  { intros i Hi. unfold within.
    destruct (Rleb_spec l (nth i ys 0)) as [H1|H1], (Nat.leb_spec a i) as [H2|H2];
      try (exfalso; apply H1, Ha; auto; lia); try (apply Ha in H1; lia);
      destruct (Rleb_spec (nth i ys 0) h) as [H3|H3], (Nat.ltb_spec i b) as [H4|H4];
      try (exfalso; apply H3, Hb; auto; lia); try (apply Hb in H3; lia); reflexivity. }
  rewrite <- (firstn_skipn a ys) at 1. rewrite filter_app.
  rewrite <- (firstn_skipn (b - a) (skipn a ys)) at 1. rewrite filter_app.
  rewrite (filter_none _ (firstn a ys)), filter_id, filter_none, app_nil_r; auto.
  - intros x Hx. apply (In_nth _ _ 0) in Hx as (i & Hi & <-).
    rewrite !skipn_length in Hi. rewrite !nth_skipn'. rewrite Hw by lia.
    destruct (Nat.ltb_spec (a + (b - a + i)) b); [lia|apply andb_false_r].
  - intros x Hx. apply (In_nth _ _ 0) in Hx as (i & Hi & <-).
    rewrite firstn_length, skipn_length in Hi.
    rewrite nth_firstn', nth_skipn' by lia. rewrite Hw by lia.
    destruct (Nat.leb_spec a (a + i)), (Nat.ltb_spec (a + i) b); auto; lia.
  - intros x Hx. apply (In_nth _ _ 0) in Hx as (i & Hi & <-).
    rewrite firstn_length in Hi. rewrite nth_firstn' by lia. rewrite Hw by lia.
    destruct (Nat.leb_spec a i); auto; lia.
Qed.

(** what the counting loop finds *)
Lemma trim_loop ys l h a b n (Hn : length ys = n) (Ha' : (a <= b <= length ys)%nat) :
  (forall i, (i < length ys)%nat -> (l <= nth i ys 0 <-> (a <= i)%nat)) ->
  (forall i, (i < length ys)%nat -> (nth i ys 0 <= h <-> (i < b)%nat)) ->
  for_ n 0 (fun i '(first, count) =>
        let! x := rd (cells ys) i in
        let! lo := lval (Some l) in
        let! c := (if (x >=? lo)%num then let! hi := lval (Some h) in Ok (x <=? hi)%num else Ok false) in
        Ok (if ((if c : bool then S count else count) =? 1)%nat then i else first,
            if c then S count else count)) (0%nat, 0%nat)
  = Ok (if (b - a =? 0)%nat then 0 else if (b - a =? 1)%nat then n - 1 else a, b - a)%nat.
Proof.
  subst n. intros Ha Hb.
  set (body := fun (i : nat) '(first, count) => _).
  pose (G := fun i => let c := (Nat.min i b - a)%nat in
     ((if (c =? 0)%nat then 0 else if (c =? 1)%nat then i - 1 else a)%nat, c)).
  replace (0%nat, 0%nat) with (G 0%nat) by (unfold G; reflexivity).
  rewrite for_fun.
  - unfold G. cbv zeta. rewrite Nat.min_r by lia. reflexivity.
  - intros i Hi. unfold body, G. cbv zeta.
    rewrite rd_cells with (d := 0) by lia. cbn [bind lval].
    unfold fge. cbn [fle NumR].
    specialize (Ha i ltac:(lia)). specialize (Hb i ltac:(lia)).
    destruct (Rleb_spec l (nth i ys 0)) as [H1|H1]; cbn [bind].
    + apply Ha in H1. destruct (Rleb_spec (nth i ys 0) h) as [H2|H2].
      * apply Hb in H2. replace (S (Nat.min i b - a)) with (Nat.min (S i) b - a)%nat by lia.
        f_equal. f_equal.
        destruct (Nat.eqb_spec (Nat.min (S i) b - a) 1) as [E|E].
        -- rewrite E. cbn [Nat.eqb]. lia.
        -- destruct (Nat.eqb_spec (Nat.min (S i) b - a) 0); [lia|].
           destruct (Nat.eqb_spec (Nat.min i b - a) 0); [lia|].
           destruct (Nat.eqb_spec (Nat.min i b - a) 1); lia.
      * assert (~ (i < b)%nat) by (intros Hc; apply H2, Hb, Hc).
        replace (Nat.min (S i) b) with b by lia. replace (Nat.min i b) with b by lia.
        f_equal. f_equal.
        destruct (Nat.eqb_spec (b - a) 1) as [E|E]; [rewrite E; cbn [Nat.eqb]; lia|].
        destruct (Nat.eqb_spec (b - a) 0); lia.
    + assert (~ (a <= i)%nat) by (intros Hc; apply H1, Ha, Hc).
      replace (Nat.min (S i) b - a)%nat with 0%nat by lia.
      replace (Nat.min i b - a)%nat with 0%nat by lia. reflexivity.
Qed.

Section Trim.
Context (bc : bool) (W : Z) (fuel : nat) (g : R).

Lemma trim_mean_ok xs ys tx p :
  separated xs -> xs <> [] -> (2 * length xs <= fuel)%nat ->
  (Z.of_nat (length xs) <= 2147483647)%Z -> (Z.of_nat (length xs) < W)%Z ->
  Permutation xs ys -> StronglySorted Rle ys -> 0 < p <= 50 ->
  let l := pct p ys in let h := pct (100 - p) ys in
  let c := length (filter (within l h) xs) in
  sta_trim_mean bc W fuel (Some g) (vec_of xs tx) p
  = Ok (0%Z, Some (if (c =? 0)%nat then 0
                   else if (c =? 1)%nat then nth (length xs - 1) ys 0
                   else rmean (filter (within l h) ys))).
Proof.
  intros Hs Hx Hf Hn HW HP HS Hp l h c. unfold sta_trim_mean.
  rewrite lit_500. unfold fgt. cbn [flt NumR f0].
  rewrite !Rltb_false by lra. rewrite andb_false_r.
  rewrite percentile_ok with (ys := ys) by (auto; lra). cbn [bind].
  cbn [fsub fofZ NumR].
  rewrite percentile_ok with (ys := ys) by (auto; lra). cbn [bind].
  change (vsz (vec_of xs tx)) with (length xs).
  pose proof (@sorted_local g fuel xs ys tx Hs Hx Hf HP HS) as E.
  destruct (vec_init (vdef (length xs))) as [[rc w]| | |]; cbn [bind] in E |- *; try discriminate.
  rewrite E. cbn [bind]. clear E.
  assert (HL : length ys = length xs) by (symmetry; now apply Permutation_length).
  assert (Hxn : length xs <> 0%nat) by (destruct xs; cbn; [contradiction|lia]).
  assert (Hys : ys <> []) by (intros ->; cbn in HL; lia).
  fold l. fold h. cbn [vbuf].
  assert (Hlh : l <= h) by (apply pct_mono; auto; lra).
  destruct (lower_cut ys l HS) as (a & Ha1 & Ha2).
  destruct (upper_cut ys h HS) as (b & Hb1 & Hb2).
  assert (Hab : (a <= b)%nat).
  { destruct (Nat.le_gt_cases a b) as [?|Hlt]; auto.
    assert (Hb3 : (b < length ys)%nat) by lia.
    specialize (Ha2 b Hb3). specialize (Hb2 b Hb3).
    destruct (Rle_dec l (nth b ys 0)) as [Hc|Hc].
    - apply Ha2 in Hc. lia.
    - assert (nth b ys 0 <= h) by lra. apply Hb2 in H. lia. }
  assert (Ec : c = (b - a)%nat).
  { unfold c. rewrite (@filter_perm_length _ (within l h) xs ys HP).
    rewrite (filter_cut ys l h a b) by (auto; lia).
    rewrite firstn_length, skipn_length. lia. }
  rewrite (trim_loop ys l h a b (length xs)) by (auto; lia). cbn [bind].
  rewrite Ec.
  set (f := if (b - a =? 0)%nat then 0%nat else _).
  rewrite get_subset_exact.
  2: { auto. }
  2: { unfold f. destruct (Nat.eqb_spec (b - a) 0); [lia|].
       destruct (Nat.eqb_spec (b - a) 1); lia. }
  2: { unfold f. destruct (Nat.eqb_spec (b - a) 0); [lia|].
       destruct (Nat.eqb_spec (b - a) 1); lia. }
  2: { rewrite HL; auto. }
  cbn [bind]. unfold f.
  destruct (Nat.eqb_spec (b - a) 0) as [E0|E0].
  - rewrite E0. cbn [firstn]. unfold vec_of. cbn [length cells map app].
    rewrite sta_mean_empty. reflexivity.
  - destruct (Nat.eqb_spec (b - a) 1) as [E1|E1].
    + rewrite E1. rewrite (@skipn_cons_nth R ys (length xs - 1) 0) by lia. cbn [firstn].
      rewrite sta_mean_R by discriminate. cbn [bind].
      unfold rmean. cbn. f_equal. f_equal. f_equal. field.
    + rewrite sta_mean_R.
      * cbn [bind]. rewrite (filter_cut ys l h a b) by (auto; lia). reflexivity.
      * intros Hnil. apply (f_equal (@length R)) in Hnil.
        rewrite firstn_length, skipn_length in Hnil. cbn in Hnil. lia.
Qed.

End Trim.
