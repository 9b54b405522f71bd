(** C149: sorting and order statistics of double-precision data. *)
From Coq Require Import Floats.PrimFloat.
From Flocq Require Import Core.
From Coq Require Import ZArith Reals Lra Lia List Bool Permutation Sorted.
From Verif Require Import Base BaseFacts NumR NumF Libm LibmR SpecVec SpecReal SpecStat SpecFlt SpecFltStat MVec MStat PVec PFlt PFltSum PFltUnit PFltVar PFltQuat PSort PStatOrd PFltSort PFltStat.
Import ListNotations.
Open Scope R_scope.

(** [separated] is C14's: any two data, and zero, are equal or at least 1e-5
    apart.  g is whatever lies behind the scratch array, a NaN for instance.
    What the doubles stand for is sorted exactly, whatever their size: the
    differences formed while sorting may overflow. *)
Theorem C149_sort (g : double) (xs : list double) tx m wb fuel :
  Forall finite xs -> separated (map FR xs) -> xs <> [] ->
  (length xs <= length wb)%nat -> (2 * length xs <= fuel)%nat ->
  exists ys, vec_sort fuel (Some g) (vec_of xs tx) (Vec m wb)
             = Ok (0%Z, Vec m (cells ys ++ skipn (length xs) wb))
    /\ Forall finite ys /\ Permutation (map FR xs) (map FR ys) /\ StronglySorted Rle (map FR ys).
Proof. exact (sort_flt g xs tx m wb fuel). Qed.

Lemma sorted_first (l : list R) i : StronglySorted Rle l -> (i < length l)%nat -> nth 0 l 0 <= nth i l 0.
Proof.
  intros H Hi. destruct H as [|a l Hl HF]; [cbn in Hi; lia|]. destruct i as [|i]; [cbn; lra|].
  rewrite Forall_forall in HF. cbn [nth]. apply HF, nth_In. cbn in Hi. lia.
Qed.

Section Order.
Context {M : NumM double}.
Hypothesis HM : floors M.
Variables (bc : bool) (fuel : nat) (g : double) (xs : list double) (tx : buf double) (rs : list R).
Hypothesis Hfin : Forall finite xs.
Hypothesis Hsep : separated (map FR xs).
Hypothesis Hfuel : (2 * length xs <= fuel)%nat.
Hypothesis Hint : (Z.of_nat (length xs) <= 2147483647)%Z.
(** rs: the exact data in ascending order *)
Hypothesis Hperm : Permutation (map FR xs) rs.
Hypothesis Hsort : StronglySorted Rle rs.

(** An odd number of data: the median is the middle one, exactly.  An even
    number: the mean of the two middle ones, rounded twice. *)
Theorem C149_median (m : nat) :
  (length xs = (2 * m + 1)%nat ->
   exists q, sta_median bc fuel (Some g) (vec_of xs tx) = Ok (0%Z, Some q) /\ finite q /\ FR q = nth m rs 0) /\
  ((1 <= m)%nat -> length xs = (2 * m)%nat ->
   exists q, sta_median bc fuel (Some g) (vec_of xs tx) = Ok (0%Z, Some q) /\
   let mean := (nth m rs 0 + nth (m - 1) rs 0) / 2 in
   (finite q -> Rabs (FR q - mean) <= gam 2 * Rabs mean + eta)).
Proof.
  assert (HL : length rs = length xs) by (rewrite <- (map_length FR xs); symmetry; now apply Permutation_length).
  assert (E50 : INR (25 * 2) = 50) by (cbn; lra).
  split; [intros H|intros Hm H].
  - destruct (@percentile_flt M HM bc fuel g xs rs tx 2) as (q & E & _ & Hq); auto; [destruct xs; cbn in *; [lia|discriminate]|].
    rewrite E50, (pct_50_odd rs m) in Hq by lia.
    destruct Hq as (Fq & Eq).
    { rewrite H. replace (2 * (2 * m + 1))%nat with (2 + m * 4)%nat by lia. rewrite Nat.mod_add by lia. cbn. lia. }
    exists q. split; [|auto]. unfold sta_median. change (fofZ 50) with (fofZ (Z.of_nat (25 * 2)) : double). now rewrite E.
  - destruct (@percentile_flt M HM bc fuel g xs rs tx 2) as (q & E & Hq & _); auto; [destruct xs; cbn in *; [lia|discriminate]|].
    rewrite E50, (pct_50_even rs m Hm) in Hq by lia.
    exists q. split; [|exact Hq]. unfold sta_median. change (fofZ 50) with (fofZ (Z.of_nat (25 * 2)) : double). now rewrite E.
Qed.

(** The quartiles are those of the exact data (C53's [pct]), rounded at most
    twice; exactly those when the number of data is odd (25 n / 100 and
    75 n / 100 are then not whole) *)
Theorem C149_quartiles : xs <> [] ->
  exists q1 q2 q3, sta_quart bc fuel (Some g) (vec_of xs tx) = Ok (0%Z, (Some q1, Some q2, Some q3)) /\
  let right q p := (finite q -> Rabs (FR q - pct p rs) <= gam 2 * Rabs (pct p rs) + eta) /\
                   (Nat.Odd (length xs) -> finite q /\ FR q = pct p rs) in
  right q1 25 /\ right q2 50 /\ right q3 75.
Proof.
  intros Hx.
  destruct (@percentile_flt M HM bc fuel g xs rs tx 1) as (q1 & E1 & A1 & B1); auto.
  destruct (@percentile_flt M HM bc fuel g xs rs tx 2) as (q2 & E2 & A2 & B2); auto.
  destruct (@percentile_flt M HM bc fuel g xs rs tx 3) as (q3 & E3 & A3 & B3); auto.
  replace (INR (25 * 1)) with 25 in * by (cbn; lra). replace (INR (25 * 2)) with 50 in * by (cbn; lra).
  replace (INR (25 * 3)) with 75 in * by (cbn; lra).
  exists q1, q2, q3. split.
  { unfold sta_quart. change (fofZ 25) with (fofZ (Z.of_nat (25 * 1)) : double). change (fofZ 50) with (fofZ (Z.of_nat (25 * 2)) : double).
    change (fofZ 75) with (fofZ (Z.of_nat (25 * 3)) : double). rewrite E1. cbn [bind]. rewrite E2. cbn [bind]. rewrite E3. reflexivity. }
  assert (Odd4 : forall t, (t = 1 \/ t = 2 \/ t = 3)%nat -> Nat.Odd (length xs) -> ((t * length xs) mod 4 <> 0)%nat).
  { intros t Ht (k & Ek) E. rewrite Ek in E. apply Nat.mod_divides in E as (c & E); [|lia]. lia. }
  cbv zeta. refine (conj (conj A1 (fun Ho => B1 (Odd4 1%nat _ Ho))) (conj (conj A2 (fun Ho => B2 (Odd4 2%nat _ Ho))) (conj A3 (fun Ho => B3 (Odd4 3%nat _ Ho))))); tauto.
Qed.

(** The range is the largest minus the smallest datum, rounded once *)
Theorem C149_data_range W : xs <> [] -> (Z.of_nat (length xs) <= W)%Z ->
  exists r, sta_data_range W fuel (Some g) (vec_of xs tx) = Ok (0%Z, Some r) /\
  let hi := nth (length xs - 1) rs 0 in let lo := nth 0 rs 0 in
  (finite r -> Rabs (FR r - (hi - lo)) <= uu * (hi - lo)) /\ (~ finite r -> big < hi - lo).
Proof.
  intros Hx HW. set (n := length xs).
  destruct (@sorted_flt fuel g xs rs tx (vdef (length xs))) as (ys & E & Fy & Er); auto; [apply fresh_length|].
  assert (Hn : (1 <= n)%nat) by (unfold n; destruct xs; cbn; [congruence|lia]).
  assert (Ly : length ys = n) by (apply Permutation_length in Hperm; rewrite <- Er, !map_length in Hperm; now symmetry).
  assert (Nth : forall i, nth i rs 0 = FR (nth i ys zero)) by (intros i; rewrite <- Er; rewrite <- FR_zero at 1; apply map_nth).
  exists (nth (n - 1) ys zero - nth 0 ys zero)%float. split.
  { unfold sta_data_range. change (vsz (vec_of xs tx)) with (length xs). rewrite E. cbn [bind vbuf]. fold n.
    rewrite Z.mod_small by (unfold n in *; lia). unfold rdz. rewrite (proj2 (Z.ltb_ge _ 0)) by lia.
    replace (Z.to_nat (Z.of_nat n - 1)) with (n - 1)%nat by lia.
    unfold n in *. rewrite rd_cells with (d := zero) by lia. cbn [bind]. rewrite rd_cells with (d := zero) by lia. reflexivity. }
  cbv zeta. fold n. rewrite !Nth.
  assert (Fin : forall i, (i < n)%nat -> finite (nth i ys zero)) by (intros i Hi; rewrite Forall_forall in Fy; apply Fy, nth_In; lia).
  assert (Ord : FR (nth 0 ys zero) <= FR (nth (n - 1) ys zero)).
  { rewrite <- !Nth. apply sorted_first; [exact Hsort|]. rewrite <- Er, map_length. lia. }
  set (h := nth (n - 1) ys zero) in *. set (l := nth 0 ys zero) in *.
  split.
  - intros Hr. destruct (sub_err _ _ Hr) as (_ & _ & d & Hd & ->).
    replace ((FR h - FR l) * (1 + d) - (FR h - FR l)) with (d * (FR h - FR l)) by ring.
    rewrite Rabs_mult, (Rabs_pos_eq (FR h - FR l)) by lra. apply Rmult_le_compat_r; lra.
  - intros Hr. destruct (Rle_lt_dec (FR h - FR l) big) as [Hle|]; [|auto]. exfalso. apply Hr, sub_finite; [apply Fin; lia|apply Fin; lia|]. rewrite Rabs_pos_eq; lra.
Qed.
End Order.
Print Assumptions C149_sort.
Print Assumptions C149_median.
Print Assumptions C149_quartiles.
Print Assumptions C149_data_range.

(** A NaN or an infinity is dropped in silence: the copying pass subtracts
    before it compares, and no comparison with a NaN holds.  The return value
    is still 0 and the last places of the output keep what was there ... *)
Theorem C149_nan_refuted :
  vec_sort 20 (Some zero) (vec_of [3; nan; 1]%float []) (Vec 3 [Some 7; Some 8; Some 9]%float)
    = Ok (0%Z, Vec 3 [Some 1; Some 3; Some 9]%float) /\
  vec_sort 20 (Some zero) (vec_of [3; infinity; 1]%float []) (Vec 3 [Some 7; Some 8; Some 9]%float)
    = Ok (0%Z, Vec 3 [Some 1; Some 3; Some 9]%float).
Proof. split; reflexivity. Qed.
Print Assumptions C149_nan_refuted.

(** ... so that the range of such data is computed from an uninitialised
    element of the local array, and a lone NaN makes the sort itself read
    outside its arrays *)
Theorem C149_garbage_refuted :
  sta_data_range 256 20 (Some zero) (vec_of [3; nan; 1]%float []) = UB Uninit /\
  sta_data_range 256 20 (Some zero) (vec_of [3; infinity; 1]%float []) = UB Uninit /\
  vec_sort 20 (Some zero) (vec_of [nan]%float []) (Vec 1 [Some 7]%float) = UB OOBRead.
Proof. repeat split; reflexivity. Qed.
Print Assumptions C149_garbage_refuted.

(** * The hypotheses are met *)

Definition libm_floor : NumM double := {|
  fexp x := x; flog x := Ok x; flog10 x := Ok x; fpow x _ := Ok x; fsin x := x; fcos x := x; ftan x := Ok x;
  fasin x := Ok x; facos x := Ok x; fatan x := x; fatan2 x _ := x; fsinh x := x; fcosh x := x; ftanh x := x;
  ffloor x := F_of_Z (Int_part (FR x)); fceil x := x; fround x := x; ftrunc x := Int_part (FR x) |}.

Example libm_floor_ok : floors libm_floor.
Proof.
  split; cbn [ffloor ftrunc libm_floor].
  - intros x _ Hx. destruct (base_Int_part (FR x)) as [H1 H2].
    assert (0 <= Int_part (FR x) < 2147483648)%Z.
    { split; [|apply lt_IZR; lra]. apply Z.lt_succ_r, lt_IZR. rewrite succ_IZR. lra. }
    destruct (FR_of_nat (Z.to_nat (Int_part (FR x)))) as [HF HE]; [rewrite Z2Nat.id by lia; lia|].
    rewrite Z2Nat.id in HF, HE by lia. split; [exact HF|]. rewrite HE, INR_IZR_INZ, Z2Nat.id by lia. reflexivity.
  - intros x k _ -> _. destruct (base_Int_part (IZR k)) as [H1 H2].
    apply Z.le_antisymm; [apply le_IZR; lra|]. apply Z.lt_succ_r, lt_IZR. rewrite succ_IZR. lra.
Qed.

Definition data4 : list double := [3; 1; 3; 7]%float.

Lemma data4_FR : map FR data4 = [3; 1; 3; 7].
Proof.
  assert (H : forall n, (n <= 9)%nat -> FR (F_of_Z (Z.of_nat n)) = INR n) by (intros n Hn; apply FR_of_nat; lia).
  unfold data4. cbn [map].
  change 3%float with (F_of_Z (Z.of_nat 3)). change 1%float with (F_of_Z (Z.of_nat 1)). change 7%float with (F_of_Z (Z.of_nat 7)).
  rewrite !H by lia. cbn. repeat f_equal; lra.
Qed.

Example data4_ok : Forall finite data4 /\ separated (map FR data4) /\
  Permutation (map FR data4) [1; 3; 3; 7] /\ StronglySorted Rle [1; 3; 3; 7].
Proof.
  rewrite data4_FR. split; [|split; [|split]].
  - repeat constructor.
  - unfold separated. cbn [In]. intros x y Hx Hy.
    repeat (destruct Hx as [<-|Hx]; [repeat (destruct Hy as [<-|Hy]; [unfold apart; first [left; lra|right; apply Rabs_ge; lra]|]); destruct Hy|]). destruct Hx.
  - apply perm_swap.
  - repeat constructor; lra.
Qed.

Example C149_ex : exists q r,
  sta_median (M := libm_floor) true 8 (Some nan) (vec_of data4 []) = Ok (0%Z, Some q) /\
  (finite q -> Rabs (FR q - 3) <= gam 2 * 3 + eta) /\
  sta_data_range 256 8 (Some nan) (vec_of data4 []) = Ok (0%Z, Some r) /\ r = 6%float.
Proof.
  destruct data4_ok as (H1 & H2 & H3 & H4).
  pose proof (@C149_median libm_floor libm_floor_ok true 8%nat nan data4 [] [1; 3; 3; 7] H1 H2) as HC.
  specialize (HC ltac:(cbn; lia) ltac:(cbn; lia) H3 H4 2%nat).
  destruct (proj2 HC ltac:(lia) eq_refl) as (q & E & Hq). clear HC.
  exists q, 6%float. cbn [nth Nat.sub] in Hq. cbv zeta in Hq.
  replace ((3 + 3) / 2) with 3 in Hq by lra. rewrite (Rabs_pos_eq 3) in Hq by lra.
  repeat split; auto.
Qed.
