(** Small facts used to state the vector properties of PropVec.v in one piece. *)
From Coq Require Import List Arith ZArith Bool Lia Reals Lra Permutation Sorted.
From Verif Require Import Base BaseFacts SpecVec MVec PVec NumR NumF SpecReal PVecR PSort.
Import ListNotations.

(** ** C12: the values that zte keeps / moves *)
Lemma zte_split_R (xs : list R) :
  filter (fun a => negb (zte_test a)) xs
  = filter (fun a => if Rlt_dec a 0 then true else if Rlt_dec a (/ 1000000) then false else true) xs.
Proof.
  apply filter_ext. intros a.
  destruct (zte_test a) eqn:E; cbn [negb].
  - apply zte_test_R in E. destruct (Rlt_dec a 0); [lra|]. destruct (Rlt_dec a (/1000000)); [auto|lra].
  - destruct (Rlt_dec a 0); auto. destruct (Rlt_dec a (/ 1000000)); auto. exfalso.
    enough (zte_test a = true) by congruence. apply zte_test_R. lra.
Qed.

Lemma zte_R (xs : list R) tl :
  exists keep k,
    vec_zte (vec_of xs tl) = Ok (0%Z, vec_of (keep ++ repeat 0%R k) tl)
    /\ keep = filter (fun a => if Rlt_dec a 0 then true else if Rlt_dec a (/ 1000000) then false else true) xs
    /\ (length keep + k = length xs)%nat.
Proof.
  exists (filter (fun a => negb (zte_test a)) xs), (length (filter zte_test xs)).
  split; [exact (vec_zte_ok xs tl)|]. split; [apply zte_split_R|].
  clear tl. induction xs as [|a xs IH]; cbn [filter]; auto.
  destruct (zte_test a); cbn [negb length]; lia.
Qed.

(** ** C13 over R *)
Lemma vec_is_equal_R (xs ys : list R) tx ty eps :
  exists b, vec_is_equal (vec_of xs tx) (vec_of ys ty) eps = Ok b
    /\ (b = true <-> length xs = length ys
         /\ forall i, (i < length xs)%nat -> (Rabs (nth i xs 0 - nth i ys 0) < eps)%R).
Proof.
  destruct (Nat.eq_dec (length xs) (length ys)) as [H|H].
  2:{ exists false. rewrite vec_is_equal_mismatch by exact H. split; auto.
      split; [discriminate|]. intros [? _]; contradiction. }
  eexists. split; [apply vec_is_equal_ok; auto|].
  rewrite map2_map_seq with (da := 0%R) (db := 0%R) by auto.
  assert (FM : forall (f : nat -> bool) l, forallb (fun b => b) (map f l) = forallb f l).
  { intros f l. induction l as [|a l IH]; cbn; auto. now rewrite IH. }
  rewrite FM, forallb_forall.
  assert (G : forall a b, negb (fge (fsub a b) eps || fge (fneg (fsub a b)) eps) = true
                          <-> (Rabs (a - b) < eps)%R).
  { intros a b. unfold fge. cbn [fle fsub fneg NumR].
    destruct (Rleb_spec eps (a - b)), (Rleb_spec eps (- (a - b))); cbn; split;
      try discriminate; try (intros A; apply Rabs_def2 in A; lra); auto.
    intros _. apply Rabs_def1; lra. }
  split.
  - intros A. split; auto. intros i Hi. apply G, A. apply in_seq. lia.
  - intros [_ A] i Hi. apply in_seq in Hi. apply G, A. lia.
Qed.

Lemma vec_contains_R (xs : list R) tx val eps :
  vec_contains (vec_of xs tx) val eps
  = Ok (length (filter (fun a => if Rlt_dec (Rabs (a - val)) eps then true else false) xs)).
Proof.
  rewrite vec_contains_ok. do 2 f_equal. apply filter_ext. intros a.
  destruct (Rlt_dec (Rabs (a - val)) eps) as [H|H].
  - now apply near_R.
  - destruct (near val eps a) eqn:E; auto. exfalso. now apply H, near_R.
Qed.

Lemma vec_is_nonneg_R (xs : list R) tx :
  exists b, vec_is_nonneg (vec_of xs tx) = Ok b /\ (b = true <-> forall x, In x xs -> (0 <= x)%R).
Proof.
  eexists. split; [apply vec_is_nonneg_ok|]. rewrite forallb_forall.
  split; intros A x Hx; specialize (A x Hx).
  - cbn in A. destruct (Rltb_spec x 0); try discriminate. lra.
  - cbn. destruct (Rltb_spec x 0); auto. lra.
Qed.

(** ** C16 over R *)
Lemma fold_map2_add (xss : list (list R)) : forall ws n i,
  length ws = n -> Forall (fun xs => length xs = n) xss ->
  (i < n)%nat ->
  nth i (fold_left (map2 fadd) xss ws) 0%R = (nth i ws 0 + rsum (map (fun xs => nth i xs 0) xss))%R.
Proof.
  induction xss as [|xs xss IH]; intros ws n i Hw HF Hi; cbn [fold_left map rsum].
  - lra.
  - inversion HF; subst. rewrite IH with (n := length ws); auto.
    + rewrite nth_map2 with (da := 0%R) (db := 0%R) by (auto; lia). cbn [fadd NumR]. lra.
    + rewrite map2_length; auto.
Qed.

Lemma fold_map2_length (xss : list (list R)) : forall ws n,
  length ws = n -> Forall (fun xs => length xs = n) xss ->
  length (fold_left (map2 fadd) xss ws) = n.
Proof.
  induction xss as [|xs xss IH]; intros ws n Hw HF; cbn [fold_left]; auto.
  inversion HF; subst. apply IH; auto. rewrite map2_length; auto.
Qed.

Lemma vec_sum_R bc (xss : list (list R)) tys tw sz :
  xss <> [] -> length tys = length xss -> Forall (fun xs => length xs = sz) xss ->
  exists s, vec_sum bc (map2 vec_of xss tys) (length xss) (Vec sz (cells (repeat 0%R sz) ++ tw))
            = Ok (0%Z, vec_of s tw)
    /\ length s = sz
    /\ forall i, (i < sz)%nat -> nth i s 0%R = rsum (map (fun xs => nth i xs 0%R) xss).
Proof.
  intros Hne Hl HF. eexists. split; [|split].
  - apply vec_sum_ok; auto. apply repeat_length.
  - apply fold_map2_length; auto. apply repeat_length.
  - intros i Hi. rewrite fold_map2_add with (n := sz); auto using repeat_length.
    rewrite nth_repeat. lra.
Qed.

Lemma vec_mean_accumulates_R bc (xss : list (list R)) tys ws tw sz :
  xss <> [] -> length tys = length xss -> Forall (fun xs => length xs = sz) xss -> length ws = sz ->
  exists s, vec_mean bc (map2 vec_of xss tys) (length xss) (Vec sz (cells ws ++ tw))
            = Ok (0%Z, vec_of s tw)
    /\ length s = sz
    /\ forall i, (i < sz)%nat ->
         nth i s 0%R = ((nth i ws 0%R + rsum (map (fun xs => nth i xs 0%R) xss)) / INR (length xss))%R.
Proof.
  intros Hne Hl HF Hw.
  assert (E := @vec_sum_ok _ _ bc xss tys ws tw (length xss) sz Hne Hl eq_refl HF Hw).
  assert (Ls := @fold_map2_length xss ws sz Hw HF).
  exists (map (fun x => fmul x (1 / INR (length xss))%R) (fold_left (map2 fadd) xss ws)). split; [|split].
  - unfold vec_mean. cbn [vsz].
    assert (HN : INR (length xss) <> 0%R) by (apply not_0_INR; destruct xss; cbn; congruence || lia).
    assert (G : (if bc then let! v0 := nth_vec (map2 vec_of xss tys) 0 in Ok (negb (sz =? vsz v0)%nat)
                 else Ok false) = Ok false).
    { destruct bc; auto. destruct xss as [|x0 xss]; [congruence|].
      destruct tys as [|t0 tys]; [discriminate|]. inversion HF; subst.
      cbn [map2 nth_vec nth_error bind vec_of vsz]. rewrite H1, Nat.eqb_refl. reflexivity. }
    rewrite G. cbn [bind]. rewrite E. cbn [bind Z.eqb negb].
    unfold fdiv, fofZ, f1, NumR. rewrite <- INR_IZR_INZ. unfold Rdivo.
    destruct (Req_EM_T _ _); [contradiction|]. cbn [bind].
    rewrite vec_scalar_mult_ok. cbn [bind]. reflexivity.
  - rewrite map_length. exact Ls.
  - intros i Hi.
    rewrite nth_indep with (d' := fmul 0%R (1 / INR (length xss))%R) by (rewrite map_length; lia).
    rewrite (map_nth (fun x => fmul x (1 / INR (length xss))%R)).
    rewrite fold_map2_add with (n := sz) by auto. cbn [fmul NumR]. unfold Rdiv. ring.
Qed.

Lemma vec_mean_R bc (xss : list (list R)) tys tw sz :
  xss <> [] -> length tys = length xss -> Forall (fun xs => length xs = sz) xss ->
  exists s, vec_mean bc (map2 vec_of xss tys) (length xss) (Vec sz (cells (repeat 0%R sz) ++ tw))
            = Ok (0%Z, vec_of s tw)
    /\ length s = sz
    /\ forall i, (i < sz)%nat ->
         nth i s 0%R = (rsum (map (fun xs => nth i xs 0%R) xss) / INR (length xss))%R.
Proof.
  intros Hne Hl HF.
  destruct (@vec_mean_accumulates_R bc xss tys (repeat 0%R sz) tw sz Hne Hl HF (repeat_length _ _)) as (s & E & Ls & Es).
  exists s. split; [exact E|]. split; [exact Ls|]. intros i Hi. rewrite Es by exact Hi.
  rewrite nth_repeat. f_equal. lra.
Qed.

(** ** Combined algebraic statements *)
Lemma dot_laws (xs ys zs : list R) k :
  length xs = length ys -> length ys = length zs ->
  rdot xs ys = rdot ys xs
  /\ rdot (map2 Rplus xs ys) zs = (rdot xs zs + rdot ys zs)%R
  /\ rdot (rscale k xs) ys = (k * rdot xs ys)%R
  /\ (0 <= rdot xs xs)%R
  /\ (rdot xs xs = 0%R <-> Forall (fun x => x = 0%R) xs).
Proof.
  intros H1 H2. split; [apply rdot_comm|]. split; [apply rdot_add_l; auto|].
  split; [apply rdot_scale_l|]. split; [apply rdot_self_nonneg|].
  split; [apply rdot_self_zero|apply rdot_zero_l].
Qed.

Lemma dist_metric bc (xs ys zs : list R) tx ty tz :
  length xs = length ys -> length ys = length zs ->
  exists dxy dyx dyz dxz,
    vec_dist bc (vec_of xs tx) (vec_of ys ty) = Ok dxy
    /\ vec_dist bc (vec_of ys ty) (vec_of xs tx) = Ok dyx
    /\ vec_dist bc (vec_of ys ty) (vec_of zs tz) = Ok dyz
    /\ vec_dist bc (vec_of xs tx) (vec_of zs tz) = Ok dxz
    /\ (0 <= dxy)%R /\ dxy = dyx /\ (dxy = 0%R <-> xs = ys) /\ (dxz <= dxy + dyz)%R.
Proof.
  intros H1 H2.
  exists (rnorm (map2 Rminus xs ys)), (rnorm (map2 Rminus ys xs)),
    (rnorm (map2 Rminus ys zs)), (rnorm (map2 Rminus xs zs)).
  repeat (split; [apply vec_dist_R; congruence|]). repeat split.
  - apply rnorm_nonneg.
  - rewrite map2_sub_neg, rnorm_scale. replace (Rabs (-1)) with 1%R; [lra|]. unfold Rabs. destruct (Rcase_abs _); lra.
  - intros H. apply rnorm_zero in H. now apply Forall_sub_zero in H.
  - intros H. apply rnorm_zero. now apply Forall_sub_zero.
  - rewrite (map2_sub_split xs ys zs) by auto. apply rnorm_triangle.
    rewrite !map2_length; congruence.
Qed.

Lemma norm_laws bc (xs ys : list R) tx ty t2 t3 k :
  length xs = length ys ->
  exists n m s h,
    vec_norm bc (vec_of xs tx) = Ok n /\ vec_norm bc (vec_of ys ty) = Ok m
    /\ vec_norm bc (vec_of (map2 Rplus xs ys) t2) = Ok s
    /\ vec_norm bc (vec_of (rscale k xs) t3) = Ok h
    /\ vec_sum_of_sqrs bc (vec_of xs tx) = Ok (n * n)%R
    /\ (0 <= n)%R /\ (n = 0%R <-> Forall (fun x => x = 0%R) xs)
    /\ h = (Rabs k * n)%R
    /\ (Rabs (rdot xs ys) <= n * m)%R
    /\ (s <= n + m)%R.
Proof.
  intros H. exists (rnorm xs), (rnorm ys), (rnorm (map2 Rplus xs ys)), (rnorm (rscale k xs)).
  repeat (split; [apply vec_norm_R|]). repeat split.
  - rewrite vec_sum_of_sqrs_ok, dot_rdot, rnorm_sqr. reflexivity.
  - apply rnorm_nonneg.
  - intros A. now apply rnorm_zero.
  - intros A. now apply rnorm_zero.
  - apply rnorm_scale.
  - apply rdot_le_norms.
  - apply rnorm_triangle; auto.
Qed.

Lemma to_unit_full bc (xs : list R) tx :
  xs <> [] ->
  exists us, vec_to_unit bc (vec_of xs tx) = Ok (0%Z, vec_of us tx)
    /\ vec_norm bc (vec_of us tx) = Ok 1%R
    /\ (Exists (fun x => x <> 0%R) xs -> exists k, (0 < k)%R /\ us = rscale k xs)
    /\ (Forall (fun x => x = 0%R) xs -> us = 1%R :: repeat 0%R (length xs - 1)).
Proof.
  intros Hne. destruct (Req_dec (rnorm xs) 0) as [H|H].
  - apply rnorm_zero in H. destruct xs as [|x xs]; [congruence|].
    eexists. split; [apply vec_to_unit_R0; auto|]. split; [|split].
    + rewrite vec_norm_R. f_equal. unfold rnorm. cbn [rdot].
      rewrite rdot_zero_l by (apply Forall_forall; intros y Hy; now apply repeat_spec in Hy).
      replace (1 * 1 + 0)%R with 1%R by lra. apply sqrt_1.
    + intros A. exfalso. rewrite Exists_exists in A. destruct A as (y & Hy & Hy0).
      rewrite Forall_forall in H. now apply Hy0, H.
    + intros _. cbn [length]. now rewrite Nat.sub_succ, Nat.sub_0_r.
  - eexists. split; [apply vec_to_unit_R; auto|]. split; [|split].
    + rewrite vec_norm_R. f_equal. rewrite rnorm_scale.
      assert (A := rnorm_nonneg xs). rewrite Rabs_pos_eq.
      * field. auto.
      * left. apply Rinv_0_lt_compat. lra.
    + intros _. exists (/ rnorm xs)%R. split; auto. apply Rinv_0_lt_compat.
      assert (A := rnorm_nonneg xs). lra.
    + intros A. exfalso. now apply H, rnorm_zero.
Qed.

Lemma cross_laws bc (a1 a2 a3 b1 b2 b3 : R) ta tb tc c1 c2 c3 :
  exists p1 p2 p3,
    vec_cross bc (vec_of [a1; a2; a3] ta) (vec_of [b1; b2; b3] tb) (Vec 3 (c1 :: c2 :: c3 :: tc))
    = Ok (0%Z, vec_of [p1; p2; p3] tc)
    /\ vec_cross bc (vec_of [b1; b2; b3] tb) (vec_of [a1; a2; a3] ta) (Vec 3 (c1 :: c2 :: c3 :: tc))
    = Ok (0%Z, vec_of [- p1; - p2; - p3]%R tc)
    /\ rdot [p1; p2; p3] [a1; a2; a3] = 0%R
    /\ rdot [p1; p2; p3] [b1; b2; b3] = 0%R
    /\ rdot [p1; p2; p3] [p1; p2; p3]
       = (rdot [a1; a2; a3] [a1; a2; a3] * rdot [b1; b2; b3] [b1; b2; b3]
          - rdot [a1; a2; a3] [b1; b2; b3] * rdot [a1; a2; a3] [b1; b2; b3])%R
    (* right-handed: the determinant of (a, b, a x b) is |a x b|^2 *)
    /\ (a1 * (b2 * p3 - b3 * p2) - a2 * (b1 * p3 - b3 * p1) + a3 * (b1 * p2 - b2 * p1)
        = rdot [p1; p2; p3] [p1; p2; p3])%R.
Proof.
  do 3 eexists. split; [apply vec_cross_ok|]. split.
  - rewrite vec_cross_ok. cbn [fsub fmul NumR]. do 3 f_equal. f_equal; [ring|]. f_equal; [ring|].
    f_equal. ring.
  - cbn. repeat split; ring.
Qed.

Lemma project_laws bc (us vs : list R) tu tv (bw : buf R) :
  length us = length vs -> (length us <= length bw)%nat ->
  Exists (fun x => x <> 0%R) us ->
  exists k ws,
    vec_project bc (vec_of us tu) (vec_of vs tv) (Vec (length us) bw)
    = Ok (0%Z, vec_of ws (skipn (length us) bw))
    /\ ws = rscale k us
    /\ rdot (map2 Rminus vs ws) us = 0%R.
Proof.
  intros H Hb Hu.
  assert (Hn : rdot us us <> 0%R).
  { intros E. apply rdot_self_zero in E. rewrite Exists_exists in Hu.
    destruct Hu as (x & Hx & H0). rewrite Forall_forall in E. now apply H0, E. }
  do 2 eexists. split; [apply vec_project_R; auto|]. split; [reflexivity|].
  rewrite rdot_sub_l by (unfold rscale; rewrite map_length; auto).
  rewrite rdot_scale_l. field. auto.
Qed.

Lemma rev_involutive_vec {T} {N : Num T} (xs : list T) tl :
  xs <> [] ->
  (let! (_, v) := vec_rev (vec_of xs tl) in vec_rev v) = Ok (0%Z, vec_of xs tl).
Proof.
  intros H. rewrite vec_rev_ok by auto. cbn [bind].
  rewrite vec_rev_ok, rev_involutive; auto.
  intros E. apply H. rewrite <- (rev_involutive xs), E. reflexivity.
Qed.

(** ** C18: success for every instance *)
Lemma vec_functions_safe {T} {N : Num T} bc (xs ys : list T) tx ty (bx : buf T) val eps :
  length xs = length ys -> (length xs <= length bx)%nat ->
  (forall a b, exists c, fdiv a b = Ok c) -> (forall a, exists c, fsqrt a = Ok c) -> xs <> [] ->
  (exists r, vec_add bc (vec_of xs tx) (vec_of ys ty) (Vec (length xs) bx) = Ok r)
  /\ (exists r, vec_sub bc (vec_of xs tx) (vec_of ys ty) (Vec (length xs) bx) = Ok r)
  /\ (exists r, vec_neg (vec_of xs tx) = Ok r)
  /\ (exists r, vec_scalar_add (vec_of xs tx) val = Ok r)
  /\ (exists r, vec_scalar_mult (vec_of xs tx) val = Ok r)
  /\ (exists r, vec_dot bc (vec_of xs tx) (vec_of ys ty) = Ok r)
  /\ (exists r, vec_sum_of_sqrs bc (vec_of xs tx) = Ok r)
  /\ (exists r, vec_norm bc (vec_of xs tx) = Ok r)
  /\ (exists r, vec_dist bc (vec_of xs tx) (vec_of ys ty) = Ok r)
  /\ (exists r, vec_to_unit bc (vec_of xs tx) = Ok r)
  /\ (exists r, vec_ar_mean (vec_of xs tx) = Ok r)
  /\ (exists r, vec_rev (vec_of xs tx) = Ok r)
  /\ (exists r, vec_zte (vec_of xs tx) = Ok r)
  /\ (exists r, vec_is_equal (vec_of xs tx) (vec_of ys ty) eps = Ok r)
  /\ (exists r, vec_is_nonneg (vec_of xs tx) = Ok r)
  /\ (exists r, vec_contains (vec_of xs tx) val eps = Ok r).
Proof.
  intros H Hb Hdiv Hsq Hne. repeat split.
  - eexists; apply vec_zip_ok; auto.
  - eexists; apply vec_zip_ok; auto.
  - eexists; apply vec_neg_ok.
  - eexists; apply vec_scalar_add_ok.
  - eexists; apply vec_scalar_mult_ok.
  - eexists; apply vec_dot_ok; auto.
  - eexists; apply vec_sum_of_sqrs_ok.
  - rewrite vec_norm_ok. apply Hsq.
  - rewrite vec_dist_ok by auto. apply Hsq.
  - rewrite vec_to_unit_eq. destruct (Hsq (dot xs xs)) as [n ->]. cbn [bind].
    destruct (fne n f0); [|destruct xs; [congruence|eauto]].
    destruct (Hdiv f1 n) as [s ->]. cbn [bind]. eauto.
  - rewrite vec_ar_mean_ok by auto. destruct (Hdiv (total xs) (fofZ (Z.of_nat (length xs)))) as [s ->].
    cbn [bind]. eauto.
  - eexists; apply vec_rev_ok; auto.
  - eexists; apply vec_zte_ok.
  - eexists; apply vec_is_equal_ok; auto.
  - eexists; apply vec_is_nonneg_ok.
  - eexists; apply vec_contains_ok.
Qed.
