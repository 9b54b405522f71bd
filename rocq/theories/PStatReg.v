(** Regression: proofs over the real numbers. *)
From Coq Require Import List Arith ZArith Bool Lia Reals Lra Psatz.
From Verif Require Import Base BaseFacts SpecVec SpecReal SpecMtx SpecStat MVec PVec PVecR NumR
  PMtx PMtxOps PMtxR
  Libm LibmR MMtx MStat PStat.
Import ListNotations.
Local Open Scope R_scope.

Lemma rdot_snoc xs ys a b : length xs = length ys ->
  rdot (xs ++ [a]) (ys ++ [b]) = rdot xs ys + a * b.
Proof.
  revert ys; induction xs as [|x xs IH]; intros [|y ys] H; try discriminate; cbn; [lra|].
  rewrite IH by (injection H; auto). lra.
Qed.

Lemma rdot_shift xs ys c d : length xs = length ys ->
  rdot (map (fun x => x - c) xs) (map (fun y => y - d) ys)
  = rdot xs ys - c * rsum ys - d * rsum xs + INR (length xs) * c * d.
Proof.
  revert ys; induction xs as [|x xs IH]; intros [|y ys] H; try discriminate; [cbn; lra|].
  cbn [map rdot rsum length]. rewrite IH by (injection H; auto). rewrite S_INR. ring.
Qed.

Lemma dev_dot xs ys : length xs = length ys -> xs <> [] ->
  INR (length xs) * rdot xs ys - rsum xs * rsum ys = INR (length xs) * rdot (dev xs) (dev ys).
Proof.
  intros H Hx. unfold dev. rewrite rdot_shift by auto. unfold rmean. rewrite <- H.
  pose proof (INR_length_pos xs Hx). field. lra.
Qed.

Lemma line_error_expand a b xs ys : length xs = length ys ->
  line_error a b xs ys
  = rdot ys ys - 2 * a * rdot xs ys - 2 * b * rsum ys + a * a * rdot xs xs
    + 2 * a * b * rsum xs + INR (length xs) * b * b.
Proof.
  unfold line_error. revert ys; induction xs as [|x xs IH]; intros [|y ys] H; try discriminate;
    [cbn; lra|].
  cbn [map2 rdot rsum length]. rewrite IH by (injection H; auto). rewrite S_INR. ring.
Qed.

(** the x values are not all equal *)

Lemma spread_pos xs : spread xs -> xs <> [] /\ 0 < rdot (dev xs) (dev xs).
Proof.
  intros H. assert (Hx : xs <> []) by (intros ->; apply H; exists 0; constructor).
  split; auto. pose proof (rdot_self_nonneg (dev xs)) as [P|P]; auto.
  exfalso. apply H. symmetry in P. apply rdot_self_zero in P. exists (rmean xs).
  unfold dev in P. rewrite Forall_map in P. revert P. apply Forall_impl. intros; lra.
Qed.

Lemma least_squares xs ys s t : length xs = length ys -> spread xs ->
  rdot xs ys = s * rdot xs xs + t * rsum xs -> rsum ys = s * rsum xs + INR (length xs) * t ->
  forall a b, line_error s t xs ys <= line_error a b xs ys
    /\ (line_error a b xs ys = line_error s t xs ys -> a = s /\ b = t).
Proof.
  intros HL HS E1 E2 a b. destruct (spread_pos xs HS) as [Hx HD].
  pose proof (dev_dot xs xs eq_refl Hx) as ED. pose proof (INR_length_pos xs Hx) as Hn.
  rewrite !line_error_expand by auto. rewrite E1, E2.
  set (n := INR (length xs)) in *. set (sxx := rdot xs xs) in *. set (sx := rsum xs) in *.
  set (D := rdot (dev xs) (dev xs)) in *.
  assert (K : n * ((rdot ys ys - 2 * a * (s * sxx + t * sx) - 2 * b * (s * sx + n * t)
     + a * a * sxx + 2 * a * b * sx + n * b * b)
     - (rdot ys ys - 2 * s * (s * sxx + t * sx) - 2 * t * (s * sx + n * t)
     + s * s * sxx + 2 * s * t * sx + n * t * t))
     = (n * (b - t) + (a - s) * sx) * (n * (b - t) + (a - s) * sx)
       + (a - s) * (a - s) * (n * D)).
  { rewrite <- ED. ring. }
  set (L := rdot ys ys - 2 * a * _ - _ + _ + _ + _) in *.
  set (M := rdot ys ys - 2 * s * _ - _ + _ + _ + _) in *.
  set (u := n * (b - t) + (a - s) * sx) in *.
  clearbody L M. assert (Hu : 0 <= u * u) by apply Rle_0_sqr.
  assert (Ha : 0 <= (a - s) * (a - s)) by apply Rle_0_sqr.
  assert (HnD : 0 < n * D) by (apply Rmult_lt_0_compat; auto).
  pose proof (Rmult_le_pos _ _ Ha (Rlt_le _ _ HnD)) as HaD.
  split.
  - apply Rmult_le_reg_l with n; [lra|]. lra.
  - intros E. rewrite E in K. replace (n * (M - M)) with 0 in K by ring.
    assert (E3 : (a - s) * (a - s) = 0).
    { assert (E3 : (a - s) * (a - s) * (n * D) = 0) by lra.
      apply Rmult_integral in E3 as [E3|E3]; lra. }
    assert (a = s) by (apply Rmult_integral in E3; destruct E3; lra). subst a.
    split; auto. unfold u in K. assert (E4 : n * (b - t) * (n * (b - t)) = 0).
    { transitivity ((n * (b - t) + (s - s) * sx) * (n * (b - t) + (s - s) * sx)
                    + (s - s) * (s - s) * (n * D)); [ring|now symmetry]. }
    apply Rmult_integral in E4 as [E4|E4]; apply Rmult_integral in E4 as [E4|E4]; lra.
Qed.

Definition reg_slope (xs ys : list R) : R := rdot (dev xs) (dev ys) / rdot (dev xs) (dev xs).
Definition reg_icpt (xs ys : list R) : R := rmean ys - reg_slope xs ys * rmean xs.

Lemma reg_normal xs ys : length xs = length ys -> spread xs ->
  rdot xs ys = reg_slope xs ys * rdot xs xs + reg_icpt xs ys * rsum xs /\
  rsum ys = reg_slope xs ys * rsum xs + INR (length xs) * reg_icpt xs ys.
Proof.
  intros HL HS. destruct (spread_pos xs HS) as [Hx HD].
  pose proof (dev_dot xs ys HL Hx) as E1. pose proof (dev_dot xs xs eq_refl Hx) as E2.
  pose proof (INR_length_pos xs Hx) as Hn.
  unfold reg_icpt, reg_slope, rmean. rewrite <- HL.
  set (n := INR (length xs)) in *. set (sxx := rdot xs xs) in *. set (sx := rsum xs) in *.
  set (sxy := rdot xs ys) in *. set (sy := rsum ys) in *.
  set (D := rdot (dev xs) (dev xs)) in *. set (C := rdot (dev xs) (dev ys)) in *.
  split.
  - assert (ED : D = sxx - sx * sx / n) by (apply Rmult_eq_reg_l with n; [|lra]; rewrite <- E2; field; lra).
    assert (EC : C = sxy - sx * sy / n) by (apply Rmult_eq_reg_l with n; [|lra]; rewrite <- E1; field; lra).
    replace sxy with (C + sx * sy / n) by lra. replace sxx with (D + sx * sx / n) by lra.
    field. lra.
  - field. lra.
Qed.

Definition opt_corr (xs ys : list R) : outcome R :=
  let q := sqrt (INR (length xs) * rdot (dev xs) (dev xs) * (INR (length xs) * rdot (dev ys) (dev ys))) in
  Rdivo (INR (length xs) * rdot (dev xs) (dev ys)) q.

Lemma sums_loop xs ys tx ty n : length xs = n -> length ys = n ->
  for_ n 0 (fun i '(sx, sy, sxy, sxx, syy) =>
        let! a := rd (cells xs ++ tx) i in
        let! b := rd (cells ys ++ ty) i in
        Ok (fadd sx a, fadd sy b, fadd sxy (fmul a b), fadd sxx (fmul a a), fadd syy (fmul b b)))
    (f0, f0, f0, f0, f0)
  = Ok (rsum xs, rsum ys, rdot xs ys, rdot xs xs, rdot ys ys).
Proof.
  intros H1 H2.
  match goal with |- for_ _ _ ?b _ = _ => set (body := b) end.
  pose (G := fun i => let x := firstn i xs in let y := firstn i ys in
               (rsum x, rsum y, rdot x y, rdot x x, rdot y y)).
  change (f0, f0, f0, f0, f0) with (G 0%nat).
  rewrite for_fun.
  - unfold G. cbv zeta. cbn [plus]. rewrite !firstn_all2 by lia. reflexivity.
  - intros i Hi. unfold body, G. cbv zeta.
    rewrite !rd_cells_app with (d := 0) by lia. cbn [bind].
    rewrite (@firstn_snoc R xs i 0), (@firstn_snoc R ys i 0) by lia.
    rewrite !rsum_app, !rdot_snoc by (rewrite !firstn_length; lia). cbn [rsum].
    cbn [fadd fmul NumR]. do 2 f_equal. rewrite !Rplus_0_r. reflexivity.
Qed.

Lemma linear_reg_ok bc xs ys tx ty : length xs = length ys -> spread xs ->
  sta_linear_reg bc (vec_of xs tx) (vec_of ys ty)
  = Ok (0%Z, Some (reg_slope xs ys, reg_icpt xs ys, opt_corr xs ys)).
Proof.
  intros HL HS. destruct (spread_pos xs HS) as [Hx HD].
  unfold sta_linear_reg, vec_of; cbn [vsz vbuf]. rewrite HL, Nat.eqb_refl, andb_false_r.
  rewrite (sums_loop xs ys) by auto. cbn [bind].
  cbn [fofZ fmul fsub fdiv fsqrt NumR]. rewrite IZR_nat, <- HL.
  assert (Hy : ys <> []) by (intros ->; apply Hx; destruct xs; [auto|discriminate HL]).
  assert (Eyy : INR (length xs) * rdot ys ys - rsum ys * rsum ys
                = INR (length xs) * rdot (dev ys) (dev ys)) by (rewrite HL; now apply dev_dot).
  rewrite (dev_dot xs ys), (dev_dot xs xs), Eyy by auto.
  pose proof (INR_length_pos xs Hx) as Hn.
  rewrite Rdivo_ok by nra. cbn [bind].
  replace (INR (length xs) * rdot (dev xs) (dev ys) / (INR (length xs) * rdot (dev xs) (dev xs)))
    with (reg_slope xs ys) by (unfold reg_slope; field; lra).
  rewrite Rdivo_ok by lra. cbn [bind].
  replace ((rsum ys - reg_slope xs ys * rsum xs) / INR (length xs))
    with (reg_icpt xs ys) by (unfold reg_icpt, rmean; rewrite <- HL; field; lra).
  pose proof (rdot_self_nonneg (dev ys)).
  assert (0 <= INR (length xs) * rdot (dev ys) (dev ys)) by nra.
  rewrite Rsqrto_ok by (apply Rmult_le_pos; [apply Rmult_le_pos; lra|auto]). reflexivity.
Qed.

Lemma opt_corr_ok xs ys : length xs = length ys -> spread xs -> spread ys ->
  opt_corr xs ys = Ok (reg_corr xs ys).
Proof.
  intros HL H1 H2. destruct (spread_pos xs H1) as [Hx HA]. destruct (spread_pos ys H2) as [Hy HB].
  pose proof (INR_length_pos xs Hx) as Hn. unfold opt_corr, reg_corr.
  set (n := INR (length xs)) in *. set (A := rdot (dev xs) (dev xs)) in *.
  set (B := rdot (dev ys) (dev ys)) in *.
  assert (Eq : sqrt (n * A * (n * B)) = n * sqrt (A * B)).
  { replace (n * A * (n * B)) with (n * n * (A * B)) by ring.
    rewrite sqrt_mult by nra. rewrite sqrt_square by lra. reflexivity. }
  assert (0 < sqrt (A * B)) by (apply sqrt_lt_R0; nra).
  rewrite Eq, Rdivo_ok by nra. f_equal. field. lra.
Qed.

Lemma reg_corr_bounds xs ys : spread xs -> spread ys -> -1 <= reg_corr xs ys <= 1.
Proof.
  intros H1 H2. destruct (spread_pos xs H1) as [Hx HA]. destruct (spread_pos ys H2) as [Hy HB].
  unfold reg_corr. pose proof (cauchy_schwarz (dev xs) (dev ys)) as CS.
  set (A := rdot (dev xs) (dev xs)) in *. set (B := rdot (dev ys) (dev ys)) in *.
  set (C := rdot (dev xs) (dev ys)) in *.
  assert (Hq : 0 < sqrt (A * B)) by (apply sqrt_lt_R0; nra).
  assert (Hs : sqrt (A * B) * sqrt (A * B) = A * B) by (apply sqrt_sqrt; nra).
  set (q := sqrt (A * B)) in *.
  split; apply Rmult_le_reg_r with q; auto; unfold Rdiv; rewrite Rmult_assoc, Rinv_l by lra; nra.
Qed.

Lemma linear_reg_flat bc xs ys tx ty c : length xs = length ys ->
  Forall (fun x => x = c) xs ->
  sta_linear_reg bc (vec_of xs tx) (vec_of ys ty) = NotReal.
Proof.
  intros HL HF. unfold sta_linear_reg, vec_of; cbn [vsz vbuf].
  rewrite HL, Nat.eqb_refl, andb_false_r.
  rewrite (sums_loop xs ys) by auto. cbn [bind].
  cbn [fofZ fmul fsub fdiv fsqrt NumR]. rewrite IZR_nat, <- HL.
  replace (INR (length xs) * rdot xs xs - rsum xs * rsum xs) with 0; [now rewrite Rdivo_0|].
  assert (E1 : rsum xs = INR (length xs) * c).
  { clear HL. induction HF as [|x l -> HF IH]; [cbn; lra|].
    cbn [rsum length]. rewrite S_INR, IH. ring. }
  assert (E2 : rdot xs xs = INR (length xs) * (c * c)).
  { clear HL E1. induction HF as [|x l -> HF IH]; [cbn; lra|].
    cbn [rdot length]. rewrite S_INR, IH. ring. }
  rewrite E1, E2. ring.
Qed.

Lemma linear_reg_einval (v w : vec R) :
  vsz v <> vsz w -> sta_linear_reg true v w = Ok ((- EINVAL)%Z, None).
Proof.
  intros H. unfold sta_linear_reg. destruct (Nat.eqb_spec (vsz v) (vsz w)); [lia|]. reflexivity.
Qed.

(** ** zsl_sta_covar_mtx *)

Lemma covar_mtx_ok bc W r c (f : nat -> nat -> R) tl mc :
  (2 <= r)%nat -> (Z.of_nat r <= W)%Z -> room c c mc ->
  sta_covar_mtx bc W (mat_of r c f tl) mc
  = Ok (0%Z, mat_of c c (fun i j => covariance (col_of r f i) (col_of r f j)) (rest mc)).
Proof.
  intros Hr HW Hm. destruct (room_otab Hm) as (F & EF). unfold sta_covar_mtx.
  destruct Hm as (Hm1 & Hm2 & _). cbn [mrows mcols mat_of].
  rewrite Hm1, Hm2, Nat.eqb_refl. cbn [negb orb]. rewrite andb_false_r.
  fold (mat_of r c f tl).
  set (g := fun i j => covariance (col_of r f i) (col_of r f j)).
  match goal with |- context [for_ c 0 ?b _] => set (body := b) end.
  pose (V1 := fun k : nat => match k with
                             | O => fresh r
                             | S k' => cells (col_of r f (k' / c))
                             end : buf R).
  pose (V2 := fun k : nat => match k with
                             | O => fresh r
                             | S k' => cells (col_of r f (k' mod c))
                             end : buf R).
  assert (L1 : forall k, length (V1 k) = r)
    by (intros [|k]; cbn [V1]; [apply fresh_length|now rewrite cells_length, col_of_length]).
  assert (L2 : forall k, length (V2 k) = r)
    by (intros [|k]; cbn [V2]; [apply fresh_length|now rewrite cells_length, col_of_length]).
  pose (st := fun k : nat =>
    (match k with O => None | S k' => Some (g (k' / c)%nat (k' mod c)%nat) end,
     V1 k, V2 k, mbuf (otab c c (upto c k g F) (rest mc)))).
  assert (E : for_ c 0 body (None, fresh r, fresh r, mbuf mc) = Ok (st (c * c)%nat)).
  { replace (None, fresh r, fresh r, mbuf mc) with (st 0%nat)
      by (unfold st; rewrite upto_0, <- EF; reflexivity).
    unfold body. apply nested_for. intros i j Hi Hj. unfold st.
    rewrite mtx_get_col_ok by (auto; rewrite L1; lia). cbn [bind].
    rewrite mtx_get_col_ok by (auto; rewrite L2; lia). cbn [bind].
    rewrite (skipn_all2 (V1 _)) by (rewrite L1; lia).
    rewrite (skipn_all2 (V2 _)) by (rewrite L2; lia).
    pose proof (@covar_ok bc W (col_of r f i) (col_of r f j) [] []) as EC.
    unfold vec_of in EC. rewrite !col_of_length in EC.
    rewrite EC by auto. cbn [bind lval].
    rewrite wr_otab by auto. cbn [bind]. fold (g i j).
    rewrite upto_step by auto. unfold V1, V2.
    rewrite !app_nil_r, flat_div, flat_mod by auto. reflexivity. }
  unfold buf in *. rewrite E. cbn [bind]. unfold st at 1. rewrite upto_all. reflexivity.
Qed.

Lemma covar_mtx_einval W (m mc : mtx R) :
  mrows mc <> mcols mc \/ mcols mc <> mcols m ->
  sta_covar_mtx true W m mc = Ok ((- EINVAL)%Z, mc).
Proof.
  intros H. unfold sta_covar_mtx. cbn [andb].
  destruct (Nat.eqb_spec (mrows mc) (mcols mc)), (Nat.eqb_spec (mcols mc) (mcols m));
    cbn [negb orb]; try reflexivity; lia.
Qed.

(** ** Weighted least squares *)


Lemma bigsum_minus n g h : bigsum n (fun k => g k - h k) = bigsum n g - bigsum n h.
Proof. induction n; cbn; [lra|]. rewrite IHn. lra. Qed.

Lemma bigsum_nonneg n g : (forall k, (k < n)%nat -> 0 <= g k) -> 0 <= bigsum n g.
Proof.
  induction n; intros H; cbn; [lra|]. specialize (IHn (fun k Hk => H k (Nat.lt_lt_succ_r _ _ Hk))).
  pose proof (H n (Nat.lt_succ_diag_r n)). lra.
Qed.

Lemma normal_equations_minimise r k d x y b :
  (forall i, (i < r)%nat -> 0 <= d i) ->
  (forall a, (a < k)%nat ->
     bigsum r (fun i => x i a * (d i * (y i - bigsum k (fun j => x i j * b j)))) = 0) ->
  forall b', fit_error r k d x y b <= fit_error r k d x y b'.
Proof.
  intros Hd HN b'. unfold fit_error.
  set (e := fun i => y i - bigsum k (fun j => x i j * b j)).
  set (h := fun i => bigsum k (fun j => x i j * (b j - b' j))).
  assert (Eh : forall i, y i - bigsum k (fun j => x i j * b' j) = e i + h i).
  { intros i. unfold e, h.
    rewrite (bigsum_ext k (fun j => x i j * (b j - b' j)) (fun j => x i j * b j - x i j * b' j))
      by (intros; ring).
    rewrite bigsum_minus. ring. }
  rewrite (bigsum_ext r (fun i => d i * ((y i - bigsum k (fun j => x i j * b' j))
                            * (y i - bigsum k (fun j => x i j * b' j))))
             (fun i => d i * (e i * e i) + (2 * (d i * e i * h i) + d i * (h i * h i))))
    by (intros i Hi; rewrite Eh; ring).
  rewrite !bigsum_plus. rewrite <- (bigsum_mult_l r (fun i => d i * e i * h i) 2).
  assert (E0 : bigsum r (fun i => d i * e i * h i) = 0).
  { unfold h.
    rewrite (bigsum_ext r _ (fun i => bigsum k (fun j => (b j - b' j) * (x i j * (d i * e i))))).
    2: { intros i Hi. rewrite bigsum_mult_l. apply bigsum_ext. intros. ring. }
    rewrite bigsum_swap.
    rewrite (bigsum_ext k _ (fun _ => 0)); [apply bigsum_0|].
    intros j Hj. rewrite <- bigsum_mult_l. unfold e. rewrite HN by auto. ring. }
  rewrite E0.
  assert (0 <= bigsum r (fun i => d i * (h i * h i))).
  { apply bigsum_nonneg. intros i Hi. apply Rmult_le_pos; auto. apply Rle_0_sqr. }
  unfold e. lra.
Qed.

(** G is a right inverse of X^T D X, b = G X^T D y *)
Lemma inverse_solves r k d x y G b :
  (forall a c, (a < k)%nat -> (c < k)%nat ->
     mmul k (fun a c => bigsum r (fun i => x i a * d i * x i c)) G a c = mid a c) ->
  (forall j, (j < k)%nat ->
     b j = bigsum r (fun i => bigsum k (fun a => G j a * (x i a * d i)) * y i)) ->
  forall a, (a < k)%nat ->
     bigsum r (fun i => x i a * (d i * (y i - bigsum k (fun j => x i j * b j)))) = 0.
Proof.
  intros HG Hb a Ha.
  set (z := fun c => bigsum r (fun i => x i c * d i * y i)).
  assert (Eb : forall j, (j < k)%nat -> b j = bigsum k (fun c => G j c * z c)).
  { intros j Hj. rewrite Hb by auto. unfold z.
    rewrite (bigsum_ext r _ (fun i => bigsum k (fun c => G j c * (x i c * d i * y i)))).
    2: { intros i Hi. rewrite bigsum_mult_r. apply bigsum_ext. intros. ring. }
    rewrite bigsum_swap. apply bigsum_ext. intros c Hc. now rewrite bigsum_mult_l. }
  rewrite (bigsum_ext r _ (fun i => x i a * d i * y i
             - bigsum k (fun j => (x i a * d i * x i j) * b j))).
  2: { intros i Hi.
       rewrite (bigsum_ext k (fun j => x i a * d i * x i j * b j)
                  (fun j => (x i a * d i) * (x i j * b j))) by (intros; ring).
       rewrite <- bigsum_mult_l. ring. }
  rewrite bigsum_minus. fold (z a).
  rewrite bigsum_swap.
  rewrite (bigsum_ext k _ (fun j => bigsum k (fun c =>
             bigsum r (fun i => x i a * d i * x i j) * G j c * z c))).
  2: { intros j Hj. rewrite <- bigsum_mult_r. rewrite Eb by auto. rewrite bigsum_mult_l.
       apply bigsum_ext. intros. ring. }
  rewrite bigsum_swap.
  rewrite (bigsum_ext k _ (fun c => if (c =? a)%nat then z c else 0)).
  2: { intros c Hc. rewrite <- bigsum_mult_r.
       specialize (HG a c Ha Hc). unfold mmul in HG. rewrite HG.
       unfold mid. cbn [f1 f0 NumR]. rewrite (Nat.eqb_sym c a). destruct (a =? c)%nat; ring. }
  rewrite bigsum_delta by auto. ring.
Qed.

