(** C135: the interpolation, statistics and magnetometer calibration functions never touch memory outside
    their operands and never use an indeterminate value, whatever the numbers
    are (infinities and NaNs included). *)
From Coq Require Import List Arith ZArith Bool Lia Reals Lra Permutation.
From Coq Require PrimFloat FloatAxioms SpecFloat.
From Verif Require Import Base BaseFacts NumR NumF SpecVec SpecMtx SpecSafe Libm MVec MMtx MDecomp MInterp MStat MCal
  PVec PMtx PMtxOps PSafe PSafeMx PSafeQr PSafeStat PSafeCal PCalNaN PVecR PSort PropSafe.
Import ListNotations.
Set Implicit Arguments.
Local Open Scope nat_scope.

(** What the comparisons must satisfy: a <= b is a < b or a = b, and = is
    symmetric.  Nothing is asked of a number that compares with nothing. *)
Definition comparable T (N : Num T) : Prop :=
  (forall a b : T, fle a b = true -> flt a b = false -> feq a b = true) /\
  (forall a b : T, feq a b = feq b a).

(** Closeness to zero as zsl_sta_mode tests it is symmetric: when a - 0 lies
    strictly between -1E-5 and 1E-5 so does 0 - a. *)
Definition within T (N : Num T) (d eps : T) : bool := flt d eps && flt (fneg d) eps.
Definition symmetric_zero T (N : Num T) : Prop :=
  forall a : T, within N (fsub a f0) (flit 1 5) = true -> within N (fsub f0 a) (flit 1 5) = true.

Lemma comparable_R : comparable NumR.
Proof.
  split; intros a b; cbn.
  - unfold Rleb, Rltb, Reqb. destruct (Rle_dec a b), (Rlt_dec a b), (Req_EM_T a b); auto; lra.
  - unfold Reqb. destruct (Req_EM_T a b), (Req_EM_T b a); auto; congruence.
Qed.
Lemma symmetric_R : symmetric_zero NumR.
Proof.
  intros a. unfold within. cbn [flt fneg fsub f0 NumR]. generalize (flit (T := R) 1 5). intros e H.
  apply andb_true_iff in H. destruct H as (H1 & H2). unfold Rltb in *.
  destruct (Rlt_dec (a - 0) e); [|discriminate]. destruct (Rlt_dec (- (a - 0)) e); [|discriminate].
  destruct (Rlt_dec (0 - a) e); [|lra]. destruct (Rlt_dec (- (0 - a)) e); [reflexivity|lra].
Qed.

Lemma SFcompare_swap x y : SpecFloat.SFcompare y x = option_map CompOpp (SpecFloat.SFcompare x y).
Proof.
  destruct x as [[]|[]| |[] m e], y as [[]|[]| |[] m' e']; cbn; try reflexivity;
    rewrite (Z.compare_antisym e e'); destruct (Z.compare e e'); cbn; try reflexivity;
    rewrite (Pos.compare_cont_antisym m m' Eq); cbn; destruct (Pos.compare_cont Eq m m'); reflexivity.
Qed.
Lemma comparable_F : comparable NumF.
Proof.
  split; intros a b; cbn.
  - rewrite FloatAxioms.leb_spec, FloatAxioms.ltb_spec, FloatAxioms.eqb_spec.
    unfold SpecFloat.SFleb, SpecFloat.SFltb, SpecFloat.SFeqb.
    destruct (SpecFloat.SFcompare _ _) as [[]|]; auto; discriminate.
  - rewrite !FloatAxioms.eqb_spec. unfold SpecFloat.SFeqb. rewrite (SFcompare_swap (FloatOps.Prim2SF a)).
    destruct (SpecFloat.SFcompare _ _) as [[]|]; reflexivity.
Qed.
Lemma symmetric_F : symmetric_zero NumF.
Proof.
  intros a. unfold within. cbn [flt fneg fsub f0 NumF].
  rewrite !FloatAxioms.ltb_spec, !FloatAxioms.opp_spec, !FloatAxioms.sub_spec.
  replace (FloatOps.Prim2SF PrimFloat.zero) with (SpecFloat.S754_zero false) by reflexivity.
  generalize (FloatOps.Prim2SF (flit 1 5)). intros e.
  destruct (FloatOps.Prim2SF a) as [[]|[]| |[] m e1]; cbn;
    unfold SpecFloat.SFltb; destruct e as [[]|[]| |[] m2 e2]; cbn; auto;
    destruct (Z.compare e1 e2); cbn; auto; destruct (Pos.compare_cont Eq m m2); auto.
Qed.

Lemma vfilled_isv T n (v : vec T) : vec_filled n v -> isv n v.
Proof. intros (E & H). split; [exact E|now apply filled_isb]. Qed.
Lemma isv_vfilled T n (v : vec T) : isv n v -> vec_filled n v.
Proof. intros (E & H). split; [exact E|now apply isb_filled]. Qed.

Lemma rd_some T (b : buf T) i x : rd b i = Ok x -> nth_error b i = Some (Some x).
Proof. unfold rd. destruct (nth_error b i) as [[y|]|]; try discriminate. now intros [= ->]. Qed.

Local Lemma nth_firstn_lt A (l : list A) n i d : i < n -> nth i (firstn n l) d = nth i l d.
Proof. revert l i. induction n as [|n IH]; intros l i Hi; [lia|]. destruct l as [|x l], i as [|i]; cbn; auto. apply IH. lia. Qed.

(** a number with code 0; a number whenever the code is 0 *)
Definition answers T (r : Z * option T) : Prop := fst r = 0%Z /\ exists x, snd r = Some x.
Definition answers_if_0 T (r : Z * option T) : Prop := fst r = 0%Z -> exists x, snd r = Some x.

Section Interp.
Context {T : Type} {N : Num T}.
Hypothesis L : lawful N.
Hypothesis C : comparable N.

(** Tables need not be sorted, nor free of NaNs: the interval found always
    lies in the table, and the search ends. *)
Theorem C135_find fuel (xy : list (T * T)) x : (Z.of_nat (length xy) < 2 ^ 31)%Z -> length xy < fuel ->
  safe N (fun r => fst r = 0%Z -> (0 <= snd r /\ snd r + 1 < Z.of_nat (length xy))%Z) (interp_find_x fuel xy x).
Proof. intros Hn Hf. destruct C as (C1 & C2). apply wp_safe, (@wp_find_x T N False C1 C2 fuel xy x Hn Hf). Qed.

Theorem C135_nearest fuel (xy : list (T * T)) x : (Z.of_nat (length xy) < 2 ^ 31)%Z -> length xy < fuel ->
  safe N (fun _ => True) (interp_nn_arr fuel xy x).
Proof.
  intros Hn Hf. destruct C as (C1 & C2). apply wp_safe, (@wp_arr T N False C1 C2); auto. intros; apply wp_nn.
Qed.

Theorem C135_linear fuel (xy : list (T * T)) x : (Z.of_nat (length xy) < 2 ^ 31)%Z -> length xy < fuel ->
  safe N (fun _ => True) (interp_lin_y_arr fuel xy x).
Proof.
  intros Hn Hf. destruct C as (C1 & C2). apply wp_safe, (@wp_arr T N False C1 C2); auto. intros; now apply wp_lin_y.
Qed.

Theorem C135_pair (p q : T * T) x :
  safe N (fun _ => True) (interp_nn p q x) /\ safe N (fun _ => True) (interp_lin_y p q x) /\
  safe N (fun _ => True) (interp_lin_x p q x).
Proof. split; [|split]; apply wp_safe; [apply wp_nn|now apply wp_lin_y|now apply wp_lin_x]. Qed.

(** The second derivatives are all written when the code is 0, and then the
    spline may be evaluated anywhere. *)
Theorem C135_cubic_calc alloc (xs ys : list T) y2 yp1 ypn : length ys = length xs -> length xs <= length y2 ->
  safe N (fun r => length (snd r) = length y2 /\ (fst r = 0%Z -> filled (length xs) (snd r)))
    (interp_cubic_calc alloc xs ys y2 yp1 ypn).
Proof.
  intros Hy Hl. apply wp_safe. eapply wp_imp; [now apply wp_cubic_calc|]. intros r (H1 & H2). split; auto.
  intros E. now apply isb_filled, H2.
Qed.
Theorem C135_cubic fuel (xs ys : list T) y2 x : length ys = length xs -> filled (length xs) y2 -> length xs < fuel ->
  safe N (fun _ => True) (interp_cubic_arr fuel xs ys y2 x).
Proof. intros Hy H Hf. apply wp_safe, wp_cubic_arr; auto. now apply filled_isb. Qed.
End Interp.

Section Stat.
Context {T : Type} {N : Num T} {M : NumM T}.
Variable bc : bool.
Variable W : Z.
Hypothesis L : lawful N.
Implicit Types v w x y b : vec T.

Ltac go lem := apply wp_safe; eapply wp_imp; [eapply lem; eauto using filled_ism, vfilled_isv|].

Theorem C135_mean n v : 1 <= n -> vec_filled n v -> safe N (@answers T) (sta_mean v).
Proof. intros Hn H. go wp_sta_mean. auto. Qed.

Theorem C135_weighted_mean n v w : vec_filled n v -> vec_filled n w -> safe N (@answers_if_0 T) (sta_weighted_mean bc v w).
Proof. intros Hv Hw. go wp_weighted_mean. auto. Qed.

Theorem C135_demean n v w : 1 <= n -> vec_filled n v -> vsz w = n -> n <= length (vbuf w) ->
  safe N (code_0 (fun u => vec_filled n u /\ length (vbuf u) = length (vbuf w))) (sta_demean bc v w).
Proof. intros Hn Hv Hs Hl. go wp_demean. intros (rc & u) (E & H & Hu). split; [exact E|]. split; eauto using isv_vfilled. Qed.

(** zsl_sta_mode: at most as many modes as elements *)
Theorem C135_mode n v w : symmetric_zero N -> vec_filled n v -> vsz w = n -> n <= length (vbuf w) ->
  safe N (code_0 (fun u => vsz u <= n /\ filled n (vbuf u))) (sta_mode bc v w).
Proof.
  intros Hz Hv Hs Hl. go wp_mode. intros (rc & u) (E & H1 & _ & H2). split; [exact E|]. split; auto. now apply isb_filled.
Qed.

Theorem C135_spread n v : 1 <= n -> vec_filled n v ->
  safe N (@answers T) (sta_mean_abs_dev bc v) /\ safe N (@answers T) (sta_var bc W v) /\
  safe N (@answers T) (sta_std_dev bc W v) /\ safe N (@answers T) (sta_sta_err bc W v).
Proof.
  intros Hn Hv. apply vfilled_isv in Hv. split; [|split; [|split]]; apply wp_safe.
  - now apply wp_mean_abs_dev with (n := n).
  - now apply wp_var with (n := n).
  - now apply wp_std_dev with (n := n).
  - now apply wp_sta_err with (n := n).
Qed.

Theorem C135_covar n v w : 1 <= n -> vec_filled n v -> vec_filled n w -> safe N (@answers T) (sta_covar bc W v w).
Proof. intros Hn Hv Hw. go wp_covar. auto. Qed.

Theorem C135_covar_mtx n k (m mc : mtx T) : 1 <= n -> mtx_filled n k m -> room k k mc ->
  safe N (code_0 (mtx_filled k k)) (sta_covar_mtx bc W m mc).
Proof.
  intros Hn Hm Hc. go wp_covar_mtx. intros (rc & x) (E & H1 & H2 & H3). split; [exact E|]. repeat split; auto.
  now apply isb_filled.
Qed.

(** The correlation coefficient of a regression is a separate computation in
    the model; it is safe too. *)
Theorem C135_linear_reg n x y : vec_filled n x -> vec_filled n y ->
  safe N (fun r => fst r = 0%Z -> exists s i c, snd r = Some (s, i, c) /\ safe N (fun _ => True) c) (sta_linear_reg bc x y).
Proof.
  intros Hx Hy. go wp_linear_reg. intros r H E. destruct (H E) as (s & i & c & E1 & E2). eauto 6 using wp_safe.
Qed.

Theorem C135_mult_reg r c (x : mtx T) y b : 1 <= r -> mtx_filled r c x -> vec_filled r y ->
  vsz b = c + 1 -> c + 1 <= length (vbuf b) ->
  safe N (fun s => fst s = 0%Z -> vec_filled (c + 1) (fst (snd s)) /\
            exists q, snd (snd s) = Some q /\ safe N (fun _ => True) q) (sta_mult_linear_reg bc x y b).
Proof.
  intros Hr Hx Hy Hb Hl. go wp_mult_reg. intros s (_ & H) E. destruct (H E) as (H1 & q & E1 & E2).
  split; eauto using wp_safe, isv_vfilled.
Qed.

Theorem C135_weighted_mult_reg r c (x : mtx T) y w b : 1 <= r -> mtx_filled r c x -> vec_filled r y -> vec_filled r w ->
  vsz b = c + 1 -> c + 1 <= length (vbuf b) ->
  safe N (fun s => fst s = 0%Z -> vec_filled (c + 1) (snd (fst (snd s))) /\
            exists q, snd (snd s) = Some q /\ safe N (fun _ => True) q) (sta_weighted_mult_linear_reg bc x y w b).
Proof.
  intros Hr Hx Hy Hw Hb Hl. go wp_wmult_reg. intros s (_ & _ & H) E. destruct (H E) as (H1 & q & E1 & E2).
  split; eauto using wp_safe, isv_vfilled.
Qed.

Theorem C135_quad_fit r (m : mtx T) b : mtx_filled r 3 m -> vsz b = 9 -> 9 <= length (vbuf b) ->
  safe N (code_0 (vec_filled 9)) (sta_quad_fit bc m b).
Proof. intros Hm Hb Hl. go wp_quad_fit. intros (rc & u) (E & H). split; [exact E|]. now apply isv_vfilled. Qed.
End Stat.

Section Cal.
Context {T : Type} {N : Num T}.
Variable bc : bool.
Hypothesis L : lawful N.

(** Least-squares calibration: any readings, degenerate ones included, when
    bounds checks are off or every number equals itself *)
Theorem C135_fast_calibration r (m : mtx T) me K b : (bc = true -> forall a : T, feq a a = true) ->
  mtx_filled r 3 m -> room 3 3 K -> vsz b = 3 -> 3 <= length (vbuf b) ->
  safe N (fun x => fst x = 0%Z -> mtx_filled 3 3 (fst (snd x)) /\ vec_filled 3 (snd (snd x))) (cal_magn_fast bc m me K b).
Proof.
  intros Hr Hm HK Hb Hl. apply wp_safe. eapply wp_imp; [eapply wp_magn_fast; eauto using filled_ism|].
  intros x H E. destruct (H E). split; eauto using ism_filled, isv_vfilled.
Qed.

(** Iterative calibration: any readings whose columns the library can sort *)
Theorem C135_iterative_calibration fuel ghost n (m : mtx T) l mu K b : 1 <= n ->
  mtx_filled n 3 m -> room 3 3 K -> vsz b = 3 -> 3 <= length (vbuf b) ->
  (forall j v w, j < 3 -> vec_filled n v -> (forall i, i < n -> nth_error (vbuf v) i = nth_error (mbuf m) (i * 3 + j)) ->
     vsz w = n -> length (vbuf w) = n ->
     safe N (code_0 (fun u => vec_filled n u /\ length (vbuf u) = n)) (vec_sort fuel ghost v w)) ->
  safe N (fun x => fst x = 0%Z -> mtx_filled 3 3 (snd (fst (snd x))) /\ vec_filled 3 (snd (snd x)))
    (cal_magn bc fuel ghost m l mu K b).
Proof.
  intros Hn Hm HK Hb Hl Hs. apply wp_safe.
  eapply wp_imp; [eapply wp_cal_magn; eauto using filled_ism|].
  - destruct (filled_ism N Hm) as (f & Ef). generalize dependent (skipn (n * 3) (mbuf m)). intros tl Ef. subst m.
    apply wp_magn_start; auto.
    intros j v w Hj Ev Sv Sw Lw.
    assert (Hv : vec_filled n v).
    { split; [exact Sv|]. intros i Hi. rewrite Ev. unfold cells, col_of. rewrite !nth_error_map, (nth_error_nth' _ 0).
      - eexists; reflexivity.
      - now rewrite seq_length. }
    destruct (Hs j v w Hj Hv) as (H1 & H2 & H3 & H4); auto.
    { intros i Hi. rewrite Ev.
      rewrite (rd_some _ _ (@rd_mat T n 3 f tl i j Hi Hj)). unfold cells, col_of. rewrite !nth_error_map, (nth_error_nth' _ 0) by (now rewrite seq_length).
      now rewrite seq_nth. }
    split.
    + destruct (vec_sort fuel ghost v w) as [x|u| |] eqn:E; cbn.
      * destruct (H3 _ eq_refl) as (E0 & Hx & _). split; [exact E0|]. now apply vfilled_isv.
      * now apply (H1 u).
      * intros t. destruct (H4 t) as (r & Er). discriminate Er.
      * now apply H2.
    + intros x E. now destruct (H3 _ E) as (_ & _ & Hx).
  - intros x H E. destruct (H E) as (H1 & H2 & H3 & H4). split; [|now apply isv_vfilled].
    repeat split; auto. now apply isb_filled.
Qed.
End Cal.

(** Doubles, with no condition on the numbers *)
Theorem C135_doubles_linear fuel (xy : list (PrimFloat.float * PrimFloat.float)) x :
  (Z.of_nat (length xy) < 2 ^ 31)%Z -> length xy < fuel ->
  exists r, interp_lin_y_arr (N := NumF) fuel xy x = Ok r.
Proof. intros Hn Hf. apply (C135_linear lawful_F comparable_F xy x Hn Hf), total_F. Qed.

Theorem C135_doubles_mode bc n (v w : vec PrimFloat.float) : vec_filled n v -> vsz w = n -> n <= length (vbuf w) ->
  exists u, sta_mode (N := NumF) bc v w = Ok (0%Z, u) /\ vsz u <= n /\ filled n (vbuf u).
Proof.
  intros Hv Hs Hl. destruct (@C135_mode _ NumF bc n v w symmetric_F Hv Hs Hl) as (_ & _ & HP & HE).
  destruct (HE total_F) as ((rc & u) & E). destruct (HP _ E) as (E1 & E2). cbn in E1, E2. subst rc. eauto.
Qed.

Theorem C135_doubles_quad_fit bc r (m : mtx PrimFloat.float) b : mtx_filled r 3 m -> vsz b = 9 -> 9 <= length (vbuf b) ->
  exists u, sta_quad_fit (N := NumF) bc m b = Ok (0%Z, u) /\ vec_filled 9 u.
Proof.
  intros Hm Hb Hl. destruct (@C135_quad_fit _ NumF bc lawful_F r m b Hm Hb Hl) as (_ & _ & HP & HE).
  destruct (HE total_F) as ((rc & u) & E). destruct (HP _ E) as (E1 & E2). cbn in E1, E2. subst rc. eauto.
Qed.

(** Without bounds checks the least-squares calibration returns on any
    doubles. *)
Theorem C135_doubles_fast_calibration r (m K : mtx PrimFloat.float) me b :
  mtx_filled r 3 m -> room 3 3 K -> vsz b = 3 -> 3 <= length (vbuf b) ->
  exists x, cal_magn_fast (N := NumF) false m me K b = Ok x.
Proof.
  intros Hm HK Hb Hl.
  destruct (@C135_fast_calibration _ NumF false lawful_F r m me K b) as (_ & _ & _ & HE); auto; [discriminate|].
  apply HE, total_F.
Qed.

(** Exact arithmetic: the least-squares calibration never fails on memory;
    neither does the iterative one when two readings of an axis, or a reading
    and 0, are equal or 1E-5 apart. *)
Theorem C135_exact_fast_calibration bc r (m : mtx R) me K b :
  mtx_filled r 3 m -> room 3 3 K -> vsz b = 3 -> 3 <= length (vbuf b) ->
  never_ub (cal_magn_fast bc m me K b).
Proof.
  intros Hm HK Hb Hl. apply (@C135_fast_calibration _ NumR bc lawful_R r m me K b); auto.
  intros _ a. cbn. unfold Reqb. destruct (Req_EM_T a a); congruence.
Qed.

Theorem C135_exact_iterative_calibration bc fuel (g : R) n (p : nat -> nat -> R) tl l mu K b : 1 <= n -> 2 * n <= fuel ->
  (forall j, j < 3 -> separated (col_of n p j)) -> room 3 3 K -> vsz b = 3 -> 3 <= length (vbuf b) ->
  never_ub (cal_magn bc fuel (Some g) (mat_of n 3 p tl) l mu K b).
Proof.
  intros Hn Hf Hsep HK Hb Hl.
  apply (@C135_iterative_calibration _ NumR bc lawful_R fuel (Some g) n (mat_of n 3 p tl) l mu K b); auto.
  { eapply ism_filled, ism_mat. }
  intros j v w Hj (Sv & Fv) Hcol Sw Lw.
  assert (Ev : exists tv, v = vec_of (col_of n p j) tv).
  { assert (Lc : length (col_of n p j) = n) by (unfold col_of; now rewrite map_length, seq_length).
    exists (skipn n (vbuf v)). destruct v as [s b']. cbn in *. subst s. unfold vec_of. rewrite Lc. f_equal.
    rewrite <- (firstn_skipn n b') at 1. f_equal.
    assert (Lb : n <= length b').
    { destruct n as [|k]; [lia|]. destruct (Fv k ltac:(lia)) as (x & E). 
      assert (k < length b') by (apply nth_error_Some; rewrite E; discriminate). lia. }
    apply (nth_ext _ _ None None).
    { unfold cells. rewrite firstn_length, map_length, Lc. lia. }
    intros i Hi. rewrite firstn_length in Hi. rewrite nth_firstn_lt by lia.
    assert (Hin : i < n) by lia.
    pose proof (Hcol i Hin) as E. pose proof (rd_some _ _ (@rd_mat R n 3 p tl i j Hin Hj)) as E2.
    etransitivity; [apply nth_error_nth; rewrite E; exact E2|].
    unfold cells. symmetry. apply nth_error_nth. rewrite nth_error_map. unfold col_of.
    rewrite nth_error_map, (nth_error_nth' _ 0) by (rewrite seq_length; lia). now rewrite seq_nth by lia. }
  destruct Ev as (tv & ->). destruct w as [s wb]. cbn in Sw, Lw. subst s.
  assert (Lc : length (col_of n p j) = n) by (unfold col_of; now rewrite map_length, seq_length).
  destruct (@vec_sort_ok g (col_of n p j) tv n wb fuel) as (ys & E & HP & _); auto; try lia.
  { intros E0. rewrite E0 in Lc. cbn in Lc. lia. }
  rewrite E. pose proof (Permutation_length HP) as Ly.
  repeat split; try discriminate; eauto.
  - injection H as <-. reflexivity.
  - injection H as <-. reflexivity.
  - injection H as <-. cbn. intros i Hi. unfold cells. rewrite nth_error_app1 by (rewrite map_length; lia).
    rewrite nth_error_map, (nth_error_nth' _ 0%R) by lia. eexists; reflexivity.
  - injection H as <-. cbn. unfold cells. rewrite app_length, map_length, skipn_length. lia.
Qed.

(** Non-vacuity: an unsorted table with infinities and NaNs, a vector of them
    in memory longer than needed, and real data *)
Definition wild : list (PrimFloat.float * PrimFloat.float) :=
  [(PrimFloat.infinity, PrimFloat.zero); (PrimFloat.nan, PrimFloat.one); (PrimFloat.one, PrimFloat.nan);
   (PrimFloat.zero, PrimFloat.infinity); (PrimFloat.infinity, PrimFloat.one)].
Example C135_linear_ex : exists r, interp_lin_y_arr (N := NumF) 6 wild PrimFloat.one = Ok r.
Proof. apply C135_doubles_linear; cbn; lia. Qed.
Definition wildv : vec PrimFloat.float :=
  vec_of [PrimFloat.nan; PrimFloat.infinity; PrimFloat.zero; PrimFloat.zero; PrimFloat.neg_infinity] [None; None].
Lemma wildv_filled : vec_filled 5 wildv.
Proof.
  split; [reflexivity|]. intros i Hi. unfold wildv. cbn. do 5 (destruct i as [|i]; [eexists; reflexivity|]). lia.
Qed.
Example C135_mode_ex : exists u, sta_mode (N := NumF) true wildv (vec_def 5) = Ok (0%Z, u) /\ vsz u <= 5 /\ filled 5 (vbuf u).
Proof. apply C135_doubles_mode; [apply wildv_filled|reflexivity|cbn; lia]. Qed.
Example C135_spread_ex :
  safe NumF (@answers _) (sta_mean_abs_dev true wildv) /\ safe NumF (@answers _) (sta_var true (2 ^ 32) wildv) /\
  safe NumF (@answers _) (sta_std_dev true (2 ^ 32) wildv) /\ safe NumF (@answers _) (sta_sta_err true (2 ^ 32) wildv).
Proof. apply C135_spread with (n := 5); [apply lawful_F|lia|apply wildv_filled]. Qed.
Example C135_covar_ex : safe NumR (code_0 (mtx_filled 3 3))
  (sta_covar_mtx true (2 ^ 32) (mat_of 4 3 (fun i j => INR (i * i + j)) []) (mtx_def 3 3)).
Proof. apply C135_covar_mtx with (n := 4); [apply lawful_R|lia|eapply ism_filled, ism_mat|apply room_def]. Qed.
Example C135_quad_fit_ex : exists u,
  sta_quad_fit (N := NumF) true (mat_of 12 3 (fun i j => if i =? j then PrimFloat.nan else PrimFloat.one) []) (vec_def 9)
    = Ok (0%Z, u) /\ vec_filled 9 u.
Proof. apply C135_doubles_quad_fit with (r := 12); [eapply ism_filled, ism_mat|reflexivity|cbn; lia]. Qed.

Example C135_fast_calibration_ex : exists x,
  cal_magn_fast (N := NumF) false (mat_of 7 3 (fun i j => if i =? j then PrimFloat.nan else PrimFloat.one) []) None
    (mtx_def 3 3) (vec_def 3) = Ok x.
Proof. apply C135_doubles_fast_calibration with (r := 7); [eapply ism_filled, ism_mat|apply room_def|reflexivity|cbn; lia]. Qed.
Example C135_iterative_calibration_ex :
  never_ub (cal_magn true 8 (Some 0%R) (mat_of 4 3 (fun i j => INR (i + j)) []) 1%R 2%R (mtx_def 3 3) (vec_def 3)).
Proof.
  apply C135_exact_iterative_calibration; try lia; [|apply room_def|reflexivity|cbn; lia].
  intros j Hj x y Hx Hy. 
  assert (A : forall z, 0%R = z \/ In z (col_of 4 (fun i j => INR (i + j)) j) -> exists k, z = INR k).
  { intros z [<-|Hz]; [exists 0; reflexivity|]. unfold col_of in Hz. apply in_map_iff in Hz. destruct Hz as (k & <- & _). eauto. }
  destruct (A x Hx) as (k1 & ->), (A y Hy) as (k2 & ->). unfold apart.
  destruct (Nat.eq_dec k1 k2) as [->|Ne]; [now left|]. right.
  assert (H1 : (1 <= Rabs (INR k1 - INR k2))%R).
  { destruct (Nat.lt_total k1 k2) as [H|[H|H]]; [|lia|].
    - assert (INR (k1 + 1) <= INR k2)%R by (apply le_INR; lia). rewrite plus_INR in H0. cbn in H0.
      rewrite Rabs_left1; lra.
    - assert (INR (k2 + 1) <= INR k1)%R by (apply le_INR; lia). rewrite plus_INR in H0. cbn in H0.
      rewrite Rabs_right; lra. }
  lra.
Qed.

(** With bounds checks the least-squares calibration goes wrong on every set of
    readings with a component that is not a number: the factorisation refuses
    the matrix of the fit, and a factor that was never written is used. *)
Theorem C135_fast_calibration_nan_refuted r (p : nat -> nat -> PrimFloat.float) tl me K b i c :
  room 3 3 K -> vsz b = 3 -> (forall x, me = Some x -> PrimFloat.ltb x PrimFloat.zero = false) ->
  i < r -> c < 3 -> PrimFloat.is_nan (p i c) = true ->
  cal_magn_fast true (mat_of r 3 p tl) me K b = UB Uninit.
Proof.
  intros HK Hb Hme Hi Hc Hn.
  apply (@cal_magn_fast_nan _ NumF lawful_F total_F (fun a => FloatOps.Prim2SF a = SpecFloat.S754_nan)) with (i := i) (c := c); auto.
  - intros x y H. cbn. rewrite FloatAxioms.add_spec. destruct H as [E|E]; rewrite E; [reflexivity|].
    now destruct (FloatOps.Prim2SF x) as [| | |].
  - intros x y H. cbn. rewrite FloatAxioms.mul_spec. destruct H as [E|E]; rewrite E; [reflexivity|].
    now destruct (FloatOps.Prim2SF x) as [| | |].
  - intros x y E. cbn. rewrite FloatAxioms.eqb_spec, E. reflexivity.
  - destruct me as [x|]; [now apply Hme|reflexivity].
  - unfold PrimFloat.is_nan in Hn. rewrite FloatAxioms.eqb_spec in Hn. unfold SpecFloat.SFeqb in Hn.
    destruct (FloatOps.Prim2SF (p i c)) as [[]|[]| |[] m e]; cbn in Hn; try discriminate Hn; try reflexivity;
      rewrite Z.compare_refl, Pos.compare_cont_refl in Hn; discriminate Hn.
Qed.
Example C135_fast_calibration_nan_ex :
  cal_magn_fast true (mat_of 20 3 (fun i j => if (i =? 7) && (j =? 1) then PrimFloat.nan else fofZ (Z.of_nat (i * i + j))) []) None
    (mtx_def 3 3) (vec_def 3) = UB Uninit.
Proof. apply C135_fast_calibration_nan_refuted with (i := 7) (c := 1); try lia; try reflexivity; [apply room_def|discriminate]. Qed.

(** The same is false of sorting, and so of the statistics of order: a vector
    of NaNs has no distinct values to sort, and quicksort is called with a
    last index of SIZE_MAX. *)
Theorem C135_sort_refuted :
  ~ (forall fuel ghost n (v w : vec PrimFloat.float), n < fuel -> 1 <= n -> vec_filled n v -> vsz w = n -> n <= length (vbuf w) ->
     never_ub (vec_sort fuel ghost v w)).
Proof.
  intros H. apply (H 2 None 1 (vec_of [PrimFloat.nan] []) (vec_def 1)) with (u := OOBRead); try reflexivity; try (cbn; lia).
  split; [reflexivity|]. intros i Hi. replace i with 0 by lia. eexists; reflexivity.
Qed.
Theorem C135_data_range_refuted :
  ~ (forall W fuel ghost n (v : vec PrimFloat.float), n < fuel -> 1 <= n -> vec_filled n v ->
     never_ub (sta_data_range W fuel ghost v)).
Proof.
  intros H. apply (H (2 ^ 32)%Z 2 None 1 (vec_of [PrimFloat.nan] [])) with (u := OOBRead); try reflexivity; try (cbn; lia).
  split; [reflexivity|]. intros i Hi. replace i with 0 by lia. eexists; reflexivity.
Qed.

Print Assumptions C135_find.
Print Assumptions C135_linear.
Print Assumptions C135_cubic.
Print Assumptions C135_mode.
Print Assumptions C135_mult_reg.
Print Assumptions C135_doubles_mode.
Print Assumptions C135_doubles_quad_fit.
Print Assumptions C135_exact_iterative_calibration.
Print Assumptions C135_fast_calibration_nan_refuted.
Print Assumptions C135_sort_refuted.
