(** Safety of the interpolation and statistics functions in any arithmetic:
    weakest preconditions. *)
From Coq Require Import List Arith ZArith Bool Lia.
From Verif Require Import Base BaseFacts Libm Out SpecVec SpecMtx SpecSafe MVec MMtx MDecomp MStat MInterp
  PVec PMtx PMtxOps PSafe PSafeMx PSafeQr.
Import ListNotations.
Set Implicit Arguments.
Local Open Scope num_scope.

Section Interp.
Context {T : Type} {N : Num T}.
Variable OF : Prop.
Hypothesis L : lawful N.
Notation NR := (~ total N).
Notation "'WP' P m" := (wp NR OF P m) (at level 10, P at level 9, m at level 9).
Notation any := (fun _ => True).
(** a <= b without a < b is equality *)
Hypothesis Hle : forall a b : T, fle a b = true -> flt a b = false -> feq a b = true.
Hypothesis Hsym : forall a b : T, feq a b = feq b a.

Lemma wp_point A (xy : list A) i : (0 <= i < Z.of_nat (length xy))%Z ->
  WP (fun p => nth_error xy (Z.to_nat i) = Some p) (point xy i).
Proof.
  intros Hi. unfold point. destruct (Z.ltb_spec i 0); [lia|].
  destruct (nth_error xy (Z.to_nat i)) eqn:E; [reflexivity|]. apply nth_error_None in E. lia.
Qed.

(** the search stays inside the table, whether it is sorted or not *)
Lemma wp_find_x fuel (xy : list (T * T)) x :
  (Z.of_nat (length xy) < 2147483648)%Z -> length xy < fuel ->
  WP (fun r => fst r = 0%Z -> (0 <= snd r /\ snd r + 1 < Z.of_nat (length xy))%Z) (interp_find_x fuel xy x).
Proof.
  intros Hn Hf. unfold interp_find_x, UINT. set (n := Z.of_nat (length xy)) in *.
  destruct (Z.ltb_spec n 2) as [H2|H2]; [intros E; discriminate E|].
  eapply wp_bind; [apply wp_point; fold n; lia|]. intros (xn & yn) En.
  eapply wp_bind; [apply wp_point; fold n; lia|]. intros (x0 & y0) E0.
  set (order := xn >=? x0).
  destruct (((x >? xn) && order) || ((x <? xn) && negb order)) eqn:G1.
  { intros E. discriminate E. }
  destruct (((x <? x0) && order) || ((x >? x0) && negb order)) eqn:G2; [intros E; discriminate E|].
  rewrite Z.mod_small by lia.
  (* the loop *)
  assert (Lp : forall f lo up, (0 <= lo < up)%Z -> (up <= n)%Z -> (up - lo <= Z.of_nat f)%Z ->
    (lo = (n - 1)%Z -> (x >=? xn) && order || (x <=? xn) && negb order = true) ->
    WP (fun lower => (0 <= lower < n)%Z /\ (lower = (n - 1)%Z -> (x >=? xn) && order || (x <=? xn) && negb order = true))
      (while_ f (fun '(lower, upper) =>
          if ((upper - lower) mod 4294967296 >? 1)%Z then
            let mid := Z.shiftr ((upper + lower) mod 4294967296) 1 in
            let! (xm, _) := point xy mid in
            if ((x >=? xm) && order) || ((x <=? xm) && negb order)
            then Ok (inl (mid, upper)) else Ok (inl (lower, mid))
          else Ok (inr lower)) (lo, up))).
  { induction f as [|f IH]; intros lo up Hlo Hup Hfu Hl; [lia|].
    cbn [while_]. rewrite (Z.mod_small (up - lo)), (Z.mod_small (up + lo)) by lia.
    destruct (Z.gtb_spec (up - lo) 1) as [G|G].
    2:{ cbn. split; [lia|exact Hl]. }
    rewrite Z.shiftr_div_pow2 by lia. change (2 ^ 1)%Z with 2%Z.
    set (mid := ((up + lo) / 2)%Z).
    assert (lo < mid < up)%Z.
    { unfold mid. pose proof (Z.div_mod (up + lo) 2) as D. pose proof (Z.mod_pos_bound (up + lo) 2). lia. }
    cbv zeta. destruct (point xy mid) as [(xm & ym)| | |] eqn:Em;
      try (pose proof (@wp_point (T * T) xy mid ltac:(fold n; lia)) as W; rewrite Em in W; now cbn in W).
    assert (Ep : nth_error xy (Z.to_nat mid) = Some (xm, ym)).
    { pose proof (@wp_point (T * T) xy mid ltac:(fold n; lia)) as W. now rewrite Em in W. }
    cbn [bind]. destruct ((x >=? xm) && order || (x <=? xm) && negb order) eqn:C.
    - cbn [bind]. apply IH; try lia. intros E. replace (Z.to_nat (n - 1)) with (Z.to_nat mid) in En by lia.
      rewrite Ep in En. injection En as <- _. exact C.
    - cbn [bind]. apply IH; lia. }
  eapply wp_bind; [apply Lp; lia|].
  intros lower (Hlow & Hlast).
  destruct (x =? x0) eqn:A0; [cbn; lia|]. destruct (x =? xn) eqn:An; [cbn; lia|].
  cbn. intros _. split; [lia|].
  destruct (Z.eq_dec lower (n - 1)) as [E|E]; [|lia]. exfalso. specialize (Hlast E).
  destruct order; cbn [andb negb orb] in *; rewrite ?andb_true_r, ?andb_false_r, ?orb_false_r in *.
  - pose proof (Hle xn x Hlast G1) as Q. rewrite Hsym in Q. congruence.
  - pose proof (Hle x xn Hlast G1) as Q. congruence.
Qed.

Definition outs (r : Z * out T) : Prop := True.

Lemma wp_nn p q x : WP any (interp_nn p q x).
Proof. destruct p, q. unfold interp_nn. destruct (no_delta _ _); [exact I|]. destruct (_ || _); exact I. Qed.
Lemma wp_lin_y p q x : WP any (interp_lin_y p q x).
Proof.
  destruct p, q. unfold interp_lin_y. destruct (no_delta _ _); [exact I|]. destruct (_ || _); [exact I|].
  eapply wp_bind; [apply wp_div; exact L|]. intros; exact I.
Qed.
Lemma wp_lin_x p q y : WP any (interp_lin_x p q y).
Proof.
  destruct p, q. unfold interp_lin_x. destruct (no_delta _ _); [exact I|]. destruct (_ || _); [exact I|].
  eapply wp_bind; [apply wp_div; exact L|]. intros; exact I.
Qed.

Lemma wp_arr f fuel xy x : (forall p q x, WP any (f p q x)) ->
  (Z.of_nat (length xy) < 2147483648)%Z -> length xy < fuel -> WP any (interp_arr f fuel xy x).
Proof.
  intros Hfun Hn Hf. unfold interp_arr. eapply wp_bind; [apply wp_find_x; auto|].
  intros (rc & idx) H. cbn [fst snd] in H. destruct (Z.eqb_spec rc 0) as [->|]; [|exact I].
  cbn [negb]. specialize (H eq_refl).
  eapply wp_bind; [apply wp_point; lia|]. intros p _.
  eapply wp_bind; [apply wp_point; lia|]. intros q _.
  eapply wp_bind; [apply Hfun|]. intros (rc & y) _. destruct (negb _); exact I.
Qed.

Lemma isb_cells (xs : list T) : isb (length xs) (cells xs).
Proof. exists xs, []. split; [reflexivity|]. now rewrite app_nil_r. Qed.

Ltac rdw H x := eapply wp_bind; [eapply wp_rd; [exact H|lia]|intros x _].
Ltac wd x := eapply wp_bind; [apply wp_div; exact L|intros x _].

Lemma wp_cubic_calc alloc (xs ys : list T) y2 yp1 ypn : length ys = length xs -> length xs <= length y2 ->
  WP (fun r => length (snd r) = length y2 /\ (fst r = 0%Z -> isb (length xs) (snd r))) (interp_cubic_calc alloc xs ys y2 yp1 ypn).
Proof.
  intros Hy Hl. unfold interp_cubic_calc.
  destruct (Nat.ltb_spec (length xs) 3) as [H3|H3]; [cbn; now split|].
  destruct alloc; cbn [negb]; [|cbn; now split].
  pose proof (isb_cells xs) as BX. pose proof (isb_cells ys) as BY. rewrite Hy in BY.
  set (n := length xs) in *.
  pose (Inv := fun k (s : buf T * buf T) => isb k (fst s) /\ length (fst s) = length y2 /\ isb k (snd s) /\ length (snd s) = (n - 1)%nat).
  eapply wp_bind with (P := Inv 1).
  { destruct (_ >? _).
    - eapply wp_bind; [apply (@wp_wr_next T N OF 0); [apply isb_0|rewrite fresh_length; lia]|]. intros u (Bu & Lu).
      eapply wp_bind; [apply (@wp_wr_next T N OF 0); [apply isb_0|lia]|]. intros b (Bb & Lb).
      cbn [wp]; unfold Inv; cbn [fst snd]. rewrite Lu, fresh_length. auto.
    - eapply wp_bind; [apply (@wp_wr_next T N OF 0); [apply isb_0|lia]|]. intros b (Bb & Lb).
      rdw BX x1. rdw BX x0. rdw BY v1. rdw BY v0. wd a. wd b'.
      eapply wp_bind; [apply (@wp_wr_next T N OF 0); [apply isb_0|rewrite fresh_length; lia]|]. intros u (Bu & Lu).
      cbn [wp]; unfold Inv; cbn [fst snd]. rewrite Lu, fresh_length. auto. }
  intros (b & u) H1.
  eapply wp_bind with (P := Inv (1 + (n - 2))%nat).
  { apply (@wp_for NR OF _ Inv); [exact H1|]. intros i (b1 & u1) Hi (Bb & Lb & Bu & Lu). cbn [fst snd] in *.
    rdw BX xi. rdw BX xm. rdw BX xp. rdw BY yi. rdw BY ym. rdw BY yp. cbv zeta. wd sigma. rdw Bb z. wd q.
    eapply wp_bind; [apply (@wp_wr_next T N OF i); [exact Bb|lia]|]. intros b2 (Bb2 & Lb2).
    wd a. wd c. rdw Bu um. wd d. wd e.
    eapply wp_bind; [apply (@wp_wr_next T N OF i); [exact Bu|lia]|]. intros u2 (Bu2 & Lu2).
    cbn [wp]; unfold Inv; cbn [fst snd]. repeat split; auto; congruence. }
  intros (b1 & u1) (Bb & Lb & Bu & Lu). cbn [fst snd] in *. replace (1 + (n - 2))%nat with (n - 1)%nat in * by lia.
  eapply wp_bind with (P := any).
  { destruct (_ >? _); [exact I|]. rdw BX xn. rdw BX xm. rdw BY yn. rdw BY ym. wd a. wd c. exact I. }
  intros (qn & un) _.
  rdw Bu ul. rdw Bb yl. wd q.
  eapply wp_bind; [apply (@wp_wr_next T N OF (n - 1)%nat); [exact Bb|lia]|]. intros b2 (Bb2 & Lb2).
  replace (S (n - 1))%nat with n in Bb2 by lia.
  eapply wp_bind; [apply (@wp_for0 NR OF _ (fun s => isb n s /\ length s = length y2)); [split; [exact Bb2|congruence]|]|].
  - intros j s Hj (Bs & Ls). rdw Bs a. rdw Bs c. rdw Bu d.
    eapply wp_imp; [apply (@wp_wr T N OF n); [exact Bs|lia]|]. cbv beta. intros s' (B' & L'). split; [exact B'|congruence].
  - intros s (Bs & Ls). cbn. auto.
Qed.

Lemma wp_cubic_arr fuel (xs ys : list T) y2 x : length ys = length xs -> isb (length xs) y2 -> length xs < fuel ->
  WP any (interp_cubic_arr fuel xs ys y2 x).
Proof.
  intros Hy B2 Hf. unfold interp_cubic_arr.
  destruct (Nat.ltb_spec (length xs) 3) as [H3|H3]; [exact I|].
  pose proof (isb_cells xs) as BX. pose proof (isb_cells ys) as BY. rewrite Hy in BY.
  set (n := length xs) in *.
  rdw BX x0. eapply wp_bind with (P := any).
  { destruct (_ <=? _); [|exact I]. rdw BX x1. exact I. }
  intros first _.
  eapply wp_bind with (P := fun s => fst s < n /\ snd s < n).
  { destruct first; [cbn; lia|].
    assert (Lp : forall f lo hi, lo < hi < n -> (hi - lo <= f)%nat ->
      WP (fun s => fst s < n /\ snd s < n) (while_ f (fun '(klo, khi) =>
        if (1 <? khi - klo)%nat then
          let k := ((khi + klo) / 2)%nat in
          let! xk := rd (cells xs) k in
          if xk >? x then Ok (inl (klo, k)) else Ok (inl (k, khi))
        else Ok (inr (klo, khi))) (lo, hi))).
    { induction f as [|f IH]; intros lo hi Hb Hfu; [lia|]. cbn [while_].
      destruct (Nat.ltb_spec 1 (hi - lo)) as [G|G]; [|cbn; lia].
      assert (lo < (hi + lo) / 2 < hi)%nat.
      { pose proof (Nat.div_mod (hi + lo) 2) as D. pose proof (Nat.mod_upper_bound (hi + lo) 2) as D'. lia. }
      cbv zeta. set (k := ((hi + lo) / 2)%nat) in *.
      destruct (rd (cells xs) k) as [xk| | |] eqn:E;
        try (pose proof (@wp_rd T N OF n (cells xs) k BX ltac:(lia)) as W; rewrite E in W; now cbn in W).
      cbn [bind]. destruct (xk >? x); cbn [bind]; apply IH; lia. }
    apply Lp; lia. }
  intros (klo & khi) (Hlo & Hhi). cbn [fst snd] in *.
  rdw BX xh. rdw BX xl. cbv zeta. destruct (_ =? _); [exact I|].
  wd a. wd b. rdw BY yl. rdw BY yh. rdw B2 zl. rdw B2 zh. wd c. exact I.
Qed.

End Interp.

Section Stat.
Context {T : Type} {N : Num T} {M : NumM T}.
Variable bc : bool.
Variable W : Z.
Variable OF : Prop.
Hypothesis L : lawful N.
Notation NR := (~ total N).
Notation "'WP' P m" := (wp NR OF P m) (at level 10, P at level 9, m at level 9).
Notation any := (fun _ => True).
Local Open Scope nat_scope.

Ltac wb l := eapply wp_bind; [eapply l; eauto using ism_room, room_def; try lia|cbv beta].
Ltac wc l m H := eapply wp_bind; [eapply l; eauto using ism_room, room_def; try lia|
  let rc := fresh "rc" in let E := fresh "E" in
  intros (rc & m) (E & H); cbn [fst snd] in E, H; subst rc].
Ltac wd x := eapply wp_bind; [apply wp_div; exact L|intros x _].
Ltac ws x := eapply wp_bind; [apply wp_sqrt; exact L|intros x _].
Ltac rdw H x := eapply wp_bind; [eapply wp_rd; [exact H|lia]|intros x _].

(** code 0 and a number *)
Definition num0 (r : Z * option T) : Prop := fst r = 0%Z /\ exists x, snd r = Some x.
(** a number, or none with an error code *)
Definition num_or (r : Z * option T) : Prop := fst r = 0%Z -> exists x, snd r = Some x.

Lemma wp_ar_mean n v : 1 <= n -> isv n v -> WP num0 (vec_ar_mean v).
Proof.
  intros Hn (Hs & B). unfold vec_ar_mean. rewrite Hs. destruct (Nat.ltb_spec n 1); [lia|].
  eapply wp_bind; [apply (@wp_for0 NR OF _ any); [exact I|]|].
  - intros i s Hi _. rdw B a. exact I.
  - intros s _. wd m. cbn. split; [reflexivity|]. cbn. eauto.
Qed.
Lemma wp_sta_mean n v : 1 <= n -> isv n v -> WP num0 (sta_mean v).
Proof.
  intros Hn H. unfold sta_mean. eapply wp_bind; [now apply wp_ar_mean with (n := n)|].
  intros (rc & m) (_ & Hm). split; [reflexivity|exact Hm].
Qed.

Lemma wp_sum_buf n b : isb n b -> WP any (sum_buf n b).
Proof.
  intros B. unfold sum_buf. apply (@wp_for0 NR OF _ any); [exact I|]. intros i s Hi _. rdw B a. exact I.
Qed.
Lemma wp_any_neg n b : isb n b -> WP any (any_neg n b).
Proof.
  intros B. unfold any_neg.
  eapply wp_bind; [eapply (@wp_for_exit NR OF _ _ any any); [exact I|]|intros; exact I].
  intros i s Hi _. rdw B a. destruct (_ <? _)%num; exact I.
Qed.

Lemma wp_weighted_mean n v w : isv n v -> isv n w -> WP num_or (sta_weighted_mean bc v w).
Proof.
  intros (Hv & Bv) (Hw & Bw). unfold sta_weighted_mean. rewrite Hv, Hw.
  eapply wp_bind; [apply wp_sum_buf; exact Bw|]. intros sumw _.
  eapply wp_bind with (P := any).
  { destruct bc; [|exact I]. destruct (negb _); [exact I|]. eapply wp_bind; [apply wp_any_neg; exact Bw|].
    intros neg _. destruct neg; exact I. }
  intros bad _. destruct bad; [intros E; discriminate E|].
  eapply wp_bind; [apply (@wp_for0 NR OF _ any); [exact I|]|].
  - intros i s Hi _. rdw Bw a. rdw Bv b. exact I.
  - intros s _. wd m. intros _. cbn. eauto.
Qed.

Lemma wp_vcopy_to n (v w : vec T) : isv n v -> n <= length (vbuf w) ->
  WP (code0 (fun u => isv n u /\ length (vbuf u) = length (vbuf w))) (vec_copy w v).
Proof.
  intros (Hs & xs & tl & Lx & E) Hl. unfold vec_copy. rewrite Hs, E, blit_cells by auto.
  cbn [bind wp]. split; [reflexivity|]. cbn [snd vbuf]. split.
  - split; [reflexivity|]. exists xs, (skipn n (vbuf w)). now split.
  - rewrite app_length, skipn_length. unfold cells. rewrite map_length. lia.
Qed.

Lemma wp_demean n v w : 1 <= n -> isv n v -> vsz w = n -> n <= length (vbuf w) ->
  WP (code0 (fun u => isv n u /\ length (vbuf u) = length (vbuf w))) (sta_demean bc v w).
Proof.
  intros Hn Hv Hw Hl. unfold sta_demean. pose proof Hv as (Hs & _). rewrite Hs, Hw, Nat.eqb_refl, andb_false_r.
  wc wp_vcopy_to u Hu. destruct Hu as (Hu & Lu).
  eapply wp_bind; [apply wp_sta_mean with (n := n); auto|]. intros (rc & m) (_ & x & Em). cbn [snd] in Em. subst m.
  cbn [lval bind]. unfold vec_scalar_add.
  eapply wp_bind with (P := code0 (fun y => isv n y /\ length (vbuf y) = length (vbuf u))).
  { eapply wp_bind; [apply (@wp_vmap T N OF _ n); [|exact Hu]; intros a; exact I|].
    intros y Hy. split; [reflexivity|exact Hy]. }
  intros (rc' & y) (_ & Hy & Ly). cbn [snd] in Hy, Ly. cbn. split; [reflexivity|]. cbn. split; [exact Hy|congruence].
Qed.

Lemma wp_demean_def n v : 1 <= n -> isv n v -> WP (code0 (isv n)) (sta_demean bc v (vdef n)).
Proof.
  intros Hn Hv. eapply wp_imp; [apply (@wp_demean n); auto; cbn; rewrite fresh_length; auto|].
  intros (rc & u) (E & Hu & _). now split.
Qed.

Lemma wp_mean_abs_dev n v : 1 <= n -> isv n v -> WP num0 (sta_mean_abs_dev bc v).
Proof.
  intros Hn Hv. unfold sta_mean_abs_dev. pose proof Hv as (Hs & _). rewrite Hs.
  destruct (Nat.eqb_spec n 0); [lia|]. rewrite andb_false_r.
  wc wp_demean_def d Hd. destruct Hd as (Hd & B).
  eapply wp_bind; [apply (@wp_for0 NR OF _ any); [exact I|]|].
  - intros i s Hi _. rdw B a. exact I.
  - intros s _. wd m. split; [reflexivity|]. cbn. eauto.
Qed.

Lemma wp_var n v : 1 <= n -> isv n v -> WP num0 (sta_var bc W v).
Proof.
  intros Hn Hv. unfold sta_var. pose proof Hv as (Hs & _). rewrite Hs.
  wc wp_demean_def d Hd. destruct Hd as (Hd & B).
  eapply wp_bind; [apply (@wp_for0 NR OF _ any); [exact I|]|].
  - intros i s Hi _. rdw B a. exact I.
  - intros s _. wd m. split; [reflexivity|]. cbn. eauto.
Qed.

Lemma wp_std_dev n v : 1 <= n -> isv n v -> WP num0 (sta_std_dev bc W v).
Proof.
  intros Hn Hv. unfold sta_std_dev. eapply wp_bind; [now apply wp_var with (n := n)|].
  intros (rc & m) (_ & x & E). cbn [snd] in E. subst m. cbn [lval bind]. ws s. split; [reflexivity|]. cbn. eauto.
Qed.

Lemma wp_sta_err n v : 1 <= n -> isv n v -> WP num0 (sta_sta_err bc W v).
Proof.
  intros Hn Hv. unfold sta_sta_err. pose proof Hv as (Hs & _). rewrite Hs.
  destruct (Nat.eqb_spec n 0); [lia|]. rewrite andb_false_r.
  eapply wp_bind; [now apply wp_var with (n := n)|].
  intros (rc & m) (_ & x & E). cbn [snd] in E. subst m. cbn [lval bind]. wd q. ws s. split; [reflexivity|]. cbn. eauto.
Qed.

Lemma wp_covar n v w : 1 <= n -> isv n v -> isv n w -> WP num0 (sta_covar bc W v w).
Proof.
  intros Hn Hv Hw. unfold sta_covar. pose proof Hv as (Hs & _). pose proof Hw as (Hs' & _).
  rewrite Hs, Hs', Nat.eqb_refl, andb_false_r.
  wc wp_demean_def d Hd. destruct Hd as (_ & B).
  wc wp_demean_def d' Hd'. destruct Hd' as (_ & B').
  eapply wp_bind; [apply (@wp_for0 NR OF _ any); [exact I|]|].
  - intros i s Hi _. rdw B a. rdw B' a'. exact I.
  - intros s _. wd m. split; [reflexivity|]. cbn. eauto.
Qed.

Lemma wp_covar_mtx n k tl m mc : 1 <= n -> ism n k tl m -> room k k mc ->
  WP (code0 (fun x => mrows x = k /\ mcols x = k /\ isb (k * k) (mbuf x))) (sta_covar_mtx bc W m mc).
Proof.
  intros Hn Hm (Hr & Hc & Hl). pose proof (ism_isb Hm) as (Hmr & Hmc & _). unfold sta_covar_mtx.
  rewrite Hr, Hc, Hmc, Hmr, Nat.eqb_refl. cbn [negb orb]. rewrite andb_false_r.
  pose (Inv := fun q (s : option T * buf T * buf T * buf T) => let '(c, v1, v2, b) := s in
     length v1 = n /\ length v2 = n /\ isb q b /\ length b = length (mbuf mc)).
  eapply wp_bind with (P := Inv (k * k)).
  - apply (@wp_for NR OF _ (fun i => Inv (i * k))).
    + unfold Inv. rewrite !fresh_length. repeat split; auto. cbn. apply isb_0.
    + intros i s Hi Hs. replace (S i * k) with (i * k + k) by lia.
      apply (@wp_for NR OF _ (fun j => Inv (i * k + j))); [now rewrite Nat.add_0_r|].
      intros j (((c & v1) & v2) & b) Hj (L1 & L2 & B & Lb).
      wc (@wp_get_col T N bc OF n k) w1 H1. destruct H1 as (B1 & E1).
      wc (@wp_get_col T N bc OF n k) w2 H2. destruct H2 as (B2 & E2).
      eapply wp_bind; [apply wp_covar with (n := n); [exact Hn| |]; split; auto|].
      intros (rc & o) (_ & x & Ex). cbn [snd] in Ex. subst o. cbn [lval bind].
      assert (i * k + j < k * k) by nia.
      eapply wp_bind; [apply (@wp_wr_next T N OF (i * k + j)); [exact B|lia]|].
      intros b' (B' & Lb'). cbn [wp]. unfold Inv. rewrite <- Nat.add_succ_comm, Nat.add_succ_l in *.
      repeat split; try congruence.
  - intros (((c & v1) & v2) & b) (_ & _ & B & _). split; [reflexivity|]. cbn. auto.
Qed.

Lemma wp_linear_reg n x y : isv n x -> isv n y ->
  WP (fun r => fst r = 0%Z -> exists s i c, snd r = Some (s, i, c) /\ WP any c) (sta_linear_reg bc x y).
Proof.
  intros (Hx & Bx) (Hy & By). unfold sta_linear_reg. rewrite Hx, Hy, Nat.eqb_refl, andb_false_r.
  eapply wp_bind; [apply (@wp_for0 NR OF _ any); [exact I|]|].
  - intros i ((((? & ?) & ?) & ?) & ?) Hi _. rdw Bx a. rdw By b. exact I.
  - intros ((((? & ?) & ?) & ?) & ?) _. cbv zeta. wd s. wd i. intros _. do 3 eexists. split; [reflexivity|].
    ws q. apply wp_div. exact L.
Qed.

Lemma isb_fresh_ones r : WP (fun v => isb r v /\ length v = r) (for_ r 0 (fun i v => wr v i f1) (fresh r : buf T)).
Proof.
  eapply wp_imp; [apply (@wp_for NR OF _ (fun i v => isb i v /\ length v = r))|].
  - split; [apply isb_0|apply fresh_length].
  - intros i v Hi (B & E). eapply wp_imp; [apply (@wp_wr_next T N OF i); [exact B|lia]|].
    intros v' (B' & E'). split; [exact B'|congruence].
  - cbn. auto.
Qed.

Lemma wp_expand_ones r c tl x : ism r c tl x -> WP (ism r (c + 1) []) (expand_ones bc x).
Proof.
  intros Hx. pose proof (ism_isb Hx) as (Hr & Hc & _). unfold expand_ones. rewrite Hr, Hc.
  eapply wp_bind; [apply (@wp_init0 T N bc OF r (c + 1)), room_def|]. intros (rc & xe) (_ & He). cbn [snd] in He.
  rewrite rest_def in He.
  eapply wp_bind; [apply isb_fresh_ones|]. intros v (Bv & Lv).
  wc (@wp_set_col T N bc OF r (c + 1)) xe1 He1.
  eapply wp_bind; [apply (@wp_for0 NR OF _ (fun s => length (fst s) = r /\ ism r (c + 1) [] (snd s))); [now split|]|].
  - intros j (v1 & x1) Hj (L1 & H1). cbn [fst snd] in *.
    wc (@wp_get_col T N bc OF r c) v2 H2. destruct H2 as (B2 & L2).
    wc (@wp_set_col T N bc OF r (c + 1)) x2 H2. cbn. split; [congruence|exact H2].
  - intros (v1 & x1) (_ & H1). exact H1.
Qed.

Lemma wp_fit_quality r c te tb ty xe bm ym y : 1 <= r -> ism r c te xe -> ism c 1 tb bm -> ism r 1 ty ym -> isv r y ->
  WP (fun q => WP any q) (fit_quality bc r xe bm ym y).
Proof.
  intros Hr Hxe Hbm Hym Hy. unfold fit_quality.
  wc (@wp_mult T N bc OF r c 1) xt2 H2. wc (@wp_sub T N bc OF r 1) em He.
  eapply wp_bind; [apply wp_sta_mean with (n := r); auto|]. intros (rc & o) (_ & m & Em). cbn [snd] in Em. subst o.
  pose proof (ism_isb He) as (_ & _ & Be). rewrite Nat.mul_1_r in Be. destruct Hy as (_ & By).
  eapply wp_bind; [apply (@wp_for0 NR OF _ any); [exact I|]|].
  - intros g (en & ys) Hg _. rdw Be e. rdw By a. cbn [lval bind]. exact I.
  - intros (en & ys) _. cbn [wp]. wd q. exact I.
Qed.

Lemma wp_mult_reg r c tl x y b : 1 <= r -> ism r c tl x -> isv r y -> vsz b = c + 1 -> c + 1 <= length (vbuf b) ->
  WP (fun s => vsz (fst (snd s)) = c + 1 /\
        (fst s = 0%Z -> isv (c + 1) (fst (snd s)) /\ exists q, snd (snd s) = Some q /\ WP any q))
     (sta_mult_linear_reg bc x y b).
Proof.
  intros Hr Hx Hy Hb Hl. pose proof (ism_isb Hx) as (Er & Ec & _). pose proof Hy as (Ey & By).
  unfold sta_mult_linear_reg. rewrite Er, Ec, Ey, Hb, !Nat.eqb_refl. cbn [negb orb]. rewrite andb_false_r.
  wb (@wp_expand_ones r c). intros xe Hxe.
  wc (@wp_trans T N bc OF r (c + 1)) xt Hxt.
  wc (@wp_mult T N bc OF (c + 1) r (c + 1)) xx Hxx.
  eapply wp_bind; [eapply wp_deter; exact Hxx|]. intros (rc & o) (det & E). injection E as -> ->. cbn [lval bind].
  destruct (_ <? _)%num. { split; [exact Hb|]. intros E; discriminate E. }
  eapply wp_bind; [apply (@wp_inv T N bc OF L (c + 1)) with (tl := rest (mtx_def (c + 1) (c + 1))); [exact Hxx|apply room_def]|].
  intros (rc & xi) (_ & t & Hxi). cbn [snd] in Hxi.
  eapply wp_bind; [apply (@wp_from_arr T N OF r 1); [apply room_def|now rewrite Nat.mul_1_r]|].
  intros (rc1 & ym) (_ & Hym). cbn [snd] in Hym.
  wc (@wp_mult T N bc OF (c + 1) (c + 1) r) xtmp Htmp.
  wc (@wp_mult T N bc OF (c + 1) r 1) bm Hbm.
  pose proof (ism_isb Hbm) as (_ & _ & Bbm). rewrite Nat.mul_1_r in Bbm.
  wc (@wp_from_arr_v T N OF (c + 1)) b' Hb'.
  eapply wp_bind; [eapply wp_fit_quality; eauto|]. intros q Hq.
  split; [apply Hb'|]. intros _. split; [exact Hb'|]. exists q. now split.
Qed.

Lemma wp_wmult_reg r c tl x y w b : 1 <= r -> ism r c tl x -> isv r y -> isv r w ->
  vsz b = c + 1 -> c + 1 <= length (vbuf b) ->
  WP (fun s => isv r (fst (fst (snd s))) /\ vsz (snd (fst (snd s))) = c + 1 /\
        (fst s = 0%Z -> isv (c + 1) (snd (fst (snd s))) /\ exists q, snd (snd s) = Some q /\ WP any q))
     (sta_weighted_mult_linear_reg bc x y w b).
Proof.
  intros Hr Hx Hy Hw Hb Hl. pose proof (ism_isb Hx) as (Er & Ec & _). pose proof Hy as (Ey & By).
  pose proof Hw as (Ew & Bw).
  unfold sta_weighted_mult_linear_reg. rewrite Er, Ec, Ey, Ew, Hb, !Nat.eqb_refl. cbn [negb orb].
  eapply wp_bind with (P := any).
  { destruct bc; [|exact I]. eapply wp_bind; [eapply (@wp_for_exit NR OF _ _ any any); [exact I|]|intros; exact I].
    intros i s Hi _. rdw Bw a. destruct (_ <? _)%num; exact I. }
  intros bad _. destruct bad. { split; [exact Hw|]. split; [exact Hb|]. intros E; discriminate E. }
  eapply wp_bind; [apply (@wp_init1 T N bc OF r r), room_def|]. intros (rc & idx) (_ & Hidx). cbn [snd] in Hidx.
  rewrite rest_def in Hidx.
  eapply wp_bind; [apply (@wp_for0 NR OF _ (fun s => isb r (fst s) /\ ism r r [] (snd s))); [now split|]|].
  { intros k (wb & id) Hk (Bk & Hid). cbn [fst snd] in *. rdw Bk a. wd q.
    eapply wp_bind; [apply (@wp_wr T N OF r); [exact Bk|lia]|]. intros wb' (Bk' & _).
    wc (@wp_scalar_row T N bc OF r r) id' Hid'. cbn. now split. }
  intros (wb & id) (Bwb & Hid). cbn [fst snd] in *.
  assert (Hw' : isv r (Vec r wb)) by (split; auto).
  wb (@wp_expand_ones r c). intros xe Hxe.
  wc (@wp_trans T N bc OF r (c + 1)) xt Hxt.
  wc (@wp_mult T N bc OF (c + 1) r r) xw Hxw.
  wc (@wp_mult T N bc OF (c + 1) r (c + 1)) xx Hxx.
  eapply wp_bind; [eapply wp_deter; exact Hxx|]. intros (rc0 & o) (det & E). injection E as -> ->. cbn [lval bind].
  destruct (_ <? _)%num. { split; [exact Hw'|]. split; [exact Hb|]. intros E; discriminate E. }
  eapply wp_bind; [apply (@wp_inv T N bc OF L (c + 1)) with (tl := rest (mtx_def (c + 1) (c + 1))); [exact Hxx|apply room_def]|].
  intros (rc2 & xi) (_ & t & Hxi). cbn [snd] in Hxi.
  eapply wp_bind; [apply (@wp_from_arr T N OF r 1); [apply room_def|now rewrite Nat.mul_1_r]|].
  intros (rc1 & ym) (_ & Hym). cbn [snd] in Hym.
  wc (@wp_mult T N bc OF (c + 1) (c + 1) r) xtmp Htmp.
  wc (@wp_mult T N bc OF (c + 1) r 1) bm Hbm.
  pose proof (ism_isb Hbm) as (_ & _ & Bbm). rewrite Nat.mul_1_r in Bbm.
  wc (@wp_from_arr_v T N OF (c + 1)) b' Hb'.
  eapply wp_bind; [eapply wp_fit_quality; eauto|]. intros q Hq.
  split; [exact Hw'|]. split; [apply Hb'|]. intros _. split; [exact Hb'|]. exists q. now split.
Qed.

Lemma wp_quad_fit r tl m b : ism r 3 tl m -> vsz b = 9 -> 9 <= length (vbuf b) ->
  WP (code0 (isv 9)) (sta_quad_fit bc m b).
Proof.
  intros Hm Hb Hl. pose proof (ism_isb Hm) as (Er & Ec & _).
  unfold sta_quad_fit. rewrite Er, Ec, Hb. cbn [Nat.eqb negb orb]. rewrite andb_false_r.
  eapply wp_bind with (P := fun s => let '(mv, x, y) := s in length mv = 3 /\ ism r 9 [] x /\ isb r y).
  { eapply wp_imp; [apply (@wp_for NR OF _ (fun i s => let '(mv, x, y) := s in
      length mv = 3 /\ osm r 9 [] (fun a _ => a < i) x /\ isb i y /\ length y = r))|].
    - rewrite fresh_length. split; [reflexivity|]. split; [|split; [apply isb_0|apply fresh_length]].
      eapply osm_imp; [rewrite <- (rest_def r 9); apply room_osm, room_def|]. intros; lia.
    - intros i ((mv & x) & y) Hi (Lmv & Hx & By & Ly).
      wc (@wp_get_row T N bc OF r 3) mv' Hmv. destruct Hmv as (Bmv & Lmv').
      rdw Bmv p. rdw Bmv q. rdw Bmv s.
      eapply wp_bind with (P := code0 (osm r 9 [] (fun a _ => a < S i))).
      { destruct Hx as (F & -> & HF).
        eapply wp_eq; [rewrite <- (app_nil_r (cells (quad_row p q s)));
          apply (@mtx_set_row_otab T bc r 9 F [] i (quad_row p q s) [] f0); [lia|reflexivity]|].
        split; [reflexivity|]. eexists. split; [reflexivity|]. intros a b' Ha Hb' Hlt.
        cbv beta. destruct (Nat.eqb_spec a i) as [->|Ne]; [eauto|]. apply HF; lia. }
      intros (rc & x') (_ & Hx'). cbn [snd] in Hx'.
      eapply wp_bind; [apply (@wp_wr_next T N OF i); [exact By|lia]|]. intros y' (By' & Ly').
      cbn. repeat split; auto; congruence.
    - intros ((mv & x) & y) (H1 & H2 & H3 & _). split; [exact H1|]. split; [|exact H3].
      eapply osm_all; [exact H2|]. cbn. intros; lia. }
  intros ((mv & x) & y) (_ & Hx & By).
  assert (Hy : ism r 1 (skipn (r * 1) y) (Mtx r 1 y)) by (apply isb_ism; now rewrite Nat.mul_1_r).
  wc (@wp_trans T N bc OF r 9) xt Hxt.
  wc (@wp_mult T N bc OF 9 r 9) xx Hxx.
  eapply wp_bind; [apply (@wp_inv T N bc OF L 9) with (tl := rest (mtx_def 9 9)); [exact Hxx|apply room_def]|].
  intros (rc2 & xi) (_ & t & Hxi). cbn [snd] in Hxi.
  wc (@wp_mult T N bc OF 9 9 r) xtmp Htmp.
  wc (@wp_mult T N bc OF 9 r 1) bm Hbm.
  pose proof (ism_isb Hbm) as (_ & _ & Bbm).
  wc (@wp_from_arr_v T N OF 9) b' Hb'. cbn. split; [reflexivity|exact Hb'].
Qed.

Lemma wp_contains n v x eps : isv n v -> WP any (vec_contains v x eps).
Proof.
  intros (Hs & B). unfold vec_contains. rewrite Hs. apply (@wp_for0 NR OF _ any); [exact I|].
  intros i s Hi _. rdw B a. exact I.
Qed.

(** [near]: what zsl_vec_contains counts *)
Definition near (x eps a : T) : bool := ((a - x <? eps) && ((- (a - x)) <? eps))%num.
Fixpoint nears (x eps : T) (k : nat) (b : buf T) : nat :=
  match k with
  | O => 0
  | S k' => nears x eps k' b + match nth_error b k' with Some (Some a) => if near x eps a then 1 else 0 | _ => 0 end
  end.

Lemma rd_isb n (b : buf T) i : isb n b -> i < n -> exists a, nth_error b i = Some (Some a) /\ rd b i = Ok a.
Proof.
  intros B Hi. apply isb_iff in B. destruct B as (_ & B). destruct (B i Hi) as (a & E). exists a. split; [exact E|].
  unfold rd. now rewrite E.
Qed.

Lemma contains_nears n v x eps : isv n v -> vec_contains v x eps = Ok (nears x eps n (vbuf v)).
Proof.
  intros (Hs & B). unfold vec_contains. rewrite Hs.
  apply (@for_fun _ (fun k => nears x eps k (vbuf v)) n 0). intros i Hi.
  destruct (rd_isb B (i := i)) as (a & E & Er); [lia|]. rewrite Er. cbn [bind]. f_equal.
  cbn [nears]. rewrite E. fold (near x eps a). destruct (near x eps a); lia.
Qed.

Lemma nears_pos x eps b i a : nth_error b i = Some (Some a) -> near x eps a = true ->
  forall k, i < k -> 1 <= nears x eps k b.
Proof.
  intros E Hn. induction k as [|k IH]; intros Hk; [lia|]. cbn [nears].
  destruct (Nat.eq_dec i k) as [->|]; [rewrite E, Hn; lia|]. specialize (IH ltac:(lia)). lia.
Qed.

Lemma wp_mode n v w : (forall a, near f0 (flit 1 5) a = true -> near a (flit 1 5) f0 = true) ->
  isv n v -> vsz w = n -> n <= length (vbuf w) ->
  WP (code0 (fun u => vsz u <= n /\ length (vbuf u) = length (vbuf w) /\ isb n (vbuf u))) (sta_mode bc v w).
Proof.
  intros Hnear Hv Hw Hl. pose proof Hv as (Hs & B). unfold sta_mode. rewrite Hs, Hw, Nat.eqb_refl, andb_false_r.
  eapply wp_bind with (P := code0 (fun u => (isv n u /\ length (vbuf u) = length (vbuf w))
      /\ forall q, q < n -> nth_error (vbuf u) q = Some (Some f0))).
  { destruct w as [sw b]. cbn in Hw, Hl. subst sw. unfold vec_init. cbn [vbuf vsz].
    unfold zero_fill. rewrite (proj2 (Nat.leb_le _ _)) by lia. cbn [bind wp]. split; [reflexivity|].
    cbn [snd vbuf]. split; [split; [split; [reflexivity|]|]|].
    - exists (repeat f0 n), (skipn n b). rewrite repeat_length. split; auto. cbn [vbuf].
      f_equal. unfold cells. clear. induction n; cbn; congruence.
    - rewrite app_length, repeat_length, skipn_length. lia.
    - intros q Hq. rewrite nth_error_app1 by (now rewrite repeat_length). now apply nth_error_repeat. }
  intros (rc & w1) (_ & (H1 & L1) & Z1). cbn [snd] in H1, L1, Z1.
  eapply wp_bind with (P := fun s => isb n (fst s)).
  { eapply wp_imp; [apply (@wp_for NR OF _ (fun i s => isb i (fst s) /\ length (fst s) = n))|].
    - split; [apply isb_0|apply fresh_length].
    - intros i (u & mx) Hi (Bu & Lu). cbn [fst] in *. rdw B a.
      eapply wp_bind; [eapply wp_contains; exact Hv|]. intros c _.
      eapply wp_bind; [apply (@wp_wr_next T N OF i); [exact Bu|lia]|]. intros u' (Bu' & Lu'). cbn. split; [exact Bu'|congruence].
    - intros s (Hx & _). exact Hx. }
  intros (u & mx) Bu. cbn [fst] in Bu.
  eapply wp_bind with (P := fun s => isb (snd s) (fst s) /\ snd s <= n).
  { eapply wp_imp; [apply (@wp_for NR OF _ (fun i s => isb (snd s) (fst s) /\ length (fst s) = n /\ snd s <= i))|].
    - cbn [fst snd]. split; [apply isb_0|]. split; [apply fresh_length|lia].
    - intros i (wt & j) Hi (Bt & Lt & Hj). cbn [fst snd] in *. rdw Bu c. destruct (_ =? _)%num.
      + rdw B a. eapply wp_bind; [apply (@wp_wr_next T N OF j); [exact Bt|lia]|]. intros wt' (Bt' & Lt'). cbn.
        repeat split; [exact Bt'|congruence|lia].
      + cbn. repeat split; auto.
    - intros s (Hx & _ & Hx'). split; [exact Hx|exact Hx']. }
  intros (wt & j) (Bt & Hj). cbn [fst snd] in *.
  eapply wp_bind with (P := fun s => isv n (fst s) /\ length (vbuf (fst s)) = length (vbuf w)
      /\ snd s + nears f0 (flit 1 5) j wt <= j).
  { eapply wp_imp; [apply (@wp_for NR OF _ (fun i s => isv n (fst s) /\ length (vbuf (fst s)) = length (vbuf w)
        /\ snd s + nears f0 (flit 1 5) i wt <= i
        /\ forall q, snd s <= q < n -> nth_error (vbuf (fst s)) q = Some (Some f0)))|].
    - cbn [fst snd]. split; [exact H1|]. split; [exact L1|]. split; [cbn; lia|]. intros q Hq. apply Z1. lia.
    - intros i (w2 & c) Hi (H2 & L2 & Hc & Z2). cbn [fst snd] in *.
      destruct (rd_isb Bt (i := i)) as (a & Ea & Er); [lia|]. rewrite Er. cbn [bind].
      assert (En : nears f0 (flit 1 5) (S i) wt = nears f0 (flit 1 5) i wt + (if near f0 (flit 1 5) a then 1 else 0)).
      { cbn [nears]. now rewrite Ea. }
      assert (Skip : WP (fun s => isv n (fst s) /\ length (vbuf (fst s)) = length (vbuf w)
        /\ snd s + nears f0 (flit 1 5) (S i) wt <= S i
        /\ forall q, snd s <= q < n -> nth_error (vbuf (fst s)) q = Some (Some f0)) (Ok (w2, c))).
      { cbn [wp fst snd]. split; [exact H2|]. split; [exact L2|]. split; [|exact Z2].
        rewrite En. destruct (near f0 (flit 1 5) a); lia. }
      destruct (_ || _); [|exact Skip].
      rewrite (contains_nears a (flit 1 5) H2). cbn [bind].
      destruct (Nat.eqb_spec (nears a (flit 1 5) n (vbuf w2)) 0) as [E0|E0]; [|exact Skip].
      assert (Nn : near f0 (flit 1 5) a = false).
      { destruct (near f0 (flit 1 5) a) eqn:En'; [|reflexivity]. exfalso.
        pose proof (@nears_pos a (flit 1 5) (vbuf w2) c f0 (Z2 c ltac:(lia)) (Hnear a En') n ltac:(lia)). lia. }
      destruct H2 as (S2 & B2).
      pose proof (@wp_wr T N OF n (vbuf w2) c a B2 ltac:(lia)) as Ww. unfold wr in Ww |- *.
      destruct (Nat.ltb_spec c (length (vbuf w2))) as [Lc|Lc]; [|contradiction]. cbn [wp] in Ww. destruct Ww as (B' & L').
      cbn [bind wp fst snd vbuf vsz]. split; [now split|]. split; [congruence|]. split; [rewrite En, Nn; lia|].
      intros q Hq. rewrite nth_error_upd_ne by lia. apply Z2. lia.
    - intros s (Hx & Hx' & Hx'' & _). split; [exact Hx|]. split; [exact Hx'|exact Hx'']. }
  intros (w2 & c) (H2 & L2 & Hc). cbn [fst snd] in *.
  rewrite (@contains_nears j (Vec j wt)) by (split; auto). cbn [bind vbuf].
  cbn [wp]. split; [reflexivity|]. cbn [snd vsz vbuf].
  split; [|split; [exact L2|apply H2]].
  destruct (Nat.ltb_spec 0 (nears f0 (flit 1 5) j wt)); lia.
Qed.

End Stat.
