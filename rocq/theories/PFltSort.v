(** Sorting machine numbers: the run on doubles follows the run on the reals
    they stand for, comparison by comparison. *)
From Coq Require Import Floats.PrimFloat.
From Flocq Require Import Core BinarySingleNaN PrimFloat.
From Coq Require Import ZArith Reals Lra Lia List Bool Permutation Sorted.
From Verif Require Import Base BaseFacts NumR NumF SpecVec SpecReal SpecFlt PVec MVec PFlt PFltSum PFltUnit PFltVar PFltQuat PSafeFlt PNanQuat PRgbFlt PSort.
Import ListNotations.
Open Scope R_scope.
Notation double := PrimFloat.float.

(** ** Subtraction, also when it overflows *)
Lemma sub_cases x y : finite x -> finite y ->
  (finite (x - y)%float /\ FR (x - y)%float = rnd64 (FR x - FR y)) \/
  ((x - y)%float = infinity /\ 0 < FR x - FR y) \/ ((x - y)%float = neg_infinity /\ FR x - FR y < 0).
Proof.
  intros Hx Hy.
  destruct (PrimFloat.is_finite (x - y)) eqn:E.
  { left. split; [exact E|]. now apply sub_rnd. }
  right. assert (Fx := proj1 (finite_B x) Hx). assert (Fy := proj1 (finite_B y) Hy).
  assert (E' : is_finite (Prim2B (x - y)%float) = false).
  { rewrite <- is_finite_equiv. exact E. }
  rewrite sub_equiv in E'. pose proof (Bminus_correct _ _ Hprec Hmax mode_NE _ _ Fx Fy) as C.
  destruct Rlt_bool eqn:Eb in C; [destruct C as (_ & C & _); congruence|].
  destruct C as (C & S). rewrite !FR_B2R.
  assert (N0 : B2R (Prim2B x) - B2R (Prim2B y) <> 0).
  { intros Z. rewrite Z, round_0, Rabs_R0 in Eb by typeclasses eauto.
    destruct (Rlt_bool_spec 0 (bpow radix2 FloatOps.emax)) as [_|H]; [discriminate|].
    pose proof (bpow_gt_0 radix2 FloatOps.emax). lra. }
  assert (P : forall z : binary_float FloatOps.prec FloatOps.emax, is_finite z = true ->
     if Bsign z then B2R z <= 0 else 0 <= B2R z).
  { intros [b|b| |b m e Hb] Hz; try discriminate; cbn; [destruct b; lra|].
    destruct b; [apply F2R_le_0|apply F2R_ge_0]; cbn; lia. }
  pose proof (P _ Fx) as Px. pose proof (P _ Fy) as Py. rewrite S in Px, C.
  assert (EE : Prim2B (x - y)%float = (if negb (Bsign (Prim2B y)) then Prim2B neg_infinity else Prim2B infinity)).
  { rewrite sub_equiv. apply B2SF_inj. rewrite C. destruct (Bsign (Prim2B y)); reflexivity. }
  destruct (Bsign (Prim2B y)); cbn [negb] in *; [left|right]; (split; [|lra]).
  - rewrite <- (B2Prim_Prim2B (x - y)%float), EE. apply B2Prim_Prim2B.
  - rewrite <- (B2Prim_Prim2B (x - y)%float), EE. apply B2Prim_Prim2B.
Qed.

Lemma lit_eps : finite (F_lit 1 5) /\ FR (F_lit 1 5) = rnd64 (1 / 100000).
Proof.
  assert (A : finite (F_lit 1 5)) by (vm_compute; reflexivity). split; [exact A|].
  change (F_lit 1 5) with (F_of_Z 1 / F_of_Z 100000)%float in *.
  assert (E1 : FR (F_of_Z 1) = 1) by exact (proj2 (FR_of_nat 1 ltac:(cbn; lia))).
  assert (E2 : FR (F_of_Z 100000) = 100000).
  { unfold FR. replace (FloatOps.Prim2SF (F_of_Z 100000)) with (SpecFloat.S754_finite false 6871947673600000 (-36)) by (vm_compute; reflexivity).
    change (powerRZ 2 (-36)) with (/ (2 ^ Pos.to_nat 36)). rewrite pow_IZR.
    change (2 ^ Z.of_nat (Pos.to_nat 36))%Z with 68719476736%Z. lra. }
  destruct (@div_rnd (F_of_Z 1) (F_of_Z 100000)) as (_ & D); [rewrite E2; lra|exact A|].
  rewrite D, E1, E2. reflexivity.
Qed.

Lemma rnd_le a b : a <= b -> rnd64 a <= rnd64 b.
Proof. intros H. apply round_le; [apply fexp_correct; reflexivity|apply valid_rnd_N|exact H]. Qed.
Lemma rnd_0 : rnd64 0 = 0.
Proof. apply round_0, valid_rnd_N. Qed.
Lemma rnd_opp a : rnd64 (- a) = - rnd64 a.
Proof. apply round_NE_opp. Qed.

(** The tolerance test of zsl_vec_contains agrees with the reals on numbers
    that are equal or at least 1e-5 apart *)
Lemma near_agrees x y : finite x -> finite y -> apart (FR x) (FR y) ->
  ((x - y <? flit 1 5) && (- (x - y) <? flit 1 5))%num
  = ((FR x - FR y <? flit 1 5) && (- (FR x - FR y) <? flit 1 5))%num.
Proof.
  intros Hx Hy Ha. rewrite eps_val. cbn [flit NumF fsub fneg flt NumR].
  destruct lit_eps as (Fe & Ee).
  assert (P : 0 < FR (F_lit 1 5)).
  { rewrite Ee. apply Rlt_le_trans with (rnd64 (FR (F_lit 1 6))).
    - rewrite round_FR. destruct lit_tiny as (_ & ? & ?). lra.
    - apply rnd_le. destruct lit_tiny as (_ & ? & ?). lra. }
  assert (Ri : forall a b, Rltb a b = if Rlt_dec a b then true else false) by reflexivity.
  rewrite !Ri. destruct (sub_cases x y Hx Hy) as [(Fs & Es)|[(Es & Hs)|(Es & Hs)]].
  - rewrite !ltb_dec by (auto; now apply opp_finite). rewrite opp_FR, Es.
    destruct Ha as [E|Ha].
    + rewrite E, Rminus_diag_eq, rnd_0 by reflexivity.
      repeat destruct (Rlt_dec _ _); try reflexivity; lra.
    + destruct (Rle_dec 0 (FR x - FR y)) as [Hp|Hp].
      * rewrite Rabs_pos_eq in Ha by exact Hp.
        assert (FR (F_lit 1 5) <= rnd64 (FR x - FR y)) by (rewrite Ee; apply rnd_le; exact Ha).
        repeat destruct (Rlt_dec _ _); try reflexivity; lra.
      * rewrite Rabs_left in Ha by lra.
        assert (rnd64 (FR x - FR y) <= - FR (F_lit 1 5)).
        { rewrite Ee, <- rnd_opp. apply rnd_le; lra. }
        repeat destruct (Rlt_dec _ _); try reflexivity; lra.
  - rewrite Es. destruct Ha as [E|Ha]; [lra|]. rewrite Rabs_pos_eq in Ha by lra.
    replace (infinity <? F_lit 1 5)%float with false by (vm_compute; reflexivity). cbn [andb].
    repeat destruct (Rlt_dec _ _); try reflexivity; lra.
  - rewrite Es. destruct Ha as [E|Ha]; [lra|]. rewrite Rabs_left in Ha by lra.
    replace (neg_infinity <? F_lit 1 5)%float with true by (vm_compute; reflexivity).
    replace (- neg_infinity <? F_lit 1 5)%float with false by (vm_compute; reflexivity). cbn [andb].
    repeat destruct (Rlt_dec _ _); try reflexivity; lra.
Qed.

(** ** The run on doubles follows the run on reals *)
Definition sim {A B} (RR : A -> B -> Prop) (m1 : outcome A) (m2 : outcome B) : Prop :=
  forall b, m2 = Ok b -> exists a, m1 = Ok a /\ RR a b.

Lemma sim_ok {A B} (RR : A -> B -> Prop) a b : RR a b -> sim RR (Ok a) (Ok b).
Proof. intros H b' [= <-]. eauto. Qed.
Lemma sim_bind {A B A' B'} (RR : A -> B -> Prop) (SS : A' -> B' -> Prop) m1 m2 k1 k2 :
  sim RR m1 m2 -> (forall a b, RR a b -> sim SS (k1 a) (k2 b)) -> sim SS (bind m1 k1) (bind m2 k2).
Proof.
  intros H K b' E. destruct m2 as [b|u| |]; try discriminate. cbn [bind] in E.
  destruct (H _ eq_refl) as (a & -> & Ha). cbn [bind]. exact (K _ _ Ha _ E).
Qed.
Lemma sim_for {A B} (RR : nat -> A -> B -> Prop) n lo f1 f2 s1 s2 :
  RR lo s1 s2 -> (forall i a b, (lo <= i < lo + n)%nat -> RR i a b -> sim (RR (S i)) (f1 i a) (f2 i b)) ->
  sim (RR (lo + n)%nat) (for_ n lo f1 s1) (for_ n lo f2 s2).
Proof.
  revert lo s1 s2. induction n as [|n IH]; intros lo s1 s2 H K.
  - cbn. rewrite Nat.add_0_r. now apply sim_ok.
  - cbn [for_]. eapply sim_bind; [apply K; [lia|exact H]|]. intros a b H'.
    replace (lo + S n)%nat with (S lo + n)%nat by lia. apply IH; [exact H'|]. intros. apply K; [lia|auto].
Qed.

Section Sim.
Variable ok : R -> Prop.
Hypothesis Hsep : forall x y, ok x -> ok y -> apart x y.
Definition vrel (x : double) (r : R) : Prop := finite x /\ FR x = r /\ ok r.

(** b0 is what the cells never written hold *)
Definition brel (b0 a : buf double) (b : buf R) : Prop :=
  length a = length b /\ forall i, (i < length b)%nat ->
  match nth_error b i with
  | Some (Some r) => exists x, nth_error a i = Some (Some x) /\ vrel x r
  | _ => nth_error a i = nth_error b0 i
  end.

Lemma sim_rd b0 a b i : brel b0 a b -> sim vrel (rd a i) (rd b i).
Proof.
  intros (Hl & H) r E. unfold rd in *. destruct (nth_error b i) as [[y|]|] eqn:Eb; try discriminate.
  injection E as ->. assert (Hi : (i < length b)%nat) by (apply nth_error_Some; congruence).
  specialize (H i Hi). rewrite Eb in H. destruct H as (x & -> & Hx). eauto.
Qed.
Lemma sim_wr b0 a b i x r : brel b0 a b -> vrel x r -> sim (brel b0) (wr a i x) (wr b i r).
Proof.
  intros (Hl & H) Hx b' E. unfold wr in *. destruct (Nat.ltb_spec i (length b)) as [Hi|]; [|discriminate].
  injection E as <-. rewrite (proj2 (Nat.ltb_lt i (length a))) by lia. eexists; split; [reflexivity|].
  split; [now rewrite !upd_length|]. rewrite upd_length. intros j Hj. rewrite nth_error_upd.
  destruct (Nat.eq_dec i j) as [->|Ne].
  - destruct (lt_dec j (length b)); [|lia]. exists x. split; [|exact Hx]. apply nth_error_upd_eq. lia.
  - specialize (H j Hj). rewrite nth_error_upd_ne by exact Ne. destruct (nth_error b j) as [[y|]|]; auto.
Qed.

Lemma leb_agrees x y r s : vrel x r -> vrel y s -> (x <=? y)%num = (r <=? s)%num.
Proof. intros (Fx & <- & _) (Fy & <- & _). cbn [fle NumF NumR]. rewrite leb_dec by auto. reflexivity. Qed.
Lemma ltb_agrees x y r s : vrel x r -> vrel y s -> (x <? y)%num = (r <? s)%num.
Proof. intros (Fx & <- & _) (Fy & <- & _). cbn [flt NumF NumR]. rewrite ltb_dec by auto. reflexivity. Qed.

Lemma sim_rdg b0 a b g1 g2 i : brel b0 a b -> (i < length b)%nat -> sim vrel (rdg g1 a i) (rdg g2 b i).
Proof.
  intros H Hi. unfold rdg. rewrite (proj1 H). rewrite (proj2 (Nat.eqb_neq i (length b))) by lia. eapply sim_rd; eauto.
Qed.

Lemma sim_up b0 a b g1 g2 p high : brel b0 a b -> (high < length b)%nat -> forall fuel i, (i <= length b)%nat ->
  sim (fun i1 i2 => i1 = i2 /\ (i1 <= length b)%nat) (qs_scan_up fuel (Some g1) a p high i) (qs_scan_up fuel (Some g2) b p high i).
Proof.
  intros H Hh. induction fuel as [|f IH]; intros i Hi; [intros ? [=]|].
  cbn [qs_scan_up]. destruct (Nat.eq_dec i (length b)) as [->|Ne].
  - unfold rdg. rewrite (proj1 H), Nat.eqb_refl. cbn [bind].
    eapply sim_bind; [eapply sim_rd; eauto|]. intros y s Hy.
    rewrite (proj2 (Nat.leb_gt (length b) high)) by lia. rewrite !andb_false_r. apply sim_ok. lia.
  - eapply sim_bind; [eapply sim_rdg; [exact H|lia]|]. intros x r Hx.
    eapply sim_bind; [eapply sim_rd; eauto|]. intros y s Hy.
    rewrite (leb_agrees _ _ _ _ Hx Hy). destruct (_ && _); [apply IH; lia|apply sim_ok; lia].
Qed.
Lemma sim_down b0 a b g1 g2 p low : brel b0 a b -> forall fuel j, (j < length b)%nat ->
  sim (fun i1 i2 => i1 = i2 /\ (i1 < length b)%nat) (qs_scan_down fuel (Some g1) a p low j) (qs_scan_down fuel (Some g2) b p low j).
Proof.
  intros H. induction fuel as [|f IH]; intros j Hj; [intros ? [=]|].
  cbn [qs_scan_down].
  eapply sim_bind; [eapply sim_rdg; [exact H|lia]|]. intros x r Hx.
  eapply sim_bind; [eapply sim_rd; eauto|]. intros y s Hy.
  unfold fgt. rewrite (ltb_agrees _ _ _ _ Hy Hx). destruct (_ && _); [|apply sim_ok; lia].
  destruct j; [intros ? [=]|]. apply IH. lia.
Qed.
Lemma sim_swap b0 a b i j : brel b0 a b -> sim (fun a' b' => brel b0 a' b' /\ length b' = length b) (qs_swap a i j) (qs_swap b i j).
Proof.
  intros H. unfold qs_swap. eapply sim_bind; [eapply sim_rd; eauto|]. intros x r Hx.
  eapply sim_bind; [eapply sim_rd; eauto|]. intros y s Hy.
  eapply sim_bind with (RR := fun a' b' => brel b0 a' b' /\ length b' = length b).
  - intros b' E. destruct (@sim_wr b0 a b i y s H Hy b' E) as (a' & E' & H'). exists a'. split; [exact E'|]. split; [exact H'|].
    unfold wr in E. destruct (_ <? _)%nat; [injection E as <-; apply upd_length|discriminate].
  - intros a1 b1 (H1 & L1). intros b' E. destruct (@sim_wr b0 a1 b1 j x r H1 Hx b' E) as (a' & E' & H'). exists a'. split; [exact E'|].
    split; [exact H'|]. unfold wr in E. destruct (_ <? _)%nat; [injection E as <-; now rewrite upd_length|discriminate].
Qed.
Lemma sim_part b0 n g1 g2 low high : (high < n)%nat -> forall fuel a b i j, brel b0 a b -> length b = n -> (i <= n)%nat -> (j < n)%nat ->
  sim (fun x y => brel b0 (fst (fst x)) (fst (fst y)) /\ length (fst (fst y)) = n /\ snd (fst x) = snd (fst y) /\ snd x = snd y /\ (snd (fst x) <= n)%nat)
    (qs_partition fuel (Some g1) a low high i j) (qs_partition fuel (Some g2) b low high i j).
Proof.
  intros Hh. induction fuel as [|f IH]; intros a b i j H Hn Hi Hj; cbn [qs_partition].
  - destruct (i <? j)%nat; [intros ? [=]|apply sim_ok; auto].
  - destruct (i <? j)%nat; [|apply sim_ok; auto].
    eapply sim_bind; [eapply sim_up; [exact H|lia|lia]|]. intros i1 i2 (<- & Hi1).
    eapply sim_bind; [eapply sim_down; [exact H|lia]|]. intros j1 j2 (<- & Hj1).
    eapply sim_bind with (RR := fun a' b' => brel b0 a' b' /\ length b' = length b).
    { destruct (i1 <? j1)%nat; [now apply sim_swap|now apply sim_ok]. }
    intros a' b' (H' & L'). apply IH; [exact H'|lia..].
Qed.
Lemma sim_qs b0 n g1 g2 : forall fuel a b low high, brel b0 a b -> length b = n -> (high < n)%nat ->
  sim (fun a' b' => brel b0 a' b' /\ length b' = n)
    (vec_quicksort fuel (Some g1) a low high) (vec_quicksort fuel (Some g2) b low high).
Proof.
  induction fuel as [|f IH]; intros a b low high H Hn Hh; cbn [vec_quicksort].
  - destruct (low <? high)%nat; [intros ? [=]|now apply sim_ok].
  - destruct (Nat.ltb_spec low high) as [Hlh|]; [|now apply sim_ok].
    eapply sim_bind; [eapply sim_part; [exact Hh|exact H|exact Hn|lia|lia]|].
    intros ((a1 & i1) & j1) ((b1 & i2) & j2). cbn [fst snd]. intros (H1 & L1 & <- & <- & Li).
    eapply sim_bind; [apply sim_swap; exact H1|]. intros a2 b2 (H2 & L2).
    destruct i1 as [|i']; [intros ? [=]|].
    eapply sim_bind; [apply IH; [exact H2|lia|lia]|]. intros a3 b3 (H3 & L3). apply IH; [exact H3|lia|lia].
Qed.

Lemma sim_contains b0 a b n x r : brel b0 a b -> vrel x r ->
  sim eq (vec_contains (Vec n a) x (flit 1 5)) (vec_contains (Vec n b) r (flit 1 5)).
Proof.
  intros H Hx. unfold vec_contains. cbn [vsz vbuf].
  apply (@sim_for _ _ (fun _ => eq)); [reflexivity|]. intros i c c' _ <-.
  eapply sim_bind; [eapply sim_rd; eauto|]. intros y s Hy. apply sim_ok.
  destruct Hx as (Fx & <- & Ox), Hy as (Fy & <- & Oy). cbv zeta.
  now rewrite near_agrees by auto.
Qed.

Hypothesis H0 : ok 0.

Lemma brel_zero n : brel [] (cells (repeat (f0 : double) n)) (cells (repeat (0 : R) n)).
Proof.
  split; [now rewrite !cells_length, !repeat_length|]. rewrite cells_length, repeat_length. intros i Hi.
  unfold cells. rewrite !nth_error_map, !nth_error_repeat by exact Hi. cbn. eexists; split; [reflexivity|].
  split; [apply finite_zero|]. split; [apply FR_zero|exact H0].
Qed.

Lemma always x : finite x -> ((x >=? flit 1 5) || (x <=? flit 1 5))%num = true.
Proof.
  intros H. unfold fge. cbn [fle flit NumF]. destruct lit_eps as (Fe & _). rewrite !leb_dec by auto.
  repeat destruct (Rle_dec _ _); try reflexivity; lra.
Qed.
Lemma alwaysR (r : R) : ((r >=? flit 1 5) || (r <=? flit 1 5))%num = true.
Proof.
  unfold fge. cbn [fle NumR]. unfold Rleb. repeat destruct (Rle_dec _ _); try reflexivity; lra.
Qed.

Lemma sim_sort fuel g1 g2 b0 a (xs : list R) tx m wb :
  (forall r, In r xs -> ok r) -> brel b0 a (cells xs ++ tx) ->
  sim (fun x y => fst x = fst y /\ vsz (snd x) = m /\ brel wb (vbuf (snd x)) (vbuf (snd y)))
    (vec_sort fuel (Some g1) (Vec (length xs) a) (Vec m wb))
    (vec_sort fuel (Some g2) (vec_of xs tx) (Vec m (fresh (length wb)))).
Proof.
  intros Hxs Ha. set (n := length xs). unfold vec_sort. unfold vec_of. cbn [vsz vbuf]. fold n.
  rewrite !vec_init_ok by (rewrite fresh_length; lia). cbn [bind].
  rewrite !skipn_all2 by (rewrite fresh_length; lia). rewrite !app_nil_r.
  pose (RR := fun (j : nat) (x : vec double * nat) (y : vec R * nat) =>
    snd x = snd y /\ vsz (fst x) = n /\ exists D, fst y = Vec n (cells D) /\ length D = n /\
    brel [] (vbuf (fst x)) (cells D) /\ (snd y <= j)%nat /\ (forall i, (snd y <= i < n)%nat -> nth i D 0 = 0) /\
    (forall r, In r D -> ok r) /\ ((S (snd y) <= j)%nat \/ forall r, In r (firstn j xs) -> r <> 0)).
  eapply sim_bind.
  { apply (@sim_for _ _ RR).
    - split; [reflexivity|]. split; [reflexivity|]. exists (repeat 0 n). cbn [fst snd vbuf].
      split; [reflexivity|]. split; [apply repeat_length|]. split; [apply brel_zero|]. split; [lia|].
      split; [intros i Hi; apply nth_repeat|]. split; [intros r Hr; apply repeat_spec in Hr; now subst|].
      right. intros r [].
    - intros j (u & c) (u' & c') Hj (E1 & E2 & D & E3 & LD & Hu & Hc & Hz & HD & Hor).
      cbn [fst snd] in *. subst c' u'.
      eapply sim_bind with (RR := fun x r => vrel x r /\ r = nth j xs 0).
      { intros r Er. destruct (@sim_rd b0 a (cells xs ++ tx) j Ha r Er) as (x & Ex & Hx). exists x. split; [exact Ex|]. split; [exact Hx|].
        rewrite rd_cells_app with (d := 0) in Er by (fold n; lia). now injection Er. }
      intros x r (Hx & Er). rewrite always, alwaysR by apply Hx.
      eapply sim_bind with (RR := fun k1 k2 => k1 = k2 /\ k2 = length (filter (near r (flit 1 5)) D)).
      { intros k Ek. destruct u as [su bu]. cbn [vsz vbuf] in *. subst su.
        destruct (@sim_contains [] bu (cells D) n x r Hu Hx k Ek) as (k1 & E1 & <-). exists k1. split; [exact E1|]. split; [reflexivity|].
        replace (Vec n (cells D)) with (vec_of D []) in Ek by (unfold vec_of; rewrite LD, app_nil_r; reflexivity).
        rewrite vec_contains_ok in Ek. now injection Ek. }
      intros k1 k2 (<- & Ek). destruct (Nat.eqb_spec k1 0) as [E0|N0].
      + cbn [vbuf vsz].
        assert (Hr0 : r <> 0).
        { intros Z. assert (K : In 0 (filter (near r (flit 1 5)) D)).
          { apply filter_In. split; [replace 0 with (nth c D 0) at 1 by (apply Hz; lia); apply nth_In; lia|]. rewrite Z. apply near_apart; [left|]; reflexivity. }
          destruct (filter _ D); [contradiction|cbn in Ek; lia]. }
        eapply sim_bind with (RR := fun b1 b2 => brel [] b1 b2 /\ b2 = cells (upd D c r)).
        { intros b' E. destruct (@sim_wr [] (vbuf u) (cells D) c x r Hu Hx b' E) as (b1 & E1 & H1). exists b1. split; [exact E1|]. split; [exact H1|].
          rewrite wr_cells in E by lia. now injection E. }
        intros b1 b2 (Hb & ->). apply sim_ok. split; [reflexivity|]. split; [exact E2|]. exists (upd D c r). cbn [fst snd].
        split; [reflexivity|]. split; [now rewrite upd_length|]. split; [exact Hb|]. split; [lia|]. split.
        { intros i Hi. transitivity (nth i D 0); [|apply Hz; lia]. rewrite <- !nth_default_eq. unfold nth_default. now rewrite nth_error_upd_ne by lia. }
        split.
        { intros s Hs. apply In_nth_error in Hs as (i & Ei). rewrite nth_error_upd in Ei.
          destruct (Nat.eq_dec c i); [destruct (lt_dec c (length D)); [injection Ei as <-; apply Hx|discriminate]|].
          apply HD. eapply nth_error_In; eauto. }
        destruct Hor as [Hor|Hor]; [left; lia|right]. rewrite firstn_snoc with (d := 0) by (fold n; lia).
        intros s Hs. apply in_app_or in Hs as [Hs|[<-|[]]]; [auto|congruence].
      + apply sim_ok. split; [reflexivity|]. split; [exact E2|]. exists D. cbn [fst snd].
        split; [reflexivity|]. split; [exact LD|]. split; [exact Hu|]. split; [lia|]. split; [exact Hz|]. split; [exact HD|]. left. lia. }
  rewrite Nat.add_0_l. intros (u & c) (u' & c') (E1 & E2 & D & E3 & LD & Hu & Hc & Hz & HD & Hor).
  cbn [fst snd] in *. subst c' u'.
  eapply sim_bind with (RR := fun k1 k2 => k1 = k2 /\ k2 = length (filter (near 0 (flit 1 5)) xs)).
  { intros k Ek. destruct (@sim_contains b0 a (cells xs ++ tx) n zero 0 Ha (conj finite_zero (conj FR_zero H0)) k Ek) as (k1 & E1 & <-).
    exists k1. split; [exact E1|]. split; [reflexivity|].
    change (Vec n (cells xs ++ tx)) with (vec_of xs tx) in Ek. rewrite vec_contains_ok in Ek. now injection Ek. }
  intros k k2 (<- & Ek). set (cnt := if (0 <? k)%nat then S c else c).
  assert (Hcnt : (cnt <= n)%nat).
  { unfold cnt. destruct (Nat.ltb_spec 0 k) as [Hk|]; [|exact Hc]. destruct Hor as [Hor|Hor]; [exact Hor|].
    exfalso. destruct (filter (near 0 (flit 1 5)) xs) as [|s l] eqn:Ef; [cbn in Ek; lia|].
    assert (Hs : In s (filter (near 0 (flit 1 5)) xs)) by (rewrite Ef; now left).
    apply filter_In in Hs as (Hs & Hn). apply near_apart in Hn; [|apply Hsep; auto].
    apply (Hor s); [|exact Hn]. now rewrite firstn_all2 by (fold n; lia). }
  cbn zeta. fold cnt. destruct cnt as [|high] eqn:Ec; [intros ? [=]|].
  eapply sim_bind; [apply (@sim_qs [] n); [exact Hu|cbn [vbuf]; now rewrite cells_length|lia]|].
  intros ub ub' (Hub & _).
  eapply sim_bind.
  { apply (@sim_for _ _ (fun _ (x : buf double * nat) (y : buf R * nat) => snd x = snd y /\ brel wb (fst x) (fst y))).
    - split; [reflexivity|]. cbn [fst]. split; [now rewrite fresh_length|]. rewrite fresh_length. intros i Hi.
      unfold fresh. now rewrite nth_error_repeat by exact Hi.
    - intros i (w1 & c1) (w2 & c2) _ (E' & Hw). cbn [fst snd] in *. subst c2.
      eapply sim_bind; [eapply sim_rd; exact Hub|]. intros x r Hx.
      eapply sim_bind; [eapply sim_contains; [exact Ha|exact Hx]|]. intros k1 k2 <-.
      apply (@sim_for _ _ (fun _ (x : buf double * nat) (y : buf R * nat) => snd x = snd y /\ brel wb (fst x) (fst y))).
      + now split.
      + intros i' (w1' & c1') (w2' & c2') _ (E'' & Hw'). cbn [fst snd] in *. subst c2'.
        eapply sim_bind; [eapply sim_wr; [exact Hw'|exact Hx]|]. intros w1'' w2'' Hw''. now apply sim_ok. }
  intros (w1 & c1) (w2 & c2) (_ & Hw). cbn [fst snd] in *. now apply sim_ok.
Qed.
End Sim.

Lemma nth_ext_opt A (l l' : list A) : (forall i, nth_error l i = nth_error l' i) -> l = l'.
Proof.
  revert l'. induction l as [|a l IH]; intros [|b l'] H; [reflexivity|specialize (H 0%nat); discriminate..|].
  f_equal; [specialize (H 0%nat); now injection H|]. apply IH. intros i. apply (H (S i)).
Qed.
Lemma nth_error_skip A n (l : list A) i : nth_error (skipn n l) i = nth_error l (n + i).
Proof. revert l. induction n as [|n IH]; intros [|a l]; cbn; auto. now destruct i. Qed.

Lemma sort_flt (g : double) (xs : list double) tx m wb fuel :
  Forall finite xs -> separated (map FR xs) -> xs <> [] -> (length xs <= length wb)%nat -> (2 * length xs <= fuel)%nat ->
  exists ys, vec_sort fuel (Some g) (vec_of xs tx) (Vec m wb) = Ok (0%Z, Vec m (cells ys ++ skipn (length xs) wb))
    /\ Forall finite ys /\ Permutation (map FR xs) (map FR ys) /\ StronglySorted Rle (map FR ys).
Proof.
  intros Hf Hs Hne Hl Hfu. set (rs := map FR xs). set (n := length xs) in *.
  assert (Ln : length rs = n) by (unfold rs; apply map_length).
  destruct (@vec_sort_ok 0 rs (repeat None (length tx)) m (fresh (length wb)) fuel) as (ys & E & HP & HS).
  { exact Hs. } { unfold rs. destruct xs; [congruence|discriminate]. }
  { rewrite fresh_length. unfold rs. now rewrite map_length. } { unfold rs. now rewrite map_length. }
  pose (ok := fun r => In r (0 :: rs)).
  assert (B : brel ok (cells xs ++ tx) (cells xs ++ tx) (cells rs ++ repeat None (length tx))).
  { split; [rewrite !app_length, !cells_length, repeat_length; lia|]. intros i Hi.
    destruct (Nat.lt_ge_cases i n) as [H|H].
    - rewrite !nth_error_app1 by (rewrite cells_length; lia). unfold cells, rs. rewrite !nth_error_map.
      destruct (nth_error xs i) as [x|] eqn:Ex; [|apply nth_error_None in Ex; unfold n in *; lia].
      cbn [option_map]. exists x. split; [reflexivity|]. apply nth_error_In in Ex. split; [|split; [reflexivity|]].
      + rewrite Forall_forall in Hf. now apply Hf.
      + right. unfold rs. now apply in_map.
    - rewrite (nth_error_app2 (cells rs)) by (rewrite cells_length; lia).
      rewrite app_length, cells_length, repeat_length in Hi. rewrite cells_length.
      rewrite nth_error_repeat by lia. reflexivity. }
  assert (Hok : forall r, In r rs -> ok r) by (intros r Hr; now right).
  destruct (@sim_sort ok Hs (or_introl eq_refl) fuel g 0 _ _ rs _ m wb Hok B _ E) as ((rc & w) & Ew & E0 & Em & Hlw & Hw).
  cbn [fst snd vbuf] in *. subst rc.
  assert (Ly : length ys = n) by (rewrite <- (Permutation_length HP); exact Ln).
  rewrite Ln in *. change (Vec n (cells xs ++ tx)) with (vec_of xs tx) in Ew.
  rewrite app_length, cells_length, skipn_length, fresh_length in Hw, Hlw.
  exists (map (fun o => match o with Some x => x | None => zero end) (firstn n (vbuf w))).
  assert (Hi : forall i, (i < n)%nat -> exists x, nth_error (vbuf w) i = Some (Some x) /\ finite x /\ nth_error ys i = Some (FR x)).
  { intros i Hi. specialize (Hw i ltac:(lia)). rewrite nth_error_app1 in Hw by (rewrite cells_length; lia).
    unfold cells in Hw. rewrite nth_error_map in Hw. destruct (nth_error ys i) as [y|] eqn:Ey; [|apply nth_error_None in Ey; lia].
    destruct Hw as (x & Ex & Fx & <- & _). eauto. }
  assert (Hd : Forall2 (fun o y => exists x, o = Some x /\ finite x /\ y = FR x) (firstn n (vbuf w)) ys).
  { assert (Hlb : (n <= length (vbuf w))%nat) by lia. clear - Hi Ly Hlb. clearbody n. revert ys n Hi Ly Hlb.
    generalize (vbuf w) as b. induction b as [|o b IH]; intros [|y ys] [|n] Hi Ly Hlb;
      cbn in *; try discriminate; try lia; constructor.
    - destruct (Hi 0%nat ltac:(lia)) as (x & [= ->] & Fx & [= ->]). eauto.
    - apply IH; try lia. intros i Hi'. apply (Hi (S i)). lia. }
  assert (Eys : map FR (map (fun o => match o with Some x => x | None => zero end) (firstn n (vbuf w))) = ys /\
    Forall finite (map (fun o => match o with Some x => x | None => zero end) (firstn n (vbuf w))) /\
    cells (map (fun o => match o with Some x => x | None => zero end) (firstn n (vbuf w))) = firstn n (vbuf w)).
  { clear - Hd. induction Hd as [|o y l ys (x & -> & Fx & ->) _ (IH1 & IH2 & IH3)]; [repeat split; constructor|].
    cbn [map]. rewrite IH1. split; [reflexivity|]. split; [now constructor|]. unfold cells in *. cbn [map]. now rewrite IH3. }
  destruct Eys as (E1 & E2 & E3). rewrite E1, E3. split; [|auto]. rewrite Ew. destruct w as [sw bw]. cbn [vsz vbuf] in *. subst sw.
  f_equal. f_equal. f_equal. rewrite <- (firstn_skipn n bw) at 1. f_equal.
  apply nth_ext_opt. intros i. rewrite !nth_error_skip.
  destruct (Nat.lt_ge_cases (n + i) (length wb)) as [H|H].
  - specialize (Hw (n + i)%nat ltac:(lia)). rewrite nth_error_app2 in Hw by (rewrite cells_length; lia).
    rewrite cells_length, nth_error_skip in Hw. unfold fresh in Hw. rewrite nth_error_repeat in Hw by lia. exact Hw.
  - rewrite (proj2 (nth_error_None wb _)), (proj2 (nth_error_None bw _)); auto; lia.
Qed.
