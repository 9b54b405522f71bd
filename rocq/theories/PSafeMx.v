(** The absence of undefined behaviour in the matrix functions, for any
    arithmetic: determinant, adjoint, elimination, inverse, decompositions. *)
From Coq Require Import List Arith ZArith Bool Lia.
From Verif Require Import Base BaseFacts SpecVec SpecMtx SpecSafe MVec MMtx MDecomp
  PVec PMtx PMtxOps PSafe.
Import ListNotations.
Set Implicit Arguments.
Local Open Scope num_scope.
Local Open Scope nat_scope.

Lemma isb_iff T (n : nat) (b : buf T) :
  isb n b <-> n <= length b /\ forall i, i < n -> exists x, nth_error b i = Some (Some x).
Proof.
  split.
  - intros H. split; [now apply isb_length|]. destruct H as (xs & tl & H & ->). intros i Hi.
    rewrite nth_error_app1 by (rewrite cells_length; lia). unfold cells.
    destruct (nth_error xs i) as [x|] eqn:E.
    + exists x. now apply map_nth_error.
    + apply nth_error_None in E. lia.
  - intros (Hl & H). revert b Hl H. induction n as [|n IH]; intros b Hl H.
    + now exists [], b.
    + destruct (IH b) as (xs & tl & Hx & E); [lia|auto|]. subst n.
      destruct tl as [|o tl].
      { rewrite E, app_nil_r, cells_length in Hl. lia. }
      destruct (H (length xs)) as (x & Ex); [lia|]. rewrite E in Ex.
      rewrite nth_error_app2, cells_length, Nat.sub_diag in Ex by (rewrite cells_length; lia).
      cbn in Ex. injection Ex as ->. exists (xs ++ [x]), tl. split.
      * rewrite app_length. cbn. lia.
      * rewrite cells_app, <- app_assoc. exact E.
Qed.

Lemma isb_le T n k (b : buf T) : isb n b -> k <= n -> isb k b.
Proof. rewrite !isb_iff. intros (H1 & H2) Hk. split; [lia|]. intros; apply H2; lia. Qed.

Section Mat.
Context {T : Type} {N : Num T}.
Variable bc : bool.
Variable OF : Prop.
Hypothesis L : lawful N.
Notation NR := (~ total N).
Notation "'WP' P m" := (wp NR OF P m) (at level 10, P at level 9, m at level 9).

Ltac wb l := eapply wp_bind; [eapply l; eauto using ism_room, room_def; try lia|cbv beta].
Ltac wc l m H := eapply wp_bind; [eapply l; eauto using ism_room, room_def; try lia|
  let rc := fresh "rc" in let E := fresh "E" in
  intros (rc & m) (E & H); cbn [fst snd] in E, H; subst rc].

Lemma wp_rd' n (b : buf T) i : isb n b -> i < n -> WP (fun _ => True) (rd b i).
Proof. intros. now apply wp_rd with (n := n). Qed.

Lemma wp_wr n (b : buf T) i x : isb n b -> i < n ->
  WP (fun b' => isb n b' /\ length b' = length b) (wr b i x).
Proof.
  intros H Hi. pose proof (isb_length H). rewrite wr_ok by lia. cbn. split; [|apply upd_length].
  apply isb_iff in H. apply isb_iff. rewrite upd_length. split; [lia|]. intros j Hj.
  rewrite nth_error_upd. destruct (Nat.eq_dec i j).
  - destruct (lt_dec _ _); [eauto|lia].
  - now apply H.
Qed.

(** writing the next element of a buffer that is filled from the front *)
Lemma wp_wr_next n (b : buf T) x : isb n b -> n < length b ->
  WP (fun b' => isb (S n) b' /\ length b' = length b) (wr b n x).
Proof.
  intros H Hn. rewrite wr_ok by lia. cbn. split; [|apply upd_length].
  apply isb_iff in H. apply isb_iff. rewrite upd_length. split; [lia|]. intros j Hj.
  rewrite nth_error_upd. destruct (Nat.eq_dec n j).
  - destruct (lt_dec _ _); [eauto|lia].
  - apply H. lia.
Qed.

Lemma wp_wr_any (b : buf T) i x : i < length b -> WP (fun b' => length b' = length b) (wr b i x).
Proof. intros. rewrite wr_ok by lia. cbn. apply upd_length. Qed.

Lemma isb_0 (b : buf T) : isb 0 b.
Proof. apply isb_iff. split; lia. Qed.

Lemma ism_isb r c tl (m : mtx T) : ism r c tl m -> mrows m = r /\ mcols m = c /\ isb (r * c) (mbuf m).
Proof.
  intros (f & ->). repeat split. do 2 eexists. split; [|reflexivity]. now rewrite map_length, seq_length.
Qed.

Lemma isb_ism r c (b : buf T) : isb (r * c) b -> ism r c (skipn (r * c) b) (Mtx r c b).
Proof.
  intros (xs & tl & Hx & ->). exists (fun i j => nth (i * c + j) xs f0). unfold mat_of. f_equal. f_equal.
  - unfold cells. f_equal. apply nth_list_ext with (d := f0).
    + now rewrite map_length, seq_length.
    + intros k Hk. rewrite nth_map_seq by lia. rewrite Hx in Hk.
      destruct (flat_bounds r c Hk) as (_ & _ & E). now rewrite <- E.
  - rewrite skipn_app_all; auto. now rewrite cells_length.
Qed.

Lemma room_0 (m : mtx T) r c : mrows m = r -> mcols m = c -> r * c <= length (mbuf m) -> room r c m.
Proof. now repeat split. Qed.

(** a matrix whose elements in P have values *)
Definition osm (r c : nat) (tl : buf T) (P : nat -> nat -> Prop) (m : mtx T) : Prop :=
  exists F, m = otab r c F tl /\ forall a b, a < r -> b < c -> P a b -> exists x : T, F a b = Some x.

Lemma room_osm r c m : room r c m -> osm r c (rest m) (fun _ _ => False) m.
Proof. intros H. destruct (room_otab H) as (F & E). exists F. split; [exact E|contradiction]. Qed.
Lemma osm_all r c tl (P : nat -> nat -> Prop) m : osm r c tl P m -> (forall a b, a < r -> b < c -> P a b) -> ism r c tl m.
Proof.
  intros (F & -> & H) HP. exists (fun a b => match F a b with Some x => x | None => f0 end).
  apply otab_mat. intros a b Ha Hb. destruct (H a b) as (x & ->); auto.
Qed.
Lemma osm_room r c tl P m : osm r c tl P m -> room r c m.
Proof. intros (F & -> & _). apply otab_room. Qed.
Lemma osm_imp r c tl (P Q : nat -> nat -> Prop) m : osm r c tl P m -> (forall a b, a < r -> b < c -> Q a b -> P a b) -> osm r c tl Q m.
Proof. intros (F & -> & H) HQ. exists F. split; auto. Qed.

Lemma wp_oset r c tl P m i j x : osm r c tl P m -> i < r -> j < c ->
  WP (code0 (osm r c tl (fun a b => P a b \/ (a = i /\ b = j)))) (mtx_set bc m i j x).
Proof.
  intros (F & -> & H) Hi Hj. eapply wp_eq; [now apply mtx_set_otab|]. split; [reflexivity|]. cbn.
  eexists. split; [reflexivity|]. intros a b Ha Hb Hp. unfold fupd.
  destruct (Nat.eqb_spec a i), (Nat.eqb_spec b j); cbn [andb]; eauto; apply H; auto; destruct Hp as [Hp|Hp]; auto; exfalso; lia.
Qed.

Lemma wp_oset_col r c tl P m j v : osm r c tl P m -> j < c -> isb r v ->
  WP (code0 (osm r c tl (fun a b => P a b \/ b = j))) (mtx_set_col bc m j v).
Proof.
  intros (F & -> & H) Hj (xs & tv & Hx & ->).
  eapply wp_eq; [apply mtx_set_col_otab with (d := f0); auto|]. split; [reflexivity|]. cbn.
  eexists. split; [reflexivity|]. intros a b Ha Hb Hp.
  cbv beta. destruct (Nat.eqb_spec b j); [eauto|]. apply H; auto; destruct Hp as [Hp|Hp]; auto; exfalso; lia.
Qed.

Lemma wp_oget_col r c tl P m j v : osm r c tl P m -> j < c -> (forall a, a < r -> P a j) -> r <= length v ->
  WP (code0 (fun w => isb r w /\ length w = length v)) (mtx_get_col bc m j v).
Proof.
  intros (F & -> & H) Hj HP Hv. unfold mtx_get_col. eapply wp_bind with
    (P := fun r0 => match r0 with inl w => isb r w /\ length w = length v | inr e => False end).
  2: { intros [w|e] Hw; [|contradiction]. cbn. split; auto. }
  change (mrows (otab r c F tl)) with r.
  enough (G : forall k w, isb k w -> length w = length v -> k <= r ->
     WP (fun r0 : buf T + (Z * buf T) => match r0 with inl w => isb r w /\ length w = length v | inr e => False end)
       (for_exit (r - k) k (fun i w => let! (rc, x) := mtx_get bc (otab r c F tl) i j in
              match x with None => Ok (inr (rc, w)) | Some x => let! w := wr w i x in Ok (inl w) end) w)).
  { specialize (G 0 v (isb_0 v) eq_refl (Nat.le_0_l r)). now rewrite Nat.sub_0_r in G. }
  intros k. remember (r - k) as d eqn:Ed. revert k Ed. induction d as [|d IH]; intros k Ed w Hw Hlw Hk.
  - cbn. split; auto. now replace r with k by lia.
  - cbn [for_exit]. rewrite mtx_get_otab by lia. destruct (H k j) as (x & ->); [lia|auto|apply HP; lia|].
    cbn [bind]. eapply wp_bind with (P := fun r0 => match r0 with inl w => isb (S k) w /\ length w = length v | inr e => False end).
    + eapply wp_bind; [apply wp_wr_next; eauto; lia|]. intros w' (Hw' & Hl'). cbn. split; [auto|lia].
    + intros [w'|e] Hw'; [|contradiction]. destruct Hw'. apply IH; auto; lia.
Qed.

(** ** Minors and determinants *)

Lemma wp_reduce n tl (m mr : mtx T) i j : ism (S n) (S n) tl m -> room n n mr -> i < S n -> j < S n ->
  WP (code0 (ism n n (rest mr))) (mtx_reduce bc m mr i j).
Proof. intros (f & ->) H Hi Hj. eapply wp_eq; [now apply mtx_reduce_ok|split; [reflexivity|apply ism_mat]]. Qed.

Definition some_code0 (x : Z * option T) : Prop := exists d, x = (0%Z, Some d).

Lemma wp_deter_3x3 tl m : ism 3 3 tl m -> WP some_code0 (mtx_deter_3x3 bc m).
Proof.
  intros H. destruct (ism_isb H) as (Hr & Hc & Hb). unfold mtx_deter_3x3. rewrite Hr, Hc.
  cbn [Nat.eqb negb]. rewrite andb_false_r.
  do 9 (eapply wp_bind; [apply wp_rd with (n := 3 * 3); [exact Hb|lia]|intros ? _]).
  cbn. eexists. reflexivity.
Qed.

Lemma wp_deter_f fuel : forall n tl m, n <= fuel -> ism n n tl m -> WP some_code0 (deter_f bc fuel m).
Proof.
  induction fuel as [|fuel IH]; intros n tl m Hn H; destruct (ism_isb H) as (Hr & Hc & Hb).
  - destruct n as [|n]; [|lia]. cbn. rewrite Hr, Hc. cbn. eexists. reflexivity.
  - destruct n as [|[|[|[|n]]]].
    + cbn. rewrite Hr, Hc. cbn. eexists. reflexivity.
    + cbn [deter_f]. rewrite Hr. wb (@wp_rd T N OF 1). intros x _. cbn. eexists. reflexivity.
    + cbn [deter_f]. rewrite Hr.
      do 4 (eapply wp_bind; [apply wp_rd with (n := 2 * 2); [exact Hb|lia]|intros ? _]).
      cbn. eexists. reflexivity.
    + cbn [deter_f]. rewrite Hr. eapply wp_deter_3x3; eauto.
    + cbn [deter_f]. rewrite Hr, Hc, Nat.eqb_refl. cbn [negb]. rewrite andb_false_r.
      set (n1 := S (S (S n))) in *. change (S (S (S (S n)))) with (S n1) in *.
      eapply wp_bind with (P := fun r0 => match r0 with inl s => True | inr e => False end).
      2: { intros [((d & mr) & cur)|e] He; [|contradiction]. cbn. eexists. reflexivity. }
      eapply wp_imp; [apply wp_for_exit with (P := fun s => room n1 n1 (snd (fst s))) (Q := fun _ => False)|].
      * apply room_def.
      * intros g ((d & mr) & cur) Hg Hroom. cbn [fst snd] in Hroom.
        wb (@wp_lget T N bc OF (S n1) (S n1)). intros y (v & ->).
        wc (@wp_init0 T N bc OF n1 n1) mr1 H1.
        wc (@wp_reduce n1) mr2 H2.
        eapply wp_bind; [apply IH with (n := n1) (tl := rest mr1); [unfold n1 in *; lia|exact H2]|]. intros x (dt & ->).
        cbn. eapply ism_room; eauto.
      * intros [s|e]; auto.
Qed.

Lemma wp_deter n tl m : ism n n tl m -> WP some_code0 (mtx_deter bc m).
Proof. intros H. destruct (ism_isb H) as (Hr & _). unfold mtx_deter. rewrite Hr. eapply wp_deter_f; eauto. Qed.

Lemma wp_adj_step mb ab k a b c d : isb 9 mb -> isb k ab -> 9 <= length ab -> k < 9 ->
  a < 9 -> b < 9 -> c < 9 -> d < 9 ->
  WP (fun st => exists ab', st = [mb; ab'] /\ isb (S k) ab' /\ length ab' = length ab)
    (let! xa := srd [mb; ab] 0 a in let! xb := srd [mb; ab] 0 b in
     let! xc := srd [mb; ab] 0 c in let! xd := srd [mb; ab] 0 d in
     swr [mb; ab] 1 k (xa * xb - xc * xd)%num).
Proof.
  intros. unfold srd, swr. cbn [nth_error].
  do 4 (eapply wp_bind; [apply wp_rd with (n := 9); [assumption|lia]|intros ? _]).
  eapply wp_bind; [apply wp_wr_next; eauto; lia|]. intros ab' (H7 & H8). cbn. eauto.
Qed.

Lemma wp_adjoint_3x3 tl m ma : ism 3 3 tl m -> room 3 3 ma ->
  WP (code0 (fun x => mrows x = 3 /\ mcols x = 3 /\ isb 9 (mbuf x) /\ length (mbuf x) = length (mbuf ma)))
     (mtx_adjoint_3x3 bc m ma).
Proof.
  intros H Hm. destruct (ism_isb H) as (Hr & Hc & Hb). destruct Hm as (Hr' & Hc' & Hl).
  unfold mtx_adjoint_3x3. rewrite Hr, Hc, Hr', Hc'. unfold adjoint_3x3_st. cbn [rrows rcols mptr Nat.eqb negb orb].
  rewrite andb_false_r. change (3 * 3) with 9 in *.
  eapply wp_bind with (P := code0 (fun st => exists ab, st = [mbuf m; ab] /\ isb 9 ab /\ length ab = length (mbuf ma))).
  2: { intros (rc & st) (E & ab & Est & Ha & Hl'). cbn [fst snd] in E, Est. subst rc st. cbn. repeat split; auto. }
  pose proof (isb_0 (mbuf ma)) as H0. remember (mbuf ma) as ab0 eqn:Eab. clear Eab.
  do 9 (eapply wp_bind; [apply wp_adj_step; [exact Hb|eassumption|lia|lia|lia|lia|lia|lia]|
     let ab := fresh "ab" in let Hx := fresh "Hx" in let Hlx := fresh "Hlx" in
     intros ? (ab & -> & Hx & Hlx)]).
  cbn. split; [reflexivity|]. eexists. split; [reflexivity|]. split; [assumption|]. cbn. lia.
Qed.

Lemma wp_adjoint_3x3' tl m ma : ism 3 3 tl m -> room 3 3 ma ->
  WP (code0 (fun x => room 3 3 x /\ exists tl, ism 3 3 tl x)) (mtx_adjoint_3x3 bc m ma).
Proof.
  intros H Hm. eapply wp_imp; [eapply wp_adjoint_3x3; eauto|]. intros (rc & x) (E & Hr & Hc & Hb & _).
  cbn [fst snd] in *. split; [exact E|]. cbn. assert (H3 : ism 3 3 (skipn (3 * 3) (mbuf x)) x).
  { destruct x as [r c b]. cbn in *. subst. now apply (@isb_ism 3 3). }
  split; eauto using ism_room.
Qed.

Lemma wp_adjoint n tl m ma : ism n n tl m -> room n n ma ->
  WP (code0 (fun x => exists tl, ism n n tl x)) (mtx_adjoint bc m ma).
Proof.
  intros H Hm. destruct (ism_isb H) as (Hr & Hc & Hb). unfold mtx_adjoint. rewrite Hr, Hc.
  destruct (Nat.eqb_spec n 3) as [->|H3].
  { eapply wp_imp; [eapply wp_adjoint_3x3'; eauto|]. intros x (E & _ & H'). split; auto. }
  rewrite Nat.eqb_refl. cbn [negb]. rewrite andb_false_r. cbv zeta.
  eapply wp_bind with (P := fun s => osm n n (rest ma) (fun a b => a < n) (fst (fst s))).
  2: { intros ((ma' & mr) & d) Hs. split; [reflexivity|]. exists (rest ma). cbn. eapply osm_all; eauto. }
  eapply wp_imp; [apply wp_for with (lo := 0) (n := n) (P := fun i s => room (n - 1) (n - 1) (snd (fst s)) /\
     osm n n (rest ma) (fun a b => a < i) (fst (fst s)))|].
  - cbn. split; [apply room_def|]. eapply osm_imp; [now apply room_osm|]. intros; cbv beta in *; lia.
  - intros i ((ma1 & mr1) & d1) Hi (Hr1 & Ho1). cbn [fst snd] in *.
    eapply wp_imp; [apply wp_for with (lo := 0) (n := n) (P := fun j s => room (n - 1) (n - 1) (snd (fst s)) /\
       osm n n (rest ma) (fun a b => a < i \/ (a = i /\ b < j)) (fst (fst s)))|].
    + cbn. split; auto. eapply osm_imp; eauto. intros; cbv beta in *; lia.
    + intros j ((ma2 & mr2) & d2) Hj (Hr2 & Ho2). cbn [fst snd] in *.
      destruct n as [|n]; [lia|]. replace (S n - 1) with n in * by lia.
      wc (@wp_reduce n) mr3 H3'.
      wb wp_deter. intros x (dt & ->). cbn [bind lval].
      wc (@wp_oset (S n) (S n)) ma3 H4. cbn [wp fst snd]. split; [eapply ism_room; eauto|].
      eapply osm_imp; eauto. intros; cbv beta in *; lia.
    + intros ((ma2 & mr2) & d2) (Hr2 & Ho2). cbn [fst snd] in *. split; auto.
      eapply osm_imp; eauto. intros; cbv beta in *; lia.
  - intros ((ma1 & mr1) & d1) (_ & Ho). exact Ho.
Qed.

(** ** Elimination *)

Lemma wp_scaled r c tl m i j s : ism r c tl m -> i < r -> j < r ->
  WP (snd_is (ism r c tl)) (mtx_sum_rows_scaled_d bc m i j s).
Proof.
  intros H Hi Hj. destruct (bc && ((mrows m <=? i) || (mcols m <=? j))) eqn:E.
  - unfold mtx_sum_rows_scaled_d. rewrite E. exact H.
  - destruct H as (f & ->). eapply wp_eq; [apply mtx_sum_rows_scaled_d_ok; auto|apply ism_mat].
    intros Hbc. rewrite Hbc in E. cbn in E. apply orb_false_iff in E. destruct E as (_ & E).
    now apply Nat.leb_gt in E.
Qed.

Definition both r c tl ci ti (x : Z * (mtx T * mtx T)) : Prop :=
  ism r c tl (fst (snd x)) /\ ism r ci ti (snd (snd x)).

Lemma wp_gauss_elim_body r c tl ci ti mg mi i j : ism r c tl mg -> ism r ci ti mi -> i < r -> j < c ->
  WP (both r c tl ci ti) (gauss_elim_body bc mg mi i j).
Proof.
  intros Hg Hi Hir Hjc. unfold gauss_elim_body. destruct Hg as (f & Ef). rewrite Ef, mtx_get_mat by auto.
  cbn [bind]. rewrite <- Ef. assert (Hg : ism r c tl mg) by (exists f; auto). clear Ef.
  destruct (is_tiny _); [split; auto|].
  eapply wp_bind with (P := fun r0 => match r0 with
     | inl s => both r c tl ci ti (0%Z, fst s) | inr e => both r c tl ci ti e end).
  2: { intros [((mg' & mi') & x)|e] He; exact He. }
  apply wp_for_exit with (P := fun s => both r c tl ci ti (0%Z, fst s)); [split; auto|].
  destruct (ism_isb Hg) as (Hr & _). rewrite Hr.
  intros p ((mg1 & mi1) & x) Hp (H1 & H2). cbn [fst snd] in *.
  destruct (p =? i); [split; auto|].
  wb (@wp_lget T N bc OF r c). intros y (v & ->). cbn [bind lval].
  destruct (is_big v); [|split; auto].
  eapply wp_bind; [apply wp_div; auto|]. intros q _.
  eapply wp_bind; [apply (@wp_scaled r c tl); eauto; lia|]. intros (rc1 & mg2) H3. cbn in H3.
  destruct (negb (rc1 =? 0)%Z); [split; auto|].
  eapply wp_bind; [apply (@wp_scaled r ci ti); eauto; lia|]. intros (rc2 & mi2) H4. cbn in H4.
  destruct (negb (rc2 =? 0)%Z); split; auto.
Qed.

Lemma wp_gauss_elim r c tl ci ti m mg mi i j : ism r c tl m -> room r c mg -> ism r ci ti mi -> i < r -> j < c ->
  WP (both r c (rest mg) ci ti) (mtx_gauss_elim bc m mg mi i j).
Proof.
  intros H Hg Hi Hir Hjc. unfold mtx_gauss_elim. wc (@wp_copy T N bc OF r c) mg1 H1. cbn.
  eapply wp_gauss_elim_body; eauto.
Qed.

Lemma wp_gauss_elim_d r c tl ci ti m mi i j : ism r c tl m -> ism r ci ti mi -> i < r -> j < c ->
  WP (both r c tl ci ti) (mtx_gauss_elim_d bc m mi i j).
Proof.
  intros H Hi Hir Hjc. unfold mtx_gauss_elim_d. rewrite <- (ism_rest H).
  eapply wp_gauss_elim; eauto using ism_room.
Qed.

Lemma wp_norm_elem_body r c tl ci ti mg mi i j : ism r c tl mg -> ism r ci ti mi -> i < r -> j < c ->
  WP (both r c tl ci ti) (norm_elem_body bc mg mi i j).
Proof.
  intros Hg Hi Hir Hjc. unfold norm_elem_body. destruct Hg as (f & Ef). rewrite Ef, mtx_get_mat by auto.
  cbn [bind]. rewrite <- Ef. assert (Hg : ism r c tl mg) by (exists f; auto). clear Ef.
  destruct (is_tiny _); [split; auto|].
  eapply wp_bind; [apply wp_div; auto|]. intros s _.
  wc (@wp_scalar_row T N bc OF r c tl) mg1 H1. cbn.
  wc (@wp_scalar_row T N bc OF r ci ti) mi1 H2. cbn. split; auto.
Qed.

Lemma wp_norm_elem r c tl ci ti m mg mi i j : ism r c tl m -> room r c mg -> ism r ci ti mi -> i < r -> j < c ->
  WP (both r c (rest mg) ci ti) (mtx_norm_elem bc m mg mi i j).
Proof.
  intros H Hg Hi Hir Hjc. unfold mtx_norm_elem. wc (@wp_copy T N bc OF r c) mg1 H1. cbn.
  eapply wp_norm_elem_body; eauto.
Qed.

Lemma wp_norm_elem_d r c tl ci ti m mi i j : ism r c tl m -> ism r ci ti mi -> i < r -> j < c ->
  WP (both r c tl ci ti) (mtx_norm_elem_d bc m mi i j).
Proof.
  intros H Hi Hir Hjc. unfold mtx_norm_elem_d. rewrite <- (ism_rest H).
  eapply wp_norm_elem; eauto using ism_room.
Qed.

Lemma wp_gauss_reduc r c tl ci ti m mi mg : r <= c -> ism r c tl m -> ism r ci ti mi -> room r c mg ->
  WP (code0 (fun x => ism r ci ti (fst x) /\ ism r c (rest mg) (snd x))) (mtx_gauss_reduc bc m mi mg).
Proof.
  intros Hrc H Hi Hg. unfold mtx_gauss_reduc. destruct (ism_isb H) as (Hr & _). rewrite Hr.
  wc (@wp_copy T N bc OF r c) mg1 H1. set (tg := rest mg) in *. clearbody tg.
  eapply wp_bind with (P := fun s => let '(mi, mg, v, x, y) := s in
     ism r ci ti mi /\ ism r c tg mg /\ r <= length v).
  2: { intros ((((mi' & mg') & v) & x) & y) (H2 & H3 & _). cbn. split; auto. }
  apply wp_for0; [repeat split; auto; now rewrite fresh_length|].
  intros k ((((mi2 & mg2) & v) & x) & y) Hk (H2 & H3 & H4).
  wb (@wp_lget T N bc OF r c). intros xv (xw & ->). cbn [bind lval].
  eapply wp_bind with (P := fun s => let '(mi, mg, v, y) := s in
     ism r ci ti mi /\ ism r c tg mg /\ r <= length v).
  - destruct (is_tiny xw); [|now repeat split].
    wc (@wp_get_col T N bc OF r c) v1 H5. destruct H5 as (H5 & H6).
    eapply wp_bind with (P := fun r0 => match r0 with
       | inl y => True | inr (mi, mg, y) => ism r ci ti mi /\ ism r c tg mg end).
    + eapply wp_imp; [apply wp_for_exit with (P := fun _ => True)
        (Q := fun r0 : mtx T * mtx T * option T => let '(mi, mg, y) := r0 in ism r ci ti mi /\ ism r c tg mg); auto|].
      * intros q y1 Hq _. wb (@wp_lget T N bc OF r c). intros yv (yw & ->).
        eapply wp_bind; [apply (@wp_rd' r); auto; lia|]. intros vq _.
        destruct (is_big vq); [|exact I]. eapply wp_bind with (P := fun _ => True).
        { destruct (q <? k); cbn; auto. }
        intros keep _. destruct keep; [exact I|].
        wc (@wp_sum_rows T N bc OF r c tg) mg3 H7.
        wc (@wp_sum_rows T N bc OF r ci ti) mi3 H8. cbn. auto.
      * intros [y1|((mi3 & mg3) & y1)]; auto.
    + intros [y1|((mi3 & mg3) & y1)] H7; cbn; repeat split; auto; try tauto; lia.
  - intros (((mi3 & mg3) & v3) & y3) (H5 & H6 & H7).
    eapply wp_bind; [apply (@wp_gauss_elim_d r c tg ci ti); auto; lia|].
    intros (rc4 & (mg4 & mi4)) (H8 & H9). cbn [fst snd] in *.
    eapply wp_bind; [apply (@wp_norm_elem_d r c tg ci ti); auto; lia|].
    intros (rc5 & (mg5 & mi5)) (H10 & H11). cbn [fst snd] in *. cbn. auto.
Qed.

Lemma wp_inv_3x3 tl m mi : ism 3 3 tl m -> room 3 3 mi ->
  WP (code0 (fun x => exists t, ism 3 3 t x)) (mtx_inv_3x3 bc m mi).
Proof.
  intros H Hi. destruct (ism_isb H) as (Hr & Hc & _). pose proof Hi as (Hr' & Hc' & _).
  unfold mtx_inv_3x3. rewrite Hr, Hc, Hr', Hc'. cbn [Nat.eqb negb orb]. rewrite andb_false_r.
  wb wp_deter_3x3. intros x (d & ->). cbn [Z.eqb negb].
  wc wp_adjoint_3x3' mi1 H1. destruct H1 as (H1 & t & H2). cbn [Z.eqb negb bind lval].
  destruct (fne d f0).
  - eapply wp_bind; [apply wp_div; auto|]. intros s _. wc (@wp_scalar T N OF 3 3) mi2 H3.
    cbn. split; cbn; eauto.
  - wc (@wp_init1 T N bc OF 3 3) mi2 H3. cbn. split; cbn; eauto.
Qed.

Lemma wp_inv n tl m mi : ism n n tl m -> room n n mi ->
  WP (code0 (fun x => exists t, ism n n t x)) (mtx_inv bc m mi).
Proof.
  intros H Hi. destruct (ism_isb H) as (Hr & Hc & _). pose proof Hi as (Hr' & Hc' & _).
  unfold mtx_inv. rewrite Hr, Hc, Hr', Hc'. destruct (Nat.eqb_spec n 3) as [->|H3].
  { eapply wp_inv_3x3; eauto. }
  rewrite Nat.eqb_refl. cbn [negb orb]. rewrite andb_false_r.
  wc (@wp_copy T N bc OF n n) mt H1. cbn [Z.eqb negb].
  wc (@wp_init1 T N bc OF n n) mi1 H2. cbn [Z.eqb negb].
  wb wp_deter. intros x (d & ->). destruct (_ =? _)%num; [split; cbn; eauto|].
  eapply wp_bind; [eapply (@wp_gauss_reduc n n); eauto using ism_room|].
  intros (rc & (mi2 & mg2)) (E & H4 & H5). cbn in *. split; cbn; eauto.
Qed.

End Mat.
