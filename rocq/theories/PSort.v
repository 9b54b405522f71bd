(** zsl_vec_sort over the real numbers. *)
From Coq Require Import List Arith ZArith Bool Lia Reals Lra Permutation Sorted.
From Verif Require Import Base BaseFacts SpecVec MVec PVec NumR SpecReal PVecR.
Import ListNotations.
Local Open Scope R_scope.

Section QS.
Variable g : R.     (* what a read one past the end yields *)

Lemma rdg_cells (l : list R) i d :
  (i < length l)%nat -> rdg (Some g) (cells l) i = Ok (nth i l d).
Proof.
  intros H. unfold rdg. rewrite cells_length.
  rewrite (proj2 (Nat.eqb_neq _ _)) by lia. now apply rd_cells.
Qed.

Lemma rdg_end (l : list R) : rdg (Some g) (cells l) (length l) = Ok g.
Proof. unfold rdg. now rewrite cells_length, Nat.eqb_refl. Qed.

Lemma rdg_le (l : list R) i :
  (i <= length l)%nat -> exists y, rdg (Some g) (cells l) i = Ok y.
Proof.
  intros H. destruct (Nat.eq_dec i (length l)) as [->|].
  - eexists; apply rdg_end.
  - eexists. apply rdg_cells with (d := 0). lia.
Qed.

Lemma scan_up_ok x low high M1 : forall P Q fuel,
  (low < length (P ++ M1 ++ Q))%nat -> nth low (P ++ M1 ++ Q) 0 = x ->
  Forall (fun a => a <= x) M1 ->
  (length P + length M1 = S high)%nat
  \/ (length P + length M1 <= high)%nat /\ (exists y Q', Q = y :: Q' /\ x < y) ->
  (length M1 < fuel)%nat ->
  qs_scan_up fuel (Some g) (cells (P ++ M1 ++ Q)) low high (length P)
  = Ok (length P + length M1)%nat.
Proof.
  induction M1 as [|a M1 IH]; intros P Q fuel Hlow Hx Hall Hstop Hf.
  - destruct fuel as [|fuel]; [cbn in Hf; lia|]. cbn [qs_scan_up app length] in *.
    rewrite Nat.add_0_r in *.
    destruct Hstop as [Hs|[Hs (y & Q' & -> & Hy)]].
    + destruct (rdg_le (P ++ Q) (length P)) as [y Ey]; [rewrite app_length; lia|].
      rewrite Ey. cbn [bind]. rewrite rd_cells with (d := 0) by auto. cbn [bind].
      rewrite (proj2 (Nat.leb_gt _ _)) by lia. now rewrite andb_false_r.
    + rewrite rdg_cells with (d := 0) by (rewrite app_length; cbn; lia). cbn [bind].
      rewrite rd_cells with (d := 0) by auto. cbn [bind]. rewrite Hx, nth_middle.
      cbn [fle NumR]. now rewrite Rleb_false by lra.
  - destruct fuel as [|fuel]; [cbn in Hf; lia|]. cbn [qs_scan_up].
    cbn [length] in *. pose proof (Forall_inv Hall) as Ha; apply Forall_inv_tail in Hall; cbn beta in Ha.
    rewrite rdg_cells with (d := 0) by (rewrite !app_length; cbn; lia). cbn [bind].
    rewrite rd_cells with (d := 0) by auto. cbn [bind]. rewrite Hx. cbn [app].
    rewrite nth_middle. cbn [fle NumR]. rewrite Rleb_true by auto.
    rewrite (proj2 (Nat.leb_le _ _)) by lia. cbn [andb].
    specialize (IH (P ++ [a]) Q fuel).
    replace (length (P ++ [a])) with (S (length P)) in IH by (rewrite app_length; cbn; lia).
    rewrite <- !app_assoc in IH. cbn [app] in IH. cbn [app] in Hlow, Hx.
    rewrite IH; auto; try lia; [f_equal; lia|].
    destruct Hstop as [Hs|[Hs Hq]]; [left; lia|right; split; [lia|exact Hq]].
Qed.

Lemma scan_down_ok x low M2 : forall P y Q fuel,
  (low < length (P ++ y :: M2 ++ Q))%nat -> nth low (P ++ y :: M2 ++ Q) 0 = x ->
  Forall (fun a => x < a) M2 -> y <= x -> (low <= length P)%nat ->
  (length M2 < fuel)%nat ->
  qs_scan_down fuel (Some g) (cells (P ++ y :: M2 ++ Q)) low low (length P + length M2)
  = Ok (length P).
Proof.
  induction M2 as [|a M2 IH] using rev_ind; intros P y Q fuel Hlow Hx Hall Hy Hl Hf.
  - destruct fuel as [|fuel]; [cbn in Hf; lia|]. cbn [qs_scan_down app length] in *.
    rewrite Nat.add_0_r.
    rewrite rdg_cells with (d := 0) by (rewrite app_length; cbn; lia). cbn [bind].
    rewrite rd_cells with (d := 0) by auto. cbn [bind]. rewrite Hx, nth_middle.
    unfold fgt. cbn [flt NumR]. now rewrite Rltb_false by lra.
  - destruct fuel as [|fuel]; [cbn in Hf; lia|]. cbn [qs_scan_down].
    replace (length (M2 ++ [a])) with (length M2 + 1)%nat in * by (rewrite app_length; reflexivity).
    apply Forall_app in Hall as [Hall Ha]. apply Forall_inv in Ha; cbn beta in Ha.
    rewrite rdg_cells with (d := 0) by (rewrite !app_length; cbn; rewrite !app_length; cbn; lia).
    cbn [bind]. rewrite rd_cells with (d := 0) by auto. cbn [bind]. rewrite Hx.
    assert (E : P ++ y :: (M2 ++ [a]) ++ Q = (P ++ y :: M2) ++ a :: Q).
    { rewrite <- !app_assoc. reflexivity. }
    assert (Ea : nth (length P + (length M2 + 1)) (P ++ y :: (M2 ++ [a]) ++ Q) 0 = a).
    { rewrite E. replace (length P + (length M2 + 1))%nat with (length (P ++ y :: M2))
        by (rewrite app_length; cbn; lia). apply nth_middle. }
    rewrite Ea. unfold fgt. cbn [flt NumR]. rewrite Rltb_true by auto.
    rewrite (proj2 (Nat.leb_le _ _)) by lia. cbn [andb].
    replace (length P + (length M2 + 1))%nat with (S (length P + length M2)) by lia.
    replace (P ++ y :: (M2 ++ [a]) ++ Q) with (P ++ y :: M2 ++ a :: Q) in *
      by (rewrite <- !app_assoc; reflexivity).
    apply IH; auto. lia.
Qed.

Lemma qs_swap_ok (A B C : list R) a b :
  qs_swap (cells (A ++ a :: B ++ b :: C)) (length A) (length A + S (length B))
  = Ok (cells (A ++ b :: B ++ a :: C)).
Proof.
  unfold qs_swap.
  assert (L : length (A ++ a :: B ++ b :: C) = (length A + S (length B + S (length C)))%nat).
  { rewrite app_length. cbn. rewrite app_length. reflexivity. }
  rewrite !rd_cells with (d := 0) by lia. cbn [bind]. rewrite nth_middle.
  assert (E : nth (length A + S (length B)) (A ++ a :: B ++ b :: C) 0 = b).
  { replace (A ++ a :: B ++ b :: C) with ((A ++ a :: B) ++ b :: C) by (now rewrite <- app_assoc).
    replace (length A + S (length B))%nat with (length (A ++ a :: B)) by (rewrite app_length; reflexivity).
    apply nth_middle. }
  rewrite E. rewrite wr_cells by lia. cbn [bind].
  rewrite upd_app_mid. rewrite wr_cells.
  2:{ rewrite app_length. cbn. rewrite app_length. cbn. lia. }
  f_equal. f_equal.
  replace (A ++ b :: B ++ b :: C) with ((A ++ b :: B) ++ b :: C) by (now rewrite <- app_assoc).
  replace (length A + S (length B))%nat with (length (A ++ b :: B)) by (rewrite app_length; reflexivity).
  rewrite upd_app_mid. now rewrite <- app_assoc.
Qed.

(** Longest prefix of elements <= x, longest suffix of elements > x. *)
Lemma split_up x (M : list R) :
  exists M1 M', M = M1 ++ M' /\ Forall (fun a => a <= x) M1
                /\ (M' = [] \/ exists y M'', M' = y :: M'' /\ x < y).
Proof.
  induction M as [|a M IH].
  - exists [], []. auto.
  - destruct (Rle_dec a x) as [H|H].
    + destruct IH as (M1 & M' & -> & H1 & H2). exists (a :: M1), M'. auto.
    + exists [], (a :: M). split; auto. split; auto. right. exists a, M. split; auto. lra.
Qed.

Lemma split_down x (M : list R) :
  exists M' M2, M = M' ++ M2 /\ Forall (fun a => x < a) M2
                /\ (M' = [] \/ exists M'' y, M' = M'' ++ [y] /\ y <= x).
Proof.
  induction M as [|a M IH] using rev_ind.
  - exists [], []. auto.
  - destruct (Rlt_dec x a) as [H|H].
    + destruct IH as (M' & M2 & -> & H1 & H2). exists M', (M2 ++ [a]).
      rewrite app_assoc. split; auto. split; auto. apply Forall_app; auto.
    + exists (M ++ [a]), []. rewrite app_nil_r. split; auto. split; auto.
      right. exists M, a. split; auto. lra.
Qed.

Lemma qs_partition_ok pre post x high : forall n C M B fuel t,
  (length M <= n)%nat -> (n < fuel)%nat ->
  C ++ M = x :: t ->
  (2 <= length M)%nat -> hd 0 M <= x ->
  high = (length pre + length (C ++ M ++ B) - 1)%nat ->
  Forall (fun a => a <= x) C -> Forall (fun a => x < a) B ->
  exists L U t',
    qs_partition fuel (Some g) (cells (pre ++ (C ++ M ++ B) ++ post)) (length pre) high
      (length pre + length C) (length pre + length C + length M - 1)
    = Ok (cells (pre ++ (L ++ U) ++ post), length pre + length L, length pre + length L - 1)%nat
    /\ L = x :: t' /\ Forall (fun a => a <= x) L /\ Forall (fun a => x < a) U
    /\ Permutation (C ++ M ++ B) (L ++ U).
Proof.
  induction n as [|n IH]; intros C M B fuel t Hn Hfuel Hhd HM Hhm Hhigh HC HB; [lia|].
  destruct fuel as [|fuel]; [lia|].
  set (lp := length pre) in *.
  cbn [qs_partition].
  rewrite (proj2 (Nat.ltb_lt _ _)) by lia.
  destruct (split_up x M) as (M1 & N & EM & HM1 & HN).
  assert (Hseg : forall S1 : list R, (exists t', S1 = x :: t') ->
     (lp < length (pre ++ S1 ++ post))%nat /\ nth lp (pre ++ S1 ++ post) 0 = x).
  { intros S1 (t' & ->). split.
    - rewrite app_length. cbn. unfold lp. lia.
    - cbn [app]. unfold lp. apply nth_middle. }
  assert (HSx : exists t', C ++ M ++ B = x :: t').
  { rewrite app_assoc, Hhd. cbn. eauto. }
  destruct (Hseg _ HSx) as [Hl Hxn].
  (* scan up *)
  assert (Eup : qs_scan_up (S (S high)) (Some g) (cells (pre ++ (C ++ M ++ B) ++ post)) lp high
                  (lp + length C) = Ok (lp + length C + length M1)%nat).
  { assert (Eb : pre ++ (C ++ M ++ B) ++ post = (pre ++ C) ++ M1 ++ (N ++ B ++ post)).
    { rewrite EM. rewrite <- !app_assoc. reflexivity. }
    rewrite Eb in *.
    replace (lp + length C)%nat with (length (pre ++ C)) by (rewrite app_length; reflexivity).
    assert (Lh : (S high = lp + length C + length M1 + length N + length B)%nat).
    { rewrite Hhigh, EM. rewrite !app_length. fold lp.
      assert (2 <= length M1 + length N)%nat by (rewrite EM, app_length in HM; lia). lia. }
    rewrite scan_up_ok with (x := x); auto.
    - rewrite app_length. fold lp.
      destruct HN as [->|(y & N' & -> & Hy)].
      + cbn [length app] in *. destruct B as [|b B'].
        * left. cbn in Lh. lia.
        * right. split; [cbn in Lh; lia|]. exists b, (B' ++ post). split; auto. now inversion HB.
      + right. split; [cbn in Lh; lia|]. exists y, (N' ++ B ++ post). split; auto.
    - rewrite Lh. lia. }
  rewrite Eup. cbn [bind].
  (* scan down *)
  destruct (split_down x N) as (N0 & M2 & EN & HM2 & HN0).
  assert (Hprev : exists K y, C ++ M1 ++ N0 = K ++ [y] /\ y <= x).
  { destruct HN0 as [->|(K & y & -> & Hy)].
    - rewrite app_nil_r.
      assert (Hne : C ++ M1 <> []).
      { intros E0. apply app_eq_nil in E0 as [-> ->]. cbn in Hhd, EM. rewrite EM in Hhd.
        destruct HN as [HN|(y & N' & HN & Hy)].
        - rewrite HN in Hhd. discriminate.
        - rewrite HN in Hhd. injection Hhd as -> _. lra. }
      destruct (@exists_last _ (C ++ M1) Hne) as (K & y & E0).
      exists K, y. split; auto.
      assert (Forall (fun a => a <= x) (C ++ M1)) as HF by (apply Forall_app; auto).
      rewrite E0 in HF. apply Forall_app in HF as [_ HF]. now inversion HF.
    - exists (C ++ M1 ++ K), y. split; auto. now rewrite !app_assoc. }
  destruct Hprev as (K & y & EK & Hy).
  assert (Edown : qs_scan_down (S (S high)) (Some g) (cells (pre ++ (C ++ M ++ B) ++ post)) lp lp
                  (lp + length C + length M - 1) = Ok (lp + length K)%nat).
  { assert (Eb : pre ++ (C ++ M ++ B) ++ post = (pre ++ K) ++ y :: M2 ++ (B ++ post)).
    { rewrite EM, EN.
      replace (pre ++ (C ++ (M1 ++ N0 ++ M2) ++ B) ++ post)
        with (pre ++ (C ++ M1 ++ N0) ++ M2 ++ B ++ post) by (rewrite <- !app_assoc; reflexivity).
      rewrite EK. rewrite <- !app_assoc. reflexivity. }
    rewrite Eb in *.
    assert (LK : (length C + length M = length K + 1 + length M2)%nat).
    { rewrite EM, EN. assert (Q := f_equal (@length R) EK). rewrite !app_length in *. cbn in Q. lia. }
    replace (lp + length C + length M - 1)%nat with (length (pre ++ K) + length M2)%nat
      by (rewrite app_length; fold lp; lia).
    rewrite scan_down_ok with (x := x); auto.
    - now rewrite app_length.
    - rewrite app_length. fold lp. lia.
    - rewrite Hhigh, !app_length. fold lp. lia. }
  rewrite Edown. cbn [bind].
  assert (LK : length K = (length C + length M1 + length N0 - 1)%nat
               /\ (1 <= length C + length M1 + length N0)%nat).
  { assert (Q := f_equal (@length R) EK). rewrite !app_length in Q. cbn in Q. lia. }
  destruct HN0 as [HN0|(N1 & y' & HN0 & Hy')].
  - (* everything separated *)
    subst N0. cbn [length] in LK. cbn [app] in EN. subst N.
    rewrite (proj2 (Nat.ltb_ge _ _)) by lia. cbn [bind].
    assert (Eend : forall f b, qs_partition f (Some g) b lp high (lp + length C + length M1)
               (lp + length K) = Ok (b, lp + length C + length M1, lp + length K)%nat).
    { intros [|f] b; cbn [qs_partition]; rewrite (proj2 (Nat.ltb_ge _ _)) by lia; reflexivity. }
    rewrite Eend.
    rewrite app_nil_r in EK.
    assert (Hx' : exists t', C ++ M1 = x :: t').
    { destruct (C ++ M1) as [|z r] eqn:E; [destruct K; discriminate|].
      rewrite EM, app_assoc, E in Hhd. cbn in Hhd. injection Hhd as -> _. eauto. }
    destruct Hx' as (t' & Ht').
    exists (C ++ M1), (M2 ++ B), t'. split; [|split; [exact Ht'|split; [|split]]].
    + f_equal. f_equal.
      * f_equal; [|rewrite app_length; lia]. f_equal. rewrite EM. rewrite <- !app_assoc. reflexivity.
      * rewrite app_length. lia.
    + apply Forall_app; auto.
    + apply Forall_app; auto.
    + rewrite EM. rewrite <- !app_assoc. reflexivity.
  - (* swap and go on *)
    destruct HN as [HN|(z & N' & HN & Hz)].
    { rewrite HN in EN. subst N0. symmetry in EN. apply app_eq_nil in EN as [EN _].
      destruct N1; discriminate. }
    subst N0.
    destruct N1 as [|z' N1].
    { cbn in EN. rewrite HN in EN. injection EN as -> _. lra. }
    assert (z' = z) as -> by (rewrite HN in EN; cbn in EN; congruence).
    cbn [length app] in *. rewrite app_length in LK. cbn [length] in LK.
    rewrite (proj2 (Nat.ltb_lt _ _)) by lia.
    assert (Eb : pre ++ (C ++ M ++ B) ++ post
                 = (pre ++ C ++ M1) ++ z :: N1 ++ y' :: (M2 ++ B ++ post)).
    { rewrite EM, EN. rewrite <- !app_assoc. cbn [app]. rewrite <- !app_assoc. reflexivity. }
    rewrite Eb.
    replace (lp + length C + length M1)%nat with (length (pre ++ C ++ M1))
      by (rewrite !app_length; fold lp; lia).
    replace (lp + length K)%nat with (length (pre ++ C ++ M1) + S (length N1))%nat
      by (rewrite !app_length; fold lp; lia).
    rewrite qs_swap_ok. cbn [bind].
    set (C2 := C ++ M1). set (Mn := y' :: N1 ++ [z]). set (B2 := M2 ++ B).
    assert (Lm : length M = (length M1 + (S (S (length N1)) + length M2))%nat).
    { rewrite EM, EN. rewrite !app_length. cbn. rewrite !app_length. cbn. lia. }
    assert (HM1C : (1 <= length C + length M1)%nat).
    { destruct C as [|c0 C0]; [|cbn; lia]. destruct M1 as [|m0 M0]; [|cbn; lia].
      cbn in EM, Hhd. rewrite EM, EN in Hhd. injection Hhd as E1 _. subst z. lra. }
    destruct (IH C2 Mn B2 fuel (tl (C2 ++ Mn))) as (L & U & t' & E & HL & HLx & HUx & HP).
    + unfold Mn. cbn. rewrite app_length. cbn.
      (* strictly smaller: either M1 nonempty or this is not the first round *)
      destruct M1 as [|m0 M0].
      * exfalso. cbn in EM. rewrite EM, HN in Hhm. cbn in Hhm. lra.
      * cbn in Lm. lia.
    + lia.
    + unfold C2. destruct (C ++ M1) as [|c0 r] eqn:E0; [rewrite <- app_length, E0 in HM1C; cbn in HM1C; lia|].
      rewrite EM, app_assoc, E0 in Hhd. cbn in Hhd. injection Hhd as -> _. reflexivity.
    + unfold Mn. cbn. rewrite app_length. cbn. lia.
    + exact Hy'.
    + rewrite Hhigh. unfold C2, Mn, B2. rewrite EM, EN. repeat (rewrite !app_length; cbn [length]). lia.
    + unfold C2. apply Forall_app; auto.
    + unfold B2. apply Forall_app; auto.
    + exists L, U, t'. split; [|split; [exact HL|split; [exact HLx|split; [exact HUx|]]]].
      * rewrite <- E. f_equal.
        -- f_equal. unfold C2, Mn, B2. rewrite <- !app_assoc. cbn [app]. rewrite <- !app_assoc. reflexivity.
        -- unfold C2. rewrite !app_length. fold lp. lia.
        -- unfold C2, Mn. rewrite !app_length. cbn. rewrite app_length. cbn. fold lp. lia.
      * rewrite <- HP. unfold C2, Mn, B2. rewrite EM, EN. rewrite <- !app_assoc.
        apply Permutation_app_head. apply Permutation_app_head. cbn [app]. rewrite <- !app_assoc. cbn [app].
        transitivity (z :: y' :: N1 ++ M2 ++ B).
        { constructor. symmetry. apply Permutation_middle. }
        transitivity (y' :: z :: N1 ++ M2 ++ B); [apply perm_swap|].
        constructor. apply Permutation_middle.
Qed.

Lemma qs_swap_rev (A B C : list R) a b :
  qs_swap (cells (A ++ a :: B ++ b :: C)) (length A + S (length B)) (length A)
  = Ok (cells (A ++ b :: B ++ a :: C)).
Proof.
  unfold qs_swap.
  assert (L : length (A ++ a :: B ++ b :: C) = (length A + S (length B + S (length C)))%nat).
  { rewrite app_length. cbn. rewrite app_length. reflexivity. }
  rewrite !rd_cells with (d := 0) by lia. cbn [bind]. rewrite nth_middle.
  assert (E : nth (length A + S (length B)) (A ++ a :: B ++ b :: C) 0 = b).
  { replace (A ++ a :: B ++ b :: C) with ((A ++ a :: B) ++ b :: C) by (now rewrite <- app_assoc).
    replace (length A + S (length B))%nat with (length (A ++ a :: B)) by (rewrite app_length; reflexivity).
    apply nth_middle. }
  rewrite E. rewrite wr_cells by lia. cbn [bind].
  replace (A ++ a :: B ++ b :: C) with ((A ++ a :: B) ++ b :: C) by (now rewrite <- app_assoc).
  replace (length A + S (length B))%nat with (length (A ++ a :: B)) by (rewrite app_length; reflexivity).
  rewrite upd_app_mid. rewrite <- app_assoc. cbn [app]. rewrite wr_cells.
  2:{ rewrite app_length. cbn. lia. }
  now rewrite upd_app_mid.
Qed.

Lemma qs_swap_self (A C : list R) a :
  qs_swap (cells (A ++ a :: C)) (length A) (length A) = Ok (cells (A ++ a :: C)).
Proof.
  unfold qs_swap.
  rewrite !rd_cells with (d := 0) by (rewrite app_length; cbn; lia). cbn [bind].
  rewrite nth_middle.
  rewrite wr_cells by (rewrite app_length; cbn; lia). cbn [bind].
  rewrite upd_app_mid.
  rewrite wr_cells by (rewrite app_length; cbn; lia). now rewrite upd_app_mid.
Qed.

Definition lastmax (s : list R) : Prop := exists K y, s = K ++ [y] /\ Forall (fun a => a <= y) K.

Lemma NoDup_app_l {A} (xs ys : list A) : NoDup (xs ++ ys) -> NoDup xs.
Proof.
  induction xs as [|x xs IH]; cbn; intros H; [constructor|].
  inversion H; subst. constructor; auto. intros Hin. apply H2. apply in_or_app; auto.
Qed.

Lemma NoDup_app_r {A} (xs ys : list A) : NoDup (xs ++ ys) -> NoDup ys.
Proof.
  induction xs as [|x xs IH]; cbn; intros H; auto. inversion H; subst. auto.
Qed.

Lemma StronglySorted_app (xs ys : list R) m :
  StronglySorted Rle xs -> StronglySorted Rle ys ->
  Forall (fun a => a <= m) xs -> Forall (fun a => m < a) ys -> StronglySorted Rle (xs ++ ys).
Proof.
  intros Hx Hy Fx Fy. induction Hx as [|a xs Hx IH Ha]; cbn; auto.
  inversion Fx; subst. constructor; auto.
  apply Forall_app; split; auto.
  eapply Forall_impl; [|exact Fy]. intros b Hb. cbn in Hb. lra.
Qed.

Lemma quicksort_ok : forall fuel s pre post,
  NoDup s ->
  (2 * length s <= fuel)%nat \/ (2 * length s <= S fuel)%nat /\ lastmax s ->
  exists s', vec_quicksort fuel (Some g) (cells (pre ++ s ++ post)) (length pre)
               (length pre + length s - 1) = Ok (cells (pre ++ s' ++ post))
    /\ Permutation s s' /\ StronglySorted Rle s'.
Proof.
  induction fuel as [|fuel IH]; intros s pre post Hnd Hfuel.
  - assert (Hs : (length s <= 1)%nat).
    { destruct Hfuel as [H|[H _]]; lia. }
    exists s. cbn [vec_quicksort]. rewrite (proj2 (Nat.ltb_ge _ _)) by lia.
    split; auto. split; auto.
    destruct s as [|a [|b s]]; cbn in Hs; try lia; repeat constructor.
  - destruct (le_lt_dec (length s) 1) as [Hs|Hs].
    { exists s. cbn [vec_quicksort]. rewrite (proj2 (Nat.ltb_ge _ _)) by lia.
      split; auto. split; auto.
      destruct s as [|a [|b s]]; cbn in Hs; try lia; repeat constructor. }
    cbn [vec_quicksort]. rewrite (proj2 (Nat.ltb_lt _ _)) by lia.
    destruct s as [|x t]; [cbn in Hs; lia|].
    set (s := x :: t) in *. set (high := (length pre + length s - 1)%nat) in *.
    destruct (@qs_partition_ok pre post x high (length s) [] s [] (S (S high)) t)
      as (L & U & t' & E & HL & HLx & HUx & HP); auto.
    { unfold high. lia. }
    { cbn. lra. }
    { cbn [app]. rewrite app_nil_r. reflexivity. }
    cbn [app length] in E, HP. rewrite !app_nil_r, !Nat.add_0_r in *. fold high in E.
    rewrite E. cbn [bind].
    assert (HndLU : NoDup (L ++ U)) by (eapply Permutation_NoDup; eauto).
    (* put the pivot at the end of L *)
    assert (Hsw : exists K, qs_swap (cells (pre ++ (L ++ U) ++ post)) (length pre + length L - 1) (length pre)
                  = Ok (cells (pre ++ (K ++ [x]) ++ U ++ post)) /\ Permutation L (K ++ [x])).
    { rewrite HL. destruct t' as [|b0 t0].
      - exists []. cbn [app length]. replace (length pre + 1 - 1)%nat with (length pre) by lia.
        rewrite qs_swap_self. split; auto.
      - destruct (@exists_last _ (b0 :: t0)) as (M & z & Ez); [discriminate|].
        rewrite Ez. cbn [length app]. rewrite !app_length. cbn [length].
        replace (length pre + S (length M + 1) - 1)%nat with (length pre + S (length M))%nat by lia.
        rewrite <- !app_assoc. cbn [app]. rewrite qs_swap_rev.
        exists (z :: M). cbn [app]. rewrite <- app_assoc. split; auto.
        transitivity (x :: z :: M). { constructor. symmetry. apply Permutation_cons_append. }
        transitivity (z :: x :: M); [apply perm_swap|]. constructor. apply Permutation_cons_append. }
    destruct Hsw as (K & Esw & HK). rewrite Esw. cbn [bind].
    assert (LL : length L = S (length K)).
    { rewrite (Permutation_length HK), app_length. cbn. lia. }
    assert (Lsum : (length L + length U = length s)%nat).
    { rewrite <- app_length. symmetry. now apply Permutation_length. }
    replace (length pre + length L)%nat with (S (length pre + length K)) by lia.
    assert (HKx : Forall (fun a => a <= x) (K ++ [x])) by (eapply Permutation_Forall; eauto).
    assert (HndK : NoDup (K ++ [x])).
    { eapply Permutation_NoDup; [exact HK|]. now apply NoDup_app_l in HndLU. }
    assert (HndU : NoDup U) by (now apply NoDup_app_r in HndLU).
    assert (Hlm : lastmax (K ++ [x])).
    { exists K, x. split; auto. now apply Forall_app in HKx as [HKx _]. }
    assert (LKx : length (K ++ [x]) = length L) by (rewrite app_length; cbn; lia).
    (* left *)
    destruct (IH (K ++ [x]) pre (U ++ post)) as (s1 & E1 & P1 & S1); auto.
    { right. split; auto. rewrite LKx.
      destruct U as [|u0 U0].
      - destruct Hfuel as [Hf|[Hf (K' & y & Es & Hy)]]; [clear -Hf Lsum; change (length (@nil R)) with 0%nat in Lsum; lia|].
        (* the pivot was the maximum and first: it cannot also be last *)
        exfalso. rewrite app_nil_r in HP.
        assert (x = y) as <-.
        { apply Rle_antisym.
          - assert (In x (K' ++ [y])) as Hin by (rewrite <- Es; left; auto).
            apply in_app_or in Hin as [Hin|[<-|[]]]; [|lra].
            rewrite Forall_forall in Hy. now apply Hy.
          - rewrite Forall_forall in HLx. apply HLx. eapply Permutation_in; [exact HP|].
            rewrite Es. apply in_or_app. right. left. auto. }
        destruct K' as [|k0 K'].
        + unfold s in Es. injection Es as Et. subst t. cbn in Hs. lia.
        + unfold s in Es. injection Es as E0 Et. subst k0.
          inversion Hnd; subst. apply H1. apply in_or_app. right. left. auto.
      - change (length (u0 :: U0)) with (S (length U0)) in Lsum. destruct Hfuel as [Hf|[Hf _]]; lia. }
    replace (length pre + length (K ++ [x]) - 1)%nat with (length pre + length K)%nat in E1 by lia.
    rewrite E1. cbn [bind].
    assert (L1 : length s1 = S (length K)).
    { rewrite <- (Permutation_length P1), LKx. lia. }
    destruct (IH U (pre ++ s1) post) as (s2 & E2 & P2 & S2); auto.
    { left. destruct Hfuel as [Hf|[Hf _]]; lia. }
    replace (S (length pre + length K))%nat with (length (pre ++ s1)) by (rewrite app_length; lia).
    replace (S (length (pre ++ s1) - 1)) with (length (pre ++ s1)) by (rewrite app_length; lia).
    replace high with (length (pre ++ s1) + length U - 1)%nat
      by (unfold high; rewrite app_length; lia).
    rewrite <- app_assoc in E2. rewrite E2.
    exists (s1 ++ s2). split; [|split].
    + rewrite <- !app_assoc. reflexivity.
    + rewrite HP, HK, P1, P2. reflexivity.
    + apply StronglySorted_app with (m := x); auto.
      * eapply Permutation_Forall; eauto.
      * eapply Permutation_Forall; eauto.
Qed.
End QS.

(** * zsl_vec_sort *)

(** Two values are told apart by the 1e-5 tolerance iff they differ. *)
Definition apart (x y : R) : Prop := x = y \/ 1 / 100000 <= Rabs (x - y).
Definition separated (xs : list R) : Prop :=
  forall x y, In x (0 :: xs) -> In y (0 :: xs) -> apart x y.

Lemma eps_val : (flit 1 5 : R) = 1 / 100000.
Proof.
  cbn [flit NumR]. change 5%Z with (Z.of_nat 5). rewrite Rlit_frac. lra.
Qed.

Lemma near_apart x a : apart a x -> near x (flit 1 5) a = true <-> a = x.
Proof.
  intros H. rewrite near_R, eps_val. destruct H as [->|H].
  - rewrite Rminus_diag_eq, Rabs_R0 by auto. split; auto. intros; lra.
  - split; [intros; lra|]. intros ->. rewrite Rminus_diag_eq, Rabs_R0 by auto. lra.
Qed.

Lemma filter_near_count xs x :
  (forall a, In a xs -> apart a x) ->
  length (filter (near x (flit 1 5)) xs) = count_occ Req_EM_T xs x.
Proof.
  induction xs as [|a xs IH]; intros H; cbn [filter count_occ]; auto.
  assert (Ha := @near_apart x a (H a (or_introl eq_refl))).
  destruct (Req_EM_T a x) as [E|E].
  - rewrite (proj2 Ha E). cbn [length]. rewrite IH; auto. intros; apply H; right; auto.
  - destruct (near x (flit 1 5) a) eqn:En; [exfalso; apply E, Ha; auto|].
    apply IH. intros; apply H; right; auto.
Qed.

Lemma count_occ_repeat_flat (f : R -> nat) S z :
  NoDup S ->
  count_occ Req_EM_T (flat_map (fun x => repeat x (f x)) S) z
  = if in_dec Req_EM_T z S then f z else 0%nat.
Proof.
  intros Hnd. induction Hnd as [|x S Hx Hnd IH]; cbn [flat_map]; auto.
  rewrite count_occ_app, IH.
  destruct (Req_EM_T x z) as [->|Hxz].
  - rewrite count_occ_repeat_eq by auto.
    destruct (in_dec Req_EM_T z S); [contradiction|].
    destruct (in_dec Req_EM_T z (z :: S)) as [_|N]; [lia|]. exfalso; apply N; left; auto.
  - rewrite count_occ_repeat_neq by auto.
    destruct (in_dec Req_EM_T z S), (in_dec Req_EM_T z (x :: S)) as [N|N]; auto; exfalso.
    + apply N; right; auto.
    + destruct N; auto.
Qed.

Lemma flat_map_sorted (f : R -> nat) S :
  StronglySorted Rle S -> StronglySorted Rle (flat_map (fun x => repeat x (f x)) S).
Proof.
  induction 1 as [|x S HS IH Hx]; cbn [flat_map]; [constructor|].
  assert (HF : Forall (Rle x) (flat_map (fun x => repeat x (f x)) S)).
  { rewrite Forall_forall in *. intros y Hy. apply in_flat_map in Hy as (z & Hz & Hy).
    apply repeat_spec in Hy. subst y. auto. }
  induction (f x) as [|k IHk]; cbn; auto.
  constructor; auto. apply Forall_app. split; auto.
  apply Forall_forall. intros y Hy. apply repeat_spec in Hy. subst. lra.
Qed.

Lemma repeat_snoc {A} (a : A) n : repeat a (S n) = repeat a n ++ [a].
Proof. induction n; cbn; auto. now rewrite <- IHn. Qed.

Lemma write_reps (x : R) (reps : nat) : forall (ys : list R) (wb : buf R),
  (length ys + reps <= length wb)%nat ->
  for_ reps 0 (fun _ '(wb, count2) =>
            let! wb := wr wb count2 x in
            Ok (wb, S count2)) (cells ys ++ skipn (length ys) wb, length ys)
  = Ok (cells (ys ++ repeat x reps) ++ skipn (length (ys ++ repeat x reps)) wb,
        length (ys ++ repeat x reps)).
Proof.
  assert (G : forall lo (ys : list R) (wb : buf R),
  (length ys + reps <= length wb)%nat ->
  for_ reps lo (fun _ '(wb, count2) =>
            let! wb := wr wb count2 x in
            Ok (wb, S count2)) (cells ys ++ skipn (length ys) wb, length ys)
  = Ok (cells (ys ++ repeat x reps) ++ skipn (length (ys ++ repeat x reps)) wb,
        length (ys ++ repeat x reps))).
  { induction reps as [|r IH]; intros lo ys wb H; cbn [for_ repeat].
    - now rewrite app_nil_r.
    - rewrite (@skipn_cons_nth _ wb (length ys) None) by lia.
      set (c := nth (length ys) wb None).
      assert (Ew : wr (cells ys ++ c :: skipn (S (length ys)) wb) (length ys) x
                   = Ok (cells ys ++ Some x :: skipn (S (length ys)) wb)).
      { rewrite <- (cells_length ys) at 2. apply wr_mid. }
      rewrite Ew. cbn [bind].
      replace (cells ys ++ Some x :: skipn (S (length ys)) wb)
        with (cells (ys ++ [x]) ++ skipn (length (ys ++ [x])) wb).
      2:{ rewrite cells_app, <- app_assoc, app_length, Nat.add_1_r. reflexivity. }
      replace (S (length ys)) with (length (ys ++ [x])) by (rewrite app_length; cbn; lia).
      rewrite IH by (rewrite app_length; cbn; lia).
      rewrite <- app_assoc. reflexivity. }
  intros. now apply G.
Qed.

Lemma filter_nil_iff {A} (p : A -> bool) l :
  length (filter p l) = 0%nat <-> forall a, In a l -> p a = false.
Proof.
  induction l as [|a l IH]; cbn.
  - split; intros; auto. contradiction.
  - destruct (p a) eqn:E; cbn; split.
    + discriminate.
    + intros H. rewrite H in E by auto. discriminate.
    + intros H b [<-|Hb]; auto. now apply IH.
    + intros H. apply IH. auto.
Qed.

Lemma vec_sort_ok (g : R) xs tx m (wb : buf R) fuel :
  separated xs -> xs <> [] -> (length xs <= length wb)%nat -> (2 * length xs <= fuel)%nat ->
  exists ys, vec_sort fuel (Some g) (vec_of xs tx) (Vec m wb)
             = Ok (0%Z, Vec m (cells ys ++ skipn (length xs) wb))
    /\ Permutation xs ys /\ StronglySorted Rle ys.
Proof.
  intros Hsep Hne Hw Hf. unfold vec_sort.
  set (n := length xs) in *.
  assert (Hn0 : (0 < n)%nat) by (unfold n; destruct xs; [congruence|cbn; lia]).
  assert (Ei : vec_init (Vec n (fresh n)) = Ok (0%Z, vec_of (repeat (0:R) n) ([] : buf R))).
  { rewrite vec_init_ok; [|rewrite fresh_length; lia].
    unfold vec_of. rewrite skipn_all2 by (rewrite fresh_length; lia).
    rewrite repeat_length. reflexivity. }
  cbn [vsz vec_of vbuf]. fold n. rewrite Ei. cbn [bind].
  (* removing repeated values *)
  pose (Q := fun (j : nat) (s : vec R * nat) => exists D,
          s = (vec_of (D ++ repeat 0 (n - length D)) ([] : buf R), length D)
          /\ NoDup D /\ ~ In 0 D /\ (length D <= j)%nat
          /\ forall x, In x D <-> In x (firstn j xs) /\ x <> 0).
  match goal with |- exists ys, (let! (a, b) := for_ ?nn ?lo ?body ?s0 in _) = _ /\ _ =>
    destruct (@for_inv _ Q nn lo body s0) as (s' & E & HQ) end.
  { exists []. cbn [length app]. rewrite Nat.sub_0_r. split; auto. split; [constructor|].
    split; auto. split; auto. intros x. cbn. intuition. }
  { intros j s Hj (D & -> & HDn & HD0 & HDl & HDin).
    rewrite rd_cells_app with (d := 0) by (fold n; lia). cbn [bind].
    set (a := nth j xs 0).
    assert (Hain : In a xs) by (apply nth_In; fold n; lia).
    assert (Et : ((a >=? flit 1 5)%num || (a <=? flit 1 5)%num)%bool = true).
    { unfold fge. cbn [fle NumR]. destruct (Rleb_spec (flit 1 5) a), (Rleb_spec a (flit 1 5)); auto.
      exfalso; lra. }
    rewrite Et. rewrite vec_contains_ok. cbn [bind].
    assert (Hj' : firstn (S j) xs = firstn j xs ++ [a]).
    { unfold a. apply firstn_snoc. fold n; lia. }
    assert (HDxs : forall x, In x D -> In x xs).
    { intros x Hx. apply HDin in Hx as [Hx _]. rewrite <- (firstn_skipn j xs).
      apply in_or_app; auto. }
    assert (Hap : forall b, In b (D ++ repeat 0 (n - length D)) -> apart b a).
    { intros b Hb. apply Hsep; [|right; auto].
      apply in_app_or in Hb as [Hb|Hb]; [right; auto|].
      apply repeat_spec in Hb. subst. left; auto. }
    rewrite filter_near_count by auto.
    destruct (Nat.eqb_spec (count_occ Req_EM_T (D ++ repeat 0 (n - length D)) a) 0) as [Hc|Hc].
    - apply count_occ_not_In in Hc.
      assert (Hza : a <> 0).
      { intros E0. apply Hc. apply in_or_app. right. rewrite E0.
        replace (n - length D)%nat with (S (n - length D - 1)) by lia. left; auto. }
      unfold vec_of at 1 2; cbn [vbuf vsz]. unfold buf in *. rewrite app_nil_r. rewrite wr_cells
        by (rewrite app_length, repeat_length; lia). cbn [bind].
      eexists. split; [reflexivity|]. exists (D ++ [a]). split; [|split; [|split; [|split]]].
      + unfold vec_of. rewrite !app_nil_r. f_equal; [|rewrite app_length; cbn; lia].
        f_equal.
        * rewrite !app_length, !repeat_length. cbn. lia.
        * f_equal. replace (n - length D)%nat with (S (n - length (D ++ [a])))
            by (rewrite app_length; cbn; lia).
          cbn [repeat]. rewrite upd_app_mid, <- app_assoc. reflexivity.
      + apply Permutation_NoDup with (l := a :: D); [apply Permutation_cons_append|].
        constructor; auto. intros Hin. apply Hc. apply in_or_app; auto.
      + intros Hin. apply in_app_or in Hin as [Hin|[Hin|[]]]; auto.
      + rewrite app_length. cbn. lia.
      + intros x. rewrite Hj', !in_app_iff, HDin. cbn. intuition (subst; auto).
    - eexists. split; [reflexivity|]. exists D. split; auto. split; auto. split; auto. split; [lia|].
      intros x. rewrite Hj', !in_app_iff, HDin. cbn [In].
      split; [intuition|]. intros [[H|[<-|[]]] H0]; auto.
      assert (In a D) as HaD.
      { assert (In a (D ++ repeat 0 (n - length D))) as Hin.
        { apply (count_occ_In Req_EM_T). lia. }
        apply in_app_or in Hin as [Hin|Hin]; auto. apply repeat_spec in Hin. contradiction. }
      apply HDin in HaD. tauto. }
  rewrite E. clear E. destruct HQ as (D & -> & HDn & HD0 & HDl & HDin). cbn [bind].
  rewrite Nat.add_0_l in *. rewrite (firstn_all2 xs) in HDin by (fold n; lia).
  change (Vec n (cells xs ++ tx)) with (vec_of xs tx).
  assert (Hap : forall x, In x (0 :: xs) -> forall b, In b xs -> apart b x).
  { intros x Hx b Hb. apply Hsep; auto. right; auto. }
  rewrite vec_contains_ok. cbn [bind f0 NumR].
  rewrite filter_near_count by (apply Hap; left; auto).
  pose (S0 := if in_dec Req_EM_T 0 xs then D ++ [0] else D).
  assert (HS0in : forall x, In x S0 <-> In x xs).
  { intros x. unfold S0. destruct (in_dec Req_EM_T 0 xs) as [H0|H0].
    - rewrite in_app_iff, HDin. cbn. destruct (Req_EM_T x 0) as [->|N0]; [tauto|]. split; [intros [[? _]|[?|[]]]; auto; congruence|tauto].
    - rewrite HDin. split; [tauto|]. intros Hx. split; auto. intros ->; auto. }
  assert (HS0nd : NoDup S0).
  { unfold S0. destruct (in_dec Req_EM_T 0 xs); auto.
    apply Permutation_NoDup with (l := 0 :: D); [apply Permutation_cons_append|].
    constructor; auto. }
  assert (HS0l : (length S0 <= n)%nat).
  { apply NoDup_incl_length; auto. intros x Hx. now apply HS0in. }
  assert (Ec : (if Nat.ltb 0 (count_occ Req_EM_T xs 0) then S (length D) else length D) = length S0).
  { unfold S0. destruct (in_dec Req_EM_T 0 xs) as [H0|H0].
    - apply (count_occ_In Req_EM_T) in H0. rewrite (proj2 (Nat.ltb_lt _ _)) by lia.
      rewrite app_length. cbn. lia.
    - apply (count_occ_not_In Req_EM_T) in H0. rewrite H0. reflexivity. }
  rewrite Ec.
  assert (Eu : cells (D ++ repeat 0 (n - length D)) ++ [] = cells ([] ++ S0 ++ repeat 0 (n - length S0))).
  { rewrite app_nil_r. f_equal. cbn [app]. unfold S0 in *. destruct (in_dec Req_EM_T 0 xs); auto.
    rewrite app_length in *. cbn [length] in *.
    replace (n - length D)%nat with (S (n - (length D + 1))) by lia. cbn [repeat].
    now rewrite <- app_assoc. }
  assert (HSne : (0 < length S0)%nat).
  { destruct xs as [|x0 r]; [congruence|]. assert (In x0 S0) as Hin by (apply HS0in; left; auto).
    destruct S0; [contradiction|cbn; lia]. }
  destruct (@quicksort_ok g fuel S0 [] (repeat 0 (n - length S0)) HS0nd) as (S1 & Eq & HP & HS).
  { left. lia. }
  destruct (length S0) as [|high] eqn:EL; [lia|].
  unfold vec_of in *. cbn [vbuf vsz] in *. rewrite Eu.
  cbn [length] in Eq. rewrite Nat.add_0_l in Eq.
  replace (S high - 1)%nat with high in Eq by lia.
  rewrite Eq. cbn [bind app].
  (* writing the values back *)
  set (cnt := fun x => count_occ Req_EM_T xs x).
  set (ff := fun x => repeat x (cnt x)).
  assert (LS1 : length S1 = S high) by (rewrite <- (Permutation_length HP); auto).
  set (ys := flat_map ff S1).
  assert (HPys : Permutation xs ys).
  { apply (Permutation_count_occ Req_EM_T). intros z. unfold ys, ff.
    rewrite count_occ_repeat_flat by (eapply Permutation_NoDup; eauto).
    destruct (in_dec Req_EM_T z S1) as [H|H]; auto.
    apply count_occ_not_In. intros Hz. apply H. eapply Permutation_in; [exact HP|]. now apply HS0in. }
  assert (Lys : length ys = n) by (symmetry; apply Permutation_length; auto).
  match goal with |- exists ys, (let! (a, b) := for_ ?nn ?lo ?body ?s0 in _) = _ /\ _ =>
    destruct (@for_inv _ (fun i s => s = (cells (flat_map ff (firstn i S1))
                 ++ skipn (length (flat_map ff (firstn i S1))) wb,
                 length (flat_map ff (firstn i S1)))) nn lo body s0) as (s' & E & HQ) end.
  { reflexivity. }
  { intros i s Hi ->.
    rewrite rd_cells with (d := 0) by (rewrite app_length; lia). cbn [bind].
    rewrite app_nth1 by lia. set (x := nth i S1 0).
    change (Vec (length xs) (cells xs ++ tx)) with (vec_of xs tx). rewrite vec_contains_ok. cbn [bind].
    rewrite filter_near_count.
    2:{ apply Hap. right. apply HS0in. eapply Permutation_in; [symmetry; exact HP|].
        apply nth_In. lia. }
    assert (Efn : firstn (S i) S1 = firstn i S1 ++ [x]).
    { unfold x. apply firstn_snoc. lia. }
    assert (Hlen : (length (flat_map ff (firstn i S1)) + cnt x <= n)%nat).
    { rewrite <- Lys. unfold ys. rewrite <- (firstn_skipn (S i) S1) at 2.
      rewrite flat_map_app, Efn, flat_map_app. cbn [flat_map]. rewrite app_nil_r, !app_length.
      assert (Er : length (ff x) = cnt x) by apply repeat_length. lia. }
    rewrite write_reps by (unfold cnt in *; lia). eexists. split; [reflexivity|].
    rewrite Efn, flat_map_app. cbn [flat_map]. rewrite app_nil_r.
    reflexivity. }
  match goal with |- exists ys, bind ?a _ = _ /\ _ => replace a with (Ok s') by (symmetry; exact E) end.
  rewrite HQ. cbn [bind].
  exists ys. split; [|split]; auto.
  - rewrite firstn_all2 by lia. fold ys. rewrite Lys. reflexivity.
  - apply flat_map_sorted; auto.
Qed.
