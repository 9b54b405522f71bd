(** zsl_mtx_eigenvectors over the reals: what every run that answers has put in
    the columns of its result. *)
From Coq Require Import List Arith ZArith Bool Lia Reals Lra FunctionalExtensionality.
From Verif Require Import Base NumR BaseFacts SpecVec SpecReal SpecMtx SpecDecomp SpecGauss SpecReduc SpecSvd MVec MMtx MDecomp
  PVec PVecR PMtx PMtxOps PMtxR PFvec PDet PGauss PReduc PGram PSvd PSvdR RTac.
Import ListNotations.
Set Implicit Arguments.
Local Open Scope R_scope.
Implicit Types f g : nat -> nat -> R.

(** ** The solutions read off the reduced form *)
Definition kvec g (h : nat) : nat -> R := fun a => if (a =? h)%nat then 1 else - g a h.

Lemma kvec_solves n g h : reduced n g -> (h < n)%nat -> g h h = 0 -> solves n g (kvec g h).
Proof.
  intros (H1 & H2 & H3) Hh Z i Hi.
  destruct (H1 i Hi) as [Zi|Oi].
  - rewrite (@bigsum_ext n _ (fun _ => 0)); [apply bigsum_0|]. intros j Hj. rewrite H3 by auto. ring.
  - assert (Nh : i <> h) by (intros ->; lra).
    rewrite (@bigsum_ext n _ (fun j => (if (j =? h)%nat then g i j else 0) + (if (j =? i)%nat then - g i h else 0))).
    + rewrite bigsum_plus, (bigsum_delta n (fun j => g i j)), (bigsum_delta n (fun _ => - g i h)) by auto. ring.
    + intros j Hj. unfold kvec. destruct (Nat.eqb_spec j h) as [->|N].
      * destruct (Nat.eqb_spec h i); [congruence|ring].
      * destruct (Nat.eqb_spec j i) as [->|N'].
        -- rewrite Oi. ring.
        -- destruct (H1 j Hj) as [Zj|Oj]; [rewrite (H3 j h) by auto; ring|]. rewrite (H2 i j) by auto. ring.
Qed.

Lemma solves_shifted n f l x : solves n (shifted f l) x <-> forall i, (i < n)%nat -> bigsum n (fun j => f i j * x j) = l * x i.
Proof.
  assert (E : forall i, (i < n)%nat -> bigsum n (fun j => shifted f l i j * x j) = bigsum n (fun j => f i j * x j) - l * x i).
  { intros i Hi. rewrite (@bigsum_ext n _ (fun j => f i j * x j + (if (j =? i)%nat then - l * x j else 0))).
    - rewrite bigsum_plus, (bigsum_delta n (fun j => - l * x j)) by auto. ring.
    - intros j _. unfold shifted. rewrite (Nat.eqb_sym i j). destruct (j =? i)%nat; ring. }
  split; intros H i Hi; pose proof (H i Hi) as A; pose proof (E i Hi) as B; lra.
Qed.

Definition frees n g : list nat := filter (fun h => tiny (g h h)) (seq 0 n).

Lemma frees_in n g h : reduced n g -> In h (frees n g) <-> (h < n)%nat /\ g h h = 0.
Proof.
  intros (H1 & _). unfold frees. rewrite filter_In, in_seq. split.
  - intros (Hh & T). split; [lia|]. destruct (H1 h ltac:(lia)) as [|E]; auto. rewrite E, tiny_1 in T. discriminate.
  - intros (Hh & ->). split; [lia|apply tiny_0].
Qed.

Lemma frees_nodup n g : NoDup (frees n g).
Proof. apply NoDup_filter, seq_NoDup. Qed.

(** the columns built from the reduced form *)
Definition kcols n g : nat -> nat -> R := fun a c => kvec g (nth c (frees n g) 0%nat) a.

Lemma kcols_indep n g : reduced n g -> independent_columns n (length (frees n g)) (kcols n g).
Proof.
  intros HR x Hx j Hj. set (h := nth j (frees n g) 0%nat).
  assert (Hin : In h (frees n g)) by now apply nth_In.
  apply (frees_in _ HR) in Hin. destruct Hin as (Hh & Z).
  specialize (Hx h Hh). rewrite (@bigsum_ext _ _ (fun c => if (c =? j)%nat then x c else 0)) in Hx.
  - now rewrite (bigsum_delta _ x) in Hx by auto.
  - intros c Hc. unfold kcols, kvec. fold h. destruct (Nat.eqb_spec c j) as [->|N].
    + fold h. rewrite Nat.eqb_refl. ring.
    + destruct (Nat.eqb_spec h (nth c (frees n g) 0%nat)) as [E|E].
      * exfalso. apply N. symmetry. apply (proj1 (NoDup_nth (frees n g) 0%nat) (frees_nodup n g) j c); auto.
      * destruct HR as (_ & _ & H3). rewrite H3; auto; [ring|].
        assert (Hin : In (nth c (frees n g) 0%nat) (frees n g)) by now apply nth_In.
        unfold frees in Hin at 2. apply filter_In in Hin. destruct Hin as (Hin & _). apply in_seq in Hin. lia.
Qed.

(** a combination of solutions is a solution *)
Lemma solves_lin n g x c (y : nat -> nat -> R) co :
  solves n g x -> (forall k, (k < c)%nat -> solves n g (fun a => y a k)) ->
  solves n g (fun a => x a - bigsum c (fun k => co k * y a k)).
Proof.
  intros Hx Hy i Hi.
  rewrite (@bigsum_ext n _ (fun j => g i j * x j + - 1 * bigsum c (fun k => co k * (g i j * y j k)))).
  - rewrite bigsum_plus, (Hx i Hi), <- bigsum_mult_l, bigsum_swap.
    rewrite (@bigsum_ext c _ (fun _ => 0)); [rewrite bigsum_0; ring|].
    intros k Hk. rewrite <- bigsum_mult_l. rewrite (Hy k Hk i Hi). ring.
  - intros j _. assert (E : bigsum c (fun k => co k * (g i j * y j k)) = g i j * bigsum c (fun k => co k * y j k)).
    { rewrite bigsum_mult_l. apply bigsum_ext. intros. ring. }
    rewrite E. ring.
Qed.

(** ... and they are all the solutions *)
Lemma kcols_span n g x : reduced n g -> solves n g x ->
  forall a, (a < n)%nat -> x a = bigsum (length (frees n g)) (fun c => x (nth c (frees n g) 0%nat) * kcols n g a c).
Proof.
  intros HR Hx. set (fr := frees n g). set (cc := length fr).
  set (y := fun a => x a - bigsum cc (fun c => x (nth c fr 0%nat) * kcols n g a c)).
  assert (Hy : solves n g y).
  { apply solves_lin; auto. intros k Hk. assert (Hin : In (nth k fr 0%nat) fr) by now apply nth_In.
    apply (frees_in _ HR) in Hin. now apply kvec_solves. }
  assert (Hf : forall j, (j < n)%nat -> g j j = 0 -> y j = 0).
  { intros j Hj Z. assert (Hin : In j fr) by (now apply frees_in). apply (In_nth _ _ 0%nat) in Hin.
    destruct Hin as (c & Hc & Ec). unfold y.
    rewrite (@bigsum_ext cc _ (fun k => if (k =? c)%nat then x j else 0)).
    - rewrite (bigsum_delta cc (fun _ => x j)) by auto. ring.
    - intros k Hk. unfold kcols, kvec. fold fr. destruct (Nat.eqb_spec k c) as [->|N].
      + rewrite Ec, Nat.eqb_refl. ring.
      + destruct (Nat.eqb_spec j (nth k fr 0%nat)) as [E|E].
        * exfalso. apply N. apply (proj1 (NoDup_nth fr 0%nat) (frees_nodup n g) k c Hk Hc). congruence.
        * destruct HR as (_ & _ & H3). rewrite H3; auto; [ring|].
          assert (Hin : In (nth k fr 0%nat) fr) by now apply nth_In.
          unfold fr in Hin at 2. apply filter_In in Hin. destruct Hin as (Hin & _). apply in_seq in Hin. lia. }
  intros a Ha. enough (y a = 0) by (unfold y in H; lra).
  destruct HR as (H1 & H2 & H3). destruct (H1 a Ha) as [Z|O]; [now apply Hf|].
  pose proof (Hy a Ha) as A. rewrite (@bigsum_ext n _ (fun j => if (j =? a)%nat then y j else 0)) in A.
  - now rewrite (bigsum_delta n y) in A by auto.
  - intros j Hj. destruct (Nat.eqb_spec j a) as [->|N]; [rewrite O; ring|].
    destruct (H1 j Hj) as [Zj|Oj]; [rewrite (Hf j Hj Zj); ring|]. rewrite (H2 a j) by auto. ring.
Qed.

Lemma solves_ext n g x y : (forall i, (i < n)%nat -> x i = y i) -> solves n g x -> solves n g y.
Proof. intros E H i Hi. rewrite <- (H i Hi). apply bigsum_ext. intros j Hj. now rewrite E. Qed.

Lemma solves_scale n g x s : s <> 0 -> solves n g (fun a => s * x a) -> solves n g x.
Proof.
  intros Hs H i Hi. pose proof (H i Hi) as A.
  rewrite (@bigsum_ext n _ (fun j => s * (g i j * x j))), <- bigsum_mult_l in A by (intros; ring).
  apply Rmult_integral in A. destruct A; [contradiction|auto].
Qed.

Definition block (orth : bool) n f l c (W : nat -> nat -> R) : Prop :=
  ((forall k, (k < c)%nat -> eigenvector n f l (fun a => W a k)) /\ independent_columns n c W)
  /\ (orth = true -> forall k k', (k < c)%nat -> (k' < c)%nat -> bigsum n (fun a => W a k * W a k') = delta k k').

Lemma orthonormal_indep n c (W : nat -> nat -> R) :
  (forall k k', (k < c)%nat -> (k' < c)%nat -> bigsum n (fun a => W a k * W a k') = delta k k') -> independent_columns n c W.
Proof.
  intros H x Hx j Hj.
  assert (A : bigsum n (fun a => W a j * bigsum c (fun k => W a k * x k)) = x j).
  { rewrite (@bigsum_ext n _ (fun a => bigsum c (fun k => (W a j * W a k) * x k))).
    - rewrite bigsum_swap. rewrite (@bigsum_ext c _ (fun k => if (k =? j)%nat then x k else 0)); [now apply (bigsum_delta c x)|].
      intros k Hk. rewrite <- bigsum_mult_r, (H j k) by auto. unfold delta. rewrite (Nat.eqb_sym j k). destruct (k =? j)%nat; ring.
    - intros a Ha. rewrite bigsum_mult_l. apply bigsum_ext. intros. ring. }
  rewrite <- A. rewrite (@bigsum_ext n _ (fun _ => 0)); [apply bigsum_0|]. intros a Ha. rewrite Hx by auto. ring.
Qed.

Lemma kcols_eigen n f l c : (c < length (frees n (reduc n n (shifted f l))))%nat ->
  eigenvector n f l (fun a => kcols n (reduc n n (shifted f l)) a c).
Proof.
  intros Hc. pose proof (reduc_reduced n (shifted f l)) as HR.
  assert (Hin : In (nth c (frees n (reduc n n (shifted f l))) 0%nat) (frees n (reduc n n (shifted f l)))) by now apply nth_In.
  apply (frees_in _ HR) in Hin. destruct Hin as (Hh & Z). split.
  - eexists. split; [exact Hh|]. unfold kcols, kvec. rewrite Nat.eqb_refl. lra.
  - apply solves_shifted. apply (reduc_solves (shifted f l) _ (le_n n)). now apply kvec_solves.
Qed.

Section E.
Variable bc : bool.

(** Gram-Schmidt and normalisation of such columns *)
Lemma orth_block n f l evec evec2 tl c :
  let g := reduc n n (shifted f l) in
  c = length (frees n g) -> room n c evec -> room n c evec2 ->
  exists g2 W, mtx_gram_schmidt bc (mat_of n c (kcols n g) tl) evec2 = Ok (0%Z, mat_of n c g2 (rest evec2))
  /\ mtx_cols_norm bc (mat_of n c g2 (rest evec2)) evec = Ok (0%Z, mat_of n c W (rest evec))
  /\ block true n f l c W.
Proof.
  intros g Hc Hv Hv2.
  assert (HI : independent_columns n c (kcols n g)) by (subst c; apply kcols_indep, reduc_reduced).
  assert (HK : forall k, (k < c)%nat -> solves n (shifted f l) (fun a => kcols n g a k)).
  { intros k Hk. apply solves_shifted. apply (@kcols_eigen n f l k). change (k < length (frees n g))%nat. rewrite <- Hc. exact Hk. }
  destruct (@gram_schmidt_ok bc n c (kcols n g) tl evec2 Hv2 HI) as (g2 & E2 & O & Nz & _ & Co).
  destruct (@cols_norm_spec bc n c g2 (rest evec2) evec Hv Nz) as (W & E3 & U & Sc).
  exists g2, W. split; [exact E2|]. split; [exact E3|].
  enough (HW : (forall k, (k < c)%nat -> eigenvector n f l (fun a => W a k)) /\ forall k k', (k < c)%nat -> (k' < c)%nat -> bigsum n (fun a => W a k * W a k') = delta k k').
  { destruct HW as (W1 & W2). split; [split; [exact W1|now apply orthonormal_indep]|intros _; exact W2]. }
  split.
  - intros k Hk. destruct (Sc k Hk) as (s & Hs & Es). split.
    + destruct (Nz k Hk) as (i & Hi & N). exists i. split; auto. intros Z. apply N. rewrite Es, Z by auto. ring.
    + apply solves_shifted. apply (@solves_scale n _ _ s); [lra|].
      destruct (Co k Hk) as (co & Hco).
      apply (@solves_ext n _ (fun i => kcols n g i k - bigsum k (fun a => co a * kcols n g i a))).
      * intros i Hi. rewrite <- Hco, Es by auto. reflexivity.
      * apply solves_lin; [now apply HK|]. intros k' Hk'. apply HK. lia.
  - intros k k' Hk Hk'. unfold delta. destruct (Nat.eqb_spec k k') as [->|N]; [now apply U|].
    destruct (Sc k Hk) as (s & Hs & Es). destruct (Sc k' Hk') as (s' & Hs' & Es').
    pose proof (O k k' Hk Hk' N) as A.
    rewrite (@bigsum_ext n _ (fun i => (s * s') * (W i k * W i k'))), <- bigsum_mult_l in A.
    + apply Rmult_integral in A. destruct A as [A|A]; auto. apply Rmult_integral in A. lra.
    + intros i Hi. rewrite Es, Es' by auto. ring.
Qed.

(** ** The loops of one round *)

Definition dmark g (k : nat) : nat -> nat -> R :=
  fun a b => if (a =? b)%nat && (a <? k)%nat && tiny (g a a) then -1 else g a b.

Definition fcount g (k : nat) : nat := length (filter (fun h => tiny (g h h)) (seq 0 k)).

Lemma fcount_S g k : fcount g (S k) = if tiny (g k k) then S (fcount g k) else fcount g k.
Proof.
  unfold fcount. rewrite seq_S, filter_app, app_length. cbn [filter Nat.add].
  destruct (tiny (g k k)); cbn [length]; lia.
Qed.

Lemma frees_nth n g k : (k < n)%nat -> tiny (g k k) = true -> (fcount g k < length (frees n g))%nat /\
  nth (fcount g k) (frees n g) 0%nat = k.
Proof.
  intros Hk T. unfold frees, fcount. replace n with (k + S (n - S k))%nat by lia.
  rewrite seq_app, filter_app. cbn [seq filter Nat.add]. rewrite T, app_length. cbn [length]. split; [lia|].
  rewrite app_nth2, Nat.sub_diag by lia. reflexivity.
Qed.

Lemma count_run n g tg c x :
  for_ n 0 (fun h '(count, x) =>
     let! x := lget bc (mat_of n n g tg) h h x in
     let! xv := lval x in
     Ok ((if is_tiny xv then S count else count), x)) (0%nat, None) = Ok (c, x) ->
  c = length (frees n g).
Proof.
  intros E.
  pose proof (@for_post _ (fun k st => fst st = fcount g k) _ _ _ _ _ E) as H. cbn beta in H.
  apply H; [reflexivity|]. clear. intros h (c & x) st Hh HP Eb. cbn [fst] in HP. subst c.
  rewrite lget_mat in Eb by lia. cbn [bind lval] in Eb. injection Eb as <-. cbn [fst].
  rewrite fcount_S, is_tiny_R. reflexivity.
Qed.

(** one column, as both branches compute it *)
Lemma col_run n g tg h fb : (h < n)%nat -> (n <= length fb)%nat -> tiny (g h h) = true ->
  exists tf, mtx_set bc (mat_of n n (dmark g h) tg) h h (fofZ (-1)) = Ok (0%Z, mat_of n n (dmark g (S h)) tg)
  /\ mtx_get_col bc (mat_of n n (dmark g (S h)) tg) h fb = Ok (0%Z, vbuf (fvec n (fun a => dmark g (S h) a h) tf))
  /\ vec_neg (Vec n (vbuf (fvec n (fun a => dmark g (S h) a h) tf))) = Ok (0%Z, fvec n (kvec g h) tf).
Proof.
  intros Hh Hf T. exists (skipn n fb). split; [|split].
  - rewrite mtx_set_mat by auto. do 2 f_equal. apply mat_ext. intros a b Ha Hb.
    unfold fupd, dmark. destruct (Nat.eqb_spec a h) as [->|N]; cbn [andb].
    + destruct (Nat.eqb_spec b h) as [->|N'].
      * rewrite Nat.eqb_refl, T. assert (L : (h <? S h)%nat = true) by (apply Nat.ltb_lt; lia). rewrite L. cbn [andb].
        rops. reflexivity.
      * destruct (Nat.eqb_spec h b); [congruence|]. reflexivity.
    + assert (L : (a <? S h)%nat = (a <? h)%nat).
      { destruct (Nat.ltb_spec a h), (Nat.ltb_spec a (S h)); auto; lia. }
      now rewrite L.
  - now apply get_col_fvec.
  - change (Vec n (vbuf (fvec n (fun a => dmark g (S h) a h) (skipn n fb)))) with (fvec n (fun a => dmark g (S h) a h) (skipn n fb)).
    rewrite vec_neg_f. do 2 f_equal. unfold fvec. do 3 f_equal. unfold tab. apply map_ext_in. intros a Ha. apply in_seq in Ha.
    unfold dmark, kvec. destruct (Nat.eqb_spec a h) as [->|N]; cbn [andb]; auto.
    assert (L : (h <? S h)%nat = true) by (apply Nat.ltb_lt; lia). rewrite L, T. cbn [andb]. ring.
Qed.

Lemma dmark_skip g h : tiny (g h h) = false -> dmark g (S h) = dmark g h.
Proof.
  intros T. apply functional_extensionality. intros a. apply functional_extensionality. intros b. unfold dmark.
  destruct (Nat.eqb_spec a b); cbn [andb]; auto. subst b.
  destruct (Nat.eqb_spec a h) as [->|N].
  - rewrite T, !andb_false_r. reflexivity.
  - assert (L : (a <? S h)%nat = (a <? h)%nat).
    { destruct (Nat.ltb_spec a h), (Nat.ltb_spec a (S h)); auto; lia. }
    now rewrite L.
Qed.

Lemma dmark_diag g h : dmark g h h h = g h h.
Proof. unfold dmark. now rewrite Nat.ltb_irrefl, andb_false_r. Qed.

Lemma dmark_0 g : dmark g 0 = g.
Proof.
  apply functional_extensionality. intros a. apply functional_extensionality. intros b. unfold dmark.
  destruct (a =? b)%nat; reflexivity.
Qed.

Lemma fvec_len n u tl : (n <= length (vbuf (fvec n u tl)))%nat.
Proof. unfold fvec. cbn [vbuf]. rewrite app_length. unfold cells. rewrite map_length, tab_length. lia. Qed.

Lemma fill_run n g tg evec fb mi' evec' fb' ga x :
  room n (length (frees n g)) evec -> (n <= length fb)%nat ->
  for_ n 0 (fun h '(mi, evec, fb, ga, x) =>
     let! x := lget bc mi h h x in
     let! xv := lval x in
     if is_tiny xv then
       let! (_, mi) := mtx_set bc mi h h (fofZ (-1)) in
       let! (_, fb) := mtx_get_col bc mi h fb in
       let! (_, f) := vec_neg (Vec n fb) in
       let! (_, evec) := mtx_set_col bc evec ga (vbuf f) in
       Ok (mi, evec, vbuf f, S ga, x)
     else Ok (mi, evec, fb, ga, x)) (mat_of n n g tg, evec, fb, 0%nat, None) = Ok (mi', evec', fb', ga, x) ->
  mi' = mat_of n n (dmark g n) tg /\ evec' = mat_of n (length (frees n g)) (kcols n g) (rest evec)
  /\ (n <= length fb')%nat.
Proof.
  intros Hv Hf E. destruct (room_otab Hv) as (F & EF). set (te := rest evec) in *. clearbody te. subst evec.
  set (c := length (frees n g)) in *.
  pose proof (@for_post _ (fun k st => let '(mi, evec, fb, ga, x) := st in
     mi = mat_of n n (dmark g k) tg /\ ga = fcount g k /\ (n <= length fb)%nat /\
     evec = otab n c (fun a b => if (b <? fcount g k)%nat then Some (kcols n g a b) else F a b) te) _ _ _ _ _ E) as H.
  cbn beta iota in H. destruct H as (-> & -> & Hf' & ->).
  - rewrite dmark_0. repeat split; auto.
  - clear. intros h ((((mi & evec) & fb) & ga) & x) st Hh (-> & -> & Hfb & ->) Eb.
    rewrite lget_mat, dmark_diag in Eb by lia. cbn [bind lval] in Eb. rewrite is_tiny_R in Eb.
    rewrite fcount_S. destruct (tiny (g h h)) eqn:T.
    + destruct (@col_run n g tg h fb ltac:(lia) Hfb T) as (tf & E1 & E2 & E3).
      rewrite E1 in Eb. cbn [bind] in Eb. rewrite E2 in Eb. cbn [bind] in Eb. rewrite E3 in Eb. cbn [bind] in Eb.
      destruct (@frees_nth n g h ltac:(lia) T) as (L & Nh). fold c in L.
      rewrite set_col_fvec in Eb by auto. cbn [bind] in Eb. injection Eb as <-.
      split; auto. split; auto. split; [apply fvec_len|]. apply otab_ext. intros a b Ha Hb.
      destruct (Nat.eqb_spec b (fcount g h)) as [->|N].
      * assert (L' : (fcount g h <? S (fcount g h))%nat = true) by (apply Nat.ltb_lt; lia). rewrite L'.
        unfold kcols. now rewrite Nh.
      * destruct (Nat.ltb_spec b (fcount g h)), (Nat.ltb_spec b (S (fcount g h))); auto; lia.
    + injection Eb as <-. rewrite dmark_skip by auto. auto.
  - split; auto. split; auto. cbn [Nat.add]. apply otab_mat. intros a b Ha Hb.
    change (fcount g n) with c. destruct (Nat.ltb_spec b c); auto; lia.
Qed.

(** columns b, b+1, ... replaced by those of W *)
Definition putcols G b c (W : nat -> nat -> R) : nat -> nat -> R :=
  fun a s => if (b <=? s)%nat && (s <? b + c)%nat then W a (s - b)%nat else G a s.

Lemma putcols_0 G b W : putcols G b 0 W = G.
Proof.
  apply functional_extensionality. intros a. apply functional_extensionality. intros s. unfold putcols.
  destruct (Nat.leb_spec b s), (Nat.ltb_spec s (b + 0)%nat); auto; lia.
Qed.

Lemma putcols_S n G b c W u tl tf : (b + c < n)%nat -> (forall a, (a < n)%nat -> u a = W a c) ->
  mtx_set_col bc (mat_of n n (putcols G b c W) tl) (b + c) (vbuf (fvec n u tf))
  = Ok (0%Z, mat_of n n (putcols G b (S c) W) tl).
Proof.
  intros Hb Hu. rewrite mat_otab, set_col_fvec by auto. do 2 f_equal. apply otab_mat. intros a s Ha Hs.
  unfold putcols. destruct (Nat.eqb_spec s (b + c)%nat) as [->|N].
  - assert (L1 : (b <=? b + c)%nat = true) by (apply Nat.leb_le; lia).
    assert (L2 : (b + c <? b + S c)%nat = true) by (apply Nat.ltb_lt; lia). rewrite L1, L2. cbn [andb].
    rewrite Hu by auto. do 2 f_equal. lia.
  - destruct (Nat.leb_spec b s), (Nat.ltb_spec s (b + c)%nat), (Nat.ltb_spec s (b + S c)%nat); cbn [andb]; auto; lia.
Qed.

Lemma copy_run n c W tw mev2 fb b mev2' fb' b' : (n <= length fb)%nat ->
  for_ c 0 (fun gi '(mev2, fb, b) =>
     let! (_, fb) := mtx_get_col bc (mat_of n c W tw) gi fb in
     let! (_, mev2) := mtx_set_col bc mev2 b fb in
     Ok (mev2, fb, S b)) (mev2, fb, b) = Ok (mev2', fb', b') ->
  b' = (b + c)%nat /\ (n <= length fb')%nat
  /\ forall G tl, mev2 = mat_of n n G tl -> (b + c <= n)%nat -> mev2' = mat_of n n (putcols G b c W) tl.
Proof.
  intros Hf E.
  pose proof (@for_post _ (fun k st => let '(m, fb, b') := st in
     b' = (b + k)%nat /\ (n <= length fb)%nat
     /\ forall G tl, mev2 = mat_of n n G tl -> (b + k <= n)%nat -> m = mat_of n n (putcols G b k W) tl) _ _ _ _ _ E) as H.
  cbn beta iota in H. apply H.
  - split; [lia|]. split; auto. intros G tl -> _. now rewrite putcols_0.
  - clear. intros k ((m & fb) & b') st Hk (-> & Hfb & Hm) Eb.
    rewrite get_col_fvec in Eb by (auto; lia). cbn [bind] in Eb.
    apply bind_inv in Eb. destruct Eb as ((z & m') & Es & Eb). injection Eb as <-.
    split; [lia|]. split; [apply fvec_len|]. intros G tl -> Hb.
    rewrite (Hm G tl eq_refl ltac:(lia)) in Es.
    rewrite (@putcols_S n G b k W) in Es by (auto; lia). now injection Es as _ <-.
Qed.

Lemma plain_run n g tg mev2 fb b mi' mev2' fb' b' x : (n <= length fb)%nat ->
  for_ n 0 (fun h '(mi, mev2, fb, b, x) =>
     let! x := lget bc mi h h x in
     let! xv := lval x in
     if is_tiny xv then
       let! (_, mi) := mtx_set bc mi h h (fofZ (-1)) in
       let! (_, fb) := mtx_get_col bc mi h fb in
       let! (_, f) := vec_neg (Vec n fb) in
       let! (_, mev2) := mtx_set_col bc mev2 b (vbuf f) in
       Ok (mi, mev2, vbuf f, S b, x)
     else Ok (mi, mev2, fb, b, x)) (mat_of n n g tg, mev2, fb, b, None) = Ok (mi', mev2', fb', b', x) ->
  let c := length (frees n g) in
  mi' = mat_of n n (dmark g n) tg /\ b' = (b + c)%nat /\ (n <= length fb')%nat
  /\ forall G tl, mev2 = mat_of n n G tl -> (b + c <= n)%nat -> mev2' = mat_of n n (putcols G b c (kcols n g)) tl.
Proof.
  intros Hf E.
  pose proof (@for_post _ (fun k st => let '(mi, m, fb, b', x) := st in
     mi = mat_of n n (dmark g k) tg /\ b' = (b + fcount g k)%nat /\ (n <= length fb)%nat
     /\ forall G tl, mev2 = mat_of n n G tl -> (b + fcount g k <= n)%nat ->
         m = mat_of n n (putcols G b (fcount g k) (kcols n g)) tl) _ _ _ _ _ E) as H.
  cbn beta iota in H. apply H.
  - rewrite dmark_0. split; auto. split; [cbn; lia|]. split; auto. intros G tl -> _. cbn [fcount seq filter length]. now rewrite putcols_0.
  - clear. intros h ((((mi & m) & fb) & b') & x) st Hh (-> & -> & Hfb & Hm) Eb.
    rewrite lget_mat, dmark_diag in Eb by lia. cbn [bind lval] in Eb. rewrite is_tiny_R in Eb.
    rewrite fcount_S. destruct (tiny (g h h)) eqn:T.
    + destruct (@col_run n g tg h fb ltac:(lia) Hfb T) as (tf & E1 & E2 & E3).
      rewrite E1 in Eb. cbn [bind] in Eb. rewrite E2 in Eb. cbn [bind] in Eb. rewrite E3 in Eb. cbn [bind] in Eb.
      destruct (@frees_nth n g h ltac:(lia) T) as (L & Nh).
      apply bind_inv in Eb. destruct Eb as ((z & m') & Es & Eb). injection Eb as <-.
      split; auto. split; [lia|]. split; [apply fvec_len|]. intros G tl -> Hb.
      rewrite (Hm G tl eq_refl ltac:(lia)) in Es.
      rewrite (@putcols_S n G b (fcount g h) (kcols n g)) in Es; [now injection Es as _ <-|lia|].
      intros a Ha. unfold kcols. now rewrite Nh.
    + injection Eb as <-. rewrite dmark_skip by auto. auto.
Qed.

End E.

(** ** The list of distinct eigenvalues *)

Lemma tiny_close x : tiny x = close x 0.
Proof. unfold tiny, close. now rewrite Rminus_0_r. Qed.

Lemma distinct_len q k : (length (distinct_values q k) <= q)%nat.
Proof.
  induction q as [|q IH]; [apply le_n|]. cbn [distinct_values]. destruct (_ || _); [lia|].
  rewrite app_length. cbn [length]. lia.
Qed.

Lemma vec_contains_close (xs : list R) tx val :
  vec_contains (vec_of xs tx) val (flit 1 6) = Ok (length (filter (fun a => close a val) xs)).
Proof.
  rewrite vec_contains_ok. do 2 f_equal. apply filter_ext. intros a. rewrite Rlit_micro. unfold close.
  destruct (Rlt_dec (Rabs (a - val)) (/ 1000000)) as [H|H].
  - now apply near_R.
  - destruct (near val (/ 1000000) a) eqn:E; auto. exfalso. now apply H, near_R.
Qed.

Lemma filter_none A (p : A -> bool) l : (length (filter p l) =? 0)%nat = negb (existsb p l).
Proof. induction l as [|a l IH]; cbn [filter existsb]; auto. destruct (p a); cbn; auto. Qed.

Lemma existsb_repeat A (p : A -> bool) x m : p x = false -> existsb p (repeat x m) = false.
Proof. intros H. induction m; cbn; auto. now rewrite H. Qed.

Lemma upd_mid A (l r : list A) a x : upd (l ++ a :: r) (length l) x = l ++ x :: r.
Proof. induction l; cbn; auto. now rewrite IHl. Qed.

Lemma olist_run n (k : vec R) o e :
  for_ n 0 (fun q '(o, e_vals) =>
      let! kq := rd (vbuf k) q in
      if is_big kq then
        let! c := vec_contains o kq (flit 1 6) in
        if (c =? 0)%nat then
          let! ob := wr (vbuf o) e_vals kq in
          Ok (Vec (vsz o) ob, S e_vals)
        else Ok (o, e_vals)
      else Ok (o, e_vals)) (fvec n (fun _ => 0) [], 0%nat) = Ok (o, e) ->
  let L := distinct_values n (cell_val (vbuf k)) in
  e = length L /\ o = vec_of (L ++ repeat 0 (n - length L)) [].
Proof.
  intros E.
  pose proof (@for_post _ (fun q st => let L := distinct_values q (cell_val (vbuf k)) in
     fst st = vec_of (L ++ repeat 0 (n - length L)) [] /\ snd st = length L) _ _ _ _ _ E) as H.
  cbn beta zeta in H. destruct H as (H1 & H2).
  - split; [|reflexivity]. cbn [fst distinct_values length app]. rewrite fvec_vec_of, Nat.sub_0_r. f_equal.
    unfold tab. clear. generalize 0%nat. induction n as [|n IH]; intros s; cbn; f_equal; auto.
  - clear. intros q (o & e) st Hq (Ho & He) Eb. cbn [fst snd] in Ho, He. subst o e.
    pose proof (distinct_len q (cell_val (vbuf k))) as Lq.
    cbn [distinct_values]. set (L := distinct_values q (cell_val (vbuf k))) in *.
    apply bind_inv in Eb. destruct Eb as (kq & Ek & Eb).
    assert (Ev : cell_val (vbuf k) q = kq) by (unfold cell_val; now rewrite Ek). rewrite Ev. clear Ev Ek.
    rewrite is_big_R, tiny_close in Eb. destruct (close kq 0) eqn:C; cbn [negb orb] in *.
    { injection Eb as <-. auto. }
    rewrite vec_contains_close in Eb. cbn [bind] in Eb. rewrite filter_none, existsb_app in Eb.
    rewrite existsb_repeat in Eb.
    2:{ rewrite <- C. unfold close. now replace (0 - kq) with (- (kq - 0)) by ring; rewrite Rabs_Ropp. }
    rewrite orb_false_r in Eb. destruct (existsb (fun a => close a kq) L) eqn:X; cbn [negb] in Eb.
    { injection Eb as <-. auto. }
    replace (n - length L)%nat with (S (n - S (length L))) in Eb by lia. cbn [repeat] in Eb.
    unfold vec_of at 1 in Eb. cbn [vbuf] in Eb.
    rewrite wr_cells_app in Eb by (rewrite app_length; cbn [length]; lia). cbn [bind] in Eb. injection Eb as <-.
    assert (EL : length (L ++ [kq]) = S (length L)) by (rewrite app_length; cbn [length]; lia).
    rewrite upd_mid. cbn [fst snd]. rewrite EL. split; [|reflexivity].
    rewrite <- app_assoc. unfold vec_of. cbn [vsz app]. f_equal. rewrite !app_length. reflexivity.
  - cbn [fst snd Nat.add] in *. auto.
Qed.

Lemma contains_zero (k : vec R) c : vec_contains k 0 (flit 1 6) = Ok c ->
  (0 <? c)%nat = existsb (fun q => close (cell_val (vbuf k) q) 0) (seq 0 (vsz k)).
Proof.
  intros E. unfold vec_contains in E.
  pose proof (@for_post _ (fun q c => (0 <? c)%nat = existsb (fun q => close (cell_val (vbuf k) q) 0) (seq 0 q)) _ _ _ _ _ E) as H.
  cbn beta in H. apply H; [reflexivity|]. clear. intros q c c' _ HP Eb.
  apply bind_inv in Eb. destruct Eb as (a & Ea & Eb). injection Eb as <-.
  rewrite seq_S, existsb_app. cbn [existsb Nat.add]. rewrite orb_false_r, <- HP.
  unfold cell_val at 1. rewrite Ea.
  change (Rltb (a - 0) (Rlit 1 6) && Rltb (- (a - 0)) (Rlit 1 6)) with (near 0 (flit 1 6) a).
  assert (X : near 0 (flit 1 6) a = close a 0).
  { rewrite Rlit_micro. unfold close. destruct (Rlt_dec (Rabs (a - 0)) (/ 1000000)) as [Y|Y]; [now apply near_R|].
    destruct (near 0 (/ 1000000) a) eqn:Z; auto. exfalso. now apply Y, near_R. }
  rewrite X. destruct (close a 0); [now rewrite orb_true_r|now rewrite orb_false_r].
Qed.

(** ** The whole run *)

(** the columns found before those of the k-th eigenvalue *)
Fixpoint coff (cn : nat -> nat) (k : nat) : nat := match k with O => O | S k' => (coff cn k' + cn k')%nat end.

Lemma coff_mono cn a b : (a <= b)%nat -> (coff cn a <= coff cn b)%nat.
Proof. induction 1; cbn [coff]; lia. Qed.

Lemma coff_find cn e s : (s < coff cn e)%nat -> exists j c, (j < e)%nat /\ (c < cn j)%nat /\ s = (coff cn j + c)%nat.
Proof.
  induction e as [|e IH]; cbn [coff]; [lia|]. intros H.
  destruct (Nat.lt_ge_cases s (coff cn e)) as [A|A].
  - destruct (IH A) as (j & c & Hj & Hc & ->). exists j, c. split; [lia|]. auto.
  - exists e, (s - coff cn e)%nat. split; [lia|]. split; lia.
Qed.

Definition kdim n f (l : R) : nat := length (frees n (reduc n n (shifted f l))).

Lemma kdim_le n f l : (kdim n f l <= n)%nat.
Proof.
  assert (H : forall l0, (length (filter (fun h => tiny (reduc n n (shifted f l) h h)) l0) <= length l0)%nat).
  { intros l0. induction l0 as [|a l0 IH]; cbn [filter length]; auto. destruct (tiny _); cbn [length]; lia. }
  unfold kdim, frees. eapply Nat.le_trans; [apply H|]. now rewrite seq_length.
Qed.

Lemma block_ext orth n f l c V W : (forall a k, (a < n)%nat -> (k < c)%nat -> V a k = W a k) -> block orth n f l c V -> block orth n f l c W.
Proof.
  intros E ((H1 & HI) & H2). split; [split|].
  - intros k Hk. destruct (H1 k Hk) as ((i & Hi & N) & S). split.
    + exists i. split; auto. rewrite <- E; auto.
    + intros a Ha. rewrite <- (E a k) by auto. rewrite <- S by auto. apply bigsum_ext. intros j Hj. now rewrite E.
  - intros x Hx. apply HI. intros i Hi. rewrite <- (Hx i Hi). apply bigsum_ext. intros j Hj. now rewrite E.
  - intros O k k' Hk Hk'. rewrite <- (H2 O k k' Hk Hk'). apply bigsum_ext. intros a Ha. now rewrite !E.
Qed.

Lemma mat_buf_len r c (f : nat -> nat -> R) tl : length (mbuf (mat_of r c f tl)) = (r * c + length tl)%nat.
Proof. unfold mat_of, cells. cbn [mbuf]. rewrite app_length, !map_length, seq_length. reflexivity. Qed.

Lemma rest_len (m : mtx R) r c : room r c m -> (length (rest m) = length (mbuf m) - r * c)%nat.
Proof. intros (A & B & C). unfold rest. rewrite A, B, skipn_length. reflexivity. Qed.

Lemma set_col_cols bc (m : mtx R) j v rc m' : mtx_set_col bc m j v = Ok (rc, m') -> mcols m' = mcols m.
Proof.
  unfold mtx_set_col. intros E. apply bind_inv in E. destruct E as (r & E & E2). injection E2 as E2.
  assert (L : match r with inl w => mcols w = mcols m | inr (_, w) => mcols w = mcols m end).
  2:{ destruct r as [w|(c & w)]; [injection E2 as _ <-|injection E2 as _ <-]; exact L. }
  clear E2 rc m'. revert E. generalize 0%nat at 1 as lo. generalize (mrows m) as n. intros n lo.
  assert (H0 : mcols m = mcols m) by reflexivity. revert H0. generalize m at 1 3 as w.
  revert lo. induction n as [|n IH]; intros lo w Hw E; cbn [for_exit] in E.
  - injection E as <-. exact Hw.
  - apply bind_inv in E. destruct E as (s & E1 & E). apply bind_inv in E1. destruct E1 as (x & _ & E1).
    apply bind_inv in E1. destruct E1 as ((c & w1) & E1 & E3).
    assert (Hw1 : mcols w1 = mcols m).
    { unfold mtx_set in E1. destruct (bc && _); [injection E1 as _ <-; exact Hw|].
      apply bind_inv in E1. destruct E1 as (bb & _ & E1). injection E1 as _ <-. exact Hw. }
    destruct (c =? 0)%Z; injection E3 as <-.
    + apply (IH (S lo) w1); auto.
    + injection E as <-. exact Hw1.
Qed.

Lemma eigenvectors_run bc fuel row0 col0 n f tf h th mev iter orth rc out :
  room n n mev ->
  mtx_eigenvectors bc fuel row0 col0 (mbuf (mat_of n n h th)) (mat_of n n f tf) mev iter orth = Ok (rc, out) ->
  exists z k, mtx_eigenvalues bc fuel row0 col0 (mat_of n n f tf) (vec_def n) iter = Ok (z, k)
  /\ let L := eigen_list n (cell_val (vbuf k)) in
     let O := fun j => nth j L 0 in
     let cn := fun j => kdim n f (O j) in
     vsz k = n ->
     (forall l, In l L -> reduc_clear n (shifted f l)) ->
     mcols out = coff cn (length L) /\ (rc = 0%Z <-> mcols out = n) /\ (length L <= n)%nat
     /\ ((mcols out <= n)%nat -> exists V tl, out = mat_of n (mcols out) V tl
         /\ forall j, (j < length L)%nat -> block orth n f (O j) (cn j) (fun a c => V a (coff cn j + c)%nat)).
Proof.
  intros Hm E. unfold mtx_eigenvectors in E.
  change (mrows (mat_of n n f tf)) with n in E. change (mcols (mat_of n n f tf)) with n in E.
  rewrite (mtx_init_empty bc (r := n) (c := n)) in E by apply room_def. cbn [bind] in E.
  rewrite vec_init_def in E. cbn [bind] in E.
  apply bind_inv in E. destruct E as ((z & k) & Ek & E). exists z, k. split; [exact Ek|]. clear Ek.
  intros L O cn Hk HC.
  apply bind_inv in E. destruct E as ((o & e) & Eo & E). apply olist_run in Eo. cbv zeta in Eo.
  destruct Eo as (-> & ->).
  apply bind_inv in E. destruct E as (c0 & Ec & E).
  assert (Ez : (0 <? c0)%nat = existsb (fun q => close (cell_val (vbuf k) q) 0) (seq 0 n)).
  { rewrite <- Hk. apply contains_zero. exact Ec. }
  set (D := distinct_values n (cell_val (vbuf k))) in *.
  pose proof (distinct_len n (cell_val (vbuf k))) as HD. fold D in HD.
  assert (EL : (if (0 <? c0)%nat then S (length D) else length D) = length L).
  { unfold L, eigen_list. fold D. rewrite app_length, Ez. destruct (existsb _ _); cbn [length]; lia. }
  rewrite EL in E.
  assert (HO : forall j x, rd (vbuf (vec_of (D ++ repeat 0 (n - length D)) [])) j = Ok x -> (j < length L)%nat -> x = O j /\ (j < n)%nat).
  { intros j x Ex Hj. unfold vec_of in Ex. cbn [vbuf] in Ex. rewrite app_nil_r in Ex.
    destruct (Nat.lt_ge_cases j n) as [A|A].
    - rewrite (@rd_cells R _ j 0) in Ex by (rewrite app_length, repeat_length; lia). injection Ex as <-. split; auto.
      unfold O, L, eigen_list. fold D. destruct (Nat.lt_ge_cases j (length D)) as [B|B].
      + now rewrite !app_nth1.
      + rewrite !app_nth2 by auto. rewrite nth_repeat.
        destruct (existsb _ _); [|destruct (j - length D)%nat; reflexivity].
        destruct (j - length D)%nat as [|[|]]; reflexivity.
    - exfalso. unfold rd in Ex. rewrite (proj2 (nth_error_None _ j)) in Ex; [discriminate|].
      rewrite cells_length, app_length, repeat_length. lia. }
  apply bind_inv in E. destruct E as (((((((md & mi) & evec) & evec2) & mev2) & fb) & b) & El & E).
  rewrite rest_def in El.
  pose proof (@for_post _ (fun k st => let '(mid, mi, evec, evec2, mev2, fb, b) := st in
     (exists h, mid = mat_of n n h th) /\ room n n mi /\ (n * n <= length (mbuf evec))%nat
     /\ (n * n <= length (mbuf evec2))%nat /\ (n <= length fb)%nat /\ b = coff cn k /\ (k <= n)%nat
     /\ ((b <= n)%nat -> exists G, mev2 = mat_of n n G []
         /\ forall j, (j < k)%nat -> block orth n f (O j) (cn j) (fun a c => G a (coff cn j + c)%nat)))
     _ _ _ _ _ El) as H. cbn beta iota in H.
  destruct H as (_ & _ & _ & _ & Hfb & -> & HLn & HG).
  { split; [exists h; reflexivity|]. split; [apply room_def|].
    split; [unfold mtx_def; cbn [mbuf]; now rewrite fresh_length|].
    split; [unfold mtx_def; cbn [mbuf]; now rewrite fresh_length|].
    split; [now rewrite fresh_length|]. split; [reflexivity|]. split; [lia|]. intros _.
    eexists. split; [reflexivity|]. intros j Hj. lia. }
  { clear El E Ec Ez EL. intros q ((((((mid0 & mi0) & ev0) & ev20) & mev20) & fb0) & b0) st Hq
      ((h0 & ->) & Hmi & Hev & Hev2 & Hf0 & -> & _ & HG) Eb.
    rewrite (@mtx_init_identity R _ bc n n) in Eb by apply room_def. rewrite rest_def in Eb. cbn [bind] in Eb.
    apply bind_inv in Eb. destruct Eb as (og & Eog & Eb).
    destruct (HO q og Eog ltac:(lia)) as (-> & Hqn). clear Eog.
    rewrite mtx_scalar_mult_d_ok in Eb. cbn [bind] in Eb.
    assert (Eadd : mtx_add_d bc (mat_of n n (fun i j => (mid i j * - O q)%num) []) (mat_of n n f tf)
       = Ok (0%Z, mat_of n n (shifted f (O q)) [])).
    { apply mtx_zip_d_ok. intros i j Hi Hj. unfold op_add, shifted, SpecMtx.mid. rops.
      destruct (Nat.eqb_spec i j); f_equal; rops; ring. }
    rewrite Eadd in Eb. cbn [bind] in Eb. clear Eadd.
    assert (HCq : reduc_clear n (shifted f (O q))) by (apply HC, nth_In; lia).
    destruct (@gauss_reduc_any bc n (shifted f (O q)) h0 [] th mi0 Hmi HCq) as (h' & Eg).
    rewrite Eg in Eb. cbn [bind] in Eb. clear Eg.
    pose proof (kdim_le n f (O q)) as Hc. change (kdim n f (O q)) with (cn q) in Hc.
    set (g := reduc n n (shifted f (O q))) in *. change (length (frees n g)) with (cn q) in *.
    destruct orth.
    - apply bind_inv in Eb. destruct Eb as ((count & x1) & E1 & Eb). apply count_run in E1.
      change (length (frees n g)) with (cn q) in E1. subst count.
      set (evq := Mtx n (cn q) (mbuf ev0)) in *. set (ev2q := Mtx n (cn q) (mbuf ev20)) in *.
      assert (R1 : room n (cn q) evq).
      { split; [reflexivity|]. split; [reflexivity|]. cbn [evq mbuf]. pose proof (Nat.mul_le_mono_l _ _ n Hc). lia. }
      assert (R2 : room n (cn q) ev2q).
      { split; [reflexivity|]. split; [reflexivity|]. cbn [ev2q mbuf]. pose proof (Nat.mul_le_mono_l _ _ n Hc). lia. }
      apply bind_inv in Eb. destruct Eb as (((((mi1 & ev1) & fb1) & ga1) & x2) & E1 & Eb).
      apply (@fill_run bc n g (rest mi0) evq fb0 mi1 ev1 fb1 ga1 x2 R1 Hf0) in E1. destruct E1 as (-> & -> & Hf1).
      change (length (frees n g)) with (cn q) in Eb.
      destruct (@orth_block bc n f (O q) evq ev2q (rest evq) (cn q) eq_refl) as (g2 & W & Eg & Ew & HB).
      { exact R1. } { exact R2. }
      fold g in Eg. rewrite Eg in Eb. cbn [bind] in Eb.
      (* the normalised columns go back to the first work matrix *)
      destruct (@orth_block bc n f (O q) (mat_of n (cn q) (kcols n g) (rest evq)) ev2q (rest evq) (cn q) eq_refl) as (g3 & W3 & Eg3 & Ew3 & HB3).
      { apply mat_room. } { exact R2. }
      fold g in Eg3. rewrite Eg in Eg3. injection Eg3 as Eg3. rewrite mat_rest in Ew3.
      assert (X : mat_of n (cn q) g2 (rest ev2q) = mat_of n (cn q) g3 (rest ev2q)).
      { unfold mat_of. now rewrite Eg3. }
      rewrite X, Ew3 in Eb. cbn [bind] in Eb. clear X Ew W HB Eg Eg3.
      apply bind_inv in Eb. destruct Eb as (((mv & fb2) & b2) & E1 & Eb).
      apply copy_run in E1; [|exact Hf1]. destruct E1 as (-> & Hf2 & HM). injection Eb as <-.
      split; [eexists; reflexivity|]. split; [apply mat_room|].
      split; [rewrite mat_buf_len, (rest_len R1); destruct R1 as (_ & _ & R1); cbn [evq mbuf] in *; lia|].
      split; [rewrite mat_buf_len, (rest_len R2); destruct R2 as (_ & _ & R2); cbn [ev2q mbuf] in *; lia|].
      split; auto. split; [reflexivity|]. split; [lia|]. intros Hb.
      destruct (HG ltac:(lia)) as (G & -> & HG').
      exists (putcols G (coff cn q) (cn q) W3). split; [apply HM; [reflexivity|exact Hb]|].
      intros j Hj. destruct (Nat.eq_dec j q) as [->|N].
      + revert HB3. apply block_ext. intros a c Ha Hcc. unfold putcols.
        destruct (Nat.leb_spec (coff cn q) (coff cn q + c)%nat); [|lia].
        destruct (Nat.ltb_spec (coff cn q + c)%nat (coff cn q + cn q)%nat); [|lia]. cbn [andb]. f_equal. lia.
      + generalize (HG' j ltac:(lia)). apply block_ext. intros a c Ha Hcc. unfold putcols.
        assert (coff cn (S j) <= coff cn q)%nat by (apply coff_mono; lia). cbn [coff] in *.
        destruct (Nat.leb_spec (coff cn q) (coff cn j + c)%nat); [lia|]. reflexivity.
    - apply bind_inv in Eb. destruct Eb as (((((mi1 & mv) & fb2) & b2) & x2) & E1 & Eb).
      apply plain_run in E1; [|exact Hf0]. cbv zeta in E1. destruct E1 as (-> & -> & Hf2 & HM). injection Eb as <-.
      change (length (frees n g)) with (cn q) in *.
      split; [eexists; reflexivity|]. split; [apply mat_room|]. split; auto. split; auto.
      split; auto. split; [reflexivity|]. split; [lia|]. intros Hb.
      destruct (HG ltac:(lia)) as (G & -> & HG').
      exists (putcols G (coff cn q) (cn q) (kcols n g)). split; [apply HM; [reflexivity|exact Hb]|].
      intros j Hj. destruct (Nat.eq_dec j q) as [->|N].
      + assert (K : block false n f (O q) (cn q) (kcols n g)).
        { split; [split|discriminate]; [|apply kcols_indep, reduc_reduced].
          intros c Hcc. exact (@kcols_eigen n f (O q) c Hcc). }
        revert K. apply block_ext. intros a c Ha Hcc. unfold putcols.
        destruct (Nat.leb_spec (coff cn q) (coff cn q + c)%nat); [|lia].
        destruct (Nat.ltb_spec (coff cn q + c)%nat (coff cn q + cn q)%nat); [|lia]. cbn [andb]. f_equal. lia.
      + generalize (HG' j ltac:(lia)). apply block_ext. intros a c Ha Hcc. unfold putcols.
        assert (coff cn (S j) <= coff cn q)%nat by (apply coff_mono; lia). cbn [coff] in *.
        destruct (Nat.leb_spec (coff cn q) (coff cn j + c)%nat); [lia|]. reflexivity. }
  clear El. cbn [Nat.add] in *. set (b := coff cn (length L)) in *.
  apply bind_inv in E. destruct E as ((mev' & fb') & Es & E). injection E as <- <-.
  destruct Hm as (Hr & Hcl & Hlen).
  assert (Hmc : mcols mev' = b).
  { pose proof (@for_post _ (fun _ st => mcols (fst st) = b) _ _ _ _ _ Es) as H. apply H; [reflexivity|].
    clear. intros s (m & fb) st _ HP Eb. cbn [fst] in HP. apply bind_inv in Eb. destruct Eb as ((z1 & fb1) & _ & Eb).
    apply bind_inv in Eb. destruct Eb as ((z2 & m1) & E2 & Eb). injection Eb as <-. cbn [fst].
    rewrite <- HP. exact (set_col_cols _ _ _ _ E2). }
  rewrite Hmc. split; [reflexivity|]. split.
  { destruct (Nat.eqb_spec b n); cbn [negb]; split; auto; try discriminate; contradiction. }
  split; [exact HLn|]. intros Hb. destruct (HG Hb) as (G & -> & HB). 
  assert (R0 : room n b (Mtx n b (mbuf mev))).
  { split; [reflexivity|]. split; [reflexivity|]. cbn [mbuf]. pose proof (Nat.mul_le_mono_l _ _ n Hb). lia. }
  rewrite Hr in Es. destruct (room_otab R0) as (F & EF). rewrite EF in Es. set (tl := rest _) in *. clearbody tl.
  pose proof (@for_post _ (fun k st => (n <= length (snd st))%nat
     /\ fst st = otab n b (fun a c => if (c <? k)%nat then Some (G a c) else F a c) tl) _ _ _ _ _ Es) as H.
  cbn beta in H. destruct H as (_ & H).
  - split; auto.
  - clear - Hb. intros s (m & fb) st Hs (Hf & Em) Eb. cbn [fst snd] in Hf, Em. subst m.
    rewrite get_col_fvec in Eb by (auto; lia). cbn [bind] in Eb. rewrite set_col_fvec in Eb by lia.
    cbn [bind] in Eb. injection Eb as <-. cbn [fst snd]. split; [apply fvec_len|].
    apply otab_ext. intros a c Ha Hc. destruct (Nat.eqb_spec c s) as [->|N].
    + destruct (Nat.ltb_spec s (S s)); [reflexivity|lia].
    + destruct (Nat.ltb_spec c s), (Nat.ltb_spec c (S s)); auto; lia.
  - exists G, tl. split; [|exact HB]. cbn [fst] in H. rewrite H. apply otab_mat. intros a c Ha Hc.
    cbn [Nat.add]. destruct (Nat.ltb_spec c b); [reflexivity|lia].
Qed.

(** ** What the columns are *)

(** eigenvectors of a symmetric matrix for different eigenvalues are orthogonal *)
Lemma sym_eigen_orth n f l m x y :
  (forall i j, (i < n)%nat -> (j < n)%nat -> f i j = f j i) -> l <> m ->
  eigenvector n f l x -> eigenvector n f m y -> bigsum n (fun a => x a * y a) = 0.
Proof.
  intros Sy N (_ & Hx) (_ & Hy).
  assert (A : l * bigsum n (fun a => x a * y a) = m * bigsum n (fun a => x a * y a)).
  { rewrite !bigsum_mult_l.
    transitivity (bigsum n (fun a => bigsum n (fun j => f a j * x j * y a))).
    - apply bigsum_ext. intros a Ha. transitivity ((l * x a) * y a); [ring|]. rewrite <- (Hx a Ha).
      rewrite Rmult_comm, bigsum_mult_l. apply bigsum_ext. intros. ring.
    - rewrite bigsum_swap. apply bigsum_ext. intros a Ha. transitivity (x a * (m * y a)); [|ring].
      rewrite <- (Hy a Ha), bigsum_mult_l. apply bigsum_ext. intros j Hj. rewrite (Sy j a) by auto. ring. }
  assert (B : (l - m) * bigsum n (fun a => x a * y a) = 0) by (rewrite Rmult_minus_distr_r; lra).
  apply Rmult_integral in B. destruct B; auto. exfalso. apply N. lra.
Qed.

Lemma distinct_big q k x : In x (distinct_values q k) -> close x 0 = false /\ exists i, (i < q)%nat /\ x = k i.
Proof.
  induction q as [|q IH]; cbn [distinct_values]; [intros []|]. intros H.
  destruct (close (k q) 0 || existsb (fun a => close a (k q)) (distinct_values q k)) eqn:E.
  - destruct (IH H) as (A & i & Hi & ->). split; auto. exists i. split; [lia|auto].
  - apply in_app_or in H. destruct H as [H|[<-|[]]].
    + destruct (IH H) as (A & i & Hi & ->). split; auto. exists i. split; [lia|auto].
    + apply orb_false_iff in E. split; [apply E|]. exists q. split; [lia|auto].
Qed.

Lemma distinct_nodup q k : NoDup (distinct_values q k).
Proof.
  induction q as [|q IH]; cbn [distinct_values]; [constructor|].
  destruct (close (k q) 0 || existsb (fun a => close a (k q)) (distinct_values q k)) eqn:E; auto.
  apply orb_false_iff in E. destruct E as (_ & E).
  apply NoDup_Add with (a := k q) (l := distinct_values q k).
  { replace (distinct_values q k) with (distinct_values q k ++ []) at 1 by apply app_nil_r. apply Add_app. }
  split; auto. intros H.
  assert (X : existsb (fun a => close a (k q)) (distinct_values q k) = true).
  { apply existsb_exists. exists (k q). split; auto. unfold close. rewrite Rminus_eq_0, Rabs_R0. destruct Rlt_dec; auto. lra. }
  congruence.
Qed.

Lemma close_00 : close 0 0 = true.
Proof. unfold close. rewrite Rminus_eq_0, Rabs_R0. destruct Rlt_dec; auto. lra. Qed.

Lemma eigen_list_nodup n k : NoDup (eigen_list n k).
Proof.
  unfold eigen_list. destruct (existsb _ _); [|rewrite app_nil_r; apply distinct_nodup].
  apply NoDup_Add with (a := 0) (l := distinct_values n k).
  { replace (distinct_values n k) with (distinct_values n k ++ []) at 1 by apply app_nil_r. apply Add_app. }
  split; [apply distinct_nodup|]. intros H. apply distinct_big in H. destruct H as (H & _). rewrite close_00 in H. discriminate.
Qed.

(** every column is an eigenvector for a listed eigenvalue; orthonormal ones of
    a symmetric matrix are orthonormal together *)
(** a sum of eigenvectors for different eigenvalues is zero only if all are *)
Lemma eigen_sum_zero n f (l : nat -> R) e : forall v : nat -> nat -> R,
  (forall i j, (i < e)%nat -> (j < e)%nat -> l i = l j -> i = j) ->
  (forall j i, (j < e)%nat -> (i < n)%nat -> bigsum n (fun a => f i a * v j a) = l j * v j i) ->
  (forall i, (i < n)%nat -> bigsum e (fun j => v j i) = 0) ->
  forall j i, (j < e)%nat -> (i < n)%nat -> v j i = 0.
Proof.
  induction e as [|e IH]; intros v ND HE Hz j i Hj Hi; [lia|].
  assert (A : forall j i, (j < e)%nat -> (i < n)%nat -> v j i = 0).
  { intros j' i' Hj' Hi'.
    assert (B : (l j' - l e) * v j' i' = 0).
    { apply (IH (fun j a => (l j - l e) * v j a)); [| | |exact Hj'|exact Hi'].
      - intros a b Ha Hb. apply ND; lia.
      - intros a b Ha Hb. rewrite (@bigsum_ext n _ (fun k => (l a - l e) * (f b k * v a k))) by (intros; ring).
        rewrite <- bigsum_mult_l, HE by lia. ring.
      - intros b Hb.
        assert (C1 : bigsum n (fun k => f b k * bigsum (S e) (fun j => v j k)) = bigsum (S e) (fun j => l j * v j b)).
        { rewrite (@bigsum_ext n _ (fun k => bigsum (S e) (fun j => f b k * v j k))) by (intros; now rewrite bigsum_mult_l).
          rewrite bigsum_swap. apply bigsum_ext. intros a Ha. now apply HE. }
        rewrite (@bigsum_ext n _ (fun _ => 0)), bigsum_0 in C1 by (intros k Hk; rewrite (Hz k Hk); ring).
        pose proof (Hz b Hb) as C2. cbn [bigsum] in C1, C2.
        rewrite (@bigsum_ext e _ (fun j => l j * v j b + - l e * v j b)) by (intros; ring).
        rewrite bigsum_plus, <- bigsum_mult_l. replace (v e b) with (- bigsum e (fun j => v j b)) in C1 by lra. lra. }
    apply Rmult_integral in B. destruct B as [B|B]; auto. exfalso.
    assert (j' = e) by (apply ND; [lia|lia|lra]). lia. }
  destruct (Nat.eq_dec j e) as [->|N]; [|apply A; lia].
  pose proof (Hz i Hi) as C. cbn [bigsum] in C. rewrite (@bigsum_ext e _ (fun _ => 0)), bigsum_0 in C by (intros; now apply A). lra.
Qed.

Lemma bigsum_add_len a b (u : nat -> R) : bigsum (a + b) u = bigsum a u + bigsum b (fun i => u (a + i)%nat).
Proof.
  induction b as [|b IH]; [rewrite Nat.add_0_r; cbn [bigsum]; ring|].
  rewrite Nat.add_succ_r. cbn [bigsum]. rewrite IH. ring.
Qed.

Lemma bigsum_coff cn e (u : nat -> R) : bigsum (coff cn e) u = bigsum e (fun j => bigsum (cn j) (fun c => u (coff cn j + c)%nat)).
Proof. induction e as [|e IH]; [reflexivity|]. cbn [coff]. rewrite bigsum_add_len, IH. reflexivity. Qed.

Lemma blocks_indep n f L cn (V : nat -> nat -> R) : NoDup L ->
  (forall j, (j < length L)%nat ->
     (forall k, (k < cn j)%nat -> eigenvector n f (nth j L 0) (fun a => V a (coff cn j + k)%nat))
     /\ independent_columns n (cn j) (fun a c => V a (coff cn j + c)%nat)) ->
  independent_columns n (coff cn (length L)) V.
Proof.
  intros ND HB x Hx s Hs. destruct (coff_find _ _ Hs) as (j & c & Hj & Hc & ->).
  destruct (HB j Hj) as (_ & HI). apply (HI (fun c => x (coff cn j + c)%nat)); auto. intros i Hi.
  apply (@eigen_sum_zero n f (fun j => nth j L 0) (length L) (fun j i => bigsum (cn j) (fun k => V i (coff cn j + k)%nat * x (coff cn j + k)%nat))); auto.
  - intros a b Ha Hb E. exact (proj1 (NoDup_nth L 0) ND a b Ha Hb E).
  - intros a b Ha Hb. destruct (HB a Ha) as (HE & _).
    rewrite (@bigsum_ext n _ (fun k => bigsum (cn a) (fun q => f b k * V k (coff cn a + q)%nat * x (coff cn a + q)%nat))).
    + rewrite bigsum_swap, bigsum_mult_l. apply bigsum_ext. intros q Hq. rewrite <- bigsum_mult_r.
      destruct (HE q Hq) as (_ & E). rewrite E by auto. ring.
    + intros k Hk. rewrite bigsum_mult_l. apply bigsum_ext. intros. ring.
  - intros k Hk. rewrite <- (Hx k Hk). now rewrite bigsum_coff.
Qed.

Lemma blocks_columns orth n f L (V : nat -> nat -> R) :
  let O := fun j => nth j L 0 in
  let cn := fun j => kdim n f (O j) in
  NoDup L ->
  (forall j, (j < length L)%nat -> block orth n f (O j) (cn j) (fun a c => V a (coff cn j + c)%nat)) ->
  (forall s, (s < coff cn (length L))%nat -> exists l, In l L /\ eigenvector n f l (fun a => V a s))
  /\ independent_columns n (coff cn (length L)) V
  /\ (orth = true -> (forall i j, (i < n)%nat -> (j < n)%nat -> f i j = f j i) ->
      forall s s', (s < coff cn (length L))%nat -> (s' < coff cn (length L))%nat ->
      bigsum n (fun a => V a s * V a s') = delta s s').
Proof.
  intros O cn ND HB. split; [|split].
  - intros s Hs. destruct (coff_find _ _ Hs) as (j & c & Hj & Hc & ->). exists (O j). split; [now apply nth_In|].
    now apply (HB j Hj).
  - apply (@blocks_indep n f); auto. intros j Hj. exact (proj1 (HB j Hj)).
  - intros Ho Sy s s' Hs Hs'.
    destruct (coff_find _ _ Hs) as (j & c & Hj & Hc & ->). destruct (coff_find _ _ Hs') as (j' & c' & Hj' & Hc' & ->).
    destruct (Nat.eq_dec j j') as [<-|N].
    + rewrite (proj2 (HB j Hj) Ho c c' Hc Hc'). unfold delta.
      destruct (Nat.eqb_spec c c'), (Nat.eqb_spec (coff cn j + c) (coff cn j + c')); auto; lia.
    + assert (Z : (coff cn j + c <> coff cn j' + c')%nat).
      { destruct (Nat.lt_total j j') as [H|[H|H]]; [|contradiction|];
         pose proof (coff_mono cn H) as M; cbn [coff] in M; lia. }
      unfold delta. destruct (Nat.eqb_spec (coff cn j + c) (coff cn j' + c')); [contradiction|].
      apply (@sym_eigen_orth n f (O j) (O j')); auto.
      * intros X. apply N. apply (proj1 (NoDup_nth L 0) ND j j' Hj Hj' X).
      * now apply (HB j Hj).
      * now apply (HB j' Hj').
Qed.

(** ** When the reported eigenvalues are exact and apart, column j belongs to the j-th *)

Lemma kdim_pos n f l x : eigenvector n f l x -> (1 <= kdim n f l)%nat.
Proof.
  intros ((a & Ha & Na) & Hx). apply solves_shifted in Hx. apply (reduc_solves (shifted f l) _ (le_n n)) in Hx.
  pose proof (reduc_reduced n (shifted f l)) as HR. unfold kdim.
  destruct (frees n (reduc n n (shifted f l))) as [|h t] eqn:E; [|cbn [length]; lia]. exfalso. apply Na.
  set (g := reduc n n (shifted f l)) in *.
  assert (H1 : forall j, (j < n)%nat -> g j j = 1).
  { intros j Hj. destruct HR as (H1 & H2 & H3). destruct (H1 j Hj) as [Z|]; auto. exfalso.
    assert (X : In j (frees n g)) by (apply frees_in; [split; [exact H1|split; [exact H2|exact H3]]|auto]).
    rewrite E in X. destruct X. }
  destruct HR as (_ & H2 & _).
  pose proof (Hx a Ha) as A. rewrite (@bigsum_ext n _ (fun j => if (j =? a)%nat then x j else 0)) in A.
  - now rewrite (bigsum_delta n x) in A by auto.
  - intros j Hj. destruct (Nat.eqb_spec j a) as [->|N]; [rewrite H1 by auto; ring|].
    rewrite (H2 a j) by auto. ring.
Qed.

Lemma coff_ge cn m : (forall j, (j < m)%nat -> (1 <= cn j)%nat) -> (m <= coff cn m)%nat.
Proof.
  induction m as [|m IH]; intros H; [lia|]. cbn [coff]. pose proof (H m ltac:(lia)).
  assert (m <= coff cn m)%nat by (apply IH; intros; apply H; lia). lia.
Qed.

Lemma coff_ones cn m : (forall j, (j < m)%nat -> (1 <= cn j)%nat) -> coff cn m = m ->
  forall j, (j < m)%nat -> cn j = 1%nat /\ coff cn j = j.
Proof.
  induction m as [|m IH]; intros H E j Hj; [lia|]. cbn [coff] in E.
  assert (A : (m <= coff cn m)%nat) by (apply coff_ge; intros; apply H; lia).
  pose proof (H m ltac:(lia)) as B.
  destruct (Nat.eq_dec j m) as [->|N]; [split; lia|]. apply IH; try lia. intros; apply H; lia.
Qed.

Lemma close_false x y : / 1000000 <= Rabs (x - y) -> close x y = false.
Proof. intros H. unfold close. destruct Rlt_dec; auto. lra. Qed.

Lemma spread_list n k : spread n k -> eigen_list n k = map k (seq 0 n).
Proof.
  intros (H1 & H2).
  assert (A : forall q, (q <= n)%nat -> distinct_values q k = map k (seq 0 q)).
  { induction q as [|q IH]; intros Hq; [reflexivity|]. cbn [distinct_values]. rewrite IH by lia.
    rewrite (@close_false (k q) 0) by (rewrite Rminus_0_r; apply H1; lia). cbn [orb].
    destruct (existsb (fun a => close a (k q)) (map k (seq 0 q))) eqn:E.
    - exfalso. apply existsb_exists in E. destruct E as (x & Hx & C). apply in_map_iff in Hx.
      destruct Hx as (i & <- & Hi). apply in_seq in Hi. rewrite close_false in C; [discriminate|]. apply H2; lia.
    - rewrite seq_S, map_app. reflexivity. }
  unfold eigen_list. rewrite A by lia.
  destruct (existsb _ (seq 0 n)) eqn:E; [|apply app_nil_r]. exfalso.
  apply existsb_exists in E. destruct E as (q & Hq & C). apply in_seq in Hq.
  rewrite close_false in C; [discriminate|]. rewrite Rminus_0_r. apply H1. lia.
Qed.

Lemma eigenvectors_ordered bc fuel row0 col0 n f tf h th mev iter orth rc out z k :
  room n n mev ->
  mtx_eigenvectors bc fuel row0 col0 (mbuf (mat_of n n h th)) (mat_of n n f tf) mev iter orth = Ok (rc, out) ->
  mtx_eigenvalues bc fuel row0 col0 (mat_of n n f tf) (vec_def n) iter = Ok (z, k) -> vsz k = n ->
  let l := cell_val (vbuf k) in
  spread n l ->
  (forall i, (i < n)%nat -> (exists x, eigenvector n f (l i) x) /\ reduc_clear n (shifted f (l i))) ->
  rc = 0%Z ->
  exists V tl, out = mat_of n n V tl
  /\ (forall j, (j < n)%nat -> eigenvector n f (l j) (fun a => V a j))
  /\ (orth = true -> forall j, (j < n)%nat -> bigsum n (fun a => V a j * V a j) = 1)
  /\ (orth = true -> (forall i j, (i < n)%nat -> (j < n)%nat -> f i j = f j i) ->
      forall i j, (i < n)%nat -> (j < n)%nat -> bigsum n (fun a => V a i * V a j) = delta i j).
Proof.
  intros Hm E Ek Hk l Sp He Hrc.
  destruct (@eigenvectors_run bc fuel row0 col0 n f tf h th mev iter orth rc out Hm E) as (z' & k' & Ek' & H).
  rewrite Ek in Ek'. injection Ek' as <- <-. cbv zeta in H. fold l in H. rewrite (spread_list Sp) in H.
  set (L := map l (seq 0 n)) in *.
  assert (LL : length L = n) by (unfold L; now rewrite map_length, seq_length).
  assert (HO : forall j, (j < n)%nat -> nth j L 0 = l j).
  { intros j Hj. unfold L. rewrite (nth_indep _ 0 (l 0%nat)) by (rewrite map_length, seq_length; auto).
    rewrite map_nth, seq_nth by auto. reflexivity. }
  destruct (H Hk) as (H1 & H2 & _ & H4).
  { intros x Hx. unfold L in Hx. apply in_map_iff in Hx. destruct Hx as (i & <- & Hi). apply in_seq in Hi. apply He. lia. }
  pose proof (proj1 H2 Hrc) as Hn. rewrite Hn in *. rewrite LL in H1.
  set (cn := fun j => kdim n f (nth j L 0)) in *.
  assert (Ones : forall j, (j < n)%nat -> cn j = 1%nat /\ coff cn j = j).
  { apply coff_ones; auto. intros j Hj. unfold cn. rewrite HO by auto. destruct (He j Hj) as ((x & Hx) & _). apply (kdim_pos Hx). }
  destruct (H4 ltac:(lia)) as (V & tl & EV & HB). exists V, tl. split; [exact EV|].
  assert (HV : forall j, (j < n)%nat -> block orth n f (l j) 1 (fun a c => V a (j + c)%nat)).
  { intros j Hj. pose proof (HB j ltac:(lia)) as B. change (kdim n f (nth j L 0)) with (cn j) in B. destruct (Ones j Hj) as (O1 & O2). rewrite O1, O2, HO in B by auto. exact B. }
  assert (HE : forall j, (j < n)%nat -> eigenvector n f (l j) (fun a => V a j)).
  { intros j Hj. pose proof (proj1 (proj1 (HV j Hj)) 0%nat ltac:(lia)) as B. cbv beta in B. rewrite Nat.add_0_r in B. exact B. }
  split; [exact HE|].
  assert (HU : orth = true -> forall j, (j < n)%nat -> bigsum n (fun a => V a j * V a j) = 1).
  { intros Ho j Hj. pose proof (proj2 (HV j Hj) Ho 0%nat 0%nat ltac:(lia) ltac:(lia)) as B. cbv beta in B. rewrite Nat.add_0_r in B. exact B. }
  split; [exact HU|]. intros Ho Sy i j Hi Hj. unfold delta. destruct (Nat.eqb_spec i j) as [->|N]; [now apply HU|].
  apply (@sym_eigen_orth n f (l i) (l j)); auto.
  intros X. destruct Sp as (_ & Sp). pose proof (Sp i j Hi Hj N) as D. rewrite X, Rminus_eq_0, Rabs_R0 in D. lra.
Qed.
