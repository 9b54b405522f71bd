(** zsl_mtx_eigenvectors over the reals: the runs that answer. *)
From Coq Require Import List Arith ZArith Bool Lia Reals Lra FunctionalExtensionality.
From Verif Require Import Base NumR BaseFacts SpecVec SpecReal SpecMtx SpecDecomp SpecGauss SpecReduc SpecSvd MVec MMtx MDecomp
  PVec PVecR PMtx PMtxOps PMtxR PFvec PDet PGauss PQr PBal PReduc PGram PSvd PSvdR RTac PEigvec.
Import ListNotations.
Set Implicit Arguments.
Local Open Scope R_scope.
Implicit Types f g : nat -> nat -> R.

Lemma bind_eq A B (m : outcome A) x (k : A -> outcome B) : m = Ok x -> bind m k = k x.
Proof. intros ->. reflexivity. Qed.

Section F.
Variable bc : bool.

(** A symmetric matrix always gets its eigenvalues reported. *)
Lemma eigenvalues_sym fuel n f tl iter :
  (0 < n)%nat -> (forall i j, (i < n)%nat -> (j < n)%nat -> f i j = f j i) ->
  exists A p, mtx_eigenvalues bc (S fuel) (Some 0) (Some 0) (mat_of n n f tl) (vec_def n) iter
  = Ok (0%Z, fvec n (fun i => A i i) [])
  /\ orthogonal n p /\ same n A (mmul n (mmul n (tr p) f) p).
Proof.
  intros Hn Sy. unfold mtx_eigenvalues. change (mrows (mat_of n n f tl)) with n.
  rewrite balance_fixed; [|apply room_def|].
  2:{ intros i Hi. apply bigsum_ext. intros j Hj. now rewrite Sy. }
  cbn [bind]. rewrite rest_def.
  destruct (@qrd_hessenberg bc n f [] (mtx_def n n) (mtx_def n n) Hn (room_def n n) (room_def n n)) as (q & r & Eq & Oq & _ & HE & _).
  rewrite Eq. cbn [bind]. rewrite !rest_def.
  destruct (@qrd_iter_ok bc n r [] (mat_of n n q []) iter) as (p & A & Ei & Op & HA); [auto|apply mat_room|].
  rewrite Ei. cbn [bind]. rewrite mat_rest. rewrite vec_init_def. cbn [bind].
  destruct (mtx_is_sym_ok bc n f tl) as (b & Es & Hb). rewrite Es. cbn [bind].
  replace b with true.
  2:{ symmetry. apply Hb. intros i j Hi Hj. apply asym_R. rewrite (Sy i j) by auto.
      rewrite Rminus_eq_0, Rabs_R0. lra. }
  destruct (@eig_diag bc n A [] (vbuf (fvec n (fun _ => 0) []))) as (d & Ed); [apply fvec_len|].
  rewrite Ed. cbn [bind]. exists A, (mmul n q p). split.
  - do 2 f_equal. unfold fvec. f_equal. f_equal. cbn [vbuf]. rewrite skipn_all2; [reflexivity|].
    rewrite app_nil_r, cells_length, tab_length. lia.
  - split; [apply orth_mul; auto|].
    apply orth_eqs in Oq. destruct Oq as (OA & OB).
    (* r = q^T (f) q *)
    assert (Hr : same n r (mmul n (mmul n (tr q) f) q)).
    { apply same_sym. eapply same_trans.
      { apply same_mul; [apply same_mul; [apply same_refl|apply same_sym; exact HE]|apply same_refl]. }
      eapply same_trans.
      { apply same_mul; [|apply same_refl].
        eapply same_trans; [apply same_sym, same_assoc|].
        apply same_mul; [|apply same_refl]. apply mul_cancel. exact OA. }
      eapply same_trans; [apply same_assoc|].
      eapply same_trans; [apply same_mul; [apply same_refl|exact OA]|]. apply same_id_r. }
    eapply same_trans; [exact HA|].
    eapply same_trans.
    { apply same_mul; [apply same_mul; [apply same_refl|exact Hr]|apply same_refl]. }
    eapply same_trans.
    { apply same_mul; [apply same_sym, same_assoc|apply same_refl]. }
    eapply same_trans; [apply same_assoc|].
    apply same_mul; [|apply same_refl].
    eapply same_trans; [apply same_sym, same_assoc|].
    apply same_mul; [|apply same_refl]. apply same_sym, tr_mul.
Qed.

(** ** The loops of one round answer *)

Lemma count_fwd n g tg :
  exists x, for_ n 0 (fun h '(count, x) =>
     let! x := lget bc (mat_of n n g tg) h h x in
     let! xv := lval x in
     Ok ((if is_tiny xv then S count else count), x)) (0%nat, None) = Ok (length (frees n g), x).
Proof.
  match goal with |- context [for_ n 0 ?b ?s] =>
    destruct (@for_inv _ (fun k st => fst st = fcount g k) n 0%nat b s) as ((c & x) & E & H) end.
  - reflexivity.
  - intros h (c & x) Hh HP. cbn [fst] in HP. subst c. rewrite lget_mat by lia. cbn [bind lval].
    eexists. split; [reflexivity|]. cbn [fst]. rewrite fcount_S, is_tiny_R. reflexivity.
  - exists x. rewrite E. cbn [fst Nat.add] in H. now rewrite H.
Qed.

Lemma fill_fwd n g tg evec fb :
  room n (length (frees n g)) evec -> (n <= length fb)%nat ->
  exists st, for_ n 0 (fun h '(mi, evec, fb, ga, x) =>
     let! x := lget bc mi h h x in
     let! xv := lval x in
     if is_tiny xv then
       let! (_, mi) := mtx_set bc mi h h (fofZ (-1)) in
       let! (_, fb) := mtx_get_col bc mi h fb in
       let! (_, f) := vec_neg (Vec n fb) in
       let! (_, evec) := mtx_set_col bc evec ga (vbuf f) in
       Ok (mi, evec, vbuf f, S ga, x)
     else Ok (mi, evec, fb, ga, x)) (mat_of n n g tg, evec, fb, 0%nat, None) = Ok st.
Proof.
  intros Hv Hf. destruct (room_otab Hv) as (F & EF). set (te := rest evec) in *. clearbody te. subst evec.
  set (c := length (frees n g)) in *.
  match goal with |- context [for_ n 0 ?b ?s] =>
    destruct (@for_inv _ (fun k st => let '(mi, evec, fb, ga, x) := st in
     mi = mat_of n n (dmark g k) tg /\ ga = fcount g k /\ (n <= length fb)%nat /\ exists F, evec = otab n c F te) n 0%nat b s) as (st & E & _) end.
  - rewrite dmark_0. repeat split; auto. exists F. reflexivity.
  - clear. intros h ((((mi & evec) & fb) & ga) & x) Hh (-> & -> & Hfb & F & ->).
    rewrite lget_mat, dmark_diag by lia. cbn [bind lval]. rewrite is_tiny_R.
    destruct (tiny (g h h)) eqn:T.
    + destruct (@col_run bc n g tg h fb ltac:(lia) Hfb T) as (tf & E1 & E2 & E3).
      rewrite E1. cbn [bind]. rewrite E2. cbn [bind]. rewrite E3. cbn [bind].
      destruct (@frees_nth n g h ltac:(lia) T) as (L & Nh). fold c in L.
      rewrite set_col_fvec by auto. cbn [bind]. eexists. split; [reflexivity|]. cbv beta iota.
      split; auto. rewrite fcount_S, T. split; auto. split; [apply fvec_len|]. eexists. reflexivity.
    + eexists. split; [reflexivity|]. cbv beta iota. rewrite dmark_skip, fcount_S, T by auto. repeat split; auto. exists F. reflexivity.
  - exists st. exact E.
Qed.

Lemma copy_fwd n c (W : nat -> nat -> R) tw (G : nat -> nat -> R) tl fb b : (n <= length fb)%nat -> (b + c <= n)%nat ->
  exists st, for_ c 0 (fun gi '(mev2, fb, b) =>
     let! (_, fb) := mtx_get_col bc (mat_of n c W tw) gi fb in
     let! (_, mev2) := mtx_set_col bc mev2 b fb in
     Ok (mev2, fb, S b)) (mat_of n n G tl, fb, b) = Ok st.
Proof.
  intros Hf Hb.
  match goal with |- context [for_ c 0 ?bb ?s] =>
    destruct (@for_inv _ (fun k st => let '(m, fb, b') := st in
     b' = (b + k)%nat /\ (n <= length fb)%nat /\ m = mat_of n n (putcols G b k W) tl) c 0%nat bb s) as (st & E & _) end.
  - rewrite putcols_0. repeat split; auto. 
  - intros k ((m & fb0) & b') Hk (-> & Hfb & ->).
    rewrite get_col_fvec by (auto; lia). cbn [bind].
    rewrite (@putcols_S bc n G b k W) by (auto; lia). cbn [bind]. eexists. split; [reflexivity|]. cbv beta iota.
    split; [lia|]. split; [apply fvec_len|]. reflexivity.
  - exists st. exact E.
Qed.

Lemma plain_fwd n g tg (G : nat -> nat -> R) tl fb b : (n <= length fb)%nat -> (b + length (frees n g) <= n)%nat ->
  exists st, for_ n 0 (fun h '(mi, mev2, fb, b, x) =>
     let! x := lget bc mi h h x in
     let! xv := lval x in
     if is_tiny xv then
       let! (_, mi) := mtx_set bc mi h h (fofZ (-1)) in
       let! (_, fb) := mtx_get_col bc mi h fb in
       let! (_, f) := vec_neg (Vec n fb) in
       let! (_, mev2) := mtx_set_col bc mev2 b (vbuf f) in
       Ok (mi, mev2, vbuf f, S b, x)
     else Ok (mi, mev2, fb, b, x)) (mat_of n n g tg, mat_of n n G tl, fb, b, None) = Ok st.
Proof.
  intros Hf Hb.
  match goal with |- context [for_ n 0 ?bb ?s] =>
    destruct (@for_inv _ (fun k st => let '(mi, m, fb, b', x) := st in
     mi = mat_of n n (dmark g k) tg /\ b' = (b + fcount g k)%nat /\ (n <= length fb)%nat /\
     m = mat_of n n (putcols G b (fcount g k) (kcols n g)) tl) n 0%nat bb s) as (st & E & _) end.
  - rewrite dmark_0. cbn [fcount seq filter length]. rewrite putcols_0. repeat split; auto. 
  - intros h ((((mi & m) & fb0) & b') & x) Hh (-> & -> & Hfb & ->).
    rewrite lget_mat, dmark_diag by lia. cbn [bind lval]. rewrite is_tiny_R, fcount_S.
    destruct (tiny (g h h)) eqn:T.
    + destruct (@col_run bc n g tg h fb0 ltac:(lia) Hfb T) as (tf & E1 & E2 & E3).
      rewrite E1. cbn [bind]. rewrite E2. cbn [bind]. rewrite E3. cbn [bind].
      destruct (@frees_nth n g h ltac:(lia) T) as (L & Nh).
      rewrite (@putcols_S bc n G b (fcount g h) (kcols n g)); [|lia|].
      2:{ intros a Ha. unfold kcols. now rewrite Nh. }
      cbn [bind]. eexists. split; [reflexivity|]. cbv beta iota.
      split; auto. split; [lia|]. split; [apply fvec_len|]. reflexivity.
    + eexists. split; [reflexivity|]. cbv beta iota. rewrite dmark_skip by auto. repeat split; auto.
  - exists st. exact E.
Qed.

Lemma distinct_len_tiny q k :
  (length (distinct_values q k) + (if existsb (fun i => close (k i) 0) (seq 0 q) then 1 else 0) <= q)%nat.
Proof.
  induction q as [|q IH]; [cbn; lia|]. cbn [distinct_values]. rewrite seq_S, existsb_app. cbn [existsb Nat.add].
  rewrite orb_false_r. destruct (close (k q) 0) eqn:C; cbn [orb].
  - rewrite orb_true_r. destruct (existsb _ (seq 0 q)); lia.
  - rewrite orb_false_r. destruct (existsb _ (distinct_values q k)); [lia|].
    rewrite app_length. cbn [length]. lia.
Qed.

Lemma eigen_list_len n k : (length (eigen_list n k) <= n)%nat.
Proof.
  unfold eigen_list. rewrite app_length. pose proof (distinct_len_tiny n k).
  destruct (existsb _ (seq 0 n)); cbn [length]; lia.
Qed.

Lemma olist_fwd n (k : vec R) :
  (forall q, (q < n)%nat -> exists x, rd (vbuf k) q = Ok x) ->
  exists st, for_ n 0 (fun q '(o, e_vals) =>
      let! kq := rd (vbuf k) q in
      if is_big kq then
        let! c := vec_contains o kq (flit 1 6) in
        if (c =? 0)%nat then
          let! ob := wr (vbuf o) e_vals kq in
          Ok (Vec (vsz o) ob, S e_vals)
        else Ok (o, e_vals)
      else Ok (o, e_vals)) (fvec n (fun _ => 0) [], 0%nat) = Ok st.
Proof.
  intros Hk.
  match goal with |- context [for_ n 0 ?b ?s] =>
    destruct (@for_inv _ (fun q st => exists xs, fst st = vec_of xs [] /\ length xs = n /\ (snd st <= q)%nat) n 0%nat b s) as (st & E & _) end.
  - exists (tab n (fun _ => 0)). cbn [fst snd]. rewrite fvec_vec_of, tab_length. auto.
  - intros q (o & e) Hq (xs & Eo & Hl & He). cbn [fst snd] in Eo, He. subst o.
    destruct (Hk q ltac:(lia)) as (x & ->). cbn [bind].
    destruct (is_big x).
    2:{ eexists. split; [reflexivity|]. exists xs. cbn [fst snd]. auto. }
    rewrite vec_contains_close. cbn [bind]. destruct (_ =? 0)%nat.
    2:{ eexists. split; [reflexivity|]. exists xs. cbn [fst snd]. auto. }
    unfold vec_of at 1. cbn [vbuf]. rewrite wr_cells_app by lia. cbn [bind].
    eexists. split; [reflexivity|]. exists (upd xs e x). cbn [fst snd].
    unfold vec_of. cbn [vsz]. rewrite upd_length. repeat split; auto; lia.
  - exists st. exact E.
Qed.

Lemma contains_fwd (k : vec R) val eps :
  (forall q, (q < vsz k)%nat -> exists x, rd (vbuf k) q = Ok x) -> exists c, vec_contains k val eps = Ok c.
Proof.
  intros Hk. unfold vec_contains.
  match goal with |- context [for_ ?n 0 ?b ?s] => destruct (@for_inv _ (fun _ _ => True) n 0%nat b s) as (st & E & _) end; eauto.
  intros q c Hq _. destruct (Hk q ltac:(lia)) as (x & ->). cbn [bind]. eexists. split; [reflexivity|exact I].
Qed.

Lemma eigenvectors_fwd fuel row0 col0 n f tf h th mev iter orth z k :
  room n n mev ->
  mtx_eigenvalues bc fuel row0 col0 (mat_of n n f tf) (vec_def n) iter = Ok (z, k) -> vsz k = n ->
  (forall q, (q < n)%nat -> exists x, rd (vbuf k) q = Ok x) ->
  let L := eigen_list n (cell_val (vbuf k)) in
  (forall l, In l L -> reduc_clear n (shifted f l)) ->
  (coff (fun j => kdim n f (nth j L 0%R)) (length L) <= n)%nat ->
  exists rc out, mtx_eigenvectors bc fuel row0 col0 (mbuf (mat_of n n h th)) (mat_of n n f tf) mev iter orth = Ok (rc, out).
Proof.
  intros Hm Ek Hk Hrd L HC Hb.
  set (O := fun j => nth j L 0) in *. set (cn := fun j => kdim n f (O j)).
  change (coff cn (length L) <= n)%nat in Hb.
  unfold mtx_eigenvectors. change (mrows (mat_of n n f tf)) with n. change (mcols (mat_of n n f tf)) with n.
  rewrite (mtx_init_empty bc (r := n) (c := n)) by apply room_def. cbn [bind].
  rewrite vec_init_def. cbn [bind]. rewrite Ek. cbn [bind].
  destruct (@olist_fwd n k Hrd) as ((o & e) & Eo). rewrite Eo. cbn [bind].
  apply olist_run in Eo. cbv zeta in Eo. destruct Eo as (-> & ->).
  destruct (@contains_fwd k f0 (flit 1 6)) as (c0 & Ec); [now rewrite Hk|]. rewrite Ec. cbn [bind].
  assert (Ez : (0 <? c0)%nat = existsb (fun q => close (cell_val (vbuf k) q) 0) (seq 0 n)).
  { rewrite <- Hk. apply contains_zero. exact Ec. }
  set (D := distinct_values n (cell_val (vbuf k))) in *.
  pose proof (eigen_list_len n (cell_val (vbuf k))) as HL. fold L in HL.
  assert (EL : (if (0 <? c0)%nat then S (length D) else length D) = length L).
  { unfold L, eigen_list. fold D. rewrite app_length, Ez. destruct (existsb _ _); cbn [length]; lia. }
  assert (HDn : (length D <= n)%nat) by (unfold D; apply distinct_len).
  rewrite EL.
  assert (HO : forall j, (j < length L)%nat -> rd (vbuf (vec_of (D ++ repeat 0 (n - length D)) [])) j = Ok (O j)).
  { intros j Hj. unfold vec_of. cbn [vbuf]. rewrite app_nil_r.
    rewrite (@rd_cells R _ j 0) by (rewrite app_length, repeat_length; lia). f_equal.
    unfold O, L, eigen_list. fold D. destruct (Nat.lt_ge_cases j (length D)) as [B|B].
    - now rewrite !app_nth1.
    - rewrite !app_nth2 by auto. rewrite nth_repeat.
      destruct (existsb _ _); [|destruct (j - length D)%nat; reflexivity].
      destruct (j - length D)%nat as [|[|]]; reflexivity. }
  rewrite rest_def.
  match goal with |- context [for_ (length L) 0 ?bb ?s] =>
  destruct (@for_inv _ (fun k st => let '(mid, mi, evec, evec2, mev2, fb, b) := st in
     (exists h, mid = mat_of n n h th) /\ room n n mi /\ (n * n <= length (mbuf evec))%nat
     /\ (n * n <= length (mbuf evec2))%nat /\ (n <= length fb)%nat /\ b = coff cn k
     /\ exists G, mev2 = mat_of n n G []) (length L) 0%nat bb s) as (st & E & HP) end.
  { split; [exists h; reflexivity|]. split; [apply room_def|].
    split; [unfold mtx_def; cbn [mbuf]; now rewrite fresh_length|].
    split; [unfold mtx_def; cbn [mbuf]; now rewrite fresh_length|].
    split; [now rewrite fresh_length|]. split; [reflexivity|]. eexists. reflexivity. }
  { clear Ec Ez EL. intros q ((((((mid0 & mi0) & ev0) & ev20) & mev20) & fb0) & b0) Hq
      ((h0 & ->) & Hmi & Hev & Hev2 & Hf0 & -> & G & ->).
    rewrite (@mtx_init_identity R _ bc n n) by apply room_def. rewrite rest_def. cbn [bind].
    rewrite HO by lia. cbn [bind]. rewrite mtx_scalar_mult_d_ok. cbn [bind].
    assert (Eadd : mtx_add_d bc (mat_of n n (fun i j => (mid i j * - O q)%num) []) (mat_of n n f tf)
       = Ok (0%Z, mat_of n n (shifted f (O q)) [])).
    { apply mtx_zip_d_ok. intros i j Hi Hj. unfold op_add, shifted, SpecMtx.mid. rops.
      destruct (Nat.eqb_spec i j); f_equal; rops; ring. }
    rewrite Eadd. cbn [bind]. clear Eadd.
    assert (HCq : reduc_clear n (shifted f (O q))) by (apply HC, nth_In; lia).
    destruct (@gauss_reduc_any bc n (shifted f (O q)) h0 [] th mi0 Hmi HCq) as (h' & Eg).
    rewrite Eg. cbn [bind]. clear Eg.
    pose proof (kdim_le n f (O q)) as Hc. change (kdim n f (O q)) with (cn q) in Hc.
    assert (Hb' : (coff cn q + cn q <= n)%nat).
    { change (coff cn (S q) <= n)%nat. eapply Nat.le_trans; [|exact Hb]. apply coff_mono. lia. }
    set (g := reduc n n (shifted f (O q))) in *. change (length (frees n g)) with (cn q) in *.
    destruct orth.
    - destruct (@count_fwd n g (rest mi0)) as (x1 & E1). rewrite E1. cbn [bind]. clear E1.
      change (length (frees n g)) with (cn q).
      set (evq := Mtx n (cn q) (mbuf ev0)) in *. set (ev2q := Mtx n (cn q) (mbuf ev20)) in *.
      assert (R1 : room n (cn q) evq).
      { split; [reflexivity|]. split; [reflexivity|]. cbn [evq mbuf]. pose proof (Nat.mul_le_mono_l _ _ n Hc). lia. }
      assert (R2 : room n (cn q) ev2q).
      { split; [reflexivity|]. split; [reflexivity|]. cbn [ev2q mbuf]. pose proof (Nat.mul_le_mono_l _ _ n Hc). lia. }
      destruct (@fill_fwd n g (rest mi0) evq fb0 R1 Hf0) as (((((mi1 & ev1) & fb1) & ga1) & x2) & E1).
      erewrite bind_eq by exact E1. cbv beta iota.
      apply (@fill_run bc n g (rest mi0) evq fb0 mi1 ev1 fb1 ga1 x2 R1 Hf0) in E1. destruct E1 as (-> & -> & Hf1).
      change (length (frees n g)) with (cn q).
      destruct (@orth_block bc n f (O q) (mat_of n (cn q) (kcols n g) (rest evq)) ev2q (rest evq) (cn q) eq_refl) as (g2 & W & Eg & Ew & HB).
      { apply mat_room. } { exact R2. }
      fold g in Eg. rewrite Eg. cbn [bind]. rewrite mat_rest in Ew. rewrite Ew. cbn [bind].
      destruct (@copy_fwd n (cn q) W (rest evq) G [] fb1 (coff cn q) Hf1 Hb') as (((mv & fb2) & b2) & E1).
      erewrite bind_eq by exact E1. cbv beta iota. apply copy_run in E1; [|exact Hf1]. destruct E1 as (-> & Hf2 & HM).
      eexists. split; [reflexivity|]. cbv beta iota.
      split; [eexists; reflexivity|]. split; [apply mat_room|].
      split; [rewrite mat_buf_len, (rest_len R1); destruct R1 as (_ & _ & R1); cbn [evq mbuf] in *; lia|].
      split; [rewrite mat_buf_len, (rest_len R2); destruct R2 as (_ & _ & R2); cbn [ev2q mbuf] in *; lia|].
      split; auto. split; [reflexivity|]. eexists. apply HM; [reflexivity|exact Hb'].
    - destruct (@plain_fwd n g (rest mi0) G [] fb0 (coff cn q) Hf0 Hb') as (((((mi1 & mv) & fb2) & b2) & x2) & E1).
      erewrite bind_eq by exact E1. cbv beta iota.
      apply plain_run in E1; [|exact Hf0]. cbv zeta in E1. destruct E1 as (-> & -> & Hf2 & HM).
      change (length (frees n g)) with (cn q) in *.
      eexists. split; [reflexivity|]. cbv beta iota.
      split; [eexists; reflexivity|]. split; [apply mat_room|]. split; auto. split; auto.
      split; auto. split; [reflexivity|]. eexists. apply HM; [reflexivity|exact Hb']. }
  erewrite bind_eq by exact E. clear E. destruct st as ((((((md & mi) & ev) & ev2) & mev2) & fb) & b). cbv beta iota.
  destruct HP as (_ & _ & _ & _ & Hfb & -> & G & ->). cbn [Nat.add] in *. set (b := coff cn (length L)) in *.
  destruct Hm as (Hr & Hcl & Hlen). rewrite Hr.
  assert (R0 : room n b (Mtx n b (mbuf mev))).
  { split; [reflexivity|]. split; [reflexivity|]. cbn [mbuf]. pose proof (Nat.mul_le_mono_l _ _ n Hb). lia. }
  destruct (room_otab R0) as (F & EF). rewrite EF. set (tl := rest _). clearbody tl.
  match goal with |- context [for_ b 0 ?bb ?s] =>
  destruct (@for_inv _ (fun k st => (n <= length (snd st))%nat /\ exists F, fst st = otab n b F tl) b 0%nat bb s) as ((m' & fb') & E & _) end.
  - split; auto. exists F. reflexivity.
  - clear - Hb. intros s (m & fb) Hs (Hf & F & Em). cbn [fst snd] in Hf, Em. subst m.
    rewrite get_col_fvec by (auto; lia). cbn [bind]. rewrite set_col_fvec by lia.
    cbn [bind]. eexists. split; [reflexivity|]. cbn [fst snd]. split; [apply fvec_len|]. eexists. reflexivity.
  - erewrite bind_eq by exact E. cbv beta iota. eauto.
Qed.

End F.
