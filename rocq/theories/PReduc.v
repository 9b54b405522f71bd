(** zsl_mtx_gauss_reduc on square matrices that may be singular. *)
From Coq Require Import List Arith ZArith Bool Lia Reals Lra.
From Verif Require Import Base NumR BaseFacts SpecMtx SpecReal SpecGauss SpecReduc MVec MMtx PMtx PMtxOps PMtxR PDet PGauss.
Import ListNotations.
Set Implicit Arguments.
Local Open Scope R_scope.
Implicit Types f g h : nat -> nat -> R.

Lemma nz_true x : nz x = true <-> x <> 0.
Proof. unfold nz. destruct (Req_EM_T x 0); split; intros; auto; congruence. Qed.
Lemma nz_false x : nz x = false <-> x = 0.
Proof. unfold nz. destruct (Req_EM_T x 0); split; intros; auto; congruence. Qed.

Lemma find_seq (p : nat -> bool) n lo q : find p (seq lo n) = Some q ->
  (lo <= q < lo + n)%nat /\ p q = true /\ forall i, (lo <= i < q)%nat -> p i = false.
Proof.
  revert lo. induction n as [|n IH]; intros lo E; cbn [seq find] in E; [discriminate|].
  destruct (p lo) eqn:El.
  - injection E as <-. split; [lia|]. split; auto. intros; lia.
  - apply IH in E. destruct E as (H1 & H2 & H3). split; [lia|]. split; auto.
    intros i Hi. destruct (Nat.eq_dec i lo) as [->|]; auto. apply H3. lia.
Qed.

Definition pick_op n k g h : nat -> nat -> R :=
  if Req_EM_T (g k k) 0 then match pick_row n k g with Some q => addrow k q h | None => h end else h.

Lemma prepared_op n k g : prepared n k g = pick_op n k g g.
Proof. reflexivity. Qed.

Lemma pick_some n k g q : pick_row n k g = Some q ->
  (q < n)%nat /\ g q k <> 0 /\ ((q < k)%nat -> g q q = 0)
  /\ forall i, (i < q)%nat -> g i k = 0 \/ ((i < k)%nat /\ g i i <> 0).
Proof.
  intros E. apply find_seq in E. destruct E as (H1 & H2 & H3). apply andb_true_iff in H2. destruct H2 as (H2 & H4).
  split; [lia|]. split; [now apply nz_true|]. split.
  - intros Hq. apply (proj2 (Nat.ltb_lt q k)) in Hq. rewrite Hq in H4. cbn [andb] in H4.
    apply negb_true_iff in H4. now apply nz_false.
  - intros i Hi. specialize (H3 i ltac:(lia)). apply andb_false_iff in H3. destruct H3 as [H3|H3].
    + left. now apply nz_false.
    + apply negb_false_iff, andb_true_iff in H3. right. split; [now apply Nat.ltb_lt|]. now apply nz_true.
Qed.

Lemma pick_none n k g : pick_row n k g = None ->
  forall i, (i < n)%nat -> g i k = 0 \/ ((i < k)%nat /\ g i i <> 0).
Proof.
  intros E i Hi. pose proof (find_none _ _ E i) as F. cbn beta in F.
  assert (Hin : In i (seq 0 n)) by (apply in_seq; lia). specialize (F Hin). apply andb_false_iff in F. destruct F as [F|F].
  - left. now apply nz_false.
  - apply negb_false_iff, andb_true_iff in F. right. split; [now apply Nat.ltb_lt|]. now apply nz_true.
Qed.

(** one round *)
Definition sround n k g h : nat -> nat -> R :=
  let g1 := prepared n k g in
  let h1 := pick_op n k g h in
  if Req_EM_T (g1 k k) 0 then h1
  else fun a b => if (a =? k)%nat then h1 k b / g1 k k else h1 a b - g1 a k / g1 k k * h1 k b.

Lemma reduc_S n k f : reduc n (S k) f = sround n k (reduc n k f) (reduc n k f).
Proof. reflexivity. Qed.

(** ** The invariant of the elimination *)
Definition row_free k g a : Prop := (k <= a)%nat \/ g a a = 0.

Definition rinv n k g : Prop :=
  (forall j, (j < k)%nat -> g j j = 0 \/ g j j = 1)
  /\ (forall i j, (i < n)%nat -> (j < k)%nat -> g j j = 1 -> i <> j -> g i j = 0)
  /\ (forall i j, (i < n)%nat -> (j < k)%nat -> row_free k g i -> i <> j -> g i j = 0).

Section I.
Variables (n k : nat) (g : nat -> nat -> R).
Hypothesis Hk : (k < n)%nat.
Hypothesis HI : rinv n k g.

(** rows that may be added have nothing in the columns dealt with *)
Lemma row_free_0 i j : (i < n)%nat -> (j < k)%nat -> row_free k g i -> g i j = 0.
Proof.
  intros Hi Hj Hf. destruct HI as (_ & _ & H3). destruct (Nat.eq_dec i j) as [->|N].
  - destruct Hf; [lia|auto].
  - now apply H3.
Qed.

Lemma prep_row j : (j < k)%nat -> prepared n k g k j = 0.
Proof.
  intros Hj. unfold prepared. destruct (Req_EM_T (g k k) 0).
  - destruct (pick_row n k g) as [q|] eqn:E.
    + rewrite Nat.eqb_refl. destruct (pick_some _ _ _ E) as (Hq & _ & Hq2 & _).
      rewrite !row_free_0; auto; try lra; [|left; lia].
      destruct (Nat.lt_ge_cases q k); [right; auto|left; auto].
    + apply row_free_0; auto. left. lia.
  - apply row_free_0; auto. left. lia.
Qed.

Lemma prep_other i j : i <> k -> prepared n k g i j = g i j.
Proof.
  intros N. unfold prepared. destruct (Req_EM_T (g k k) 0); auto. destruct (pick_row n k g); auto.
  now rewrite (proj2 (Nat.eqb_neq i k)).
Qed.

Lemma rinv_round : rinv n (S k) (sround n k g g).
Proof.
  pose proof HI as (H1 & H2 & H3).
  unfold sround. change (pick_op n k g g) with (prepared n k g). set (g1 := prepared n k g).
  destruct (Req_EM_T (g1 k k) 0) as [Z|Z].
  - (* no pivot *)
    assert (Zk : g k k = 0 /\ pick_row n k g = None /\ g1 = g).
    { unfold g1, prepared in *. destruct (Req_EM_T (g k k) 0) as [Y|Y]; [|contradiction].
      destruct (pick_row n k g) as [q|] eqn:E; [|auto]. rewrite Nat.eqb_refl in Z.
      destruct (pick_some _ _ _ E) as (_ & Hq & _). rewrite Y in Z. exfalso. apply Hq. lra. }
    destruct Zk as (Y & E & ->). split; [|split].
    + intros j Hj. destruct (Nat.eq_dec j k) as [->|]; [now left|]. apply H1. lia.
    + intros i j Hi Hj Hd N. destruct (Nat.eq_dec j k) as [->|]; [lra|]. apply H2; auto. lia.
    + intros i j Hi Hj Hf N.
      assert (Hf' : row_free k g i) by (destruct Hf; [left; lia|right; auto]).
      destruct (Nat.eq_dec j k) as [->|]; [|apply H3; auto; lia].
      destruct (@pick_none _ _ _ E _ Hi) as [W|(Hik & W)]; auto. exfalso.
      destruct Hf; [lia|contradiction].
  - (* pivot *)
    set (g2 := fun a b => if (a =? k)%nat then g1 k b / g1 k k else g1 a b - g1 a k / g1 k k * g1 k b).
    assert (Kk : g2 k k = 1) by (unfold g2; rewrite Nat.eqb_refl; field; auto).
    assert (Ko : forall i, i <> k -> g2 i k = 0).
    { intros i N. unfold g2. rewrite (proj2 (Nat.eqb_neq i k)) by auto. field. auto. }
    assert (Kr : forall j, (j < k)%nat -> g2 k j = 0).
    { intros j Hj. unfold g2. rewrite Nat.eqb_refl. rewrite (prep_row Hj : g1 k j = 0). field. auto. }
    assert (Ks : forall i j, i <> k -> (j < k)%nat -> g2 i j = g i j).
    { intros i j N Hj. unfold g2. rewrite (proj2 (Nat.eqb_neq i k)) by auto.
      rewrite (prep_row Hj : g1 k j = 0), (@prep_other i j N : g1 i j = g i j). ring. }
    split; [|split].
    + intros j Hj. destruct (Nat.eq_dec j k) as [->|]; [now right|]. rewrite Ks by lia. apply H1. lia.
    + intros i j Hi Hj Hd N. destruct (Nat.eq_dec j k) as [->|]; [now apply Ko|].
      rewrite Ks in Hd by lia. destruct (Nat.eq_dec i k) as [->|]; [apply Kr; lia|]. rewrite Ks by lia. apply H2; auto. lia.
    + intros i j Hi Hj Hf N. destruct (Nat.eq_dec j k) as [->|]; [now apply Ko|].
      destruct (Nat.eq_dec i k) as [->|]; [apply Kr; lia|]. rewrite Ks by lia. apply H3; auto; [lia|].
      destruct (Nat.lt_ge_cases i k).
      * right. destruct Hf as [Hf|Hf]; [lia|]. rewrite Ks in Hf; auto.
      * left. auto.
Qed.

(** the round keeps the solutions *)
Lemma sround_solves x : solves n (sround n k g g) x <-> solves n g x.
Proof.
  set (S i := bigsum n (fun j => g i j * x j)).
  assert (P : forall i, bigsum n (fun j => prepared n k g i j * x j)
     = S i + (if Req_EM_T (g k k) 0 then match pick_row n k g with Some q => if (i =? k)%nat then S q else 0 | None => 0 end else 0)).
  { intros i. unfold prepared. destruct (Req_EM_T (g k k) 0); [|unfold S; lra].
    destruct (pick_row n k g) as [q|]; [|unfold S; lra]. destruct (i =? k)%nat eqn:Ei; [|unfold S; lra].
    apply Nat.eqb_eq in Ei. subst i. unfold S. rewrite <- bigsum_plus. apply bigsum_ext. intros. ring. }
  assert (Q : solves n (prepared n k g) x <-> solves n g x).
  { split; intros H i Hi.
    - change (S i = 0). pose proof (H i Hi) as A. rewrite P in A.
      destruct (Req_EM_T (g k k) 0) as [Y|Y]; [|lra]. destruct (pick_row n k g) as [q|] eqn:E; [|lra].
      destruct (Nat.eqb_spec i k) as [->|N]; [|lra].
      destruct (pick_some _ _ _ E) as (Hq & Hq0 & _).
      pose proof (H q Hq) as B. rewrite P in B. destruct (Nat.eqb_spec q k) as [->|]; [contradiction|]. lra.
    - rewrite P. unfold solves in H. fold S in H. rewrite (H i Hi : S i = 0).
      destruct (Req_EM_T (g k k) 0); [|lra]. destruct (pick_row n k g) as [q|] eqn:E; [|lra].
      destruct (pick_some _ _ _ E) as (Hq & _). destruct (i =? k)%nat; [|lra]. rewrite (H q Hq : S q = 0). lra. }
  rewrite <- Q. unfold sround. change (pick_op n k g g) with (prepared n k g). set (g1 := prepared n k g).
  destruct (Req_EM_T (g1 k k) 0) as [Z|Z]; [reflexivity|].
  set (S1 i := bigsum n (fun j => g1 i j * x j)).
  assert (W : forall i, bigsum n (fun b => (if (i =? k)%nat then g1 k b / g1 k k else g1 i b - g1 i k / g1 k k * g1 k b) * x b)
    = if (i =? k)%nat then S1 k * / g1 k k else S1 i + - (g1 i k / g1 k k) * S1 k).
  { intros i. destruct (i =? k)%nat.
    - unfold S1. rewrite bigsum_mult_r. apply bigsum_ext. intros. unfold Rdiv. ring.
    - unfold S1. rewrite bigsum_mult_l, <- bigsum_plus. apply bigsum_ext. intros. ring. }
  split; intros H i Hi.
  - assert (A : S1 k = 0).
    { pose proof (H k Hk) as A. cbv beta in A. rewrite W, Nat.eqb_refl in A. apply Rmult_integral in A. destruct A as [A|A]; auto.
      exfalso. apply (Rinv_neq_0_compat _ Z A). }
    pose proof (H i Hi) as B. cbv beta in B. rewrite W in B. destruct (Nat.eqb_spec i k) as [->|]; [exact A|].
    change (S1 i = 0). rewrite A in B. lra.
  - cbv beta. rewrite W. rewrite (H k Hk : S1 k = 0). destruct (i =? k)%nat; [lra|]. rewrite (H i Hi : S1 i = 0). lra.
Qed.

End I.

Lemma reduc_rinv n k f : (k <= n)%nat -> rinv n k (reduc n k f).
Proof.
  induction k as [|k IH]; intros Hk.
  - split; [intros; lia|]. split; intros; lia.
  - rewrite reduc_S. apply rinv_round; [lia|apply IH; lia].
Qed.

Lemma reduc_solves n k f x : (k <= n)%nat -> solves n (reduc n k f) x <-> solves n f x.
Proof.
  induction k as [|k IH]; intros Hk; [reflexivity|]. rewrite reduc_S, sround_solves by lia. apply IH. lia.
Qed.

Lemma reduc_reduced n f : reduced n (reduc n n f).
Proof.
  destruct (reduc_rinv f (le_n n)) as (H1 & H2 & H3). split; [auto|]. split; [auto|].
  intros i j Hi Hj Z. destruct (Nat.eq_dec i j) as [->|N]; auto. apply H3; auto. right. auto.
Qed.

(** ** The code *)
Section G.
Variable bc : bool.

Lemma search_any n k g h tg th v y :
  (k < n)%nat -> g k k = 0 -> clear_col n k g -> (forall i, (i < k)%nat -> g i i = 0 \/ g i i = 1) ->
  exists y',
  for_exit n 0 (fun q y =>
     let! y := lget bc (mat_of n n g tg) q q y in
     let! vq := rd (cells (col_of n g k) ++ v) q in
     if is_big vq then
       let! keep := if (q <? k)%nat then let! yv := lval y in Ok (is_big yv) else Ok false in
       if (keep : bool) then Ok (inl y)
       else
         let! (_, mg) := mtx_sum_rows_d bc (mat_of n n g tg) k q in
         let! (_, mi) := mtx_sum_rows_d bc (mat_of n n h th) k q in
         Ok (inr (mi, mg, y))
     else Ok (inl y)) y
  = Ok (match pick_row n k g with
        | Some q => inr (mat_of n n (addrow k q h) th, mat_of n n (addrow k q g) tg, y')
        | None => inl y'
        end).
Proof.
  intros Hk Hkk C U.
  assert (Step : forall i y0, (i < n)%nat -> (g i k = 0 \/ ((i < k)%nat /\ g i i <> 0)) ->
    exists y', (let! y := lget bc (mat_of n n g tg) i i y0 in
     let! vq := rd (cells (col_of n g k) ++ v) i in
     if is_big vq then
       let! keep := if (i <? k)%nat then let! yv := lval y in Ok (is_big yv) else Ok false in
       if (keep : bool) then Ok (inl y)
       else
         let! (_, mg) := mtx_sum_rows_d bc (mat_of n n g tg) k i in
         let! (_, mi) := mtx_sum_rows_d bc (mat_of n n h th) k i in
         Ok (inr (mi, mg, y))
     else Ok (inl y)) = Ok (inl y')).
  { intros i y0 Hi H. rewrite lget_mat by lia. cbn [bind].
    rewrite (rd_cells_app _ _ 0) by (rewrite col_of_length; lia). cbn [bind]. rewrite nth_col_of by lia.
    rewrite is_big_R. destruct (tiny (g i k)) eqn:Ti; cbn [negb]; [eauto|].
    destruct H as [H|(Hik & H)]; [apply tiny_nz in Ti; contradiction|].
    rewrite (proj2 (Nat.ltb_lt i k)) by auto. cbn [lval bind]. rewrite is_big_R.
    destruct (U i Hik) as [E|E]; [contradiction|]. rewrite E, tiny_1. cbn [negb]. eauto. }
  destruct (pick_row n k g) as [q|] eqn:E.
  - destruct (pick_some _ _ _ E) as (Hq & Nq & Dq & Bq).
    match goal with |- exists y', for_exit n 0 ?b ?s = _ =>
     destruct (@for_exit_stop _ _ (fun _ _ => True) n 0%nat q b s
       (fun x => fst x = (mat_of n n (addrow k q h) th, mat_of n n (addrow k q g) tg))) as (((mi & mg) & y') & Ex & Er) end.
    + exact I.
    + lia.
    + intros i y0 Hi _. destruct (Step i y0) as (y' & Es); [lia|apply Bq; lia|]. exists y'. split; [exact Es|exact I].
    + intros y0 _. rewrite lget_mat by lia. cbn [bind].
      rewrite (rd_cells_app _ _ 0) by (rewrite col_of_length; lia). cbn [bind]. rewrite nth_col_of by lia.
      rewrite is_big_R. destruct (tiny (g q k)) eqn:Ti.
      { exfalso. apply Nq. apply (clear_tiny C); auto; lia. }
      cbn [negb].
      assert (Ek : (if (q <? k)%nat then let! yv := lval (Some (g q q)) in Ok (is_big yv) else Ok false) = Ok false).
      { destruct (Nat.ltb_spec q k); auto. cbn [lval bind]. rewrite is_big_R, Dq, tiny_0 by auto. reflexivity. }
      rewrite Ek. cbn [bind].
      rewrite mtx_sum_rows_d_ok by lia. cbn [bind]. rewrite mtx_sum_rows_d_ok by lia. cbn [bind].
      eexists. split; [reflexivity|]. reflexivity.
    + cbn [fst] in Er. injection Er as -> ->. exists y'. exact Ex.
  - match goal with |- exists y', for_exit n 0 ?b ?s = _ =>
      destruct (@for_exit_inv _ (mtx R * mtx R * option R) (fun _ _ => True) n 0%nat b s) as (y' & Ex & _) end.
    + exact I.
    + intros i y0 Hi _. destruct (Step i y0) as (y' & Es); [lia|apply (@pick_none _ _ _ E); lia|]. exists y'. split; [exact Es|exact I].
    + exists y'. exact Ex.
Qed.

Lemma elim_norm_any n k g h :
  (k < n)%nat -> clear_col n k g ->
  let g1 := prepared n k g in
  let h1 := pick_op n k g h in
  forall a b, (a < n)%nat ->
    nelem (gelim g1 g1 k k) (gelim g1 h1 k k) k k a b = sround n k g h a b.
Proof.
  intros Hk C g1 h1 a b Ha.
  assert (C1 : clear_col n k g1).
  { intros i Hi. destruct (Nat.eq_dec i k) as [->|N].
    - unfold g1, prepared. destruct (Req_EM_T (g k k) 0) as [Z|Z]; [|now apply C].
      destruct (pick_row n k g) as [q|] eqn:E; [|now apply C].
      rewrite Nat.eqb_refl, Z, Rplus_0_l. apply C. now destruct (pick_some _ _ _ E).
    - unfold g1. rewrite prep_other by auto. now apply C. }
  unfold sround. fold g1 h1. destruct (Req_EM_T (g1 k k) 0) as [Z|Z].
  - assert (Gk : gelim g1 g1 k k k k = g1 k k) by (unfold gelim; now rewrite Z, tiny_0).
    unfold nelem. rewrite Gk, Z, tiny_0. unfold gelim. now rewrite Z, tiny_0.
  - assert (Tk : tiny (g1 k k) = false).
    { destruct (tiny (g1 k k)) eqn:E; auto. exfalso. apply Z. now apply (clear_tiny C1). }
    assert (Gk : gelim g1 g1 k k k k = g1 k k) by (unfold gelim; now rewrite Tk, Nat.eqb_refl).
    unfold nelem. rewrite Gk, Tk.
    destruct (Nat.eqb_spec a k) as [->|N].
    + unfold gelim. now rewrite Tk, Nat.eqb_refl.
    + unfold gelim. rewrite Tk, (proj2 (Nat.eqb_neq a k)) by auto.
      destruct (tiny (g1 a k)) eqn:Ta; auto. rewrite (clear_tiny C1 Ha Ta). unfold Rdiv. ring.
Qed.

Lemma gauss_reduc_any n f h tf th mg :
  room n n mg -> reduc_clear n f ->
  exists h', mtx_gauss_reduc bc (mat_of n n f tf) (mat_of n n h th) mg
  = Ok (0%Z, (mat_of n n h' th, mat_of n n (reduc n n f) (rest mg))).
Proof.
  intros Hm Cl. unfold mtx_gauss_reduc. rewrite mtx_copy_ok by auto. cbn [bind].
  change (mrows (mat_of n n f tf)) with n. set (tg := rest mg). clearbody tg.
  match goal with |- context [for_ n 0 ?b ?s] =>
   destruct (@for_inv _ (fun k (st : mtx R * mtx R * buf R * option R * option R) =>
      let '(mi, mg, v, x, y) := st in
      (exists h', mi = mat_of n n h' th) /\ mg = mat_of n n (reduc n k f) tg /\ (n <= length v)%nat) n 0%nat b s)
     as (((((mi & mg') & v) & x) & y) & E & (h' & E1) & E2 & _) end.
  { split; [eauto|]. split; [reflexivity|]. rewrite fresh_length. lia. }
  { intros k ((((mi & mg') & v) & x) & y) Hk ((h' & E1) & E2 & Hv). subst mi mg'. cbv beta iota.
    destruct (@reduc_rinv n k f ltac:(lia)) as (U & _).
    assert (C : clear_col n k (reduc n k f)) by (intros i Hi; apply Cl; lia).
    set (g := reduc n k f) in *.
    rewrite lget_mat by lia. cbn [bind lval]. rewrite is_tiny_R.
    assert (Step : exists v' y',
      (if tiny (g k k) then
         let! (_, v) := mtx_get_col bc (mat_of n n g tg) k v in
         let! r := for_exit n 0 (fun q y =>
             let! y := lget bc (mat_of n n g tg) q q y in
             let! vq := rd v q in
             if is_big vq then
               let! keep := if (q <? k)%nat then let! yv := lval y in Ok (is_big yv) else Ok false in
               if (keep : bool) then Ok (inl y)
               else
                 let! (_, mg) := mtx_sum_rows_d bc (mat_of n n g tg) k q in
                 let! (_, mi) := mtx_sum_rows_d bc (mat_of n n h' th) k q in
                 Ok (inr (mi, mg, y))
             else Ok (inl y)) y in
         Ok (match r with
             | inl y => (mat_of n n h' th, mat_of n n g tg, v, y)
             | inr (mi, mg, y) => (mi, mg, v, y)
             end)
       else Ok (mat_of n n h' th, mat_of n n g tg, v, y))
      = Ok (mat_of n n (pick_op n k g h') th, mat_of n n (prepared n k g) tg, v', y')
      /\ (n <= length v')%nat).
    { destruct (tiny (g k k)) eqn:Tk.
      - assert (Z : g k k = 0) by (apply (clear_tiny C); auto; lia).
        rewrite mtx_get_col_ok by (auto; lia). cbn [bind].
        destruct (@search_any n k g h' tg th (skipn n v) y) as (y' & S'); auto; [lia|].
        rewrite S'. cbn [bind]. eexists _, y'. split.
        + unfold prepared, pick_op. destruct (Req_EM_T (g k k) 0); [|contradiction]. destruct (pick_row n k g); reflexivity.
        + rewrite app_length, cells_length, col_of_length. lia.
      - exists v, y. split; auto. unfold prepared, pick_op.
        destruct (Req_EM_T (g k k) 0) as [Z|]; auto. exfalso. now apply tiny_nz in Tk. }
    destruct Step as (v' & y' & St & Hv'). rewrite St. cbn [bind].
    rewrite gauss_elim_d_ok by lia. cbn [bind]. rewrite norm_elem_d_ok by lia. cbn [bind].
    eexists. split; [reflexivity|]. cbv beta iota. split; [eauto|]. split; auto.
    apply mat_ext. intros a b Ha Hb. rewrite reduc_S. fold g.
    change (prepared n k g) with (pick_op n k g g) at 3. apply elim_norm_any; auto; lia. }
  exists h'. rewrite E. cbn [bind]. rewrite E1, E2. reflexivity.
Qed.

End G.
