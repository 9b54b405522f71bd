(** Gaussian elimination and the general inverse, in real arithmetic. *)
From Coq Require Import List Arith ZArith Bool Lia Reals Lra.
From Verif Require Import Base NumR BaseFacts SpecMtx SpecReal SpecGauss MVec MMtx PMtx PMtxOps PMtxR PDet.
Import ListNotations.
Set Implicit Arguments.
Local Open Scope R_scope.

Definition tiny (x : R) : bool := if Rlt_dec (Rabs x) (/ 1000000) then true else false.

Lemma tiny_0 : tiny 0 = true.
Proof. unfold tiny. rewrite Rabs_R0. destruct Rlt_dec; auto. lra. Qed.
Lemma tiny_1 : tiny 1 = false.
Proof. unfold tiny. rewrite Rabs_R1. destruct Rlt_dec; auto. lra. Qed.
Lemma tiny_false x : tiny x = false <-> / 1000000 <= Rabs x.
Proof. unfold tiny. destruct Rlt_dec; split; intros; auto; try discriminate; lra. Qed.
Lemma tiny_nz x : tiny x = false -> x <> 0.
Proof. intros H ->. rewrite tiny_0 in H. discriminate. Qed.

Lemma is_tiny_R (x : R) : is_tiny x = tiny x.
Proof.
  unfold is_tiny, fge, fgt. rewrite Rlit_micro. cbn [fle flt f0 fneg NumR].
  unfold tiny, Rabs.
  destruct (Rleb_spec 0 x), (Rltb_spec x (/ 1000000)), (Rleb_spec x 0), (Rltb_spec (- / 1000000) x);
   destruct (Rcase_abs x); destruct Rlt_dec; cbn [andb orb]; auto; lra.
Qed.

Lemma is_big_R (x : R) : is_big x = negb (tiny x).
Proof.
  unfold is_big, fge. rewrite Rlit_micro. cbn [fle fneg NumR].
  unfold tiny, Rabs.
  destruct (Rleb_spec (/ 1000000) x), (Rleb_spec x (- / 1000000));
   destruct (Rcase_abs x); destruct Rlt_dec; cbn [negb orb]; auto; lra.
Qed.

(** The effect of eliminating column j of f with row i, applied to h *)
Definition gelim (f h : nat -> nat -> R) (i j : nat) : nat -> nat -> R :=
  fun a b => if tiny (f i j) then h a b
             else if (a =? i)%nat then h a b
             else if tiny (f a j) then h a b
             else h a b - f a j / f i j * h i b.

Definition nelem (f h : nat -> nat -> R) (i j : nat) : nat -> nat -> R :=
  fun a b => if tiny (f i j) then h a b
             else if (a =? i)%nat then h i b / f i j else h a b.

Section G.
Variable bc : bool.
Implicit Types f g h : nat -> nat -> R.

Lemma Rdivo_ok x y : y <> 0 -> Rdivo x y = Ok (x / y).
Proof. intros. unfold Rdivo. destruct (Req_EM_T y 0); [contradiction|reflexivity]. Qed.

Lemma gauss_elim_body_ok r c c' f h tf th i j :
  (i < r)%nat -> (j < c)%nat -> (bc = true -> i < c /\ i < c')%nat ->
  gauss_elim_body bc (mat_of r c f tf) (mat_of r c' h th) i j
  = Ok (0%Z, (mat_of r c (gelim f f i j) tf, mat_of r c' (gelim f h i j) th)).
Proof.
  intros Hi Hj Hb. unfold gauss_elim_body. rewrite mtx_get_mat by auto. cbn [bind].
  rewrite is_tiny_R. destruct (tiny (f i j)) eqn:Ty.
  { do 3 f_equal; apply mat_ext; intros; unfold gelim; now rewrite Ty. }
  pose proof (tiny_nz Ty) as Nz.
  change (mrows (mat_of r c f tf)) with r.
  pose (G := fun (p : nat) h => fun a b => if (a <? p)%nat then gelim f h i j a b else h a b).
  match goal with |- context [for_exit r 0 ?b ?s] =>
   destruct (@for_exit_inv _ _ (fun p (st : mtx R * mtx R * option R) =>
      fst (fst st) = mat_of r c (G p f) tf /\ snd (fst st) = mat_of r c' (G p h) th) r 0%nat b s)
    as (((mg, mi), x) & E & E1 & E2) end.
  { split; reflexivity. }
  { intros p ((mg & mi) & x) Hp (E1 & E2). cbn [fst snd] in E1, E2. subst mg mi. cbv beta iota.
    assert (Ri : forall q g b, G q g i b = g i b).
    { intros q g b. unfold G, gelim. destruct (i <? q)%nat; auto. rewrite Nat.eqb_refl. now rewrite Ty. }
    assert (Rp : forall g b, G p g p b = g p b).
    { intros g b. unfold G. now rewrite Nat.ltb_irrefl. }
    assert (St : forall w (g : nat -> nat -> R) t, (bc = true -> i < w)%nat ->
       mat_of r w (G (S p) g) t = mat_of r w (fun a b => if (a =? p)%nat then gelim f g i j p b else G p g a b) t).
    { intros w g t _. apply mat_ext. intros a b Ha Hb'. unfold G.
      destruct (Nat.eqb_spec a p) as [->|].
      - rewrite (proj2 (Nat.ltb_lt p (S p))) by lia. reflexivity.
      - destruct (Nat.ltb_spec a (S p)), (Nat.ltb_spec a p); auto; lia. }
    destruct (Nat.eqb_spec p i) as [->|Np].
    - eexists. split; [reflexivity|]. cbn [fst snd]. rewrite !St by (intros; now apply Hb).
      split; apply mat_ext; intros a b Ha Hb'; destruct (Nat.eqb_spec a i) as [->|]; auto;
       rewrite Rp; unfold gelim; now rewrite Ty, Nat.eqb_refl.
    - rewrite lget_mat by lia. cbn [bind lval]. rewrite Rp, is_big_R.
      destruct (tiny (f p j)) eqn:Tp; cbn [negb].
      + eexists. split; [reflexivity|]. cbn [fst snd]. rewrite !St by (intros; now apply Hb).
        split; apply mat_ext; intros a b Ha Hb'; destruct (Nat.eqb_spec a p) as [->|]; auto;
         rewrite Rp; unfold gelim; now rewrite Ty, Tp, (proj2 (Nat.eqb_neq p i)).
      + cbn [fdiv NumR]. rewrite Rdivo_ok by auto. cbn [bind].
        rewrite mtx_sum_rows_scaled_d_ok by (try lia; intros; now apply Hb). cbn [bind].
        change (negb (0 =? 0)%Z) with false. cbv iota.
        rewrite mtx_sum_rows_scaled_d_ok by (try lia; intros; now apply Hb). cbn [bind].
        change (negb (0 =? 0)%Z) with false. cbv iota.
        eexists. split; [reflexivity|]. cbn [fst snd]. rewrite !St by (intros; now apply Hb).
        split; apply mat_ext; intros a b Ha Hb'; (destruct (Nat.eqb_spec a p) as [->|]; [|reflexivity]);
         rewrite Rp, Ri; unfold gelim; rewrite Ty, Tp, (proj2 (Nat.eqb_neq p i)) by auto;
         cbn [fadd fmul fneg NumR]; ring. }
  rewrite E. cbn [bind]. cbn [fst snd] in E1, E2. subst mg mi.
  do 3 f_equal; apply mat_ext; intros a b Ha Hb'; unfold G;
   now rewrite (proj2 (Nat.ltb_lt a (0 + r))) by lia.
Qed.

Lemma norm_elem_body_ok r c c' f h tf th i j :
  (i < r)%nat -> (j < c)%nat ->
  norm_elem_body bc (mat_of r c f tf) (mat_of r c' h th) i j
  = Ok (0%Z, (mat_of r c (nelem f f i j) tf, mat_of r c' (nelem f h i j) th)).
Proof.
  intros Hi Hj. unfold norm_elem_body. rewrite mtx_get_mat by auto. cbn [bind].
  rewrite is_tiny_R. destruct (tiny (f i j)) eqn:Ty.
  { do 3 f_equal; apply mat_ext; intros; unfold nelem; now rewrite Ty. }
  pose proof (tiny_nz Ty) as Nz. cbn [fdiv NumR f1]. rewrite Rdivo_ok by auto. cbn [bind].
  rewrite mtx_scalar_mult_row_d_ok by auto. cbn [bind]. change (negb (0 =? 0)%Z) with false. cbv iota.
  rewrite mtx_scalar_mult_row_d_ok by auto. cbn [bind]. change (negb (0 =? 0)%Z) with false. cbv iota.
  do 3 f_equal; apply mat_ext; intros a b Ha Hb'; unfold nelem; rewrite Ty;
   destruct (Nat.eqb_spec a i) as [->|]; auto; cbn [fmul NumR]; field; auto.
Qed.

Lemma gauss_elim_ok r c c' f h tf th mg i j :
  room r c mg -> (i < r)%nat -> (j < c)%nat -> (bc = true -> i < c /\ i < c')%nat ->
  mtx_gauss_elim bc (mat_of r c f tf) mg (mat_of r c' h th) i j
  = Ok (0%Z, (mat_of r c (gelim f f i j) (rest mg), mat_of r c' (gelim f h i j) th)).
Proof.
  intros Hm Hi Hj Hb. unfold mtx_gauss_elim. rewrite mtx_copy_ok by auto. cbn [bind].
  change (negb (0 =? 0)%Z) with false. cbv iota. now apply gauss_elim_body_ok.
Qed.

Lemma gauss_elim_d_ok r c c' f h tf th i j :
  (i < r)%nat -> (j < c)%nat -> (bc = true -> i < c /\ i < c')%nat ->
  mtx_gauss_elim_d bc (mat_of r c f tf) (mat_of r c' h th) i j
  = Ok (0%Z, (mat_of r c (gelim f f i j) tf, mat_of r c' (gelim f h i j) th)).
Proof.
  intros. unfold mtx_gauss_elim_d. rewrite gauss_elim_ok by (auto; apply mat_room). now rewrite mat_rest.
Qed.

Lemma norm_elem_ok r c c' f h tf th mn i j :
  room r c mn -> (i < r)%nat -> (j < c)%nat ->
  mtx_norm_elem bc (mat_of r c f tf) mn (mat_of r c' h th) i j
  = Ok (0%Z, (mat_of r c (nelem f f i j) (rest mn), mat_of r c' (nelem f h i j) th)).
Proof.
  intros Hm Hi Hj. unfold mtx_norm_elem. rewrite mtx_copy_ok by auto. cbn [bind].
  change (negb (0 =? 0)%Z) with false. cbv iota. now apply norm_elem_body_ok.
Qed.

Lemma norm_elem_d_ok r c c' f h tf th i j :
  (i < r)%nat -> (j < c)%nat ->
  mtx_norm_elem_d bc (mat_of r c f tf) (mat_of r c' h th) i j
  = Ok (0%Z, (mat_of r c (nelem f f i j) tf, mat_of r c' (nelem f h i j) th)).
Proof.
  intros. unfold mtx_norm_elem_d. rewrite norm_elem_ok by (auto; apply mat_room). now rewrite mat_rest.
Qed.

(** ** The search for a row to add *)
Lemma for_exit_stop S X (P : nat -> S -> Prop) n lo q (body : nat -> S -> outcome (S + X)) s res :
  P lo s -> (lo <= q < lo + n)%nat ->
  (forall i s, (lo <= i < q)%nat -> P i s -> exists s', body i s = Ok (inl s') /\ P (Datatypes.S i) s') ->
  (forall s, P q s -> exists x, body q s = Ok (inr x) /\ res x) ->
  exists x, for_exit n lo body s = Ok (inr x) /\ res x.
Proof.
  revert lo s; induction n as [|n IH]; intros lo s H0 Hq H Hs; [lia|]. cbn [for_exit].
  destruct (Nat.eq_dec lo q) as [->|N].
  - destruct (Hs s H0) as (x & E & Rx). exists x. rewrite E. auto.
  - destruct (H lo s) as (s1 & E & H1); [lia|auto|]. rewrite E. cbn [bind].
    apply IH; auto; [lia|]. intros i s' Hi. apply H. lia.
Qed.

Definition addrow (k q : nat) g : nat -> nat -> R :=
  fun a b => if (a =? k)%nat then g k b + g q b else g a b.

(** One round of the reduction, when the numbers it looks at are clear *)
Definition pivot_op n k g h : nat -> nat -> R :=
  if Req_EM_T (g k k) 0 then
    match pivot_row n k g with Some q => addrow k q h | None => h end
  else h.

Definition round n k g h : nat -> nat -> R :=
  let g1 := pivoted n k g in
  let h1 := pivot_op n k g h in
  fun a b => if (a =? k)%nat then h1 k b / g1 k k else h1 a b - g1 a k / g1 k k * h1 k b.

Lemma pivoted_op n k g : pivoted n k g = pivot_op n k g g.
Proof. reflexivity. Qed.

Lemma pivot_row_some n k g q :
  pivot_row n k g = Some q ->
  (k < q < n)%nat /\ g q k <> 0 /\ forall p, (k < p < q)%nat -> g p k = 0.
Proof.
  unfold pivot_row. intros E.
  assert (A : forall l q, find (fun q => if Req_EM_T (g q k) 0 then false else true) l = Some q ->
     exists l1 l2, l = l1 ++ q :: l2 /\ g q k <> 0 /\ forall p, In p l1 -> g p k = 0).
  { induction l as [|a l IH]; intros q' H; cbn in H; [discriminate|].
    destruct (Req_EM_T (g a k) 0) as [Z|Z].
    - destruct (IH _ H) as (l1 & l2 & -> & H1 & H2). exists (a :: l1), l2. split; [reflexivity|].
      split; auto. intros p [<-|Hp]; auto.
    - injection H as <-. exists [], l. split; [reflexivity|]. split; auto. intros p []. }
  destruct (A _ _ E) as (l1 & l2 & El & H1 & H2).
  assert (Hq : q = (S k + length l1)%nat /\ (length l1 < n - S k)%nat).
  { assert (L : (length l1 < n - S k)%nat).
    { rewrite <- (seq_length (n - S k) (S k)), El, app_length. cbn. lia. }
    split; auto. rewrite <- (@seq_nth (n - S k) (S k) _ 0%nat L), El, app_nth2, Nat.sub_diag by lia. reflexivity. }
  destruct Hq as (Hq & Hl). split; [lia|]. split; auto.
  intros p Hp. apply H2.
  assert (Ep : p = nth (p - S k) l1 0%nat).
  { rewrite <- (app_nth1 l1 (q :: l2)) by lia. rewrite <- El, seq_nth by lia. lia. }
  rewrite Ep. apply nth_In. lia.
Qed.

Lemma pivot_row_none n k g :
  pivot_row n k g = None -> forall p, (k < p < n)%nat -> g p k = 0.
Proof.
  unfold pivot_row. intros E p Hp.
  assert (F := find_none _ _ E p). cbn beta in F.
  destruct (Req_EM_T (g p k) 0); auto. exfalso. assert (true = false); [|discriminate]. apply F.
  apply in_seq. lia.
Qed.

(** A pivot can be found *)
Definition pivot_exists n k g : Prop :=
  g k k <> 0 \/ pivot_row n k g <> None.

Lemma pivoted_kk n k g : pivot_exists n k g -> pivoted n k g k k <> 0.
Proof.
  intros [H|H]; unfold pivoted; destruct (Req_EM_T (g k k) 0) as [Z|Z]; try contradiction; auto.
  destruct (pivot_row n k g) as [q|] eqn:E; [|contradiction].
  rewrite Nat.eqb_refl. destruct (@pivot_row_some _ _ _ _ E) as (_ & Hq & _). rewrite Z. lra.
Qed.

Lemma pivoted_col n k g p : p <> k -> pivoted n k g p k = g p k.
Proof.
  intros Hp. unfold pivoted. destruct (Req_EM_T (g k k) 0); auto.
  destruct (pivot_row n k g); auto. now rewrite (proj2 (Nat.eqb_neq p k)).
Qed.

Definition clear_col n k g : Prop :=
  forall i, (i < n)%nat -> g i k = 0 \/ / 1000000 <= Rabs (g i k).

Lemma clear_tiny n k g i : clear_col n k g -> (i < n)%nat -> tiny (g i k) = true -> g i k = 0.
Proof.
  intros C Hi Ht. destruct (C i Hi) as [Z|H]; auto. apply tiny_false in H. congruence.
Qed.

Lemma clear_pivoted n k g :
  (k < n)%nat -> pivot_exists n k g -> clear_col n k g -> clear_col n k (pivoted n k g).
Proof.
  intros Hk Hp C i Hi. destruct (Nat.eq_dec i k) as [->|N].
  - unfold pivoted. destruct (Req_EM_T (g k k) 0) as [Z|Z]; [|now apply C].
    destruct (pivot_row n k g) as [q|] eqn:E; [|now apply C].
    rewrite Nat.eqb_refl, Z, Rplus_0_l. apply C. destruct (@pivot_row_some _ _ _ _ E). lia.
  - rewrite pivoted_col by auto. now apply C.
Qed.

(** Search step of zsl_mtx_gauss_reduc, src/matrices.c:904-925 *)
Lemma search_ok n k g h tg th v y q :
  (k < n)%nat -> pivot_row n k g = Some q -> g k k = 0 ->
  clear_col n k g -> (forall i, (i < k)%nat -> g i i = 1) ->
  exists y',
  for_exit n 0 (fun q y =>
     let! y := lget bc (mat_of n n g tg) q q y in
     let! vq := rd (cells (col_of n g k) ++ v) q in
     if is_big vq then
       let! keep := if (q <? k)%nat then let! yv := lval y in Ok (is_big yv) else Ok false in
       if (keep : bool) then Ok (inl y)
       else
         let! (_, mg) := mtx_sum_rows_d bc (mat_of n n g tg) k q in
         let! (_, mi) := mtx_sum_rows_d bc (mat_of n n h th) k q in
         Ok (inr (mi, mg, y))
     else Ok (inl y)) y
  = Ok (inr (mat_of n n (addrow k q h) th, mat_of n n (addrow k q g) tg, y')).
Proof.
  intros Hk Hq Hkk C U. destruct (@pivot_row_some _ _ _ _ Hq) as (Rq & Nq & Bq).
  match goal with |- exists y', for_exit n 0 ?b ?s = _ =>
   destruct (@for_exit_stop _ _ (fun _ _ => True) n 0%nat q b s
     (fun x => fst x = (mat_of n n (addrow k q h) th, mat_of n n (addrow k q g) tg))) as (((mi & mg) & y') & E & Ex) end.
  - exact I.
  - lia.
  - intros i y0 Hi _. rewrite lget_mat by lia. cbn [bind].
    rewrite (rd_cells_app _ _ 0) by (rewrite col_of_length; lia). cbn [bind]. rewrite nth_col_of by lia.
    rewrite is_big_R. destruct (tiny (g i k)) eqn:Ti; cbn [negb].
    + eexists. split; [reflexivity|exact I].
    + destruct (Nat.ltb_spec i k).
      * cbn [lval bind]. rewrite is_big_R, U, tiny_1 by auto. cbn [negb]. eexists. split; [reflexivity|exact I].
      * exfalso. apply tiny_nz in Ti. destruct (Nat.eq_dec i k) as [->|]; [contradiction|]. apply Ti, Bq. lia.
  - intros y0 _. rewrite lget_mat by lia. cbn [bind].
    rewrite (rd_cells_app _ _ 0) by (rewrite col_of_length; lia). cbn [bind]. rewrite nth_col_of by lia.
    rewrite is_big_R. destruct (tiny (g q k)) eqn:Ti.
    { exfalso. apply Nq. apply (clear_tiny C); auto; lia. }
    cbn [negb]. rewrite (proj2 (Nat.ltb_ge q k)) by lia. cbn [bind].
    rewrite mtx_sum_rows_d_ok by lia. cbn [bind]. rewrite mtx_sum_rows_d_ok by lia. cbn [bind].
    eexists. split; [reflexivity|]. reflexivity.
  - cbn [fst] in Ex. injection Ex as -> ->. exists y'. exact E.
Qed.

(** After a whole round *)
Lemma elim_norm_round n k g h :
  (k < n)%nat -> pivot_exists n k g -> clear_col n k g ->
  let g1 := pivoted n k g in
  let h1 := pivot_op n k g h in
  forall a b, (a < n)%nat ->
    nelem (gelim g1 g1 k k) (gelim g1 h1 k k) k k a b = round n k g h a b.
Proof.
  intros Hk Hp C g1 h1 a b Ha.
  assert (Nz : g1 k k <> 0) by now apply pivoted_kk.
  assert (C1 : clear_col n k g1) by now apply clear_pivoted.
  assert (Tk : tiny (g1 k k) = false).
  { destruct (tiny (g1 k k)) eqn:E; auto. exfalso. apply Nz. now apply (clear_tiny C1). }
  assert (Gk : gelim g1 g1 k k k k = g1 k k) by (unfold gelim; now rewrite Tk, Nat.eqb_refl).
  unfold nelem. rewrite Gk, Tk. unfold round. fold g1 h1.
  destruct (Nat.eqb_spec a k) as [->|N].
  - unfold gelim. now rewrite Tk, Nat.eqb_refl.
  - unfold gelim. rewrite Tk, (proj2 (Nat.eqb_neq a k)) by auto.
    destruct (tiny (g1 a k)) eqn:Ta; auto. rewrite (clear_tiny C1 Ha Ta). unfold Rdiv. ring.
Qed.

Definition unit_cols n k g : Prop := forall i j, (i < n)%nat -> (j < k)%nat -> g i j = mid i j.

Lemma round_unit n k g :
  (k < n)%nat -> pivot_exists n k g -> unit_cols n k g -> unit_cols n (S k) (round n k g g).
Proof.
  intros Hk Hp U i j Hi Hj. pose proof (pivoted_kk Hp) as Nz.
  assert (Uk : forall j, (j < k)%nat -> pivoted n k g k j = 0).
  { intros j' Hj'. assert (Z : forall q, (k <= q < n)%nat -> g q j' = 0).
    { intros q Hq. rewrite U by lia. unfold mid. now rewrite (proj2 (Nat.eqb_neq q j')) by lia. }
    unfold pivoted. destruct (Req_EM_T (g k k) 0); [|apply Z; lia].
    destruct (pivot_row n k g) as [q|] eqn:E; [|apply Z; lia].
    rewrite Nat.eqb_refl. destruct (@pivot_row_some _ _ _ _ E). rewrite !Z by lia. lra. }
  assert (Ui : forall i j, i <> k -> pivoted n k g i j = g i j).
  { intros i' j' Hn. unfold pivoted. destruct (Req_EM_T (g k k) 0); auto.
    destruct (pivot_row n k g); auto. now rewrite (proj2 (Nat.eqb_neq i' k)). }
  unfold round. change (pivot_op n k g g) with (pivoted n k g).
  unfold mid. destruct (Nat.eqb_spec i k) as [->|N].
  - destruct (Nat.eqb_spec k j) as [<-|N]; [cbn [f1 NumR]; field; auto|].
    rewrite (Uk j) by lia. cbn [f0 NumR]. field; auto.
  - rewrite Ui by auto. destruct (Nat.eq_dec j k) as [->|Nj].
    + rewrite (proj2 (Nat.eqb_neq i k)), Ui by auto. cbn [f0 NumR]. field; auto.
    + rewrite (Uk j) by lia. rewrite (U i j) by lia. unfold mid. destruct (i =? j)%nat; cbn [f0 f1 NumR]; ring.
Qed.

(** [h] records the operations: h * f = g *)
Lemma addrow_mmul n k q f h i j : mmul n (addrow k q h) f i j = addrow k q (mmul n h f) i j.
Proof.
  unfold mmul, addrow. destruct (i =? k)%nat; auto. rewrite <- bigsum_plus.
  apply bigsum_ext. intros. ring.
Qed.

Lemma round_mmul n k f g h :
  (k < n)%nat ->
  (forall i j, (i < n)%nat -> (j < n)%nat -> mmul n h f i j = g i j) ->
  forall i j, (i < n)%nat -> (j < n)%nat -> mmul n (round n k g h) f i j = round n k g g i j.
Proof.
  intros Hk H i j Hi Hj.
  assert (P : forall i, (i < n)%nat -> mmul n (pivot_op n k g h) f i j = pivot_op n k g g i j).
  { intros i' Hi'. unfold pivot_op. destruct (Req_EM_T (g k k) 0); [|now apply H].
    destruct (pivot_row n k g) as [q|] eqn:E; [|now apply H].
    rewrite addrow_mmul. unfold addrow. destruct (@pivot_row_some _ _ _ _ E).
    destruct (i' =? k)%nat; rewrite ?H; auto; lia. }
  unfold round. rewrite <- !P by auto.
  unfold mmul. destruct (i =? k)%nat.
  - unfold Rdiv. rewrite bigsum_mult_r. apply bigsum_ext. intros. ring.
  - rewrite bigsum_mult_l. unfold Rminus.
    rewrite <- (Rmult_1_l (bigsum n (fun k0 => pivoted n k g i k / pivoted n k g k k * _))).
    rewrite (Ropp_mult_distr_l 1), bigsum_mult_l, <- bigsum_plus. apply bigsum_ext. intros. ring.
Qed.

(** Row operations do not enlarge the kernel *)
Definition kills n g (x : nat -> R) : Prop := forall i, (i < n)%nat -> bigsum n (fun j => g i j * x j) = 0.

Lemma round_kills n k g x : (k < n)%nat -> pivot_exists n k g -> kills n (round n k g g) x -> kills n g x.
Proof.
  intros Hk Hp H. pose proof (pivoted_kk Hp) as Nz.
  assert (K1 : kills n (pivoted n k g) x).
  { assert (Kk : bigsum n (fun j => pivoted n k g k j * x j) = 0).
    { pose proof (H k Hk) as A. unfold round in A. change (pivot_op n k g g) with (pivoted n k g) in A.
      rewrite (bigsum_ext n _ (fun j => / pivoted n k g k k * (pivoted n k g k j * x j))) in A.
      2:{ intros. rewrite Nat.eqb_refl. field; auto. }
      rewrite <- bigsum_mult_l in A. apply Rmult_integral in A. destruct A as [A|A]; auto.
      exfalso. apply Rinv_neq_0_compat in Nz. contradiction. }
    intros i Hi. destruct (Nat.eq_dec i k) as [->|N]; auto.
    pose proof (H i Hi) as A. unfold round in A. change (pivot_op n k g g) with (pivoted n k g) in A.
    rewrite (bigsum_ext n _ (fun j => pivoted n k g i j * x j
        + - (pivoted n k g i k / pivoted n k g k k) * (pivoted n k g k j * x j))) in A.
    2:{ intros. rewrite (proj2 (Nat.eqb_neq i k)) by auto. field; auto. }
    rewrite bigsum_plus, <- bigsum_mult_l, Kk in A. lra. }
  intros i Hi. pose proof (K1 i Hi) as A. unfold pivoted in A.
  destruct (Req_EM_T (g k k) 0); auto. destruct (pivot_row n k g) as [q|] eqn:E; auto.
  destruct (@pivot_row_some _ _ _ _ E) as (Rq & _).
  destruct (Nat.eqb_spec i k) as [->|N]; auto.
  pose proof (K1 q) as B. unfold pivoted in B. destruct (Req_EM_T (g k k) 0); [|contradiction].
  rewrite E in B. rewrite (proj2 (Nat.eqb_neq q k)) in B by lia. specialize (B ltac:(lia)).
  rewrite (bigsum_ext n _ (fun j => g k j * x j + g q j * x j)) in A by (intros; ring).
  rewrite bigsum_plus, B in A. lra.
Qed.

Definition nonsing n f : Prop := forall x, kills n f x -> forall i, (i < n)%nat -> x i = 0.

Lemma pivot_found n k g : (k < n)%nat -> unit_cols n k g -> nonsing n g -> pivot_exists n k g.
Proof.
  intros Hk U Ns. destruct (Req_EM_T (g k k) 0) as [Z|Z]; [|now left]. right. intros E.
  pose (x := fun j => if (j =? k)%nat then 1 else if (j <? k)%nat then - g j k else 0).
  assert (X : x k = 0); [|unfold x in X; rewrite Nat.eqb_refl in X; lra].
  apply Ns; auto. intros i Hi.
  rewrite (bigsum_ext n _ (fun j => (if (j =? k)%nat then g i k else 0)
     + (if (j =? i)%nat then (if (i <? k)%nat then - g i k else 0) else 0))).
  - rewrite bigsum_plus. rewrite (bigsum_delta n (fun _ => g i k)) by auto.
    rewrite (bigsum_delta n (fun _ => if (i <? k)%nat then - g i k else 0)) by auto.
    destruct (Nat.ltb_spec i k); [ring|].
    destruct (Nat.eq_dec i k) as [->|]; [lra|]. rewrite (@pivot_row_none _ _ _ E) by lia. ring.
  - intros j Hj. unfold x. destruct (Nat.eqb_spec j k) as [->|Nj].
    + destruct (Nat.eqb_spec k i) as [<-|]; [rewrite Nat.ltb_irrefl|]; ring.
    + destruct (Nat.ltb_spec j k).
      * rewrite U by auto. unfold mid. destruct (Nat.eqb_spec i j) as [->|].
        -- rewrite Nat.eqb_refl. destruct (Nat.ltb_spec j k); [|lia]. cbn [f1 NumR]. ring.
        -- rewrite (proj2 (Nat.eqb_neq j i)) by auto. cbn [f0 NumR]. ring.
      * destruct (Nat.eqb_spec j i) as [->|]; [|ring].
        destruct (Nat.ltb_spec i k); [lia|ring].
Qed.

Lemma gj_round n k f : gj n (S k) f = round n k (gj n k f) (gj n k f).
Proof. reflexivity. Qed.

Lemma gj_inv n f k :
  nonsing n f -> (k <= n)%nat -> unit_cols n k (gj n k f) /\ nonsing n (gj n k f).
Proof.
  intros Ns. induction k as [|k IH]; intros Hk.
  - split; [intros i j _ H; lia|exact Ns].
  - destruct IH as (U & N); [lia|]. pose proof (pivot_found (n := n) (k := k) ltac:(lia) U N) as P.
    rewrite gj_round. split.
    + apply round_unit; auto.
    + intros x Hx. apply N. now apply round_kills in Hx; [|lia|].
Qed.

(** What mi holds after k rounds *)
Fixpoint gjh n k f (h : nat -> nat -> R) : nat -> nat -> R :=
  match k with
  | O => h
  | S k' => round n k' (gj n k' f) (gjh n k' f h)
  end.

Lemma gauss_reduc_ok n f h tf th mg :
  room n n mg -> nonsing n f -> gj_clear n f ->
  mtx_gauss_reduc bc (mat_of n n f tf) (mat_of n n h th) mg
  = Ok (0%Z, (mat_of n n (gjh n n f h) th, mat_of n n (gj n n f) (rest mg))).
Proof.
  intros Hm Ns Cl. unfold mtx_gauss_reduc. rewrite mtx_copy_ok by auto. cbn [bind].
  change (mrows (mat_of n n f tf)) with n. set (tg := rest mg). clearbody tg.
  match goal with |- context [for_ n 0 ?b ?s] =>
   destruct (@for_inv _ (fun k (st : mtx R * mtx R * buf R * option R * option R) =>
      let '(mi, mg, v, x, y) := st in
      mi = mat_of n n (gjh n k f h) th /\ mg = mat_of n n (gj n k f) tg /\ (n <= length v)%nat) n 0%nat b s)
     as (((((mi & mg') & v) & x) & y) & E & E1 & E2 & _) end.
  { split; [reflexivity|]. split; [reflexivity|]. rewrite fresh_length. lia. }
  { intros k ((((mi & mg') & v) & x) & y) Hk (E1 & E2 & Hv). subst mi mg'. cbv beta iota.
    destruct (@gj_inv n f k Ns ltac:(lia)) as (U & N).
    assert (P : pivot_exists n k (gj n k f)) by (apply pivot_found; auto; lia).
    assert (C : clear_col n k (gj n k f)) by (intros i Hi; apply Cl; lia).
    set (g := gj n k f) in *. set (h' := gjh n k f h).
    rewrite lget_mat by lia. cbn [bind lval]. rewrite is_tiny_R.
    assert (Step : exists v' y',
      (if tiny (g k k) then
         let! (_, v) := mtx_get_col bc (mat_of n n g tg) k v in
         let! r := for_exit n 0 (fun q y =>
             let! y := lget bc (mat_of n n g tg) q q y in
             let! vq := rd v q in
             if is_big vq then
               let! keep := if (q <? k)%nat then let! yv := lval y in Ok (is_big yv) else Ok false in
               if (keep : bool) then Ok (inl y)
               else
                 let! (_, mg) := mtx_sum_rows_d bc (mat_of n n g tg) k q in
                 let! (_, mi) := mtx_sum_rows_d bc (mat_of n n h' th) k q in
                 Ok (inr (mi, mg, y))
             else Ok (inl y)) y in
         Ok (match r with
             | inl y => (mat_of n n h' th, mat_of n n g tg, v, y)
             | inr (mi, mg, y) => (mi, mg, v, y)
             end)
       else Ok (mat_of n n h' th, mat_of n n g tg, v, y))
      = Ok (mat_of n n (pivot_op n k g h') th, mat_of n n (pivoted n k g) tg, v', y')
      /\ (n <= length v')%nat).
    { destruct (tiny (g k k)) eqn:Tk.
      - assert (Z : g k k = 0) by (apply (clear_tiny C); auto; lia).
        destruct P as [P|P]; [contradiction|].
        destruct (pivot_row n k g) as [q|] eqn:Eq; [|contradiction].
        rewrite mtx_get_col_ok by (auto; lia). cbn [bind].
        destruct (@search_ok n k g h' tg th (skipn n v) y q) as (y' & S'); auto; [lia| |].
        { intros i Hi. rewrite U by lia. unfold mid. now rewrite Nat.eqb_refl. }
        rewrite S'. cbn [bind]. eexists _, y'. split.
        + unfold pivoted, pivot_op. destruct (Req_EM_T (g k k) 0); [|contradiction]. rewrite Eq. reflexivity.
        + rewrite app_length, cells_length, col_of_length. lia.
      - exists v, y. split; auto. unfold pivoted, pivot_op.
        destruct (Req_EM_T (g k k) 0) as [Z|]; auto. exfalso. now apply tiny_nz in Tk. }
    destruct Step as (v' & y' & St & Hv'). rewrite St. cbn [bind].
    rewrite gauss_elim_d_ok by lia. cbn [bind]. rewrite norm_elem_d_ok by lia. cbn [bind].
    eexists. split; [reflexivity|]. cbv beta iota. split; [|split; auto].
    - apply mat_ext. intros a b Ha Hb. cbn [gjh]. fold g h'. apply elim_norm_round; auto; lia.
    - apply mat_ext. intros a b Ha Hb. rewrite gj_round. fold g.
      change (pivoted n k g) with (pivot_op n k g g) at 3. apply elim_norm_round; auto; lia. }
  rewrite E. cbn [bind]. rewrite E1, E2. reflexivity.
Qed.

Lemma gjh_mmul n f k : (k <= n)%nat ->
  forall i j, (i < n)%nat -> (j < n)%nat -> mmul n (gjh n k f mid) f i j = gj n k f i j.
Proof.
  induction k as [|k IH]; intros Hk i j Hi Hj.
  - cbn [gjh gj]. now apply mmul_id_l.
  - cbn [gjh]. rewrite gj_round. apply round_mmul; auto. apply IH. lia.
Qed.

Lemma mtx_inv_ok n f tf mi :
  (0 < n)%nat -> n <> 3%nat -> room n n mi -> ldet n f <> 0 -> nonsing n f -> gj_clear n f ->
  exists h, mtx_inv bc (mat_of n n f tf) mi = Ok (0%Z, mat_of n n h (rest mi))
    /\ forall i j, (i < n)%nat -> (j < n)%nat -> mmul n h f i j = mid i j.
Proof.
  intros Hn H3 Hm Hd Ns Cl. pose proof Hm as (Hr & Hc & _). exists (gjh n n f mid). split.
  - unfold mtx_inv. change (mrows (mat_of n n f tf)) with n. change (mcols (mat_of n n f tf)) with n.
    rewrite (proj2 (Nat.eqb_neq n 3)) by auto. rewrite Hr, Hc, !Nat.eqb_refl. cbn [negb orb].
    rewrite andb_false_r. rewrite mtx_copy_local. cbn [bind]. change (negb (0 =? 0)%Z) with false. cbv iota.
    rewrite (@mtx_init_identity _ _ bc n n) by auto. cbn [bind]. change (negb (0 =? 0)%Z) with false. cbv iota.
    rewrite mtx_deter_ok by auto. cbn [bind feq NumR f0]. unfold Reqb.
    destruct (Req_EM_T (ldet n f) 0); [contradiction|].
    rewrite gauss_reduc_ok by (auto; apply mat_room). reflexivity.
  - intros i j Hi Hj. rewrite gjh_mmul by auto. now apply (@gj_inv n f n).
Qed.

Lemma mtx_inv_singular n f tf mi :
  (0 < n)%nat -> room n n mi -> ldet n f = 0 ->
  mtx_inv bc (mat_of n n f tf) mi = Ok (0%Z, mat_of n n mid (rest mi)).
Proof.
  intros Hn Hm Hd. pose proof Hm as (Hr & Hc & _). unfold mtx_inv.
  change (mrows (mat_of n n f tf)) with n. change (mcols (mat_of n n f tf)) with n.
  destruct (Nat.eqb_spec n 3) as [->|].
  - rewrite mtx_inv_3x3_ok by auto. destruct (Req_EM_T (ldet 3 f) 0); [reflexivity|contradiction].
  - rewrite Hr, Hc, !Nat.eqb_refl. cbn [negb orb].
    rewrite andb_false_r. rewrite mtx_copy_local. cbn [bind]. change (negb (0 =? 0)%Z) with false. cbv iota.
    rewrite (@mtx_init_identity _ _ bc n n) by auto. cbn [bind]. change (negb (0 =? 0)%Z) with false. cbv iota.
    rewrite mtx_deter_ok by auto. cbn [bind feq NumR f0]. unfold Reqb.
    destruct (Req_EM_T (ldet n f) 0); [reflexivity|contradiction].
Qed.

End G.

(** The reduction does nothing to a matrix of tiny numbers *)
Lemma gauss_reduc_tiny bc n f h tf th mg :
  room n n mg -> (forall i j, (i < n)%nat -> (j < n)%nat -> Rabs (f i j) < / 1000000) ->
  mtx_gauss_reduc bc (mat_of n n f tf) (mat_of n n h th) mg
  = Ok (0%Z, (mat_of n n h th, mat_of n n f (rest mg))).
Proof.
  intros Hm Sm. assert (Ti : forall i j, (i < n)%nat -> (j < n)%nat -> tiny (f i j) = true).
  { intros i j Hi Hj. unfold tiny. destruct Rlt_dec as [|N]; [auto|]. exfalso. apply N. now apply Sm. }
  unfold mtx_gauss_reduc. rewrite mtx_copy_ok by auto. cbn [bind].
  change (mrows (mat_of n n f tf)) with n. set (tg := rest mg). clearbody tg.
  match goal with |- context [for_ n 0 ?b ?s] =>
   destruct (@for_inv _ (fun k (st : mtx R * mtx R * buf R * option R * option R) =>
      let '(mi, mg, v, x, y) := st in
      mi = mat_of n n h th /\ mg = mat_of n n f tg /\ (n <= length v)%nat) n 0%nat b s)
     as (((((mi & mg') & v) & x) & y) & E & E1 & E2 & _) end.
  { split; [reflexivity|]. split; [reflexivity|]. rewrite fresh_length. lia. }
  { intros k ((((mi & mg') & v) & x) & y) Hk (E1 & E2 & Hv). subst mi mg'. cbv beta iota.
    rewrite lget_mat by lia. cbn [bind lval]. rewrite is_tiny_R, Ti by lia.
    rewrite mtx_get_col_ok by (auto; lia). cbn [bind].
    match goal with |- context [for_exit n 0 ?b ?s] =>
     destruct (@for_exit_inv _ _ (fun _ _ => True) n 0%nat b s I) as (y' & E & _) end.
    { intros q y0 Hq _. rewrite lget_mat by lia. cbn [bind].
      rewrite (rd_cells_app _ _ 0) by (rewrite col_of_length; lia). cbn [bind]. rewrite nth_col_of by lia.
      rewrite is_big_R, Ti by lia. cbn [negb]. eexists. split; [reflexivity|exact I]. }
    rewrite E. cbn [bind].
    rewrite gauss_elim_d_ok by lia. cbn [bind].
    assert (G : forall w, mat_of n n (gelim f w k k) = mat_of n n w).
    { intros w. unfold gelim. rewrite Ti by lia. reflexivity. }
    rewrite !G. rewrite norm_elem_d_ok by lia. cbn [bind].
    assert (G2 : forall w, mat_of n n (nelem f w k k) = mat_of n n w).
    { intros w. unfold nelem. rewrite Ti by lia. reflexivity. }
    rewrite !G2. eexists. split; [reflexivity|]. cbv beta iota. split; [|split]; auto.
    rewrite app_length, cells_length, col_of_length. lia. }
  rewrite E. cbn [bind]. rewrite E1, E2. reflexivity.
Qed.

Lemma mtx_inv_tiny bc n f tf mi :
  (0 < n)%nat -> n <> 3%nat -> room n n mi ->
  (forall i j, (i < n)%nat -> (j < n)%nat -> Rabs (f i j) < / 1000000) ->
  mtx_inv bc (mat_of n n f tf) mi = Ok (0%Z, mat_of n n mid (rest mi)).
Proof.
  intros Hn H3 Hm Sm. pose proof Hm as (Hr & Hc & _).
  unfold mtx_inv. change (mrows (mat_of n n f tf)) with n. change (mcols (mat_of n n f tf)) with n.
  rewrite (proj2 (Nat.eqb_neq n 3)) by auto. rewrite Hr, Hc, !Nat.eqb_refl. cbn [negb orb].
  rewrite andb_false_r. rewrite mtx_copy_local. cbn [bind]. change (negb (0 =? 0)%Z) with false. cbv iota.
  rewrite (@mtx_init_identity _ _ bc n n) by auto. cbn [bind]. change (negb (0 =? 0)%Z) with false. cbv iota.
  rewrite mtx_deter_ok by auto. cbn [bind]. destruct (feq _ _); [reflexivity|].
  rewrite gauss_reduc_tiny by (auto; apply mat_room). reflexivity.
Qed.

Lemma mtx_inv_bad bc (m mi : mtx R) :
  mrows m <> 3%nat \/ bc = true ->
  ~ (mrows m = mcols m /\ mrows mi = mcols mi) \/
    (bc = true /\ ~ (mrows m = mrows mi /\ mcols m = mcols mi)) ->
  mtx_inv bc m mi = Ok ((- EINVAL)%Z, mi).
Proof.
  intros H3 H. unfold mtx_inv, mtx_inv_3x3.
  destruct (Nat.eqb_spec (mrows m) 3), (Nat.eqb_spec (mrows m) (mcols m)),
    (Nat.eqb_spec (mrows mi) (mcols mi)), (Nat.eqb_spec (mrows m) (mrows mi)),
    (Nat.eqb_spec (mcols m) (mcols mi)), bc; cbn [negb orb andb]; try reflexivity;
   exfalso; destruct H as [H|[? H]]; try discriminate; try (apply H; split; congruence).
Qed.

(** Rows operations as one matrix *)
Lemma gelim_mmul r f h i j : (i < r)%nat ->
  forall a b, (a < r)%nat -> mmul r (gelim f mid i j) h a b = gelim f h i j a b.
Proof.
  intros Hi a b Ha. unfold gelim.
  destruct (tiny (f i j)); [now rewrite mmul_id_l|].
  destruct (Nat.eqb_spec a i) as [->|N]; unfold mmul.
  - rewrite (bigsum_ext r _ (fun k => mid i k * h k b)).
    + change (mmul r mid h i b = h i b). now apply mmul_id_l.
    + intros k Hk. now rewrite Nat.eqb_refl.
  - rewrite (bigsum_ext r _ (fun k => if tiny (f a j) then mid a k * h k b
       else mid a k * h k b + - (f a j / f i j) * (mid i k * h k b))).
    + destruct (tiny (f a j)).
      * change (mmul r mid h a b = h a b). now apply mmul_id_l.
      * rewrite bigsum_plus, <- bigsum_mult_l.
        change (mmul r mid h a b + - (f a j / f i j) * mmul r mid h i b = h a b - f a j / f i j * h i b).
        rewrite !mmul_id_l by auto. ring.
    + intros k Hk. rewrite (proj2 (Nat.eqb_neq a i)) by auto. destruct (tiny (f a j)); auto. ring.
Qed.

(** The inverse row operations *)
Definition gelim_back (f h : nat -> nat -> R) (i j : nat) : nat -> nat -> R :=
  fun a b => if tiny (f i j) then h a b
             else if (a =? i)%nat then h a b
             else if tiny (f a j) then h a b
             else h a b + f a j / f i j * h i b.

Lemma gelim_undo f h i j a b : gelim f (gelim_back f h i j) i j a b = h a b.
Proof.
  unfold gelim, gelim_back. destruct (tiny (f i j)); auto. rewrite Nat.eqb_refl.
  destruct (a =? i)%nat; auto. destruct (tiny (f a j)); auto. ring.
Qed.
