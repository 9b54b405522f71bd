(** Matrix facts over the reals. *)
From Coq Require Import List Arith ZArith Bool Lia Reals Lra.
From Verif Require Import Base BaseFacts SpecVec SpecMtx SpecReal NumR Libm LibmR MVec MMtx PMtx PMtxOps.
Import ListNotations.
Local Open Scope R_scope.

Lemma msum_bigsum n (g : nat -> R) : msum n g = bigsum n g.
Proof. induction n as [|n IH]; [reflexivity|]. rewrite msum_S, IH. reflexivity. Qed.

Lemma bigsum_ext n g h : (forall k, (k < n)%nat -> g k = h k) -> bigsum n g = bigsum n h.
Proof.
  induction n as [|n IH]; intros H; cbn; auto. rewrite IH, H by (intros; try apply H; lia). reflexivity.
Qed.

Lemma bigsum_mult_r n g a : bigsum n g * a = bigsum n (fun k => g k * a).
Proof. induction n as [|n IH]; cbn; [lra|]. rewrite <- IH. lra. Qed.

Lemma bigsum_mult_l n g a : a * bigsum n g = bigsum n (fun k => a * g k).
Proof. induction n as [|n IH]; cbn; [lra|]. rewrite <- IH. lra. Qed.

Lemma bigsum_plus n g h : bigsum n (fun k => g k + h k) = bigsum n g + bigsum n h.
Proof. induction n as [|n IH]; cbn; [lra|]. rewrite IH. lra. Qed.

Lemma bigsum_0 n : bigsum n (fun _ => 0) = 0.
Proof. induction n as [|n IH]; cbn; [lra|]. rewrite IH. lra. Qed.

Lemma bigsum_swap n m (g : nat -> nat -> R) :
  bigsum n (fun i => bigsum m (fun j => g i j)) = bigsum m (fun j => bigsum n (fun i => g i j)).
Proof.
  induction n as [|n IH]; cbn; [now rewrite bigsum_0|]. rewrite IH, <- bigsum_plus. reflexivity.
Qed.

Lemma bigsum_delta n (g : nat -> R) a :
  (a < n)%nat -> bigsum n (fun k => if (k =? a)%nat then g k else 0) = g a.
Proof.
  induction n as [|n IH]; intros H; [lia|]. cbn.
  destruct (Nat.eqb_spec n a) as [->|Hn].
  - rewrite (bigsum_ext a _ (fun _ => 0)).
    + rewrite bigsum_0. lra.
    + intros k Hk. destruct (Nat.eqb_spec k a); [lia|auto].
  - rewrite IH by lia. lra.
Qed.

Lemma mtx_mult_R bc r n c f g ta tb (mc : mtx R) :
  room r c mc ->
  mtx_mult bc (mat_of r n f ta) (mat_of n c g tb) mc = Ok (0%Z, mat_of r c (mmul n f g) (rest mc)).
Proof.
  intros H. rewrite mtx_mult_ok by auto. do 2 f_equal. apply mat_ext. intros i j _ _.
  apply msum_bigsum.
Qed.

Lemma mmul_assoc n m f g h i j : mmul m (mmul n f g) h i j = mmul n f (mmul m g h) i j.
Proof.
  unfold mmul.
  rewrite (bigsum_ext m _ (fun k => bigsum n (fun l => f i l * g l k * h k j)))
    by (intros; apply bigsum_mult_r).
  rewrite bigsum_swap. apply bigsum_ext. intros l _. rewrite bigsum_mult_l.
  apply bigsum_ext. intros. lra.
Qed.

Lemma mmul_id_r n f i j : (j < n)%nat -> mmul n f mid i j = f i j.
Proof.
  intros H. unfold mmul, mid.
  rewrite (bigsum_ext n _ (fun k => if (k =? j)%nat then f i k else 0)).
  - now apply bigsum_delta.
  - intros k _. cbn. destruct (k =? j)%nat; lra.
Qed.

Lemma mmul_id_l n f i j : (i < n)%nat -> mmul n mid f i j = f i j.
Proof.
  intros H. unfold mmul, mid.
  rewrite (bigsum_ext n _ (fun k => if (k =? i)%nat then f k j else 0)).
  - now apply (bigsum_delta n (fun k => f k j)).
  - intros k _. cbn. rewrite (Nat.eqb_sym i k). destruct (k =? i)%nat; lra.
Qed.

Lemma mult_assoc_api bc p q r s f g h ta tb tc ab bcm o1 o2 :
  room p r ab -> room q s bcm -> room p s o1 -> room p s o2 -> rest o1 = rest o2 ->
  exists x y m,
    mtx_mult bc (mat_of p q f ta) (mat_of q r g tb) ab = Ok (0%Z, x)
    /\ mtx_mult bc x (mat_of r s h tc) o1 = Ok (0%Z, m)
    /\ mtx_mult bc (mat_of q r g tb) (mat_of r s h tc) bcm = Ok (0%Z, y)
    /\ mtx_mult bc (mat_of p q f ta) y o2 = Ok (0%Z, m).
Proof.
  intros H1 H2 H3 H4 E.
  exists (mat_of p r (mmul q f g) (rest ab)), (mat_of q s (mmul r g h) (rest bcm)),
    (mat_of p s (mmul r (mmul q f g) h) (rest o1)).
  split; [now apply mtx_mult_R|]. split; [now apply mtx_mult_R|]. split; [now apply mtx_mult_R|].
  rewrite mtx_mult_R by auto. rewrite E. do 2 f_equal. apply mat_ext. intros. symmetry. apply mmul_assoc.
Qed.

Lemma mult_identity_api bc r c f ta i1 i2 o1 o2 :
  room r r i1 -> room c c i2 -> room r c o1 -> room r c o2 ->
  exists x y,
    mtx_init bc i1 (Some (entry_fn_identity bc)) = Ok (0%Z, x)
    /\ mtx_init bc i2 (Some (entry_fn_identity bc)) = Ok (0%Z, y)
    /\ mtx_mult bc x (mat_of r c f ta) o1 = Ok (0%Z, mat_of r c f (rest o1))
    /\ mtx_mult bc (mat_of r c f ta) y o2 = Ok (0%Z, mat_of r c f (rest o2)).
Proof.
  intros H1 H2 H3 H4.
  exists (mat_of r r mid (rest i1)), (mat_of c c mid (rest i2)).
  split; [now apply mtx_init_identity|]. split; [now apply mtx_init_identity|]. split.
  - rewrite mtx_mult_R by auto. do 2 f_equal. apply mat_ext. intros. now apply mmul_id_l.
  - rewrite mtx_mult_R by auto. do 2 f_equal. apply mat_ext. intros. now apply mmul_id_r.
Qed.

Lemma mult_trans_api bc p q r f g ta tb ab at_ bt o1 o2 :
  room p r ab -> room q p at_ -> room r q bt -> room r p o1 -> room r p o2 -> rest o1 = rest o2 ->
  exists x y z m,
    mtx_mult bc (mat_of p q f ta) (mat_of q r g tb) ab = Ok (0%Z, x)
    /\ mtx_trans bc x o1 = Ok (0%Z, m)
    /\ mtx_trans bc (mat_of p q f ta) at_ = Ok (0%Z, y)
    /\ mtx_trans bc (mat_of q r g tb) bt = Ok (0%Z, z)
    /\ mtx_mult bc z y o2 = Ok (0%Z, m).
Proof.
  intros H1 H2 H3 H4 H5 E.
  exists (mat_of p r (mmul q f g) (rest ab)), (mat_of q p (fun i j => f j i) (rest at_)),
    (mat_of r q (fun i j => g j i) (rest bt)), (mat_of r p (fun i j => mmul q f g j i) (rest o1)).
  split; [now apply mtx_mult_R|]. split; [now apply mtx_trans_ok|].
  split; [now apply mtx_trans_ok|]. split; [now apply mtx_trans_ok|].
  rewrite mtx_mult_R by auto. rewrite E. do 2 f_equal. apply mat_ext. intros i j _ _.
  unfold mmul. apply bigsum_ext. intros. lra.
Qed.

(** ** Extrema *)
Section Ext.
Variable key : R -> R.
Variable better : R -> R -> bool.
Hypothesis better_key : forall a b, better a b = Rltb (key a) (key b).

Definition scan (g : nat -> R) (s : R * nat) (k' : nat) : R * nat :=
  let '(b, k) := s in if better (g k') b then (g k', k') else (b, k).

Lemma scan_inv (g : nat -> R) n :
  let s := fold_left (scan g) (seq 0 n) (g O, O) in
  fst s = g (snd s) /\ (snd s < n \/ snd s = 0)%nat
  /\ (forall k, (k < n)%nat -> key (fst s) <= key (g k))
  /\ (forall k, (k < snd s)%nat -> key (fst s) < key (g k)).
Proof.
  induction n as [|n IH]; cbn zeta in *.
  - cbn. repeat split; auto; intros; lia.
  - rewrite seq_S, fold_left_app. cbn [fold_left Nat.add].
    destruct (fold_left (scan g) (seq 0 n) (g O, O)) as [b k] eqn:Es.
    cbn [fst snd] in IH. destruct IH as (E1 & E2 & E3 & E4). unfold scan.
    rewrite better_key. destruct (Rltb_spec (key (g n)) (key b)) as [H|H]; cbn [fst snd].
    + split; auto. split; [left; lia|]. split.
      * intros i Hi. destruct (Nat.eq_dec i n) as [->|Hn]; [lra|].
        apply Rle_trans with (key b); [lra|]. apply E3; lia.
      * intros i Hi. apply Rlt_le_trans with (key b); auto.
    + split; auto. split; [lia|]. split; auto.
      intros i Hi. destruct (Nat.eq_dec i n) as [->|Hn]; [lra|]. apply E3; lia.
Qed.

Lemma scan_fst (g : nat -> R) l s :
  fst (fold_left (scan g) l s) = fold_left (pick better) (map g l) (fst s).
Proof.
  revert s; induction l as [|k l IH]; intros [b i]; cbn [fold_left map fst]; auto.
  rewrite IH. f_equal. unfold scan, pick. cbn. now destruct (better (g k) b).
Qed.

Lemma mtx_extreme_R r c (f : nat -> nat -> R) tl :
  (0 < r)%nat -> (0 < c)%nat ->
  exists x, mtx_extreme better (mat_of r c f tl) = Ok (0%Z, x)
  /\ (exists i j, (i < r)%nat /\ (j < c)%nat /\ x = f i j)
  /\ (forall i j, (i < r)%nat -> (j < c)%nat -> key x <= key (f i j)).
Proof.
  intros Hr Hc. rewrite mtx_extreme_ok by auto. eexists; split; [reflexivity|].
  set (g := fun k => f (k / c)%nat (k mod c)%nat).
  pose proof (scan_inv g (r * c)) as H. cbn zeta in H.
  assert (E0 : g O = f O O) by (unfold g; now rewrite Nat.div_0_l, Nat.mod_0_l by lia).
  rewrite scan_fst in H. cbn [fst] in H. rewrite E0 in H.
  set (s := fold_left (scan g) (seq 0 (r * c)) (f O O, O)) in *.
  change (map g (seq 0 (r * c))) with (elems r c f) in H.
  destruct H as (E1 & E2 & E3 & E4). split.
  - assert (L : (snd s < r * c)%nat) by nia.
    destruct (@flat_bounds r c _ L) as (A & B & _). exists (snd s / c)%nat, (snd s mod c)%nat. auto.
  - intros i j Hi Hj. specialize (E3 _ (flat_lt Hi Hj)). unfold g in E3.
    now rewrite flat_div, flat_mod in E3 by auto.
Qed.

Lemma mtx_extreme_idx_R r c (f : nat -> nat -> R) tl :
  (0 < r)%nat -> (0 < c)%nat ->
  exists i j, mtx_extreme_idx better (mat_of r c f tl) = Ok (0%Z, (i, j))
  /\ (i < r)%nat /\ (j < c)%nat
  /\ (forall a b, (a < r)%nat -> (b < c)%nat -> key (f i j) <= key (f a b))
  /\ (forall a b, (a < r)%nat -> (b < c)%nat -> (a < i \/ a = i /\ b < j)%nat ->
        key (f i j) < key (f a b)).
Proof.
  intros Hr Hc. pose proof (mtx_extreme_idx_ok better f tl Hr Hc) as E. cbn zeta in E.
  set (g := fun k => f (k / c)%nat (k mod c)%nat) in *.
  pose proof (scan_inv g (r * c)) as H. cbn zeta in H.
  assert (E0 : g O = f O O) by (unfold g; now rewrite Nat.div_0_l, Nat.mod_0_l by lia).
  rewrite E0 in H. unfold scan in H.
  match type of E with _ = Ok (_, (snd ?x / _, _))%nat => set (s := x) in E end.
  change (fold_left _ _ _) with s in H.
  destruct H as (E1 & E2 & E3 & E4).
  assert (L : (snd s < r * c)%nat) by nia.
  destruct (@flat_bounds r c _ L) as (A & B & C).
  exists (snd s / c)%nat, (snd s mod c)%nat. split; [exact E|]. split; auto. split; auto.
  assert (K : fst s = f (snd s / c)%nat (snd s mod c)%nat) by auto. rewrite <- K. split.
  - intros a b Ha Hb. specialize (E3 _ (flat_lt Ha Hb)). unfold g in E3.
    now rewrite flat_div, flat_mod in E3 by auto.
  - intros a b Ha Hb Hab. assert (Hk : (a * c + b < snd s)%nat) by (rewrite C; nia).
    specialize (E4 _ Hk). unfold g in E4. now rewrite flat_div, flat_mod in E4 by auto.
Qed.
End Ext.

Lemma Rlit_micro : flit (Num := NumR) 1 6 = / 1000000.
Proof. cbn [flit NumR]. change 6%Z with (Z.of_nat 6). rewrite Rlit_frac. cbn. lra. Qed.

Lemma asym_R (a b : R) : asym a b = false <-> Rabs (a - b) < / 1000000.
Proof.
  unfold asym, fge. rewrite Rlit_micro. cbn [fsub fle fneg NumR].
  rewrite orb_false_iff. split.
  - intros (A & B). destruct (Rleb_spec (/ 1000000) (a - b)); [discriminate|].
    destruct (Rleb_spec (a - b) (- / 1000000)); [discriminate|].
    apply Rabs_def1; lra.
  - intros H. apply Rabs_def2 in H. split; apply Rleb_false; lra.
Qed.

(** ** Binary operations without a break *)
Lemma fallthrough_clobbers bc r c (f g : nat -> nat -> R) ta tb mc op :
  room r c mc -> (0 < r)%nat -> (0 < c)%nat ->
  In op [BMin; BMax; BEqual; BNequal; BLess; BGreat; BLeq; BGeq] ->
  exists b', mtx_binary_op bc (mat_of r c f ta) (mat_of r c g tb) mc op
    = Ok ((- ENOSYS)%Z, Mtx r c b')
  /\ b' = upd (mbuf mc) 0 (Some (if Rleb (g O O) (f O O) then 1 else 0)).
Proof.
  intros (Hr & Hc & Hl) H0 H1 Hop. eexists; split; [|reflexivity].
  destruct mc as [r' c' b]. cbn [mrows mcols mbuf] in *. subst r' c'.
  destruct b as [|o b]; [cbn in Hl; nia|].
  pose proof (rd_mat f ta H0 H1) as Ra. pose proof (rd_mat g tb H0 H1) as Rb.
  cbn [Nat.mul Nat.add] in Ra, Rb.
  set (A := mbuf (mat_of r c f ta)) in *. set (B := mbuf (mat_of r c g tb)) in *.
  assert (S1 : forall o, srd [A; B; o :: b] 0 0 = Ok (f O O)) by (intros; exact Ra).
  assert (S2 : forall o, srd [A; B; o :: b] 1 0 = Ok (g O O)) by (intros; exact Rb).
  assert (S3 : forall o x, swr [A; B; o :: b] 2 0 x = Ok [A; B; Some x :: b]) by reflexivity.
  assert (Z : ((c * r)%nat =? 0)%nat = false) by (apply Nat.eqb_neq; nia).
  unfold mtx_binary_op, mtx_binary_op_st.
  change (mrows (mat_of r c f ta)) with r. change (mcols (mat_of r c f ta)) with c.
  change (mrows (mat_of r c g tb)) with r. change (mcols (mat_of r c g tb)) with c.
  cbn [mrows mcols mbuf]. fold A. fold B.
  cbn in Hop.
  repeat (destruct Hop as [<-|Hop]); try contradiction;
    rewrite shape_ok, andb_false_r; cbn [rcols rrows mptr]; rewrite Z;
    cbn [binop_rank Nat.sub skipn fallthrough run_cases];
    repeat (rewrite S1; cbn [bind]; rewrite S2; cbn [bind]; rewrite S3; cbn [bind]);
    reflexivity.
Qed.
