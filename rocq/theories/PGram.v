(** Gram-Schmidt and column normalisation over the reals. *)
From Coq Require Import List Arith ZArith Bool Lia Reals Lra.
From Verif Require Import Base BaseFacts NumR SpecVec SpecReal SpecMtx MVec MMtx MDecomp
  PVec PVecR PMtx PMtxOps PMtxR PFvec.
Import ListNotations.
Set Implicit Arguments.
Local Open Scope R_scope.

Section G.
Variable bc : bool.
Implicit Types f g : nat -> nat -> R.

Definition col f (j : nat) : nat -> R := fun i => f i j.

(** The first t columns of the orthogonalised matrix *)
Definition gcoef r f g t a : R := fdot r (col f t) (col g a) / fdot r (col g a) (col g a).
Fixpoint gsf (r : nat) f (t : nat) : nat -> nat -> R :=
  match t with
  | O => fun _ _ => 0
  | S t' => fun i j => if (j =? t')%nat
                       then f i t' - bigsum t' (fun a => gsf r f t' i a * gcoef r f (gsf r f t') t' a)
                       else gsf r f t' i j
  end.

Lemma gsf_stable r f t j i : (j < t)%nat -> gsf r f t i j = gsf r f (S j) i j.
Proof.
  induction t as [|t IH]; intros H; [lia|].
  destruct (Nat.eq_dec j t) as [->|]; [reflexivity|].
  transitivity (gsf r f t i j); [|apply IH; lia].
  cbn [gsf]. destruct (Nat.eqb_spec j t); [lia|reflexivity].
Qed.

(** Column t in terms of the finished matrix *)
Lemma gsf_col r f c t i :
  (t < c)%nat ->
  gsf r f c i t = f i t - bigsum t (fun a => gsf r f c i a * gcoef r f (gsf r f c) t a).
Proof.
  intros H. rewrite gsf_stable by auto. cbn [gsf]. rewrite Nat.eqb_refl. f_equal.
  apply bigsum_ext. intros a Ha.
  assert (E : forall x, gsf r f t x a = gsf r f c x a).
  { intros x. rewrite (gsf_stable r f x (t := t)), (gsf_stable r f x (t := c)) by lia. reflexivity. }
  rewrite E. f_equal. unfold gcoef.
  rewrite (@fdot_ext r (col f t) (col (gsf r f t) a) (col f t) (col (gsf r f c) a)),
    (@fdot_ext r (col (gsf r f t) a) (col (gsf r f t) a) (col (gsf r f c) a) (col (gsf r f c) a));
    auto; intros; apply E.
Qed.

Definition col_indep (r c : nat) f : Prop :=
  forall x : nat -> R, (forall i, (i < r)%nat -> bigsum c (fun j => f i j * x j) = 0) ->
  forall j, (j < c)%nat -> x j = 0.

Lemma bigsum_pad n k (u : nat -> R) : (k <= n)%nat ->
  bigsum n (fun a => if (a <? k)%nat then u a else 0) = bigsum k u.
Proof.
  intros H. induction n as [|n IH]; [replace k with O by lia; reflexivity|].
  cbn [bigsum]. destruct (Nat.eq_dec k (S n)) as [->|].
  - cbn [bigsum]. destruct (Nat.ltb_spec n (S n)); [|lia]. f_equal.
    apply bigsum_ext. intros a Ha. destruct (Nat.ltb_spec a (S n)); [reflexivity|lia].
  - destruct (Nat.ltb_spec n k); [lia|]. rewrite IH by lia. ring.
Qed.

(** Column t as a combination of input columns up to t *)
Lemma gsf_input r f t :
  exists co : nat -> nat -> R, forall k i, (k < t)%nat ->
    gsf r f t i k = f i k - bigsum k (fun a => co k a * f i a).
Proof.
  induction t as [|t (co & IH)].
  - exists (fun _ _ => 0). intros. lia.
  - (* substitute the earlier columns *)
    pose (m := gcoef r f (gsf r f t) t).
    exists (fun k a => if (k =? t)%nat
       then m a - bigsum t (fun b => if (a <? b)%nat then m b * co b a else 0) else co k a).
    intros k i Hk. cbn [gsf]. destruct (Nat.eqb_spec k t) as [->|Ne].
    + f_equal. fold m.
      transitivity (bigsum t (fun a => (f i a - bigsum t (fun b => if (b <? a)%nat then co a b * f i b else 0)) * m a)).
      { apply bigsum_ext. intros a Ha. rewrite IH by auto. f_equal. f_equal.
        rewrite bigsum_pad with (u := fun b => co a b * f i b) by lia. reflexivity. }
      transitivity (bigsum t (fun a => f i a * m a)
                    - bigsum t (fun a => bigsum t (fun b => (if (b <? a)%nat then co a b * f i b else 0) * m a))).
      { rewrite <- (Rmult_1_l (bigsum t (fun a => bigsum t _))).
        replace (bigsum t (fun a => f i a * m a) - 1 * bigsum t (fun a => bigsum t (fun b => (if (b <? a)%nat then co a b * f i b else 0) * m a)))
          with (bigsum t (fun a => f i a * m a) + (-1) * bigsum t (fun a => bigsum t (fun b => (if (b <? a)%nat then co a b * f i b else 0) * m a))) by ring.
        rewrite bigsum_mult_l, <- bigsum_plus. apply bigsum_ext. intros a Ha.
        rewrite <- bigsum_mult_r. ring. }
      rewrite bigsum_swap.
      replace (bigsum t (fun a => (m a - bigsum t (fun b => if (a <? b)%nat then m b * co b a else 0)) * f i a))
        with (bigsum t (fun a => f i a * m a) + (-1) * bigsum t (fun a => bigsum t (fun b => if (a <? b)%nat then m b * co b a else 0) * f i a)).
      2:{ rewrite bigsum_mult_l, <- bigsum_plus. apply bigsum_ext. intros. ring. }
      unfold Rminus. f_equal.
      replace (- bigsum t (fun j => bigsum t (fun i0 => (if (j <? i0)%nat then co i0 j * f i j else 0) * m i0)))
        with (-1 * bigsum t (fun j => bigsum t (fun i0 => (if (j <? i0)%nat then co i0 j * f i j else 0) * m i0))) by ring.
      f_equal. apply bigsum_ext. intros a Ha. rewrite bigsum_mult_r. apply bigsum_ext. intros b Hb.
      destruct (a <? b)%nat; ring.
    + apply IH. lia.
Qed.

Lemma gsf_nonzero r c f t :
  col_indep r c f -> (t < c)%nat -> fdot r (col (gsf r f c) t) (col (gsf r f c) t) <> 0.
Proof.
  intros I Ht H0. pose proof (@fdot_self_0 _ _ H0) as Z.
  destruct (gsf_input r f c) as (co & Hco).
  pose (x := fun j => if (j <? t)%nat then - co t j else if (j =? t)%nat then 1 else 0).
  assert (X : x t = 0).
  { apply (I x); auto. intros i Hi. specialize (Z i Hi). unfold col in Z.
    rewrite Hco in Z by auto.
    transitivity (bigsum c (fun j => (if (j <? t)%nat then - (co t j * f i j) else 0))
                  + bigsum c (fun j => if (j =? t)%nat then f i j else 0)).
    - rewrite <- bigsum_plus. apply bigsum_ext. intros j Hj. unfold x.
      destruct (Nat.ltb_spec j t), (Nat.eqb_spec j t); try lia; ring.
    - rewrite (bigsum_delta c (fun j => f i j) t Ht).
      rewrite bigsum_pad with (u := fun j => - (co t j * f i j)) by lia.
      replace (bigsum t (fun j => - (co t j * f i j))) with (-1 * bigsum t (fun j => co t j * f i j)).
      + lra.
      + rewrite bigsum_mult_l. apply bigsum_ext. intros. ring. }
  unfold x in X. destruct (Nat.ltb_spec t t); [lia|]. rewrite Nat.eqb_refl in X. lra.
Qed.

Lemma gsf_orth_lt r c f :
  col_indep r c f -> forall b, (b < c)%nat -> forall a, (a < b)%nat ->
  fdot r (col (gsf r f c) a) (col (gsf r f c) b) = 0.
Proof.
  intros I b. induction b as [b IH] using lt_wf_ind. intros Hb a Ha.
  set (g := gsf r f c).
  transitivity (fdot r (col g a) (col f b)
     - bigsum b (fun k => fdot r (col g a) (col g k) * gcoef r f g b k)).
  - unfold fdot at 1. transitivity (bigsum r (fun i => col g a i * col f b i
        - bigsum b (fun k => col g a i * col g k i * gcoef r f g b k))).
    + apply bigsum_ext. intros i Hi. unfold col at 2. unfold g at 2. rewrite gsf_col by auto. fold g.
      unfold Rminus. rewrite Rmult_plus_distr_l. f_equal.
      rewrite <- Ropp_mult_distr_r, bigsum_mult_l. f_equal. apply bigsum_ext. intros. unfold col. ring.
    + transitivity (bigsum r (fun i => col g a i * col f b i)
         + -1 * bigsum r (fun i => bigsum b (fun k => col g a i * col g k i * gcoef r f g b k))).
      { rewrite bigsum_mult_l, <- bigsum_plus. apply bigsum_ext. intros. ring. }
      rewrite bigsum_swap. unfold fdot. unfold Rminus. f_equal.
      rewrite bigsum_mult_l. rewrite <- (Rmult_1_l (bigsum b (fun k => bigsum r _ * _))) .
      rewrite Ropp_mult_distr_l, bigsum_mult_l. apply bigsum_ext. intros k Hk. rewrite bigsum_mult_r. ring.
  - rewrite (bigsum_ext b _ (fun k => if (k =? a)%nat then fdot r (col g k) (col g k) * gcoef r f g b k else 0)).
    + rewrite bigsum_delta by exact Ha. unfold gcoef. rewrite (fdot_comm r (col f b)).
      assert (fdot r (col g a) (col g a) <> 0) by (apply gsf_nonzero; auto; lia).
      field. exact H.
    + intros k Hk. destruct (Nat.eqb_spec k a) as [->|Ne]; [reflexivity|].
      destruct (Nat.lt_total k a) as [L|[L|L]]; [|lia|].
      * rewrite fdot_comm. unfold g. rewrite IH by lia. ring.
      * unfold g. rewrite IH by lia. ring.
Qed.

Lemma gsf_orth r c f a b :
  col_indep r c f -> (a < c)%nat -> (b < c)%nat -> a <> b ->
  fdot r (col (gsf r f c) a) (col (gsf r f c) b) = 0.
Proof.
  intros I Ha Hb Ne. destruct (Nat.lt_total a b) as [L|[L|L]]; [|lia|].
  - apply gsf_orth_lt; auto.
  - rewrite fdot_comm. apply gsf_orth_lt; auto.
Qed.

Lemma gram_schmidt_run r c f tl mort :
  room r c mort -> col_indep r c f ->
  mtx_gram_schmidt bc (mat_of r c f tl) mort = Ok (0%Z, mat_of r c (gsf r f c) (rest mort)).
Proof.
  intros Hm I. destruct (room_otab Hm) as (F0 & EF). unfold mtx_gram_schmidt.
  change (mrows (mat_of r c f tl)) with r. change (mcols (mat_of r c f tl)) with c.
  set (body := fun t '(mort, v, w) => _).
  set (P := fun t (s : mtx R * vec R * vec R) => let '(mo, v, w) := s in
     length (vbuf v) = r /\ length (vbuf w) = r /\
     mo = otab r c (fun i j => if (j <? t)%nat then Some (gsf r f c i j) else F0 i j) (rest mort)).
  destruct (@for_inv _ P c 0%nat body (mort, vec_def r, vec_def r)) as (((mo & v) & w) & E & _ & _ & ->).
  - cbn. rewrite !fresh_length. split; [reflexivity|split; [reflexivity|exact EF]].
  - intros t ((mo & v) & w) Ht (Lv & Lw & ->). unfold body. rewrite vec_init_def. cbn [bind].
    rewrite get_col_fvec by lia. cbn [bind]. rewrite skipn_all2 by lia.
    set (mo := otab r c _ _).
    match goal with |- context [for_ t 0 ?b ?s] => set (inner := b) end.
    destruct (@for_inv _ (fun k (s : vec R * vec R) => let '(w, q) := s in
        length (vbuf w) = r /\
        q = fvec r (fun i => bigsum k (fun a => gsf r f c i a * gcoef r f (gsf r f c) t a)) []) t 0%nat inner
        (w, fvec r (fun _ => 0) [])) as ((w' & q') & E & Lw' & ->).
    + split; auto.
    + intros k (w1 & q1) Hk (Lw1 & ->). unfold inner, mo.
      rewrite get_col_otab with (u := col (gsf r f c) k); [|lia|lia|].
      2:{ intros i Hi. destruct (Nat.ltb_spec k t); [reflexivity|lia]. }
      rewrite skipn_all2 by lia. cbn [bind].
      change (Vec r (vbuf (fvec r (col (gsf r f c) k) []))) with (fvec r (col (gsf r f c) k) []).
      change (Vec r (vbuf (fvec r (fun i => f i t) []))) with (fvec r (col f t) []).
      rewrite vec_project_d_f by (apply gsf_nonzero; auto; lia). cbn [bind].
      rewrite vec_zip_d_f. cbn [bind]. eexists. split; [reflexivity|].
      split; [unfold fvec; cbn [vbuf]; rewrite app_length, cells_length, tab_length; cbn; lia|].
      reflexivity.
    + match goal with |- context [for_ t 0 ?b ?s] => change (for_ t 0 b s) with (for_ t 0 inner s) end.
      rewrite E. cbn [bind Nat.add].
      change (Vec r (vbuf (fvec r (fun i => f i t) []))) with (fvec r (col f t) []).
      rewrite vec_zip_d_f. cbn [bind]. unfold mo. rewrite set_col_fvec by lia. cbn [bind].
      eexists. split; [reflexivity|]. unfold P.
      split; [unfold fvec; cbn [vbuf]; rewrite app_length, cells_length, tab_length; cbn; lia|].
      split; auto. apply otab_ext. intros i j Hi Hj.
      destruct (Nat.eqb_spec j t) as [->|Ne].
      * destruct (Nat.ltb_spec t (S t)); [|lia]. f_equal. unfold col at 1. rewrite (gsf_col r f i) by lia.
        reflexivity.
      * destruct (Nat.ltb_spec j t), (Nat.ltb_spec j (S t)); try lia; reflexivity.
  - match goal with |- context [for_ c 0 ?b ?s] => change (for_ c 0 b s) with (for_ c 0 body s) end.
    rewrite E. cbn [bind Nat.add]. f_equal. f_equal. apply otab_mat. intros i j Hi Hj.
    destruct (Nat.ltb_spec j c); [reflexivity|lia].
Qed.

(** * The theorem *)
Lemma gram_schmidt_ok r c f tl mort :
  room r c mort -> col_indep r c f ->
  exists g, mtx_gram_schmidt bc (mat_of r c f tl) mort = Ok (0%Z, mat_of r c g (rest mort))
  /\ (forall a b, (a < c)%nat -> (b < c)%nat -> a <> b -> bigsum r (fun i => g i a * g i b) = 0)
  /\ (forall k, (k < c)%nat -> exists i, (i < r)%nat /\ g i k <> 0)
  /\ (forall k, (k < c)%nat -> exists co : nat -> R, forall i, (i < r)%nat ->
        g i k = f i k - bigsum k (fun a => co a * g i a))
  /\ (forall k, (k < c)%nat -> exists co : nat -> R, forall i, (i < r)%nat ->
        g i k = f i k - bigsum k (fun a => co a * f i a)).
Proof.
  intros Hm I. exists (gsf r f c). split; [apply gram_schmidt_run; auto|]. split; [|split; [|split]].
  - intros a b Ha Hb Ne. apply (gsf_orth I Ha Hb Ne).
  - intros k Hk. pose proof (gsf_nonzero I Hk) as Nz.
    destruct (Classical_Prop.classic (exists i, (i < r)%nat /\ gsf r f c i k <> 0)) as [|N]; auto.
    exfalso. apply Nz. unfold fdot. transitivity (bigsum r (fun _ => 0)); [|apply bigsum_0].
    apply bigsum_ext. intros i Hi. unfold col.
    destruct (Req_dec (gsf r f c i k) 0) as [->|Ne]; [ring|]. exfalso. apply N. eauto.
  - intros k Hk. exists (gcoef r f (gsf r f c) k). intros i Hi. rewrite gsf_col by auto. f_equal.
    apply bigsum_ext. intros. ring.
  - intros k Hk. destruct (gsf_input r f c) as (co & Hco). exists (co k). intros i Hi. apply Hco; auto.
Qed.

Lemma cols_norm_ok r c f tl mn :
  room r c mn -> (forall k, (k < c)%nat -> exists i, (i < r)%nat /\ f i k <> 0) ->
  mtx_cols_norm bc (mat_of r c f tl) mn
  = Ok (0%Z, mat_of r c (fun i k => f i k / sqrt (bigsum r (fun a => f a k * f a k))) (rest mn)).
Proof.
  intros Hm Nz. destruct (room_otab Hm) as (F0 & EF). unfold mtx_cols_norm.
  change (mrows (mat_of r c f tl)) with r. change (mcols (mat_of r c f tl)) with c.
  match goal with |- context [for_ c 0 ?b ?s] => set (body := b) end.
  set (h := fun i k => f i k / sqrt (bigsum r (fun a => f a k * f a k))).
  set (P := fun t (s : mtx R * vec R) => let '(mo, v) := s in
     length (vbuf v) = r /\
     mo = otab r c (fun i j => if (j <? t)%nat then Some (h i j) else F0 i j) (rest mn)).
  destruct (@for_inv _ P c 0%nat body (mn, vec_def r)) as ((mo & v) & E & _ & ->).
  - cbn. rewrite fresh_length. split; [reflexivity|exact EF].
  - intros t (mo & v) Ht (Lv & ->). unfold body.
    rewrite get_col_fvec by lia. cbn [bind]. rewrite skipn_all2 by lia.
    change (Vec r (vbuf (fvec r (fun i => f i t) []))) with (fvec r (col f t) []).
    rewrite vec_to_unit_f.
    + cbn [bind]. rewrite set_col_fvec by lia. cbn [bind]. eexists. split; [reflexivity|]. unfold P.
      split; [unfold fvec; cbn [vbuf]; rewrite app_length, cells_length, tab_length; cbn; lia|].
      apply otab_ext. intros i j Hi Hj. destruct (Nat.eqb_spec j t) as [->|Ne].
      * destruct (Nat.ltb_spec t (S t)); [|lia]. reflexivity.
      * destruct (Nat.ltb_spec j t), (Nat.ltb_spec j (S t)); try lia; reflexivity.
    + intros Z. destruct (Nz t) as (i & Hi & Ni); [lia|]. apply Ni. exact (@fdot_self_0 _ _ Z i Hi).
  - match goal with |- context [for_ c 0 ?b ?s] => change (for_ c 0 b s) with (for_ c 0 body s) end.
    rewrite E. cbn [bind Nat.add]. f_equal. f_equal. apply otab_mat. intros i j Hi Hj.
    destruct (Nat.ltb_spec j c); [reflexivity|lia].
Qed.

Lemma cols_norm_spec r c f tl mn :
  room r c mn -> (forall k, (k < c)%nat -> exists i, (i < r)%nat /\ f i k <> 0) ->
  exists g, mtx_cols_norm bc (mat_of r c f tl) mn = Ok (0%Z, mat_of r c g (rest mn))
  /\ (forall k, (k < c)%nat -> bigsum r (fun i => g i k * g i k) = 1)
  /\ (forall k, (k < c)%nat -> exists s, 0 < s /\ forall i, (i < r)%nat -> f i k = s * g i k).
Proof.
  intros Hm Hz. eexists. split; [apply cols_norm_ok; auto|]. cbv beta.
  assert (P : forall k, (k < c)%nat -> 0 < bigsum r (fun a => f a k * f a k)).
  { intros k Hk. destruct (Hz k Hk) as (i & Hi & N).
    destruct (Rle_lt_or_eq_dec 0 (bigsum r (fun a => f a k * f a k))) as [|E]; auto.
    - change (0 <= fdot r (col f k) (col f k)). apply fdot_self_nonneg.
    - exfalso. apply N. exact (@fdot_self_0 r (col f k) (eq_sym E) i Hi). }
  split.
  - intros k Hk. specialize (P k Hk). set (s := bigsum r _) in *.
    rewrite (@bigsum_ext r _ (fun i => / s * (f i k * f i k))).
    + rewrite <- bigsum_mult_l. fold s. field. lra.
    + intros i Hi. rewrite <- (sqrt_sqrt s) at 3 by lra. field. apply Rgt_not_eq, sqrt_lt_R0. exact P.
  - intros k Hk. specialize (P k Hk). set (s := bigsum r _) in *. exists (sqrt s).
    split; [now apply sqrt_lt_R0|]. intros i Hi. field. apply Rgt_not_eq, sqrt_lt_R0. exact P.
Qed.
End G.
