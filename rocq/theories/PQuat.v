(** Proofs about the quaternion model, in real arithmetic. *)
From Coq Require Import List Arith ZArith Bool Reals Lra Lia.
From Verif Require Import Base BaseFacts NumR Libm LibmR RTac Out MVec SpecVec SpecReal PVec PVecR
  MMtx MQuat SpecQuat.
Import ListNotations.
Local Open Scope R_scope.

Notation qmem := (qmem (T := R)).
Implicit Types (p q a b : quat R) (st : qmem).

Lemma quat_eq q w x y z : qr q = w -> qi q = x -> qj q = y -> qk q = z -> q = Quat w x y z.
Proof. destruct q. cbn. now intros -> -> -> ->. Qed.

(** field writes *)
Lemma upd_twice (A : Type) (l : list A) i x y : upd (upd l i x) i y = upd l i y.
Proof. revert i. induction l; destruct i; cbn; congruence. Qed.
Lemma nth_error_upd (A : Type) (l : list A) i j x :
  (i < length l)%nat ->
  nth_error (upd l i x) j = if Nat.eq_dec i j then Some x else nth_error l j.
Proof.
  revert i j. induction l as [|a l IH]; intros i j H; cbn in H; [lia|].
  destruct i, j; cbn [upd nth_error]; try reflexivity.
  rewrite IH by lia.
  destruct (Nat.eq_dec i j), (Nat.eq_dec (S i) (S j)); try reflexivity; lia.
Qed.
Lemma qget_ok st i q : nth_error st i = Some q -> qget st i = Ok q.
Proof. intros H. unfold qget. now rewrite H. Qed.
Lemma qget_upd st i q : (i < length st)%nat -> qget (upd st i q) i = Ok q.
Proof.
  intros H. unfold qget. rewrite nth_error_upd by exact H. now destruct (Nat.eq_dec i i).
Qed.
Lemma qget_upd_ne st i j q : i <> j -> qget (upd st i q) j = qget st j.
Proof.
  intros H. unfold qget. destruct (Nat.ltb_spec i (length st)).
  - rewrite nth_error_upd by lia. now destruct (Nat.eq_dec i j).
  - f_equal. replace (upd st i q) with st; [reflexivity|].
    clear H. revert i H0. induction st as [|s st IH]; intros i H; cbn in *; [reflexivity|].
    destruct i; [lia|]. f_equal. apply IH. lia.
Qed.
Lemma nth_error_lt (A : Type) (l : list A) i x : nth_error l i = Some x -> (i < length l)%nat.
Proof. intros H. apply nth_error_Some. congruence. Qed.

Lemma set_r_ok st i w x y z c :
  qget st i = Ok (Quat w x y z) -> set_r st i c = Ok (upd st i (Quat c x y z)).
Proof. intros H. unfold set_r. now rewrite H. Qed.
Lemma set_i_ok st i w x y z c :
  qget st i = Ok (Quat w x y z) -> set_i st i c = Ok (upd st i (Quat w c y z)).
Proof. intros H. unfold set_i. now rewrite H. Qed.
Lemma set_j_ok st i w x y z c :
  qget st i = Ok (Quat w x y z) -> set_j st i c = Ok (upd st i (Quat w x c z)).
Proof. intros H. unfold set_j. now rewrite H. Qed.
Lemma set_k_ok st i w x y z c :
  qget st i = Ok (Quat w x y z) -> set_k st i c = Ok (upd st i (Quat w x y c)).
Proof. intros H. unfold set_k. now rewrite H. Qed.

Ltac qwrite L :=
  match goal with
  | |- context [set_r _ _ _] => erewrite set_r_ok
  | |- context [set_i _ _ _] => erewrite set_i_ok
  | |- context [set_j _ _ _] => erewrite set_j_ok
  | |- context [set_k _ _ _] => erewrite set_k_ok
  end; [|first [eassumption | apply qget_upd; rewrite ?upd_length; exact L]].

(** ** Product *)
Lemma quat_mult_st_ok st ia ib im_ a b :
  nth_error st ia = Some a -> nth_error st ib = Some b -> (im_ < length st)%nat ->
  quat_mult_st st ia ib im_ = Ok (0%Z, upd st im_ (hprod a b)).
Proof.
  intros Ha Hb Hm. unfold quat_mult_st. rewrite (qget_ok _ _ _ Ha), (qget_ok _ _ _ Hb).
  cbn [bind]. destruct a as [ar ai aj ak], b as [br bi bj bk]. cbn [qr qi qj qk].
  assert (E : exists w x y z, qget st im_ = Ok (Quat w x y z)).
  { unfold qget. destruct (nth_error st im_) as [[w x y z]|] eqn:E.
    - now exists w, x, y, z.
    - apply nth_error_None in E. lia. }
  destruct E as (w & x & y & z & E).
  erewrite set_i_ok by exact E. cbn [bind].
  erewrite set_j_ok by (apply qget_upd; exact Hm). cbn [bind]. rewrite upd_twice.
  erewrite set_k_ok by (apply qget_upd; exact Hm). cbn [bind]. rewrite upd_twice.
  erewrite set_r_ok by (apply qget_upd; exact Hm). cbn [bind]. rewrite upd_twice.
  do 2 f_equal. f_equal. unfold hprod. cbn. f_equal; ring.
Qed.

Lemma quat_mult_ok a b : quat_mult a b = Ok (hprod a b).
Proof.
  unfold quat_mult. erewrite quat_mult_st_ok by (cbn; first [reflexivity | lia]). reflexivity.
Qed.

(** ** Field-by-field maps: scaling, conjugation, division *)
Section Fields.
Variables (f g h k : R -> R).
Definition fmap q : quat R := Quat (f (qr q)) (g (qi q)) (h (qj q)) (k (qk q)).

Lemma fields_ok st ia io a :
  nth_error st ia = Some a -> (io < length st)%nat ->
  (let! v := qget st ia in let! st := set_r st io (f (qr v)) in
   let! v := qget st ia in let! st := set_i st io (g (qi v)) in
   let! v := qget st ia in let! st := set_j st io (h (qj v)) in
   let! v := qget st ia in let! st := set_k st io (k (qk v)) in
   Ok (0%Z, st)) = Ok (0%Z, upd st io (fmap a)).
Proof.
  intros Ha Ho. destruct a as [w x y z].
  destruct (Nat.eq_dec io ia) as [->|D].
  - rewrite (qget_ok _ _ _ Ha). cbn [bind qr qi qj qk].
    erewrite set_r_ok by (apply qget_ok; exact Ha). cbn [bind].
    rewrite qget_upd by exact Ho. cbn [bind qr qi qj qk].
    erewrite set_i_ok by (apply qget_upd; exact Ho). cbn [bind]. rewrite upd_twice.
    rewrite qget_upd by exact Ho. cbn [bind qr qi qj qk].
    erewrite set_j_ok by (apply qget_upd; exact Ho). cbn [bind]. rewrite upd_twice.
    rewrite qget_upd by exact Ho. cbn [bind qr qi qj qk].
    erewrite set_k_ok by (apply qget_upd; exact Ho). cbn [bind]. now rewrite upd_twice.
  - assert (E : exists w x y z, qget st io = Ok (Quat w x y z)).
    { unfold qget. destruct (nth_error st io) as [[w' x' y' z']|] eqn:E.
      - now exists w', x', y', z'.
      - apply nth_error_None in E. lia. }
    destruct E as (w' & x' & y' & z' & E).
    rewrite (qget_ok _ _ _ Ha). cbn [bind qr qi qj qk].
    erewrite set_r_ok by exact E. cbn [bind].
    rewrite qget_upd_ne by exact D. rewrite (qget_ok _ _ _ Ha). cbn [bind qr qi qj qk].
    erewrite set_i_ok by (apply qget_upd; exact Ho). cbn [bind]. rewrite upd_twice.
    rewrite qget_upd_ne by exact D. rewrite (qget_ok _ _ _ Ha). cbn [bind qr qi qj qk].
    erewrite set_j_ok by (apply qget_upd; exact Ho). cbn [bind]. rewrite upd_twice.
    rewrite qget_upd_ne by exact D. rewrite (qget_ok _ _ _ Ha). cbn [bind qr qi qj qk].
    erewrite set_k_ok by (apply qget_upd; exact Ho). cbn [bind]. now rewrite upd_twice.
Qed.
End Fields.

Lemma quat_scale_st_ok st ia io s a :
  nth_error st ia = Some a -> (io < length st)%nat ->
  quat_scale_st st ia s io = Ok (0%Z, upd st io (qscale s a)).
Proof.
  intros Ha Ho. unfold quat_scale_st.
  etransitivity; [exact (fields_ok (fun x => x * s) (fun x => x * s) (fun x => x * s)
             (fun x => x * s) st ia io a Ha Ho)|].
  do 2 f_equal. destruct a. unfold fmap, qscale. cbn. f_equal. f_equal; ring.
Qed.
Lemma quat_scale_ok s a : quat_scale a s = Ok (qscale s a).
Proof. unfold quat_scale. erewrite quat_scale_st_ok by (cbn; first [reflexivity|lia]). reflexivity. Qed.

Lemma quat_conj_st_ok st ia io a :
  nth_error st ia = Some a -> (io < length st)%nat ->
  quat_conj_st st ia io = Ok (0%Z, upd st io (qconj a)).
Proof.
  intros Ha Ho. unfold quat_conj_st. rops.
  etransitivity; [exact (fields_ok (fun x => x) (fun x => x * - (10 / 10))
             (fun x => x * - (10 / 10)) (fun x => x * - (10 / 10)) st ia io a Ha Ho)|].
  do 2 f_equal. destruct a. unfold fmap, qconj. cbn. f_equal. f_equal; field.
Qed.
Lemma quat_conj_ok a : quat_conj a = Ok (qconj a).
Proof. unfold quat_conj. erewrite quat_conj_st_ok by (cbn; first [reflexivity|lia]). reflexivity. Qed.

(** ** Magnitude *)
Lemma qdot_nonneg q : 0 <= qdot q q.
Proof. destruct q. unfold qdot. cbn. nra. Qed.
Lemma quat_magn_ok q : quat_magn q = Ok (qnorm q).
Proof.
  unfold quat_magn. rops. pose proof (qdot_nonneg q) as H. unfold qnorm.
  assert (E : qr q * qr q + qi q * qi q + qj q * qj q + qk q * qk q = qdot q q)
    by (destruct q; unfold qdot; cbn; ring).
  rewrite E. now apply Rsqrto_ok.
Qed.
Lemma qnorm_nonneg q : 0 <= qnorm q.
Proof. apply sqrt_pos. Qed.
Lemma qnorm_sqr q : qnorm q * qnorm q = qdot q q.
Proof. apply sqrt_sqrt, qdot_nonneg. Qed.
Lemma qnorm_unit q : unit_quat q -> qnorm q = 1.
Proof. intros H. unfold qnorm. rewrite H. apply sqrt_1. Qed.
Lemma qnorm_unit_iff q : qnorm q = 1 <-> unit_quat q.
Proof.
  split; [|apply qnorm_unit]. intros H. unfold unit_quat. rewrite <- qnorm_sqr, H. ring.
Qed.
Lemma qdot_hprod a b : qdot (hprod a b) (hprod a b) = qdot a a * qdot b b.
Proof. destruct a, b. unfold qdot, hprod. cbn. ring. Qed.
Lemma qnorm_hprod a b : qnorm (hprod a b) = qnorm a * qnorm b.
Proof. unfold qnorm. rewrite qdot_hprod. apply sqrt_mult; apply qdot_nonneg. Qed.
Lemma qdot_scale s a : qdot (qscale s a) (qscale s a) = s * s * qdot a a.
Proof. destruct a. unfold qdot, qscale. cbn. ring. Qed.
Lemma hprod_assoc a b c : hprod (hprod a b) c = hprod a (hprod b c).
Proof. destruct a, b, c. unfold hprod. cbn. f_equal; ring. Qed.
Lemma hprod_1_l a : hprod qone a = a.
Proof. destruct a. unfold hprod. cbn. f_equal; ring. Qed.
Lemma hprod_1_r a : hprod a qone = a.
Proof. destruct a. unfold hprod. cbn. f_equal; ring. Qed.
Lemma qconj_hprod a b : qconj (hprod a b) = hprod (qconj b) (qconj a).
Proof. destruct a, b. unfold hprod, qconj. cbn. f_equal; ring. Qed.
Lemma hprod_conj a : hprod a (qconj a) = qscale (qdot a a) qone.
Proof. destruct a. unfold hprod, qconj, qscale, qdot. cbn. f_equal; ring. Qed.
Lemma conj_hprod a : hprod (qconj a) a = qscale (qdot a a) qone.
Proof. destruct a. unfold hprod, qconj, qscale, qdot. cbn. f_equal; ring. Qed.
Lemma qscale_qscale s t a : qscale s (qscale t a) = qscale (s * t) a.
Proof. destruct a. unfold qscale. cbn. f_equal; ring. Qed.
Lemma qscale_1 a : qscale 1 a = a.
Proof. destruct a. unfold qscale. cbn. f_equal; ring. Qed.
Lemma hprod_scale_l s a b : hprod (qscale s a) b = qscale s (hprod a b).
Proof. destruct a, b. unfold hprod, qscale. cbn. f_equal; ring. Qed.
Lemma hprod_scale_r s a b : hprod a (qscale s b) = qscale s (hprod a b).
Proof. destruct a, b. unfold hprod, qscale. cbn. f_equal; ring. Qed.
Lemma qconj_unit a : unit_quat a -> unit_quat (qconj a).
Proof. destruct a. unfold unit_quat, qdot, qconj. cbn. intros <-. ring. Qed.
Lemma qdot_unit_bounds a b : unit_quat a -> unit_quat b -> -1 <= qdot a b <= 1.
Proof.
  intros Ha Hb.
  assert (H : 0 <= qdot (qplus a b) (qplus a b)) by apply qdot_nonneg.
  assert (H' : 0 <= qdot (qplus a (qscale (-1) b)) (qplus a (qscale (-1) b))) by apply qdot_nonneg.
  assert (E : qdot (qplus a b) (qplus a b) = qdot a a + qdot b b + 2 * qdot a b)
    by (destruct a, b; unfold qdot, qplus; cbn; ring).
  assert (E' : qdot (qplus a (qscale (-1) b)) (qplus a (qscale (-1) b))
               = qdot a a + qdot b b - 2 * qdot a b)
    by (destruct a, b; unfold qdot, qplus, qscale; cbn; ring).
  unfold unit_quat in *. lra.
Qed.

(** ** Normalisation and inverse *)
Definition unitised q : quat R :=
  if Rlt_dec (qnorm q) (/ 1000000) then qzero else qscale (/ qnorm q) q.
Lemma unitised_small q : qnorm q < / 1000000 -> unitised q = qzero.
Proof. intros H. unfold unitised. now destruct (Rlt_dec _ _). Qed.
Lemma unitised_big q : / 1000000 <= qnorm q -> unitised q = qscale (/ qnorm q) q.
Proof. intros H. unfold unitised. destruct (Rlt_dec _ _); [lra|reflexivity]. Qed.

Lemma quat_to_unit_st_ok st ia io a :
  nth_error st ia = Some a -> (io < length st)%nat ->
  quat_to_unit_st st ia io = Ok (0%Z, upd st io (unitised a)).
Proof.
  intros Ha Ho. unfold quat_to_unit_st. rewrite (qget_ok _ _ _ Ha). cbn [bind].
  rewrite quat_magn_ok. cbn [bind]. rops.
  pose proof (qnorm_nonneg a) as Hn. rewrite (Rabs_right (qnorm a)) by lra.
  unfold unitised. destruct (Rltb_spec (qnorm a) (1 / 1000000)).
  - destruct (Rlt_dec _ _); [|lra].
    pose proof (fields_ok (fun _ => 0) (fun _ => 0) (fun _ => 0) (fun _ => 0) st ia io a Ha Ho) as E.
    etransitivity; [|exact E].
    assert (L : (ia < length st)%nat) by (eapply nth_error_lt; exact Ha).
    assert (G : forall (s s' : qmem) c, length s = length st ->
       (set_r s io c = Ok s' \/ set_i s io c = Ok s' \/ set_j s io c = Ok s' \/ set_k s io c = Ok s') ->
       length s' = length st).
    { unfold set_r, set_i, set_j, set_k. intros s s' c Hl H.
      destruct (qget s io); cbn in H; destruct H as [H|[H|[H|H]]]; try discriminate H;
        injection H as <-; rewrite upd_length; exact Hl. }
    assert (X : forall s : qmem, length s = length st -> exists b, nth_error s ia = Some b).
    { intros s Hs. destruct (nth_error s ia) eqn:E'; [eauto|]. apply nth_error_None in E'. lia. }
    destruct (X st eq_refl) as [b0 B0]. rewrite (qget_ok _ _ _ B0). cbn [bind].
    destruct (set_r st io 0) as [s1| | |] eqn:E1; cbn [bind]; try reflexivity.
    assert (L1 : length s1 = length st) by (apply (G st s1 0); auto).
    destruct (X s1 L1) as [b1 B1]. rewrite (qget_ok _ _ _ B1). cbn [bind].
    destruct (set_i s1 io 0) as [s2| | |] eqn:E2; cbn [bind]; try reflexivity.
    assert (L2 : length s2 = length st) by (apply (G s1 s2 0); auto).
    destruct (X s2 L2) as [b2 B2]. rewrite (qget_ok _ _ _ B2). cbn [bind].
    destruct (set_j s2 io 0) as [s3| | |] eqn:E3; cbn [bind]; try reflexivity.
    assert (L3 : length s3 = length st) by (apply (G s2 s3 0); auto).
    destruct (X s3 L3) as [b3 B3]. rewrite (qget_ok _ _ _ B3). cbn [bind]. reflexivity.
  - destruct (Rlt_dec _ _); [lra|].
    pose proof (fields_ok (fun x => x / qnorm a) (fun x => x / qnorm a) (fun x => x / qnorm a)
                  (fun x => x / qnorm a) st ia io a Ha Ho) as E.
    etransitivity; [|etransitivity; [exact E|]].
    + assert (D : forall x, Rdivo x (qnorm a) = Ok (x / qnorm a)) by (intros x; apply Rdivo_ok; lra).
      assert (B : forall (A C : Type) (m : outcome A) (k k' : A -> outcome C),
                  (forall x, k x = k' x) -> bind m k = bind m k')
        by (intros A C m k k' Hk; destruct m; cbn; auto).
      rewrite (qget_ok _ _ _ Ha). cbn [bind]. rewrite D. cbn [bind]. apply B; intros s1.
      apply B; intros v2. rewrite D. cbn [bind]. apply B; intros s2.
      apply B; intros v3. rewrite D. cbn [bind]. apply B; intros s3.
      apply B; intros v4. rewrite D. cbn [bind]. reflexivity.
    + do 2 f_equal. destruct a. unfold fmap, qscale. cbn. f_equal. f_equal; apply Rmult_comm.
Qed.
Lemma quat_to_unit_ok a : quat_to_unit a = Ok (unitised a).
Proof.
  unfold quat_to_unit. erewrite quat_to_unit_st_ok by (cbn; first [reflexivity|lia]). reflexivity.
Qed.

Lemma unitised_unit q : / 1000000 <= qnorm q -> unit_quat (unitised q).
Proof.
  intros H. rewrite unitised_big by exact H. unfold unit_quat. rewrite qdot_scale.
  rewrite <- qnorm_sqr. field. lra.
Qed.
Lemma unitised_of_unit q : unit_quat q -> unitised q = q.
Proof.
  intros H. pose proof (qnorm_unit q H) as E. rewrite unitised_big by lra.
  rewrite E, Rinv_1. apply qscale_1.
Qed.

Definition inverted q : quat R :=
  if Rlt_dec (qnorm q) (/ 1000000) then qzero else qscale (/ qdot q q) (qconj q).

Lemma quat_inv_st_ok st ia io a :
  nth_error st ia = Some a -> (io < length st)%nat ->
  quat_inv_st st ia io = Ok (0%Z, upd st io (inverted a)).
Proof.
  intros Ha Ho. pose proof (quat_to_unit_st_ok st ia io a Ha Ho) as U.
  unfold quat_to_unit_st in U. unfold quat_inv_st.
  rewrite (qget_ok _ _ _ Ha) in *. cbn [bind] in *.
  rewrite quat_magn_ok in *. cbn [bind] in *. revert U. rops.
  pose proof (qnorm_nonneg a) as Hn. rewrite (Rabs_right (qnorm a)) by lra.
  unfold inverted, unitised. destruct (Rltb_spec (qnorm a) (1 / 1000000)); intros U.
  - destruct (Rlt_dec _ _); [|lra]. exact U.
  - destruct (Rlt_dec _ _); [lra|]. clear U.
    pose proof (fields_ok (fun x => x / (qnorm a * qnorm a)) (fun x => x / - (qnorm a * qnorm a))
                  (fun x => x / - (qnorm a * qnorm a))
                  (fun x => x / - (qnorm a * qnorm a)) st ia io a Ha Ho) as E.
    assert (P : 0 < qnorm a * qnorm a) by nra.
    etransitivity; [|etransitivity; [exact E|]].
    + assert (D : forall x, Rdivo x (qnorm a * qnorm a) = Ok (x / (qnorm a * qnorm a)))
        by (intros x; apply Rdivo_ok; lra).
      assert (D' : forall x, Rdivo x (- (qnorm a * qnorm a)) = Ok (x / - (qnorm a * qnorm a)))
        by (intros x; apply Rdivo_ok; lra).
      assert (B : forall (A C : Type) (m : outcome A) (k k' : A -> outcome C),
                  (forall x, k x = k' x) -> bind m k = bind m k')
        by (intros A C m k k' Hk; destruct m; cbn; auto).
      rewrite (qget_ok _ _ _ Ha). cbn [bind]. rewrite D. cbn [bind]. apply B; intros s1.
      apply B; intros v2. rewrite D'. cbn [bind]. apply B; intros s2.
      apply B; intros v3. rewrite D'. cbn [bind]. apply B; intros s3.
      apply B; intros v4. rewrite D'. cbn [bind]. reflexivity.
    + rewrite <- qnorm_sqr. do 2 f_equal. destruct a. unfold fmap, qscale, qconj. cbn.
      f_equal. f_equal; field; lra.
Qed.
Lemma quat_inv_ok a : quat_inv a = Ok (inverted a).
Proof.
  unfold quat_inv. erewrite quat_inv_st_ok by (cbn; first [reflexivity|lia]). reflexivity.
Qed.
Lemma inverted_big q : / 1000000 <= qnorm q -> inverted q = qscale (/ qdot q q) (qconj q).
Proof. intros H. unfold inverted. destruct (Rlt_dec _ _); [lra|reflexivity]. Qed.
Lemma inverted_unit q : unit_quat q -> inverted q = qconj q.
Proof.
  intros H. pose proof (qnorm_unit q H). rewrite inverted_big by lra. rewrite H, Rinv_1. apply qscale_1.
Qed.
