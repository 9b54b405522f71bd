(** Balancing and eigenvalues over the reals. *)
From Coq Require Import List Arith ZArith Bool Lia Reals Lra.
From Verif Require Import Base BaseFacts NumR SpecVec SpecReal SpecMtx SpecDecomp MVec MMtx MDecomp
  PVec PVecR PMtx PMtxOps PMtxR PFvec PGram PChol PHouse PQr SpecGauss PGauss.
Import ListNotations.
Set Implicit Arguments.
Local Open Scope R_scope.

(** ** What a loop that answered went through *)
Lemma bind_ok A B (m : outcome A) (k : A -> outcome B) y :
  bind m k = Ok y -> exists x, m = Ok x /\ k x = Ok y.
Proof. destruct m; cbn; try discriminate. eauto. Qed.

Lemma for_ok_inv S (P : nat -> S -> Prop) n lo (body : nat -> S -> outcome S) s s' :
  P lo s ->
  (forall i s1 s2, (lo <= i < lo + n)%nat -> P i s1 -> body i s1 = Ok s2 -> P (Datatypes.S i) s2) ->
  for_ n lo body s = Ok s' -> P (lo + n)%nat s'.
Proof.
  revert lo s. induction n as [|n IH]; intros lo s H0 Hs E; cbn [for_] in E.
  - injection E as <-. now rewrite Nat.add_0_r.
  - apply bind_ok in E. destruct E as (s1 & E1 & E2).
    replace (lo + Datatypes.S n)%nat with (Datatypes.S lo + n)%nat by lia.
    apply (IH (Datatypes.S lo) s1); auto.
    + apply (Hs lo s); auto. lia.
    + intros i a b Hi. apply Hs. lia.
Qed.

Lemma while_ok_inv S X (P : S -> Prop) (Q : X -> Prop) fuel (body : S -> outcome (S + X)) s x :
  P s ->
  (forall s1 r, P s1 -> body s1 = Ok r -> match r with inl s2 => P s2 | inr y => Q y end) ->
  while_ fuel body s = Ok x -> Q x.
Proof.
  revert s. induction fuel as [|fuel IH]; intros s H0 Hs E; cbn [while_] in E; [discriminate|].
  apply bind_ok in E. destruct E as (r & E1 & E2). specialize (Hs _ _ H0 E1) as H1.
  destruct r as [s2|y]; [now apply (IH s2)|]. injection E2 as <-. exact H1.
Qed.

(** ** Balancing *)
Definition two (z : Z) : R := powerRZ 2 z.
Lemma two_pos z : 0 < two z.
Proof. apply powerRZ_lt. lra. Qed.
Lemma two_add a b : two (a + b) = two a * two b.
Proof. apply powerRZ_add. lra. Qed.
Lemma two_1 : two 1 = 2.
Proof. unfold two. rewrite powerRZ_1. reflexivity. Qed.
Lemma two_0 : two 0 = 1.
Proof. reflexivity. Qed.
Lemma two_opp a : two (- a) = / two a.
Proof. apply powerRZ_neg'. Qed.

Definition balanced (n : nat) (f : nat -> nat -> R) (e : nat -> Z) : nat -> nat -> R :=
  fun i j => f i j * two (e j - e i).

Lemma bal_up_pow fuel col row2 z c2 c : bal_up fuel col row2 (two z) = Ok (c2, c) -> exists z', c2 = two z'.
Proof.
  unfold bal_up. intros E.
  apply (@while_ok_inv _ _ (fun s => exists z', fst s = two z') (fun s => exists z', fst s = two z')) in E; auto.
  - cbn. eauto.
  - intros (a, b) r (z' & Hz) E1. cbn in Hz. subst a. destruct (flt b row2); injection E1 as <-; cbn [fst]; [|eauto].
    exists (z' + 1)%Z. rewrite two_add, two_1. f_equal. cbn. unfold Rlit. cbn. lra.
Qed.

Lemma bal_down_pow fuel col row2 z c2 c : bal_down fuel col row2 (two z) = Ok (c2, c) -> exists z', c2 = two z'.
Proof.
  unfold bal_down. intros E.
  apply (@while_ok_inv _ _ (fun s => exists z', fst s = two z') (fun s => exists z', fst s = two z')) in E; auto.
  - cbn. eauto.
  - intros (a, b) r (z' & Hz) E1. cbn in Hz. subst a. destruct (fgt b row2).
    + apply bind_ok in E1. destruct E1 as (q & Eq & E1). apply bind_ok in E1. destruct E1 as (q2 & Eq2 & E1).
      injection E1 as <-. cbn [fst]. cbn [fdiv NumR] in Eq. apply Rdivo_inv in Eq. destruct Eq as (_ & ->).
      exists (z' - 1)%Z. replace (z' - 1)%Z with (z' + - (1))%Z by lia. rewrite two_add, two_opp, two_1.
      unfold Rdiv. f_equal. f_equal. cbn. unfold Rlit. cbn. lra.
    + injection E1 as <-. cbn. eauto.
Qed.

Section B.
Variable bc : bool.
Variable n : nat.

(** the scaling loop *)
Lemma bal_scale (g : nat -> nat -> R) tl i z :
  (i < n)%nat ->
  for_ n 0 (fun k b =>
            let! x := rd b (i * n + k)%nat in
            let! b := wr b (i * n + k)%nat (fmul x (/ two z)) in
            let! y := rd b (k * n + i)%nat in
            wr b (k * n + i)%nat (fmul y (two z))) (mbuf (mat_of n n g tl))
  = Ok (mbuf (mat_of n n (balanced n g (fun a => if (a =? i)%nat then z else 0%Z)) tl)).
Proof.
  intros Hi. pose proof (two_pos z) as Pz.
  set (H := fun k a b => g a b * (if (a =? i)%nat && (b <? k)%nat then / two z else 1)
                               * (if (b =? i)%nat && (a <? k)%nat then two z else 1)).
  destruct (@for_inv _ (fun k b => b = mbuf (mat_of n n (H k) tl)) n 0%nat (fun k b =>
            let! x := rd b (i * n + k)%nat in
            let! b := wr b (i * n + k)%nat (fmul x (/ two z)) in
            let! y := rd b (k * n + i)%nat in
            wr b (k * n + i)%nat (fmul y (two z))) (mbuf (mat_of n n g tl))) as (b & E & Eb).
  - f_equal. apply mat_ext. intros a b Ha Hb. unfold H.
    destruct (Nat.ltb_spec b 0), (Nat.ltb_spec a 0); try lia. rewrite !andb_false_r. ring.
  - intros k b Hk ->. rewrite rd_mat by lia. cbn [bind]. rewrite wr_mat by lia. cbn [bind].
    rewrite rd_mat by lia. cbn [bind]. rewrite wr_mat by lia. eexists. split; [reflexivity|].
    f_equal. apply mat_ext. intros a b Ha Hb. unfold fupd, H. cbn [fmul NumR].
    destruct (Nat.eqb_spec a k), (Nat.eqb_spec b i), (Nat.eqb_spec a i), (Nat.eqb_spec b k),
      (Nat.eqb_spec k i), (Nat.eqb_spec i k), (Nat.ltb_spec a k), (Nat.ltb_spec b k), (Nat.ltb_spec i k), (Nat.ltb_spec k k),
      (Nat.ltb_spec a (S k)), (Nat.ltb_spec b (S k)); try lia; cbn [andb]; subst;
      rewrite ?Nat.eqb_refl; cbn [andb]; try lia; try ring.
  - match goal with |- ?l = _ => assert (El : l = Ok b) by exact E end. rewrite El, Eb.
    f_equal. f_equal. apply mat_ext. intros a b' Ha Hb'. unfold H, balanced.
    destruct (Nat.ltb_spec b' (0 + n)), (Nat.ltb_spec a (0 + n)); try lia. rewrite !andb_true_r.
    destruct (Nat.eqb_spec a i), (Nat.eqb_spec b' i).
    + replace (z - z)%Z with 0%Z by lia. rewrite two_0. field. lra.
    + replace (0 - z)%Z with (- z)%Z by lia. rewrite two_opp. ring.
    + replace (z - 0)%Z with z by lia. ring.
    + replace (0 - 0)%Z with 0%Z by lia. rewrite two_0. ring.
Qed.

Lemma bal_round_inv fuel f e tl i done rc s' :
  (i < n)%nat ->
  bal_round fuel n i (mbuf (mat_of n n (balanced n f e) tl), done, rc) = Ok s' ->
  exists e', fst (fst s') = mbuf (mat_of n n (balanced n f e') tl).
Proof.
  intros Hi E. unfold bal_round in E. destruct rc as (row, col).
  apply bind_ok in E. destruct E as ((row1, col1) & _ & E).
  apply bind_ok in E. destruct E as (cv & _ & E).
  apply bind_ok in E. destruct E as (rv & _ & E).
  apply bind_ok in E. destruct E as ((b, dn) & E1 & E). injection E as <-. cbn [fst].
  destruct (fne cv f0 && fne rv f0).
  - apply bind_ok in E1. destruct E1 as (row2 & _ & E1).
    apply bind_ok in E1. destruct E1 as ((c2 & c) & Eu & E1).
    change f1 with (two 0) in Eu. apply bal_up_pow in Eu. destruct Eu as (z1 & ->).
    apply bind_ok in E1. destruct E1 as ((c3 & c') & Ed & E1).
    apply bal_down_pow in Ed. destruct Ed as (z & ->).
    apply bind_ok in E1. destruct E1 as (t & _ & E1).
    destruct (flt t _).
    + apply bind_ok in E1. destruct E1 as (r2 & Er & E1).
      cbn [fdiv NumR] in Er. apply Rdivo_inv in Er. destruct Er as (_ & ->).
      replace (f1 / two z) with (/ two z) in E1 by (cbn; unfold Rdiv; ring).
      apply bind_ok in E1. destruct E1 as (b2 & E2 & E1). injection E1 as <- <-.
      pose proof (bal_scale (balanced n f e) tl z Hi) as E3.
      assert (E4 : Ok b2 = Ok (mbuf (mat_of n n (balanced n (balanced n f e) (fun a => if (a =? i)%nat then z else 0%Z)) tl))).
      { rewrite <- E3. symmetry. exact E2. }
      apply (f_equal (fun o => match o with Ok x => x | _ => b2 end)) in E4. rewrite E4. exists (fun a => (e a + (if (a =? i)%nat then z else 0))%Z).
      f_equal. apply mat_ext. intros a b' _ _. unfold balanced. rewrite Rmult_assoc, <- two_add.
      f_equal. f_equal. lia.
    + injection E1 as <- <-. exists e. reflexivity.
  - injection E1 as <- <-. exists e. reflexivity.
Qed.

Lemma balance_inv fuel row0 col0 f tl mo rc out :
  room n n mo ->
  mtx_balance bc fuel row0 col0 (mat_of n n f tl) mo = Ok (rc, out) ->
  rc = 0%Z /\ exists e, out = mat_of n n (balanced n f e) (rest mo).
Proof.
  intros Hm E. unfold mtx_balance in E.
  change (mrows (mat_of n n f tl)) with n in E. change (mcols (mat_of n n f tl)) with n in E.
  pose proof Hm as (Hr & Hc & _). rewrite Hr, Hc, Nat.eqb_refl in E. cbn [negb orb] in E.
  rewrite andb_false_r in E. rewrite mtx_copy_ok in E by auto. cbn [bind Z.eqb negb] in E.
  apply bind_ok in E. destruct E as (b & E & E2). injection E2 as <- <-. split; [reflexivity|].
  set (body := fun '(b, rowcol) => _) in E.
  apply (@while_ok_inv _ _ (fun s => exists e, fst s = mbuf (mat_of n n (balanced n f e) (rest mo)))
          (fun b => exists e, b = mbuf (mat_of n n (balanced n f e) (rest mo)))) in E.
  - destruct E as (e & ->). exists e. reflexivity.
  - exists (fun _ => 0%Z). cbn [fst]. f_equal. apply mat_ext. intros i j _ _. unfold balanced.
    replace (0 - 0)%Z with 0%Z by lia. rewrite two_0. ring.
  - intros (b1, rcs) r (e & He) E1. cbn [fst] in He. subst b1. unfold body in E1.
    apply bind_ok in E1. destruct E1 as (((b2, dn), rcs2) & E3 & E1).
    apply (@for_ok_inv _ (fun _ s => exists e, fst (fst s) = mbuf (mat_of n n (balanced n f e) (rest mo)))) in E3.
    + destruct E3 as (e' & E3). cbn [fst] in E3. subst b2.
      destruct dn; injection E1 as <-; exists e'; reflexivity.
    + cbn. eauto.
    + intros i ((b3, d3), rc3) s2 Hi (e3 & He3) E4. cbn [fst] in He3. subst b3.
      eapply bal_round_inv; [|exact E4]. lia.
Qed.

End B.

(** ** Eigenvalues *)
Section E.
Variable bc : bool.
Variable n : nat.
Implicit Types A f : nat -> nat -> R.

Definition dg A (i : nat) : R := A i i.

(** The scan *)
Lemma eig_scan_ok A t : forall fuel g vb real d sd,
  (n - 1 - g <= fuel)%nat -> (real <= g)%nat -> (n <= length vb)%nat ->
  exists vb' real' d' sd',
    eig_scan bc fuel (mat_of n n A t) n g (vb, real, d, sd) = Ok (vb', real', d', sd')
    /\ (real' <= real + (n - 1 - g))%nat /\ length vb' = length vb
    /\ ((exists k, (g <= k < n - 1)%nat /\ is_big (A (S k) k) = true) -> (real' < real + (n - 1 - g))%nat)
    /\ ((forall k, (g <= k < n - 1)%nat -> is_big (A (S k) k) = false) ->
        real' = (real + (n - 1 - g))%nat /\
        vb' = firstn real vb ++ cells (tab (n - 1 - g) (fun k => dg A (g + k)%nat)) ++ skipn real' vb).
Proof.
  induction fuel as [|fuel IH]; intros g vb real d sd Hf Hr Hl; cbn [eig_scan].
  - destruct (Nat.ltb_spec g (n - 1)) as [|Hg]; [lia|].
    exists vb, real, d, sd. split; [reflexivity|]. replace (n - 1 - g)%nat with 0%nat by lia.
    split; [lia|]. split; [reflexivity|]. split; [intros (k & Hk & _); lia|]. intros _. split; [lia|].
    cbn [tab cells map seq app]. symmetry. apply firstn_skipn.
  - destruct (Nat.ltb_spec g (n - 1)) as [Hg|Hg].
    + rewrite lget_mat by lia. cbn [bind lval]. replace (g + 1)%nat with (S g) by lia.
      destruct (is_big (A (S g) g)) eqn:Eb.
      * destruct (IH (g + 2)%nat vb real d (Some (A (S g) g))) as (vb' & real' & d' & sd' & E & H1 & H2 & H3 & H4); [lia|lia|lia|].
        exists vb', real', d', sd'. split; [exact E|]. split; [lia|]. split; [exact H2|]. split; [lia|].
        intros Ha. rewrite Ha in Eb by lia. discriminate.
      * rewrite lget_mat by lia. cbn [bind lval].
        rewrite wr_ok by lia. cbn [bind].
        destruct (IH (S g) (upd vb real (Some (A g g))) (S real) (Some (A g g)) (Some (A (S g) g)))
          as (vb' & real' & d' & sd' & E & H1 & H2 & H3 & H4); [lia|lia|rewrite upd_length; lia|].
        exists vb', real', d', sd'. split; [exact E|]. split; [lia|]. split; [rewrite H2; apply upd_length|]. split.
        -- intros (k & Hk & Ek). assert (k <> g) by (intros ->; congruence).
           assert (real' < S real + (n - 1 - S g))%nat; [|lia]. apply H3. exists k. split; [lia|auto].
        -- intros Ha. destruct H4 as (H4 & H5); [intros; apply Ha; lia|]. split; [lia|].
           rewrite H5. replace (n - 1 - g)%nat with (S (n - 1 - S g)) by lia. rewrite tab_S.
           cbn [cells map app]. rewrite Nat.add_0_r.
           assert (U : forall (l : buf R) i x, (i < length l)%nat ->
              firstn (S i) (upd l i x) = firstn i l ++ [x]).
           { clear. induction l as [|a l IHl]; intros i x Hi; cbn [length] in Hi; [lia|].
             destruct i as [|i]; cbn [upd firstn app]; [reflexivity|]. f_equal. apply IHl. lia. }
           assert (V : forall (l : buf R) i j x, (i < j)%nat -> skipn j (upd l i x) = skipn j l).
           { clear. induction l as [|a l IHl]; intros i j x Hi; destruct j as [|j], i as [|i]; try lia; cbn [upd skipn]; auto.
             apply IHl. lia. }
           rewrite U, V by lia. rewrite <- app_assoc. cbn [app]. f_equal. unfold dg at 2. f_equal. f_equal.
           apply (f_equal cells). apply tab_ext. intros i _. f_equal. lia.
    + exists vb, real, d, sd. split; [reflexivity|]. replace (n - 1 - g)%nat with 0%nat by lia.
      split; [lia|]. split; [reflexivity|]. split; [intros (k & Hk & _); lia|]. intros _. split; [lia|].
      cbn [tab cells map seq app]. symmetry. apply firstn_skipn.
Qed.

(** filling a vector with the diagonal *)
Lemma eig_diag A t (vb : buf R) :
  (n <= length vb)%nat ->
  exists d, for_ n 0 (fun g '(vb, diag) =>
        let! diag := lget bc (mat_of n n A t) g g diag in
        let! dv := lval diag in
        let! vb := wr vb g dv in
        Ok (vb, diag)) (vb, None) = Ok (cells (tab n (dg A)) ++ skipn n vb, d).
Proof.
  intros Hl. set (body := fun g '(vb, diag) => _).
  destruct (@for_inv _ (fun g (s : buf R * option R) => fst s = cells (tab g (dg A)) ++ skipn g vb) n 0%nat body (vb, None))
    as ((b & d) & E & Eb); [reflexivity| |].
  - intros g (b & d) Hg Eb. cbn [fst] in Eb. subst b. unfold body.
    rewrite lget_mat by lia. cbn [bind lval]. rewrite (@skipn_cons_nth _ vb g None) by lia.
    assert (W := @wr_mid R (cells (tab g (dg A))) (skipn (S g) vb) (nth g vb None) (A g g)).
    rewrite cells_length, tab_length in W. unfold buf in *. rewrite W. cbn [bind].
    eexists. split; [reflexivity|]. cbn [fst]. rewrite tab_snoc, cells_app, <- app_assoc. reflexivity.
  - cbn [fst Nat.add] in Eb. subst b. exists d. exact E.
Qed.

(** similarity: A = p^T D^-1 f D p *)
Definition simil f A : Prop :=
  exists e p, orthogonal n p /\ same n A (mmul n (mmul n (tr p) (balanced n f e)) p).

Definition all_small A : Prop := forall k, (S k < n)%nat -> is_big (A (S k) k) = false.

Lemma eigenvalues_inv fuel row0 col0 f tl vs vb iter rc v' :
  (0 < n)%nat -> (n <= length vb)%nat -> (vs <= length vb)%nat ->
  mtx_eigenvalues bc fuel row0 col0 (mat_of n n f tl) (Vec vs vb) iter = Ok (rc, v') ->
  exists A, simil f A /\
  (upper_triangular n f -> all_small A /\ forall i, (i < n)%nat -> A i i = f i i) /\
  ((forall i j, (i < n)%nat -> (j < n)%nat -> asym (f i j) (f j i) = false) ->
      rc = 0%Z /\ vsz v' = vs /\ firstn n (vbuf v') = cells (tab n (dg A))) /\
  (~ (forall i j, (i < n)%nat -> (j < n)%nat -> asym (f i j) (f j i) = false) ->
    (all_small A -> rc = 0%Z /\ exists t, v' = vec_of (filter (fun a => negb (zte_test a)) (tab n (dg A))
        ++ repeat 0 (length (filter zte_test (tab n (dg A))))) t) /\
    (~ all_small A -> rc = (- ECOMPLEXVAL)%Z /\ (vsz v' < n)%nat)).
Proof.
  intros Hn Hl Hvs E. unfold mtx_eigenvalues in E.
  change (mrows (mat_of n n f tl)) with n in E.
  apply bind_ok in E. destruct E as ((rc1, mt) & E1 & E).
  apply balance_inv in E1; [|apply room_def]. destruct E1 as (_ & e & ->). rewrite rest_def in E.
  destruct (@qrd_hessenberg bc n (balanced n f e) [] (mtx_def n n) (mtx_def n n)) as (q & r & Eq & Oq & _ & HE & _);
    [lia|apply room_def|apply room_def|].
  rewrite Eq in E. cbn [bind] in E. rewrite !rest_def in E.
  destruct (@qrd_iter_ok bc n r [] (mat_of n n q []) iter) as (p & A & Ei & Op & HA); [auto|apply mat_room|].
  rewrite Ei in E. cbn [bind] in E. rewrite mat_rest in E.
  exists A.
  assert (HS : simil f A).
  { exists e, (mmul n q p). split; [apply orth_mul; auto|].
    apply orth_eqs in Oq. destruct Oq as (OA & OB).
    (* r = q^T (D f) q *)
    assert (Hr : same n r (mmul n (mmul n (tr q) (balanced n f e)) q)).
    { apply same_sym. eapply same_trans.
      { apply same_mul; [apply same_mul; [apply same_refl|apply same_sym; exact HE]|apply same_refl]. }
      eapply same_trans.
      { apply same_mul; [|apply same_refl].
        eapply same_trans; [apply same_sym, same_assoc|].
        apply same_mul; [|apply same_refl]. apply mul_cancel. exact OA. }
      eapply same_trans; [apply same_assoc|].
      eapply same_trans; [apply same_mul; [apply same_refl|exact OA]|]. apply same_id_r. }
    eapply same_trans; [exact HA|].
    eapply same_trans.
    { apply same_mul; [apply same_mul; [apply same_refl|exact Hr]|apply same_refl]. }
    eapply same_trans.
    { apply same_mul; [apply same_sym, same_assoc|apply same_refl]. }
    eapply same_trans; [apply same_assoc|].
    apply same_mul; [|apply same_refl].
    eapply same_trans; [apply same_sym, same_assoc|].
    apply same_mul; [|apply same_refl]. apply same_sym, tr_mul. }
  split; [exact HS|]. split.
  { intros HU.
    assert (HB : upper_triangular n (balanced n f e)).
    { intros i j Hi Hj. unfold balanced. rewrite HU by auto. ring. }
    assert (Eq2 := @qrd_fixed bc n (balanced n f e) [] (mtx_def n n) (mtx_def n n) true Hn
                     (room_def _ _) (room_def _ _) HB).
    rewrite Eq in Eq2. injection Eq2 as _ Er.
    assert (Er' : mat_of n n r [] = mat_of n n (balanced n f e) []).
    { unfold mat_of. f_equal. rewrite !rest_def in Er. rewrite !app_nil_r in *. exact Er. }
    rewrite Er' in Ei. rewrite qrd_iter_fixed in Ei; [|exact Hn|apply mat_room|exact HB].
    injection Ei as Ei. rewrite mat_rest, !app_nil_r in Ei.
    assert (SA : same n A (balanced n f e)).
    { intros i j Hi Hj. symmetry. revert i j Hi Hj. apply (@mat_of_inj R n n (balanced n f e) A [] []).
      unfold mat_of. f_equal. now rewrite !app_nil_r. }
    split.
    - intros k Hk. rewrite SA by lia. unfold balanced. rewrite HU by lia. rewrite Rmult_0_l.
      rewrite is_big_R. unfold tiny. rewrite Rabs_R0. destruct (Rlt_dec 0 (/ 1000000)); [reflexivity|lra].
    - intros i Hi. rewrite SA by auto. unfold balanced. rewrite Z.sub_diag, two_0. ring. }
  rewrite vec_init_ok in E by auto. cbn [bind vbuf vsz] in E.
  destruct (mtx_is_sym_ok bc n f tl) as (b & Es & Hb). rewrite Es in E. cbn [bind] in E.
  set (vb0 := cells (repeat f0 vs) ++ skipn vs vb) in E.
  assert (Hl0 : (n <= length vb0)%nat).
  { unfold vb0. rewrite app_length, cells_length, repeat_length, skipn_length. lia. }
  destruct b.
  - destruct (@eig_diag A [] vb0 Hl0) as (d & Ed). rewrite Ed in E. cbn [bind] in E.
    injection E as <- <-. cbn [vsz vbuf]. split.
    + intros _. split; [reflexivity|]. split; [reflexivity|].
      rewrite firstn_app. rewrite firstn_all2 by (rewrite cells_length, tab_length; lia).
      rewrite cells_length, tab_length, Nat.sub_diag. cbn [firstn]. apply app_nil_r.
    + intros N. exfalso. apply N, Hb. reflexivity.
  - split; [intros H; apply Hb in H; discriminate|]. intros Hns.
    assert (Hn2 : (2 <= n)%nat).
    { destruct (le_lt_dec 2 n); auto. exfalso. apply Hns. intros i j Hi Hj.
      assert (i = 0%nat) by lia. assert (j = 0%nat) by lia. subst. apply asym_R.
      replace (f 0%nat 0%nat - f 0%nat 0%nat) with 0 by ring. rewrite Rabs_R0. lra. }
    destruct (@eig_scan_ok A [] n 0 vb0 0%nat None None) as (vb' & real' & d' & sd' & Ee & H1 & H2 & H3 & H4);
      [lia|lia|auto|].
    unfold buf in *. rewrite Ee in E. cbn [bind] in E. rewrite lget_mat in E by lia. cbn [bind lval] in E.
    replace (n - 1)%nat with (S (n - 2)) in E by lia.
    destruct (is_big (A (S (n - 2)) (n - 2)%nat)) eqn:Eb.
    + cbn [bind] in E.
      assert (real' < n)%nat by lia.
      destruct (Nat.eqb_spec real' n); [lia|]. cbn [negb] in E. injection E as <- <-. split.
      * intros Ha. rewrite Ha in Eb by lia. discriminate.
      * intros _. cbn [vsz]. split; [reflexivity|lia].
    + rewrite lget_mat in E by lia. cbn [bind lval] in E. rewrite wr_ok in E by lia. cbn [bind] in E.
      destruct (Nat.eqb_spec (S real') n) as [Er|Er]; cbn [negb] in E.
      * assert (Ha : forall k, (0 <= k < n - 1)%nat -> is_big (A (S k) k) = false).
        { intros k Hk. destruct (is_big (A (S k) k)) eqn:Ek; auto. exfalso.
          assert (real' < 0 + (n - 1 - 0))%nat; [|lia]. apply H3. exists k. split; auto. }
        destruct (H4 Ha) as (Hr & Hv). split; [|intros N; exfalso; apply N; intros k Hk; apply Ha; lia].
        intros _.
        assert (EV : Vec (S real') (upd vb' real' (Some (A (S (n - 2)) (S (n - 2)))))
                   = vec_of (tab n (dg A)) (skipn n vb0)).
        { unfold vec_of. rewrite tab_length. f_equal; [exact Er|].
          rewrite Hv. cbn [firstn app]. replace (n - 1 - 0)%nat with real' by lia.
          rewrite (@skipn_cons_nth _ vb0 real' None) by lia.
          assert (W := @wr_mid R (cells (tab real' (fun k => dg A (0 + k)%nat))) (skipn (S real') vb0)
                         (nth real' vb0 None) (A (S (n - 2)) (S (n - 2)))).
          rewrite cells_length, tab_length in W.
          rewrite wr_ok in W.
          2:{ rewrite app_length, cells_length, tab_length. cbn [length]. lia. }
          apply (f_equal (fun o => match o with Ok x => x | _ => [] end)) in W.
          unfold buf in *. rewrite W.
          replace (tab n (dg A)) with (tab real' (dg A) ++ [dg A real']).
          2:{ rewrite <- tab_snoc. f_equal. exact Er. }
          rewrite cells_app, <- app_assoc. rewrite Er.
          replace (S (n - 2)) with real' by lia. reflexivity. }
        rewrite EV, vec_zte_ok in E. cbn [bind] in E. injection E as <- <-.
        split; [reflexivity|]. eexists. reflexivity.
      * injection E as <- <-. cbn [vsz]. split.
        -- intros Ha. exfalso. destruct H4 as (H4 & _); [intros k Hk; apply Ha; lia|]. lia.
        -- intros _. split; [reflexivity|lia].
Qed.
End E.

(** ** Runs that are known completely *)
Section K.
Variable bc : bool.

Lemma bal_sums n f tl i a b :
  (i < n)%nat ->
  for_ n 0 (fun j '(row, col) =>
      let! rv := lval row in
      let! x := rd (mbuf (mat_of n n f tl)) (i * n + j)%nat in
      let! cv := lval col in
      let! y := rd (mbuf (mat_of n n f tl)) (j * n + i)%nat in
      Ok (Some (rv + Rabs x), Some (cv + Rabs y))) (Some a, Some b)
  = Ok (Some (a + bigsum n (fun j => Rabs (f i j))), Some (b + bigsum n (fun j => Rabs (f j i)))).
Proof.
  intros Hi.
  match goal with |- for_ n 0 ?b0 _ = _ => set (body := b0) end.
  destruct (@for_inv _ (fun k (s : option R * option R) =>
      s = (Some (a + bigsum k (fun j => Rabs (f i j))), Some (b + bigsum k (fun j => Rabs (f j i)))))
      n 0%nat body (Some a, Some b)) as (s & E & ->).
  - cbn [bigsum]. now rewrite !Rplus_0_r.
  - intros k s Hk ->. unfold body. cbn [lval bind]. rewrite rd_mat by lia. cbn [bind].
    rewrite rd_mat by lia. cbn [bind]. eexists. split; [reflexivity|].
    cbn [bigsum]. now rewrite !Rplus_assoc.
  - exact E.
Qed.

(** equal row and column sums: nothing to balance *)
Lemma balance_fixed n fuel f tl mo :
  room n n mo ->
  (forall i, (i < n)%nat -> bigsum n (fun j => Rabs (f i j)) = bigsum n (fun j => Rabs (f j i))) ->
  mtx_balance bc (S fuel) (Some 0) (Some 0) (mat_of n n f tl) mo = Ok (0%Z, mat_of n n f (rest mo)).
Proof.
  intros Hm Hs. unfold mtx_balance. pose proof Hm as (Hr & Hc & _).
  change (mrows (mat_of n n f tl)) with n. change (mcols (mat_of n n f tl)) with n.
  rewrite Hr, Hc, !Nat.eqb_refl. cbn [negb orb]. rewrite Bool.andb_false_r.
  rewrite mtx_copy_ok by exact Hm. cbn [bind Z.eqb negb].
  assert (E : for_ n 0 (bal_round (S fuel) n) (mbuf (mat_of n n f (rest mo)), true, (Some 0, Some 0))
     = Ok (mbuf (mat_of n n f (rest mo)), true, (Some 0, Some 0))).
  { destruct (@for_inv _ (fun _ (s : buf R * bool * (option R * option R)) =>
       s = (mbuf (mat_of n n f (rest mo)), true, (Some 0, Some 0))) n 0%nat (bal_round (S fuel) n)
       (mbuf (mat_of n n f (rest mo)), true, (Some 0, Some 0))) as (s & E & ->); auto.
    intros i s Hi ->. eexists. split; [|reflexivity]. unfold bal_round.
    rewrite bal_sums by lia. cbn [bind lval]. rewrite !Rplus_0_l, <- Hs by lia.
    set (x := bigsum n (fun j => Rabs (f i j))).
    assert (Hx : 0 <= x).
    { unfold x. clear. induction n as [|m IH]; cbn [bigsum]; [lra|].
      pose proof (Rabs_pos (f i m)). lra. }
    unfold fne. cbn [feq NumR f0]. destruct (Reqb_spec x 0) as [|N]; cbn [negb andb bind]; [reflexivity|].
    change (flit 2 0) with (Rlit 2 0). change (flit 95 2) with (Rlit 95 2).
    replace (Rlit 2 0) with 2 by (unfold Rlit; cbn; lra).
    replace (Rlit 95 2) with (95 / 100) by (change 2%Z with (Z.of_nat 2); rewrite Rlit_frac; cbn; lra).
    cbn [fdiv NumR]. rewrite Rdivo_ok by lra. cbn [bind].
    unfold bal_up. cbn [while_]. cbn [flt NumR]. destruct (Rltb_spec x (x / 2)); [lra|]. cbn [bind].
    unfold bal_down. cbn [while_]. unfold fgt. cbn [flt fmul NumR]. destruct (Rltb_spec (x * 2) x); [lra|].
    cbn [bind f1 NumR fadd fdiv]. rewrite Rdivo_ok by lra. cbn [bind].
    destruct (Rltb_spec ((x + x) / 1) (95 / 100 * (x + x))); [lra|]. reflexivity. }
  cbn [while_]. change (mrows (mat_of n n f (rest mo))) with n.
  rewrite E. cbn [bind]. reflexivity.
Qed.

(** a negative start value of col never catches up *)
Lemma bal_up_stuck fuel c r c2 : c < 0 -> 0 < r -> bal_up fuel c r c2 = @OutOfFuel (R * R).
Proof.
  intros Hc Hr. unfold bal_up. revert c c2 Hc. induction fuel as [|fuel IH]; intros c c2 Hc; cbn [while_]; [reflexivity|].
  cbn [flt NumR]. destruct (Rltb_spec c r); [|lra]. cbn [bind]. apply IH.
  change (flit 4 0) with (Rlit 4 0). replace (Rlit 4 0) with 4 by (unfold Rlit; cbn; lra). cbn [fmul NumR]. lra.
Qed.

Lemma balance_stuck fuel tl :
  mtx_balance bc fuel (Some 0) (Some (-10)) (mat_of 1 1 (fun _ _ => 1) tl) (mtx_def 1 1) = OutOfFuel.
Proof.
  unfold mtx_balance. cbn [mrows mcols mat_of mtx_def Nat.eqb negb orb]. rewrite Bool.andb_false_r.
  rewrite mtx_copy_ok by apply room_def. cbn [bind Z.eqb negb].
  destruct fuel as [|fuel]; [reflexivity|]. cbn [while_]. cbn [for_]. unfold bal_round at 1.
  rewrite bal_sums by lia. cbn [bind lval bigsum]. rewrite Rabs_R1.
  unfold fne. cbn [feq NumR f0]. destruct (Reqb_spec (-10 + (0 + 1)) 0); [lra|].
  destruct (Reqb_spec (0 + (0 + 1)) 0); [lra|]. cbn [negb andb].
  change (flit 2 0) with (Rlit 2 0). replace (Rlit 2 0) with 2 by (unfold Rlit; cbn; lra).
  cbn [fdiv NumR]. rewrite Rdivo_ok by lra. cbn [bind].
  rewrite bal_up_stuck by lra. reflexivity.
Qed.

(** the 2 x 2 exchange matrix: QR iteration leaves it unchanged up to sign *)
Definition swap (i j : nat) : R := if (i =? j)%nat then 0 else 1.
Definition antid (A : nat -> nat -> R) : Prop :=
  A 0%nat 0%nat = 0 /\ A 1%nat 1%nat = 0 /\ A 0%nat 1%nat = A 1%nat 0%nat /\ A 1%nat 0%nat * A 1%nat 0%nat = 1.

Lemma antid_qr A q r :
  antid A -> orthogonal 2 q -> upper_triangular 2 r -> same 2 (mmul 2 q r) A -> antid (mmul 2 r q).
Proof.
  intros (A0 & A1 & A2 & A3) (O1 & O2) U HE.
  assert (R10 : r 1%nat 0%nat = 0) by (apply U; lia).
  pose proof (HE 0%nat 0%nat ltac:(lia) ltac:(lia)) as E00.
  pose proof (HE 1%nat 0%nat ltac:(lia) ltac:(lia)) as E10.
  pose proof (HE 0%nat 1%nat ltac:(lia) ltac:(lia)) as E01.
  pose proof (HE 1%nat 1%nat ltac:(lia) ltac:(lia)) as E11.
  pose proof (O1 0%nat 0%nat ltac:(lia) ltac:(lia)) as P00.
  pose proof (O2 0%nat 0%nat ltac:(lia) ltac:(lia)) as Q00.
  pose proof (O2 1%nat 1%nat ltac:(lia) ltac:(lia)) as Q11.
  pose proof (O1 0%nat 1%nat ltac:(lia) ltac:(lia)) as P01.
  unfold antid, mmul, delta in *. cbn [bigsum fadd fmul f0 NumR Nat.eqb] in *.
  set (s := A 1%nat 0%nat) in *. rewrite A0 in E00. rewrite A1 in E11. rewrite A2 in E01.
  rewrite R10 in *.
  set (q00 := q 0%nat 0%nat) in *. set (q01 := q 0%nat 1%nat) in *. set (q10 := q 1%nat 0%nat) in *.
  set (q11 := q 1%nat 1%nat) in *. set (r00 := r 0%nat 0%nat) in *. set (r01 := r 0%nat 1%nat) in *.
  set (r11 := r 1%nat 1%nat) in *.
  assert (Hs : s <> 0) by (intros Z; rewrite Z in A3; lra).
  assert (r00 <> 0) by (intros Z; apply Hs; rewrite <- E10, Z; ring).
  assert (Z0 : q00 = 0) by (apply (Rmult_eq_reg_r r00); lra).
  rewrite Z0 in *.
  assert (N10 : q10 <> 0) by (intros Z; rewrite Z in P00; lra).
  assert (Z1 : q11 = 0) by (apply (Rmult_eq_reg_l q10); lra).
  rewrite Z1 in *.
  assert (Z2 : r01 = 0) by (apply (Rmult_eq_reg_l q10); lra).
  rewrite Z2 in *.
  assert (r00 = s * q10) by (apply (Rmult_eq_reg_l q10); [nra|intros Z; rewrite Z in *; lra]).
  assert (r11 = s * q01) by (apply (Rmult_eq_reg_l q01); [nra|intros Z; rewrite Z in *; lra]).
  subst r00 r11. split; [nra|]. split; [nra|]. split; [nra|].
  rewrite H1. match goal with |- ?a = 1 => replace a with ((s * s) * (q01 * q01) * (q10 * q10)) by ring end.
  replace (q01 * q01) with 1 by lra. replace (q10 * q10) with 1 by lra. lra.
Qed.

Lemma antid_hess A q r :
  antid A -> orthogonal 2 q -> (forall j, (j < 2)%nat -> q 0%nat j = delta j 0) ->
  same 2 (mmul 2 (mmul 2 q r) (tr q)) A -> antid r.
Proof.
  intros (A0 & A1 & A2 & A3) (O1 & O2) HC HE.
  pose proof (HC 0%nat ltac:(lia)) as C0. pose proof (HC 1%nat ltac:(lia)) as C1.
  pose proof (HE 0%nat 0%nat ltac:(lia) ltac:(lia)) as E00.
  pose proof (HE 1%nat 0%nat ltac:(lia) ltac:(lia)) as E10.
  pose proof (HE 0%nat 1%nat ltac:(lia) ltac:(lia)) as E01.
  pose proof (HE 1%nat 1%nat ltac:(lia) ltac:(lia)) as E11.
  pose proof (O1 0%nat 0%nat ltac:(lia) ltac:(lia)) as P00.
  pose proof (O1 1%nat 1%nat ltac:(lia) ltac:(lia)) as P11.
  unfold antid, mmul, delta, tr in *. cbn [bigsum fadd fmul f0 NumR Nat.eqb] in *.
  set (s := A 1%nat 0%nat) in *. rewrite A0 in E00. rewrite A1 in E11. rewrite A2 in E01.
  rewrite C0, C1 in *.
  set (q10 := q 1%nat 0%nat) in *. set (q11 := q 1%nat 1%nat) in *.
  set (r00 := r 0%nat 0%nat) in *. set (r01 := r 0%nat 1%nat) in *.
  set (r10 := r 1%nat 0%nat) in *. set (r11 := r 1%nat 1%nat) in *.
  assert (Z : q10 = 0) by nra. rewrite Z in *.
  assert (Hq : q11 * q11 = 1) by lra.
  assert (q11 <> 0) by (intros Y; rewrite Y in *; lra).
  assert (r00 = 0) by (rewrite <- E00; ring).
  assert (F11 : q11 * q11 * r11 = 0) by (rewrite <- E11; ring).
  assert (F01 : r01 * q11 = s) by (rewrite <- E01; ring).
  assert (F10 : q11 * r10 = s) by (rewrite <- E10; ring).
  rewrite Hq in F11. split; [lra|]. split; [lra|]. split; [apply (Rmult_eq_reg_l q11); lra|].
  replace (r10 * r10) with ((q11 * q11) * (r10 * r10)) by (rewrite Hq; ring).
  rewrite <- A3, <- F10. ring.
Qed.

Lemma antid_iter f tl mo iter :
  antid f -> room 2 2 mo ->
  exists g, mtx_qrd_iter bc (mat_of 2 2 f tl) mo iter = Ok (0%Z, mat_of 2 2 g (rest mo)) /\ antid g.
Proof.
  intros Hf Hm. unfold mtx_qrd_iter. rewrite mtx_copy_ok by auto. cbn [bind Z.eqb negb].
  change (mrows (mat_of 2 2 f tl)) with 2%nat.
  match goal with |- context [for_ iter 1 ?b _] => set (body := b) end.
  destruct (@for_inv _ (fun g (s : mtx R * mtx R * mtx R) =>
     let '(mo1, q, r) := s in room 2 2 q /\ room 2 2 r /\
     exists g, mo1 = mat_of 2 2 g (rest mo) /\ antid g)
     iter 1%nat body (mat_of 2 2 f (rest mo), mtx_def 2 2, mtx_def 2 2))
     as (((mo1 & q) & r) & E & _ & _ & g & -> & O).
  - split; [apply room_def|]. split; [apply room_def|]. exists f. auto.
  - intros i ((mo1 & q) & r) Hi (Hq & Hr & g & -> & O). unfold body.
    destruct (@qrd_triangular bc 2 g (rest mo) q r) as (q' & r' & -> & Oq & Ur & HF); auto.
    cbn [bind]. rewrite mtx_mult_R by apply mat_room. cbn [bind]. rewrite mat_rest.
    eexists. split; [reflexivity|]. split; [apply mat_room|]. split; [apply mat_room|].
    exists (mmul 2 r' q'). split; [reflexivity|]. eapply antid_qr; eauto.
  - rewrite E. cbn [bind]. exists g. auto.
Qed.

Lemma eig_swap fuel tl vb iter :
  (2 <= length vb)%nat ->
  mtx_eigenvalues bc (S fuel) (Some 0) (Some 0) (mat_of 2 2 swap tl) (Vec 2 vb) iter
  = Ok (0%Z, vec_of [0; 0] (skipn 2 vb)).
Proof.
  intros Hl. unfold mtx_eigenvalues. change (mrows (mat_of 2 2 swap tl)) with 2%nat.
  rewrite balance_fixed; [|apply room_def|].
  2:{ intros i Hi. apply bigsum_ext. intros j Hj. unfold swap. now rewrite Nat.eqb_sym. }
  cbn [bind]. rewrite rest_def.
  assert (HS : antid swap) by (unfold antid, swap; cbn; lra).
  destruct (@qrd_hessenberg bc 2 swap [] (mtx_def 2 2) (mtx_def 2 2)) as (q & r & Eq & Oq & _ & HE & HC);
    [lia|apply room_def|apply room_def|].
  rewrite Eq. cbn [bind]. rewrite !rest_def.
  assert (HR : antid r) by (eapply antid_hess; eauto).
  destruct (@antid_iter r [] (mat_of 2 2 q []) iter HR) as (g & Ei & G0 & G1 & _); [apply mat_room|].
  rewrite Ei. cbn [bind]. rewrite mat_rest.
  rewrite vec_init_ok by auto. cbn [bind vbuf vsz].
  destruct (mtx_is_sym_ok bc 2 swap tl) as (b & Es & Hb). rewrite Es. cbn [bind].
  replace b with true.
  2:{ symmetry. apply Hb. intros i j _ _. apply asym_R. unfold swap. rewrite Nat.eqb_sym.
      replace (_ - _) with 0 by ring. rewrite Rabs_R0. lra. }
  destruct (@eig_diag bc 2 g [] (cells (repeat f0 2) ++ skipn 2 vb)) as (d & Ed).
  { rewrite app_length, cells_length, repeat_length. lia. }
  unfold buf in *. rewrite Ed. cbn [bind]. unfold vec_of. cbn [length]. do 3 f_equal.
  unfold dg. cbn [tab seq map cells app]. rewrite G0, G1. reflexivity.
Qed.
Lemma balance_uninit n f tl mo fuel :
  (0 < n)%nat -> room n n mo ->
  mtx_balance bc (S fuel) None None (mat_of n n f tl) mo = UB Uninit.
Proof.
  intros Hn Hm. unfold mtx_balance. pose proof Hm as (Hr & Hc & _).
  change (mrows (mat_of n n f tl)) with n. change (mcols (mat_of n n f tl)) with n.
  rewrite Hr, Hc, !Nat.eqb_refl. cbn [negb orb]. rewrite Bool.andb_false_r.
  rewrite mtx_copy_ok by exact Hm. cbn [bind Z.eqb negb]. cbn [while_].
  destruct n as [|n]; [lia|]. cbn [for_]. unfold bal_round at 1. cbn [for_ lval bind]. reflexivity.
Qed.
End K.
