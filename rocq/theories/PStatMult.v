(** Multiple regression and quadric fitting: proofs over the real numbers. *)
From Coq Require Import List Arith ZArith Bool Lia Reals Lra Psatz.
From Verif Require Import Base BaseFacts SpecVec SpecReal SpecMtx SpecStat MVec PVec PVecR NumR
  PMtx PMtxOps PMtxR
  Libm LibmR MMtx MStat PStat PStatReg.
Import ListNotations.
Local Open Scope R_scope.

(** ** zsl_sta_mult_linear_reg and zsl_sta_weighted_mult_linear_reg *)


Lemma col_mat (ys : list R) r tl : length ys = r ->
  Mtx r 1 (cells ys ++ tl) = mat_of r 1 (fun i _ => nth i ys 0) tl.
Proof.
  intros <-. unfold mat_of. f_equal. f_equal. rewrite Nat.mul_1_r.
  rewrite (map_ext _ (fun k => nth k ys 0)) by (intros k; now rewrite Nat.div_1_r).
  now rewrite map_seq_nth.
Qed.

Lemma mat_col r (g : nat -> nat -> R) tl :
  mbuf (mat_of r 1 g tl) = cells (map (fun i => g i 0%nat) (seq 0 r)) ++ tl.
Proof.
  unfold mat_of. cbn [mbuf]. rewrite Nat.mul_1_r. do 2 f_equal. apply map_ext.
  intros k. rewrite Nat.div_1_r. now rewrite Nat.mod_1_r.
Qed.

Lemma ones_loop r : for_ r 0 (fun i v => wr v i f1) (fresh r) = Ok (cells (repeat 1 r)).
Proof.
  pose (G := fun i => cells (repeat 1 i) ++ fresh (T := R) (r - i)).
  replace (fresh r) with (G 0%nat) by (unfold G; now rewrite Nat.sub_0_r).
  rewrite for_fun.
  - unfold G. rewrite Nat.sub_diag. cbn [fresh repeat]. now rewrite app_nil_r.
  - intros i Hi. unfold G. replace (r - i)%nat with (S (r - S i)) by lia.
    cbn [fresh repeat].
    pose proof (@wr_mid R (cells (repeat 1 i)) (fresh (r - S i)) None 1) as E.
    rewrite cells_length, repeat_length in E. cbn [f1 NumR]. unfold fresh in *. rewrite E.
    f_equal. change (1 :: repeat 1 i) with (repeat 1 (S i)).
    replace (repeat 1 (S i)) with (repeat 1 i ++ [1]).
    + rewrite cells_app, <- app_assoc. reflexivity.
    + clear. induction i; cbn; auto. now rewrite IHi.
Qed.

Lemma expand_ones_ok bc r c (f : nat -> nat -> R) tl :
  expand_ones bc (mat_of r c f tl) = Ok (mat_of r (c + 1) (with_ones f) []).
Proof.
  unfold expand_ones. cbn [mrows mcols mat_of]. fold (mat_of r c f tl).
  rewrite mtx_init_empty with (r := r) (c := (c + 1)%nat) by apply room_def. rewrite rest_def. cbn [bind].
  rewrite ones_loop. cbn [bind].
  pose proof (@mtx_set_col_ok R bc r (c + 1) (fun _ _ => f0) [] 0 (repeat 1 r) [] 0
                ltac:(lia) (repeat_length _ _)) as E0.
  rewrite app_nil_r in E0. rewrite E0. cbn [bind]. clear E0.
  match goal with |- context [for_ c 0 ?b _] => set (body := b) end.
  pose (V := fun k : nat => match k with O => cells (repeat 1 r) | S k' => cells (col_of r f k') end).
  assert (LV : forall k, length (V k) = r)
    by (intros [|k]; cbn [V]; rewrite cells_length; [apply repeat_length|apply col_of_length]).
  pose (G := fun k => (V k, mat_of r (c + 1) (fun i j => if (j <=? k)%nat then with_ones f i j else 0) [])).
  match goal with |- context [for_ c 0 body ?s] => replace s with (G 0%nat) end.
  2: { unfold G. cbn [V]. f_equal. apply mat_ext. intros i j Hi Hj.
       destruct j as [|j]; cbn; [|reflexivity].
       rewrite (nth_indep _ 0 1) by (rewrite repeat_length; lia). now rewrite nth_repeat. }
  rewrite for_fun.
  - unfold G. cbn [bind]. f_equal. apply mat_ext. intros i j Hi Hj.
    destruct (Nat.leb_spec j (0 + c)); [reflexivity|lia].
  - intros k Hk. unfold body, G.
    rewrite mtx_get_col_ok by (rewrite ?LV; lia). cbn [bind].
    rewrite (skipn_all2 (V k)) by (rewrite LV; lia).
    rewrite mtx_set_col_ok with (d := 0) by (rewrite ?col_of_length; lia). cbn [bind].
    cbn [V]. rewrite app_nil_r. do 2 f_equal. apply mat_ext. intros i j Hi Hj.
    rewrite nth_col_of by auto.
    destruct (Nat.eqb_spec j (k + 1)) as [->|Hne].
    + destruct (Nat.leb_spec (k + 1) (S k)); [|lia]. rewrite Nat.add_1_r. reflexivity.
    + destruct (Nat.leb_spec j k), (Nat.leb_spec j (S k)); try reflexivity; lia.
Qed.


Lemma rsum_bigsum xs : rsum xs = bigsum (length xs) (fun i => nth i xs 0).
Proof.
  induction xs as [|x xs IH] using rev_ind; [reflexivity|].
  rewrite rsum_app, app_length. cbn [length rsum]. rewrite Nat.add_1_r. cbn [bigsum].
  rewrite nth_middle, IH. rewrite Rplus_0_r. f_equal. apply bigsum_ext.
  intros i Hi. now rewrite app_nth1.
Qed.

Lemma rdot_bigsum xs ys : length xs = length ys ->
  rdot xs ys = bigsum (length xs) (fun i => nth i xs 0 * nth i ys 0).
Proof.
  intros H. rewrite <- rsum_map2, rsum_bigsum, map2_length by auto. apply bigsum_ext.
  intros i Hi. rewrite nth_map2 with (da := 0) (db := 0) by lia. reflexivity.
Qed.

Lemma fit_quality_ok bc r k (x B : nat -> nat -> R) ys ty :
  length ys = r -> (1 <= r)%nat ->
  fit_quality bc r (mat_of r k x []) (mat_of k 1 B [])
    (mat_of r 1 (fun i _ => nth i ys 0) []) (vec_of ys ty)
  = Ok (r_squared r k x ys (fun j => B j 0%nat)).
Proof.
  intros HL Hr. unfold fit_quality.
  rewrite mtx_mult_R by apply room_def. rewrite rest_def. cbn [bind].
  unfold mtx_sub.
  rewrite mtx_zip_ok with (h := fun i j => nth i ys 0 - mmul k x B i j);
    [|apply room_def|reflexivity].
  rewrite rest_def. cbn [bind].
  rewrite sta_mean_R by (intros ->; cbn in HL; lia). cbn [bind].
  match goal with |- context [for_ r 0 ?b _] => set (body := b) end.
  set (e := fun i => nth i ys 0 - mmul k x B i 0).
  pose (G := fun i => (bigsum i (fun i => e i * e i),
                       bigsum i (fun i => (nth i ys 0 - rmean ys) * (nth i ys 0 - rmean ys)))).
  change (f0, f0) with (G 0%nat). rewrite for_fun.
  - unfold G. cbn [bind plus]. unfold r_squared, fit_error.
    rewrite (bigsum_ext r (fun i => 1 * _) (fun i => e i * e i)).
    2: { intros i Hi. unfold e, mmul. ring. }
    rewrite (@rdot_bigsum (dev ys) (dev ys) eq_refl), dev_length, HL.
    rewrite (bigsum_ext r (fun i => nth i (dev ys) 0 * nth i (dev ys) 0)
               (fun i => (nth i ys 0 - rmean ys) * (nth i ys 0 - rmean ys))).
    + reflexivity.
    + intros i Hi. unfold dev.
      rewrite (nth_indep _ 0 ((fun x => x - rmean ys) 0)) by (rewrite map_length; lia).
      now rewrite (map_nth (fun x => x - rmean ys)).
  - intros i Hi. unfold body, G.
    replace i with (i * 1 + 0)%nat at 1 by lia.
    rewrite rd_mat by lia. cbn [bind]. unfold vec_of. cbn [vbuf].
    rewrite rd_cells_app with (d := 0) by lia. cbn [bind lval]. cbn [bigsum]. reflexivity.
Qed.

Section MultReg.
Variables (bc : bool) (r c : nat) (f : nat -> nat -> R) (tl : buf R).
Variables (ys : list R) (ty : buf R) (bb : buf R).
Hypothesis HL : length ys = r.
Hypothesis Hr : (1 <= r)%nat.
Hypothesis Hb : (c + 1 <= length bb)%nat.

Notation X := (with_ones f).


(** the coefficients G X^T D y *)
Definition coeff (r k : nat) (d : nat -> R) (x G : nat -> nat -> R) (y : nat -> R) (j : nat) : R :=
  bigsum r (fun i => bigsum k (fun a => G j a * (x i a * d i)) * y i).

Lemma mult_reg_run det G :
  mtx_deter bc (mat_of (c + 1) (c + 1) (gram r (fun _ => 1) X) []) = Ok (0%Z, Some det) ->
  / 1000000 <= Rabs det ->
  mtx_inv bc (mat_of (c + 1) (c + 1) (gram r (fun _ => 1) X) []) (mtx_def (c + 1) (c + 1))
  = Ok (0%Z, mat_of (c + 1) (c + 1) G []) ->
  let b := coeff r (c + 1) (fun _ => 1) X G (fun i => nth i ys 0) in
  sta_mult_linear_reg bc (mat_of r c f tl) (vec_of ys ty) (Vec (c + 1) bb)
  = Ok (0%Z, (vec_of (map b (seq 0 (c + 1))) (skipn (c + 1) bb),
              Some (r_squared r (c + 1) X ys b))).
Proof.
  intros ED Hd EI b. unfold sta_mult_linear_reg. cbn [mrows mcols mat_of vsz vec_of].
  rewrite HL, !Nat.eqb_refl. cbn [negb orb]. rewrite andb_false_r.
  fold (mat_of r c f tl). rewrite expand_ones_ok. cbn [bind].
  rewrite mtx_trans_ok by apply room_def. rewrite rest_def. cbn [bind].
  rewrite mtx_mult_R by apply room_def. rewrite rest_def. cbn [bind].
  rewrite (@mat_ext _ (c + 1) (c + 1) (mmul r (fun i j => X j i) X) (gram r (fun _ => 1) X))
    by (intros i j _ _; apply bigsum_ext; intros; ring).
  rewrite ED. cbn [bind lval]. rewrite lit_1e6. cbn [flt fabs NumR].
  rewrite Rltb_false by auto. rewrite EI. cbn [bind].
  change (vbuf (vec_of ys ty)) with (cells ys ++ ty).
  rewrite mtx_from_arr_ok with (r := r) (c := 1%nat) by (auto using room_def; lia).
  rewrite rest_def, col_mat by auto. cbn [bind].
  rewrite mtx_mult_R by apply room_def. rewrite rest_def. cbn [bind].
  rewrite mtx_mult_R by apply room_def. rewrite rest_def. cbn [bind].
  rewrite (@mat_ext _ (c + 1) 1 (mmul r _ _) (fun j _ => b j)).
  2: { intros j k _ _. unfold b, coeff, mmul. apply bigsum_ext. intros i Hi. f_equal.
       apply bigsum_ext. intros; ring. }
  unfold vec_from_arr. cbn [vbuf vsz]. rewrite mat_col.
  rewrite blit_cells by (rewrite ?map_length, ?seq_length; lia). cbn [bind].
  rewrite fit_quality_ok by auto. cbn [bind].
  unfold vec_of. rewrite map_length, seq_length. reflexivity.
Qed.

Lemma mult_reg_singular det :
  mtx_deter bc (mat_of (c + 1) (c + 1) (gram r (fun _ => 1) X) []) = Ok (0%Z, Some det) ->
  Rabs det < / 1000000 ->
  sta_mult_linear_reg bc (mat_of r c f tl) (vec_of ys ty) (Vec (c + 1) bb)
  = Ok ((- EINVAL)%Z, (Vec (c + 1) bb, None)).
Proof.
  intros ED Hd. unfold sta_mult_linear_reg. cbn [mrows mcols mat_of vsz vec_of].
  rewrite HL, !Nat.eqb_refl. cbn [negb orb]. rewrite andb_false_r.
  fold (mat_of r c f tl). rewrite expand_ones_ok. cbn [bind].
  rewrite mtx_trans_ok by apply room_def. rewrite rest_def. cbn [bind].
  rewrite mtx_mult_R by apply room_def. rewrite rest_def. cbn [bind].
  rewrite (@mat_ext _ (c + 1) (c + 1) (mmul r (fun i j => X j i) X) (gram r (fun _ => 1) X))
    by (intros i j _ _; apply bigsum_ext; intros; ring).
  rewrite ED. cbn [bind lval]. rewrite lit_1e6. cbn [flt fabs NumR].
  rewrite Rltb_true by auto. reflexivity.
Qed.

Variables (ws : list R) (tw : buf R).
Hypothesis HW : length ws = r.
Hypothesis Hnz : Forall (fun w => / 1000000 <= Rabs w) ws.

Lemma recip_loop :
  for_ r 0 (fun k '(wb, idx) =>
        let! a := rd wb k in
        let! q := fdiv f1 a in
        let! wb := wr wb k q in
        let! (_, idx) := mtx_scalar_mult_row_d bc idx k q in
        Ok (wb, idx)) (cells ws ++ tw, mat_of r r mid [])
  = Ok (cells (map Rinv ws) ++ tw,
        mat_of r r (fun i j => if (i =? j)%nat then / nth i ws 0 else 0) []).
Proof.
  match goal with |- for_ _ _ ?b _ = _ => set (body := b) end.
  pose (G := fun k => (cells (map Rinv (firstn k ws)) ++ cells (skipn k ws) ++ tw,
     mat_of r r (fun i j => if (i =? j)%nat then if (i <? k)%nat then / nth i ws 0 else 1 else 0) [])).
  match goal with |- for_ _ _ _ ?s = _ => replace s with (G 0%nat) end.
  2: { unfold G. cbn [firstn skipn map cells app]. f_equal. }
  rewrite for_fun.
  - unfold G. cbn [plus]. rewrite firstn_all2, skipn_all2 by lia. cbn [cells map app].
    do 2 f_equal. apply mat_ext. intros i j Hi Hj.
    destruct (Nat.ltb_spec i r); [reflexivity|lia].
  - intros k Hk. unfold body, G.
    assert (Lf : length (cells (map Rinv (firstn k ws))) = k)
      by (rewrite cells_length, map_length, firstn_length; lia).
    rewrite (@skipn_cons_nth R ws k 0) by lia. cbn [cells map app].
    assert (Hk0 : nth k ws 0 <> 0).
    { rewrite Forall_forall in Hnz. specialize (Hnz (nth k ws 0) ltac:(apply nth_In; lia)).
      intros E. rewrite E, Rabs_R0 in Hnz. lra. }
    pose proof (@rd_mid R (cells (map Rinv (firstn k ws))) (cells (skipn (S k) ws) ++ tw) (nth k ws 0)) as E1.
    rewrite Lf in E1. unfold cells in E1 at 2. rewrite E1. cbn [bind fdiv f1 NumR].
    rewrite Rdivo_ok by auto. cbn [bind].
    pose proof (@wr_mid R (cells (map Rinv (firstn k ws))) (cells (skipn (S k) ws) ++ tw)
                  (Some (nth k ws 0)) (1 / nth k ws 0)) as E2.
    rewrite Lf in E2. unfold cells in E2 at 2. rewrite E2. cbn [bind].
    rewrite mtx_scalar_mult_row_d_ok by lia. cbn [bind].
    rewrite (@firstn_snoc R ws k 0) by lia. rewrite map_app, cells_app, <- app_assoc.
    cbn [map cells app]. f_equal. f_equal.
    + unfold Rdiv. rewrite Rmult_1_l. reflexivity.
    + apply mat_ext. intros i j Hi Hj. cbn [fmul NumR].
      destruct (Nat.eqb_spec i k) as [->|Hne].
      * destruct (Nat.ltb_spec k (S k)); [|lia]. destruct (Nat.ltb_spec k k); [lia|].
        destruct (k =? j)%nat; [field; auto|ring].
      * destruct (Nat.ltb_spec i k), (Nat.ltb_spec i (S k)); try lia; reflexivity.
Qed.

Lemma mmul_diag_r (g : nat -> nat -> R) (d : nat -> R) i j : (j < r)%nat ->
  mmul r g (fun a b => if (a =? b)%nat then d a else 0) i j = g i j * d j.
Proof.
  intros Hj. unfold mmul.
  rewrite (bigsum_ext r _ (fun k => if (k =? j)%nat then g i k * d k else 0)).
  - now rewrite bigsum_delta.
  - intros k Hk. destruct (k =? j)%nat; ring.
Qed.

Lemma weights_ok :
  (if bc then
     if negb (r =? r)%nat || negb (c + 1 =? c + 1)%nat || negb (r =? r)%nat then Ok true else
     let! z := for_exit r 0 (fun k (_ : unit) =>
         let! a := rd (cells ws ++ tw) k in
         if (fabs a <? flit 1 6)%num then Ok (inr tt) else Ok (inl tt)) tt in
     Ok (match z with inl _ => false | inr _ => true end)
   else Ok false) = Ok false.
Proof.
  destruct bc; auto. rewrite !Nat.eqb_refl. cbn [negb orb].
  rewrite <- HW.
  erewrite for_exit_forall with (test := fun a => negb (Rltb (Rabs a) (/ 1000000))) (r := fun _ => tt) (d := 0).
  - cbn [bind]. f_equal.
    assert (E : forallb (fun a => negb (Rltb (Rabs a) (/ 1000000))) ws = true).
    { apply forallb_forall. intros x Hx. rewrite Forall_forall in Hnz.
      rewrite Rltb_false; auto. }
    rewrite <- find_none_forallb in E. destruct (find _ _); [discriminate|reflexivity].
  - intros i Hi. rewrite rd_cells_app with (d := 0) by lia. cbn [bind]. rewrite lit_1e6.
    cbn [flt fabs NumR]. destruct (Rltb _ _); reflexivity.
Qed.

Lemma wmult_reg_run det G :
  let d := fun i => / nth i ws 0 in
  mtx_deter bc (mat_of (c + 1) (c + 1) (gram r d X) []) = Ok (0%Z, Some det) ->
  / 1000000 <= Rabs det ->
  mtx_inv bc (mat_of (c + 1) (c + 1) (gram r d X) []) (mtx_def (c + 1) (c + 1))
  = Ok (0%Z, mat_of (c + 1) (c + 1) G []) ->
  let b := coeff r (c + 1) d X G (fun i => nth i ys 0) in
  sta_weighted_mult_linear_reg bc (mat_of r c f tl) (vec_of ys ty) (vec_of ws tw) (Vec (c + 1) bb)
  = Ok (0%Z, (vec_of (map Rinv ws) tw, vec_of (map b (seq 0 (c + 1))) (skipn (c + 1) bb),
              Some (r_squared r (c + 1) X ys b))).
Proof.
  intros d ED Hd EI b. unfold sta_weighted_mult_linear_reg. cbn [mrows mcols mat_of vsz vbuf vec_of].
  rewrite HL, HW. rewrite weights_ok. cbn [bind].
  rewrite mtx_init_identity with (r := r) (c := r) by apply room_def. rewrite rest_def. cbn [bind].
  pose proof recip_loop as ER. unfold buf in *. rewrite ER. cbn [bind]. clear ER.
  fold (mat_of r c f tl). rewrite expand_ones_ok. cbn [bind].
  rewrite mtx_trans_ok by apply room_def. rewrite rest_def. cbn [bind].
  rewrite mtx_mult_R by apply room_def. rewrite rest_def. cbn [bind].
  rewrite (@mat_ext _ (c + 1) r (mmul r (fun i j => X j i) _) (fun a i => X i a * d i))
    by (intros i j _ Hj; apply (mmul_diag_r (fun i j => X j i) d i j Hj)).
  rewrite mtx_mult_R by apply room_def. rewrite rest_def. cbn [bind].
  rewrite (@mat_ext _ (c + 1) (c + 1) (mmul r _ X) (gram r d X))
    by (intros i j _ _; apply bigsum_ext; intros; ring).
  rewrite ED. cbn [bind lval]. rewrite lit_1e6. cbn [flt fabs NumR].
  rewrite Rltb_false by auto. rewrite EI. cbn [bind].
  change (vbuf (vec_of ys ty)) with (cells ys ++ ty).
  rewrite mtx_from_arr_ok with (r := r) (c := 1%nat) by (auto using room_def; lia).
  rewrite rest_def, col_mat by auto. cbn [bind].
  rewrite mtx_mult_R by apply room_def. rewrite rest_def. cbn [bind].
  rewrite mtx_mult_R by apply room_def. rewrite rest_def. cbn [bind].
  rewrite (@mat_ext _ (c + 1) 1 (mmul r _ _) (fun j _ => b j)).
  2: { intros j k _ _. unfold b, coeff, mmul. apply bigsum_ext. intros i Hi. f_equal. }
  unfold vec_from_arr. cbn [vbuf vsz]. rewrite mat_col.
  rewrite blit_cells by (rewrite ?map_length, ?seq_length; lia). cbn [bind].
  replace (Vec r (cells ys ++ ty)) with (vec_of ys ty) by (unfold vec_of; now rewrite HL).
  rewrite fit_quality_ok by auto. cbn [bind].
  unfold vec_of. rewrite !map_length, seq_length, HW. reflexivity.
Qed.

End MultReg.

(** ** zsl_sta_quad_fit *)

(** the monomials of a quadric at the point (p i 0, p i 1, p i 2) *)
Definition quad_mono (p : nat -> nat -> R) (i j : nat) : R :=
  nth j (quad_terms (p i 0%nat) (p i 1%nat) (p i 2%nat)) 0.

Lemma quad_row_terms x y z : quad_row x y z = quad_terms x y z.
Proof. unfold quad_row, quad_terms. rewrite lit_20. reflexivity. Qed.

Lemma quad_loop bc r (f : nat -> nat -> R) tl :
  exists v, for_ r 0 (fun i '(mv, x, y) =>
        let! (_, mv) := mtx_get_row bc (mat_of r 3 f tl) i mv in
        let! p := rd mv 0 in
        let! q := rd mv 1 in
        let! s := rd mv 2 in
        let! (_, x) := mtx_set_row bc x i (cells (quad_row p q s)) in
        let! y := wr y i f1 in
        Ok (mv, x, y)) (fresh 3, mtx_def r 9, fresh r)
  = Ok (v, mat_of r 9 (quad_mono f) [], cells (repeat 1 r)).
Proof.
  match goal with |- exists v, for_ _ _ ?b _ = _ => set (body := b) end.
  destruct (room_otab (room_def (T := R) r 9)) as (F & EF). rewrite rest_def in EF.
  destruct (@for_inv _ (fun i s => length (fst (fst s)) = 3%nat
     /\ snd (fst s) = otab r 9 (fun a b => if (a <? i)%nat then Some (quad_mono f a b) else F a b) []
     /\ snd s = cells (repeat 1 i) ++ fresh (T := R) (r - i)) r 0 body (fresh 3, mtx_def r 9, fresh r))
    as (s' & E & P1 & P2 & P3).
  - cbn [fst snd]. repeat split.
    + rewrite EF at 1. apply otab_ext. intros a b Ha Hb. reflexivity.
    + rewrite Nat.sub_0_r. reflexivity.
  - intros i [[mv x] y] Hi (H1 & H2 & H3). cbn [fst snd] in H1, H2, H3.
    unfold body. rewrite mtx_get_row_ok by lia. cbn [bind row_of map seq cells app].
    cbn [rd nth_error bind].
    pose proof (@mtx_set_row_otab R bc r 9 (fun a b => if (a <? i)%nat then Some (quad_mono f a b) else F a b)
      [] i (quad_row (f i 0%nat) (f i 1%nat) (f i 2%nat)) [] 0 ltac:(lia) eq_refl) as E.
    rewrite app_nil_r in E. rewrite H2, E. cbn [bind].
    subst y. replace (r - i)%nat with (S (r - S i)) by lia. cbn [fresh repeat].
    pose proof (@wr_mid R (cells (repeat 1 i)) (fresh (r - S i)) None 1) as E'.
    rewrite cells_length, repeat_length in E'. cbn [f1 NumR]. unfold fresh in E' |- *. rewrite E'.
    cbn [bind]. eexists. split; [reflexivity|]. cbn [fst snd]. repeat split.
    + cbn [length]. rewrite skipn_length, H1. reflexivity.
    + apply otab_ext. intros a b Ha Hb.
      destruct (Nat.eqb_spec a i) as [->|Hne].
      * destruct (Nat.ltb_spec i (S i)); [|lia]. unfold quad_mono. now rewrite quad_row_terms.
      * destruct (Nat.ltb_spec a i), (Nat.ltb_spec a (S i)); try lia; reflexivity.
    + change (1 :: repeat 1 i) with (repeat 1 (S i)).
      replace (repeat 1 (S i)) with (repeat 1 i ++ [1])
        by (clear; induction i; cbn; auto; now rewrite IHi).
      rewrite cells_app, <- app_assoc. reflexivity.
  - destruct s' as [[mv x] y]. cbn [fst snd plus] in P1, P2, P3. exists mv. etransitivity; [exact E|].
    rewrite P2, P3, Nat.sub_diag. cbn [fresh repeat]. rewrite app_nil_r.
    rewrite (@otab_mat R r 9 _ (quad_mono f) []); [reflexivity|]. intros a b Ha Hb.
    destruct (Nat.ltb_spec a r); [reflexivity|lia].
Qed.

Lemma quad_fit_run bc r (f : nat -> nat -> R) tl bb G :
  (9 <= length bb)%nat ->
  mtx_inv bc (mat_of 9 9 (gram r (fun _ => 1) (quad_mono f)) []) (mtx_def 9 9)
  = Ok (0%Z, mat_of 9 9 G []) ->
  sta_quad_fit bc (mat_of r 3 f tl) (Vec 9 bb)
  = Ok (0%Z, vec_of (map (coeff r 9 (fun _ => 1) (quad_mono f) G (fun _ => 1)) (seq 0 9)) (skipn 9 bb)).
Proof.
  intros Hb EI. unfold sta_quad_fit. cbn [mrows mcols mat_of vsz].
  cbn [Nat.eqb negb orb]. rewrite andb_false_r. fold (mat_of r 3 f tl).
  destruct (quad_loop bc r f tl) as (v & E). unfold buf in *. rewrite E. cbn [bind]. clear E v.
  rewrite <- (app_nil_r (cells (repeat 1 r))).
  rewrite col_mat by apply repeat_length.
  rewrite mtx_trans_ok by apply room_def. rewrite rest_def. cbn [bind].
  rewrite mtx_mult_R by apply room_def. rewrite rest_def. cbn [bind].
  rewrite (@mat_ext _ 9 9 (mmul r _ _) (gram r (fun _ => 1) (quad_mono f)))
    by (intros i j _ _; apply bigsum_ext; intros; ring).
  rewrite EI. cbn [bind].
  rewrite mtx_mult_R by apply room_def. rewrite rest_def. cbn [bind].
  rewrite mtx_mult_R by apply room_def. rewrite rest_def. cbn [bind].
  rewrite (@mat_ext _ 9 1 (mmul r _ _) (fun j _ => coeff r 9 (fun _ => 1) (quad_mono f) G (fun _ => 1) j)).
  2: { intros j k _ _. unfold coeff, mmul. apply bigsum_ext. intros i Hi.
       rewrite (nth_indep _ 0 1) by (rewrite repeat_length; lia). rewrite nth_repeat. f_equal.
       apply bigsum_ext. intros; ring. }
  unfold vec_from_arr. cbn [vbuf vsz]. rewrite mat_col.
  rewrite blit_cells by (rewrite ?map_length, ?seq_length; lia). reflexivity.
Qed.
