(** Proofs about the vector model that hold for every arithmetic. *)
From Coq Require Import List Arith ZArith Bool Lia.
From Verif Require Import Base BaseFacts SpecVec MVec.
Import ListNotations.
Set Implicit Arguments.

Lemma map2_length A B C (f : A -> B -> C) xs ys :
  length xs = length ys -> length (map2 f xs ys) = length xs.
Proof. revert ys; induction xs; intros [|y ys]; cbn; intros; try lia. f_equal; auto. Qed.

Lemma nth_map2 A B C (f : A -> B -> C) xs ys i da db dc :
  length xs = length ys -> i < length xs ->
  nth i (map2 f xs ys) dc = f (nth i xs da) (nth i ys db).
Proof.
  revert ys i; induction xs as [|x xs IH]; intros [|y ys] [|i]; cbn; intros; try lia; auto.
  apply IH; lia.
Qed.

Lemma map2_map_seq A B C (f : A -> B -> C) xs ys da db :
  length xs = length ys ->
  map2 f xs ys = map (fun i => f (nth i xs da) (nth i ys db)) (seq 0 (length xs)).
Proof.
  intros H. destruct xs as [|x xs]; [now destruct ys|].
  destruct ys as [|y ys]; [discriminate|].
  apply nth_list_ext with (d := f x y).
  - now rewrite map2_length, map_length, seq_length.
  - intros i Hi. rewrite map2_length in Hi by auto.
    rewrite nth_map_seq by auto. apply nth_map2; auto.
Qed.

Section G.
Context {T : Type} {N : Num T}.
Implicit Types (xs ys zs : list T) (tl tx ty tz : buf T).

Lemma vec_init_ok n (b : buf T) :
  n <= length b -> vec_init (Vec n b) = Ok (0%Z, Vec n (cells (repeat f0 n) ++ skipn n b)).
Proof. intros H. unfold vec_init; cbn. now rewrite zero_fill_ok. Qed.

Lemma vec_from_arr_ok n (b : buf T) xs ta :
  n = length xs -> n <= length b ->
  vec_from_arr (Vec n b) (cells xs ++ ta) = Ok (0%Z, Vec n (cells xs ++ skipn n b)).
Proof. intros Hn H. unfold vec_from_arr; cbn. now rewrite blit_cells. Qed.

Lemma vec_copy_ok n (b : buf T) xs tx :
  length xs <= length b ->
  vec_copy (Vec n b) (vec_of xs tx) = Ok (0%Z, vec_of xs (skipn (length xs) b)).
Proof. intros H. unfold vec_copy, vec_of; cbn. now rewrite blit_cells. Qed.

Lemma vec_copy_overflow n (b : buf T) xs tx :
  length b < length xs ->
  vec_copy (Vec n b) (vec_of xs tx) = UB OOBWrite.
Proof.
  intros H. unfold vec_copy, vec_of; cbn. unfold blit.
  rewrite (proj2 (Nat.leb_le _ _)) by (rewrite app_length, cells_length; lia).
  now rewrite (proj2 (Nat.leb_gt _ _)) by lia.
Qed.

(** ** Element-wise zip over a store *)

Lemma vec_zip_st_ok bc op (st : store T) pv pw px n xs ys tx ty bx :
  nth_error st pv = Some (cells xs ++ tx) -> length xs = n ->
  nth_error st pw = Some (cells ys ++ ty) -> length ys = n ->
  nth_error st px = Some bx -> n <= length bx ->
  vec_zip_st bc op st (VR n pv) (VR n pw) (VR n px)
  = Ok (0%Z, upd st px (cells (map2 op xs ys) ++ skipn n bx)).
Proof.
  intros Ev Lx Ew Ly Ex Lb. unfold vec_zip_st; cbn [rsz rptr].
  rewrite Nat.eqb_refl; cbn [negb orb]. rewrite andb_false_r.
  assert (Hpx : px < length st) by (apply nth_error_Some; congruence).
  destruct (Nat.eq_dec n 0) as [->|Hn0].
  { cbn. destruct xs; [|discriminate]. cbn. now rewrite upd_same. }
  destruct xs as [|x0 xs0] eqn:Exs; [cbn in Lx; lia|]. rewrite <- Exs in *.
  set (g := fun i => op (nth i xs x0) (nth i ys x0)).
  assert (Hm : forall i, i <= n -> firstn i (map2 op xs ys) = map g (seq 0 i)).
  { intros i Hi. rewrite (map2_map_seq op xs ys x0 x0) by lia. fold g.
    rewrite firstn_map. rewrite Lx.
    replace n with (i + (n - i)) at 1 by lia. rewrite seq_app, firstn_app, seq_length, Nat.sub_diag.
    rewrite firstn_O, app_nil_r. rewrite <- (seq_length i 0) at 1. now rewrite firstn_all. }
  set (stt := fun i => upd st px (cells (map g (seq 0 i)) ++ skipn i bx)).
  assert (E0 : st = stt 0) by (unfold stt; cbn; now rewrite upd_same).
  rewrite E0 at 1. rewrite (@for_fun _ stt).
  - cbn [bind Nat.add]. unfold stt. rewrite <- (Hm n) by lia.
    rewrite firstn_all2 by (rewrite map2_length; lia). reflexivity.
  - intros i Hi.
    assert (Hbuf : nth_error (stt i) px = Some (cells (map g (seq 0 i)) ++ skipn i bx)).
    { unfold stt. now apply nth_error_upd_eq. }
    assert (RD : forall p zs tz, nth_error st p = Some (cells zs ++ tz) -> length zs = n ->
               srd (stt i) p i = Ok (nth i zs x0)).
    { intros p zs tz Ep Lz. destruct (Nat.eq_dec p px) as [->|Hne].
      - rewrite (@srd_eq _ _ _ _ _ Hbuf).
        assert (Eb : bx = cells zs ++ tz) by congruence.
        rewrite (@skipn_cons_nth _ bx i None) by lia.
        assert (En : nth i bx None = Some (nth i zs x0)).
        { rewrite Eb, app_nth1 by (rewrite cells_length; lia).
          unfold cells. rewrite nth_indep with (d' := Some x0) by (rewrite map_length; lia).
          now rewrite map_nth. }
        rewrite En.
        pose proof (rd_mid (cells (map g (seq 0 i))) (skipn (S i) bx) (nth i zs x0)) as R.
        rewrite cells_length, map_length, seq_length in R. exact R.
      - assert (Ep' : nth_error (stt i) p = Some (cells zs ++ tz)).
        { unfold stt. rewrite nth_error_upd_ne; auto. }
        rewrite (@srd_eq _ _ _ _ _ Ep'). now rewrite rd_cells_app with (d := x0) by lia. }
    rewrite (RD pv xs tx) by auto. cbn [bind].
    rewrite (RD pw ys ty) by auto. cbn [bind].
    rewrite (@swr_eq _ _ _ _ _ _ Hbuf).
    + unfold stt. rewrite upd_upd. f_equal. f_equal.
      rewrite (@skipn_cons_nth _ bx i None) by lia.
      pose proof (upd_app_mid (cells (map g (seq 0 i))) (skipn (S i) bx) (nth i bx None)
                    (Some (g i))) as U.
      rewrite cells_length, map_length, seq_length in U.
      change (op (nth i xs x0) (nth i ys x0)) with (g i). rewrite U.
      rewrite seq_S, map_app, cells_app, <- app_assoc. reflexivity.
    + rewrite app_length, cells_length, map_length, seq_length, skipn_length. lia.
Qed.

Lemma vec_zip_ok bc op xs ys tx ty (bx : buf T) :
  length xs = length ys -> length xs <= length bx ->
  vec_zip bc op (vec_of xs tx) (vec_of ys ty) (Vec (length xs) bx)
  = Ok (0%Z, vec_of (map2 op xs ys) (skipn (length xs) bx)).
Proof.
  intros L Lb. unfold vec_zip, vec_of; cbn [vsz vbuf]. rewrite <- L.
  erewrite vec_zip_st_ok; try reflexivity; auto.
  cbn. unfold vec_of. now rewrite map2_length.
Qed.

Lemma vec_zip_mismatch op (v w x : vec T) :
  vsz v <> vsz w \/ vsz v <> vsz x ->
  vec_zip true op v w x = Ok ((- EINVAL)%Z, x).
Proof.
  intros H. unfold vec_zip, vec_zip_st; cbn [rsz rptr andb].
  destruct (Nat.eqb_spec (vsz v) (vsz w)), (Nat.eqb_spec (vsz v) (vsz x));
    cbn; try lia; now destruct x.
Qed.

Lemma vec_zip_st_mismatch op (st : store T) (v w x : vref) :
  rsz v <> rsz w \/ rsz v <> rsz x ->
  vec_zip_st true op st v w x = Ok ((- EINVAL)%Z, st).
Proof.
  intros H. unfold vec_zip_st; cbn [andb].
  destruct (Nat.eqb_spec (rsz v) (rsz w)), (Nat.eqb_spec (rsz v) (rsz x));
    cbn; try lia; auto.
Qed.

(** ** In-place map *)

Lemma vec_map_ok (f : T -> outcome T) (g : T -> T) xs tl :
  (forall x, In x xs -> f x = Ok (g x)) ->
  vec_map f (vec_of xs tl) = Ok (vec_of (map g xs) tl).
Proof.
  intros H. unfold vec_map, vec_of; cbn [vsz vbuf].
  assert (G : forall done todo, (forall x, In x todo -> f x = Ok (g x)) ->
    for_ (length todo) (length done) (fun i b =>
              let! a := rd b i in let! y := f a in wr b i y) (cells done ++ cells todo ++ tl)
    = Ok (cells done ++ cells (map g todo) ++ tl)).
  { intros done todo; revert done; induction todo as [|a todo IH]; intros done Hf.
    - reflexivity.
    - cbn [for_ length]. cbn [cells map app].
      pose proof (rd_mid (cells done) (cells todo ++ tl) a) as R. rewrite cells_length in R.
      change (map Some todo) with (cells todo). rewrite R. cbn [bind].
      rewrite Hf by now left. cbn [bind].
      pose proof (wr_mid (cells done) (cells todo ++ tl) (Some a) (g a)) as W.
      rewrite cells_length in W. rewrite W. cbn [bind].
      specialize (IH (done ++ [g a])). rewrite app_length, Nat.add_1_r in IH.
      rewrite cells_app, <- app_assoc in IH. cbn [cells map app] in IH.
      rewrite IH by (intros; apply Hf; now right).
      now rewrite <- app_assoc. }
  specialize (G [] xs H). change (cells []) with (@nil (option T)) in G. cbn [app length] in G.
  rewrite G. cbn [bind]. now rewrite map_length.
Qed.

Lemma vec_neg_ok xs tl :
  vec_neg (vec_of xs tl) = Ok (0%Z, vec_of (map fneg xs) tl).
Proof. unfold vec_neg. rewrite vec_map_ok with (g := fneg); auto. Qed.

Lemma vec_scalar_add_ok xs tl s :
  vec_scalar_add (vec_of xs tl) s = Ok (0%Z, vec_of (map (fun x => fadd x s) xs) tl).
Proof. unfold vec_scalar_add. rewrite vec_map_ok with (g := fun x => fadd x s); auto. Qed.

Lemma vec_scalar_mult_ok xs tl s :
  vec_scalar_mult (vec_of xs tl) s = Ok (0%Z, vec_of (map (fun x => fmul x s) xs) tl).
Proof. unfold vec_scalar_mult. rewrite vec_map_ok with (g := fun x => fmul x s); auto. Qed.

Lemma vec_scalar_div_ok xs tl s (g : T -> T) :
  feq s f0 = false -> (forall x, In x xs -> fdiv x s = Ok (g x)) ->
  vec_scalar_div (vec_of xs tl) s = Ok (0%Z, vec_of (map g xs) tl).
Proof.
  intros H Hg. unfold vec_scalar_div. rewrite H. now rewrite vec_map_ok with (g := g).
Qed.

Lemma vec_scalar_div_zero (v : vec T) s :
  feq s f0 = true -> vec_scalar_div v s = Ok ((- EINVAL)%Z, v).
Proof. intros H. unfold vec_scalar_div. now rewrite H. Qed.

(** ** Reductions *)

Lemma fold_left_map2 (A B C S : Type) (f : A -> B -> C) (h : S -> C -> S)
  (xs : list A) (ys : list B) s da db :
  length xs = length ys ->
  fold_left (fun s i => h s (f (nth i xs da) (nth i ys db))) (seq 0 (length xs)) s
  = fold_left h (map2 f xs ys) s.
Proof.
  intros L. rewrite (map2_map_seq f xs ys da db L).
  generalize (seq 0 (length xs)). intros l; revert s; induction l; cbn; auto.
Qed.

Lemma for_fold_seq S n (step : S -> nat -> S) (body : nat -> S -> outcome S) s :
  (forall i s, i < n -> body i s = Ok (step s i)) ->
  for_ n 0 body s = Ok (fold_left step (seq 0 n) s).
Proof.
  intros H. rewrite <- (seq_length n 0) at 1.
  apply for_fold with (d := 0). intros i s0 Hi. rewrite seq_length in Hi.
  rewrite seq_nth by auto. auto.
Qed.

Lemma dot_loop xs ys tx ty n :
  length xs = n -> length ys = n ->
  for_ n 0 (fun i res =>
                  let! a := rd (cells xs ++ tx) i in
                  let! b := rd (cells ys ++ ty) i in
                  Ok (fadd res (fmul a b))) f0 = Ok (dot xs ys).
Proof.
  intros Lx Ly. unfold dot.
  destruct n as [|n]; [destruct xs; [reflexivity|discriminate]|].
  destruct xs as [|x0 xs0] eqn:E; [discriminate|]. rewrite <- E in *. clear E.
  rewrite <- (fold_left_map2 fmul fadd xs ys f0 x0 x0) by lia. rewrite Lx.
  apply for_fold_seq. intros i s Hi.
  rewrite !rd_cells_app with (d := x0) by lia. reflexivity.
Qed.

Lemma vec_dot_ok bc xs ys tx ty :
  length xs = length ys ->
  vec_dot bc (vec_of xs tx) (vec_of ys ty) = Ok (0%Z, Some (dot xs ys)).
Proof.
  intros L. unfold vec_dot, vec_of; cbn [vsz vbuf]. rewrite <- L, Nat.eqb_refl, andb_false_r.
  now rewrite dot_loop.
Qed.

Lemma vec_dot_mismatch (v w : vec T) :
  vsz v <> vsz w -> vec_dot true v w = Ok ((- EINVAL)%Z, None).
Proof.
  intros H. unfold vec_dot. destruct (Nat.eqb_spec (vsz v) (vsz w)); [contradiction|reflexivity].
Qed.

Lemma vec_sum_of_sqrs_ok bc xs tx :
  vec_sum_of_sqrs bc (vec_of xs tx) = Ok (dot xs xs).
Proof. unfold vec_sum_of_sqrs. now rewrite vec_dot_ok. Qed.

Lemma vec_norm_ok bc xs tx :
  vec_norm bc (vec_of xs tx) = fsqrt (dot xs xs).
Proof. unfold vec_norm, vec_norm_opt. now rewrite vec_sum_of_sqrs_ok. Qed.

Lemma vec_dist_ok bc xs ys tx ty :
  length xs = length ys ->
  vec_dist bc (vec_of xs tx) (vec_of ys ty)
  = fsqrt (dot (map2 fsub xs ys) (map2 fsub xs ys)).
Proof.
  intros L. unfold vec_dist. cbn [vsz vec_of].
  rewrite vec_init_ok by (rewrite fresh_length; lia). cbn [bind].
  rewrite skipn_all2 by (rewrite fresh_length; lia). rewrite app_nil_r.
  unfold vec_sub. rewrite vec_zip_ok by (rewrite ?cells_length, ?repeat_length; lia).
  cbn [bind Z.eqb negb]. apply vec_norm_ok.
Qed.

Lemma vec_dist_mismatch (v w : vec T) :
  vsz v <> vsz w -> vec_dist true v w = Ok fnan.
Proof.
  intros H. unfold vec_dist.
  rewrite vec_init_ok by (rewrite fresh_length; lia). cbn [bind].
  unfold vec_sub. rewrite vec_zip_mismatch by (left; exact H). reflexivity.
Qed.

Lemma total_loop xs tx :
  for_ (length xs) 0 (fun i m => let! a := rd (cells xs ++ tx) i in Ok (fadd m a)) f0
  = Ok (total xs).
Proof.
  unfold total. apply for_fold with (d := f0). intros i s Hi.
  now rewrite rd_cells_app with (d := f0).
Qed.

Lemma vec_ar_mean_ok xs tx :
  xs <> [] ->
  vec_ar_mean (vec_of xs tx)
  = (let! m := fdiv (total xs) (fofZ (Z.of_nat (length xs))) in Ok (0%Z, Some m)).
Proof.
  intros H. unfold vec_ar_mean, vec_of; cbn [vsz vbuf].
  destruct xs as [|x xs]; [contradiction|]. cbn [length].
  rewrite (proj2 (Nat.ltb_ge _ _)) by lia. change (S (length xs)) with (length (x :: xs)).
  now rewrite total_loop.
Qed.

Lemma vec_ar_mean_empty (b : buf T) : vec_ar_mean (Vec 0 b) = Ok ((- EINVAL)%Z, None).
Proof. reflexivity. Qed.

(** ** Reversal *)

Lemma rev_loop_ok fuel a m c tl :
  length m <= fuel -> m <> [] ->
  rev_loop fuel (length a) (length a + length m - 1) (cells (a ++ m ++ c) ++ tl)
  = Ok (cells (a ++ rev m ++ c) ++ tl) :> outcome (buf T).
Proof.
  revert a m c; induction fuel as [|fuel IH]; intros a m c Hf Hm.
  - destruct m; [contradiction|cbn in Hf; lia].
  - destruct m as [|x m]; [contradiction|]. clear Hm.
    destruct (rev m) as [|y r] eqn:Er.
    + assert (m = []) as -> by (rewrite <- (rev_involutive m), Er; reflexivity).
      cbn [length rev_loop]. rewrite (proj2 (Nat.ltb_ge _ _)) by lia. reflexivity.
    + assert (m = rev r ++ [y]) as -> by (rewrite <- (rev_involutive m), Er; reflexivity).
      set (s := rev r) in *.
      cbn [rev_loop]. cbn [length] in *. rewrite app_length in *. cbn [length] in *.
      rewrite (proj2 (Nat.ltb_lt _ _)) by lia.
      set (stop := length a + S (length s + 1) - 1).
      assert (Hstop : stop = length (a ++ x :: s)) by (unfold stop; rewrite app_length; cbn; lia).
      assert (L0 : length (a ++ (x :: s ++ [y]) ++ c) = length a + (length s + 2) + length c).
      { rewrite !app_length. cbn. rewrite !app_length. cbn. lia. }
      rewrite rd_cells_app with (d := x) by lia. cbn [bind].
      rewrite rd_cells_app with (d := x) by lia. cbn [bind].
      cbn [app]. rewrite nth_middle.
      replace (a ++ x :: (s ++ [y]) ++ c) with ((a ++ x :: s) ++ y :: c)
        by (rewrite <- !app_assoc; reflexivity).
      rewrite Hstop at 1. rewrite nth_middle.
      rewrite wr_cells_app by (rewrite !app_length; cbn; rewrite ?app_length; cbn; lia). cbn [bind].
      rewrite <- app_assoc. cbn [app]. rewrite upd_app_mid.
      replace (a ++ y :: s ++ y :: c) with ((a ++ y :: s) ++ y :: c)
        by (rewrite <- app_assoc; reflexivity).
      assert (Hstop' : stop = length (a ++ y :: s)) by (unfold stop; rewrite app_length; cbn; lia).
      rewrite wr_cells_app by (rewrite Hstop', !app_length; cbn; lia). cbn [bind].
      assert (U : upd ((a ++ y :: s) ++ y :: c) stop x = (a ++ y :: s) ++ x :: c)
        by (rewrite Hstop'; apply upd_app_mid).
      rewrite U. clear U.
      destruct s as [|z s'] eqn:Es.
      * (* stop after one exchange *)
        subst stop. cbn [length Nat.add]. cbn in Hstop'.
        destruct fuel; cbn [rev_loop]; rewrite (proj2 (Nat.ltb_ge _ _)) by lia;
          cbn [rev app]; rewrite <- !app_assoc; reflexivity.
      * specialize (IH (a ++ [y]) (z :: s') (x :: c)).
        rewrite app_length in IH. cbn [length] in IH.
        replace (length a + 1) with (S (length a)) in IH by lia.
        replace (stop - 1) with (S (length a) + S (length s') - 1)
          by (unfold stop; cbn [length]; lia).
        cbn [length] in Hf. rewrite <- !app_assoc in IH. rewrite <- !app_assoc. cbn [app] in IH |- *.
        rewrite IH by (try discriminate; lia).
        f_equal. f_equal. f_equal. f_equal.
        change (rev (x :: z :: s' ++ [y])) with (rev ((z :: s') ++ [y]) ++ [x]).
        rewrite rev_app_distr. cbn [rev app]. rewrite <- !app_assoc. reflexivity.
Qed.

Lemma vec_rev_ok xs tl :
  xs <> [] -> vec_rev (vec_of xs tl) = Ok (0%Z, vec_of (rev xs) tl).
Proof.
  intros H. unfold vec_rev, vec_of; cbn [vsz vbuf].
  destruct xs as [|x xs]; [contradiction|]. cbn [length].
  pose proof (@rev_loop_ok (S (length xs)) [] (x :: xs) [] tl) as R.
  cbn [length app Nat.add] in R.
  replace (S (length xs) - 1) with (length xs) in R by lia.
  rewrite app_nil_r in R. rewrite R by (try discriminate; lia). cbn [bind].
  rewrite app_nil_r. now rewrite rev_length.
Qed.

Lemma vec_rev_empty (b : buf T) : vec_rev (Vec 0 b) = UB OOBRead.
Proof. reflexivity. Qed.

(** ** Zeros to the end *)

Lemma last_cons_indep (r : list T) x a b : last (x :: r) a = last (x :: r) b.
Proof. revert x; induction r as [|y r IH]; intros x; [reflexivity|]. apply (IH y). Qed.

Lemma shift_loop (k : list T) a r z :
  for_range (length k) (length k + length r) (fun p b =>
     let! c := rd b (p + 1) in wr b p c) (cells (k ++ a :: r) ++ z)
  = Ok (cells (k ++ r ++ [last r a]) ++ z).
Proof.
  unfold for_range. replace (length k + length r - length k) with (length r) by lia.
  revert k a; induction r as [|x r IH]; intros k a; cbn [length for_]; auto.
  assert (L : length (k ++ a :: x :: r) = length k + S (S (length r))) by (rewrite app_length; reflexivity).
  rewrite rd_cells_app with (d := a) by lia. cbn [bind].
  replace (nth (length k + 1) (k ++ a :: x :: r) a) with x.
  2:{ rewrite app_nth2 by lia. now replace (length k + 1 - length k) with 1 by lia. }
  rewrite wr_cells_app by lia. cbn [bind]. rewrite upd_app_mid.
  specialize (IH (k ++ [x]) x). rewrite app_length, Nat.add_1_r in IH.
  rewrite <- !app_assoc in IH. cbn [app] in IH. rewrite IH.
  f_equal. f_equal. f_equal. f_equal. cbn [app]. f_equal. f_equal. f_equal. cbn [last].
  destruct r; [reflexivity|]. apply last_cons_indep.
Qed.

Lemma vec_zte_ok xs tl :
  vec_zte (vec_of xs tl)
  = Ok (0%Z, vec_of (filter (fun a => negb (zte_test a)) xs
                     ++ repeat f0 (length (filter zte_test xs))) tl).
Proof.
  unfold vec_zte, vec_of; cbn [vsz vbuf].
  set (kept := fun l => filter (fun a => negb (zte_test a)) l).
  set (nz := fun l => length (filter zte_test l)).
  set (body := fun g '(b, x) => _).
  assert (G : forall done todo, xs = done ++ todo ->
     for_ (length todo) (length done) body
       (cells (kept done ++ todo ++ repeat f0 (nz done)) ++ tl, nz done)
     = Ok (cells (kept xs ++ repeat f0 (nz xs)) ++ tl, nz xs)).
  { intros done todo; revert done; induction todo as [|a todo IH]; intros done E.
    - cbn. rewrite app_nil_r in E. now subst done.
    - cbn [for_ length].
      assert (Hk : length done = length (kept done) + nz done).
      { unfold kept, nz. clear. induction done as [|b l IHl]; cbn; auto.
        destruct (zte_test b); cbn; lia. }
      assert (Hlen : length xs = length done + S (length todo)).
      { rewrite E, app_length. reflexivity. }
      specialize (IH (done ++ [a])).
      rewrite app_length, Nat.add_1_r in IH.
      assert (E' : xs = (done ++ [a]) ++ todo) by (now rewrite <- app_assoc).
      specialize (IH E').
      unfold body at 1. cbv beta iota.
      replace (length done - nz done) with (length (kept done)) by lia.
      rewrite rd_cells_app with (d := a) by (rewrite !app_length; cbn; lia).
      cbn [bind app]. rewrite nth_middle.
      destruct (zte_test a) eqn:Ez.
      + replace (length xs - 1) with (length (kept done) + length (todo ++ repeat f0 (nz done)))
          by (rewrite app_length, repeat_length; lia).
        rewrite shift_loop. cbn [bind].
        set (r := todo ++ repeat f0 (nz done)).
        rewrite wr_cells_app by (rewrite !app_length; cbn; lia). cbn [bind].
        replace (length (kept done) + length r) with (length (kept done ++ r))
          by (rewrite app_length; lia).
        rewrite app_assoc. rewrite upd_app_mid.
        assert (Ek : kept (done ++ [a]) = kept done).
        { unfold kept. rewrite filter_app. cbn. rewrite Ez. cbn. apply app_nil_r. }
        assert (En : nz (done ++ [a]) = S (nz done)).
        { unfold nz. rewrite filter_app. cbn. rewrite Ez. rewrite app_length. cbn. lia. }
        rewrite Ek, En in IH.
        replace ((kept done ++ r) ++ [f0]) with (kept done ++ todo ++ repeat f0 (S (nz done))).
        { exact IH. }
        unfold r. rewrite <- !app_assoc. f_equal. f_equal.
        now rewrite <- repeat_cons.
      + cbn [bind].
        assert (Ek : kept (done ++ [a]) = kept done ++ [a]).
        { unfold kept. rewrite filter_app. cbn. rewrite Ez. reflexivity. }
        assert (En : nz (done ++ [a]) = nz done).
        { unfold nz. rewrite filter_app. cbn. rewrite Ez. now rewrite app_nil_r. }
        rewrite Ek, En in IH. rewrite <- app_assoc in IH. cbn [app] in IH. exact IH. }
  specialize (G [] xs eq_refl). cbn [length app kept nz filter] in G.
  change (repeat f0 0) with (@nil T) in G. rewrite app_nil_r in G.
  unfold buf in *. rewrite G. cbn [bind]. f_equal. f_equal. f_equal.
  rewrite app_length, repeat_length. unfold kept, nz.
  clear. induction xs as [|b l IHl]; cbn; auto. destruct (zte_test b); cbn; lia.
Qed.

(** ** Predicates *)

Lemma forallb_map2_seq xs ys (p : T -> T -> bool) x0 :
  length xs = length ys ->
  forallb (fun i => p (nth i xs x0) (nth i ys x0)) (seq 0 (length xs))
  = forallb (fun b => b) (map2 p xs ys).
Proof.
  intros L. rewrite (map2_map_seq p xs ys x0 x0 L).
  generalize (seq 0 (length xs)). intros l; induction l; cbn; auto. now rewrite IHl.
Qed.

Lemma vec_is_equal_ok xs ys tx ty eps :
  length xs = length ys ->
  vec_is_equal (vec_of xs tx) (vec_of ys ty) eps
  = Ok (forallb (fun b => b)
          (map2 (fun a b => negb (fge (fsub a b) eps || fge (fneg (fsub a b)) eps)) xs ys)).
Proof.
  intros L. unfold vec_is_equal, vec_of; cbn [vsz vbuf]. rewrite <- L, Nat.eqb_refl. cbn [negb].
  destruct xs as [|x0 xs0] eqn:E; [reflexivity|]. rewrite <- E in *. clear E.
  set (p := fun a b => negb (fge (fsub a b) eps || fge (fneg (fsub a b)) eps)).
  rewrite <- (forallb_map2_seq xs ys p x0 L).
  rewrite <- (seq_length (length xs) 0) at 1.
  erewrite for_exit_forall with (test := fun i => p (nth i xs x0) (nth i ys x0)) (r := fun _ => false) (d := 0).
  - cbn [bind]. f_equal. rewrite <- find_none_forallb. destruct (find _ _); reflexivity.
  - intros i Hi. rewrite seq_length in Hi. rewrite seq_nth by auto. cbn [Nat.add].
    rewrite !rd_cells_app with (d := x0) by lia. cbn [bind]. unfold p.
    destruct (fge _ eps || fge _ eps); reflexivity.
Qed.

Lemma vec_is_equal_mismatch (v w : vec T) eps :
  vsz v <> vsz w -> vec_is_equal v w eps = Ok false.
Proof.
  intros H. unfold vec_is_equal. destruct (Nat.eqb_spec (vsz v) (vsz w)); [contradiction|reflexivity].
Qed.

Lemma vec_is_nonneg_ok xs tx :
  vec_is_nonneg (vec_of xs tx) = Ok (forallb (fun a => negb (flt a f0)) xs).
Proof.
  unfold vec_is_nonneg, vec_of; cbn [vsz vbuf].
  erewrite for_exit_forall with (test := fun a => negb (flt a f0)) (r := fun _ => false) (d := f0).
  - cbn [bind]. f_equal. rewrite <- find_none_forallb. destruct (find _ _); reflexivity.
  - intros i Hi. rewrite rd_cells_app with (d := f0) by lia. cbn [bind].
    destruct (flt _ f0); reflexivity.
Qed.

Definition near (val eps a : T) : bool :=
  flt (fsub a val) eps && flt (fneg (fsub a val)) eps.

Lemma vec_contains_ok xs tx val eps :
  vec_contains (vec_of xs tx) val eps = Ok (length (filter (near val eps) xs)).
Proof.
  unfold vec_contains, vec_of; cbn [vsz vbuf].
  rewrite for_fold with (l := xs) (d := f0)
    (step := fun c a => if near val eps a then S c else c).
  - f_equal. assert (G : forall c, fold_left (fun c a => if near val eps a then S c else c) xs c
        = c + length (filter (near val eps) xs)).
    { induction xs as [|a l IH]; intros c; cbn; [lia|].
      rewrite IH. destruct (near val eps a); cbn; lia. }
    apply G.
  - intros i s Hi. now rewrite rd_cells_app with (d := f0) by lia.
Qed.

(** ** Cross product and projection *)

Lemma vec_cross_ok bc a1 a2 a3 b1 b2 b3 ta tb c1 c2 c3 tc :
  vec_cross bc (vec_of [a1; a2; a3] ta) (vec_of [b1; b2; b3] tb) (Vec 3 (c1 :: c2 :: c3 :: tc))
  = Ok (0%Z, vec_of [fsub (fmul a2 b3) (fmul a3 b2);
                     fsub (fmul a3 b1) (fmul a1 b3);
                     fsub (fmul a1 b2) (fmul a2 b1)] tc).
Proof. unfold vec_cross, vec_cross_st, vec_of; cbn. rewrite andb_false_r. reflexivity. Qed.

Lemma vec_cross_mismatch (v w c : vec T) :
  vsz v <> 3 \/ vsz w <> 3 \/ vsz c <> 3 ->
  vec_cross true v w c = Ok ((- EINVAL)%Z, c).
Proof.
  intros H. unfold vec_cross, vec_cross_st; cbn [rsz rptr andb].
  destruct (Nat.eqb_spec (vsz v) 3), (Nat.eqb_spec (vsz w) 3), (Nat.eqb_spec (vsz c) 3);
    cbn; try lia; now destruct c.
Qed.

Lemma sdot_ok (st : store T) n p q xs ys tx ty :
  nth_error st p = Some (cells xs ++ tx) -> nth_error st q = Some (cells ys ++ ty) ->
  length xs = n -> length ys = n -> sdot st n p q = Ok (dot xs ys).
Proof.
  intros Ep Eq Lx Ly. unfold sdot. rewrite <- (@dot_loop xs ys tx ty n Lx Ly).
  apply for_ext. intros i s Hi. now rewrite (@srd_eq _ _ _ _ _ Ep), (@srd_eq _ _ _ _ _ Eq).
Qed.

Lemma vec_project_ok bc us vs tu tv (bw : buf T) :
  length us = length vs -> length us <= length bw ->
  vec_project bc (vec_of us tu) (vec_of vs tv) (Vec (length us) bw)
  = (let! s := fdiv (dot vs us) (dot us us) in
     Ok (0%Z, vec_of (map (fun x => fmul x s) us) (skipn (length us) bw))).
Proof.
  intros L Lb. unfold vec_project, vec_project_st, vec_of; cbn [vsz vbuf rsz rptr].
  rewrite <- L, Nat.eqb_refl. cbn [negb orb]. rewrite andb_false_r.
  unfold sblit. cbn [nth_error]. rewrite blit_cells by auto. cbn [bind upd].
  erewrite sdot_ok; [|reflexivity|reflexivity|auto|auto]. cbn [bind].
  erewrite sdot_ok; [|reflexivity|reflexivity|auto|auto]. cbn [bind].
  destruct (fdiv (dot vs us) (dot us us)) as [s| | |]; cbn [bind]; auto.
  assert (G : forall done todo t2,
    for_ (length todo) (length done) (fun i st =>
         let! a := srd st 2 i in swr st 2 i (fmul a s))
      [cells us ++ tu; cells vs ++ tv; cells (done ++ todo) ++ t2]
    = Ok [cells us ++ tu; cells vs ++ tv; cells (done ++ map (fun x => fmul x s) todo) ++ t2]).
  { intros done todo; revert done; induction todo as [|a todo IH]; intros done t2; cbn [for_ length]; auto.
    unfold srd at 1. cbn [nth_error].
    rewrite rd_cells_app with (d := a) by (rewrite app_length; cbn; lia).
    cbn [bind]. rewrite nth_middle. unfold swr at 1. cbn [nth_error].
    rewrite wr_cells_app by (rewrite app_length; cbn; lia). cbn [bind upd].
    rewrite upd_app_mid. specialize (IH (done ++ [fmul a s]) t2).
    rewrite app_length, Nat.add_1_r in IH. rewrite <- !app_assoc in IH. exact IH. }
  specialize (G [] us (skipn (length us) bw)). cbn [app length] in G.
  unfold store, buf in *. rewrite G. cbn. now rewrite map_length.
Qed.

Lemma vec_project_mismatch (u v w : vec T) :
  vsz v <> vsz w \/ vsz v <> vsz u ->
  vec_project true u v w = Ok ((- EINVAL)%Z, w).
Proof.
  intros H. unfold vec_project, vec_project_st; cbn [rsz rptr andb].
  destruct (Nat.eqb_spec (vsz v) (vsz w)), (Nat.eqb_spec (vsz v) (vsz u));
    cbn; try lia; now destruct w.
Qed.

(** ** Normalisation *)

Lemma vec_to_unit_eq bc xs tx :
  vec_to_unit bc (vec_of xs tx) =
  (let! norm := fsqrt (dot xs xs) in
   if fne norm f0 then
     let! s := fdiv f1 norm in Ok (0%Z, vec_of (map (fun x => fmul x s) xs) tx)
   else match xs with
        | [] => let! b := wr tx 0 f1 in Ok (0%Z, Vec 0 b)
        | _ :: r => Ok (0%Z, vec_of (f1 :: repeat f0 (length r)) tx)
        end).
Proof.
  unfold vec_to_unit. rewrite vec_norm_ok.
  destruct (fsqrt (dot xs xs)) as [n| | |]; cbn [bind]; auto.
  destruct (fne n f0); cbn [bind].
  - destruct (fdiv f1 n); cbn [bind]; auto. now rewrite vec_scalar_mult_ok.
  - unfold vec_of at 1. rewrite vec_init_ok by (rewrite app_length, cells_length; lia).
    cbn [bind vbuf vsz].
    rewrite skipn_app, cells_length, Nat.sub_diag, skipn_all2 by (rewrite cells_length; lia).
    cbn [app skipn]. destruct xs as [|x xs]; cbn [length repeat cells map app]; auto.
    cbn. unfold vec_of. cbn. now rewrite repeat_length.
Qed.

(** ** Sum of several vectors *)

Lemma nth_vec_ok (vs : list (vec T)) i d : i < length vs -> nth_vec vs i = Ok (nth i vs d).
Proof. intros H. unfold nth_vec. now rewrite (nth_error_nth' vs d H). Qed.

Lemma add_loop ws ys tw ty n :
  length ws = n -> length ys = n ->
  for_ n 0 (fun j b => let! a := rd b j in let! c := rd (cells ys ++ ty) j in wr b j (fadd a c))
     (cells ws ++ tw) = Ok (cells (map2 fadd ws ys) ++ tw).
Proof.
  intros Lw Ly.
  assert (G : forall d1 d2 t1 t2, length d1 = length d2 -> length t1 = length t2 -> ys = d2 ++ t2 ->
    for_ (length t1) (length d1)
      (fun j b => let! a := rd b j in let! c := rd (cells ys ++ ty) j in wr b j (fadd a c))
      (cells (d1 ++ t1) ++ tw) = Ok (cells (d1 ++ map2 fadd t1 t2) ++ tw)).
  { intros d1 d2 t1; revert d1 d2; induction t1 as [|a t1 IH]; intros d1 d2 t2 L1 L2 E.
    - destruct t2; [|discriminate]. reflexivity.
    - destruct t2 as [|c t2]; [discriminate|]. cbn [for_ length map2].
      rewrite rd_cells_app with (d := a) by (rewrite app_length; cbn; lia).
      cbn [bind]. rewrite nth_middle.
      rewrite rd_cells_app with (d := a) by (rewrite E, app_length; cbn; lia).
      cbn [bind].
      replace (nth (length d1) ys a) with c by (rewrite E, L1, nth_middle; reflexivity).
      rewrite wr_cells_app by (rewrite app_length; cbn; lia). cbn [bind]. rewrite upd_app_mid.
      specialize (IH (d1 ++ [fadd a c]) (d2 ++ [c]) t2).
      rewrite !app_length, Nat.add_1_r in IH. rewrite <- !app_assoc in IH.
      apply IH; auto. cbn in *. lia. }
  specialize (G [] [] ws ys eq_refl). cbn [length app] in G. rewrite Lw in G.
  apply G; auto; lia.
Qed.

Lemma vec_sum_ok bc (xss : list (list T)) tys ws tw n sz :
  xss <> [] -> length tys = length xss -> n = length xss ->
  Forall (fun xs => length xs = sz) xss -> length ws = sz ->
  vec_sum bc (map2 vec_of xss tys) n (Vec sz (cells ws ++ tw))
  = Ok (0%Z, vec_of (fold_left (map2 fadd) xss ws) tw).
Proof.
  intros Hne Lt -> Hall Lw. unfold vec_sum.
  destruct xss as [|xs0 xss0] eqn:E; [contradiction|]. rewrite <- E in *.
  assert (Hn : 0 < length xss) by (subst; cbn; lia).
  rewrite (proj2 (Nat.eqb_neq _ _)) by lia.
  set (vs := map2 vec_of xss tys).
  assert (Lv : length vs = length xss) by (unfold vs; rewrite map2_length; auto).
  set (dv := vec_of xs0 (@nil (option T))).
  assert (Hsz : forall i, i < length xss -> vsz (nth i vs dv) = sz).
  { intros i Hi. unfold vs. rewrite nth_map2 with (da := xs0) (db := ([] : buf T)) by lia. cbn.
    rewrite Forall_forall in Hall. apply Hall. now apply nth_In. }
  rewrite nth_vec_ok with (d := dv) by lia. cbn [bind]. rewrite Hsz by lia.
  assert (Hchk : (if bc then
        for_exit (length xss) 0 (fun i (_ : unit) =>
          let! vi := nth_vec vs i in
          if negb (sz =? vsz vi) then Ok (inr tt) else Ok (inl tt)) tt
      else Ok (inl tt)) = Ok (inl tt)).
  { destruct bc; auto. rewrite <- (seq_length (length xss) 0).
    erewrite for_exit_forall with (test := fun _ => true) (r := fun _ => tt) (d := 0).
    - f_equal. clear. induction (seq 0 (length xss)); cbn; auto.
    - intros i Hi. rewrite seq_length in Hi.
      rewrite nth_vec_ok with (d := dv) by lia. cbn [bind]. rewrite Hsz by lia.
      now rewrite Nat.eqb_refl. }
  rewrite Hchk. cbn [bind vbuf].
  assert (G : forall done todo ws, xss = done ++ todo -> length ws = sz ->
    for_ (length todo) (length done) (fun i b =>
       let! vi := nth_vec vs i in
       for_ sz 0 (fun j b => let! a := rd b j in let! c := rd (vbuf vi) j in wr b j (fadd a c)) b)
       (cells ws ++ tw) = Ok (cells (fold_left (map2 fadd) todo ws) ++ tw)
    /\ length (fold_left (map2 fadd) todo ws) = sz).
  { intros done todo; revert done; induction todo as [|ys todo IH]; intros done ws1 Ed L1.
    - cbn; auto.
    - cbn [for_ length fold_left].
      assert (Ld : length done < length xss) by (rewrite Ed, app_length; cbn; lia).
      assert (Ei : nth_vec vs (length done) = Ok (vec_of ys (nth (length done) tys []))).
      { rewrite nth_vec_ok with (d := dv) by lia.
        f_equal. unfold vs. rewrite nth_map2 with (da := xs0) (db := ([] : buf T)) by lia.
        now rewrite Ed, nth_middle. }
      rewrite Ei. cbn [bind vbuf vec_of].
      assert (Lys : length ys = sz).
      { rewrite Forall_forall in Hall. apply Hall. rewrite Ed. apply in_app_iff. right. now left. }
      rewrite add_loop by auto. cbn [bind].
      specialize (IH (done ++ [ys]) (map2 fadd ws1 ys)).
      rewrite app_length, Nat.add_1_r in IH. apply IH.
      + now rewrite <- app_assoc.
      + rewrite map2_length; lia. }
  destruct (G [] xss ws eq_refl Lw) as [G1 G2]. cbn [length] in G1. rewrite G1. cbn [bind].
  unfold vec_of. now rewrite G2.
Qed.

Lemma vec_sum_zero bc vs (w : vec T) : vec_sum bc vs 0 w = Ok ((- EINVAL)%Z, w).
Proof. reflexivity. Qed.

Lemma vec_sum_mismatch (vs : list (vec T)) w n i j :
  n = length vs -> i < n -> j < n ->
  (forall d, vsz (nth i vs d) <> vsz (nth j vs d)) ->
  vec_sum true vs n w = Ok ((- EINVAL)%Z, w).
Proof.
  intros -> Hi Hj Hne. unfold vec_sum.
  rewrite (proj2 (Nat.eqb_neq _ _)) by lia.
  destruct vs as [|v0 vs0] eqn:E; [cbn in Hi; lia|]. rewrite <- E in *.
  rewrite nth_vec_ok with (d := v0) by lia. cbn [bind].
  assert (H0 : nth 0 vs v0 = v0) by (now rewrite E). rewrite H0.
  erewrite for_exit_forall with (l := vs) (test := fun v => (vsz v0 =? vsz v)) (r := fun _ => tt) (d := v0).
  - cbn [bind]. destruct (find _ vs) eqn:Ef; auto. exfalso.
    assert (A : forall k, k < length vs -> vsz v0 = vsz (nth k vs v0)).
    { intros k Hk. pose proof (find_none _ _ Ef (nth k vs v0) (nth_In vs v0 Hk)) as Q.
      cbn beta in Q. apply negb_false_iff, Nat.eqb_eq in Q. exact Q. }
    apply (Hne v0). rewrite <- A, <- A by auto. reflexivity.
  - intros k Hk. rewrite nth_vec_ok with (d := v0) by lia. cbn [bind].
    destruct (vsz v0 =? _); reflexivity.
Qed.

(** ** Subset *)

Lemma vec_get_subset_ok W xs tx off len ns (bs : buf T) :
  (0 <= off < Z.of_nat (length xs))%Z -> (0 <= len)%Z -> (off + len < W)%Z ->
  ns <= length bs ->
  let l := Nat.min (Z.to_nat len) (length xs - Z.to_nat off) in
  l <= ns ->
  vec_get_subset true W (vec_of xs tx) off len (Vec ns bs)
  = Ok (0%Z, vec_of (firstn l (skipn (Z.to_nat off) xs)) (skipn l bs)).
Proof.
  intros Hoff Hlen HW Hns l Hl. unfold vec_get_subset; cbn [vsz vbuf vec_of].
  rewrite (proj2 (Z.leb_gt _ _)) by lia.
  rewrite Z.mod_small by lia.
  assert (El : (if (Z.of_nat (length xs) <=? off + len)%Z then (Z.of_nat (length xs) - off)%Z else len)
               = Z.of_nat l).
  { unfold l. destruct (Z.leb_spec (Z.of_nat (length xs)) (off + len)); lia. }
  rewrite El.
  rewrite (proj2 (Z.ltb_ge _ _)) by lia. cbn [vsz vbuf].
  assert (Hll : Z.to_nat off + l <= length xs) by (unfold l; lia).
  rewrite (proj2 (Z.ltb_ge _ _)) by (rewrite app_length, cells_length; lia).
  rewrite Nat2Z.id.
  rewrite blit_ok by (rewrite ?app_length, ?cells_length; lia). cbn [bind firstn app].
  rewrite skipn_app, cells_length. replace (Z.to_nat off - length xs) with 0 by lia.
  cbn [skipn].
  unfold vec_of. f_equal. f_equal.
  assert (L1 : length (firstn l (skipn (Z.to_nat off) xs)) = l).
  { rewrite firstn_length, skipn_length. lia. }
  rewrite L1. f_equal.
  - destruct (Z.ltb_spec (Z.of_nat l) (Z.of_nat ns)); lia.
  - cbn [Nat.add]. f_equal.
    unfold cells. rewrite firstn_app, skipn_map, firstn_map, map_length, skipn_length.
    replace (l - (length xs - Z.to_nat off)) with 0 by lia. cbn [firstn]. now rewrite app_nil_r.
Qed.

Lemma vec_get_subset_einval W xs tx off len ns (bs : buf T) :
  (0 <= off < W)%Z -> (0 <= len < W)%Z ->
  (* both vectors are objects in memory: together they are smaller than the address space *)
  (Z.of_nat (length xs) + Z.of_nat ns <= W)%Z ->
  (Z.of_nat (length xs) <= off)%Z
  \/ (off + len < W)%Z /\ ns < Nat.min (Z.to_nat len) (length xs - Z.to_nat off)
  \/ (W <= off + len)%Z ->
  vec_get_subset true W (vec_of xs tx) off len (Vec ns bs) = Ok ((- EINVAL)%Z, Vec ns bs).
Proof.
  intros Hoff Hlen HW H. unfold vec_get_subset; cbn [vsz vbuf vec_of].
  destruct (Z.leb_spec (Z.of_nat (length xs)) off) as [|Ho]; auto.
  destruct H as [H|[[H1 H2]|H]]; [lia| |].
  - rewrite Z.mod_small by lia.
    destruct (Z.leb_spec (Z.of_nat (length xs)) (off + len));
      rewrite (proj2 (Z.ltb_lt _ _)) by lia; auto.
  - replace ((off + len) mod W)%Z with (off + len - W)%Z.
    2:{ symmetry. rewrite <- (Z_mod_plus_full (off + len) (-1)).
        rewrite Z.mod_small; lia. }
    rewrite (proj2 (Z.leb_gt _ _)) by lia.
    rewrite (proj2 (Z.ltb_lt _ _)) by lia. auto.
Qed.

End G.
