(** Mode, time-weighted mean, weighted median: proofs over the real numbers. *)
From Coq Require Import List Arith ZArith Bool Lia Reals Lra Psatz Permutation Sorted.
From Verif Require Import Base BaseFacts SpecVec SpecReal SpecStat MVec PVec PVecR PSort NumR
  Libm LibmR MMtx MStat PStat PStatOrd.
Import ListNotations.
Local Open Scope R_scope.

Lemma for_fun_at S (g : nat -> S) n lo (body : nat -> S -> outcome S) s :
  s = g lo -> (forall i, (lo <= i < lo + n)%nat -> body i (g i) = Ok (g (Datatypes.S i))) ->
  for_ n lo body s = Ok (g (lo + n)%nat).
Proof. intros ->. apply for_fun. Qed.

(** ** Counting with a finer tolerance *)

Lemma lit_1e7 : flit 1 7 = / 10000000 :> R.
Proof. cbn [flit NumR]. change 7%Z with (Z.of_nat 7). rewrite Rlit_frac. lra. Qed.

Lemma near_fine eps x a : 0 < eps <= 1 / 100000 -> apart a x -> near x eps a = true <-> a = x.
Proof.
  intros He Ha. rewrite near_R. split.
  - intros H. destruct Ha as [|Ha]; [auto|lra].
  - intros ->. rewrite Rminus_diag_eq, Rabs_R0 by auto. lra.
Qed.
Lemma count_fine eps xs x : 0 < eps <= 1 / 100000 ->
  (forall a, In a xs -> apart a x) -> length (filter (near x eps) xs) = occ x xs.
Proof.
  intros He. unfold occ. induction xs as [|a xs IH]; intros H; cbn [filter count_occ]; auto.
  pose proof (@near_fine eps x a He (H a (or_introl eq_refl))) as Ha.
  destruct (Req_EM_T a x) as [E|E].
  - rewrite (proj2 Ha E). cbn [length]. rewrite IH; auto. intros; apply H; right; auto.
  - destruct (near x eps a) eqn:En; [exfalso; apply E, Ha; auto|].
    apply IH. intros; apply H; right; auto.
Qed.

(** ** Collecting the distinct values *)

(** the third loop of zsl_sta_mode *)
Lemma distinct_loop (zs : list R) tz n tw :
  separated zs -> (length zs <= n)%nat ->
  exists D,
  for_ (length zs) 0 (fun i '(w, count) =>
        let! a := rd (cells zs ++ tz) i in
        if (a >=? flit 1 5)%num || (a <=? flit 1 5)%num then
          let! c := vec_contains w a (flit 1 5) in
          if (c =? 0)%nat then
            let! b := wr (vbuf w) count a in
            Ok (Vec (vsz w) b, S count)
          else Ok (w, count)
        else Ok (w, count)) (vec_of (repeat 0 n) tw, 0%nat)
  = Ok (vec_of (D ++ repeat 0 (n - length D)) tw, length D)
  /\ NoDup D /\ ~ In 0 D /\ (length D <= length zs)%nat
  /\ forall x, In x D <-> In x zs /\ x <> 0.
Proof.
  intros Hsep Hn.
  pose (Q := fun (j : nat) (s : vec R * nat) => exists D,
          s = (vec_of (D ++ repeat 0 (n - length D)) tw, length D)
          /\ NoDup D /\ ~ In 0 D /\ (length D <= j)%nat
          /\ forall x, In x D <-> In x (firstn j zs) /\ x <> 0).
  match goal with |- exists D, for_ ?nn ?lo ?body ?s0 = _ /\ _ =>
    destruct (@for_inv _ Q nn lo body s0) as (s' & E & HQ) end.
  { exists []. cbn [length app]. rewrite Nat.sub_0_r. split; auto. split; [constructor|].
    split; auto. split; auto. intros x. cbn. intuition. }
  { intros j s Hj (D & -> & HDn & HD0 & HDl & HDin).
    rewrite rd_cells_app with (d := 0) by lia. cbn [bind].
    set (a := nth j zs 0).
    assert (Hain : In a zs) by (apply nth_In; lia).
    assert (Et : ((a >=? flit 1 5)%num || (a <=? flit 1 5)%num)%bool = true).
    { unfold fge. cbn [fle NumR]. destruct (Rleb_spec (flit 1 5) a), (Rleb_spec a (flit 1 5)); auto.
      exfalso; lra. }
    rewrite Et. rewrite vec_contains_ok. cbn [bind].
    assert (Hj' : firstn (S j) zs = firstn j zs ++ [a]).
    { unfold a. apply firstn_snoc. lia. }
    assert (HDzs : forall x, In x D -> In x zs).
    { intros x Hx. apply HDin in Hx as [Hx _]. rewrite <- (firstn_skipn j zs).
      apply in_or_app; auto. }
    assert (Hap : forall b, In b (D ++ repeat 0 (n - length D)) -> apart b a).
    { intros b Hb. apply Hsep; [|right; auto].
      apply in_app_or in Hb as [Hb|Hb]; [right; auto|].
      apply repeat_spec in Hb. subst. left; auto. }
    rewrite filter_near_count by auto.
    destruct (Nat.eqb_spec (count_occ Req_EM_T (D ++ repeat 0 (n - length D)) a) 0) as [Hc|Hc].
    - apply count_occ_not_In in Hc.
      assert (Hza : a <> 0).
      { intros E0. apply Hc. apply in_or_app. right. rewrite E0.
        replace (n - length D)%nat with (S (n - length D - 1)) by lia. left; auto. }
      unfold vec_of at 1 2; cbn [vbuf vsz]. rewrite wr_cells_app
        by (rewrite app_length, repeat_length; lia). cbn [bind].
      eexists. split; [reflexivity|]. exists (D ++ [a]). split; [|split; [|split; [|split]]].
      + unfold vec_of. f_equal; [|rewrite app_length; cbn; lia].
        f_equal.
        * rewrite !app_length, !repeat_length. cbn. lia.
        * f_equal. f_equal. replace (n - length D)%nat with (S (n - length (D ++ [a])))
            by (rewrite app_length; cbn; lia).
          cbn [repeat]. rewrite upd_app_mid, <- app_assoc. reflexivity.
      + apply Permutation_NoDup with (l := a :: D); [apply Permutation_cons_append|].
        constructor; auto. intros Hin. apply Hc. apply in_or_app; auto.
      + intros Hin. apply in_app_or in Hin as [Hin|[Hin|[]]]; auto.
      + rewrite app_length. cbn. lia.
      + intros x. rewrite Hj', !in_app_iff, HDin. cbn. intuition (subst; auto).
    - eexists. split; [reflexivity|]. exists D. split; auto. split; auto. split; auto. split; [lia|].
      intros x. rewrite Hj', !in_app_iff, HDin. cbn [In].
      split; [intuition|]. intros [[H|[<-|[]]] H0]; auto.
      assert (In a D) as HaD.
      { assert (In a (D ++ repeat 0 (n - length D))) as Hin.
        { apply (count_occ_In Req_EM_T). lia. }
        apply in_app_or in Hin as [Hin|Hin]; auto. apply repeat_spec in Hin. contradiction. }
      apply HDin in HaD. tauto. }
  rewrite E. destruct HQ as (D & -> & H1 & H2 & H3 & H4). exists D. split; [reflexivity|].
  split; [exact H1|]. split; [exact H2|]. split; [lia|]. now rewrite Nat.add_0_l, firstn_all in H4.
Qed.

(** ** The mode *)

Lemma filter_len {A} (f : A -> bool) l : (length (filter f l) <= length l)%nat.
Proof. induction l as [|a l IH]; cbn; [lia|]. destruct (f a); cbn; lia. Qed.

Definition maxn (l : list nat) : nat := fold_left (fun m c => if (m <? c)%nat then c else m) l 0%nat.
Lemma maxn_spec l : (forall c, In c l -> c <= maxn l)%nat /\ (l <> [] -> In (maxn l) l).
Proof.
  unfold maxn.
  enough (G : forall l m, (m <= fold_left (fun m c => if (m <? c)%nat then c else m) l m)%nat
      /\ (forall c, In c l -> c <= fold_left (fun m c => if (m <? c)%nat then c else m) l m)%nat
      /\ (In (fold_left (fun m c => if (m <? c)%nat then c else m) l m) l
          \/ fold_left (fun m c => if (m <? c)%nat then c else m) l m = m)).
  { destruct (G l 0%nat) as (A & B & C). split; [exact B|]. intros N. destruct C as [C|C]; [exact C|].
    destruct l as [|c l]; [contradiction|]. pose proof (B c (or_introl eq_refl)) as D.
    rewrite C in *. assert (c = 0%nat) as -> by lia. now left. }
  clear l. induction l as [|c l IH]; intros m; cbn [fold_left].
  - split; [lia|]. split; [intros ? []|]. now right.
  - destruct (Nat.ltb_spec m c); [destruct (IH c) as (A & B & C) | destruct (IH m) as (A & B & C)].
    + split; [lia|]. split; [intros d [<-|D]; auto|]. left. destruct C as [C|C]; [now right|].
      left. now symmetry.
    + split; [lia|]. split; [intros d [<-|D]; [lia|auto]|]. destruct C as [C|C]; [left; now right | now right].
Qed.

Lemma mode_ok bc xs tx (w : vec R) :
  separated xs -> vsz w = length xs -> (length xs <= length (vbuf w))%nat ->
  exists ms rest, sta_mode bc (vec_of xs tx) w = Ok (0%Z, vec_of ms rest)
  /\ NoDup ms /\ forall x, In x ms <-> In x xs /\ forall y, (occ y xs <= occ x xs)%nat.
Proof.
  intros Hsep Hw Hb. unfold sta_mode. change (vsz (vec_of xs tx)) with (length xs).
  rewrite Hw, Nat.eqb_refl. rewrite andb_false_r. cbv zeta.
  destruct w as [n b]; cbn [vsz vbuf] in *. subst n.
  rewrite vec_init_ok by auto. cbn [bind].
  set (tw := skipn (length xs) b). set (cnt := fun x => occ x xs).
  assert (Hap : forall x, In x (0 :: xs) -> forall a, In a xs -> apart a x).
  { intros x Hx a Ha. apply Hsep; auto. right; auto. }
  (* counting *)
  set (mx := maxn (map cnt xs)).
  match goal with |- exists _ _, (let! (a, b) := for_ ?nn ?lo ?body ?s0 in _) = _ /\ _ =>
    destruct (@for_inv _ (fun i s => s = (cells (map (fun x => IZR (Z.of_nat (cnt x))) (firstn i xs))
        ++ fresh (length xs - i), maxn (map cnt (firstn i xs)))) nn lo body s0) as (s' & E & HQ) end.
  { cbn [firstn map cells app]. now rewrite Nat.sub_0_r. }
  { intros i s Hi ->. unfold vec_of; cbn [vbuf]. rewrite rd_cells_app with (d := 0) by lia. cbn [bind].
    set (a := nth i xs 0). change (Vec (length xs) (cells xs ++ tx)) with (vec_of xs tx).
    rewrite vec_contains_ok. cbn [bind]. rewrite lit_1e7, count_fine; [|lra|].
    2:{ apply Hap. right. apply nth_In. lia. }
    replace (length xs - i)%nat with (S (length xs - S i)) by lia. cbn [fresh repeat].
    set (c1 := cells (map (fun x => IZR (Z.of_nat (cnt x))) (firstn i xs))).
    assert (L1 : length c1 = i) by (unfold c1; rewrite cells_length, map_length, firstn_length; lia).
    pose proof (@wr_mid R c1 (repeat None (length xs - S i)) None (fofZ (Z.of_nat (occ a xs)))) as W.
    rewrite L1 in W. rewrite W. clear W. cbn [bind]. eexists. split; [reflexivity|].
    rewrite (@firstn_snoc _ xs i 0) by lia. fold a. rewrite !map_app, cells_app, <- app_assoc. cbn [map app cells].
    unfold maxn. rewrite fold_left_app. cbn [fold_left]. reflexivity. }
  match goal with |- exists _ _, bind ?a _ = _ /\ _ => replace a with (Ok s') by (symmetry; exact E) end.
  clear E. rewrite HQ. clear HQ s'. cbn [bind]. rewrite Nat.add_0_l, firstn_all, Nat.sub_diag.
  fold mx. cbn [fresh repeat]. rewrite app_nil_r.
  (* the candidates *)
  set (top := fun x => (cnt x =? mx)%nat).
  match goal with |- exists _ _, (let! (a, b) := for_ ?nn ?lo ?body ?s0 in _) = _ /\ _ =>
    destruct (@for_inv _ (fun i s => s = (cells (filter top (firstn i xs))
        ++ fresh (length xs - length (filter top (firstn i xs))), length (filter top (firstn i xs)))) nn lo body s0)
      as (s' & E & HQ) end.
  { cbn [firstn filter cells app length map]. now rewrite Nat.sub_0_r. }
  { intros i s Hi ->. rewrite rd_cells with (d := 0) by (rewrite map_length; lia). cbn [bind].
    set (F := fun x => IZR (Z.of_nat (cnt x))).
    rewrite (nth_indep _ 0 (F 0)) by (rewrite map_length; lia). rewrite map_nth. unfold F. clear F.
    set (a := nth i xs 0). cbn [feq NumR fofZ].
    rewrite (@firstn_snoc _ xs i 0) by lia. fold a. rewrite filter_app. cbn [filter].
    assert (Et : Reqb (IZR (Z.of_nat (cnt a))) (IZR (Z.of_nat mx)) = top a).
    { unfold top. destruct (Nat.eqb_spec (cnt a) mx) as [->|N].
      - now apply Reqb_true.
      - apply Reqb_false. intros Q. apply eq_IZR in Q. lia. }
    rewrite Et. destruct (top a).
    - unfold vec_of; cbn [vbuf]. rewrite rd_cells_app with (d := 0) by lia. fold a. cbn [bind].
      assert (LF : (length (filter top (firstn i xs)) <= i)%nat).
      { etransitivity; [apply filter_len|]. rewrite firstn_length. lia. }
      replace (length xs - length (filter top (firstn i xs)))%nat
        with (S (length xs - length (filter top (firstn i xs) ++ [a]))) by (rewrite app_length; cbn; lia).
      cbn [fresh repeat]. 
      pose proof (@wr_mid R (cells (filter top (firstn i xs)))
        (repeat None (length xs - length (filter top (firstn i xs) ++ [a]))) None a) as W.
      rewrite cells_length in W. rewrite W. clear W. cbn [bind].
      eexists. split; [reflexivity|]. f_equal; [|rewrite app_length; cbn; lia].
      rewrite cells_app, <- app_assoc. reflexivity.
    - eexists. split; [reflexivity|]. rewrite app_nil_r. reflexivity. }
  match goal with |- exists _ _, bind ?a _ = _ /\ _ => replace a with (Ok s') by (symmetry; exact E) end.
  clear E. rewrite HQ. clear HQ s'. cbn [bind]. rewrite Nat.add_0_l, firstn_all.
  set (zs := filter top xs).
  assert (Lz : (length zs <= length xs)%nat) by apply filter_len.
  assert (Sz : separated zs).
  { intros x y Hx Hy. apply Hsep; cbn [In] in *; unfold zs in *; rewrite !filter_In in *; tauto. }
  change (Vec (length xs) (cells (repeat f0 (length xs)) ++ tw))
    with (Vec (length xs) (cells (repeat 0 (length xs)) ++ tw)).
  replace (Vec (length xs) (cells (repeat 0 (length xs)) ++ tw)) with (vec_of (repeat 0 (length xs)) tw)
    by (unfold vec_of; now rewrite repeat_length).
  destruct (distinct_loop zs (fresh (length xs - length zs)) (length xs) tw Sz Lz)
    as (D & E & HDn & HD0 & HDl & HDin).
  match goal with |- exists _ _, bind ?a _ = _ /\ _ =>
    replace a with (Ok (vec_of (D ++ repeat 0 (length xs - length D)) tw, length D)) by (symmetry; exact E) end.
  clear E. cbn [bind].
  change (Vec (length zs) (cells zs ++ fresh (length xs - length zs))) with (vec_of zs (fresh (length xs - length zs))).
  rewrite vec_contains_ok. cbn [bind f0 NumR].
  rewrite filter_near_count.
  2:{ intros a Ha. apply Sz; [now right | now left]. }
  assert (Top : forall x, In x zs <-> In x xs /\ forall y, (occ y xs <= occ x xs)%nat).
  { intros x. unfold zs. rewrite filter_In. unfold top, mx.
    destruct (maxn_spec (map cnt xs)) as [M1 M2].
    split; intros [Hx Hc]; (split; [exact Hx|]).
    - apply Nat.eqb_eq in Hc. intros y. destruct (in_dec Req_EM_T y xs) as [Hy|Hy].
      + change (occ x xs) with (cnt x). rewrite Hc. apply M1. apply in_map_iff. now exists y.
      + apply (count_occ_not_In Req_EM_T) in Hy. unfold occ at 1. rewrite Hy. lia.
    - apply Nat.eqb_eq. assert (N : map cnt xs <> []) by (destruct xs; [destruct Hx | discriminate]).
      apply M2 in N. apply in_map_iff in N. destruct N as (y & Ey & Hy).
      pose proof (M1 (cnt x) (in_map cnt xs x Hx)). specialize (Hc y). unfold cnt in *. lia. }
  set (ms := if in_dec Req_EM_T 0 zs then D ++ [0] else D).
  assert (Hms : forall x, In x ms <-> In x zs).
  { intros x. unfold ms. destruct (in_dec Req_EM_T 0 zs) as [H0|H0].
    - rewrite in_app_iff, HDin. cbn. destruct (Req_EM_T x 0) as [->|N0]; [tauto|].
      split; [intros [[? _]|[?|[]]]; auto; congruence|tauto].
    - rewrite HDin. split; [tauto|]. intros Hx. split; auto. intros ->; auto. }
  assert (Nms : NoDup ms).
  { unfold ms. destruct (in_dec Req_EM_T 0 zs); auto.
    apply Permutation_NoDup with (l := 0 :: D); [apply Permutation_cons_append|]. constructor; auto. }
  assert (Lms : (length ms <= length xs)%nat).
  { transitivity (length zs); [|exact Lz]. apply NoDup_incl_length; auto. intros x Hx. now apply Hms. }
  exists ms, (cells (repeat 0 (length xs - length ms)) ++ tw). split; [|split; [exact Nms|]].
  - f_equal. f_equal. unfold vec_of; cbn [vbuf]. f_equal.
    + unfold ms. destruct (in_dec Req_EM_T 0 zs) as [H0|H0].
      * apply (count_occ_In Req_EM_T) in H0. rewrite (proj2 (Nat.ltb_lt _ _)) by lia.
        rewrite app_length. cbn. lia.
      * apply (count_occ_not_In Req_EM_T) in H0. rewrite H0. reflexivity.
    + rewrite app_assoc. f_equal. rewrite <- cells_app. f_equal. unfold ms in *. destruct (in_dec Req_EM_T 0 zs) as [H0|H0]; auto.
      rewrite app_length in *. cbn [length] in *.
      replace (length xs - length D)%nat with (S (length xs - (length D + 1))) by lia. cbn [repeat].
      now rewrite <- app_assoc.
  - intros x. rewrite Hms. apply Top.
Qed.

(** ** Time-weighted mean *)


Definition before (p q : R * R) : Prop := fst p < fst q.

Lemma trap_sum (qs : list (R * R)) :
  trapezoids qs = rsum (map (fun j => (fst (nth (S j) qs (0, 0)) - fst (nth j qs (0, 0)))
     * (snd (nth (S j) qs (0, 0)) + snd (nth j qs (0, 0))) / 2) (seq 0 (length qs - 1))).
Proof.
  induction qs as [|p qs IH]; [reflexivity|]. destruct qs as [|q qs]; [reflexivity|].
  change (trapezoids (p :: q :: qs)) with ((fst q - fst p) * (snd p + snd q) / 2 + trapezoids (q :: qs)).
  rewrite IH. replace (length (p :: q :: qs) - 1)%nat with (S (length (q :: qs) - 1)) by (cbn; lia).
  cbn [seq map rsum nth]. f_equal; [lra|]. rewrite <- seq_shift, map_map. reflexivity.
Qed.

Lemma sep_near6 (x y : R) : apart x y -> (fabs (x - y) <? flit 1 6)%num = Reqb x y.
Proof.
  intros H. rewrite lit_1e6. cbn [flt NumR fabs fsub]. destruct (Reqb_spec x y) as [->|N].
  - apply Rltb_true. rewrite Rminus_diag_eq, Rabs_R0 by auto. lra.
  - apply Rltb_false. destruct H; [contradiction|lra].
Qed.

Lemma NoDup_le1 (t : list R) x : NoDup t -> (occ x t <= 1)%nat.
Proof. intros H. now apply (NoDup_count_occ Req_EM_T). Qed.

Lemma twm_ok bc W (g : R) fuel ps qs tv tt' :
  separated (map fst ps) -> NoDup (map fst ps) -> (1 <= length ps)%nat ->
  (2 * length ps <= fuel)%nat -> (Z.of_nat (length ps) <= W)%Z ->
  (bc = true -> Forall (fun p => 0 <= snd p) ps) ->
  Permutation ps qs -> StronglySorted before qs ->
  sta_time_weighted_mean bc W fuel (Some g) (vec_of (map snd ps) tv) (vec_of (map fst ps) tt')
  = let! m := Rdivo (trapezoids qs) (fst (nth (length qs - 1) qs (0, 0)) - fst (nth 0 qs (0, 0))) in
    Ok (0%Z, Some m).
Proof.
  intros Hsep Hnd Hne Hf HW Hpos HP HS. unfold sta_time_weighted_mean.
  set (t := map fst ps) in *. set (v := map snd ps).
  set (n := length ps) in *.
  assert (Lt : length t = n) by apply map_length. assert (Lv : length v = n) by apply map_length.
  change (vsz (vec_of v tv)) with (length v). change (vsz (vec_of t tt')) with (length t).
  assert (Eb : (if bc then
                 if negb (length v =? length t)%nat then Ok true else
                 let! neg := any_neg (length v) (vbuf (vec_of v tv)) in
                 if neg : bool then Ok true else
                 let! r := for_exit (length t) 0 (fun i (_ : unit) =>
                     let! a := rd (vbuf (vec_of t tt')) i in
                     let! c := vec_contains (vec_of t tt') a (flit 1 6) in
                     if (1 <? c)%nat then Ok (inr tt) else Ok (inl tt)) tt in
                 Ok (match r with inl _ => false | inr _ => true end)
               else Ok false) = Ok false).
  { destruct bc; [|reflexivity]. rewrite Lv, Lt, Nat.eqb_refl. cbn [negb].
    unfold vec_of at 1; cbn [vbuf]. rewrite <- Lv. rewrite any_neg_R.
    rewrite (proj2 (forallb_nonneg v)).
    2:{ specialize (Hpos eq_refl). unfold v. rewrite Forall_map. exact Hpos. }
    cbn [bind negb]. rewrite Lv, <- Lt.
    rewrite (@for_exit_forall unit R (fun _ => true) (fun _ => tt) t 0).
    - cbn [negb bind]. destruct (find (fun _ => false) t) eqn:F; [|reflexivity].
      apply find_some in F. destruct F; discriminate.
    - intros i Hi. unfold vec_of at 1; cbn [vbuf]. rewrite rd_cells_app with (d := 0) by lia. cbn [bind].
      rewrite vec_contains_ok. cbn [bind]. rewrite lit_1e6, count_fine; [|lra|].
      2:{ intros a Ha. apply Hsep; right; [exact Ha|]. apply nth_In. lia. }
      pose proof (NoDup_le1 t (nth i t 0) Hnd). rewrite (proj2 (Nat.ltb_ge _ _)) by lia. reflexivity. }
  rewrite Eb. clear Eb. cbn [bind].
  (* sorting *)
  destruct (vec_sort_ok g t tt' (length t) (fresh (length t)) fuel) as (ts & E & P & S);
    try (rewrite fresh_length); try lia; auto; try (intros ->; cbn in Lt; lia).
  unfold vdef. rewrite E. clear E. rewrite skipn_all2 by (rewrite fresh_length; lia). rewrite app_nil_r.
  assert (Lq : length qs = n) by (symmetry; now apply Permutation_length).
  assert (ts = map fst qs) as ->.
  { apply sort_unique; auto.
    - clear -HS. induction HS as [|p qs S IH F]; cbn; constructor; auto.
      rewrite Forall_map. revert F. apply Forall_impl. intros q. unfold before. lra.
    - transitivity t; [now symmetry|]. now apply Permutation_map. }
  cbn [bind vbuf].
  (* pairing *)
  set (tq := map fst qs). set (vq := map snd qs).
  assert (Ltq : length tq = n) by (unfold tq; now rewrite map_length).
  assert (Lvq : length vq = n) by (unfold vq; now rewrite map_length).
  assert (Ev : for_ (length t) 0 (fun i vs =>
        for_ (length t) 0 (fun g vs =>
          let! a := rd (cells tq) i in
          let! b := rd (vbuf (vec_of t tt')) g in
          if (fabs (a - b) <? flit 1 6)%num then
            let! c := rd (vbuf (vec_of v tv)) g in wr vs i c
          else Ok vs) vs) (fresh (length v)) = Ok (cells vq)).
  { rewrite (@for_fun_at _ (fun i => cells (firstn i vq) ++ fresh (n - i)) (length t) 0).
    - rewrite Nat.add_0_l, Lt, <- Lvq, firstn_all, Nat.sub_diag. cbn [fresh repeat]. now rewrite app_nil_r.
    - cbn [firstn cells map app]. now rewrite Nat.sub_0_r, Lv.
    - intros i Hi. set (p := nth i qs (0, 0)).
      assert (Ip : In p ps) by (apply (Permutation_in _ (Permutation_sym HP)), nth_In; lia).
      destruct (In_nth _ _ (0, 0) Ip) as (g0 & Hg0 & Eg0). fold n in Hg0.
      set (b0 := cells (firstn i vq) ++ fresh (n - i)).
      assert (Lb0 : length b0 = n).
      { unfold b0. rewrite app_length, cells_length, firstn_length, fresh_length. lia. }
      match goal with |- for_ ?nn ?lo ?body ?s0 = _ =>
        destruct (@for_inv _ (fun g s => s = if (g <=? g0)%nat then b0 else upd b0 i (Some (snd p))) nn lo body s0)
          as (s' & E & HQ) end.
      { reflexivity. }
      { intros k s Hk ->. rewrite rd_cells with (d := 0) by lia. unfold vec_of; cbn [vbuf].
        rewrite rd_cells_app with (d := 0) by lia. cbn [bind].
        replace (nth i tq 0) with (fst p) by (unfold tq, p; symmetry; apply (map_nth fst qs (0, 0))).
        rewrite sep_near6.
        2:{ apply Hsep; right; [unfold t; now apply in_map | apply nth_In; lia]. }
        destruct (Reqb_spec (fst p) (nth k t 0)) as [Ek|Ek].
        - assert (k = g0) as ->.
          { apply (proj1 (NoDup_nth t 0) Hnd); [lia|lia|]. rewrite <- Ek, <- Eg0. unfold t. symmetry.
            apply (map_nth fst ps (0, 0)). }
          rewrite rd_cells_app with (d := 0) by lia. cbn [bind].
          rewrite (proj2 (Nat.leb_le g0 g0)) by lia. rewrite wr_ok by lia. eexists. split; [reflexivity|].
          rewrite (proj2 (Nat.leb_gt _ _)) by lia. do 2 f_equal. rewrite <- Eg0. unfold v.
          apply (map_nth snd ps (0, 0)).
        - assert (k <> g0).
          { intros ->. apply Ek. rewrite <- Eg0. unfold t. symmetry. apply (map_nth fst ps (0, 0)). }
          eexists. split; [reflexivity|].
          destruct (Nat.leb_spec k g0), (Nat.leb_spec (Datatypes.S k) g0); try lia; reflexivity. }
      match goal with |- ?a = _ => replace a with (Ok s') by (symmetry; exact E) end. rewrite HQ. f_equal.
      rewrite (proj2 (Nat.leb_gt _ _)) by lia. unfold b0.
      replace (n - i)%nat with (Datatypes.S (n - Datatypes.S i)) by lia. cbn [fresh repeat].
      assert (Lc : length (cells (firstn i vq)) = i) by (rewrite cells_length, firstn_length; lia).
      pose proof (upd_app_mid (cells (firstn i vq)) (repeat None (n - Datatypes.S i)) (None : option R) (Some (snd p))) as W1.
      rewrite Lc in W1. rewrite W1. rewrite (@firstn_snoc _ vq i 0) by lia. rewrite cells_app, <- app_assoc.
      cbn [cells map app]. unfold vq, p. now rewrite (map_nth snd qs (0, 0)). }
  match goal with |- bind ?a _ = _ => replace a with (Ok (cells vq)) by (symmetry; exact Ev) end.
  clear Ev. cbn [bind].
  (* the area *)
  assert (Es : for_ (length t - 1) 1 (fun j s =>
        let! a := rd (cells tq) j in
        let! b := rd (cells tq) (j - 1) in
        let! c := rd (cells vq) j in
        let! d := rd (cells vq) (j - 1) in
        let! q := fdiv ((a - b) * (c + d))%num (flit 20 1) in
        Ok (s + q)%num) f0 = Ok (trapezoids qs)).
  { rewrite trap_sum, Lq, Lt.
    set (G := fun j => (fst (nth (Datatypes.S j) qs (0, 0)) - fst (nth j qs (0, 0)))
       * (snd (nth (Datatypes.S j) qs (0, 0)) + snd (nth j qs (0, 0))) / 2).
    rewrite (@for_fun_at _ (fun j => rsum (map G (seq 0 (j - 1)))) (n - 1) 1).
    - do 4 f_equal. lia.
    - reflexivity.
    - intros j Hj. rewrite !rd_cells with (d := 0) by lia. cbn [bind].
      rewrite lit_20. cbn [fdiv NumR]. rewrite Rdivo_ok by lra. cbn [bind]. f_equal.
      replace (Datatypes.S j - 1)%nat with (Datatypes.S (j - 1)) by lia.
      rewrite seq_S, map_app, rsum_app. cbn [map rsum]. cbn [fadd fsub fmul NumR]. unfold G.
      rewrite Nat.add_0_l. replace (Datatypes.S (j - 1)) with j by lia.
      replace (nth j tq 0) with (fst (nth j qs (0, 0))) by (symmetry; apply (map_nth fst qs (0, 0))).
      replace (nth (j - 1) tq 0) with (fst (nth (j - 1) qs (0, 0))) by (symmetry; apply (map_nth fst qs (0, 0))).
      replace (nth j vq 0) with (snd (nth j qs (0, 0))) by (symmetry; apply (map_nth snd qs (0, 0))).
      replace (nth (j - 1) vq 0) with (snd (nth (j - 1) qs (0, 0))) by (symmetry; apply (map_nth snd qs (0, 0))).
      lra. }
  rewrite Es. clear Es. cbn [bind].
  rewrite Z.mod_small by lia. rewrite rdz_nat by lia.
  replace (Z.to_nat (Z.of_nat (length t) - 1)) with (n - 1)%nat by lia.
  rewrite !rd_cells with (d := 0) by lia. cbn [bind fdiv fsub NumR]. rewrite Lq.
  replace (nth (n - 1) tq 0) with (fst (nth (n - 1) qs (0, 0))) by (symmetry; apply (map_nth fst qs (0, 0))).
  replace (nth 0 tq 0) with (fst (nth 0 qs (0, 0))) by (symmetry; apply (map_nth fst qs (0, 0))).
  reflexivity.
Qed.

Lemma trap_bounds qs lo hi : StronglySorted before qs -> qs <> [] ->
  Forall (fun p => lo <= snd p <= hi) qs ->
  let d := fst (nth (length qs - 1) qs (0, 0)) - fst (nth 0 qs (0, 0)) in
  lo * d <= trapezoids qs <= hi * d /\ 0 <= d /\ ((2 <= length qs)%nat -> 0 < d).
Proof.
  induction 1 as [|p qs S IH F]; [contradiction|]. intros _ B. inversion_clear B as [|? ? B1 B2].
  destruct qs as [|q qs].
  - cbn. split; [lra|]. split; [lra|]. intros; lia.
  - specialize (IH ltac:(discriminate) B2). cbv zeta in *.
    inversion_clear F as [|? ? F1 _]. inversion_clear B2 as [|? ? B2' _]. unfold before in F1.
    change (trapezoids (p :: q :: qs)) with ((fst q - fst p) * (snd p + snd q) / 2 + trapezoids (q :: qs)).
    replace (length (p :: q :: qs) - 1)%nat with (Datatypes.S (length (q :: qs) - 1)) by (cbn; lia).
    change (nth (Datatypes.S (length (q :: qs) - 1)) (p :: q :: qs) (0, 0))
      with (nth (length (q :: qs) - 1) (q :: qs) (0, 0)).
    set (l := nth (length (q :: qs) - 1) (q :: qs) (0, 0)) in *.
    change (nth 0 (p :: q :: qs) (0, 0)) with p. change (nth 0 (q :: qs) (0, 0)) with q in IH.
    destruct IH as (IH & IH0 & _). split; [|split; [lra | intros _; lra]].
    assert (A : (fst q - fst p) * (snd p + snd q) / 2 <= hi * (fst q - fst p)) by nra.
    assert (A' : lo * (fst q - fst p) <= (fst q - fst p) * (snd p + snd q) / 2) by nra.
    lra.
Qed.

(** ** Weighted median *)

Lemma firstn_cum (ws : list R) k : (k < length ws)%nat ->
  rsum (firstn (S k) ws) = rsum (firstn k ws) + nth k ws 0.
Proof. intros H. rewrite (@firstn_snoc _ ws k 0) by auto. rewrite rsum_app. cbn. lra. Qed.

Lemma rsum_split (ws : list R) k : rsum ws = rsum (firstn k ws) + rsum (skipn k ws).
Proof. rewrite <- rsum_app, firstn_skipn. reflexivity. Qed.

(** the scan stops at the first index where more than half is reached *)
Lemma wmed_scan (ws : list R) tw fuel k :
  rsum (firstn k ws) <= 1 / 2 -> 1 / 2 < rsum ws -> Forall (fun w => 0 <= w) ws ->
  (k <= length ws)%nat -> (length ws - k < fuel)%nat ->
  exists j, wmed_loop fuel (cells ws ++ tw) k (rsum (firstn k ws))
    = Ok (S j, rsum (firstn (S j) ws))
  /\ (j < length ws)%nat /\ rsum (firstn j ws) <= 1 / 2 /\ 1 / 2 < rsum (firstn (S j) ws).
Proof.
  revert k; induction fuel as [|fuel IH]; intros k Hk Ht Hp Hl Hf; [lia|].
  assert (k < length ws)%nat.
  { destruct (Nat.eq_dec k (length ws)) as [->|]; [rewrite firstn_all in Hk; lra | lia]. }
  cbn [wmed_loop]. rewrite lit_05. cbn [fle NumR].
  rewrite (Rleb_true _ _ Hk). rewrite rd_cells_app with (d := 0) by auto. cbn [bind].
  change (rsum (firstn k ws) + nth k ws 0)%num with (rsum (firstn k ws) + nth k ws 0).
  rewrite <- firstn_cum by auto.
  destruct (Rle_dec (rsum (firstn (S k) ws)) (1 / 2)) as [L|L].
  - apply IH; auto; lia.
  - exists k. split; [|repeat split; auto; lra].
    destruct fuel as [|fuel]; [lia|]. cbn [wmed_loop]. rewrite lit_05. cbn [fle NumR].
    now rewrite (Rleb_false (rsum (firstn (S k) ws)) (1 / 2)) by lra.
Qed.

Lemma weight_of_le test xs ws k : length xs = length ws -> Forall (fun w => 0 <= w) ws ->
  (forall i, (i < length xs)%nat -> test (nth i xs 0) = true -> (i < k)%nat) ->
  weight_of test xs ws <= rsum (firstn k ws).
Proof.
  unfold weight_of. revert ws k; induction xs as [|x xs IH]; intros [|w ws] k L P H; try discriminate L.
  - cbn. destruct k; cbn; lra.
  - inversion_clear P as [|? ? P1 P2]. cbn [map2 rsum].
    destruct k as [|k].
    + pose proof (H 0%nat ltac:(cbn; lia)) as H0. cbn [nth] in H0. destruct (test x); [specialize (H0 eq_refl); lia|].
      assert (B := IH ws 0%nat ltac:(now injection L) P2).
      cbn [firstn rsum] in *. enough (rsum (map2 (fun x w => if test x then w else 0) xs ws) <= 0) by lra.
      apply B. intros i Hi Ti. specialize (H (S i) ltac:(cbn; lia) Ti). lia.
    + cbn [firstn rsum].
      assert (B : rsum (map2 (fun x w => if test x then w else 0) xs ws) <= rsum (firstn k ws)).
      { apply IH; auto. intros i Hi Ti. specialize (H (S i) ltac:(cbn; lia) Ti). lia. }
      destruct (test x); lra.
Qed.
Lemma weight_of_ge test xs ws k : length xs = length ws -> Forall (fun w => 0 <= w) ws ->
  (forall i, (i < length xs)%nat -> test (nth i xs 0) = true -> (k <= i)%nat) ->
  weight_of test xs ws <= rsum (skipn k ws).
Proof.
  unfold weight_of. revert ws k; induction xs as [|x xs IH]; intros [|w ws] k L P H; try discriminate L.
  - cbn. rewrite skipn_nil. cbn. lra.
  - inversion_clear P as [|? ? P1 P2]. cbn [map2 rsum].
    destruct k as [|k].
    + cbn [skipn rsum].
      assert (B : rsum (map2 (fun x w => if test x then w else 0) xs ws) <= rsum (skipn 0 ws)).
      { apply IH; auto. intros; lia. }
      cbn [skipn] in B. destruct (test x); lra.
    + cbn [skipn].
      pose proof (H 0%nat ltac:(cbn; lia)) as H0. cbn [nth] in H0. destruct (test x); [specialize (H0 eq_refl); lia|].
      enough (rsum (map2 (fun x w => if test x then w else 0) xs ws) <= rsum (skipn k ws)) by lra.
      apply IH; auto. intros i Hi Ti. specialize (H (S i) ltac:(cbn; lia) Ti). lia.
Qed.

Lemma wmed_ok bc (g : R) fuel xs ys ws tx tw :
  separated xs -> xs <> [] -> (2 * length xs <= fuel)%nat ->
  Permutation xs ys -> StronglySorted Rle ys ->
  length xs = length ws -> Forall (fun w => 0 <= w) ws -> Rabs (rsum ws - 1) <= 1 / 1000000 ->
  exists m, sta_weighted_median bc fuel (Some g) (vec_of xs tx) (vec_of ws tw) = Ok (0%Z, Some m)
  /\ is_weighted_median ys ws m.
Proof.
  intros Hs Hne Hf HP HS HL Hp H1. unfold sta_weighted_median.
  change (vsz (vec_of xs tx)) with (length xs). change (vsz (vec_of ws tw)) with (length ws).
  assert (Eb : (if bc then
                 if negb (length xs =? length ws)%nat then Ok true else
                 let! r := for_exit (length xs) 0 (fun i s =>
                     let! a := rd (vbuf (vec_of ws tw)) i in
                     let s := (s + a)%num in
                     if (a <? f0)%num then Ok (inr tt) else Ok (inl s)) f0 in
                 match r with
                 | inr _ => Ok true
                 | inl sum => Ok ((fabs (sum - flit 10 1) >? flit 1 6)%num)
                 end
               else Ok false) = Ok false).
  { destruct bc; [|reflexivity]. rewrite HL, Nat.eqb_refl. cbn [negb].
    assert (G : forall k n, (n + k = length ws)%nat ->
      for_exit n k (fun i s =>
                     let! a := rd (vbuf (vec_of ws tw)) i in
                     let s := (s + a)%num in
                     if (a <? f0)%num then Ok (inr tt) else Ok (inl s)) (rsum (firstn k ws))
      = Ok (inl (rsum ws) : R + unit)).
    { intros k n; revert k; induction n as [|n IH]; intros k Hk; cbn [for_exit].
      - rewrite firstn_all2 by lia. reflexivity.
      - unfold vec_of at 1; cbn [vbuf]. rewrite rd_cells_app with (d := 0) by lia. cbn [bind flt NumR f0].
        rewrite Rltb_false.
        2:{ rewrite Forall_forall in Hp. assert (In (nth k ws 0) ws) as I by (apply nth_In; lia).
            specialize (Hp _ I). lra. }
        cbn [bind fadd NumR]. rewrite <- firstn_cum by lia. apply IH. lia. }
    specialize (G 0%nat (length ws) ltac:(lia)). cbn [firstn rsum] in G.
    match goal with |- bind ?a _ = _ => replace a with (Ok (inl (rsum ws) : R + unit)) by (symmetry; exact G) end.
    cbn [bind]. rewrite lit_1e6, lit_10. unfold fgt. cbn [flt NumR fabs fsub]. f_equal. apply Rltb_false. lra. }
  match goal with |- exists _, bind ?a _ = _ /\ _ => replace a with (Ok false) by (symmetry; exact Eb) end.
  clear Eb. cbn [bind].
  assert (H1' : - (1 / 1000000) <= rsum ws - 1 <= 1 / 1000000) by (revert H1; unfold Rabs; destruct (Rcase_abs _); lra).
  destruct (wmed_scan ws tw (S (length (cells ws ++ tw))) 0) as (j & E & Hj & Hlo & Hhi); auto; try lra.
  { cbn. lra. } { lia. } { rewrite app_length, cells_length. lia. }
  unfold vec_of at 1 2. cbn [vbuf]. cbn [firstn rsum] in E.
  match goal with |- exists _, bind ?a _ = _ /\ _ =>
    replace a with (Ok (S j, rsum (firstn (S j) ws))) by (symmetry; exact E) end.
  clear E. cbn [bind]. rewrite rdz_nat by lia. replace (Z.to_nat (Z.of_nat (S j) - 1)) with j by lia.
  unfold vec_of at 1; cbn [vbuf]. rewrite rd_cells_app with (d := 0) by auto. cbn [bind fsub NumR].
  rewrite firstn_cum by auto. replace (rsum (firstn j ws) + nth j ws 0 - nth j ws 0) with (rsum (firstn j ws)) by lra.
  pose proof (sorted_local g fuel xs ys tx Hs Hne Hf HP HS) as E.
  assert (Ly : length ys = length xs) by (symmetry; now apply Permutation_length).
  match goal with |- exists _, bind (vec_init ?w) _ = _ /\ _ => destruct (vec_init w) as [[r w'] | | |] end;
    try discriminate E. cbn [bind] in *.
  match goal with |- exists _, bind ?a _ = _ /\ _ =>
    replace a with (Ok (0%Z, Vec (length xs) (cells ys))) by (symmetry; exact E) end.
  cbn [bind vbuf]. rewrite lit_1e6, lit_05. cbn [flt NumR fabs].
  replace (Z.of_nat (S j) - 1)%Z with (Z.of_nat j) by lia.
  rewrite (rdz_nat _ (Z.of_nat j)) by lia. rewrite Nat2Z.id.
  rewrite rd_cells with (d := 0) by lia. cbn [bind].
  pose proof (rsum_split ws j) as Sp. pose proof (rsum_split ws (S j)) as Sp'.
  destruct (Rltb_spec (Rabs (rsum (firstn j ws) - 1 / 2)) (/ 1000000)) as [A|A].
  - apply Rabs_def2 in A.
    assert (Hj1 : (1 <= j)%nat) by (destruct j; [cbn in A; lra | lia]).
    rewrite rdz_nat by lia. replace (Z.to_nat (Z.of_nat (S j) - 2)) with (j - 1)%nat by lia.
    rewrite rd_cells with (d := 0) by lia. cbn [bind]. rewrite lit_20. cbn [fdiv NumR]. rewrite Rdivo_ok by lra.
    cbn [bind]. eexists. split; [reflexivity|]. cbn [fadd NumR].
    assert (O : nth (j - 1) ys 0 <= nth j ys 0) by (apply sorted_nth; auto; lia).
    split.
    + eapply Rle_trans; [apply (weight_of_le _ ys ws j); [lia|auto|]|lra].
      intros i Hi Ti. cbv beta in Ti.
      match type of Ti with Rltb ?a ?b = _ => destruct (Rltb_spec a b) as [B|]; [|discriminate] end.
      destruct (Nat.lt_ge_cases i j); [auto|]. pose proof (sorted_nth ys j i HS ltac:(lia)). lra.
    + eapply Rle_trans; [apply (weight_of_ge _ ys ws j); [lia|auto|]|lra].
      intros i Hi Ti. cbv beta in Ti.
      match type of Ti with Rltb ?a ?b = _ => destruct (Rltb_spec a b) as [B|]; [|discriminate] end.
      destruct (Nat.le_gt_cases j i); [auto|]. pose proof (sorted_nth ys i (j - 1) HS ltac:(lia)). lra.
  - eexists. split; [reflexivity|]. split.
    + eapply Rle_trans; [apply (weight_of_le _ ys ws j); [lia|auto|]|lra].
      intros i Hi Ti. cbv beta in Ti.
      match type of Ti with Rltb ?a ?b = _ => destruct (Rltb_spec a b) as [B|]; [|discriminate] end.
      destruct (Nat.lt_ge_cases i j); [auto|]. pose proof (sorted_nth ys j i HS ltac:(lia)). lra.
    + eapply Rle_trans; [apply (weight_of_ge _ ys ws (S j)); [lia|auto|]|lra].
      intros i Hi Ti. cbv beta in Ti.
      match type of Ti with Rltb ?a ?b = _ => destruct (Rltb_spec a b) as [B|]; [|discriminate] end.
      destruct (Nat.le_gt_cases (S j) i); [auto|]. pose proof (sorted_nth ys i j HS ltac:(lia)). lra.
Qed.

(** ** Median absolute deviation *)

Lemma mad_ok bc (g : R) fuel xs ys zs tx :
  separated xs -> xs <> [] -> (2 * length xs <= fuel)%nat -> (Z.of_nat (length xs) <= 2147483647)%Z ->
  Permutation xs ys -> StronglySorted Rle ys ->
  separated (map (fun x => Rabs (x - pct 50 ys)) xs) ->
  Permutation (map (fun x => Rabs (x - pct 50 ys)) xs) zs -> StronglySorted Rle zs ->
  sta_median_abs_dev bc fuel (Some g) (vec_of xs tx) = Ok (0%Z, Some (pct 50 zs)).
Proof.
  intros Hs Hne Hf Hi HP HS Hs' HP' HS'. unfold sta_median_abs_dev.
  rewrite median_ok with (ys := ys) by auto. cbn [bind lval].
  change (vsz (vec_of xs tx)) with (length xs). set (m := pct 50 ys) in *.
  rewrite (@for_fill R (fun i => Rabs (nth i xs 0 - m))).
  - cbn [bind]. rewrite skipn_all2 by (rewrite fresh_length; lia).
    set (ds := map (fun x => Rabs (x - m)) xs) in *.
    replace (map (fun i => Rabs (nth i xs 0 - m)) (seq 0 (length xs))) with ds.
    2:{ unfold ds. rewrite <- (map_seq_nth xs 0) at 1. now rewrite map_map. }
    assert (Ld : length ds = length xs) by apply map_length.
    rewrite <- Ld. change (Vec (length ds) (cells ds ++ [])) with (vec_of ds []).
    rewrite median_ok with (ys := zs); auto; try lia.
    intros ->. destruct xs; [contradiction | discriminate].
  - rewrite fresh_length. lia.
  - intros i Hx. unfold vec_of; cbn [vbuf]. rewrite rd_cells_app with (d := 0) by lia. cbn [bind].
    reflexivity.
Qed.
