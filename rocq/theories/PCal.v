(** Magnetometer calibration: totality of the inversion, one fitting step,
    and what the fits do on readings that already lie on a sphere. *)
From Coq Require Import List Arith ZArith Bool Lia Reals Lra Permutation Sorting.
From Verif Require Import Base BaseFacts RTac SpecVec SpecReal SpecMtx MVec MMtx MDecomp MStat MCal
  NumR SpecGauss PDet PVec PVecR PMtx PMtxOps PMtxR PGauss PSort PStatOrd SpecCal.
Import ListNotations.
Set Implicit Arguments.
Local Open Scope R_scope.

(** ** The inversion always answers *)

Lemma for_exit_total S X (P : S -> Prop) (Q : X -> Prop) n lo (body : nat -> S -> outcome (S + X)) s :
  P s ->
  (forall i s, (lo <= i < lo + n)%nat -> P s ->
     exists r, body i s = Ok r /\ match r with inl s' => P s' | inr x => Q x end) ->
  exists r, for_exit n lo body s = Ok r /\ match r with inl s' => P s' | inr x => Q x end.
Proof.
  revert lo s. induction n as [|n IH]; intros lo s H0 H; cbn [for_exit].
  - exists (inl s). auto.
  - destruct (H lo s ltac:(lia) H0) as ([s'|x] & E & Hr); rewrite E; cbn [bind].
    + apply IH; auto. intros i s0 Hi. apply H. lia.
    + exists (inr x). auto.
Qed.

Lemma gauss_reduc_total bc n f h tf th mg :
  room n n mg ->
  exists h' g', mtx_gauss_reduc bc (mat_of n n f tf) (mat_of n n h th) mg
    = Ok (0%Z, (mat_of n n h' th, mat_of n n g' (rest mg))).
Proof.
  intros Hm. unfold mtx_gauss_reduc. rewrite mtx_copy_ok by auto. cbn [bind].
  change (mrows (mat_of n n f tf)) with n. set (tg := rest mg). clearbody tg.
  match goal with |- context [for_ n 0 ?b ?s] =>
   destruct (@for_inv _ (fun k (st : mtx R * mtx R * buf R * option R * option R) =>
      let '(mi, mg, v, x, y) := st in
      (exists h', mi = mat_of n n h' th) /\ (exists g', mg = mat_of n n g' tg) /\ (n <= length v)%nat) n 0%nat b s)
     as (((((mi & mg') & v) & x) & y) & E & (h' & E1) & (g' & E2) & _) end.
  { split; [now exists h|]. split; [now exists f|]. rewrite fresh_length. lia. }
  { intros k ((((mi & mg') & v) & x) & y) Hk ((h' & E1) & (g & E2) & Hv). subst mi mg'. cbv beta iota.
    rewrite lget_mat by lia. cbn [bind lval]. rewrite is_tiny_R.
    assert (Step : exists h2 g2 v' y',
      (if tiny (g k k) then
         let! (_, v) := mtx_get_col bc (mat_of n n g tg) k v in
         let! r := for_exit n 0 (fun q y =>
             let! y := lget bc (mat_of n n g tg) q q y in
             let! vq := rd v q in
             if is_big vq then
               let! keep := if (q <? k)%nat then let! yv := lval y in Ok (is_big yv) else Ok false in
               if (keep : bool) then Ok (inl y)
               else
                 let! (_, mg) := mtx_sum_rows_d bc (mat_of n n g tg) k q in
                 let! (_, mi) := mtx_sum_rows_d bc (mat_of n n h' th) k q in
                 Ok (inr (mi, mg, y))
             else Ok (inl y)) y in
         Ok (match r with
             | inl y => (mat_of n n h' th, mat_of n n g tg, v, y)
             | inr (mi, mg, y) => (mi, mg, v, y)
             end)
       else Ok (mat_of n n h' th, mat_of n n g tg, v, y))
      = Ok (mat_of n n h2 th, mat_of n n g2 tg, v', y')
      /\ (n <= length v')%nat).
    { destruct (tiny (g k k)) eqn:Tk.
      - rewrite mtx_get_col_ok by (auto; lia). cbn [bind].
        assert (Lv : (n <= length (cells (col_of n g k) ++ skipn n v))%nat).
        { rewrite app_length, cells_length, col_of_length. lia. }
        match goal with |- context [for_exit n 0 ?b ?s] =>
         destruct (@for_exit_total _ _ (fun _ => True)
           (fun r : mtx R * mtx R * option R =>
              exists h2 g2, fst (fst r) = mat_of n n h2 th /\ snd (fst r) = mat_of n n g2 tg)
           n 0%nat b s I) as (r & E & Hr) end.
        { intros q y0 Hq _. rewrite lget_mat by lia. cbn [bind].
          rewrite (rd_cells_app _ _ 0) by (rewrite col_of_length; lia). cbn [bind].
          destruct (is_big _); [|eexists; split; [reflexivity|exact I]].
          destruct (q <? k)%nat; cbn [bind lval].
          - destruct (is_big (g q q)).
            + eexists; split; [reflexivity|exact I].
            + rewrite !mtx_sum_rows_d_ok by lia; cbn [bind].
              eexists; split; [reflexivity|]. cbv beta iota. do 2 eexists. split; reflexivity.
          - rewrite !mtx_sum_rows_d_ok by lia; cbn [bind].
            eexists; split; [reflexivity|]. cbv beta iota. do 2 eexists. split; reflexivity. }
        rewrite E. cbn [bind]. destruct r as [y1|[[mi mg'] y1]].
        + exists h', g. do 2 eexists. split; [reflexivity|exact Lv].
        + destruct Hr as (h2 & g2 & F1 & F2). cbn [fst snd] in F1, F2. subst mi mg'.
          exists h2, g2. do 2 eexists. split; [reflexivity|exact Lv].
      - exists h', g, v, y. auto. }
    destruct Step as (h2 & g2 & v' & y' & St & Hv'). rewrite St. cbn [bind].
    rewrite gauss_elim_d_ok by lia. cbn [bind]. rewrite norm_elem_d_ok by lia. cbn [bind].
    eexists. split; [reflexivity|]. cbv beta iota. split; [eexists; reflexivity|]. split; [eexists; reflexivity|auto]. }
  rewrite E. cbn [bind]. rewrite E1, E2. exists h', g'. reflexivity.
Qed.

Lemma mtx_inv_total bc n f tf mi :
  (0 < n)%nat -> room n n mi ->
  exists h, mtx_inv bc (mat_of n n f tf) mi = Ok (0%Z, mat_of n n h (rest mi)).
Proof.
  intros Hn Hm. destruct (Req_EM_T (ldet n f) 0) as [Z|Nz].
  { exists mid. now apply mtx_inv_singular. }
  pose proof Hm as (Hr & Hc & _).
  unfold mtx_inv. change (mrows (mat_of n n f tf)) with n. change (mcols (mat_of n n f tf)) with n.
  destruct (Nat.eqb_spec n 3) as [->|].
  - rewrite mtx_inv_3x3_ok by auto. eexists. reflexivity.
  - rewrite Hr, Hc, !Nat.eqb_refl. cbn [negb orb].
    rewrite andb_false_r. rewrite mtx_copy_local. cbn [bind]. change (negb (0 =? 0)%Z) with false. cbv iota.
    rewrite (@mtx_init_identity _ _ bc n n) by auto. cbn [bind]. change (negb (0 =? 0)%Z) with false. cbv iota.
    rewrite mtx_deter_ok by auto. cbn [bind feq NumR f0]. unfold Reqb.
    destruct (Req_EM_T (ldet n f) 0); [contradiction|].
    destruct (gauss_reduc_total bc f mid tf (rest mi) (mat_room n n f [])) as (h' & g' & E).
    rewrite E. cbn [bind]. exists h'. reflexivity.
Qed.

(** ** Arrays as matrices *)

Lemma cells_mat r c (xs : list R) tl :
  length xs = (r * c)%nat -> Mtx r c (cells xs ++ tl) = mat_of r c (fun i j => nth (i * c + j) xs 0) tl.
Proof.
  intros H. unfold mat_of. f_equal. f_equal. f_equal.
  apply nth_ext with (d := 0) (d' := 0); [now rewrite map_length, seq_length|].
  intros k Hk. rewrite H in Hk. set (g := fun k => _).
  assert (E : nth k (map g (seq 0 (r * c))) 0 = g k).
  { rewrite (nth_indep _ 0 (g 0%nat)) by (now rewrite map_length, seq_length).
    rewrite map_nth, seq_nth by auto. reflexivity. }
  rewrite E. unfold g. destruct (flat_bounds _ _ Hk) as (_ & _ & E2). now rewrite <- E2.
Qed.

Lemma mat_cells r c (f : nat -> nat -> R) :
  exists xs, length xs = (r * c)%nat /\ mbuf (mat_of r c f []) = cells xs.
Proof.
  eexists. split; [|unfold mat_of; cbn [mbuf]; rewrite app_nil_r; reflexivity].
  now rewrite map_length, seq_length.
Qed.

Lemma addto_cells (xs : list R) i x :
  (i < length xs)%nat -> addto (cells xs) i x = Ok (cells (upd xs i (nth i xs 0 + x))).
Proof. intros H. unfold addto. rewrite (rd_cells _ 0) by auto. cbn [bind]. now rewrite wr_cells. Qed.

(** ** One step *)

Lemma magn_step_total bc n jf g l res :
  (0 < n)%nat ->
  exists g' t', magn_step bc n (mat_of 1 n jf []) l (mat_of n n g []) res
    = Ok (mat_of n n g' [], mat_of n 1 (fun i j => t' i j * - res) []).
Proof.
  intros Hn. unfold magn_step. rewrite mtx_trans_ok by apply room_def. rewrite rest_def. cbn [bind].
  rewrite mtx_mult_ok by apply room_def. rewrite rest_def. cbn [bind].
  match goal with |- context [mat_of n n ?F []] => set (P := F) end.
  match goal with |- context [for_ n 0 ?b ?s] =>
   destruct (@for_inv _ (fun k d => exists g', d = mbuf (mat_of n n g' [])) n 0%nat b s) as (d & E & g' & E1) end.
  { now exists g. }
  { intros i d Hi (g' & ->).
    replace (i * (n + 1))%nat with (i * n + i)%nat by lia.
    rewrite rd_mat by lia. cbn [bind]. rewrite wr_mat by lia. eexists. split; [reflexivity|]. eexists. reflexivity. }
  rewrite E. cbn [bind]. subst d.
  rewrite mtx_eta_mat.
  unfold mtx_add_d. erewrite mtx_zip_d_ok; [|intros; reflexivity]. cbn [bind].
  match goal with |- context [mtx_inv bc (mat_of n n ?F []) ?M] =>
    destruct (@mtx_inv_total bc n F [] M Hn (mat_room _ _ _ _)) as (h & Ei) end.
  rewrite Ei. cbn [bind]. rewrite mat_rest.
  rewrite mtx_mult_ok by apply room_def. rewrite rest_def. cbn [bind].
  rewrite mtx_scalar_mult_d_ok. cbn [bind]. eexists _, _. reflexivity.
Qed.

(** ** Readings that lie on a sphere *)

Lemma magn_row_ok bc n f tl i : (i < n)%nat ->
  magn_row bc (mat_of n 3 f tl) i = Ok (vec_of [f i 0%nat; f i 1%nat; f i 2%nat] ([] : buf R)).
Proof.
  intros Hi. unfold magn_row. rewrite mtx_get_row_ok by (auto; rewrite fresh_length; lia). reflexivity.
Qed.

Lemma magn_f_shp_ok bc (h0 h1 h2 x y z : R) tb :
  magn_f_shp bc (vec_of [h0; h1; h2] []) (vec_of [x; y; z] tb) = Ok (rnorm [h0 + x; h1 + y; h2 + z]).
Proof.
  unfold magn_f_shp. change (Vec 3 (fresh 3)) with (Vec (T := R) (length [h0; h1; h2]) (fresh 3)).
  unfold vec_add. rewrite vec_zip_ok by (auto; cbn; lia). cbn [bind]. apply vec_norm_R.
Qed.

Lemma list3_eq (a b c a' b' c' : R) : a = a' -> b = b' -> c = c' -> [a; b; c] = [a'; b'; c'].
Proof. congruence. Qed.

Lemma rnorm3_id x y z : rnorm [1 * x + 0 * y + 0 * z; 0 * x + 1 * y + 0 * z; 0 * x + 0 * y + 1 * z] = rnorm [x; y; z].
Proof. f_equal. apply list3_eq; ring. Qed.

Lemma magn_f_elli_ok bc (h0 h1 h2 a b c d e f x y z : R) tb :
  magn_f_elli bc (vec_of [h0; h1; h2] tb) (Mtx 9 1 (cells [a; b; c; d; e; f; x; y; z]))
  = Ok (rnorm [a * (h0 + x) + b * (h1 + y) + c * (h2 + z);
               b * (h0 + x) + d * (h1 + y) + e * (h2 + z);
               c * (h0 + x) + e * (h1 + y) + f * (h2 + z)]).
Proof.
  unfold magn_f_elli.
  replace (magn_sym (mbuf (Mtx 9 1 (cells [a; b; c; d; e; f; x; y; z]))) (fresh 9))
    with (Ok (cells [a; b; c; b; d; e; c; e; f])) by reflexivity.
  cbn [bind].
  match goal with |- context [for_ 3 0 ?B ?s] => replace (for_ 3 0 B s) with (Ok (cells [h0 + x; h1 + y; h2 + z]))
    by reflexivity end.
  cbn [bind].
  rewrite <- (app_nil_r (cells [a; b; c; b; d; e; c; e; f])), <- (app_nil_r (cells [h0 + x; h1 + y; h2 + z])).
  rewrite (@cells_mat 3 3) by reflexivity. rewrite (@cells_mat 3 1) by reflexivity.
  rewrite mtx_mult_ok by apply room_def. cbn [bind]. rewrite rest_def.
  match goal with |- context [vec_from_arr (Vec 3 (fresh 3)) (mbuf (mat_of 3 1 ?F []))] =>
    set (G := F) end.
  replace (vec_from_arr (Vec 3 (fresh 3)) (mbuf (mat_of 3 1 G [])))
    with (Ok (0%Z, vec_of [G 0 0; G 1 0; G 2 0]%nat [])) by reflexivity.
  cbn [bind]. rewrite vec_norm_R. f_equal. f_equal.
  subst G. unfold msum. cbn -[Rplus Rmult]. apply list3_eq; ring.
Qed.

Lemma jac_shp_ok bc n f tl x y z tb :
  (forall i, (i < n)%nat -> rnorm [f i 0%nat + x; f i 1%nat + y; f i 2%nat + z] <> 0) ->
  exists jf, magn_jac_shp bc (mat_of n 3 f tl) (vec_of [x; y; z] tb) = Ok (mat_of 1 4 jf []).
Proof.
  intros Hf. unfold magn_jac_shp. rewrite mtx_init_empty with (r := 1%nat) (c := 4%nat) by apply room_def.
  rewrite rest_def. cbn [bind]. change (mrows (mat_of n 3 f tl)) with n.
  match goal with |- context [for_ n 0 ?b ?s] =>
   destruct (@for_inv _ (fun _ d => exists xs : list R, length xs = 4%nat /\ d = cells xs) n 0%nat b s) as (d & E & xs & L & E1) end.
  { apply (mat_cells 1 4 (fun _ _ => 0)). }
  { intros i d Hi (xs & L & ->). rewrite magn_row_ok by lia. cbn [bind].
    rewrite magn_f_shp_ok. cbn [bind]. rewrite addto_cells by lia. cbn [bind].
    match goal with |- context [for_ 3 0 ?b ?s] =>
     destruct (@for_inv _ (fun _ d => exists xs : list R, length xs = 4%nat /\ d = cells xs) 3 0%nat b s) as (d & E & ys & L2 & E1) end.
    { eexists. split; [|reflexivity]. now rewrite upd_length. }
    { intros k d Hk (ys & L2 & ->). unfold vec_of. cbn [vbuf].
      rewrite (rd_cells_app _ _ 0) by (cbn [length]; lia). cbn [bind].
      rewrite (rd_cells_app _ _ 0) by (cbn [length]; lia). cbn [bind fdiv NumR].
      rewrite Rdivo_ok by (apply Hf; lia). cbn [bind]. rewrite addto_cells by lia.
      eexists. split; [reflexivity|]. eexists. split; [|reflexivity]. now rewrite upd_length. }
    rewrite E. eexists. split; [reflexivity|]. now exists ys. }
  rewrite E. cbn [bind]. subst d. rewrite <- (app_nil_r (cells xs)).
  rewrite (@cells_mat 1 4) by auto. eexists. reflexivity.
Qed.

Lemma addq (xs : list R) i q v n (k : buf R -> outcome (buf R)) (P : buf R -> Prop) :
  v <> 0 -> (i < length xs)%nat -> length xs = n ->
  (forall ys (Ly : length ys = n), exists d, k (cells ys) = Ok d /\ P d) ->
  exists d, (let! t := fdiv q v in let! J := addto (cells xs) i t in k J) = Ok d /\ P d.
Proof.
  intros Nv Hi Hn Hk. cbn [fdiv NumR]. rewrite Rdivo_ok by auto. cbn [bind]. rewrite addto_cells by auto. cbn [bind].
  apply Hk. now rewrite upd_length.
Qed.

Lemma addq_last (xs : list R) i q v n :
  v <> 0 -> (i < length xs)%nat -> length xs = n ->
  exists d, (let! t := fdiv q v in addto (cells xs) i t) = Ok d /\ exists ys : list R, length ys = n /\ d = cells ys.
Proof.
  intros Nv Hi Hn. cbn [fdiv NumR]. rewrite Rdivo_ok by auto. cbn [bind]. rewrite addto_cells by auto.
  eexists. split; [reflexivity|]. eexists. split; [|reflexivity]. now rewrite upd_length.
Qed.

Lemma rd_vec_of (xs : list R) tl i : (i < length xs)%nat -> rd (vbuf (vec_of xs tl)) i = Ok (nth i xs 0).
Proof. intros H. unfold vec_of. cbn [vbuf]. now apply rd_cells_app. Qed.

Lemma row_elli_ok (xs : list R) v h0 h1 h2 b0 b1 b2 g0 g1 g2 g3 g4 g5 :
  v <> 0 -> length xs = 9%nat ->
  exists d, magn_row_elli (cells xs) v h0 h1 h2 b0 b1 b2 g0 g1 g2 g3 g4 g5 = Ok d
    /\ exists ys : list R, length ys = 9%nat /\ d = cells ys.
Proof.
  intros Nv L. unfold magn_row_elli.
  do 8 (apply addq with (n := 9%nat); [exact Nv|lia|exact L|intros ys Ly; clear xs L; rename ys into xs, Ly into L]).
  apply addq_last; auto; lia.
Qed.

Lemma bind_eq A B (m : outcome A) x (k : A -> outcome B) : m = Ok x -> bind m k = k x.
Proof. intros ->. reflexivity. Qed.

Lemma add_elli_ok bc n f tl x y z tb (ge : list R) i xs v :
  length ge = 9%nat -> (i < n)%nat -> v <> 0 -> length xs = 9%nat ->
  magn_f_elli bc (vec_of [f i 0%nat; f i 1%nat; f i 2%nat] []) (Mtx 9 1 (cells ge)) = Ok v ->
  exists d, magn_add_elli bc (mat_of n 3 f tl) (vec_of [x; y; z] tb) (Mtx 9 1 (cells ge)) i (cells xs) = Ok d
    /\ exists ys : list R, length ys = 9%nat /\ d = cells ys.
Proof.
  intros Lg Hi Nv L Ev. unfold magn_add_elli.
  erewrite bind_eq by (apply magn_row_ok; lia). erewrite bind_eq by exact Ev. cbn [mbuf].
  do 6 (erewrite bind_eq by (apply rd_vec_of; cbn [length]; lia)).
  do 6 (erewrite bind_eq by (apply (rd_cells _ 0); lia)).
  now apply row_elli_ok.
Qed.

Lemma jac_elli_ok bc n f tl x y z tb (ge : list R) :
  length ge = 9%nat ->
  (forall i, (i < n)%nat -> exists v, v <> 0 /\
     magn_f_elli bc (vec_of [f i 0%nat; f i 1%nat; f i 2%nat] []) (Mtx 9 1 (cells ge)) = Ok v) ->
  exists jf, magn_jac_elli bc (mat_of n 3 f tl) (vec_of [x; y; z] tb) (Mtx 9 1 (cells ge)) = Ok (mat_of 1 9 jf []).
Proof.
  intros Lg Hf. unfold magn_jac_elli. rewrite mtx_init_empty with (r := 1%nat) (c := 9%nat) by apply room_def.
  rewrite rest_def. cbn [bind]. change (mrows (mat_of n 3 f tl)) with n.
  match goal with |- context [for_ n 0 ?b ?s] =>
   destruct (@for_inv _ (fun _ d => exists xs : list R, length xs = 9%nat /\ d = cells xs) n 0%nat b s) as (d & E & xs & L & E1) end.
  { apply (mat_cells 1 9 (fun _ _ => 0)). }
  { intros i d Hi (xs & L & ->). destruct (Hf i ltac:(lia)) as (v & Nv & Ev).
    apply (@add_elli_ok bc n f tl x y z tb ge i xs v); auto; lia. }
  rewrite E. cbn [bind]. subst d. rewrite <- (app_nil_r (cells xs)).
  rewrite (@cells_mat 1 9) by auto. eexists. reflexivity.
Qed.

Lemma lambda_0 j (l mu : R) : magn_lambda j l mu 0 0 = Ok (l * mu, 0).
Proof.
  unfold magn_lambda. cbn [fdiv fofZ fmul fadd NumR]. rewrite Rdivo_ok.
  2: { rewrite <- INR_IZR_INZ. apply not_0_INR. lia. }
  replace ((0 * IZR (Z.of_nat j) + 0 * 0) / IZR (Z.of_nat (j + 1))) with 0 by (unfold Rdiv; ring).
  cbn [bind flt NumR]. destruct (Rltb_spec 0 0); [lra|]. reflexivity.
Qed.

Lemma magn_sphere_ok bc n f tl l mu rho x y z tb :
  rho <> 0 ->
  (forall i, (i < n)%nat -> rnorm [f i 0%nat + x; f i 1%nat + y; f i 2%nat + z] = rho) ->
  magn_sphere bc (mat_of n 3 f tl) l mu rho (vec_of [x; y; z] tb) = Ok (rho, vec_of [x; y; z] tb).
Proof.
  intros Hr Hs. unfold magn_sphere. change (mrows (mat_of n 3 f tl)) with n.
  rewrite mtx_init_identity with (r := 4%nat) (c := 4%nat) by apply room_def. rewrite rest_def. cbn [bind].
  match goal with |- context [for_ n 0 ?B0 ?s0] =>
   destruct (@for_inv _ (fun _ (st : R * vec R * R * R * mtx R) =>
     let '(r, b, _, s, idx) := st in
     r = rho /\ b = vec_of [x; y; z] tb /\ s = 0 /\ exists g, idx = mat_of 4 4 g []) n 0%nat B0 s0)
     as (((((r & b) & l') & s) & idx) & E & E1 & E2 & _) end.
  { do 3 (split; [reflexivity|]). eexists. reflexivity. }
  { intros j ((((r & b) & l') & s) & idx) Hj (-> & -> & -> & g & ->). cbv beta iota.
    destruct (@jac_shp_ok bc n f tl x y z tb) as (jf & Ej). { intros i Hi. now rewrite Hs. }
    rewrite Ej. cbn [bind]. rewrite magn_row_ok by lia. cbn [bind]. rewrite magn_f_shp_ok, Hs by lia. cbn [bind].
    change (fsub (Num := NumR) rho rho) with (rho - rho).
    destruct (@magn_step_total bc 4 jf g l' (rho - rho)) as (g' & t' & Es); [lia|].
    rewrite Es. cbn [bind].
    replace (mat_of 4 1 (fun i j => t' i j * - (rho - rho)) []) with (mat_of (T := R) 4 1 (fun _ _ => 0) [])
      by (apply mat_ext; intros; ring).
    change (rd (mbuf (mat_of (T := R) 4 1 (fun _ _ => 0) [])) 0) with (Ok (0 : R)). cbn [bind].
    match goal with |- context [for_ 3 0 ?B0 ?s0] => replace (for_ 3 0 B0 s0) with (Ok (cells [x + 0; y + 0; z + 0] ++ tb)) by reflexivity end.
    cbn [bind]. rewrite !Rplus_0_r. change (Vec _ _) with (vec_of [x; y; z] tb).
    replace (fadd (Num := NumR) rho 0) with rho by (cbn [fadd NumR]; ring).
    destruct (Nat.ltb_spec j (n - 1)).
    - rewrite magn_row_ok by lia. cbn [bind]. rewrite magn_f_shp_ok, Hs by lia. cbn [bind].
      replace (fsub (Num := NumR) rho rho) with 0 by (cbn [fsub NumR]; ring).
      rewrite lambda_0. cbn [bind]. eexists. split; [reflexivity|]. cbv beta iota.
      do 3 (split; [reflexivity|]). eexists. reflexivity.
    - eexists. split; [reflexivity|]. cbv beta iota. do 3 (split; [reflexivity|]). eexists. reflexivity. }
  rewrite E. cbn [bind]. now subst.
Qed.

Lemma magn_ellipsoid_ok bc n f tl l mu rho x y z tb :
  rho <> 0 ->
  (forall i, (i < n)%nat -> rnorm [f i 0%nat + x; f i 1%nat + y; f i 2%nat + z] = rho) ->
  magn_ellipsoid bc (mat_of n 3 f tl) l mu rho (vec_of [x; y; z] tb)
  = Ok (Mtx 9 1 (cells [1; 0; 0; 1; 0; 1; x; y; z]), l * mu ^ (n - 1)).
Proof.
  intros Hr Hs. unfold magn_ellipsoid. change (mrows (mat_of n 3 f tl)) with n.
  change (vbuf (vec_of [x; y; z] tb)) with (cells [x; y; z] ++ tb).
  do 3 (rewrite (rd_cells_app _ _ 0) by (cbn [length]; lia); cbn [bind]). cbn [nth].
  rewrite mtx_init_identity with (r := 9%nat) (c := 9%nat) by apply room_def. rewrite rest_def. cbn [bind].
  set (ge := [1; 0; 0; 1; 0; 1; x; y; z]).
  assert (Ef : forall i, (i < n)%nat -> magn_f_elli bc (vec_of [f i 0%nat; f i 1%nat; f i 2%nat] []) (Mtx 9 1 (cells ge)) = Ok rho).
  { intros i Hi. unfold ge. rewrite magn_f_elli_ok. f_equal. rewrite rnorm3_id. now apply Hs. }
  match goal with |- context [for_ n 0 ?B0 ?s0] =>
   destruct (@for_inv _ (fun j (st : mtx R * R * R * mtx R) =>
     let '(g, l', s, idx) := st in
     g = Mtx 9 1 (cells ge) /\ l' = l * mu ^ (Nat.min j (n - 1)) /\ s = 0 /\ exists h, idx = mat_of 9 9 h []) n 0%nat B0 s0)
     as ((((g & l') & s) & idx) & E & E1 & E2 & _) end.
  { split; [reflexivity|]. split; [cbn; ring|]. split; [reflexivity|]. eexists. reflexivity. }
  { intros j (((g & l') & s) & idx) Hj (-> & -> & -> & h & ->). cbv beta iota.
    destruct (@jac_elli_ok bc n f tl x y z tb ge eq_refl) as (jf & Ej). { intros i Hi. exists rho. auto. }
    rewrite Ej. cbn [bind]. rewrite magn_row_ok by lia. cbn [bind]. rewrite Ef by lia. cbn [bind].
    change (fsub (Num := NumR) rho rho) with (rho - rho).
    destruct (@magn_step_total bc 9 jf h (l * mu ^ Nat.min j (n - 1)) (rho - rho)) as (h' & t' & Es); [lia|].
    rewrite Es. cbn [bind].
    replace (mat_of 9 1 (fun i j => t' i j * - (rho - rho)) []) with (mat_of (T := R) 9 1 (fun _ _ => 0) [])
      by (apply mat_ext; intros; ring).
    match goal with |- context [for_ 9 0 ?B0 ?s0] => replace (for_ 9 0 B0 s0) with (Ok (cells [1+0; 0+0; 0+0; 1+0; 0+0; 1+0; x + 0; y + 0; z + 0])) by reflexivity end.
    cbn [bind]. rewrite !Rplus_0_r. fold ge.
    destruct (Nat.ltb_spec j (n - 1)).
    - rewrite magn_row_ok by lia. cbn [bind]. rewrite Ef by lia. cbn [bind].
      replace (fsub (Num := NumR) rho rho) with 0 by (cbn [fsub NumR]; ring).
      rewrite lambda_0. cbn [bind]. eexists. split; [reflexivity|]. cbv beta iota.
      split; [reflexivity|]. split.
      { replace (Nat.min (S j) (n - 1)) with (S (Nat.min j (n - 1))) by lia. cbn [pow]. ring. }
      split; [reflexivity|]. eexists. reflexivity.
    - eexists. split; [reflexivity|]. cbv beta iota. split; [reflexivity|]. split.
      { do 2 f_equal. lia. }
      split; [reflexivity|]. eexists. reflexivity. }
  rewrite E. cbn [bind]. subst. do 4 f_equal. lia.
Qed.

(** ** The first guess *)

Lemma sorted_top xs ys M : Permutation xs ys -> StronglySorted Rle ys -> In M xs ->
  (forall x, In x xs -> x <= M) -> nth (length xs - 1) ys 0 = M.
Proof.
  intros P S I U. pose proof (Permutation_length P) as L.
  assert (I2 : In M ys) by now apply (Permutation_in _ P).
  destruct (In_nth _ _ 0 I2) as (k & Hk & Ek).
  apply Rle_antisym.
  - apply U. apply (Permutation_in _ (Permutation_sym P)). apply nth_In. lia.
  - rewrite <- Ek. apply sorted_nth; auto. lia.
Qed.

Lemma sorted_bottom xs ys M : Permutation xs ys -> StronglySorted Rle ys -> In M xs ->
  (forall x, In x xs -> M <= x) -> nth 0 ys 0 = M.
Proof.
  intros P S I U. pose proof (Permutation_length P) as L.
  assert (I2 : In M ys) by now apply (Permutation_in _ P).
  destruct (In_nth _ _ 0 I2) as (k & Hk & Ek).
  apply Rle_antisym.
  - rewrite <- Ek. apply sorted_nth; auto. lia.
  - apply U. apply (Permutation_in _ (Permutation_sym P)). apply nth_In. lia.
Qed.

Lemma magn_start_ok bc fuel g n f tl bb c rho :
  (2 * n <= fuel)%nat -> (3 <= length bb)%nat ->
  (forall j, (j < 3)%nat -> separated (col_of n f j)) ->
  (forall j, (j < 3)%nat -> reaches_poles n f c rho j) ->
  (forall i j, (i < n)%nat -> (j < 3)%nat -> c j - rho <= f i j <= c j + rho) ->
  magn_start bc fuel (Some g) (mat_of n 3 f tl) bb
  = Ok (cells [- c 0%nat; - c 1%nat; - c 2%nat] ++ skipn 3 bb, rho).
Proof.
  intros Hfu Hb Hs Hp Hin.
  assert (Hn : (0 < n)%nat) by (destruct (Hp 0%nat ltac:(lia)) as ((i & Hi & _) & _); lia).
  destruct bb as [|o0 [|o1 [|o2 bt]]]; cbn [length] in Hb; try lia. clear Hb. cbn [skipn].
  unfold magn_start. change (mrows (mat_of n 3 f tl)) with n.
  match goal with |- context [for_ 3 0 ?B0 ?s0] =>
   destruct (@for_inv _ (fun j (st : buf R * R * buf R * buf R) =>
     let '(b, mean, v, w) := st in
     b = match j with 0 => [o0; o1; o2] | 1 => [Some (- c 0); o1; o2] | 2 => [Some (- c 0); Some (- c 1); o2]
         | _ => [Some (- c 0); Some (- c 1); Some (- c 2)] end%nat ++ bt
     /\ mean = INR j * rho /\ (n <= length v)%nat /\ (n <= length w)%nat) 3%nat 0%nat B0 s0)
     as ((((b & mean) & v) & w) & E & E1 & E2 & _) end.
  { split; [reflexivity|]. split; [cbn; ring|]. rewrite !fresh_length. lia. }
  { intros j (((b & mean) & v) & w) Hj (Eb & Em & Lv & Lw). cbv beta iota.
    rewrite mtx_get_col_ok by (auto; lia). cbn [bind].
    replace (Vec n (cells (col_of n f j) ++ skipn n v)) with (vec_of (col_of n f j) (skipn n v))
      by (unfold vec_of; now rewrite col_of_length).
    destruct (vec_sort_ok g (col_of n f j) (skipn n v) n w fuel) as (ys & E & P & S).
    { apply Hs. lia. }
    { intros C. apply (f_equal (@length R)) in C. rewrite col_of_length in C. cbn in C. lia. }
    { now rewrite col_of_length. }
    { now rewrite col_of_length. }
    erewrite bind_eq by exact E. cbn [vbuf].
    pose proof (Permutation_length P) as Ly. rewrite col_of_length in Ly.
    destruct (Hp j ltac:(lia)) as ((i1 & Hi1 & T1) & (i2 & Hi2 & T2)).
    assert (Ic : forall x, In x (col_of n f j) -> c j - rho <= x <= c j + rho).
    { intros x Hx. apply in_map_iff in Hx. destruct Hx as (i & <- & Hi). apply in_seq in Hi. apply Hin; lia. }
    assert (Ii : forall i, (i < n)%nat -> In (f i j) (col_of n f j)).
    { intros i Hi. apply in_map_iff. exists i. split; auto. apply in_seq. lia. }
    rewrite (rd_cells_app _ _ 0) by lia. cbn [bind].
    pose proof (@sorted_top (col_of n f j) ys (c j + rho) P S) as Top. rewrite col_of_length in Top.
    rewrite Top. 2: { rewrite <- T1. auto. } 2: { intros x Hx. now apply Ic. }
    rewrite (rd_cells_app _ _ 0) by lia. cbn [bind].
    rewrite (@sorted_bottom (col_of n f j) ys (c j - rho)); auto.
    2: { rewrite <- T2. auto. } 2: { intros x Hx. now apply Ic. }
    assert (E2 : (flit 20 1 : R) = 2) by (cbn [flit NumR]; lits; lra). rewrite !E2.
    cbn [fdiv fneg fadd fsub NumR]. rewrite !Rdivo_ok by lra. cbn [bind].
    replace (- (c j + rho + (c j - rho)) / 2) with (- c j) by field.
    rewrite wr_ok. 2: { rewrite Eb, app_length. destruct j as [|[|[|j]]]; cbn [length]; lia. }
    cbn [bind]. eexists. split; [reflexivity|]. cbv beta iota. split; [|split; [|split]].
    - subst b. destruct j as [|[|[|j]]]; try reflexivity. lia.
    - rewrite S_INR, Em. field.
    - rewrite app_length, cells_length, col_of_length, skipn_length. lia.
    - rewrite app_length, cells_length, <- Ly, skipn_length, col_of_length. lia. }
  erewrite bind_eq by exact E. cbv beta iota. subst b mean.
  assert (E3 : (flit 30 1 : R) = 3) by (cbn [flit NumR]; lits; lra). rewrite E3. cbn [fdiv NumR]. rewrite Rdivo_ok by lra. cbn [bind].
  do 2 f_equal. cbn. field.
Qed.

Lemma magn_sym_mat (a b c d e f : R) gl (K : mtx R) :
  room 3 3 K ->
  exists k, magn_sym (cells (a :: b :: c :: d :: e :: f :: gl)) (mbuf (mat_of 3 3 mid (rest K))) = Ok (mbuf (mat_of 3 3 k (rest K)))
   /\ (forall i j, (i < 3)%nat -> (j < 3)%nat -> k i j = nth (i * 3 + j) [a; b; c; b; d; e; c; e; f] 0).
Proof.
  intros _. exists (fun i j => nth (i * 3 + j) [a; b; c; b; d; e; c; e; f] 0). split; auto.
Qed.

Theorem cal_magn_sphere bc fuel g n f tl l mu K bb c rho :
  (2 * n <= fuel)%nat -> room 3 3 K -> (3 <= length bb)%nat -> 1 <= mu -> 0 < rho ->
  (forall j, (j < 3)%nat -> separated (col_of n f j)) ->
  (forall j, (j < 3)%nat -> reaches_poles n f c rho j) ->
  (forall i, (i < n)%nat -> on_sphere c rho (f i)) ->
  cal_magn bc fuel (Some g) (mat_of n 3 f tl) l mu K (Vec 3 bb)
  = Ok (0%Z, (l * mu ^ (n - 1), mat_of 3 3 mid (rest K), vec_of [- c 0%nat; - c 1%nat; - c 2%nat] (skipn 3 bb))).
Proof.
  intros Hf HK Hb Hmu Hr Hs Hp Ho. pose proof HK as (Kr & Kc & _). unfold cal_magn. rewrite Kr, Kc.
  change (mcols (mat_of n 3 f tl)) with 3%nat. cbn [vsz Nat.eqb negb orb].
  replace (mu <? flit 10 1)%num with false.
  2: { assert (E : (flit 10 1 : R) = 1) by (cbn [flit NumR]; lits; lra). rewrite E. cbn [flt NumR]. destruct (Rltb_spec mu 1); auto; lra. }
  rewrite andb_false_r.
  assert (Nm : forall i, (i < n)%nat -> rnorm [f i 0%nat + - c 0%nat; f i 1%nat + - c 1%nat; f i 2%nat + - c 2%nat] = rho).
  { intros i Hi. specialize (Ho i Hi). unfold on_sphere in Ho. cbn in Ho. unfold rnorm.
    rewrite <- (sqrt_square rho) by lra. f_equal. rewrite <- Ho. cbn. ring. }
  erewrite bind_eq.
  2: { apply magn_start_ok with (c := c) (rho := rho); auto.
       intros i j Hi Hj. specialize (Ho i Hi). unfold on_sphere in Ho. cbn in Ho.
       assert (Q : (f i j - c j) * (f i j - c j) <= rho * rho).
       { pose proof (Rle_0_sqr (f i 0%nat - c 0%nat)). pose proof (Rle_0_sqr (f i 1%nat - c 1%nat)).
         pose proof (Rle_0_sqr (f i 2%nat - c 2%nat)). unfold Rsqr in *.
         destruct j as [|[|[|j]]]; [lra|lra|lra|lia]. }
       split; nra. }
  cbv beta iota. cbn [vbuf]. change (Vec (vsz (Vec 3 bb)) (cells [- c 0%nat; - c 1%nat; - c 2%nat] ++ skipn 3 bb))
    with (vec_of [- c 0%nat; - c 1%nat; - c 2%nat] (skipn 3 bb)).
  erewrite bind_eq by (apply magn_sphere_ok; [lra|exact Nm]). cbv beta iota.
  rewrite mtx_init_identity with (r := 3%nat) (c := 3%nat) by auto. erewrite bind_eq by reflexivity. cbv beta iota.
  erewrite bind_eq by (apply magn_ellipsoid_ok; [lra|exact Nm]). cbv beta iota. cbn [mbuf].
  destruct (@magn_sym_mat 1 0 0 1 0 1 [- c 0%nat; - c 1%nat; - c 2%nat] K HK) as (k & Ek & Hk).
  erewrite bind_eq by exact Ek.
  erewrite bind_eq by reflexivity.
  do 3 f_equal. cbn [mrows mcols]. 
  replace (mat_of 3 3 mid (rest K)) with (mat_of 3 3 k (rest K)); [reflexivity|].
  apply mat_ext. intros i j Hi Hj. rewrite Hk by auto.
  destruct i as [|[|[|i]]], j as [|[|[|j]]]; try lia; reflexivity.
Qed.

(** ** The shape of K, in any arithmetic *)

Lemma magn_sym_shape T (N : Num T) (g : buf T) (K : mtx T) h Kb :
  magn_sym g (mbuf (mat_of 3 3 h (rest K))) = Ok Kb ->
  exists k, Kb = mbuf (mat_of 3 3 k (rest K)) /\ forall i j, k i j = k j i.
Proof.
  unfold magn_sym. intros E.
  do 6 (match type of E with context [rd g ?i] => let x := fresh "x" in destruct (rd g i) as [x|u| |]; cbn in E; try discriminate E end).
  injection E as <-.
  exists (fun i j => match Nat.min i j, Nat.max i j with
     | 0, 0 => x | 0, 1 => x0 | 0, 2 => x1 | 1, 1 => x2 | 1, 2 => x3 | _, _ => x4 end%nat).
  split; [reflexivity|]. intros i j. now rewrite Nat.min_comm, Nat.max_comm.
Qed.
