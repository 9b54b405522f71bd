(** A step of the iterative calibration whose row of derivatives has a zero:
    the matrix to invert is singular, which goes unnoticed *)
From Coq Require Import List Arith ZArith Bool Lia Reals Lra Permutation Sorting.
From Verif Require Import Base BaseFacts RTac SpecVec SpecReal SpecMtx MVec MMtx MDecomp MStat MCal
  NumR SpecGauss PDet PVec PVecR PMtx PMtxOps PMtxR PGauss PSort PStatOrd SpecCal PCal SpecMagnJac PMagnJac.
Import ListNotations.
Set Implicit Arguments.
Local Open Scope R_scope.

Lemma bigsum_zero n f : (forall i, (i < n)%nat -> f i = 0) -> bigsum n f = 0.
Proof. induction n as [|n IH]; intros H; cbn [bigsum]; [reflexivity|]. rewrite IH, H by (auto; intros; apply H; lia). ring. Qed.

Lemma ldet_zero_row n : forall f r, (r < n)%nat -> (forall j, (j < n)%nat -> f r j = 0) -> ldet n f = 0.
Proof.
  induction n as [|n IH]; intros f r Hr H; [lia|]. cbn [ldet]. apply bigsum_zero. intros g Hg.
  destruct r as [|r]; [rewrite H by lia; ring|].
  rewrite (IH (minor 0 g f) r); [ring|lia|]. intros j Hj. unfold minor, skip_at at 1. cbn [Nat.ltb Nat.leb].
  apply H. unfold skip_at. destruct (j <? g)%nat; lia.
Qed.

Lemma magn_step_singular bc n jf l res r :
  (r < n)%nat -> jf 0%nat r = 0 ->
  magn_step bc n (mat_of 1 n jf []) l (mat_of n n mid []) res
  = Ok (mat_of n n mid [], mat_of n 1 (fun i _ => jf 0%nat i * - res) []).
Proof.
  intros Hr Hz. unfold magn_step. rewrite mtx_trans_ok by apply room_def. rewrite rest_def. cbn [bind].
  rewrite mtx_mult_ok by apply room_def. rewrite rest_def. cbn [bind].
  match goal with |- context [mat_of n n ?F []] => set (P := F) end.
  assert (HP : forall i j, P i j = jf 0%nat i * jf 0%nat j).
  { intros i j. unfold P, msum. cbn. ring. }
  match goal with |- context [for_ n 0 ?b ?s] =>
   destruct (@for_inv _ (fun k d => exists g', d = mbuf (mat_of n n g' []) /\ forall j, (j < n)%nat -> g' r j = 0 \/ (r = j /\ (k <= r)%nat)) n 0%nat b s) as (d & E & g' & E1 & Hg) end.
  { exists mid. split; [reflexivity|]. intros j Hj. unfold mid. destruct (Nat.eqb_spec r j) as [->|Nj]; [right; lia|left; reflexivity]. }
  { intros i d Hi (g' & -> & Hg).
    replace (i * (n + 1))%nat with (i * n + i)%nat by lia.
    rewrite rd_mat by lia. cbn [bind]. rewrite wr_mat by lia. eexists. split; [reflexivity|]. eexists. split; [reflexivity|].
    intros j Hj. cbv beta. unfold fupd. destruct (Nat.eqb_spec r i) as [->|Ni].
    - destruct (Nat.eqb_spec j i) as [->|Nj]; cbn [andb].
      + left. rewrite HP, Hz. cbn [fmul NumR]. ring.
      + destruct (Hg j Hj) as [E|E]; [now left|lia].
    - cbn [andb]. destruct (Hg j Hj) as [E|(E & L)]; [now left|right]. split; [exact E|]. lia. }
  rewrite E. cbn [bind]. subst d. rewrite mtx_eta_mat.
  unfold mtx_add_d. erewrite mtx_zip_d_ok; [|intros; reflexivity]. cbn [bind].
  rewrite (@mtx_inv_singular bc n _ [] _ ltac:(lia) (mat_room _ _ _ _)).
  2: { apply ldet_zero_row with r; auto. intros j Hj. cbv beta. rewrite HP, Hz. destruct (Hg j Hj) as [Z|Z]; [|lia].
       rewrite Z. cbn [fadd NumR]. ring. }
  cbn [bind]. rewrite mat_rest.
  rewrite mtx_mult_ok by apply room_def. rewrite rest_def. cbn [bind].
  rewrite mtx_scalar_mult_d_ok. cbn [bind]. f_equal. f_equal. apply mat_ext. intros i j Hi Hj.
  replace j with 0%nat by lia. cbn [fmul fneg NumR]. f_equal.
  rewrite msum_bigsum. change (mmul n mid (fun a b => jf b a) i 0%nat = jf 0%nat i). now rewrite mmul_id_l.
Qed.

Lemma lambda_total j (l mu s res : R) : mu <> 0 -> exists l' s', magn_lambda j l mu s res = Ok (l', s').
Proof.
  intros Hm. unfold magn_lambda. cbn [fdiv fofZ fmul fadd NumR]. rewrite Rdivo_ok.
  2: { rewrite <- INR_IZR_INZ. apply not_0_INR. lia. }
  cbn [bind]. destruct (flt _ _).
  - rewrite Rdivo_ok by auto. cbn [bind]. eauto.
  - cbn [bind]. eauto.
Qed.

(** ** The sphere fit on readings around the origin *)
Lemma magn_sphere_diverges bc n p tl l mu r rho tb :
  mu <> 0 -> 0 < rho ->
  (forall i, (i < n)%nat -> rnorm [p i 0%nat; p i 1%nat; p i 2%nat] = rho) ->
  (forall k, (k < 3)%nat -> bigsum n (fun i => p i k) = 0) ->
  magn_sphere bc (mat_of n 3 p tl) l mu r (vec_of [0; 0; 0] tb)
  = Ok (rho + (1 - INR n) ^ n * (r - rho), vec_of [0; 0; 0] tb).
Proof.
  intros Hmu Hr Hs Hc. unfold magn_sphere. change (mrows (mat_of n 3 p tl)) with n.
  rewrite mtx_init_identity with (r := 4%nat) (c := 4%nat) by apply room_def. rewrite rest_def. cbn [bind].
  assert (Hs' : forall i, (i < n)%nat -> rnorm (moved_by (fun _ => 0) (p i)) = rho).
  { intros i Hi. unfold moved_by. rewrite !Rplus_0_r. now apply Hs. }
  match goal with |- context [for_ n 0 ?B0 ?s0] =>
   destruct (@for_inv _ (fun j (st : R * vec R * R * R * mtx R) =>
     let '(r', b, _, s, idx) := st in
     r' = rho + (1 - INR n) ^ j * (r - rho) /\ b = vec_of [0; 0; 0] tb /\ idx = mat_of 4 4 mid []) n 0%nat B0 s0)
     as (((((r' & b) & l') & s) & idx) & E & E1 & E2 & _) end.
  { split; [cbn [pow]; ring|]. split; reflexivity. }
  { intros j ((((r' & b) & l') & s) & idx) Hj (-> & -> & ->). cbv beta iota.
    erewrite bind_eq by (apply (@jac_shp_row bc n p tl (fun _ => 0) tb); intros i Hi; rewrite Hs' by auto; lra).
    rewrite magn_row_ok by lia. cbn [bind]. rewrite magn_f_shp_ok.
    change [p j 0%nat + 0; p j 1%nat + 0; p j 2%nat + 0] with (moved_by (fun _ => 0) (p j)). rewrite Hs' by lia. cbn [bind].
    assert (Z : forall k, (k < 3)%nat -> shp_entry n p (fun _ => 0) (S k) = 0).
    { intros k Hk. unfold shp_entry. rewrite (bigsum_ext n _ (fun i => (- / rho) * p i k)).
      - rewrite <- bigsum_mult_l, Hc by auto. ring.
      - intros i Hi. rewrite Hs' by auto. field. lra. }
    set (R' := rho + (1 - INR n) ^ j * (r - rho)).
    rewrite (@magn_step_singular bc 4 (fun _ k => shp_entry n p (fun _ => 0) k) l' (fsub (Num := NumR) R' rho) 1%nat) by (auto; apply Z; lia).
    cbn [bind].
    match goal with |- context [mat_of 4 1 ?F []] => set (G := F) end.
    assert (G0 : G 0%nat 0%nat = - (INR n * ((1 - INR n) ^ j * (r - rho)))).
    { unfold G, R'. cbn [shp_entry fsub NumR]. ring. }
    assert (G1 : forall k, (k < 3)%nat -> G (S k) 0%nat = 0) by (intros k Hk; unfold G; rewrite Z by auto; ring).
    replace (rd (mbuf (mat_of 4 1 G [])) 0) with (Ok (G 0%nat 0%nat)) by reflexivity. cbn [bind].
    match goal with |- context [for_ 3 0 ?B0 ?s0] => replace (for_ 3 0 B0 s0)
      with (Ok (cells [0 + G 1%nat 0%nat; 0 + G 2%nat 0%nat; 0 + G 3%nat 0%nat] ++ tb)) by reflexivity end.
    cbn [bind]. rewrite !G1 by lia. rewrite !Rplus_0_r. change (Vec _ _) with (vec_of [0; 0; 0] tb).
    assert (ER : fadd (Num := NumR) R' (G 0%nat 0%nat) = rho + (1 - INR n) ^ S j * (r - rho)).
    { cbn [fadd NumR]. rewrite G0. unfold R'. cbn [pow]. ring. }
    rewrite ER.
    destruct (Nat.ltb_spec j (n - 1)).
    - rewrite magn_row_ok by lia. cbn [bind]. rewrite magn_f_shp_ok. cbn [bind].
      match goal with |- context [magn_lambda j l' mu s ?x] => destruct (lambda_total j l' s x Hmu) as (l2 & s2 & El) end.
      rewrite El. cbn [bind]. eexists. split; [reflexivity|]. cbv beta iota. auto.
    - eexists. split; [reflexivity|]. cbv beta iota. auto. }
  rewrite E. cbn [bind]. subst r' b. reflexivity.
Qed.


(** ** The first guess when the ranges differ *)
Lemma magn_start_axes bc fuel g n f tl bb c rho :
  (2 * n <= fuel)%nat -> (3 <= length bb)%nat ->
  (forall j, (j < 3)%nat -> separated (col_of n f j)) ->
  (forall j, (j < 3)%nat -> reaches_poles n f c (rho j) j) ->
  (forall i j, (i < n)%nat -> (j < 3)%nat -> c j - rho j <= f i j <= c j + rho j) ->
  magn_start bc fuel (Some g) (mat_of n 3 f tl) bb
  = Ok (cells [- c 0%nat; - c 1%nat; - c 2%nat] ++ skipn 3 bb, (rho 0%nat + rho 1%nat + rho 2%nat) / 3).
Proof.
  intros Hfu Hb Hs Hp Hin.
  assert (Hn : (0 < n)%nat) by (destruct (Hp 0%nat ltac:(lia)) as ((i & Hi & _) & _); lia).
  destruct bb as [|o0 [|o1 [|o2 bt]]]; cbn [length] in Hb; try lia. clear Hb. cbn [skipn].
  unfold magn_start. change (mrows (mat_of n 3 f tl)) with n.
  match goal with |- context [for_ 3 0 ?B0 ?s0] =>
   destruct (@for_inv _ (fun j (st : buf R * R * buf R * buf R) =>
     let '(b, mean, v, w) := st in
     b = match j with 0 => [o0; o1; o2] | 1 => [Some (- c 0); o1; o2] | 2 => [Some (- c 0); Some (- c 1); o2]
         | _ => [Some (- c 0); Some (- c 1); Some (- c 2)] end%nat ++ bt
     /\ mean = bigsum j rho /\ (n <= length v)%nat /\ (n <= length w)%nat) 3%nat 0%nat B0 s0)
     as ((((b & mean) & v) & w) & E & E1 & E2 & _) end.
  { split; [reflexivity|]. split; [reflexivity|]. rewrite !fresh_length. lia. }
  { intros j (((b & mean) & v) & w) Hj (Eb & Em & Lv & Lw). cbv beta iota.
    rewrite mtx_get_col_ok by (auto; lia). cbn [bind].
    replace (Vec n (cells (col_of n f j) ++ skipn n v)) with (vec_of (col_of n f j) (skipn n v))
      by (unfold vec_of; now rewrite col_of_length).
    destruct (vec_sort_ok g (col_of n f j) (skipn n v) n w fuel) as (ys & E & P & S).
    { apply Hs. lia. }
    { intros C. apply (f_equal (@length R)) in C. rewrite col_of_length in C. cbn in C. lia. }
    { now rewrite col_of_length. }
    { now rewrite col_of_length. }
    erewrite bind_eq by exact E. cbn [vbuf].
    pose proof (Permutation_length P) as Ly. rewrite col_of_length in Ly.
    destruct (Hp j ltac:(lia)) as ((i1 & Hi1 & T1) & (i2 & Hi2 & T2)).
    assert (Ic : forall x, In x (col_of n f j) -> c j - rho j <= x <= c j + rho j).
    { intros x Hx. apply in_map_iff in Hx. destruct Hx as (i & <- & Hi). apply in_seq in Hi. apply Hin; lia. }
    assert (Ii : forall i, (i < n)%nat -> In (f i j) (col_of n f j)).
    { intros i Hi. apply in_map_iff. exists i. split; auto. apply in_seq. lia. }
    rewrite (rd_cells_app _ _ 0) by lia. cbn [bind].
    pose proof (@sorted_top (col_of n f j) ys (c j + rho j) P S) as Top. rewrite col_of_length in Top.
    rewrite Top. 2: { rewrite <- T1. auto. } 2: { intros x Hx. now apply Ic. }
    rewrite (rd_cells_app _ _ 0) by lia. cbn [bind].
    rewrite (@sorted_bottom (col_of n f j) ys (c j - rho j)); auto.
    2: { rewrite <- T2. auto. } 2: { intros x Hx. now apply Ic. }
    assert (E2 : (flit 20 1 : R) = 2) by (cbn [flit NumR]; lits; lra). rewrite !E2.
    cbn [fdiv fneg fadd fsub NumR]. rewrite !Rdivo_ok by lra. cbn [bind].
    replace (- (c j + rho j + (c j - rho j)) / 2) with (- c j) by field.
    rewrite wr_ok. 2: { rewrite Eb, app_length. destruct j as [|[|[|j]]]; cbn [length]; lia. }
    cbn [bind]. eexists. split; [reflexivity|]. cbv beta iota. split; [|split; [|split]].
    - subst b. destruct j as [|[|[|j]]]; try reflexivity. lia.
    - rewrite Em. cbn [bigsum]. field.
    - rewrite app_length, cells_length, col_of_length, skipn_length. lia.
    - rewrite app_length, cells_length, <- Ly, skipn_length, col_of_length. lia. }
  erewrite bind_eq by exact E. cbv beta iota. subst b mean.
  assert (E3 : (flit 30 1 : R) = 3) by (cbn [flit NumR]; lits; lra). rewrite E3. cbn [fdiv NumR]. rewrite Rdivo_ok by lra. cbn [bind].
  do 2 f_equal. cbn [Nat.add bigsum]. field.
Qed.
