(** Properties C17 (matrices), C19-C28, C47-C49: matrix storage, element-wise
    operations, products, transposes, row operations, minors, extrema and
    predicates (src/matrices.c).

    [mat_of r c f tl] is the r x c matrix with elements f i j, stored row by
    row in a buffer whose remaining cells are tl.  [room r c m] says that m is
    any r x c matrix object, with arbitrary (possibly uninitialised) contents;
    [rest m] is the memory behind its elements.  A result [Ok (rc, out)] is
    the return code and the output matrix. *)
From Coq Require Import List Arith ZArith Bool Lia Reals Lra PrimFloat.
From Verif Require Import Base BaseFacts SpecVec SpecMtx SpecReal NumR NumF Libm LibmR MVec MMtx PMtx PMtxOps PMtxR.
Import ListNotations.

(** * C17 (matrices) *)
Theorem C17_mtx_copy :
  forall T (N : Num T) bc r c (md : mtx T) f tl,
  room r c md -> mtx_copy bc md (mat_of r c f tl) = Ok (0%Z, mat_of r c f (rest md)).
Proof. intros T N bc. exact (@mtx_copy_ok T bc). Qed.
Print Assumptions C17_mtx_copy.

Theorem C17_mtx_copy_mismatch :
  forall T (N : Num T) (md ms : mtx T),
  ~ (mrows md = mrows ms /\ mcols md = mcols ms) ->
  mtx_copy true md ms = Ok ((- EINVAL)%Z, md).
Proof. intros T N md ms. exact (@mtx_copy_mismatch T true md ms eq_refl). Qed.
Print Assumptions C17_mtx_copy_mismatch.

(** Loading an array of rows * cols numbers: element (i,j) is number i * cols + j. *)
Theorem C17_mtx_from_arr :
  forall T (N : Num T) r c (m : mtx T) f ta,
  room r c m ->
  mtx_from_arr m (cells (map (fun k => f (k / c) (k mod c)) (seq 0 (r * c))) ++ ta)
  = Ok (0%Z, mat_of r c f (rest m)).
Proof.
  intros T N r c m f ta H. apply mtx_from_arr_ok; auto. now rewrite map_length, seq_length.
Qed.
Print Assumptions C17_mtx_from_arr.

Example C17_mtx_example :
  mtx_from_arr (mtx_def 2 3) (cells [1; 2; 3; 4; 5; 6]%Z)
  = Ok (0%Z, mat_of 2 3 (fun i j => Z.of_nat (3 * i + j + 1)) []).
Proof. reflexivity. Qed.

(** * C19: element access *)
Theorem C19_get :
  forall T (N : Num T) bc r c (f : nat -> nat -> T) tl i j,
  i < r -> j < c -> mtx_get bc (mat_of r c f tl) i j = Ok (0%Z, Some (f i j)).
Proof. intros T N bc. exact (@mtx_get_mat T bc). Qed.
Print Assumptions C19_get.

(** After zsl_mtx_set(m, i, j, x), zsl_mtx_get finds x at (i,j) and the old
    value everywhere else; the memory behind the matrix is untouched. *)
Theorem C19_set_get :
  forall T (N : Num T) bc r c (f : nat -> nat -> T) tl i j x,
  i < r -> j < c ->
  exists m', mtx_set bc (mat_of r c f tl) i j x = Ok (0%Z, m')
  /\ mrows m' = r /\ mcols m' = c /\ rest m' = tl
  /\ mtx_get bc m' i j = Ok (0%Z, Some x)
  /\ forall a b, a < r -> b < c -> (a, b) <> (i, j) -> mtx_get bc m' a b = Ok (0%Z, Some (f a b)).
Proof.
  intros T N bc r c f tl i j x Hi Hj. exists (mat_of r c (fupd f i j x) tl).
  split; [now apply mtx_set_mat|].
  split; [reflexivity|]. split; [reflexivity|]. split; [apply mat_rest|]. split.
  - rewrite mtx_get_mat by auto. now rewrite fupd_eq.
  - intros a b Ha Hb Hab. rewrite mtx_get_mat by auto. rewrite fupd_ne; auto.
    destruct (Nat.eq_dec a i) as [->|]; [right; congruence|auto].
Qed.
Print Assumptions C19_set_get.

(** Out of range: -EINVAL, nothing read or written, whatever the buffer is. *)
Theorem C19_out_of_range :
  forall T (N : Num T) (m : mtx T) i j x,
  ~ (i < mrows m /\ j < mcols m) ->
  mtx_get true m i j = Ok ((- EINVAL)%Z, None) /\ mtx_set true m i j x = Ok ((- EINVAL)%Z, m).
Proof.
  intros T N m i j x H. split.
  - exact (@mtx_get_oob T true m i j eq_refl H).
  - exact (@mtx_set_oob T true m i j x eq_refl H).
Qed.
Print Assumptions C19_out_of_range.

Example C19_example :
  mtx_set true (mat_of 2 2 (fun i j => Z.of_nat (10 * i + j)) []) 1 0 7%Z
  = Ok (0%Z, Mtx 2 2 (cells [0; 1; 7; 11]%Z)).
Proof. reflexivity. Qed.

(** * C20: rows and columns *)
Theorem C20_get_row :
  forall T (N : Num T) bc r c (f : nat -> nat -> T) tl i v,
  i < r -> c <= length v ->
  mtx_get_row bc (mat_of r c f tl) i v
  = Ok (0%Z, cells (map (fun j => f i j) (seq 0 c)) ++ skipn c v).
Proof. intros T N bc. exact (@mtx_get_row_ok T bc). Qed.
Print Assumptions C20_get_row.

Theorem C20_get_col :
  forall T (N : Num T) bc r c (f : nat -> nat -> T) tl j v,
  j < c -> r <= length v ->
  mtx_get_col bc (mat_of r c f tl) j v
  = Ok (0%Z, cells (map (fun i => f i j) (seq 0 r)) ++ skipn r v).
Proof. intros T N bc. exact (@mtx_get_col_ok T bc). Qed.
Print Assumptions C20_get_col.

Theorem C20_set_row :
  forall T (N : Num T) bc r c (f : nat -> nat -> T) tl i xs tlv d,
  i < r -> length xs = c ->
  mtx_set_row bc (mat_of r c f tl) i (cells xs ++ tlv)
  = Ok (0%Z, mat_of r c (fun a b => if a =? i then nth b xs d else f a b) tl).
Proof. intros T N bc. exact (@mtx_set_row_ok T bc). Qed.
Print Assumptions C20_set_row.

Theorem C20_set_col :
  forall T (N : Num T) bc r c (f : nat -> nat -> T) tl j xs tlv d,
  j < c -> length xs = r ->
  mtx_set_col bc (mat_of r c f tl) j (cells xs ++ tlv)
  = Ok (0%Z, mat_of r c (fun a b => if b =? j then nth a xs d else f a b) tl).
Proof. intros T N bc. exact (@mtx_set_col_ok T bc). Qed.
Print Assumptions C20_set_col.

Theorem C20_out_of_range :
  forall T (N : Num T) (m : mtx T) i j v x xs,
  0 < mrows m -> 0 < mcols m -> mrows m <= i -> mcols m <= j ->
  mtx_get_row true m i v = Ok ((- EINVAL)%Z, v)
  /\ mtx_get_col true m j v = Ok ((- EINVAL)%Z, v)
  /\ mtx_set_row true m i (cells (x :: xs)) = Ok ((- EINVAL)%Z, m)
  /\ mtx_set_col true m j (cells (x :: xs)) = Ok ((- EINVAL)%Z, m).
Proof.
  intros T N m i j v x xs Hr Hc Hi Hj.
  split; [exact (@mtx_get_row_oob T true m i v eq_refl Hi Hc)|].
  split; [exact (@mtx_get_col_oob T true m j v eq_refl Hj Hr)|].
  rewrite <- (app_nil_r (cells (x :: xs))).
  split; [exact (@mtx_set_row_oob T true m i x xs [] eq_refl Hi Hc)|].
  exact (@mtx_set_col_oob T true m j x xs [] eq_refl Hj Hr).
Qed.
Print Assumptions C20_out_of_range.

Example C20_example :
  mtx_set_col true (mat_of 2 3 (fun i j => Z.of_nat (10 * i + j)) []) 1 (cells [5; 6]%Z)
  = Ok (0%Z, Mtx 2 3 (cells [0; 5; 2; 10; 6; 12]%Z)).
Proof. reflexivity. Qed.

(** * C21: initialisation *)

(** A callback that stores g i j at (i,j) through zsl_mtx_set. *)
Theorem C21_init_fn :
  forall T (N : Num T) bc r c (m : mtx T) (g : nat -> nat -> T),
  room r c m ->
  mtx_init bc m (Some (fun m i j => mtx_set bc m i j (g i j))) = Ok (0%Z, mat_of r c g (rest m)).
Proof. intros T N bc r c m g H. now apply mtx_init_gen. Qed.
Print Assumptions C21_init_fn.

Theorem C21_init_null_zero :
  forall T (N : Num T) bc r c (m : mtx T),
  room r c m -> mtx_init bc m None = Ok (0%Z, mat_of r c (fun _ _ => f0) (rest m)).
Proof. exact @mtx_init_empty. Qed.
Print Assumptions C21_init_null_zero.

Theorem C21_init_identity :
  forall T (N : Num T) bc r c (m : mtx T),
  room r c m ->
  mtx_init bc m (Some (entry_fn_identity bc))
  = Ok (0%Z, mat_of r c (fun i j => if i =? j then f1 else f0) (rest m)).
Proof. exact @mtx_init_identity. Qed.
Print Assumptions C21_init_identity.

(** An entry function reporting an error stops the initialisation with its code. *)
Theorem C21_init_error :
  forall T (N : Num T) bc (m m' : mtx T) fn rc,
  0 < mrows m -> 0 < mcols m -> rc <> 0%Z -> fn m 0 0 = Ok (rc, m') ->
  mtx_init bc m (Some fn) = Ok (rc, m').
Proof. intros. now apply each_entry_first. Qed.
Print Assumptions C21_init_error.

Example C21_example : room 2 3 (mtx_def (T := float) 2 3).
Proof. apply room_def. Qed.

(** * C22: element-wise operations *)
Theorem C22_add :
  forall T (N : Num T) bc r c (f g : nat -> nat -> T) ta tb mc,
  room r c mc ->
  mtx_add bc (mat_of r c f ta) (mat_of r c g tb) mc
  = Ok (0%Z, mat_of r c (fun i j => fadd (f i j) (g i j)) (rest mc)).
Proof. intros. now apply mtx_zip_ok. Qed.
Print Assumptions C22_add.

Theorem C22_sub :
  forall T (N : Num T) bc r c (f g : nat -> nat -> T) ta tb mc,
  room r c mc ->
  mtx_sub bc (mat_of r c f ta) (mat_of r c g tb) mc
  = Ok (0%Z, mat_of r c (fun i j => fsub (f i j) (g i j)) (rest mc)).
Proof. intros. now apply mtx_zip_ok. Qed.
Print Assumptions C22_sub.

Theorem C22_add_sub_in_place :
  forall T (N : Num T) bc r c (f g : nat -> nat -> T) ta tb,
  mtx_add_d bc (mat_of r c f ta) (mat_of r c g tb)
  = Ok (0%Z, mat_of r c (fun i j => fadd (f i j) (g i j)) ta)
  /\ mtx_sub_d bc (mat_of r c f ta) (mat_of r c g tb)
  = Ok (0%Z, mat_of r c (fun i j => fsub (f i j) (g i j)) ta).
Proof. intros. split; now apply mtx_zip_d_ok. Qed.
Print Assumptions C22_add_sub_in_place.

(** zsl_mtx_binary_op with any sharing of the three buffers. *)
Definition op_of {T} {N : Num T} (op : binop) : T -> T -> option T :=
  fun a b =>
  match op with
  | BAdd => Some (fadd a b)
  | BSub => Some (fsub a b)
  | BMult => Some (fmul a b)
  | BDiv => if feq b f0 then Some f0 else match fdiv a b with Ok q => Some q | _ => None end
  | _ => None
  end.

Theorem C22_binary_op :
  forall T (N : Num T) (M : NumM T) bc (st : store T) pa pb pc r c f g h ta tb mc op,
  nth_error st pa = Some (mbuf (mat_of r c f ta)) ->
  nth_error st pb = Some (mbuf (mat_of r c g tb)) ->
  nth_error st pc = Some (mbuf mc) -> room r c mc ->
  (forall i j, i < r -> j < c -> op_of op (f i j) (g i j) = Some (h i j)) ->
  In op [BAdd; BSub; BMult; BDiv] ->
  mtx_binary_op_st bc st (MR r c pa) (MR r c pb) (MR r c pc) op
  = Ok (0%Z, upd st pc (mbuf (mat_of r c h (rest mc)))).
Proof.
  intros T N M bc st pa pb pc r c f g h ta tb mc op Ha Hb Hc Hm Hop Hin.
  cbn in Hin. repeat (destruct Hin as [<-|Hin]); try contradiction;
    (eapply mtx_zip_st_ok; eauto; intros i j Hi Hj; specialize (Hop i j Hi Hj); cbn [op_of] in Hop).
  - unfold op_add. congruence.
  - unfold op_sub. congruence.
  - unfold op_mult. congruence.
  - unfold op_div. destruct (feq (g i j) f0); [congruence|].
    destruct (fdiv (f i j) (g i j)); congruence.
Qed.
Print Assumptions C22_binary_op.

(** Any shape mismatch: -EINVAL and no write, for every operation. *)
Theorem C22_shape_mismatch :
  forall T (N : Num T) (M : NumM T) (st : store T) ma mb mc op,
  ~ (rrows ma = rrows mb /\ rrows mb = rrows mc /\ rcols ma = rcols mb /\ rcols mb = rcols mc) ->
  mtx_binary_op_st true st ma mb mc op = Ok ((- EINVAL)%Z, st).
Proof.
  intros T N M st [ra ca pa] [rb cb pb] [rc cc pc] op H. cbn [rrows rcols] in H.
  destruct op; cbn [mtx_binary_op_st]; unfold mtx_zip_st; now rewrite shape_bad.
Qed.
Print Assumptions C22_shape_mismatch.

Theorem C22_add_sub_mismatch :
  forall T (N : Num T) (ma mb mc : mtx T),
  ~ (mrows ma = mrows mb /\ mrows mb = mrows mc /\ mcols ma = mcols mb /\ mcols mb = mcols mc) ->
  mtx_add true ma mb mc = Ok ((- EINVAL)%Z, mc) /\ mtx_sub true ma mb mc = Ok ((- EINVAL)%Z, mc).
Proof. intros. split; now apply mtx_zip_bad. Qed.
Print Assumptions C22_add_sub_mismatch.

Theorem C22_unary_op :
  forall T (N : Num T) (M : NumM T) r c (f h : nat -> nat -> T) tl op fn,
  unop_fun op = Some fn -> (forall i j, i < r -> j < c -> fn (f i j) = Ok (h i j)) ->
  mtx_unary_op (mat_of r c f tl) op = Ok (0%Z, mat_of r c h tl).
Proof. intros T N M. exact (@mtx_unary_op_ok T N M). Qed.
Print Assumptions C22_unary_op.

(** What the operations of the enumeration are, over the reals. *)
Theorem C22_unary_ops_R :
  forall x : R,
  let is op y := match unop_fun (T := R) op with Some fn => fn x = Ok y | None => False end in
  is UIncr (x + 1)%R /\ is UDecr (x - 1)%R /\ is UNeg (- x)%R /\ is UAbs (Rabs x)
  /\ is UExp (exp x) /\ is USin (sin x) /\ is UCos (cos x) /\ is UAtan (atan x)
  /\ is USinh (sinh x) /\ is UCosh (cosh x) /\ is UTanh (tanh x)
  /\ ((0 <= x)%R -> is USqrt (R_sqrt.sqrt x))
  /\ ((0 < x)%R -> is ULog (ln x) /\ is ULog10 (ln x / ln 10)%R)
  /\ ((-1 <= x <= 1)%R -> is UAsin (asin x) /\ is UAcos (acos x))
  /\ (cos x <> 0%R -> is UTan (tan x))
  /\ (exists y, is UFloor y /\ (y <= x < y + 1)%R /\ exists z, y = IZR z)
  /\ (exists y, is UCeil y /\ (y - 1 < x <= y)%R /\ exists z, y = IZR z)
  /\ (exists y, is URound y /\ (Rabs (y - x) <= / 2)%R /\ exists z, y = IZR z).
Proof.
  intros x is. unfold is. cbn [unop_fun NumR NumMR fadd fsub fneg fabs fexp fsin fcos fatan fsinh fcosh
    ftanh fsqrt flog flog10 fasin facos ftan ffloor fceil fround f1].
  repeat (split; [reflexivity|]).
  split; [intros; now apply Rsqrto_ok|].
  split; [intros; unfold Rlog, Rlog10; destruct (Rlt_dec 0 x); [auto|contradiction]|].
  split. { intros (A & B). unfold Rasin, Racos.
    destruct (Rle_dec (-1) x); [|contradiction]. destruct (Rle_dec x 1); [auto|contradiction]. }
  split. { intros A. unfold Rtan. destruct (Req_EM_T (cos x) 0); [contradiction|auto]. }
  assert (Fl : forall z, (Rfloor z <= z < Rfloor z + 1)%R).
  { intros z. unfold Rfloor. pose proof (base_Int_part z). lra. }
  split. { exists (Rfloor x). split; auto. split; [apply Fl|]. unfold Rfloor; eauto. }
  split. { exists (Rceil x). split; auto. split; [pose proof (Fl (-x)%R); unfold Rceil; lra|].
    unfold Rceil, Rfloor. exists (- Int_part (-x))%Z. now rewrite opp_IZR. }
  exists (Rround x). split; auto. unfold Rround. destruct (Rle_dec 0 x).
  - split; [|unfold Rfloor; eauto]. pose proof (Fl (x + 1 / 2)%R). apply Rabs_le. lra.
  - split.
    + pose proof (Fl (- x + 1 / 2)%R). apply Rabs_le. lra.
    + unfold Rfloor. exists (- Int_part (-x + 1 / 2))%Z. now rewrite opp_IZR.
Qed.
Print Assumptions C22_unary_ops_R.

(** Operations outside the enumerations. *)
Theorem C22_unknown_op :
  forall T (N : Num T) (M : NumM T) (m ma mb mc : mtx T) bc,
  0 < mrows m * mcols m -> mtx_unary_op m UOther = Ok ((- ENOSYS)%Z, m)
  /\ (0 < mrows ma * mcols ma ->
      mrows ma = mrows mb -> mrows mb = mrows mc -> mcols ma = mcols mb -> mcols mb = mcols mc ->
      mtx_binary_op bc ma mb mc BOther = Ok ((- ENOSYS)%Z, mc)).
Proof.
  intros T N M m ma mb mc bc H0. split.
  - unfold mtx_unary_op. rewrite Nat.mul_comm. destruct (mrows m * mcols m); [lia|]. now destruct m.
  - intros H E1 E2 E3 E4. unfold mtx_binary_op, mtx_binary_op_st. rewrite <- E2, <- E1, <- E4, <- E3.
    rewrite shape_ok, andb_false_r. cbn [rcols rrows].
    rewrite Nat.mul_comm. destruct (mrows ma * mcols ma =? 0) eqn:E; [apply Nat.eqb_eq in E; lia|].
    cbn. rewrite E3, E4, E1, E2. now destruct mc.
Qed.
Print Assumptions C22_unknown_op.

Example C22_example :
  mtx_sub true (mat_of 2 2 (fun i j => F (Z.of_nat (10 * i + j)) 0) [])
               (mat_of 2 2 (fun i j => F (Z.of_nat (i + j)) 0) []) (mtx_def 2 2)
  = Ok (0%Z, mat_of 2 2 (fun i j => F (Z.of_nat (9 * i)) 0) []).
Proof. vm_compute. reflexivity. Qed.

(** * C23: the remaining operations of the enumeration (MIN, MAX, EQUAL,
    NEQUAL, LESS, GREAT, LEQ, GEQ) fall through to "not implemented" after
    overwriting the first element of the output. *)
Theorem C23_unsupported_op_clobbers :
  forall bc r c (f g : nat -> nat -> R) ta tb mc op,
  room r c mc -> 0 < r -> 0 < c ->
  In op [BMin; BMax; BEqual; BNequal; BLess; BGreat; BLeq; BGeq] ->
  exists b', mtx_binary_op bc (mat_of r c f ta) (mat_of r c g tb) mc op
    = Ok ((- ENOSYS)%Z, Mtx r c b')
  /\ b' = upd (mbuf mc) 0 (Some (if Rleb (g 0 0) (f 0 0) then 1%R else 0%R)).
Proof. exact fallthrough_clobbers. Qed.
Print Assumptions C23_unsupported_op_clobbers.

Theorem C23_unsupported_op_refuted :
  exists (ma mb mc mc' : mtx R) op,
    mtx_binary_op true ma mb mc op = Ok ((- ENOSYS)%Z, mc') /\ mc' <> mc.
Proof.
  destruct (fallthrough_clobbers true 1 1 (fun _ _ => 5%R) (fun _ _ => 3%R) [] []
              (mat_of 1 1 (fun _ _ => 7%R) []) BMax) as (b' & E & Eb); auto.
  - apply mat_room.
  - cbn. auto.
  - eexists _, _, _, _, _. split; [exact E|]. subst b'. cbn. unfold Rleb.
    destruct (Rle_dec 3 5); intros H; injection H; lra.
Qed.
Print Assumptions C23_unsupported_op_refuted.

(** * C24: product *)
Theorem C24_mult :
  forall T (N : Num T) bc r n c (f g : nat -> nat -> T) ta tb mc,
  room r c mc ->
  mtx_mult bc (mat_of r n f ta) (mat_of n c g tb) mc
  = Ok (0%Z, mat_of r c (fun i j => msum n (fun k => fmul (f i k) (g k j))) (rest mc)).
Proof. exact @mtx_mult_ok. Qed.
Print Assumptions C24_mult.

Theorem C24_mult_R :
  forall bc r n c (f g : nat -> nat -> R) ta tb mc,
  room r c mc ->
  mtx_mult bc (mat_of r n f ta) (mat_of n c g tb) mc
  = Ok (0%Z, mat_of r c (fun i j => bigsum n (fun k => f i k * g k j)%R) (rest mc)).
Proof. exact mtx_mult_R. Qed.
Print Assumptions C24_mult_R.

(** The output may be an operand: m1 := m1 * m2 and m2 := m1 * m2 for square
    matrices (the arguments are the same object in [mtx_mult A B A]). *)
Theorem C24_mult_in_place :
  forall T (N : Num T) bc r n (f g : nat -> nat -> T) ta tb,
  mtx_mult bc (mat_of r n f ta) (mat_of n n g tb) (mat_of r n f ta)
  = Ok (0%Z, mat_of r n (fun i j => msum n (fun k => fmul (f i k) (g k j))) ta)
  /\ mtx_mult bc (mat_of n n g tb) (mat_of n r f ta) (mat_of n r f ta)
  = Ok (0%Z, mat_of n r (fun i j => msum n (fun k => fmul (g i k) (f k j))) ta)
  /\ mtx_mult_d bc (mat_of r n f ta) (mat_of n n g tb)
  = Ok (0%Z, mat_of r n (fun i j => msum n (fun k => fmul (f i k) (g k j))) ta).
Proof.
  intros. split; [|split].
  - rewrite mtx_mult_ok by apply mat_room. now rewrite mat_rest.
  - rewrite mtx_mult_ok by apply mat_room. now rewrite mat_rest.
  - apply mtx_mult_d_ok.
Qed.
Print Assumptions C24_mult_in_place.

Theorem C24_mult_rejects :
  forall T (N : Num T) (ma mb mc : mtx T),
  ~ (mcols ma = mrows mb /\ mrows mc = mrows ma /\ mcols mc = mcols mb) ->
  mtx_mult true ma mb mc = Ok ((- EINVAL)%Z, mc).
Proof. intros T N ma mb mc. exact (@mtx_mult_bad T N true ma mb mc eq_refl). Qed.
Print Assumptions C24_mult_rejects.

Theorem C24_mult_d_rejects :
  forall T (N : Num T) (ma mb : mtx T),
  ~ (mcols ma = mrows mb /\ mrows mb = mcols mb) -> mtx_mult_d true ma mb = Ok ((- EINVAL)%Z, ma).
Proof. intros T N ma mb. exact (@mtx_mult_d_bad T N true ma mb eq_refl). Qed.
Print Assumptions C24_mult_d_rejects.

(** (A B) C = A (B C), computed with the API *)
Theorem C24_mult_assoc :
  forall bc p q r s (f g h : nat -> nat -> R) ta tb tc ab bcm o1 o2,
  room p r ab -> room q s bcm -> room p s o1 -> room p s o2 -> rest o1 = rest o2 ->
  exists x y m,
    mtx_mult bc (mat_of p q f ta) (mat_of q r g tb) ab = Ok (0%Z, x)
    /\ mtx_mult bc x (mat_of r s h tc) o1 = Ok (0%Z, m)
    /\ mtx_mult bc (mat_of q r g tb) (mat_of r s h tc) bcm = Ok (0%Z, y)
    /\ mtx_mult bc (mat_of p q f ta) y o2 = Ok (0%Z, m).
Proof. exact mult_assoc_api. Qed.
Print Assumptions C24_mult_assoc.

(** I A = A = A I *)
Theorem C24_mult_identity :
  forall bc r c (f : nat -> nat -> R) ta i1 i2 o1 o2,
  room r r i1 -> room c c i2 -> room r c o1 -> room r c o2 ->
  exists x y,
    mtx_init bc i1 (Some (entry_fn_identity bc)) = Ok (0%Z, x)
    /\ mtx_init bc i2 (Some (entry_fn_identity bc)) = Ok (0%Z, y)
    /\ mtx_mult bc x (mat_of r c f ta) o1 = Ok (0%Z, mat_of r c f (rest o1))
    /\ mtx_mult bc (mat_of r c f ta) y o2 = Ok (0%Z, mat_of r c f (rest o2)).
Proof. exact mult_identity_api. Qed.
Print Assumptions C24_mult_identity.

(** (A B)^T = B^T A^T *)
Theorem C24_mult_transpose :
  forall bc p q r (f g : nat -> nat -> R) ta tb ab at_ bt o1 o2,
  room p r ab -> room q p at_ -> room r q bt -> room r p o1 -> room r p o2 -> rest o1 = rest o2 ->
  exists x y z m,
    mtx_mult bc (mat_of p q f ta) (mat_of q r g tb) ab = Ok (0%Z, x)
    /\ mtx_trans bc x o1 = Ok (0%Z, m)
    /\ mtx_trans bc (mat_of p q f ta) at_ = Ok (0%Z, y)
    /\ mtx_trans bc (mat_of q r g tb) bt = Ok (0%Z, z)
    /\ mtx_mult bc z y o2 = Ok (0%Z, m).
Proof. exact mult_trans_api. Qed.
Print Assumptions C24_mult_transpose.

Example C24_example :
  mtx_mult true (mat_of 2 3 (fun i j => F (Z.of_nat (i + j)) 0) [])
                (mat_of 3 1 (fun i _ => F (Z.of_nat (i + 1)) 0) []) (mtx_def 2 1)
  = Ok (0%Z, Mtx 2 1 (cells [F 8 0; F 14 0])).
Proof. vm_compute. reflexivity. Qed.

(** * C25: transpose *)
Theorem C25_trans :
  forall T (N : Num T) bc r c (f : nat -> nat -> T) ta mb,
  room c r mb ->
  mtx_trans bc (mat_of r c f ta) mb = Ok (0%Z, mat_of c r (fun i j => f j i) (rest mb)).
Proof. intros T N bc. exact (@mtx_trans_ok T bc). Qed.
Print Assumptions C25_trans.

Theorem C25_trans_twice :
  forall T (N : Num T) bc r c (f : nat -> nat -> T) ta mb mc,
  room c r mb -> room r c mc ->
  exists x, mtx_trans bc (mat_of r c f ta) mb = Ok (0%Z, x)
         /\ mtx_trans bc x mc = Ok (0%Z, mat_of r c f (rest mc)).
Proof. intros. eexists. split; [now apply mtx_trans_ok|]. now apply mtx_trans_ok. Qed.
Print Assumptions C25_trans_twice.

Theorem C25_trans_rejects :
  forall T (N : Num T) (ma mb : mtx T),
  ~ (mrows ma = mcols mb /\ mcols ma = mrows mb) -> mtx_trans true ma mb = Ok ((- EINVAL)%Z, mb).
Proof. intros T N ma mb. exact (@mtx_trans_bad T true ma mb eq_refl). Qed.
Print Assumptions C25_trans_rejects.

Example C25_example :
  mtx_trans true (mat_of 2 3 (fun i j => Z.of_nat (10 * i + j)) []) (mtx_def 3 2)
  = Ok (0%Z, Mtx 3 2 (cells [0; 10; 1; 11; 2; 12]%Z)).
Proof. reflexivity. Qed.

(** * C26: in place it is wrong already for 2 x 2 *)
Theorem C26_trans_in_place_refuted :
  exists f : nat -> nat -> Z,
    mtx_trans_self true (mat_of 2 2 f []) <> Ok (0%Z, mat_of 2 2 (fun i j => f j i) []).
Proof. exists (fun i j => Z.of_nat (2 * i + j)). vm_compute. discriminate. Qed.
Print Assumptions C26_trans_in_place_refuted.

(** * C27: row operations *)
Theorem C27_sum_rows :
  forall T (N : Num T) bc r c (f : nat -> nat -> T) tl i j,
  i < r -> j < r ->
  mtx_sum_rows_d bc (mat_of r c f tl) i j
  = Ok (0%Z, mat_of r c (fun a b => if a =? i then fadd (f i b) (f j b) else f a b) tl).
Proof. exact @mtx_sum_rows_d_ok. Qed.
Print Assumptions C27_sum_rows.

Theorem C27_sum_rows_scaled_partial :
  forall T (N : Num T) bc r c (f : nat -> nat -> T) tl i j s,
  i < r -> j < r -> (bc = true -> j < c) ->
  mtx_sum_rows_scaled_d bc (mat_of r c f tl) i j s
  = Ok (0%Z, mat_of r c (fun a b => if a =? i then fadd (f i b) (fmul (f j b) s) else f a b) tl).
Proof. exact @mtx_sum_rows_scaled_d_ok. Qed.
Print Assumptions C27_sum_rows_scaled_partial.

Theorem C27_scalar_mult_row :
  forall T (N : Num T) bc r c (f : nat -> nat -> T) tl i s,
  i < r ->
  mtx_scalar_mult_row_d bc (mat_of r c f tl) i s
  = Ok (0%Z, mat_of r c (fun a b => if a =? i then fmul (f i b) s else f a b) tl).
Proof. exact @mtx_scalar_mult_row_d_ok. Qed.
Print Assumptions C27_scalar_mult_row.

Theorem C27_scalar_mult :
  forall T (N : Num T) r c (f : nat -> nat -> T) tl s,
  mtx_scalar_mult_d (mat_of r c f tl) s = Ok (0%Z, mat_of r c (fun i j => fmul (f i j) s) tl).
Proof. exact @mtx_scalar_mult_d_ok. Qed.
Print Assumptions C27_scalar_mult.

Theorem C27_rejects :
  forall T (N : Num T) (m : mtx T) i j s,
  mrows m <= i ->
  mtx_sum_rows_d true m i j = Ok ((- EINVAL)%Z, m)
  /\ mtx_sum_rows_d true m j i = Ok ((- EINVAL)%Z, m)
  /\ mtx_sum_rows_scaled_d true m i j s = Ok ((- EINVAL)%Z, m)
  /\ mtx_scalar_mult_row_d true m i s = Ok ((- EINVAL)%Z, m).
Proof.
  intros T N m i j s H.
  split; [apply mtx_sum_rows_d_bad; auto; lia|].
  split; [apply mtx_sum_rows_d_bad; auto; lia|].
  split; [apply mtx_sum_rows_scaled_d_bad; auto; lia|].
  now apply mtx_scalar_mult_row_d_bad.
Qed.
Print Assumptions C27_rejects.

(** The scaled version tests the row index j against the number of columns:
    a valid row is refused in a tall matrix, and in a wide one a row behind
    the end is read. *)
Theorem C27_scaled_row_guard_refuted :
  (exists m : mtx float, room 3 2 m /\ mtx_sum_rows_scaled_d true m 0 2 (F 1 0) = Ok ((- EINVAL)%Z, m))
  /\ (exists m : mtx float, room 2 3 m /\ mtx_sum_rows_scaled_d true m 0 2 (F 1 0) = UB OOBRead).
Proof.
  split.
  - exists (mat_of 3 2 (fun _ _ => F 1 0) []). split; [apply mat_room|vm_compute; reflexivity].
  - exists (mat_of 2 3 (fun _ _ => F 1 0) []). split; [apply mat_room|vm_compute; reflexivity].
Qed.
Print Assumptions C27_scaled_row_guard_refuted.

Example C27_example :
  mtx_sum_rows_scaled_d true (mat_of 2 2 (fun i j => F (Z.of_nat (2 * i + j)) 0) []) 0 1 (F 10 0)
  = Ok (0%Z, Mtx 2 2 (cells [F 20 0; F 31 0; F 2 0; F 3 0])).
Proof. vm_compute. reflexivity. Qed.

(** * C28: minors *)
Theorem C28_reduce :
  forall T (N : Num T) bc n (f : nat -> nat -> T) tl mr i j,
  room n n mr -> i < S n -> j < S n ->
  mtx_reduce bc (mat_of (S n) (S n) f tl) mr i j
  = Ok (0%Z, mat_of n n (fun a b => f (if a <? i then a else S a) (if b <? j then b else S b)) (rest mr)).
Proof. intros T N bc. exact (@mtx_reduce_ok T bc). Qed.
Print Assumptions C28_reduce.

Theorem C28_reduce_rejects :
  forall T (N : Num T) (m mr : mtx T) i j,
  ~ (S (mrows mr) = mrows m /\ S (mcols mr) = mcols m /\ i < mrows m /\ j < mcols m) ->
  mtx_reduce true m mr i j = Ok ((- EINVAL)%Z, mr).
Proof. intros T N m mr i j. exact (@mtx_reduce_bad T true m mr i j eq_refl). Qed.
Print Assumptions C28_reduce_rejects.

(** A non-square matrix passes the checks but is not handled: removing a row
    and a column of a 2 x 3 matrix reads past the local array. *)
Theorem C28_reduce_non_square_refuted :
  exists (m mr : mtx Z), room 2 3 m /\ room 1 2 mr /\ mtx_reduce true m mr 0 0 = UB OOBRead.
Proof.
  exists (mat_of 2 3 (fun i j => Z.of_nat (i + j)) []), (mtx_def 1 2).
  split; [apply mat_room|]. split; [apply room_def|]. reflexivity.
Qed.
Print Assumptions C28_reduce_non_square_refuted.

Example C28_example :
  mtx_reduce true (mat_of 3 3 (fun i j => Z.of_nat (10 * i + j)) []) (mtx_def 2 2) 1 0
  = Ok (0%Z, Mtx 2 2 (cells [1; 2; 21; 22]%Z)).
Proof. reflexivity. Qed.

(** * C47: extrema *)
Theorem C47_min :
  forall r c (f : nat -> nat -> R) tl, 0 < r -> 0 < c ->
  exists x, mtx_min (mat_of r c f tl) = Ok (0%Z, x)
  /\ (exists i j, i < r /\ j < c /\ x = f i j)
  /\ (forall i j, i < r -> j < c -> (x <= f i j)%R).
Proof. exact (mtx_extreme_R (fun x => x) Rltb (fun a b => eq_refl)). Qed.
Print Assumptions C47_min.

Lemma gt_key (a b : R) : fgt a b = Rltb (- a) (- b).
Proof.
  unfold fgt. cbn [flt NumR]. destruct (Rltb_spec b a), (Rltb_spec (- a) (- b)); auto; lra.
Qed.

Theorem C47_max :
  forall r c (f : nat -> nat -> R) tl, 0 < r -> 0 < c ->
  exists x, mtx_max (mat_of r c f tl) = Ok (0%Z, x)
  /\ (exists i j, i < r /\ j < c /\ x = f i j)
  /\ (forall i j, i < r -> j < c -> (f i j <= x)%R).
Proof.
  intros r c f tl Hr Hc.
  destruct (mtx_extreme_R Ropp fgt gt_key r c f tl Hr Hc) as (x & E & A & B).
  exists x. split; [exact E|]. split; [exact A|]. intros i j Hi Hj. specialize (B i j Hi Hj). lra.
Qed.
Print Assumptions C47_max.

Theorem C47_min_idx :
  forall r c (f : nat -> nat -> R) tl, 0 < r -> 0 < c ->
  exists i j, mtx_min_idx (mat_of r c f tl) = Ok (0%Z, (i, j))
  /\ i < r /\ j < c
  /\ (forall a b, a < r -> b < c -> (f i j <= f a b)%R)
  /\ (forall a b, a < r -> b < c -> a < i \/ a = i /\ b < j -> (f i j < f a b)%R).
Proof. exact (mtx_extreme_idx_R (fun x => x) Rltb (fun a b => eq_refl)). Qed.
Print Assumptions C47_min_idx.

Theorem C47_max_idx :
  forall r c (f : nat -> nat -> R) tl, 0 < r -> 0 < c ->
  exists i j, mtx_max_idx (mat_of r c f tl) = Ok (0%Z, (i, j))
  /\ i < r /\ j < c
  /\ (forall a b, a < r -> b < c -> (f a b <= f i j)%R)
  /\ (forall a b, a < r -> b < c -> a < i \/ a = i /\ b < j -> (f a b < f i j)%R).
Proof.
  intros r c f tl Hr Hc.
  destruct (mtx_extreme_idx_R Ropp fgt gt_key r c f tl Hr Hc) as (i & j & E & Hi & Hj & A & B).
  exists i, j. split; [exact E|]. split; [exact Hi|]. split; [exact Hj|]. split.
  - intros a b Ha Hb. specialize (A a b Ha Hb). lra.
  - intros a b Ha Hb H. specialize (B a b Ha Hb H). lra.
Qed.
Print Assumptions C47_max_idx.

Example C47_example :
  mtx_min_idx (Mtx 2 3 (cells [F 4 0; F 1 0; F 3 0; F 1 0; F 9 0; F 1 0])) = Ok (0%Z, (0, 1))
  /\ mtx_max_idx (Mtx 2 3 (cells [F 4 0; F 1 0; F 3 0; F 1 0; F 9 0; F 1 0])) = Ok (0%Z, (1, 1)).
Proof. vm_compute. auto. Qed.

(** * C48: equality *)

(** What holds: different shapes are unequal, and on matrices with at least
    rows + cols elements the answer is "the first rows + cols elements agree";
    so identical matrices are found equal. *)
Theorem C48_is_equal_partial :
  forall T (N : Num T) r c (f g : nat -> nat -> T) ta tb,
  r + c <= r * c ->
  exists b, mtx_is_equal (mat_of r c f ta) (mat_of r c g tb) = Ok b /\
  (b = true <-> forall i j, i < r -> j < c -> i * c + j < r + c -> fbits (f i j) (g i j) = true).
Proof. exact @mtx_is_equal_prefix. Qed.
Print Assumptions C48_is_equal_partial.

Theorem C48_is_equal_shape :
  forall T (N : Num T) (ma mb : mtx T),
  ~ (mrows ma = mrows mb /\ mcols ma = mcols mb) -> mtx_is_equal ma mb = Ok false.
Proof. exact @mtx_is_equal_shape. Qed.
Print Assumptions C48_is_equal_shape.

(** Two 3 x 3 matrices that differ only in their last rows are "equal"; for a
    row vector the comparison reads past the end. *)
Theorem C48_is_equal_refuted :
  (exists ma mb : mtx float, room 3 3 ma /\ room 3 3 mb /\ ma <> mb /\ mtx_is_equal ma mb = Ok true)
  /\ (exists ma mb : mtx float, room 1 3 ma /\ room 1 3 mb /\ mtx_is_equal ma mb = UB OOBRead).
Proof.
  split.
  - exists (mat_of 3 3 (fun i _ => F (Z.of_nat i) 0) []),
      (mat_of 3 3 (fun i j => F (Z.of_nat (if Nat.ltb i 2 then i else 7)) 0) []).
    split; [apply mat_room|]. split; [apply mat_room|]. split.
    + intros E. apply mat_of_inj in E. destruct E as (E & _).
      specialize (E 2 2 ltac:(lia) ltac:(lia)). cbn [Nat.ltb Nat.leb] in E.
      assert (C : PrimFloat.eqb (F (Z.of_nat 2) 0) (F (Z.of_nat 7) 0) = true)
        by (rewrite E; vm_compute; reflexivity).
      vm_compute in C. discriminate.
    + vm_compute. reflexivity.
  - exists (mat_of 1 3 (fun _ _ => F 1 0) []), (mat_of 1 3 (fun _ _ => F 1 0) []).
    split; [apply mat_room|]. split; [apply mat_room|]. vm_compute. reflexivity.
Qed.
Print Assumptions C48_is_equal_refuted.

(** * C49: predicates *)
Theorem C49_is_sym :
  forall bc n (f : nat -> nat -> R) tl,
  exists b, mtx_is_sym bc (mat_of n n f tl) = Ok b /\
  (b = true <-> forall i j, i < n -> j < n -> (Rabs (f i j - f j i) < / 1000000)%R).
Proof.
  intros bc n f tl. destruct (mtx_is_sym_ok bc n f tl) as (b & E & H). exists b. split; auto.
  rewrite H. split; intros A i j Hi Hj; specialize (A i j Hi Hj); now apply asym_R.
Qed.
Print Assumptions C49_is_sym.

(** With any arithmetic it terminates with an answer on a valid square matrix. *)
Theorem C49_is_sym_total :
  forall T (N : Num T) bc n (f : nat -> nat -> T) tl,
  exists b, mtx_is_sym bc (mat_of n n f tl) = Ok b.
Proof. intros. destruct (mtx_is_sym_ok bc n f tl) as (b & E & _). eauto. Qed.
Print Assumptions C49_is_sym_total.

Theorem C49_is_notneg :
  forall T (N : Num T) r c (f : nat -> nat -> T) tl,
  exists b, mtx_is_notneg (mat_of r c f tl) = Ok b /\
  (b = true <-> forall i j, i < r -> j < c -> flt (f i j) f0 = false).
Proof.
  intros T N r c f tl. rewrite mtx_is_notneg_ok. eexists; split; [reflexivity|].
  rewrite forallb_elems. split; intros H i j Hi Hj; specialize (H i j Hi Hj);
    [now apply negb_true_iff in H | now apply negb_true_iff].
Qed.
Print Assumptions C49_is_notneg.

Example C49_example :
  mtx_is_sym true (mat_of 2 2 (fun i j => F (Z.of_nat (i + j)) 0) []) = Ok true
  /\ mtx_is_sym true (mat_of 2 2 (fun i j => F (Z.of_nat i) 0) []) = Ok false
  /\ mtx_is_notneg (mat_of 2 2 (fun i j => F (- Z.of_nat (i * j)) 0) []) = Ok false.
Proof. vm_compute. auto. Qed.

(** On a non-square matrix the failed reads leave a stale or indeterminate
    value in the comparison. *)
Theorem C49_is_sym_non_square_refuted :
  exists m : mtx float, room 1 2 m /\ mtx_is_sym true m = Ok true.
Proof.
  exists (mat_of 1 2 (fun _ _ => F 1 0) []). split; [apply mat_room|]. vm_compute. reflexivity.
Qed.
Print Assumptions C49_is_sym_non_square_refuted.
