(** One reading that is not a number, in the least-squares magnetometer
    calibration: every coefficient of the fit is then not a number, the
    factorisation refuses the matrix they make, and the calibration goes on
    with a factor that was never written. *)
From Coq Require Import List Arith ZArith Bool Lia.
From Verif Require Import Base BaseFacts SpecVec SpecMtx SpecSafe MVec MMtx MDecomp MStat MCal
  PVec PMtx PMtxOps PSafe PSafeMx PSafeQr.
Import ListNotations.
Set Implicit Arguments.
Local Open Scope nat_scope.

Local Lemma bind_eq A B (m : outcome A) a (k : A -> outcome B) : m = Ok a -> bind m k = k a.
Proof. now intros ->. Qed.
Local Lemma bind_ub A B (m : outcome A) u (k : A -> outcome B) : m = UB u -> bind m k = UB u.
Proof. now intros ->. Qed.

Section NaN.
Context {T : Type} {N : Num T}.
Hypothesis L : lawful N.
Hypothesis Tot : total N.
Variable nan : T -> Prop.
Hypothesis nan_add : forall a b, nan a \/ nan b -> nan (fadd a b).
Hypothesis nan_mul : forall a b, nan a \/ nan b -> nan (fmul a b).
Hypothesis nan_ne : forall a b, nan a -> feq a b = false.

Definition quad_mon (p : nat -> nat -> T) (i j : nat) : T := nth j (quad_row (p i 0) (p i 1) (p i 2)) f0.

Lemma quad_loop_any bc r (f : nat -> nat -> T) tl :
  exists v, for_ r 0 (fun i '(mv, x, y) =>
        let! (_, mv) := mtx_get_row bc (mat_of r 3 f tl) i mv in
        let! p := rd mv 0 in
        let! q := rd mv 1 in
        let! s := rd mv 2 in
        let! (_, x) := mtx_set_row bc x i (cells (quad_row p q s)) in
        let! y := wr y i f1 in
        Ok (mv, x, y)) (fresh 3, mtx_def r 9, fresh r)
  = Ok (v, mat_of r 9 (quad_mon f) [], cells (repeat f1 r)).
Proof.
  match goal with |- exists v, for_ _ _ ?b _ = _ => set (body := b) end.
  destruct (room_otab (room_def (T := T) r 9)) as (F & EF). rewrite rest_def in EF.
  destruct (@for_inv _ (fun i s => length (fst (fst s)) = 3
     /\ snd (fst s) = otab r 9 (fun a b => if a <? i then Some (quad_mon f a b) else F a b) []
     /\ snd s = cells (repeat f1 i) ++ fresh (T := T) (r - i)) r 0 body (fresh 3, mtx_def r 9, fresh r))
    as (s' & E & P1 & P2 & P3).
  - cbn [fst snd]. repeat split.
    + rewrite EF at 1. apply otab_ext. intros a b Ha Hb. reflexivity.
    + rewrite Nat.sub_0_r. reflexivity.
  - intros i [[mv x] y] Hi (H1 & H2 & H3). cbn [fst snd] in H1, H2, H3.
    unfold body. rewrite mtx_get_row_ok by lia. cbn [bind row_of map seq cells app].
    cbn [rd nth_error bind].
    pose proof (@mtx_set_row_otab T bc r 9 (fun a b => if a <? i then Some (quad_mon f a b) else F a b)
      [] i (quad_row (f i 0) (f i 1) (f i 2)) [] f0 ltac:(lia) eq_refl) as E.
    rewrite app_nil_r in E. rewrite H2, E. cbn [bind].
    subst y. replace (r - i) with (S (r - S i)) by lia. cbn [fresh repeat].
    pose proof (@wr_mid T (cells (repeat f1 i)) (fresh (r - S i)) None f1) as E'.
    rewrite cells_length, repeat_length in E'. unfold fresh in E' |- *. rewrite E'.
    cbn [bind]. eexists. split; [reflexivity|]. cbn [fst snd]. repeat split.
    + cbn [length]. rewrite skipn_length, H1. reflexivity.
    + apply otab_ext. intros a b Ha Hb.
      destruct (Nat.eqb_spec a i) as [->|Hne].
      * destruct (Nat.ltb_spec i (S i)); [|lia]. reflexivity.
      * destruct (Nat.ltb_spec a i), (Nat.ltb_spec a (S i)); try lia; reflexivity.
    + change (f1 :: repeat f1 i) with (repeat f1 (S i)).
      replace (repeat f1 (S i)) with (repeat f1 i ++ [f1])
        by (clear; induction i; cbn; auto; now rewrite IHi).
      rewrite cells_app, <- app_assoc. reflexivity.
  - destruct s' as [[mv x] y]. cbn [fst snd plus] in P1, P2, P3. exists mv. etransitivity; [exact E|].
    rewrite P2, P3, Nat.sub_diag. cbn [fresh repeat]. rewrite app_nil_r.
    rewrite (@otab_mat T r 9 _ (quad_mon f) []); [reflexivity|]. intros a b Ha Hb.
    destruct (Nat.ltb_spec a r); [reflexivity|lia].
Qed.

Lemma msum_nan n g k : k < n -> nan (g k) -> nan (msum n g).
Proof.
  induction n as [|n IH]; intros Hk Hg; [lia|]. rewrite msum_S. apply nan_add.
  destruct (Nat.eq_dec k n) as [->|]; [now right|]. left. apply IH; [lia|exact Hg].
Qed.

Lemma quad_mon_nan f i c : c < 3 -> nan (f i c) -> nan (quad_mon f i c).
Proof.
  intros Hc Hn. unfold quad_mon. destruct c as [|[|[|c]]]; [| | |lia]; cbn; apply nan_mul; now left.
Qed.

(** the fit, when one reading has a component that is not a number *)
Lemma quad_fit_nan bc r f tl bb i c : 9 <= length bb -> i < r -> c < 3 -> nan (f i c) ->
  exists cs, length cs = 9 /\ Forall nan cs /\
    sta_quad_fit bc (mat_of r 3 f tl) (Vec 9 bb) = Ok (0%Z, vec_of cs (skipn 9 bb)).
Proof.
  intros Hb Hi Hc Hn. unfold sta_quad_fit. cbn [mrows mcols mat_of vsz].
  cbn [Nat.eqb negb orb]. rewrite andb_false_r. fold (mat_of r 3 f tl).
  destruct (quad_loop_any bc r f tl) as (v & E). unfold buf in *. rewrite E. cbn [bind]. clear E v.
  assert (Ey : Mtx r 1 (cells (repeat f1 r)) = mat_of r 1 (fun _ _ => f1) []).
  { unfold mat_of. rewrite app_nil_r, Nat.mul_1_r. do 2 f_equal. clear. generalize 0.
    induction r as [|r IH]; intros k; cbn; [reflexivity|]. f_equal. apply IH. }
  unfold buf in Ey. rewrite Ey.
  rewrite mtx_trans_ok by apply room_def. rewrite rest_def. cbn [bind].
  rewrite mtx_mult_ok by apply room_def. rewrite rest_def. cbn [bind].
  match goal with |- context [mtx_inv bc (mat_of 9 9 ?g ?t) ?d] =>
    pose proof (@wp_inv T N bc False L 9 t (mat_of 9 9 g t) d (ism_mat _ _ _ _) (room_def _ _)) as Hinv;
    destruct (@wp_safe T N _ _ _ Hinv) as (_ & _ & HP & HE) end.
  destruct (HE Tot) as ((rc & xi) & E). destruct (HP _ E) as (_ & t & G & EG). cbn [snd] in EG.
  rewrite E. cbn [bind]. rewrite EG. clear E EG HP HE Hinv.
  rewrite mtx_mult_ok by apply room_def. rewrite rest_def. cbn [bind].
  rewrite mtx_mult_ok by apply room_def. rewrite rest_def. cbn [bind].
  set (g := fun a b : nat => msum r _).
  assert (Hg : forall a b, nan (g a b)).
  { intros a b. apply msum_nan with (k := i); [exact Hi|]. apply nan_mul. left.
    apply msum_nan with (k := c); [lia|]. apply nan_mul. right. now apply quad_mon_nan. }
  clearbody g. exists (map (fun a => g a 0) (seq 0 9)). split; [reflexivity|]. split.
  { apply Forall_forall. intros x Hx. apply in_map_iff in Hx. destruct Hx as (a & <- & _). apply Hg. }
  unfold vec_from_arr. cbn [vbuf vsz].
  change (mbuf (mat_of 9 1 g [])) with (cells (map (fun a => g a 0) (seq 0 9)) ++ []).
  rewrite blit_cells by (rewrite ?map_length, ?seq_length; auto; lia). reflexivity.
Qed.

Lemma chol_sym_nan c0 rest : nan c0 -> chol_sym true (Mtx 3 3 (Some c0 :: rest)) = Ok false.
Proof.
  intros N0. unfold chol_sym. cbn [mrows].
  match goal with |- context [for_exit 3 0 ?b (None, None)] => set (body := b) end.
  assert (E : body 0 (None, None) = Ok (inr false)).
  { unfold body. match goal with |- for_exit 3 0 ?b _ = _ => set (inner := b) end.
    assert (Ei : inner 0 (None, None) = Ok (inr false)).
    { unfold inner, lget, mtx_get. cbn. unfold fne. rewrite (nan_ne _ N0). reflexivity. }
    clearbody inner. cbn [for_exit]. rewrite Ei. reflexivity. }
  clearbody body. cbn [for_exit]. rewrite E. reflexivity.
Qed.
Lemma chol_nan c0 rest : nan c0 ->
  mtx_cholesky true (Mtx 3 3 (Some c0 :: rest)) (mtx_def 3 3) = Ok ((- EINVAL)%Z, mtx_def 3 3).
Proof.
  intros N0. unfold mtx_cholesky. cbn [mrows mcols Nat.eqb negb andb]. cbv iota.
  erewrite bind_eq by (apply chol_sym_nan, N0). reflexivity.
Qed.
Lemma trans_fresh : mtx_trans true (mtx_def (T := T) 3 3) (mtx_def 3 3) = UB Uninit.
Proof. reflexivity. Qed.

(** so the calibration uses the factor that was not written *)
Lemma cal_magn_fast_nan r f tl me K b i c : room 3 3 K -> vsz b = 3 ->
  (match me with Some x => flt x f0 | None => flt (flit 500 1) f0 end) = false ->
  i < r -> c < 3 -> nan (f i c) ->
  cal_magn_fast true (mat_of r 3 f tl) me K b = UB Uninit.
Proof.
  intros (HK1 & HK2 & _) Hb Hme Hi Hc Hn. unfold cal_magn_fast. rewrite HK1, HK2, Hb.
  cbn [mcols mat_of Nat.eqb negb orb andb]. fold (mat_of r 3 f tl).
  replace (match me with Some x => x | None => flit 500 1 end <? f0)%num with false by (destruct me; auto).
  destruct (@quad_fit_nan true r f tl (fresh 9) i c) as (cs & Lc & Hcs & E); auto.
  rewrite E. cbn [bind vbuf vec_of]. clear E.
  destruct cs as [|c0 [|c1 [|c2 [|c3 [|c4 [|c5 [|c6 [|c7 [|c8 [|]]]]]]]]]]; try discriminate Lc.
  cbn [cells map app rd nth_error bind].
  assert (N0 : nan c0) by (now inversion Hcs).
  erewrite bind_eq by (apply chol_nan, N0). cbv beta iota.
  erewrite bind_ub by (apply trans_fresh). reflexivity.
Qed.
End NaN.
