(** Order statistics of machine numbers *)
From Coq Require Import Floats.PrimFloat.
From Flocq Require Import Core BinarySingleNaN PrimFloat.
From Coq Require Import ZArith Reals Lra Lia List Bool Permutation Sorted.
From Verif Require Import Base BaseFacts NumR NumF Libm LibmR SpecVec SpecReal SpecStat SpecFlt SpecFltStat PVec MVec MStat PFlt PFltSum PFltUnit PFltVar PFltQuat PSafeFlt PNanQuat PRgbFlt PSort PStatOrd PFltSort.
Import ListNotations.
Open Scope R_scope.

(** t n / 4 is a machine number, and the code's p * n / 100 is exactly it *)
Lemma quarters_exact (t n : nat) : (t <= 3)%nat -> (Z.of_nat n <= 2147483647)%Z ->
  let x := (F_of_Z (Z.of_nat (25 * t)) * F_of_Z (Z.of_nat n) / F_lit 100 0)%float in
  finite x /\ FR x = INR t * INR n / 4.
Proof.
  intros Ht Hn x.
  destruct (FR_of_nat (25 * t)) as (F1 & E1); [lia|]. destruct (FR_of_nat n) as (F2 & E2); [lia|].
  destruct (FR_of_nat (25 * t * n)) as (F3 & E3); [nia|].
  assert (E4 : finite (F_lit 100 0) /\ FR (F_lit 100 0) = 100).
  { split; [vm_compute; reflexivity|]. unfold FR.
    replace (FloatOps.Prim2SF (F_lit 100 0)) with (SpecFloat.S754_finite false 7036874417766400 (-46)) by (vm_compute; reflexivity).
    change (powerRZ 2 (-46)) with (/ (2 ^ Pos.to_nat 46)). rewrite pow_IZR.
    change (2 ^ Z.of_nat (Pos.to_nat 46))%Z with 70368744177664%Z. lra. }
  destruct E4 as (F4 & E4).
  assert (Hn' : 0 <= INR n <= 2147483647) by (split; [apply pos_INR|rewrite INR_IZR_INZ; now apply IZR_le]).
  assert (Ht' : 0 <= INR t <= 3) by (split; [apply pos_INR|replace 3 with (INR 3) by (cbn; lra); now apply le_INR]).
  assert (Big : 2147483647 * 75 <= big) by (unfold big; replace 1000%nat with (40 + 960)%nat by reflexivity; rewrite pow_add; pose proof (pow_R1_Rle 2 960 ltac:(lra)); assert (2 ^ 40 = 1099511627776) by (rewrite pow_IZR; apply f_equal; reflexivity); nra).
  assert (Fm : finite (F_of_Z (Z.of_nat (25 * t)) * F_of_Z (Z.of_nat n))%float).
  { apply mul_finite; auto. rewrite E1, E2, <- mult_INR, Rabs_pos_eq by apply pos_INR. rewrite !mult_INR. cbn [INR]. nra. }
  assert (Em : FR (F_of_Z (Z.of_nat (25 * t)) * F_of_Z (Z.of_nat n))%float = 25 * INR t * INR n).
  { destruct (mul_rnd _ _ Fm) as (_ & _ & ->). rewrite E1, E2, <- mult_INR, <- E3, round_FR, E3, !mult_INR. cbn [INR]. lra. }
  assert (Fx : finite x).
  { unfold x. apply div_finite; auto; [rewrite E4; lra|]. rewrite Em, E4, Rabs_pos_eq by nra. nra. }
  split; [exact Fx|]. unfold x in *. destruct (div_rnd _ _ ltac:(rewrite E4; lra) Fx) as (_ & ->). rewrite Em, E4.
  replace (25 * INR t * INR n / 100) with (INR t * INR n / 4) by lra.
  apply round_generic; [apply valid_rnd_N|].
  replace (INR t * INR n / 4) with (F2R (Float radix2 (Z.of_nat (t * n)) (-2))).
  2: { unfold F2R. cbn [Fnum Fexp]. rewrite <- INR_IZR_INZ, mult_INR. change (bpow radix2 (-2)) with (/ 4). lra. }
  apply generic_format_FLT. exists (Float radix2 (Z.of_nat (t * n)) (-2)); [reflexivity|cbn; nia|cbn; lia].
Qed.

Section Order.
Context {M : NumM double}.
Hypothesis HM : floors M.
Variables (bc : bool) (fuel : nat) (g : double).

Lemma sorted_flt xs rs tx w : Forall finite xs -> separated (map FR xs) -> xs <> [] -> (2 * length xs <= fuel)%nat ->
  Permutation (map FR xs) rs -> StronglySorted Rle rs -> length (vbuf w) = length xs -> vsz w = length xs ->
  exists ys, vec_sort fuel (Some g) (vec_of xs tx) w = Ok (0%Z, Vec (length xs) (cells ys)) /\ Forall finite ys /\ map FR ys = rs.
Proof.
  intros Hf Hs Hx Hfu HP HS Hl Hz. destruct w as [m wb]. cbn [vsz vbuf] in *. subst m.
  destruct (@sort_flt g xs tx (length xs) wb fuel Hf Hs Hx) as (ys & E & Fy & Py & Sy); [lia|exact Hfu|].
  exists ys. rewrite skipn_all2, app_nil_r in E by lia. split; [exact E|]. split; [exact Fy|].
  apply sort_unique; auto. eapply Permutation_trans; [apply Permutation_sym; exact Py|exact HP].
Qed.

Lemma half_err a b : finite ((a + b) / F_lit 2 0)%float ->
  Rabs (FR ((a + b) / F_lit 2 0)%float - (FR a + FR b) / 2) <= gam 2 * Rabs ((FR a + FR b) / 2) + eta.
Proof.
  assert (E2 : FR (F_lit 2 0) = 2) by exact (proj2 (FR_of_nat 2 ltac:(cbn; lia))).
  intros H. destruct (div_rnd _ _ ltac:(rewrite E2; lra) H) as (Fs & _).
  destruct (add_err a b Fs) as (_ & _ & d1 & D1 & Es).
  destruct (div_err (a + b)%float (F_lit 2 0) ltac:(rewrite E2; lra) H) as (_ & d2 & e2 & D2 & E3 & Ed).
  rewrite Ed, Es, E2. set (h := (FR a + FR b) / 2).
  replace ((FR a + FR b) * (1 + d1) / 2 * (1 + d2) + e2 - h) with (h * (d1 + d2 + d1 * d2) + e2) by (unfold h; field).
  eapply Rle_trans; [apply Rabs_triang|]. apply Rplus_le_compat; [|exact E3].
  rewrite Rabs_mult, Rmult_comm. apply Rmult_le_compat_r; [apply Rabs_pos|].
  replace (gam 2) with (uu + uu + uu * uu) by (unfold gam; ring).
  eapply Rle_trans; [apply Rabs_triang|]. apply Rplus_le_compat.
  - eapply Rle_trans; [apply Rabs_triang|]. lra.
  - rewrite Rabs_mult. apply Rmult_le_compat; auto using Rabs_pos.
Qed.

Lemma guard_quarter (t : nat) : (1 <= t <= 3)%nat ->
  ((F_of_Z (Z.of_nat (25 * t)) >? flit 1000 1) || (F_of_Z (Z.of_nat (25 * t)) <? f0))%num = false.
Proof. intros H. assert (t = 1 \/ t = 2 \/ t = 3)%nat as C by lia; destruct C as [E|[E|E] ]; rewrite E; vm_compute; reflexivity. Qed.

Lemma eqb_dec x y : finite x -> finite y -> (x =? y)%float = if Req_EM_T (FR x) (FR y) then true else false.
Proof.
  rewrite !finite_B, !FR_B2R, eqb_equiv. intros Hx Hy. rewrite Beqb_correct by auto.
  destruct (Req_bool_spec (B2R (Prim2B x)) (B2R (Prim2B y))), (Req_EM_T (B2R (Prim2B x)) (B2R (Prim2B y))); congruence.
Qed.

Lemma percentile_flt xs rs tx t :
  Forall finite xs -> separated (map FR xs) -> xs <> [] -> (2 * length xs <= fuel)%nat ->
  (Z.of_nat (length xs) <= 2147483647)%Z -> Permutation (map FR xs) rs -> StronglySorted Rle rs -> (1 <= t <= 3)%nat ->
  exists q, sta_percentile bc fuel (Some g) (vec_of xs tx) (fofZ (Z.of_nat (25 * t))) = Ok (0%Z, Some q)
    /\ (finite q -> Rabs (FR q - pct (INR (25 * t)) rs) <= gam 2 * Rabs (pct (INR (25 * t)) rs) + eta)
    /\ ((t * length xs) mod 4 <> 0 -> finite q /\ FR q = pct (INR (25 * t)) rs)%nat.
Proof.
  intros Hf Hs Hx Hfu Hn HP HS Ht. unfold sta_percentile. cbn [fofZ NumF].
  rewrite guard_quarter by exact Ht. rewrite andb_false_r. change (vsz (vec_of xs tx)) with (length xs).
  unfold vdef. rewrite vec_init_ok by (rewrite fresh_length; lia). cbn [bind].
  destruct (@sorted_flt xs rs tx (Vec (length xs) (cells (repeat f0 (length xs)) ++ skipn (length xs) (fresh (length xs))))) as (ys & -> & Fy & <-); auto.
  { cbn [vbuf]. rewrite app_length, cells_length, repeat_length, skipn_length, fresh_length. lia. }
  cbn [bind vbuf]. set (n := length xs) in *.
  assert (Ly : length ys = n) by (apply Permutation_length in HP; rewrite !map_length in HP; symmetry; exact HP). clear HP.
  destruct (quarters_exact t n ltac:(lia) Hn) as (Fx & Ex). cbn [fmul fdiv flit NumF bind].
  set (x := (F_of_Z (Z.of_nat (25 * t)) * F_of_Z (Z.of_nat n) / F_lit 100 0)%float) in *.
  assert (Hn0 : (1 <= n)%nat) by (unfold n; destruct xs; cbn; [congruence|lia]).
  assert (Hn1 : 1 <= INR n) by (change 1 with (INR 1); now apply le_INR).
  assert (Hn2 : INR n <= 2147483647) by (rewrite INR_IZR_INZ; now apply IZR_le).
  assert (Ht1 : 1 <= INR t <= 3) by (split; [change 1 with (INR 1)|replace 3 with (INR 3) by (cbn; lra)]; apply le_INR; lia).
  assert (Ep : INR (25 * t) * INR (length (map FR ys)) / 100 = FR x).
  { rewrite map_length, Ly, Ex, mult_INR. cbn [INR]. lra. }
  assert (Rx : 0 < FR x < INR n) by (rewrite Ex; split; nra).
  pose proof (Int_part_range (FR x) n ltac:(lra) (proj2 Rx)) as Hr. pose proof (Int_part_bounds (FR x)) as Hb.
  destruct (proj1 HM x Fx ltac:(lra)) as (Ff & Ef).
  unfold f2int. rewrite (proj2 HM (ffloor x) (Int_part (FR x)) Ff Ef ltac:(lia)).
  replace ((-2147483648 <=? Int_part (FR x)) && (Int_part (FR x) <=? 2147483647))%Z with true
    by (symmetry; apply andb_true_intro; split; apply Z.leb_le; lia).
  cbn [bind feq NumF]. rewrite eqb_dec by auto. rewrite Ef. unfold pct. rewrite Ep.
  assert (Nth : forall i, nth i (map FR ys) 0 = FR (nth i ys zero)) by (intros i; rewrite <- FR_zero at 1; apply map_nth).
  unfold Reqb. destruct (Req_EM_T (FR x) (IZR (Int_part (FR x)))) as [Ei|Ei].
  - assert (1 <= Int_part (FR x))%Z by (assert (0 < Int_part (FR x))%Z; [apply lt_IZR; lra|lia]).
    unfold rdz. rewrite !(proj2 (Z.ltb_ge _ 0)) by lia. rewrite rd_cells with (d := zero) by lia. cbn [bind].
    rewrite rd_cells with (d := zero) by lia. cbn [bind fadd NumF].
    eexists. split; [reflexivity|].
    replace (Z.to_nat (Int_part (FR x) - 1)) with (Z.to_nat (Int_part (FR x)) - 1)%nat by lia.
    rewrite !Nth. split; [intros Hq; now apply half_err|].
    intros Hm. exfalso. apply Hm. rewrite Ex in Ei.
    assert (Z.of_nat t * Z.of_nat n = 4 * Int_part (INR t * INR n / 4))%Z.
    { apply eq_IZR. rewrite !mult_IZR, <- !INR_IZR_INZ, <- Ei. lra. }
    apply Nat2Z.inj. rewrite Nat2Z.inj_mod, Nat2Z.inj_mul, H0. change (Z.of_nat 4) with 4%Z. rewrite Z.mul_comm, Z.mod_mul; lia.
  - unfold rdz. rewrite (proj2 (Z.ltb_ge _ 0)) by lia. rewrite rd_cells with (d := zero) by lia. cbn [bind].
    eexists. split; [reflexivity|]. rewrite Nth. set (q := nth (Z.to_nat (Int_part (FR x))) ys zero).
    assert (Fq : finite q) by (rewrite Forall_forall in Fy; apply Fy, nth_In; lia).
    split; [|auto]. intros _. rewrite Rminus_diag_eq, Rabs_R0 by reflexivity.
    pose proof (gam_nonneg 2). pose proof eta_pos. pose proof (Rabs_pos (FR q)). nra.
Qed.
End Order.
