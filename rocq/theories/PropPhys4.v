(** Physics helpers: combinations of any number of components, transients, and
    where the guards fall short. *)
From Coq Require Import ZArith Reals Lra Lia Psatz Bool.
From Coquelicot Require Import Coquelicot.
From Coq Require Import List Permutation.
From Verif Require Import Base NumR Libm LibmR RTac Out MVec MPhys MPhysVec SpecPhys RPi PropPhys PropPhys2 PropPhys3.
From Verif Require Import BaseFacts SpecVec SpecReal PVec PVecR PStat.
Import ListNotations.
Local Open Scope R_scope.

(** ** C89: any number of components *)
Lemma any_bad_ok (bad : R -> bool) xs tl : any_bad bad (vec_of xs tl) = Ok (existsb bad xs).
Proof.
  unfold any_bad, vec_of; cbn [vsz vbuf].
  erewrite for_exit_forall with (test := fun a => negb (bad a)) (r := fun _ => tt) (d := 0).
  - cbn [bind]. f_equal. clear. induction xs as [|x xs IH]; [reflexivity|]. cbn [find existsb].
    destruct (bad x); cbn [negb orb]; [reflexivity | exact IH].
  - intros i Hi. rewrite rd_cells_app with (d := 0) by lia. cbn [bind]. destruct (bad _); reflexivity.
Qed.
Lemma no_bad (bad : R -> bool) xs : (forall x, In x xs -> bad x = false) -> existsb bad xs = false.
Proof.
  intros H. induction xs as [|x xs IH]; [reflexivity|]. cbn [existsb]. rewrite H by now left.
  apply IH. intros y Y. apply H. now right.
Qed.
Lemma some_bad (bad : R -> bool) xs : (exists x, In x xs /\ bad x = true) -> existsb bad xs = true.
Proof. intros H. now apply existsb_exists. Qed.

Lemma sum_loop xs tl :
  for_ (length xs) 0 (fun j r => let! a := rd (cells xs ++ tl) j in Ok (fadd r a)) (flit 0 1) = Ok (rsum xs).
Proof.
  replace (flit 0 1) with (@f0 R NumR) by (rops; lra). rewrite total_loop. f_equal. apply total_rsum.
Qed.
Lemma rsum_inv_pos xs : xs <> [] -> (forall x, In x xs -> 0 < x) -> 0 < rsum (map Rinv xs).
Proof.
  intros N P. destruct xs as [|x xs]; [contradiction|]. cbn [map rsum].
  pose proof (Rinv_0_lt_compat x (P x (or_introl eq_refl))).
  enough (0 <= rsum (map Rinv xs)) by lra. apply rsum_nonneg. apply Forall_map, Forall_forall.
  intros y Y. apply Rlt_le, Rinv_0_lt_compat, P. now right.
Qed.
Lemma inv_loop xs tl :
  (forall x, In x xs -> 0 < x) ->
  for_ (length xs) 0 (fun j r => let! a := rd (cells xs ++ tl) j in
                       let! q := fdiv (flit 1 0) a in Ok (fadd r q)) (flit 0 1)
  = Ok (rsum (map Rinv xs)).
Proof.
  intros P. rewrite for_fold with (l := xs) (d := 0) (step := fun r a => r + / a).
  - replace (flit 0 1) with 0 by (rops; lra). f_equal.
    assert (G : forall s, fold_left (fun r a => r + / a) xs s = s + rsum (map Rinv xs)).
    { clear. induction xs as [|x xs IH]; intros s; cbn [fold_left map rsum]; [lra|]. rewrite IH. lra. }
    rewrite G. lra.
  - intros i s Hi. rewrite rd_cells_app with (d := 0) by lia. cbn [bind].
    assert (0 < nth i xs 0) by (apply P, nth_In; exact Hi).
    rops. rewrite Rdivo_ok by lra. cbn [bind]. f_equal. field. lra.
Qed.

(** The resistance of parts in series, or the capacity of parts in parallel:
    the sum.  A negative part is rejected. *)
Theorem C89_series xs tl :
  ((forall x, In x xs -> 0 <= x) ->
     gives (elcty_res_series (vec_of xs tl)) (rsum xs) /\ gives (elcty_cap_parallel (vec_of xs tl)) (rsum xs))
  /\ ((exists x, In x xs /\ x < 0) ->
     rejects (elcty_res_series (vec_of xs tl)) /\ rejects (elcty_cap_parallel (vec_of xs tl))).
Proof.
  unfold elcty_res_series, elcty_cap_parallel, gives, rejects. rewrite any_bad_ok. cbn [bind]. split.
  - intros P. rewrite no_bad.
    2: { intros x X. cbn. destruct (Rltb_spec x 0); [|reflexivity]. pose proof (P x X). lra. }
    unfold vec_of. cbn [vsz vbuf]. rewrite sum_loop. cbn [bind]. split; reflexivity.
  - intros (x & X & L). rewrite some_bad; [split; reflexivity|].
    exists x. split; [exact X|]. cbn. destruct (Rltb_spec x 0); [reflexivity | lra].
Qed.

(** The resistance of parts in parallel, or the capacity of parts in series:
    its inverse is the sum of the inverses; it is positive, at most each part,
    and below each part when there is another one. *)
Theorem C89_parallel xs tl :
  xs <> [] -> (forall x, In x xs -> 0 < x) ->
  exists r, gives (elcty_res_parallel (vec_of xs tl)) r /\ gives (elcty_cap_series (vec_of xs tl)) r
    /\ 0 < r /\ / r = rsum (map Rinv xs) /\ (forall x, In x xs -> r <= x)
    /\ ((2 <= length xs)%nat -> forall x, In x xs -> r < x).
Proof.
  intros N P. pose proof (rsum_inv_pos xs N P) as S. exists (/ rsum (map Rinv xs)).
  assert (E : existsb (fun a => fle a f0) xs = false).
  { apply no_bad. intros x X. cbn. destruct (Rleb_spec x 0); [|reflexivity]. pose proof (P x X). lra. }
  unfold elcty_res_parallel, elcty_cap_series, gives. rewrite any_bad_ok. cbn [bind]. rewrite E.
  unfold vec_of. cbn [vsz vbuf]. rewrite inv_loop by exact P. cbn [bind].
  assert (Q : fdiv (flit 1 0) (rsum (map Rinv xs)) = Ok (/ rsum (map Rinv xs))).
  { rops. rewrite Rdivo_ok by lra. f_equal. field. lra. }
  rewrite Q. cbn [bind].
  assert (B : forall x, In x xs -> exists rest, rsum (map Rinv xs) = / x + rest /\ 0 <= rest
             /\ ((2 <= length xs)%nat -> 0 < rest)).
  { intros x X. destruct (in_split _ _ X) as (l1 & l2 & D). exists (rsum (map Rinv (l1 ++ l2))).
    split; [|split].
    - rewrite D, !map_app. cbn [map]. rewrite !rsum_app. cbn [rsum]. lra.
    - apply rsum_nonneg, Forall_map, Forall_forall. intros y Y. apply Rlt_le, Rinv_0_lt_compat, P.
      rewrite D. apply in_or_app. apply in_app_or in Y. cbn. tauto.
    - intros L. apply rsum_inv_pos.
      + intros C. apply app_eq_nil in C. destruct C as [-> ->]. rewrite D in L. cbn in L. lia.
      + intros y Y. apply P. rewrite D. apply in_or_app. apply in_app_or in Y. cbn. tauto. }
  split; [reflexivity|]. split; [reflexivity|]. split; [now apply Rinv_0_lt_compat|].
  split; [now rewrite Rinv_inv|]. split.
  - intros x X. destruct (B x X) as (rest & R1 & R2 & _). pose proof (P x X) as PX.
    rewrite <- (Rinv_inv x). apply Rinv_le_contravar; [now apply Rinv_0_lt_compat | lra].
  - intros L x X. destruct (B x X) as (rest & R1 & _ & R2). specialize (R2 L). pose proof (P x X) as PX.
    rewrite <- (Rinv_inv x). apply Rinv_lt_contravar; [|lra].
    apply Rmult_lt_0_compat; [now apply Rinv_0_lt_compat | exact S].
Qed.
Theorem C89_parallel_rejects xs tl :
  (exists x, In x xs /\ x <= 0) ->
  rejects (elcty_res_parallel (vec_of xs tl)) /\ rejects (elcty_cap_series (vec_of xs tl)).
Proof.
  intros (x & X & L). unfold elcty_res_parallel, elcty_cap_series, rejects. rewrite any_bad_ok. cbn [bind].
  rewrite some_bad; [split; reflexivity|].
  exists x. split; [exact X|]. cbn. destruct (Rleb_spec x 0); [reflexivity | lra].
Qed.
(** No parts at all: 1 / 0, status 0. *)
Theorem C89_parallel_empty_refuted tl :
  elcty_res_parallel (vec_of [] tl) = NotReal /\ elcty_cap_series (vec_of [] tl) = NotReal.
Proof.
  unfold elcty_res_parallel, elcty_cap_series. rewrite any_bad_ok. cbn [bind existsb vec_of vsz vbuf for_ length].
  replace (flit 0 1) with 0 by (rops; lra). cbn [fdiv NumR]. rewrite Rdivo_0. split; reflexivity.
Qed.
(** The order of the parts does not matter, and one more part lowers it. *)
Lemma rsum_perm xs ys : Permutation xs ys -> rsum xs = rsum ys.
Proof. induction 1; cbn [rsum]; lra. Qed.
Theorem C89_order xs ys tl tl' :
  Permutation xs ys -> xs <> [] -> (forall x, In x xs -> 0 < x) ->
  elcty_res_parallel (vec_of xs tl) = elcty_res_parallel (vec_of ys tl')
  /\ elcty_res_series (vec_of xs tl) = elcty_res_series (vec_of ys tl').
Proof.
  intros Q N P.
  assert (P' : forall y, In y ys -> 0 < y).
  { intros y Y. apply P. now apply (Permutation_in _ (Permutation_sym Q)). }
  assert (N' : ys <> []) by (intros ->; apply Permutation_sym, Permutation_nil in Q; auto).
  destruct (C89_parallel xs tl N P) as (r & G & _ & R0 & S & _).
  destruct (C89_parallel ys tl' N' P') as (r' & G' & _ & R0' & S' & _).
  split.
  - rewrite G, G'. apply ok_set. rewrite <- (Rinv_inv r), <- (Rinv_inv r'), S, S'. f_equal.
    now apply rsum_perm, Permutation_map.
  - rewrite (proj1 (proj1 (C89_series xs tl) (fun x X => Rlt_le _ _ (P x X)))).
    rewrite (proj1 (proj1 (C89_series ys tl') (fun x X => Rlt_le _ _ (P' x X)))).
    apply ok_set. now apply rsum_perm.
Qed.
Theorem C89_one_more x xs tl tl' :
  0 < x -> xs <> [] -> (forall x, In x xs -> 0 < x) ->
  exists r r', gives (elcty_res_parallel (vec_of xs tl)) r
    /\ gives (elcty_res_parallel (vec_of (x :: xs) tl')) r' /\ r' < r.
Proof.
  intros X N P.
  destruct (C89_parallel xs tl N P) as (r & G & _ & R0 & S & _).
  destruct (C89_parallel (x :: xs) tl') as (r' & G' & _ & R0' & S' & _).
  { discriminate. }
  { intros y [<-|Y]; auto. }
  exists r, r'. split; [exact G|]. split; [exact G'|]. cbn [map rsum] in S'.
  rewrite <- (Rinv_inv r), <- (Rinv_inv r'). pose proof (Rinv_0_lt_compat x X).
  pose proof (Rinv_0_lt_compat r R0). pose proof (Rinv_0_lt_compat r' R0').
  apply Rinv_lt_contravar; [nra | lra].
Qed.
Example C89_parallel_case : exists r, gives (elcty_res_parallel (vec_of [2; 2] [])) r /\ r = 1.
Proof.
  destruct (C89_parallel [2; 2] []) as (r & G & _ & R0 & S & _); [discriminate | |].
  { intros x [<-|[<-|[]]]; lra. }
  exists r. split; [exact G|]. cbn [map rsum] in S. rewrite <- (Rinv_inv r), S. lra.
Qed.

(** *** Centre of mass *)
Lemma rdot_nonneg_le ms xs lo :
  length ms = length xs -> (forall m, In m ms -> 0 <= m) -> (forall x, In x xs -> lo <= x) ->
  lo * rsum ms <= rdot ms xs.
Proof.
  revert xs. induction ms as [|m ms IH]; intros [|x xs] L P B; try discriminate L; cbn [rdot rsum]; [lra|].
  pose proof (IH xs ltac:(now injection L) ltac:(intros; apply P; now right) ltac:(intros; apply B; now right)).
  pose proof (P m (or_introl eq_refl)). pose proof (B x (or_introl eq_refl)). nra.
Qed.
Lemma rdot_nonneg_ge ms xs hi :
  length ms = length xs -> (forall m, In m ms -> 0 <= m) -> (forall x, In x xs -> x <= hi) ->
  rdot ms xs <= hi * rsum ms.
Proof.
  revert xs. induction ms as [|m ms IH]; intros [|x xs] L P B; try discriminate L; cbn [rdot rsum]; [lra|].
  pose proof (IH xs ltac:(now injection L) ltac:(intros; apply P; now right) ltac:(intros; apply B; now right)).
  pose proof (P m (or_introl eq_refl)). pose proof (B x (or_introl eq_refl)). nra.
Qed.

Lemma vsz_of (l : list R) t : vsz (vec_of l t) = length l.
Proof. reflexivity. Qed.

Lemma mass_center_run bc ms xs ys zs tm tx ty tz :
  length ms = length xs -> length xs = length ys -> length ys = length zs ->
  (forall m, In m ms -> 0 <= m) -> 0 < rsum ms ->
  mass_center bc (vec_of ms tm) (vec_of xs tx) (vec_of ys ty) (vec_of zs tz)
  = Ok (0%Z, (Set_ (rdot ms xs / rsum ms), Set_ (rdot ms ys / rsum ms), Set_ (rdot ms zs / rsum ms))).
Proof.
  intros L1 L2 L3 P S. assert (N : ms <> []) by (intros ->; cbn in S; lra).
  unfold mass_center. rewrite !vsz_of, <- L3, <- L2, <- L1, !Nat.eqb_refl. cbn [negb orb]. rewrite andb_false_r.
  rewrite !vec_dot_R by congruence. cbn [bind Z.eqb negb].
  rewrite vec_ar_mean_R by exact N. cbn [bind Z.eqb negb].
  rewrite vec_is_nonneg_ok. cbn [bind].
  assert (F : forallb (fun a : R => negb (flt a f0)) ms = true).
  { apply forallb_forall. intros m M. cbn. pose proof (P m M). destruct (Rltb_spec m 0); [lra | reflexivity]. }
  rewrite F. cbn [negb].
  assert (E : rmean ms * fofZ (Z.of_nat (length ms)) = rsum ms).
  { unfold rmean. rops. rewrite <- INR_IZR_INZ. field.
    apply not_0_INR. destruct ms; [contradiction | discriminate]. }
  cbn [fmul NumR]. rewrite E.
  cbn [feq fdiv NumR f0]. destruct (Reqb_spec (rsum ms) 0); [lra|].
  rewrite !Rdivo_ok by lra. reflexivity.
Qed.

(** The centre is the mean position weighted by the masses; each coordinate
    lies between any bounds on the positions. *)
Theorem C89_center bc ms xs ys zs tm tx ty tz :
  length ms = length xs -> length xs = length ys -> length ys = length zs ->
  (forall m, In m ms -> 0 <= m) -> (exists m, In m ms /\ 0 < m) ->
  exists cx cy cz,
    mass_center bc (vec_of ms tm) (vec_of xs tx) (vec_of ys ty) (vec_of zs tz)
      = Ok (0%Z, (Set_ cx, Set_ cy, Set_ cz))
    /\ cx * rsum ms = rdot ms xs /\ cy * rsum ms = rdot ms ys /\ cz * rsum ms = rdot ms zs
    /\ (forall lo hi, (forall x, In x xs -> lo <= x <= hi) -> lo <= cx <= hi)
    /\ (forall lo hi, (forall y, In y ys -> lo <= y <= hi) -> lo <= cy <= hi)
    /\ (forall lo hi, (forall z, In z zs -> lo <= z <= hi) -> lo <= cz <= hi).
Proof.
  intros L1 L2 L3 P (m & M & MP).
  assert (S : 0 < rsum ms).
  { destruct (in_split _ _ M) as (l1 & l2 & ->). rewrite rsum_app. cbn [rsum].
    assert (0 <= rsum l1) by (apply rsum_nonneg, Forall_forall; intros; apply P, in_or_app; tauto).
    assert (0 <= rsum l2) by (apply rsum_nonneg, Forall_forall; intros; apply P, in_or_app; cbn; tauto).
    lra. }
  exists (rdot ms xs / rsum ms), (rdot ms ys / rsum ms), (rdot ms zs / rsum ms).
  split; [now apply mass_center_run|].
  assert (D : forall ps, rdot ms ps / rsum ms * rsum ms = rdot ms ps) by (intros; field; lra).
  do 3 (split; [apply D|]).
  assert (B : forall ps, length ms = length ps -> forall lo hi, (forall x, In x ps -> lo <= x <= hi) ->
              lo <= rdot ms ps / rsum ms <= hi).
  { intros ps LP lo hi H.
    pose proof (rdot_nonneg_le ms ps lo LP P (fun x X => proj1 (H x X))).
    pose proof (rdot_nonneg_ge ms ps hi LP P (fun x X => proj2 (H x X))).
    pose proof (D ps). split; apply (Rmult_le_reg_r (rsum ms)); lra. }
  split; [|split]; apply B; congruence.
Qed.
(** Moving every body by the same amount moves the centre by it. *)
Theorem C89_center_shift bc ms xs ys zs tm tx ty tz tx' d cx cy cz :
  length ms = length xs -> length xs = length ys -> length ys = length zs ->
  (forall m, In m ms -> 0 <= m) -> (exists m, In m ms /\ 0 < m) ->
  mass_center bc (vec_of ms tm) (vec_of xs tx) (vec_of ys ty) (vec_of zs tz)
    = Ok (0%Z, (Set_ cx, Set_ cy, Set_ cz)) ->
  mass_center bc (vec_of ms tm) (vec_of (map (fun x => x + d) xs) tx') (vec_of ys ty) (vec_of zs tz)
    = Ok (0%Z, (Set_ (cx + d), Set_ cy, Set_ cz)).
Proof.
  intros L1 L2 L3 P (m & M & MP) E.
  assert (S : 0 < rsum ms).
  { destruct (in_split _ _ M) as (l1 & l2 & ->). rewrite rsum_app. cbn [rsum].
    assert (0 <= rsum l1) by (apply rsum_nonneg, Forall_forall; intros; apply P, in_or_app; tauto).
    assert (0 <= rsum l2) by (apply rsum_nonneg, Forall_forall; intros; apply P, in_or_app; cbn; tauto).
    lra. }
  rewrite mass_center_run in E by assumption. injection E as <- <- <-.
  rewrite mass_center_run by (rewrite ?map_length; assumption).
  assert (G : forall xs, length ms = length xs ->
    rdot ms (map (fun x => x + d) xs) = rdot ms xs + d * rsum ms).
  { clear. induction ms as [|m ms IH]; intros [|x xs] L; try discriminate L; cbn [map rdot rsum]; [lra|].
    rewrite IH by now injection L. lra. }
  rewrite G by exact L1. do 5 f_equal. field. lra.
Qed.
(** Rejections: sizes that differ (when bounds are checked), a negative mass,
    and masses that are all zero.  An empty system is rejected without touching
    the outputs. *)
Theorem C89_center_rejects bc ms xs ys zs tm tx ty tz :
  let go := mass_center bc (vec_of ms tm) (vec_of xs tx) (vec_of ys ty) (vec_of zs tz) in
  let bad := Ok ((- EINVAL)%Z, (NaN, NaN, NaN)) in
  (bc = true -> ~ (length ms = length xs /\ length xs = length ys /\ length ys = length zs) -> go = bad)
  /\ (length ms = length xs -> length xs = length ys -> length ys = length zs ->
      ((exists m, In m ms /\ m < 0) -> go = bad)
      /\ (ms <> [] -> (forall m, In m ms -> m = 0) -> go = bad)
      /\ (ms = [] -> go = Ok ((- EINVAL)%Z, (Kept, Kept, Kept)))).
Proof.
  intros go bad. split.
  - intros -> H. unfold go, mass_center, vec_of. cbn [vsz andb].
    destruct (Nat.eqb_spec (length ms) (length xs)); [|reflexivity].
    destruct (Nat.eqb_spec (length xs) (length ys)); [|reflexivity].
    destruct (Nat.eqb_spec (length ys) (length zs)); [|reflexivity]. tauto.
  - intros L1 L2 L3.
    assert (Go : ms <> [] -> go =
      if negb (forallb (fun a : R => negb (flt a f0)) ms) then bad
      else if Reqb (rsum ms) 0 then bad
      else mass_center bc (vec_of ms tm) (vec_of xs tx) (vec_of ys ty) (vec_of zs tz)).
    { intros N. unfold go, mass_center.
      rewrite !vsz_of, <- L3, <- L2, <- L1, !Nat.eqb_refl. cbn [negb orb]. rewrite andb_false_r.
      rewrite !vec_dot_R by congruence. cbn [bind Z.eqb negb].
      rewrite vec_ar_mean_R by exact N. cbn [bind Z.eqb negb].
      rewrite vec_is_nonneg_ok. cbn [bind].
      destruct (forallb _ ms); cbn [negb]; [|reflexivity].
      assert (E : rmean ms * fofZ (Z.of_nat (length ms)) = rsum ms).
      { unfold rmean. rops. rewrite <- INR_IZR_INZ. field.
        apply not_0_INR. destruct ms; [contradiction | discriminate]. }
      cbn [fmul NumR]. rewrite E.
      cbn [feq NumR f0]. destruct (Reqb (rsum ms) 0); reflexivity. }
    split; [|split].
    + intros (m & M & MN). rewrite Go by (intros ->; destruct M).
      replace (forallb _ ms) with false; [reflexivity|]. symmetry. apply not_true_is_false. intros F.
      rewrite forallb_forall in F. specialize (F m M). cbn in F. destruct (Rltb_spec m 0); [discriminate F | lra].
    + intros N Z. rewrite Go by exact N. destruct (negb _); [reflexivity|].
      replace (rsum ms) with 0; [destruct (Reqb_spec 0 0); [reflexivity | lra]|].
      clear - Z. induction ms as [|m ms IH]; [reflexivity|]. cbn [rsum].
      rewrite (Z m (or_introl eq_refl)), <- IH; [lra|]. intros; apply Z; now right.
    + intros ->. destruct xs, ys, zs; try discriminate. unfold go, mass_center, vec_of. cbn.
      destruct bc; reflexivity.
Qed.
Example C89_center_case :
  length [1; 3] = length [0; 4] /\ (forall m, In m [1; 3] -> 0 <= m) /\ rdot [1; 3] [0; 4] / rsum [1; 3] = 3.
Proof.
  split; [reflexivity|]. split; [intros m [<-|[<-|[]]]; lra|]. cbn [rdot rsum]. field.
Qed.
