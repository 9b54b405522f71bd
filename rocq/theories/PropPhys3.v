(** Physics helpers: inverse pairs, projectiles, temperatures, transients,
    combinations of any number of components, and where the guards fall
    short. *)
From Coq Require Import ZArith Reals Lra Lia Psatz Bool.
From Coquelicot Require Import Coquelicot.
From Coq Require Import List.
From Verif Require Import Base NumR Libm LibmR RTac Out MVec MPhys MPhysVec SpecPhys RPi PropPhys PropPhys2.
From Verif Require Import BaseFacts SpecVec SpecReal PVec PVecR PStat.
Import ListNotations.
Local Open Scope R_scope.

Lemma ok_set (x y : R) : x = y -> Ok (0%Z, Set_ x) = Ok (0%Z, Set_ y).
Proof. now intros ->. Qed.
Ltac gv := unfold gives; rops; consts; rcases; divs; cbn [bind omap]; try (apply ok_set; first [lra | (field; nz)]).
Lemma Rsqrto_sq x y : 0 <= y -> x = y * y -> Rsqrto x = Ok y.
Proof. intros H ->. rewrite Rsqrto_ok by nra. f_equal. now apply sqrt_square. Qed.
Ltac sq y := rewrite (@Rsqrto_sq _ y); [cbn [bind] | nra | try (field; nz); try nra].

(** ** C88: pairs of functions that undo each other *)

(** Travel from xi with speed vi and acceleration a for a time t >= 0. *)
Theorem C88_position vi a t xi :
  0 <= t -> exists d, gives (kin_dist vi t a) d /\ gives (kin_init_pos vi t a (xi + d)) xi.
Proof. intros H. exists (vi * t + a * t^2 / 2). unfold kin_init_pos, kin_dist. split; gv. Qed.
Theorem C88_position2 vi a t xi :
  0 <= t -> a <> 0 -> exists d vf, gives (kin_dist vi t a) d /\ gives (kin_vel vi t a) vf
    /\ gives (kin_init_pos2 vi vf a (xi + d)) xi.
Proof.
  intros H A. exists (vi * t + a * t^2 / 2), (vi + a * t). unfold kin_init_pos2, kin_dist, kin_vel.
  split; [|split]; gv.
Qed.
Theorem C88_velocity vi a t :
  0 <= t -> exists vf, gives (kin_vel vi t a) vf /\ gives (kin_init_vel vf a t) vi
    /\ (a <> 0 -> gives (kin_time vi vf a) t)
    /\ (0 < t -> gives (kin_accel vi vf t) a).
Proof.
  intros H. exists (vi + t * a). unfold kin_vel, kin_init_vel, kin_time, kin_accel.
  split; [gv|]. split; [gv|]. split.
  - intros A. assert (E : (vi + t * a - vi) / a = t) by (field; exact A).
    unfold gives. rops. rcases. divs. rewrite E. rcases. reflexivity.
  - intros T. gv.
Qed.
Theorem C88_speed vi a t :
  0 <= t -> exists d vf, gives (kin_dist vi t a) d /\ gives (kin_vel vi t a) vf
    /\ (0 <= vf -> gives (kin_vel2 vi d a) vf)
    /\ (0 <= vi -> gives (kin_init_vel3 vf a d) vi)
    /\ (0 < t -> gives (kin_init_vel2 d a t) vi /\ gives (kin_av_vel d t) ((vi + vf) / 2)).
Proof.
  intros H. exists (vi * t + a * t^2 / 2), (vi + a * t).
  unfold kin_dist, kin_vel, kin_vel2, kin_init_vel3, kin_init_vel2, kin_av_vel.
  split; [gv|]. split; [gv|]. split; [|split].
  - intros P. unfold gives. rops. rcases; try nra. sq (vi + a * t). reflexivity.
  - intros P. unfold gives. rops. rcases; try nra. sq vi. reflexivity.
  - intros P. split; gv.
Qed.
(** The root loses the sign: an object that turned back is reported with the
    opposite velocity. *)
Theorem C88_speed_sign_refuted :
  exists vi a t d, 0 <= t /\ gives (kin_dist vi t a) d /\ gives (kin_vel vi t a) (-1) /\ gives (kin_vel2 vi d a) 1.
Proof.
  exists 1, (-1), 2, 0. split; [lra|]. unfold kin_dist, kin_vel, kin_vel2. split; [gv|]. split; [gv|].
  unfold gives. rops. rcases. sq 1. reflexivity.
Qed.
Theorem C88_work_energy vi vf m :
  0 <= m -> exists k1 k2, gives (kin_ener vi m) k1 /\ gives (kin_ener vf m) k2
    /\ gives (work_kin k1 k2) (m * (vf^2 - vi^2) / 2).
Proof.
  intros H. exists (m * vi^2 / 2), (m * vf^2 / 2). unfold kin_ener, work_kin. split; [gv|]. split; gv.
Qed.
Theorem C88_rotation w a t :
  0 <= t -> exists phi wf, gives (rot_angle w t a) phi /\ gives (rot_omega w t a) wf
    /\ (a <> 0 -> gives (rot_time w wf a) t)
    /\ (0 < t -> gives (rot_ang_accel w wf t) a /\ gives (rot_av_omega phi t) ((w + wf) / 2))
    /\ (0 <= wf -> gives (rot_omega2 w phi a) wf).
Proof.
  intros H. exists (w * t + a * t^2 / 2), (w + t * a).
  unfold rot_angle, rot_omega, rot_time, rot_ang_accel, rot_av_omega, rot_omega2.
  split; [gv|]. split; [gv|]. split; [|split].
  - intros A. assert (E : (w + t * a - w) / a = t) by (field; exact A).
    unfold gives. rops. rcases. divs. rewrite E. rcases. reflexivity.
  - intros T. split; gv.
  - intros P. unfold gives. rops. rcases; try nra. sq (w + t * a). reflexivity.
Qed.
Theorem C88_photon f :
  0 < f -> exists l e, gives (photon_wavelength f) l /\ gives (photon_frequency l) f
    /\ gives (ener_photon f) e /\ gives (photon_ener l) e.
Proof.
  intros H. exists (light_c / f), (planck_h * f / charge_e).
  assert (0 < light_c / f) by (apply Rdiv_lt_0_compat; unfold light_c; lra).
  unfold photon_wavelength, photon_frequency, ener_photon, photon_ener.
  split; [unfold gives; rops; consts; rcases; divs; apply ok_set; field; nz|].
  split; [unfold gives; rops; consts; rcases; divs; apply ok_set; field; nz|].
  split; unfold gives; rops; consts; rcases; divs; apply ok_set; field; nz.
Qed.
Example C88_case : 0 <= 2 /\ (3 <> 0) /\ 0 < 2. Proof. lra. Qed.

(** ** Projectiles *)
Definition height (v yi t : R) : R := yi + v * t - gravity * t^2 / 2.

(** The reported time is the last moment at the given height, and the first
    one for the other function. *)
Theorem C88_flight_time v yi yf t :
  proj_time v yi yf = Ok (0%Z, Set_ t) ->
  height v yi t = yf /\ (forall t', height v yi t' = yf -> t' <= t).
Proof.
  intros E. pose proof (proj1 (proj2 C86_projectiles)) as A.
  destruct (answers_unique _ _ _ _ (A v yi yf) E) as (V & L & S). unfold height.
  split; [now symmetry|]. intros t' H. unfold gravity in *. nra.
Qed.
Theorem C88_flight_time_first v yi yf t :
  proj_time_first v yi yf = Ok (0%Z, Set_ t) ->
  0 <= t /\ height v yi t = yf /\ (forall t', height v yi t' = yf -> t <= t').
Proof.
  intros E. pose proof (proj1 (proj2 (proj2 C86_projectiles))) as A.
  destruct (answers_unique _ _ _ _ (A v yi yf) E) as (V & P & L & S). unfold height.
  split; [exact P|]. split; [now symmetry|]. intros t' H. unfold gravity in *. nra.
Qed.
(** The time is not negative when the target is not above the start, or the
    body is thrown upwards. *)
Theorem C88_flight_time_nonneg v yi yf t :
  yf <= yi \/ 0 <= v -> proj_time v yi yf = Ok (0%Z, Set_ t) -> 0 <= t.
Proof.
  intros H E. pose proof (proj1 (proj2 C86_projectiles)) as A.
  destruct (answers_unique _ _ _ _ (A v yi yf) E) as (V & L & S). unfold gravity in *.
  apply Rnot_lt_le; intros N. destruct H as [H|H]; [|nra].
  assert (0 < - t) by lra. assert (v <= 9807/1000 * t) by lra. nra.
Qed.
(** A body thrown down from below its target: a time in the past, status 0. *)
Theorem C88_flight_time_negative_refuted :
  exists t, gives (proj_time (-10) 0 1) t /\ t < 0.
Proof.
  destruct (proj1 (proj1 (proj2 C86_projectiles) (-10) 0 1)) as (t & E & L & S); [unfold gravity; lra|].
  exists t. split; [exact E|]. apply Rnot_le_lt; intros P. unfold gravity in *. nra.
Qed.

(** From height yi >= 0 the range is the horizontal way to the point of
    impact, where the height is 0. *)
Theorem C88_range vh vv xi yi :
  0 <= yi -> exists t x,
    gives (proj_time vv yi 0) t /\ 0 <= t /\ gives (proj_ver_motion vv t yi) 0
    /\ gives (proj_hor_motion vh t xi) x /\ gives (proj_range vh vv xi yi) (x - xi).
Proof.
  intros H.
  assert (V : 0 <= vv^2 + 2 * gravity * (yi - 0)) by (unfold gravity; nra).
  destruct (proj1 (proj1 (proj2 C86_projectiles) vv yi 0) V) as (t & E & L & S).
  pose proof (C88_flight_time_nonneg vv yi 0 t ltac:(lra) E) as T.
  pose proof (proj2 (proj2 (proj2 (proj2 C86_projectiles)))) as A.
  destruct (proj1 (proj1 A vv t yi) T) as (y & EY & LY).
  destruct (proj1 (proj1 (proj2 (proj2 A)) vh t xi) T) as (x & EX & LX).
  exists t, x. split; [exact E|]. split; [exact T|]. split.
  { unfold gives. rewrite EY, LY, <- L. reflexivity. }
  split; [exact EX|]. unfold gives, proj_range.
  replace (flit 0 1) with 0 by (rops; lra). rewrite E. cbn [bind]. rewrite EX. cbn [bind omap]. reflexivity.
Qed.
(** From below the ground, too slow to reach it: status 0, and NAN stored. *)
Theorem C88_range_error_refuted vh vv xi yi :
  vv^2 + 2 * gravity * yi < 0 -> proj_range vh vv xi yi = Ok (0%Z, NaN).
Proof.
  intros H. unfold proj_range. replace (flit 0 1) with 0 by (rops; lra).
  rewrite (proj2 (proj1 (proj2 C86_projectiles) vv yi 0)); [reflexivity|].
  intros C. unfold gravity in *. lra.
Qed.
Example C88_range_error_case : 1^2 + 2 * gravity * (-1) < 0. Proof. unfold gravity. lra. Qed.
(** The path: height as a function of the horizontal position. *)
Theorem C88_trajectory vh vv xi yi t :
  vh <> 0 -> 0 <= t -> exists x y,
    gives (proj_hor_motion vh t xi) x /\ gives (proj_ver_motion vv t yi) y
    /\ gives (proj_trajectory vh vv xi yi x) y.
Proof.
  intros H T. pose proof (proj2 (proj2 (proj2 (proj2 C86_projectiles)))) as A.
  destruct (proj1 (proj1 A vv t yi) T) as (y & EY & LY).
  destruct (proj1 (proj1 (proj2 (proj2 A)) vh t xi) T) as (x & EX & LX).
  exists x, y. split; [exact EX|]. split; [exact EY|].
  destruct (proj1 (proj1 (proj2 (proj2 (proj2 A))) vh vv xi yi x)) as (y' & E & L).
  { split; [exact H|]. rewrite LX. nra. }
  unfold gives. rewrite E. repeat f_equal. rewrite LY. now apply L.
Qed.
(** Splitting a velocity into parts and putting it back together. *)
Theorem C88_components v th :
  exists h u, proj_init_vel v th = Ok (0%Z, Set_ h, Set_ u)
    /\ gives (proj_vel h u) (Rabs v)
    /\ (0 < v -> - (PI / 2) < th < PI / 2 -> gives (proj_angle h u) th).
Proof.
  exists (v * cos th), (v * sin th). split; [reflexivity|]. split.
  - unfold gives, proj_vel. rops. rewrite (@Rsqrto_sq _ (Rabs v)); [reflexivity | apply Rabs_pos |].
    rewrite <- Rabs_mult, Rabs_pos_eq by nra.
    pose proof (sin2_cos2 th) as S. unfold Rsqr in S. nra.
  - intros P B. assert (C : 0 < cos th) by (apply cos_gt_0; lra).
    assert (Z : v * cos th <> 0) by nra.
    unfold gives, proj_angle. rops. destruct (Reqb_spec (v * cos th) 0); [contradiction|].
    rewrite Rdivo_ok by exact Z. cbn [bind]. repeat f_equal.
    replace (v * sin th / (v * cos th)) with (tan th) by (unfold tan; field; lra).
    apply atan_tan. lra.
Qed.
Example C88_components_case : 0 < 1 /\ - (PI / 2) < 1 < PI / 2.
Proof. pose proof PI_bounds. lra. Qed.
(** A body flying backwards is given the angle of the opposite direction, and
    one falling straight down the angle of one rising straight up. *)
Theorem C88_angle_refuted :
  (forall h u a, proj_angle h u = Ok (0%Z, Set_ a) -> h <> 0 -> proj_angle (- h) (- u) = Ok (0%Z, Set_ a))
  /\ (forall u u', proj_angle 0 u = proj_angle 0 u').
Proof.
  split.
  - intros h u a E Z. unfold proj_angle in *. revert E. rops.
    destruct (Reqb_spec h 0); [contradiction|]. destruct (Reqb_spec (- h) 0); [lra|].
    rewrite !Rdivo_ok by lra. cbn [bind]. intros E. rewrite <- E. apply ok_set. f_equal. field. exact Z.
  - intros. unfold proj_angle. rops. destruct (Reqb_spec 0 0); [reflexivity | lra].
Qed.

(** Straight up is a quarter turn, to the digits of the library's pi *)
Theorem C88_vertical :
  forall u, exists a, gives (proj_angle 0 u) a /\ Rabs (a - PI / 2) < 1 / 10 ^ 11.
Proof.
  intros u. exists (314159265359 / 10 ^ 11 / 2). split.
  - unfold gives, proj_angle. rops. destruct (Reqb_spec 0 0); [|lra]. divs. cbn [bind]. apply ok_set. lra.
  - pose proof PI_bounds. apply Rabs_def1; lra.
Qed.
Print Assumptions C88_vertical.

(** ** C90: temperatures *)
Theorem C90_fahrenheit t :
  exists f, gives (thermo_fahren_cels t true) f /\ gives (thermo_fahren_cels f false) t
    /\ f = t * 9 / 5 + 32.
Proof. exists (t * 9 / 5 + 32). unfold thermo_fahren_cels. split; [gv|]. split; [gv | reflexivity]. Qed.
Theorem C90_celsius f :
  exists t, gives (thermo_fahren_cels f false) t /\ gives (thermo_fahren_cels t true) f.
Proof. exists ((f - 32) * 5 / 9). unfold thermo_fahren_cels. split; gv. Qed.
Theorem C90_kelvin t :
  exists k, gives (thermo_cels_kel t false) k /\ gives (thermo_cels_kel k true) t /\ k = t + 273.15.
Proof. exists (t + 273.15). unfold thermo_cels_kel. split; [gv|]. split; [gv | reflexivity]. Qed.
Theorem C90_from_kelvin k :
  exists t, gives (thermo_cels_kel k true) t /\ gives (thermo_cels_kel t false) k.
Proof. exists (k - 273.15). unfold thermo_cels_kel. split; gv. Qed.
Theorem C90_increasing t t' dir :
  t < t' ->
  (exists x x', gives (thermo_fahren_cels t dir) x /\ gives (thermo_fahren_cels t' dir) x' /\ x < x')
  /\ (exists x x', gives (thermo_cels_kel t dir) x /\ gives (thermo_cels_kel t' dir) x' /\ x < x').
Proof.
  intros H. destruct dir.
  - split.
    + exists (t * 9 / 5 + 32), (t' * 9 / 5 + 32). unfold thermo_fahren_cels. split; [gv|]. split; [gv | lra].
    + exists (t - 273.15), (t' - 273.15). unfold thermo_cels_kel. split; [gv|]. split; [gv | lra].
  - split.
    + exists ((t - 32) * 5 / 9), ((t' - 32) * 5 / 9). unfold thermo_fahren_cels. split; [gv|]. split; [gv | lra].
    + exists (t + 273.15), (t' + 273.15). unfold thermo_cels_kel. split; [gv|]. split; [gv | lra].
Qed.
(** water freezes and boils where it should; -40 is the same on both scales *)
Example C90_points :
  gives (thermo_fahren_cels 0 true) 32 /\ gives (thermo_fahren_cels 100 true) 212
  /\ gives (thermo_fahren_cels (-40) true) (-40) /\ gives (thermo_cels_kel 0 false) 273.15.
Proof. unfold thermo_fahren_cels, thermo_cels_kel. split; [gv|]. split; [gv|]. split; gv. Qed.
