(** Physics helpers: accepted arguments and the law each answer obeys. *)
From Coq Require Import ZArith Reals Lra Lia Psatz Bool List.
From Coquelicot Require Import Rcomplements.
From Verif Require Import Base NumR Libm LibmR RTac Out MVec MPhys MPhysVec SpecPhys RPi.
Local Open Scope R_scope.
Import ListNotations.

Lemma Rsqrto_root x : 0 <= x -> exists y, Rsqrto x = Ok y /\ root x y.
Proof.
  intros H. exists (sqrt x). split; [now apply Rsqrto_ok|].
  split; [apply sqrt_pos | now apply sqrt_sqrt].
Qed.

Lemma quot_sign x a : a <> 0 -> (0 <= x / a <-> 0 <= x * a).
Proof.
  intros H. assert (E : x * a = x / a * (a * a)) by (field; exact H).
  assert (0 < a * a) by nra. rewrite E. split; intros Q; [nra|].
  apply Rnot_lt_le; intros L. nra.
Qed.
Lemma quot_eq x a q : a <> 0 -> x / a = q -> x = q * a.
Proof. intros H <-. field. exact H. Qed.

Lemma abs_quot x n : 0 < n -> (Rabs (x / n) <= 1 <-> Rabs x <= n).
Proof.
  intros H. assert (E : Rabs x = Rabs (x / n) * n).
  { rewrite <- (Rabs_pos_eq n) at 2 by lra. rewrite <- Rabs_mult. f_equal. field. lra. }
  rewrite E. split; intros Q; [nra|]. apply Rnot_lt_le; intros L. nra.
Qed.
Lemma Rasin_ok x : -1 <= x <= 1 -> Rasin x = Ok (asin x).
Proof.
  intros [L U]. unfold Rasin. destruct (Rle_dec (-1) x); [|contradiction].
  destruct (Rle_dec x 1); [reflexivity | contradiction].
Qed.

Ltac headof t := lazymatch t with ?f _ => headof f | _ => t end.
Ltac consts := cbv delta [gravity newton_G planck_h planck_hbar charge_e coulomb_k electron_m light_c
                    gas_R vacuum_eps pi11 e11] in *;
  unfold Q2R in *; cbn [QArith_base.Qnum QArith_base.Qden] in *;
  repeat match goal with
  | |- context [Z.pow_pos ?a ?b] =>
      let v := eval vm_compute in (Z.pow_pos a b) in change (Z.pow_pos a b) with v
  | _ : context [Z.pow_pos ?a ?b] |- _ =>
      let v := eval vm_compute in (Z.pow_pos a b) in change (Z.pow_pos a b) with v in *
  end.
Ltac nz := first [lra | nra | (apply Rmult_integral_contrapositive_currified; nz)].
Ltac nn := first [lra | nra | (apply Rmult_le_pos; nn) | (apply Rlt_le, Rinv_0_lt_compat; nz)].
Ltac divs := repeat (rewrite Rdivo_ok by nz; cbn [bind]).
Ltac roots := repeat match goal with
  | |- context [Rsqrto ?x] =>
      let y := fresh "y" in let E := fresh "E" in
      destruct (@Rsqrto_root x) as (y & E & ? & ?); [nn | rewrite E; cbn [bind]]
  end.
Ltac law := unfold root; try (field; nz); try (f_equal; field; nz); try nra; try (repeat split; nra);
  try match goal with
  | E : ?y * ?y = _ |- 0 <= ?y /\ _ =>
      split; [assumption | replace (y ^ 2) with (y * y) by ring; rewrite E; field; nz]
  end.
Ltac open_ :=
  lazymatch goal with
  | |- answers ?r _ _ => let h := headof r in unfold h
  end; cbv delta [kin_dist proj_ver_motion proj_time proj_hor_motion work_module omap answers]; cbv beta;
  rops; consts.
Ltac accept := eexists; split; [reflexivity | law].
Ltac reject H := exfalso; apply H; repeat split; first [lra | nra].
(** tests of an integer argument *)
Ltac ints := repeat match goal with
  | |- context [Z.eqb ?z 0] =>
      let E := fresh "E" in
      destruct (Z.eqb_spec z 0) as [E|E];
      [try tauto; try lia | assert (IZR z <> 0) by (apply not_0_IZR; assumption)]
  end.
Ltac answer :=
  intros; open_; ints; split; intros V;
  [ try (exfalso; tauto); decompose [and] V; repeat (progress (rcases; try nra; divs; roots)); cbn [bind]; try accept
  | repeat (progress (rcases; divs; roots)); try reflexivity; try (reject V); try (exfalso; tauto) ].
Ltac both := repeat match goal with |- _ /\ _ => split end.

(** The value used for the circle constant is right to 10^-11. *)
Lemma pi11_close : Rabs (pi11 - PI) <= / 100000000000.
Proof. pose proof PI_bounds. unfold pi11. apply Rabs_le. lra. Qed.

Theorem C86_kinematics :
  (forall vi t a, answers (kin_dist vi t a) (0 <= t) (fun d => d = vi * t + a * t^2 / 2))
  /\ (forall vi t a xf, answers (kin_init_pos vi t a xf) (0 <= t)
       (fun xi => xf = xi + vi * t + a * t^2 / 2))
  /\ (forall vi vf a xf, answers (kin_init_pos2 vi vf a xf) (a <> 0)
       (fun xi => vf^2 = vi^2 + 2 * a * (xf - xi)))
  /\ (forall vi vf a, answers (kin_time vi vf a) (a <> 0 /\ 0 <= (vf - vi) * a)
       (fun t => 0 <= t /\ vf = vi + a * t))
  /\ (forall vi t a, answers (kin_vel vi t a) (0 <= t) (fun vf => vf = vi + a * t))
  /\ (forall vi d a, answers (kin_vel2 vi d a) (0 <= vi^2 + 2 * a * d) (root (vi^2 + 2 * a * d)))
  /\ (forall vf a t, answers (kin_init_vel vf a t) (0 <= t) (fun vi => vf = vi + a * t))
  /\ (forall d a t, answers (kin_init_vel2 d a t) (0 < t) (fun vi => d = vi * t + a * t^2 / 2))
  /\ (forall vf a d, answers (kin_init_vel3 vf a d) (0 <= vf^2 - 2 * a * d) (root (vf^2 - 2 * a * d)))
  /\ (forall d t, answers (kin_av_vel d t) (0 < t) (fun v => v * t = d))
  /\ (forall vi vf t, answers (kin_accel vi vf t) (0 < t) (fun a => vf = vi + a * t))
  /\ (forall v m, answers (kin_ener v m) (0 <= m) (fun k => k = m * v^2 / 2)).
Proof.
  both. all: answer.
  - pose proof (quot_sign (vf - vi) a n). lra.
  - pose proof (quot_sign (vf - vi) a n). split; [lra | field; exact n].
  - pose proof (quot_sign (vf - vi) a n). reject V.
Qed.

Theorem C86_projectiles :
  (forall v th, proj_init_vel v th = Ok (0%Z, Set_ (v * cos th), Set_ (v * sin th)))
  /\ (forall v yi yf, answers (proj_time v yi yf) (0 <= v^2 + 2 * gravity * (yi - yf))
       (fun t => yf = yi + v * t - gravity * t^2 / 2 /\ v - gravity * t <= 0))
  /\ (forall v yi yf, answers (proj_time_first v yi yf)
       (0 <= v^2 + 2 * gravity * (yi - yf) /\ yi <= yf /\ 0 <= v)
       (fun t => 0 <= t /\ yf = yi + v * t - gravity * t^2 / 2 /\ 0 <= v - gravity * t))
  /\ (forall v vf, answers (proj_time2 v vf) (vf <= v) (fun t => 0 <= t /\ vf = v - gravity * t))
  /\ (forall v t yi, answers (proj_ver_motion v t yi) (0 <= t) (fun yf => yf = yi + v * t - gravity * t^2 / 2))
  /\ (forall v t, answers (proj_ver_vel v t) (0 <= t) (fun vf => vf = v - gravity * t))
  /\ (forall v t xi, answers (proj_hor_motion v t xi) (0 <= t) (fun xf => xf = xi + v * t))
  /\ (forall vh vv xi yi xf, answers (proj_trajectory vh vv xi yi xf) (vh <> 0 /\ 0 <= (xf - xi) * vh)
       (fun yf => forall t, xf = xi + vh * t -> yf = yi + vv * t - gravity * t^2 / 2))
  /\ (forall vh vv, answers (proj_vel vh vv) True (root (vh^2 + vv^2))).
Proof.
  both. { reflexivity. } all: answer.
  - pose proof (quot_sign (xf - xi) vh n). lra.
  - intros t ->. field. exact n.
  - pose proof (quot_sign (xf - xi) vh n). reject V.
Qed.

Theorem C86_momentum :
  (forall m v, answers (mom_mom m v) (0 <= m) (fun p => p = m * v))
  /\ (forall f t, answers (mom_imp f t) (0 <= t) (fun j => j = f * t))
  /\ (forall m vi vf, answers (mom_change m vi vf) (0 <= m) (fun p => p = m * vf - m * vi))
  /\ (forall m1 vi1 vf1 m2 vi2, answers (mom_elas m1 vi1 vf1 m2 vi2) (0 <= m1 /\ 0 < m2)
       (fun vf2 => m1 * vi1 + m2 * vi2 = m1 * vf1 + m2 * vf2))
  /\ (forall m1 vi1 m2 vi2, answers (mom_inelas m1 vi1 m2 vi2) (0 <= m1 /\ 0 <= m2 /\ 0 < m1 + m2)
       (fun vf => m1 * vi1 + m2 * vi2 = (m1 + m2) * vf)).
Proof. both. all: answer. Qed.

Theorem C86_energy :
  (forall v m, answers (ener_kin v m) (0 <= m) (fun e => e = m * v^2 / 2))
  /\ (forall w i, answers (ener_rot w i) (0 <= i) (fun e => e = i * w^2 / 2))
  /\ (forall m h, answers (ener_grav_pot m h) (0 <= m) (fun e => e = m * gravity * h))
  /\ (forall k d, answers (ener_elas_pot k d) (0 <= k) (fun e => e = k * d^2 / 2))
  /\ (forall e t, answers (ener_power e t) (0 < t) (fun p => p * t = e))
  /\ (forall f d, answers (ener_fric f d) (0 <= d /\ 0 <= f) (fun e => e = - (f * d)))
  /\ (forall a b c d, answers (ener_mec a b c d) True (fun e => e = a + b + c + d))
  /\ (forall a b c d x y z, answers (ener_final a b c d x y z) True (fun e => x + y + z + e = a + b + c + d))
  /\ (forall f, answers (ener_photon f) (0 <= f) (fun e => e * charge_e = planck_h * f))
  /\ (forall l, answers (ener_photon2 l) (0 < l) (fun e => e * charge_e * (l / 10^9) = planck_h * light_c)).
Proof. both. all: answer. Qed.

Theorem C86_work :
  (forall f d, answers (work_module f d) (0 <= f /\ 0 <= d) (fun w => w = f * d))
  /\ (forall f d th, answers (work_x f d th) (0 <= f /\ 0 <= d) (fun w => w = f * d * cos th))
  /\ (forall f d th, answers (work_y f d th) (0 <= f /\ 0 <= d) (fun w => w = f * d * sin th))
  /\ (forall k1 k2, answers (work_kin k1 k2) True (fun w => k1 + w = k2)).
Proof. both. all: answer. Qed.

Theorem C86_dynamics :
  (forall m a, answers (dyn_newton m a) (0 <= m) (fun f => f = m * a))
  /\ (forall n mu, answers (dyn_fric n mu) (0 <= mu <= 1) (fun f => f = mu * n))
  /\ (forall m th, answers (dyn_normal m th) (0 <= m) (fun n => n = m * gravity * cos th))
  /\ (forall l, answers (dyn_pendul_period l) (0 <= l) (fun t => 0 <= t /\ gravity * t^2 = 4 * pi11^2 * l))
  /\ (forall l o, answers (dyn_pendul_max_speed l o) (0 <= l)
       (fun v => 0 <= v /\ v^2 / 2 = gravity * (l - l * cos o)))
  /\ (forall m a, answers (dyn_tension m a) (0 <= m) (fun t => t - m * gravity = m * a))
  /\ (forall d1 f1 d2, answers (dyn_lever d1 f1 d2) (0 <= d1 /\ 0 < d2) (fun f2 => d1 * f1 = d2 * f2)).
Proof.
  both. all: answer. pose proof (COS_bound o).
  destruct (@Rsqrto_root (20 / 10 * (9807 / 1000) * l * (10 / 10 - cos o))) as (y & E & ? & ?); [nn|].
  rewrite E. cbn [bind]. accept.
Qed.

Theorem C86_rotation :
  (forall w t a, answers (rot_angle w t a) (0 <= t) (fun phi => phi = w * t + a * t^2 / 2))
  /\ (forall phi r, answers (rot_dist phi r) (0 <= r) (fun d => d = phi * r))
  /\ (forall phi, answers (rot_turn phi) True (fun n => n * (2 * pi11) = phi))
  /\ (forall wi wf a, answers (rot_time wi wf a) (a <> 0 /\ 0 <= (wf - wi) * a)
       (fun t => 0 <= t /\ wf = wi + a * t))
  /\ (forall w t a, answers (rot_omega w t a) (0 <= t) (fun wf => wf = w + a * t))
  /\ (forall w phi a, answers (rot_omega2 w phi a) (0 <= w^2 + 2 * a * phi) (root (w^2 + 2 * a * phi)))
  /\ (forall phi t, answers (rot_av_omega phi t) (0 < t) (fun w => w * t = phi))
  /\ (forall w r, answers (rot_vel w r) (0 <= r) (fun v => v = w * r))
  /\ (forall wi wf t, answers (rot_ang_accel wi wf t) (0 < t) (fun a => wf = wi + a * t))
  /\ (forall a r, answers (rot_accel a r) (0 <= r) (fun x => x = a * r))
  /\ (forall w i, answers (rot_ener w i) (0 <= i) (fun e => e = i * w^2 / 2))
  /\ (forall w, answers (rot_period w) (0 < w) (fun t => t * w = 2 * pi11))
  /\ (forall w, answers (rot_frequency w) (0 <= w) (fun f => 2 * pi11 * f = w))
  /\ (forall v r, answers (rot_cent_accel v r) (0 < r) (fun a => a * r = v^2))
  /\ (forall t r, answers (rot_cent_accel2 t r) (0 < t /\ 0 <= r) (fun a => a * t^2 = (2 * pi11)^2 * r))
  /\ (forall a c, answers (rot_total_accel a c) True (root (a^2 + c^2)))
  /\ (forall q w, answers (rot_power q w) True (fun p => p = q * w)).
Proof.
  both. all: answer.
  - pose proof (quot_sign (wf - wi) a n). lra.
  - pose proof (quot_sign (wf - wi) a n). split; [lra | field; exact n].
  - pose proof (quot_sign (wf - wi) a n). reject V.
Qed.

Theorem C86_gravitation :
  (forall m m' r, 0 <= m -> 0 <= m' -> 0 <= r ->
    answers (grav_orb_period m m' r) (0 < m + m')
      (fun t => 0 <= t /\ newton_G * (m + m') * t^2 = 4 * pi11^2 * r^3))
  /\ (forall m r, 0 <= m -> 0 <= r -> answers (grav_esc_vel m r) (0 < r)
       (fun v => 0 <= v /\ v^2 / 2 = newton_G * m / r))
  /\ (forall m r, 0 <= m -> 0 <= r -> answers (grav_orb_vel m r) (0 < r)
       (fun v => 0 <= v /\ v^2 / r = newton_G * m / r^2))
  /\ (forall m r, answers (grav_acc m r) (r <> 0) (fun a => a * r^2 = - newton_G * m))
  /\ (forall m m' r, answers (grav_force m m' r) (r <> 0) (fun f => f * r^2 = - newton_G * m * m'))
  /\ (forall m m' r, answers (grav_pot_ener m m' r) (r <> 0) (fun u => 1000 * u * r = - newton_G * m * m')).
Proof. both. all: answer. Qed.

Theorem C86_fluids :
  (forall m v, answers (fluid_dens m v) (0 <= m /\ 0 < v) (fun d => d * v = m))
  /\ (forall f a, answers (fluid_simple_press f a) (0 <= f /\ 0 < a) (fun p => p * a = f))
  /\ (forall p0 h d, answers (fluid_press p0 h d) (0 <= p0 /\ 0 <= h /\ 0 <= d)
       (fun p => 1000 * (p - p0) = d * gravity * h))
  /\ (forall v d, answers (fluid_bouyant_force v d) (0 <= v /\ 0 <= d) (fun f => 1000 * f = d * v * gravity))
  /\ (forall a1 v1 a2, answers (fluid_flow_rate a1 v1 a2) (0 <= v1 /\ 0 <= a1 /\ 0 < a2)
       (fun v2 => a1 * v1 = a2 * v2))
  /\ (forall a1 f1 a2, answers (fluid_force_prop a1 f1 a2) (0 <= f1 /\ 0 <= a2 /\ 0 < a1)
       (fun f2 => f1 / a1 * a2 = f2))
  /\ (forall d v1 p1 v2, answers (fluid_bernoulli d v1 p1 v2) (0 <= v1 /\ 0 <= v2 /\ 0 <= p1 /\ 0 <= d)
       (fun p2 => 1000 * p1 + d * v1^2 / 2 = 1000 * p2 + d * v2^2 / 2))
  /\ (forall v a, answers (fluid_volume_flow_rate v a) (0 <= v /\ 0 <= a) (fun q => q = v * a)).
Proof. both. all: answer. Qed.

Theorem C86_gases :
  (forall m n t, answers (gas_av_vel m n t) (0 < m /\ 0 <= n /\ 0 <= t)
    (fun v => 0 <= v /\ m * v^2 / 2 = 3 / 2 * n * gas_R * t))
  /\ (forall v n t, answers (gas_press v n t) (0 < v /\ 0 <= n /\ 0 <= t) (fun p => p * v = n * gas_R * t))
  /\ (forall pi vi pf, answers (gas_boyle pi vi pf) (0 < pf /\ 0 <= vi /\ 0 <= pi)
       (fun vf => pi * vi = pf * vf))
  /\ (forall ti vi tf, answers (gas_charles_lussac ti vi tf) (0 < ti /\ 0 <= vi /\ 0 <= tf)
       (fun vf => vi / ti * tf = vf)).
Proof. both. all: answer. Qed.

Theorem C86_thermo :
  (forall m l, answers (thermo_heat_fusion m l) (0 <= m /\ 0 <= l) (fun q => q = m * l))
  /\ (forall m s t, answers (thermo_heat m s t) (0 <= m /\ 0 <= s) (fun q => q = m * s * t))
  /\ (forall l0 a t, answers (thermo_expan l0 a t) (0 <= l0 /\ 0 <= a) (fun l => l - l0 = l0 * a * t))
  /\ (forall n d, answers (thermo_mean_free_path n d) (0 < n /\ 0 < d)
       (fun l => l / 10^6 * (sqrt 2 * pi11 * d^2 * n) = 1))
  /\ (forall qc qh, answers (thermo_effic_heat_engine qc qh) (qh <> 0 /\ qc <= qh)
       (fun e => e * qh = qh - qc))
  /\ (forall tc qc th, answers (thermo_carnot_engine tc qc th) (0 < tc /\ tc <= th)
       (fun qh => qh / th = qc / tc)).
Proof.
  both. all: answer. replace (sqrt 2) with y.
  2: { symmetry. apply sqrt_lem_1; lra. }
  assert (y <> 0) by (intros ->; lra). field. repeat split; lra.
Qed.

Theorem C86_sound :
  (forall b k a, answers (sound_press_amp b k a) (0 <= b /\ 0 <= k /\ 0 <= a) (fun p => p = b * k * a))
  /\ (forall i i0, i <> 0 -> i0 <> 0 -> answers (sound_level i i0) (0 <= i /\ 0 <= i0)
       (fun b => i = i0 * Rpower 10 (b / 10)))
  /\ (forall b d p, b <> 0 -> answers (sound_intensity b d p) (0 <= b /\ 0 < d /\ 0 <= p)
       (fun i => 0 <= i /\ 4 * b * d * i^2 = p^4))
  /\ (forall v vs, vs <> 0 -> Rabs (v / vs) <= 1 -> answers (sound_shock_wave_angle v vs) True
       (fun th => - (PI / 2) <= th <= PI / 2 /\ sin th * vs = v))
  /\ (forall v vs vl fs, answers (sound_dop_effect v vs vl fs)
       (0 <= fs /\ v + vs <> 0 /\ 0 <= fs * (v + vl) * (v + vs))
       (fun fl => 0 <= fl /\ fl * (v + vs) = fs * (v + vl)))
  /\ (forall fa fb, answers (sound_beat fa fb) (0 <= fa /\ 0 <= fb) (fun f => 0 <= f /\ (fa + f = fb \/ fb + f = fa))).
Proof.
  both. all: answer.
  - assert (P : 0 < i / i0) by (apply Rdiv_lt_0_compat; lra).
    unfold Rlog10. destruct (Rlt_dec 0 (i / i0)); [|contradiction]. cbn [bind].
    eexists; split; [reflexivity|]. unfold Rpower.
    assert (ln 10 <> 0) by (pose proof (ln_increasing 1 10 ltac:(lra) ltac:(lra)); rewrite ln_1 in *; lra).
    replace (10 * (ln (i / i0) / ln 10) / 10 * ln 10) with (ln (i / i0)) by (field; assumption).
    rewrite exp_ln by exact P. field. lra.
  - assert (0 < b) by lra. split.
    + apply Rmult_le_pos; [nra | apply Rlt_le, Rinv_0_lt_compat; lra].
    + replace ((p * p * y / (2 * b)) ^ 2) with (p ^ 4 * (y * y) / (4 * b * b)) by (field; lra).
      match goal with E : y * y = _ |- _ => rewrite E end. field. split; lra.
  - assert (-1 <= v / vs <= 1) as [L U] by now apply Rabs_le_between.
    unfold Rasin. destruct (Rle_dec (-1) (v / vs)); [|contradiction].
    destruct (Rle_dec (v / vs) 1); [|contradiction]. cbn [bind].
    eexists; split; [reflexivity|]. split; [apply asin_bound|].
    rewrite sin_asin by lra. field. assumption.
  - pose proof (quot_sign (fs * (v + vl)) (v + vs) ltac:(assumption)). lra.
  - pose proof (quot_sign (fs * (v + vl)) (v + vs) ltac:(assumption)). split; [lra | field; assumption].
  - pose proof (quot_sign (fs * (v + vl)) (v + vs) ltac:(assumption)). reject V.
  - split; [apply Rabs_pos|]. unfold Rabs. destruct (Rcase_abs (fa - fb)); lra.
Qed.

Theorem C86_optics :
  (forall n1 n2 a, answers (opt_snell n1 n2 a) (0 <= n1 /\ 0 < n2 /\ Rabs (n1 * sin a) <= n2)
    (fun b => - (PI / 2) <= b <= PI / 2 /\ n1 * sin a = n2 * sin b))
  /\ (forall sr si, answers (opt_focus sr si) (sr + si <> 0)
       (fun f => sr <> 0 -> si <> 0 -> f <> 0 /\ / f = / sr + / si))
  /\ (forall n1 n2, answers (opt_critic_angle n1 n2) (0 <= n2 <= n1 /\ 0 < n1)
       (fun a => 0 <= a <= PI / 2 /\ n1 * sin a = n2 * sin (PI / 2)))
  /\ (forall f, answers (opt_power f) (f <> 0) (fun p => p * f = 1))
  /\ (forall y1 y2, answers (opt_magn y1 y2) (0 < y1 /\ 0 <= y2) (fun m => m * y1 = y2))
  /\ (forall n l o, answers (opt_dif n l o) (0 <= l /\ 0 < sin o) (fun d => d * sin o = IZR n * l)).
Proof.
  both. all: answer.
  - pose proof (abs_quot (n1 * sin a) n2). lra.
  - assert (B : Rabs (n1 * sin a / n2) <= 1) by lra. apply Rabs_le_between in B.
    rewrite Rasin_ok by exact B. cbn [bind]. eexists; split; [reflexivity|].
    split; [apply asin_bound|]. rewrite sin_asin by lra. field. lra.
  - pose proof (abs_quot (n1 * sin a) n2). reject V.
  - intros. split.
    + apply Rmult_integral_contrapositive_currified; [nz|]. now apply Rinv_neq_0_compat.
    + field. auto.
  - assert (B : 0 <= n2 / n1 <= 1).
    { split; [apply Rmult_le_pos; [lra | apply Rlt_le, Rinv_0_lt_compat; lra]|].
      apply (Rmult_le_reg_r n1); [lra|]. unfold Rdiv. rewrite Rmult_assoc, Rinv_l by lra. lra. }
    rewrite Rasin_ok by lra. cbn [bind]. eexists; split; [reflexivity|].
    rewrite sin_PI2, sin_asin by lra. split; [|field; lra].
    pose proof (asin_bound (n2 / n1)). split; [|lra].
    apply Rnot_lt_le; intros L. pose proof PI_bounds.
    assert (sin (asin (n2 / n1)) < 0) by (apply sin_lt_0_var; lra).
    rewrite sin_asin in * by lra. lra.
Qed.

Theorem C86_photons :
  (forall l, answers (photon_ener l) (0 < l) (fun e => e * charge_e * l = planck_h * light_c))
  /\ (forall l, answers (photon_mom l) (0 < l) (fun p => p * charge_e * l = planck_h))
  /\ (forall f, answers (photon_wavelength f) (0 < f) (fun l => l * f = light_c))
  /\ (forall l, answers (photon_frequency l) (0 < l) (fun f => l * f = light_c))
  /\ (forall f w, answers (photon_photoelectric f w) (0 <= f /\ 0 <= w)
       (fun k => (k + w) * charge_e = planck_h * f)).
Proof. both. all: answer. Qed.

Theorem C86_electric :
  (forall q v, answers (elec_charge_dens q v) (0 < v) (fun d => d * v = q))
  /\ (forall q q' r, answers (elec_force q q' r) (0 < r) (fun f => f * r^2 = coulomb_k * q * q'))
  /\ (forall q e, answers (elec_force2 q e) True (fun f => f = q * e))
  /\ (forall q r, answers (elec_field q r) (0 < r) (fun e => e * r^2 = coulomb_k * q))
  /\ (forall q q' r, answers (elec_pot_ener q q' r) (0 < r) (fun u => u * r = coulomb_k * q * q'))
  /\ (forall q r, answers (elec_potential q r) (0 < r) (fun v => v * r = coulomb_k * q))
  /\ (forall e a th, answers (elec_flux e a th) (0 <= e /\ 0 <= a) (fun f => f = e * a * cos th)).
Proof. both. all: answer. Qed.

Theorem C86_electricity :
  (forall q t, answers (elcty_current q t) (0 < t) (fun i => i * t = q))
  /\ (forall r a l, answers (elcty_resistivity r a l) (0 <= a /\ 0 < l /\ 0 <= r) (fun rho => rho * l = r * a))
  /\ (forall i r, answers (elcty_ohm_law i r) (0 <= r) (fun v => v = i * r))
  /\ (forall v i, answers (elcty_power_vi v i) True (fun p => p = v * i))
  /\ (forall i r, answers (elcty_power_ir i r) (0 <= r) (fun p => p = i^2 * r))
  /\ (forall v r, answers (elcty_power_vr v r) (0 < r) (fun p => p * r = v^2)).
Proof. both. all: answer. Qed.

Theorem C86_components :
  (forall q v, answers (ecmp_capac_cpv q v) (v <> 0) (fun c => c * v = q))
  /\ (forall a d, answers (ecmp_capac_ad a d) (d <> 0) (fun c => c * d = vacuum_eps * a))
  /\ (forall c v, answers (ecmp_ener_capac c v) True (fun u => u = c * v^2 / 2))
  /\ (forall l i, answers (ecmp_ener_induc l i) True (fun u => u = l * i^2 / 2))
  /\ (forall n1 v1 n2, answers (ecmp_trans n1 v1 n2) (n1 <> 0%Z) (fun v2 => v2 * IZR n1 = v1 * IZR n2))
  /\ (forall vr vl vc, answers (ecmp_rlc_volt vr vl vc) True (root (vr^2 + (vl - vc)^2)))
  /\ (forall r c t i0, answers (ecmp_rc_charg_i r c t i0) (0 < r * c /\ 0 <= i0 /\ 0 <= t)
       (fun i => i = i0 * exp (- t / (r * c))))
  /\ (forall r c t q0, answers (ecmp_rc_charg_q r c t q0) (0 < r * c /\ 0 <= q0 /\ 0 <= t)
       (fun q => q = q0 - q0 * exp (- t / (r * c))))
  /\ (forall r c t i0, answers (ecmp_rc_discharg_i r c t i0) (0 < r * c /\ 0 <= i0 /\ 0 <= t)
       (fun i => i = - i0 * exp (- t / (r * c))))
  /\ (forall r c t q0, answers (ecmp_rc_discharg_q r c t q0) (0 < r * c /\ 0 <= q0 /\ 0 <= t)
       (fun q => q = q0 * exp (- t / (r * c))))
  /\ (forall r l t i0, answers (ecmp_rl_current r l t i0) (0 < l /\ 0 <= i0 /\ 0 <= t /\ 0 <= r)
       (fun i => i = i0 - i0 * exp (- (r * t) / l))).
Proof.
  both. all: answer.
  replace (20 / 10) with (IZR (Z.of_nat 2)) by (cbn; lra). rewrite Rpow_int by lia. cbn [bind].
  pose proof (pow2_ge_0 (vl - vc)). roots.
  accept.
Qed.

Theorem C86_magnetics :
  (forall q v b th, answers (magn_force q v b th) (0 <= v /\ 0 <= b) (fun f => f = q * v * b * sin th))
  /\ (forall i l b th, answers (magn_force_wire i l b th) (0 <= l /\ 0 <= b) (fun f => f = i * l * b * sin th))
  /\ (forall i a b th, answers (magn_torque_loop i a b th) (0 <= a /\ 0 <= b) (fun t => t = i * a * b * sin th))
  /\ (forall m b th, answers (magn_pot_dipole m b th) (0 <= m /\ 0 <= b) (fun u => u = - (m * b * cos th)))
  /\ (forall q v b m, answers (magn_orb_radius q v b m) (q <> 0 /\ b <> 0 /\ 0 <= m /\ 0 <= m * v * (q * b))
       (fun r => 0 <= r /\ r * (q * b) = m * v))
  /\ (forall a b th, answers (magn_flux a b th) (0 <= a /\ 0 <= b) (fun f => f = a * b * cos th))
  /\ (forall i a, answers (magn_mom i a) (0 <= a) (fun m => m = i * a)).
Proof.
  both. all: answer.
  - pose proof (quot_sign (m * v) (q * b) ltac:(nz)). lra.
  - pose proof (quot_sign (m * v) (q * b) ltac:(nz)). split; [lra | field; auto].
  - pose proof (quot_sign (m * v) (q * b) ltac:(nz)). reject V.
Qed.

Theorem C86_atomic :
  (forall a, (0 <= a)%Z -> answers (atom_nucl_radius a) (a <> 0%Z)
    (fun r => 0 < r /\ r^3 = (125 / 100)^3 * IZR a))
  /\ (forall z n, (0 <= z)%Z -> (0 <= n)%Z -> answers (atom_bohr_orb_radius z n) (z <> 0%Z)
       (fun r => r / 10^9 * (IZR z * coulomb_k * charge_e^2 * electron_m) = (IZR n * planck_hbar)^2))
  /\ (forall z n, (0 <= z)%Z -> (0 < n)%Z -> answers (atom_bohr_orb_vel z n) (z <> 0%Z)
       (fun v => 1000 * v * (IZR n * planck_hbar) = IZR z * coulomb_k * charge_e^2))
  /\ (forall z n, (0 <= z)%Z -> (0 < n)%Z -> answers (atom_bohr_orb_ener z n) (z <> 0%Z)
       (fun e => e * charge_e * 2 * (IZR n * planck_hbar)^2
                 = - electron_m * (IZR z * coulomb_k * charge_e^2)^2))
  /\ (forall q t l, answers (atom_rad_decay q t l) (0 <= t /\ 0 <= l)
       (fun q' => q' = q * Rpower e11 (- (l * t))))
  /\ (forall n th l, answers (atom_bragg n th l) (0 <= l /\ 0 < sin th)
       (fun d => 2 * d * sin th = IZR n * l)).
Proof.
  both. all: answer.
  - assert (P : 0 < IZR a) by (apply IZR_lt; lia). rewrite Rpow_pos by exact P. cbn [bind].
    eexists; split; [reflexivity|]. set (c := Rpower (IZR a) (10 / 10 / (30 / 10))).
    assert (C : 0 < c) by apply exp_pos.
    assert (K : c ^ 3 = IZR a).
    { unfold c. rewrite <- Rpower_pow by apply exp_pos. rewrite Rpower_mult.
      replace (10 / 10 / (30 / 10) * INR 3) with 1 by (cbn; field). now apply Rpower_1. }
    split; [lra|]. rewrite <- K. field.
  - assert (P : 0 < IZR n) by (apply IZR_lt; lia). divs. accept.
  - assert (P : 0 < IZR n) by (apply IZR_lt; lia). divs.
    replace (20 / 10) with (IZR (Z.of_nat 2)) by (cbn; lra). rewrite Rpow_int by lia. cbn [bind]. divs. accept.
  - rewrite Rpow_pos by lra. cbn [bind]. eexists; split; [reflexivity|]. f_equal. f_equal; lra.
Qed.
