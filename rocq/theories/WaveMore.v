(** Proofs of C109 and C110: sine and double exponential waveforms, waveforms travelling along axes. *)
From Coq Require Import List Arith ZArith Bool Lia Reals Lra.
From Verif Require Import Num Py Arr NumR RFacts Waveforms Utils WaveProps.
Import ListNotations.
Local Open Scope R_scope.

Lemma sin_shape (x A w : R) : @sin_pulse NumR 0 A w = 0 /\ Rabs (@sin_pulse NumR x A w) <= Rabs A /\ @sin_pulse NumR (- x) A w = - @sin_pulse NumR x A w.
Proof.
  unfold sin_pulse. rsimpl. rewrite Rmult_0_r, sin_0. split; [ring|]. split.
  - rewrite Rabs_mult. pose proof (SIN_bound (w * x)) as B. pose proof (Rabs_pos A). assert (Rabs (sin (w * x)) <= 1) by (apply Rabs_le; lra). rewrite <- (Rmult_1_r (Rabs A)) at 2. apply Rmult_le_compat_l; lra.
  - replace (w * - x) with (- (w * x)) by ring. rewrite sin_neg. ring.
Qed.
Lemma sin_quarter (A w : R) : 0 < w -> @sin_pulse NumR (PI / (2 * w)) A w = A /\ @sin_pulse NumR (3 * PI / (2 * w)) A w = - A.
Proof.
  intros W. unfold sin_pulse. rsimpl. replace (w * (PI / (2 * w))) with (PI / 2) by (field; lra). replace (w * (3 * PI / (2 * w))) with (3 * (PI / 2)) by (field; lra).
  rewrite sin_PI2, sin_3PI2. split; ring.
Qed.
Lemma sin_period (x A w : R) : 0 < w -> @sin_pulse NumR (x + 2 * PI / w) A w = @sin_pulse NumR x A w.
Proof. intros W. unfold sin_pulse. rsimpl. replace (w * (x + 2 * PI / w)) with (w * x + 2 * PI) by (field; lra). rewrite sin_plus, sin_2PI, cos_2PI. ring. Qed.
(** repeating every 1/w is false *)
Lemma sin_not_hertz : exists x A w : R, 0 < w /\ @sin_pulse NumR (x + 1 / w) A w <> @sin_pulse NumR x A w.
Proof.
  exists 0, 1, 1. split; [lra|]. unfold sin_pulse. rsimpl. replace (1 * (0 + 1 / 1)) with 1 by field. replace (1 * 0) with 0 by ring. rewrite sin_0. pose proof PI2_1. pose proof (sin_gt_0 1 ltac:(lra) ltac:(lra)). lra.
Qed.

(** double exponentials *)
Lemma double_exp_sign (t C a b : R) : a < b -> 0 < C -> @double_exp NumR 0 C a b = 0 /\ (0 < t -> 0 < @double_exp NumR t C a b) /\ (t < 0 -> @double_exp NumR t C a b < 0).
Proof.
  intros H HC. unfold double_exp. rsimpl. rewrite !Rmult_0_r. split; [ring|]. split; intros Ht.
  - assert (X : exp (- b * t) < exp (- a * t)) by (apply exp_increasing; nra). apply Rmult_lt_0_compat; lra.
  - assert (X : exp (- a * t) < exp (- b * t)) by (apply exp_increasing; nra). assert (0 < C * (exp (- b * t) - exp (- a * t))) by (apply Rmult_lt_0_compat; lra). lra.
Qed.
Lemma double_exp_below (t C a b : R) : 0 <= a -> 0 < C -> 0 <= t -> @double_exp NumR t C a b < C.
Proof.
  intros Ha HC Ht. unfold double_exp. rsimpl. pose proof (exp_pos (- b * t)). assert (exp (- a * t) <= 1). { rewrite <- exp_0. destruct (Req_dec (- a * t) 0) as [->|Hn]; [lra|]. apply Rlt_le, exp_increasing. nra. }
  rewrite <- (Rmult_1_r C) at 2. apply Rmult_lt_compat_l; lra.
Qed.
Definition peak (a b : R) := ln (b / a) / (b - a).
Lemma peak_pos a b : 0 < a < b -> 0 < peak a b.
Proof. intros H. unfold peak. apply Rdiv_lt_0_compat; [|lra]. rewrite <- ln_1. apply ln_increasing; [lra|]. apply (Rmult_lt_reg_r a); [lra|]. replace (b / a * a) with b by (field; lra). lra. Qed.
Lemma peak_max (t C a b : R) : 0 < a < b -> 0 < C -> t <> peak a b -> @double_exp NumR t C a b < @double_exp NumR (peak a b) C a b.
Proof.
  intros H HC Ht. unfold double_exp. rsimpl. set (s := t - peak a b). assert (Hs : s <> 0) by (unfold s; lra). replace t with (peak a b + s) by (unfold s; ring). clearbody s. clear Ht t.
  rewrite !Rmult_plus_distr_l, !exp_plus. set (A := exp (- a * peak a b)). set (B := exp (- b * peak a b)).
  assert (E : a * A = b * B).
  { unfold A, B. replace (- a * peak a b) with (- b * peak a b + ln (b / a)) by (unfold peak; field; lra). rewrite exp_plus, exp_ln; [field; lra|]. apply Rdiv_lt_0_compat; lra. }
  assert (PA : 0 < A) by apply exp_pos.
  assert (EB : B = a * A / b) by (rewrite E; field; lra). rewrite EB. clearbody A. clear EB E B.
  set (X := exp (- a * s)). assert (PX : 0 < X) by apply exp_pos.
  assert (E1 : 1 = X * exp (a * s)) by (unfold X; rewrite <- exp_plus; replace (- a * s + a * s) with 0 by ring; now rewrite exp_0).
  assert (E2 : exp (- b * s) = X * exp (- (b - a) * s)) by (unfold X; rewrite <- exp_plus; f_equal; ring).
  assert (I1 : 1 + a * s < exp (a * s)) by (apply exp_ineq1; nra).
  assert (I2 : 1 + - (b - a) * s < exp (- (b - a) * s)) by (apply exp_ineq1; nra).
  assert (J1 : (b - a) * (X * (1 + a * s)) < (b - a) * 1). { rewrite E1 at 2. apply Rmult_lt_compat_l; [lra|]. now apply Rmult_lt_compat_l. }
  assert (J2 : a * (X * (1 + - (b - a) * s)) < a * exp (- b * s)). { rewrite E2. apply Rmult_lt_compat_l; [lra|]. now apply Rmult_lt_compat_l. }
  assert (J : b * X < (b - a) + a * exp (- b * s)) by nra.
  apply Rmult_lt_compat_l; [lra|]. apply (Rmult_lt_reg_r (b / A)); [apply Rdiv_lt_0_compat; lra|].
  replace ((A * X - a * A / b * exp (- b * s)) * (b / A)) with (b * X - a * exp (- b * s)) by (field; lra). replace ((A - a * A / b) * (b / A)) with (b - a) by (field; lra). lra.
Qed.
(** travelling *)
Lemma double_exp_travels (C a b p q t v : R) : @double_exp_2sp NumR C a b p q t v = @double_exp NumR (t + (p + q) / v) C a b.
Proof. unfold double_exp_2sp, double_exp. rsimpl. now replace (t + p / v + q / v) with (t + (p + q) / v) by (unfold Rdiv; ring). Qed.
Lemma trapezoid_travels (A rise fall f0 D v x d t : R) : v <> 0 -> @trapezoidal_wave_sp NumR A rise fall f0 D v (x - d) (t + d / v) = @trapezoidal_wave_sp NumR A rise fall f0 D v x t.
Proof. intros V. unfold trapezoidal_wave_sp. rsimpl. replace (t + d / v + (x - d) / v) with (t + x / v) by (field; lra). reflexivity. Qed.
(** the ramp that should travel does not: the front does, the slope does not *)
Lemma ramp_coord_shape (A x0 p t v : R) : 0 < x0 -> (t + p / v <= x0 -> @ramp_pulse_coord_sp NumR A x0 p t v = A * t / x0) /\ (x0 < t + p / v -> @ramp_pulse_coord_sp NumR A x0 p t v = A).
Proof. intros H. unfold ramp_pulse_coord_sp. rsimpl. split; intros; destruct (Rleb_spec (t + p / v) x0); lra || (unfold Rdiv; ring). Qed.
Lemma ramp_coord_not_travelling (A x0 p d t v : R) : 0 < x0 -> v <> 0 -> A <> 0 -> d <> 0 -> t + p / v <= x0 ->
  @ramp_pulse_coord_sp NumR A x0 (p - d) (t + d / v) v - @ramp_pulse_coord_sp NumR A x0 p t v = A * d / (v * x0) /\ A * d / (v * x0) <> 0.
Proof.
  intros H V HA Hd L. destruct (ramp_coord_shape A x0 p t v H) as [E _]. destruct (ramp_coord_shape A x0 (p - d) (t + d / v) v H) as [E' _]. rewrite E, E'; [|replace (t + d / v + (p - d) / v) with (t + p / v) by (field; lra); lra|lra].
  split; [field; lra|]. unfold Rdiv. apply Rmult_integral_contrapositive_currified; [now apply Rmult_integral_contrapositive_currified|]. apply Rinv_neq_0_compat. nra.
Qed.
(** the jump at the front: at a point downstream (p < 0) the value is above A just before the front *)
Lemma ramp_coord_overshoots (A x0 p v : R) : 0 < x0 -> 0 < v -> 0 < A -> p < 0 -> A < @ramp_pulse_coord_sp NumR A x0 p (x0 - p / v) v.
Proof.
  intros H V HA P. destruct (ramp_coord_shape A x0 p (x0 - p / v) v H) as [E _]. rewrite E by lra. clear E. assert (p / v < 0) by (apply (Rmult_lt_reg_r v); [lra|]; replace (p / v * v) with p by (field; lra); lra).
  apply (Rmult_lt_reg_r x0); [lra|]. replace (A * (x0 - p / v) / x0 * x0) with (A * (x0 - p / v)) by (field; lra). nra.
Qed.
