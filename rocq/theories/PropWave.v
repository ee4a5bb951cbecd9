(** Properties C35-C40, C82, C109 and C110: excitation waveforms and utilities, in real arithmetic. *)
From Coq Require Import List Arith ZArith Bool Lia Reals Lra.
From Verif Require Import Num Py Arr NumR Waveforms Utils WaveProps WaveMore.
Import ListNotations.
Local Open Scope R_scope.

(** ** C35 *)
Theorem C35_square_pulse (x A x0 : R) : 0 < x0 -> 0 <= A ->
  (0 <= x <= x0 -> @square_pulse NumR x A x0 = A) /\ (x < 0 \/ x0 < x -> @square_pulse NumR x A x0 = 0) /\
  0 <= @square_pulse NumR x A x0 <= A.
Proof. exact (square_shape x A x0). Qed.
Print Assumptions C35_square_pulse.
Theorem C35_triangle_pulse (x A x0 : R) : 0 < x0 -> 0 <= A ->
  (0 <= x <= x0 -> @triangle_pulse NumR x A x0 = A * x / x0) /\
  (x < 0 \/ x0 < x -> @triangle_pulse NumR x A x0 = 0) /\ 0 <= @triangle_pulse NumR x A x0 <= A.
Proof. exact (triangle_shape x A x0). Qed.
Print Assumptions C35_triangle_pulse.
Example C35_example : @square_pulse NumR 1 5 2 = 5 /\ @triangle_pulse NumR 1 5 2 = 5 / 2 /\ @triangle_pulse NumR 3 5 2 = 0.
Proof.
  split; [apply square_shape; lra|]. split; [|apply (triangle_shape 3 5 2); lra].
  destruct (triangle_shape 1 5 2) as [E _]; [lra|lra|]. rewrite E by lra. lra.
Qed.

(** ** C36 *)
Theorem C36_ramp_shape (x A x0 : R) : 0 < x0 ->
  (x < 0 -> @ramp_pulse NumR x A x0 = 0) /\ (0 <= x < x0 -> @ramp_pulse NumR x A x0 = A * x / x0) /\
  (x0 < x -> @ramp_pulse NumR x A x0 = A) /\ @ramp_pulse NumR x0 A x0 = 2 * A.
Proof. exact (ramp_shape x A x0). Qed.
Print Assumptions C36_ramp_shape.
Theorem C36_ramp_bounded (x A x0 : R) : 0 < x0 -> 0 <= A -> x <> x0 -> 0 <= @ramp_pulse NumR x A x0 <= A.
Proof. exact (ramp_bound x A x0). Qed.
Print Assumptions C36_ramp_bounded.
Theorem C36_ramp_monotone (x y A x0 : R) : 0 < x0 -> 0 <= A -> x <= y -> x <> x0 -> y <> x0 ->
  @ramp_pulse NumR x A x0 <= @ramp_pulse NumR y A x0.
Proof. exact (ramp_monotone x y A x0). Qed.
Print Assumptions C36_ramp_monotone.
(** at the corner the bound and the monotony fail *)
Theorem C36_corner_refuted : exists x y A x0 : R, 0 < x0 /\ 0 <= A /\ x <= y /\
  @ramp_pulse NumR y A x0 < @ramp_pulse NumR x A x0 /\ A < @ramp_pulse NumR x A x0.
Proof.
  exists 1, 2, 1, 1. destruct (ramp_shape 1 1 1) as (_ & _ & _ & E); [lra|].
  destruct (ramp_shape 2 1 1) as (_ & _ & E2 & _); [lra|]. rewrite E, E2 by lra. lra.
Qed.
Print Assumptions C36_corner_refuted.

(** ** C37: [phi] is the phase of the time [x]; rise < t2 < t3 are the ends of the rising,
    flat and falling parts *)
Theorem C37_period (A rise fall f0 D : R) : 0 < f0 -> forall x (k : Z),
  @trapezoidal_wave NumR (x + IZR k / f0) A rise fall f0 D = @trapezoidal_wave NumR x A rise fall f0 D.
Proof. exact (trap_period A rise fall f0 D). Qed.
Print Assumptions C37_period.
Theorem C37_every_time_has_a_phase (x f0 : R) : 0 < f0 -> exists phi (k : Z), x = phi + IZR k / f0 /\ 0 <= phi < / f0.
Proof. exact (phase_exists x f0). Qed.
Theorem C37_shape (A rise fall f0 D : R) : 0 < rise -> 0 < fall -> 0 < f0 ->
  let t2 := D / f0 + (rise - fall) / 2 in let t3 := D / f0 + (rise + fall) / 2 in
  rise < t2 -> forall x phi (k : Z), x = phi + IZR k / f0 -> 0 <= phi < / f0 ->
  let w := @trapezoidal_wave NumR x A rise fall f0 D in
  (phi < rise -> w = A * phi / rise) /\ (phi = rise -> w = 2 * A) /\ (rise < phi < t2 -> w = A) /\
  (phi = t2 -> w = 2 * A) /\ (t2 < phi <= t3 -> w = A * (t3 - phi) / fall) /\ (t3 < phi -> w = 0).
Proof. exact (trap_shape A rise fall f0 D). Qed.
Print Assumptions C37_shape.
Theorem C37_bounded (A rise fall f0 D : R) : 0 < rise -> 0 < fall -> 0 < f0 ->
  let t2 := D / f0 + (rise - fall) / 2 in
  rise < t2 -> forall x phi (k : Z), 0 <= A -> x = phi + IZR k / f0 -> 0 <= phi < / f0 -> phi <> rise -> phi <> t2 ->
  0 <= @trapezoidal_wave NumR x A rise fall f0 D <= A.
Proof. exact (trap_bound A rise fall f0 D). Qed.
Print Assumptions C37_bounded.
(** the symbolic variant (of t + x/v) is the same wave without the doubled corners *)
Theorem C37_symbolic_shape (A rise fall f0 D : R) : 0 < rise -> 0 < fall -> 0 < f0 ->
  let t2 := D / f0 + (rise - fall) / 2 in let t3 := D / f0 + (rise + fall) / 2 in
  rise < t2 -> forall v x t phi (k : Z), t + x / v = phi + IZR k / f0 -> 0 <= phi < / f0 ->
  let w := @trapezoidal_wave_sp NumR A rise fall f0 D v x t in
  (phi <= rise -> w = A * phi / rise) /\ (rise < phi <= t2 -> w = A) /\
  (t2 < phi <= t3 -> w = A * (t3 - phi) / fall) /\ (t3 < phi -> w = 0).
Proof. exact (fun _ => trap_sp_shape A rise fall f0 D). Qed.
Print Assumptions C37_symbolic_shape.
(** period 10, rise 1, flat 3, fall 1: the value just after seven periods and at the corner *)
Example C37_example : @trapezoidal_wave NumR (/ 2 + IZR 7 / / 10) 6 1 1 (/ 10) (4 / 10) = 3 /\
  @trapezoidal_wave NumR (1 + IZR 7 / / 10) 6 1 1 (/ 10) (4 / 10) = 12.
Proof.
  pose proof (trap_shape 6 1 1 (/ 10) (4 / 10) ltac:(lra) ltac:(lra) ltac:(lra)) as T.
  cbv zeta in T. specialize (T ltac:(lra)). split.
  - destruct (T (/ 2 + IZR 7 / / 10) (/ 2) 7%Z eq_refl) as [E _]; [lra|]. rewrite E by lra. lra.
  - destruct (T (1 + IZR 7 / / 10) 1 7%Z eq_refl) as (_ & E & _); [lra|]. rewrite E by lra. lra.
Qed.

(** ** C38 *)
Theorem C38_sin_sq_pulse (x A w : R) : 0 < w -> 0 <= A ->
  (x < 0 \/ PI / w <= x -> @sin_sq_pulse NumR x A w = 0) /\
  (0 <= x < PI / w -> @sin_sq_pulse NumR x A w = A * (sin (w * x)) ^ 2) /\ 0 <= @sin_sq_pulse NumR x A w <= A.
Proof. exact (sin_sq_shape x A w). Qed.
Print Assumptions C38_sin_sq_pulse.
Theorem C38_gaussian (x x0 s0 : R) : s0 <> 0 ->
  0 < @gaussian NumR x x0 s0 <= 1 /\ @gaussian NumR (2 * x0 - x) x0 s0 = @gaussian NumR x x0 s0 /\
  (@gaussian NumR x x0 s0 = 1 <-> x = x0).
Proof. exact (gaussian_shape x x0 s0). Qed.
Print Assumptions C38_gaussian.
Theorem C38_gaussian_2 (x A x0 s0 : R) : s0 <> 0 -> 0 < A ->
  0 < @gaussian_2 NumR x A x0 s0 <= A /\ @gaussian_2 NumR (2 * x0 - x) A x0 s0 = @gaussian_2 NumR x A x0 s0 /\
  (@gaussian_2 NumR x A x0 s0 = A <-> x = x0).
Proof. exact (gaussian2_shape x A x0 s0). Qed.
Print Assumptions C38_gaussian_2.
Theorem C38_exp (x y A x0 : R) : 0 < x0 -> 0 < A ->
  @wf_exp NumR 0 A x0 = 0 /\ @wf_exp NumR x A x0 < A /\ (x < y -> @wf_exp NumR x A x0 < @wf_exp NumR y A x0).
Proof. exact (exp_shape x y A x0). Qed.
Print Assumptions C38_exp.

(** ** C39: an integer stands for the zero function *)
Theorem C39_add_pointwise (f g : tfun NumR) t : value (add_t_functions f g) t = value f t + value g t.
Proof. exact (add_pointwise f g t). Qed.
Print Assumptions C39_add_pointwise.
Theorem C39_add_commutes (f g : tfun NumR) t : value (add_t_functions f g) t = value (add_t_functions g f) t.
Proof. exact (add_commutes f g t). Qed.
Theorem C39_add_associates (f g h : tfun NumR) t :
  value (add_t_functions (add_t_functions f g) h) t = value (add_t_functions f (add_t_functions g h)) t.
Proof. exact (add_associates f g h t). Qed.
(** two integers are not added: the result is the integer 0 whatever they are *)
Theorem C39_two_integers (N : num) a b : @add_t_functions N (TInt a) (TInt b) = TInt 0.
Proof. reflexivity. Qed.
Theorem C39_multiply (N : num) (f : N -> N) k t : multiply f k t = nmul k (f t).
Proof. reflexivity. Qed.
Print Assumptions C39_multiply.
Example C39_example : value (@add_t_functions NumR (@TFun NumR (fun t : R => t))
    (@add_t_functions NumR (@TInt NumR 7) (@TFun NumR (fun t : R => t * t)))) 3 = 12.
Proof. rewrite !add_pointwise. cbn. lra. Qed.

(** ** C40 *)
Theorem C40_segment_accepted (a b : list R) s : 0 <= s <= 1 -> @point_in_line NumR (along a b s) a b = true.
Proof. exact (on_segment a b s). Qed.
Print Assumptions C40_segment_accepted.
Theorem C40_accepted_points (p a b : list R) : @point_in_line NumR p a b = true ->
  @vnorm NumR (@vcross NumR (@vsub NumR a b) (@vsub NumR a p)) < / 1000000 /\
  @vnorm NumR (@vsub NumR a p) <= @vnorm NumR (@vsub NumR a b) /\
  @vnorm NumR (@vsub NumR b p) <= @vnorm NumR (@vsub NumR a b).
Proof. exact (accepted_inv p a b). Qed.
Print Assumptions C40_accepted_points.
(** segments of at most a millimetre: the point half a segment off the axis is accepted *)
Theorem C40_short_segments_refuted (d : R) : 0 < d <= / 1000 ->
  @point_in_line NumR [d / 2; 0; d / 2] [0; 0; 0] [0; 0; d] = true.
Proof. exact (short_segment d). Qed.
Print Assumptions C40_short_segments_refuted.

(** ** C82 *)
Theorem C82_shape (A x0 t : R) : 0 < x0 ->
  (t <= x0 -> @ramp_pulse_sp NumR A x0 t = A * t / x0) /\ (x0 < t -> @ramp_pulse_sp NumR A x0 t = A).
Proof. exact (ramp_sp_shape A x0 t). Qed.
Print Assumptions C82_shape.
Theorem C82_negative_before_start (A x0 t : R) : 0 < x0 -> 0 < A -> t < 0 ->
  @ramp_pulse_sp NumR A x0 t < 0 /\ @ramp_pulse NumR t A x0 = 0.
Proof. exact (ramp_sp_negative A x0 t). Qed.
Print Assumptions C82_negative_before_start.

(** ** C109 *)
Theorem C109_sin_shape (x A w : R) :
  @sin_pulse NumR 0 A w = 0 /\ Rabs (@sin_pulse NumR x A w) <= Rabs A /\ @sin_pulse NumR (- x) A w = - @sin_pulse NumR x A w.
Proof. exact (sin_shape x A w). Qed.
Print Assumptions C109_sin_shape.
Theorem C109_sin_extremes (A w : R) : 0 < w -> @sin_pulse NumR (PI / (2 * w)) A w = A /\ @sin_pulse NumR (3 * PI / (2 * w)) A w = - A.
Proof. exact (sin_quarter A w). Qed.
Print Assumptions C109_sin_extremes.
Theorem C109_sin_period (x A w : R) : 0 < w -> @sin_pulse NumR (x + 2 * PI / w) A w = @sin_pulse NumR x A w.
Proof. exact (sin_period x A w). Qed.
Print Assumptions C109_sin_period.
(** the document calls w "frequency"; the wave does not repeat every 1/w *)
Theorem C109_frequency_in_hertz_refuted : exists x A w : R, 0 < w /\ @sin_pulse NumR (x + 1 / w) A w <> @sin_pulse NumR x A w.
Proof. exact sin_not_hertz. Qed.
Print Assumptions C109_frequency_in_hertz_refuted.
Theorem C109_double_exp_sign (t C a b : R) : a < b -> 0 < C ->
  @double_exp NumR 0 C a b = 0 /\ (0 < t -> 0 < @double_exp NumR t C a b) /\ (t < 0 -> @double_exp NumR t C a b < 0).
Proof. exact (double_exp_sign t C a b). Qed.
Print Assumptions C109_double_exp_sign.
Theorem C109_double_exp_below (t C a b : R) : 0 <= a -> 0 < C -> 0 <= t -> @double_exp NumR t C a b < C.
Proof. exact (double_exp_below t C a b). Qed.
Print Assumptions C109_double_exp_below.
(** one maximum over all times, after the start *)
Theorem C109_double_exp_peak (t C a b : R) : 0 < a < b -> 0 < C -> let tm := ln (b / a) / (b - a) in
  0 < tm /\ (t <> tm -> @double_exp NumR t C a b < @double_exp NumR tm C a b).
Proof. intros H HC. exact (conj (peak_pos a b H) (peak_max t C a b H HC)). Qed.
Print Assumptions C109_double_exp_peak.
Example C109_example : 0 < @double_exp NumR 1 2 1 3 < 2 /\ @sin_pulse NumR (PI / (2 * 1)) 5 1 = 5.
Proof.
  split; [|apply C109_sin_extremes; lra]. split; [apply C109_double_exp_sign; lra|apply C109_double_exp_below; lra].
Qed.

(** ** C110 *)
(** a double exponential along two axes is that of the time shifted by the distance over the speed *)
Theorem C110_double_exp_travels (C a b p q t v : R) : @double_exp_2sp NumR C a b p q t v = @double_exp NumR (t + (p + q) / v) C a b.
Proof. exact (double_exp_travels C a b p q t v). Qed.
Print Assumptions C110_double_exp_travels.
Theorem C110_trapezoid_travels (A rise fall f0 D v x d t : R) : v <> 0 ->
  @trapezoidal_wave_sp NumR A rise fall f0 D v (x - d) (t + d / v) = @trapezoidal_wave_sp NumR A rise fall f0 D v x t.
Proof. exact (trapezoid_travels A rise fall f0 D v x d t). Qed.
Print Assumptions C110_trapezoid_travels.
Theorem C110_ramp_shape (A x0 p t v : R) : 0 < x0 ->
  (t + p / v <= x0 -> @ramp_pulse_coord_sp NumR A x0 p t v = A * t / x0) /\ (x0 < t + p / v -> @ramp_pulse_coord_sp NumR A x0 p t v = A).
Proof. exact (ramp_coord_shape A x0 p t v). Qed.
Print Assumptions C110_ramp_shape.
(** the ramp does not travel: before the front, moving with the wave changes the value *)
Theorem C110_ramp_travels_refuted (A x0 p d t v : R) : 0 < x0 -> v <> 0 -> A <> 0 -> d <> 0 -> t + p / v <= x0 ->
  @ramp_pulse_coord_sp NumR A x0 (p - d) (t + d / v) v <> @ramp_pulse_coord_sp NumR A x0 p t v.
Proof. intros H V HA Hd L E. destruct (ramp_coord_not_travelling A x0 p d t v H V HA Hd L) as [X Y]. apply Y. rewrite <- X, E. apply Rminus_diag_eq. reflexivity. Qed.
Print Assumptions C110_ramp_travels_refuted.
(** and exceeds its amplitude just before the front, at every point the wave reaches late *)
Theorem C110_ramp_bounded_refuted (A x0 p v : R) : 0 < x0 -> 0 < v -> 0 < A -> p < 0 -> A < @ramp_pulse_coord_sp NumR A x0 p (x0 - p / v) v.
Proof. exact (ramp_coord_overshoots A x0 p v). Qed.
Print Assumptions C110_ramp_bounded_refuted.
Example C110_example : 1 < @ramp_pulse_coord_sp NumR 1 1 (- 2) (1 - - 2 / 1) 1.
Proof. apply C110_ramp_bounded_refuted; lra. Qed.
