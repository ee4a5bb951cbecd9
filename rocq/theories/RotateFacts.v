(** Facts about plane waves and their rotation. *)
From Coq Require Import String List Arith Bool Reals Lra Lia.
From Verif Require Import Num Py Arr NumR RFacts Fields Rotate.
Import ListNotations.
Local Open Scope R_scope.

Definition dot3 (a b : list R) : R := nth 0 a 0 * nth 0 b 0 + nth 1 a 0 * nth 1 b 0 + nth 2 a 0 * nth 2 b 0.
Definition len3 (a : list R) : R := sqrt (dot3 a a).

Lemma cs2 x : cos x * cos x + sin x * sin x = 1. Proof. pose proof (sin2_cos2 x) as H. unfold Rsqr in H. lra. Qed.
Lemma wave_unit (p z d : R) : let e := @compute_directions NumR p z d in dot3 e e = 1.
Proof.
  unfold compute_directions, dot3. cbn [nth]. rsimpl. pose proof (cs2 p). pose proof (cs2 z). pose proof (cs2 d).
  replace (sin d * sin p * (sin d * sin p) + (- sin d * cos p * cos z - cos d * sin z) * (- sin d * cos p * cos z - cos d * sin z) + (- sin d * cos p * sin z + cos d * cos z) * (- sin d * cos p * sin z + cos d * cos z))
    with (sin d * sin d * (sin p * sin p + cos p * cos p * (cos z * cos z + sin z * sin z)) + cos d * cos d * (cos z * cos z + sin z * sin z)) by ring.
  rewrite H0. replace (sin p * sin p + cos p * cos p * 1) with 1 by lra. lra.
Qed.
Lemma wave_heading (w : planewave NumR) : dot3 (heading w) (heading w) = 1.
Proof. unfold heading, dot3. cbn [nth]. pose proof (cs2 (pw_polar w)). pose proof (cs2 (pw_azimuth w)). 
  replace (cos (pw_polar w) * cos (pw_polar w) + sin (pw_polar w) * cos (pw_azimuth w) * (sin (pw_polar w) * cos (pw_azimuth w)) + sin (pw_azimuth w) * sin (pw_polar w) * (sin (pw_azimuth w) * sin (pw_polar w)))
    with (cos (pw_polar w) * cos (pw_polar w) + sin (pw_polar w) * sin (pw_polar w) * (cos (pw_azimuth w) * cos (pw_azimuth w) + sin (pw_azimuth w) * sin (pw_azimuth w))) by ring.
  rewrite H0. lra.
Qed.
Lemma wave_orthogonal (w : planewave NumR) : dot3 (pw_e w) (heading w) = 0.
Proof.
  unfold pw_e, compute_directions, heading, dot3. cbn [nth]. rsimpl. set (p := pw_polar w). set (z := pw_azimuth w). set (d := pw_polarization w). pose proof (cs2 z).
  replace (sin d * sin p * cos p + (- sin d * cos p * cos z - cos d * sin z) * (sin p * cos z) + (- sin d * cos p * sin z + cos d * cos z) * (sin z * sin p))
    with (sin d * sin p * cos p * (1 - (cos z * cos z + sin z * sin z))) by ring. rewrite H. ring.
Qed.
Lemma wave_slowness (w : planewave NumR) v j : v <> 0 -> (j < 3)%nat -> nth j (heading w) 0 <> 0 -> / nth j (@compute_velocities NumR w v) 0 = - nth j (heading w) 0 / v.
Proof.
  intros Hv Hj. unfold compute_velocities, heading. destruct j as [|[|[|j]]]; [| | |lia]; cbn [nth]; rsimpl; intros Hn.
  - field. split; lra.
  - field. repeat split; try lra; intros E; apply Hn; rewrite E; ring.
  - field. repeat split; try lra; intros E; apply Hn; rewrite E; ring.
Qed.
(** the field of the wave: the waveform delayed by the projection of the point on minus the direction *)
Lemma wave_field (w : planewave NumR) v x y z s t : v <> 0 -> (forall j, (j < 3)%nat -> nth j (heading w) 0 <> 0) ->
  let arg := t + dot3 (heading w) [x; y; z] / v in
  e_x (planewave_field w v) x y z s t = pw_field w arg * nth 0 (pw_e w) 0 /\
  e_y (planewave_field w v) x y z s t = pw_field w arg * nth 1 (pw_e w) 0 /\
  e_z (planewave_field w v) x y z s t = pw_field w arg * nth 2 (pw_e w) 0.
Proof.
  intros Hv Hn arg. assert (E : @nsub NumR (@nsub NumR (@nsub NumR t (@ndiv NumR x (get (compute_velocities w v) 0))) (@ndiv NumR y (get (compute_velocities w v) 1))) (@ndiv NumR z (get (compute_velocities w v) 2)) = arg).
  { unfold get. pose proof (wave_slowness w v 0 Hv ltac:(lia) (Hn 0%nat ltac:(lia))) as E0. pose proof (wave_slowness w v 1 Hv ltac:(lia) (Hn 1%nat ltac:(lia))) as E1.
    pose proof (wave_slowness w v 2 Hv ltac:(lia) (Hn 2%nat ltac:(lia))) as E2. rsimpl. unfold Rdiv. change (@n0 NumR) with 0.
    change (@nth R) with (@nth (car NumR)) in *. rewrite E0, E1, E2. unfold arg, dot3. cbn [nth]. rsimpl. field. exact Hv. }
  unfold planewave_field. cbn [e_x e_y e_z]. rewrite E. repeat split; reflexivity.
Qed.

(** *** rotation *)
Lemma rx_dot th f g : dot3 (rx th f) (rx th g) = dot3 f g.
Proof. unfold rx, dot3. cbn [nth]. pose proof (cs2 th) as H. set (c := cos th) in *. set (s := sin th) in *.
  transitivity (nth 0 f 0 * nth 0 g 0 + (c * c + s * s) * (nth 1 f 0 * nth 1 g 0 + nth 2 f 0 * nth 2 g 0)); [ring|rewrite H; ring]. Qed.
Lemma ry_dot th f g : dot3 (ry th f) (ry th g) = dot3 f g.
Proof. unfold ry, dot3. cbn [nth]. pose proof (cs2 th) as H. set (c := cos th) in *. set (s := sin th) in *.
  transitivity (nth 1 f 0 * nth 1 g 0 + (c * c + s * s) * (nth 0 f 0 * nth 0 g 0 + nth 2 f 0 * nth 2 g 0)); [ring|rewrite H; ring]. Qed.
Lemma rotation_dot u f g f' g' : rotation u f = Some f' -> rotation u g = Some g' -> dot3 f' g' = dot3 f g.
Proof.
  unfold rotation. destruct (thetax u) as [a|]; [|discriminate]. destruct (thetay u) as [b|]; [|discriminate]. intros H1 H2. injection H1 as <-. injection H2 as <-. now rewrite ry_dot, rx_dot.
Qed.
(** sine and cosine of the angle of atan_ratio *)
Lemma ratio_pos a b : 0 <= b -> (a <> 0 \/ b <> 0) -> exists th, atan_ratio a b = Some th /\ cos th = b / sqrt (a * a + b * b) /\ sin th = a / sqrt (a * a + b * b).
Proof.
  intros Hb Hn. unfold atan_ratio. destruct (Reqb b 0) eqn:E.
  - apply Reqb_true in E. subst b. assert (Ha : a <> 0) by (destruct Hn as [H|H]; [exact H|congruence]). replace (a * a + 0 * 0) with (a * a) by ring.
    destruct (Rltb 0 a) eqn:L; [|destruct (Rltb a 0) eqn:L'].
    + apply Rltb_true in L. exists (PI / 2). split; [reflexivity|]. rewrite cos_PI2, sin_PI2, sqrt_square by lra. split; field; lra.
    + apply Rltb_true in L'. exists (- (PI / 2)). split; [reflexivity|]. rewrite cos_neg, sin_neg, cos_PI2, sin_PI2. replace (a * a) with ((- a) * (- a)) by ring. rewrite sqrt_square by lra. split; field; lra.
    + apply Rltb_false in L, L'. exfalso. lra.
  - apply Reqb_false in E. exists (atan (a / b)). split; [reflexivity|]. assert (Pb : 0 < b) by lra.
    assert (S : sqrt (a * a + b * b) = b * sqrt (1 + (a / b)²)).
    { transitivity (sqrt (b * b) * sqrt (1 + (a / b)²)); [|now rewrite sqrt_square by lra]. rewrite <- sqrt_mult; [|nra|]. { f_equal. unfold Rsqr. field. lra. } unfold Rsqr. assert (0 <= a / b * (a / b)) by nra. lra. }
    assert (P1 : 0 < sqrt (1 + (a / b)²)) by (apply sqrt_lt_R0; unfold Rsqr; assert (0 <= a / b * (a / b)) by nra; lra).
    rewrite S, cos_atan, sin_atan. split; field; lra.
Qed.
Lemma ratio_neg a b : b < 0 -> exists th, atan_ratio a b = Some th /\ cos th = - b / sqrt (a * a + b * b) /\ sin th = - a / sqrt (a * a + b * b).
Proof.
  intros Hb. destruct (ratio_pos (- a) (- b)) as (th & E & C & S); [lra|right; lra|]. exists th. replace (- a * - a + - b * - b) with (a * a + b * b) in * by ring.
  split; [|auto]. unfold atan_ratio in *. rewrite (proj2 (Reqb_false b 0)) by lra. rewrite (proj2 (Reqb_false (- b) 0)) in E by lra. rewrite <- E. f_equal. f_equal. field. lra.
Qed.
Lemma list3 (u : list R) : length u = 3%nat -> u = [nth 0 u 0; nth 1 u 0; nth 2 u 0].
Proof. destruct u as [|a [|b [|c [|]]]]; cbn; intros H; try discriminate H. reflexivity. Qed.
(** a segment that goes up is aligned with z *)
Lemma rotation_up u : 0 <= nth 2 u 0 -> (nth 1 u 0 <> 0 \/ nth 2 u 0 <> 0) -> rotation u u = Some [0; 0; len3 u].
Proof.
  intros Hz Hn. unfold rotation, thetax, thetay. destruct (ratio_pos _ _ Hz Hn) as (a & Ea & Ca & Sa). rewrite Ea. set (ux := nth 0 u 0) in *. set (uy := nth 1 u 0) in *. set (uz := nth 2 u 0) in *.
  assert (Pr : 0 < uy * uy + uz * uz) by (destruct Hn; nra). set (r := sqrt (uy * uy + uz * uz)) in *. assert (Hr : 0 < r) by (apply sqrt_lt_R0; exact Pr). assert (Rr : r * r = uy * uy + uz * uz) by (apply sqrt_sqrt; lra).
  destruct (ratio_pos (- ux) r) as (b & Eb & Cb & Sb); [lra|right; lra|]. rewrite Eb. assert (L : sqrt (- ux * - ux + r * r) = len3 u) by (unfold len3, dot3; fold ux uy uz; f_equal; rewrite Rr; ring). rewrite L in *.
  assert (Hl : len3 u * len3 u = ux * ux + r * r) by (unfold len3, dot3; fold ux uy uz; rewrite sqrt_sqrt by nra; rewrite Rr; ring). assert (Pl : 0 < len3 u) by (unfold len3, dot3; fold ux uy uz; apply sqrt_lt_R0; nra).
  assert (W : uy / r * uy + uz / r * uz = r) by (apply (Rmult_eq_reg_r r); [|lra]; rewrite Rr; field; lra).
  assert (E1 : r / len3 u * ux + - ux / len3 u * (uy / r * uy + uz / r * uz) = 0) by (rewrite W; field; lra).
  assert (E2 : uz / r * uy - uy / r * uz = 0) by (field; lra).
  assert (E3 : - (- ux / len3 u) * ux + r / len3 u * (uy / r * uy + uz / r * uz) = len3 u) by (rewrite W; apply (Rmult_eq_reg_r (len3 u)); [|lra]; rewrite Hl; field; lra).
  unfold ry, rx. cbn [nth]. fold ux uy uz. rewrite Ca, Sa, Cb, Sb, E1, E2, E3. reflexivity.
Qed.
(** one that goes down is not *)
Lemma rotation_down u : nth 2 u 0 < 0 -> exists f, rotation u u = Some f /\ f = [2 * nth 0 u 0 * sqrt (nth 1 u 0 * nth 1 u 0 + nth 2 u 0 * nth 2 u 0) / len3 u; 0; (nth 0 u 0 * nth 0 u 0 - (nth 1 u 0 * nth 1 u 0 + nth 2 u 0 * nth 2 u 0)) / len3 u].
Proof.
  intros Hz. unfold rotation, thetax, thetay. destruct (ratio_neg (nth 1 u 0) _ Hz) as (a & Ea & Ca & Sa). rewrite Ea. set (ux := nth 0 u 0) in *. set (uy := nth 1 u 0) in *. set (uz := nth 2 u 0) in *.
  assert (Pr : 0 < uy * uy + uz * uz) by nra. set (r := sqrt (uy * uy + uz * uz)) in *. assert (Hr : 0 < r) by (apply sqrt_lt_R0; exact Pr). assert (Rr : r * r = uy * uy + uz * uz) by (apply sqrt_sqrt; lra).
  destruct (ratio_pos (- ux) r) as (b & Eb & Cb & Sb); [lra|right; lra|]. rewrite Eb. assert (L : sqrt (- ux * - ux + r * r) = len3 u) by (unfold len3, dot3; fold ux uy uz; f_equal; rewrite Rr; ring). rewrite L in *.
  assert (Pl : 0 < len3 u) by (unfold len3, dot3; fold ux uy uz; apply sqrt_lt_R0; nra).
  eexists. split; [reflexivity|]. unfold ry, rx. cbn [nth]. fold ux uy uz. rewrite Ca, Sa, Cb, Sb.
  assert (W : - uy / r * uy + - uz / r * uz = - r) by (apply (Rmult_eq_reg_r r); [|lra]; replace (- r * r) with (- (uy * uy + uz * uz)) by lra; field; lra). 
  assert (E1 : r / len3 u * ux + - ux / len3 u * (- uy / r * uy + - uz / r * uz) = 2 * ux * r / len3 u) by (rewrite W; field; lra).
  assert (E2 : - uz / r * uy - - uy / r * uz = 0) by (field; lra).
  assert (E3 : - (- ux / len3 u) * ux + r / len3 u * (- uy / r * uy + - uz / r * uz) = (ux * ux - (uy * uy + uz * uz)) / len3 u) by (rewrite W, <- Rr; field; lra).
  rewrite E1, E2, E3. reflexivity.
Qed.
(** the angles of the rotated wave stand for the rotated direction, unless that one has no z component and a negative y component *)
Lemma heading_angles a b c : a * a + b * b + c * c = 1 -> (c <> 0 \/ 0 <= b) ->
  let polar := acos (a / sqrt (a * a + b * b + c * c)) in let az := if Reqb b 0 && Reqb c 0 then 0 else nsign c * acos (b / sqrt (b * b + c * c)) in
  cos polar = a /\ sin polar * cos az = b /\ sin az * sin polar = c.
Proof.
  intros H1 Hn. cbv zeta. rewrite H1, sqrt_1. replace (a / 1) with a by field. assert (Ba : -1 <= a <= 1) by nra. rewrite cos_acos, sin_acos by exact Ba.
  replace (1 - a²) with (b * b + c * c) by (unfold Rsqr; lra). split; [reflexivity|]. destruct (Reqb b 0) eqn:Eb; [apply Reqb_true in Eb; destruct (Reqb c 0) eqn:Ec; [apply Reqb_true in Ec|apply Reqb_false in Ec]|apply Reqb_false in Eb]; cbn [andb].
  - subst. replace (0 * 0 + 0 * 0) with 0 by ring. rewrite sqrt_0. lra.
  - assert (P : 0 < b * b + c * c) by nra. set (r := sqrt (b * b + c * c)). assert (Hr : 0 < r) by (apply sqrt_lt_R0; exact P). assert (Rr : r * r = b * b + c * c) by (apply sqrt_sqrt; lra).
    subst b. replace (0 / r) with 0 by (field; lra). assert (A0 : acos 0 = PI / 2) by apply acos_0. rewrite A0. unfold nsign. destruct (Rltb 0 c) eqn:L; [apply Rltb_true in L|apply Rltb_false in L].
    + rewrite Rmult_1_l, cos_PI2, sin_PI2. replace r with c by (symmetry; unfold r; replace (0 * 0 + c * c) with (c * c) by ring; apply sqrt_square; lra). lra.
    + rewrite (proj2 (Rltb_true c 0)) by lra. replace (-1 * (PI / 2)) with (- (PI / 2)) by ring. rewrite cos_neg, sin_neg, cos_PI2, sin_PI2.
      replace r with (- c) by (symmetry; unfold r; replace (0 * 0 + c * c) with (- c * - c) by ring; apply sqrt_square; lra). lra.
  - assert (P : 0 < b * b + c * c) by nra. set (r := sqrt (b * b + c * c)). assert (Hr : 0 < r) by (apply sqrt_lt_R0; exact P). assert (Rr : r * r = b * b + c * c) by (apply sqrt_sqrt; lra).
    assert (Bb : -1 <= b / r <= 1). { assert (- r <= b <= r) by nra. split; apply (Rmult_le_reg_r r); try lra; replace (b / r * r) with b by (field; lra); lra. }
    assert (S : sqrt (1 - (b / r)²) = Rabs c / r).
    { rewrite <- (sqrt_square (Rabs c / r)); [|apply Rmult_le_pos; [apply Rabs_pos|left; now apply Rinv_0_lt_compat]]. f_equal. unfold Rsqr. replace (Rabs c / r * (Rabs c / r)) with ((Rabs c * Rabs c) / (r * r)) by (field; lra).
      rewrite <- Rabs_mult, (Rabs_right (c * c)) by nra. replace (1 - b / r * (b / r)) with ((r * r - b * b) / (r * r)) by (field; lra). replace (r * r - b * b) with (c * c) by lra. reflexivity. }
    unfold nsign. destruct (Rltb 0 c) eqn:L; [apply Rltb_true in L|apply Rltb_false in L; destruct (Rltb c 0) eqn:L'; [apply Rltb_true in L'|apply Rltb_false in L']].
    + rewrite Rmult_1_l, cos_acos, sin_acos, S by exact Bb. rewrite Rabs_right by lra. split; field; lra.
    + replace (-1 * acos (b / r)) with (- acos (b / r)) by ring. rewrite cos_neg, sin_neg, cos_acos, sin_acos, S by exact Bb. rewrite Rabs_left by lra. split; field; lra.
    + assert (c = 0) by lra. subst c. destruct Hn as [Hn|Hn]; [lra|]. rewrite Rmult_0_l, cos_0, sin_0. replace r with b by (symmetry; unfold r; replace (b * b + 0 * 0) with (b * b) by ring; apply sqrt_square; lra). lra.
Qed.
Lemma heading_wrong a b : a * a + b * b + 0 * 0 = 1 -> b < 0 ->
  let polar := acos (a / sqrt (a * a + b * b + 0 * 0)) in let az := if Reqb b 0 && Reqb 0 0 then 0 else nsign 0 * acos (b / sqrt (b * b + 0 * 0)) in
  cos polar = a /\ sin polar * cos az = - b /\ sin az * sin polar = 0.
Proof.
  intros H1 Hb. cbv zeta. rewrite H1, sqrt_1. replace (a / 1) with a by field. assert (Ba : -1 <= a <= 1) by nra. rewrite cos_acos, sin_acos by exact Ba. replace (1 - a²) with (b * b) by (unfold Rsqr; lra).
  rewrite (proj2 (Reqb_false b 0)) by lra. cbn [andb]. unfold nsign. rewrite (proj2 (Rltb_false 0 0)) by lra. rewrite Rmult_0_l, cos_0, sin_0. replace (b * b) with (- b * - b) by ring. rewrite sqrt_square by lra. lra.
Qed.
Lemma wave_slow (w : planewave NumR) v : 0 < v -> (forall j, (j < 3)%nat -> nth j (heading w) 0 <> 0) ->
  let s := map Rinv (@compute_velocities NumR w v) in (forall j, (j < 3)%nat -> nth j s 0 = - nth j (heading w) 0 / v) /\ len3 s = 1 / v.
Proof.
  intros Hv Hn s. assert (E : forall j, (j < 3)%nat -> nth j s 0 = - nth j (heading w) 0 / v).
  { intros j Hj. rewrite <- wave_slowness by (auto; lra). unfold s. rewrite (nth_indep _ 0 (/ 0)) by (rewrite map_length; exact Hj). exact (map_nth Rinv (@compute_velocities NumR w v) 0 j). }
  split; [exact E|]. unfold len3, dot3. rewrite !E by lia. pose proof (wave_heading w) as U. unfold dot3 in U. set (a := nth 0 (heading w) 0) in *. set (b := nth 1 (heading w) 0) in *. set (c := nth 2 (heading w) 0) in *.
  replace (- a / v * (- a / v) + - b / v * (- b / v) + - c / v * (- c / v)) with ((a * a + b * b + c * c) / (v * v)) by (field; lra). rewrite U. replace (1 / (v * v)) with (1 / v * (1 / v)) by (field; lra). apply sqrt_square. apply Rlt_le, Rdiv_lt_0_compat; lra.
Qed.
Lemma wave_travels (w : planewave NumR) v x y z s t d : 0 < v -> (forall j, (j < 3)%nat -> nth j (heading w) 0 <> 0) ->
  let k := heading w in let x' := x - v * d * nth 0 k 0 in let y' := y - v * d * nth 1 k 0 in let z' := z - v * d * nth 2 k 0 in
  let F := planewave_field w v in e_x F x' y' z' s (t + d) = e_x F x y z s t /\ e_y F x' y' z' s (t + d) = e_y F x y z s t /\ e_z F x' y' z' s (t + d) = e_z F x y z s t.
Proof.
  intros Hv Hn k x' y' z' F. destruct (wave_field w v x' y' z' s (t + d) ltac:(lra) Hn) as (E1 & E2 & E3). destruct (wave_field w v x y z s t ltac:(lra) Hn) as (G1 & G2 & G3).
  assert (A : t + d + dot3 (heading w) [x'; y'; z'] / v = t + dot3 (heading w) [x; y; z] / v).
  { pose proof (wave_heading w) as U. unfold x', y', z', dot3 in *. cbn [nth]. fold k in U |- *. set (a := nth 0 k 0) in *. set (b := nth 1 k 0) in *. set (c := nth 2 k 0) in *.
    replace ((a * (x - v * d * a) + b * (y - v * d * b) + c * (z - v * d * c)) / v) with ((a * x + b * y + c * z) / v - d * (a * a + b * b + c * c)) by (field; lra). rewrite U. ring. }
  unfold F. rewrite E1, E2, E3, G1, G2, G3, A. auto.
Qed.
Lemma rotation_down' u : nth 2 u 0 < 0 -> exists f, rotation u u = Some f /\ f <> [0; 0; len3 u] /\
  f = [2 * nth 0 u 0 * sqrt (nth 1 u 0 * nth 1 u 0 + nth 2 u 0 * nth 2 u 0) / len3 u; 0; (nth 0 u 0 * nth 0 u 0 - (nth 1 u 0 * nth 1 u 0 + nth 2 u 0 * nth 2 u 0)) / len3 u].
Proof.
  intros Hz. destruct (rotation_down u Hz) as (f & E & F). exists f. split; [exact E|]. split; [|exact F]. rewrite F. intros X. injection X as _ X.
  assert (P : 0 < dot3 u u) by (unfold dot3; nra). assert (L : 0 < len3 u) by (apply sqrt_lt_R0; exact P). assert (S : len3 u * len3 u = dot3 u u) by (apply sqrt_sqrt; lra). unfold dot3 in S.
  assert (Y : nth 0 u 0 * nth 0 u 0 - (nth 1 u 0 * nth 1 u 0 + nth 2 u 0 * nth 2 u 0) = len3 u * len3 u) by (rewrite <- X at 1; field; lra). nra.
Qed.
Lemma rotation_x u f : nth 1 u 0 = 0 -> nth 2 u 0 = 0 -> rotation u f = None.
Proof.
  intros H1 H2. unfold rotation, thetax, atan_ratio. rewrite H1, H2. rewrite (proj2 (Reqb_true 0 0) eq_refl). replace (Rltb 0 0) with false by (symmetry; apply Rltb_false; lra). reflexivity.
Qed.
Lemma rotated_wave (w w' : planewave NumR) u f : rotation u (heading w) = Some f -> rotate_to_segment w u = Some w' ->
  pw_field w' = pw_field w /\ pw_polarization w' = pw_polarization w /\
  (nth 2 f 0 <> 0 \/ 0 <= nth 1 f 0 -> heading w' = f) /\
  (nth 2 f 0 = 0 -> nth 1 f 0 < 0 -> heading w' = [nth 0 f 0; - nth 1 f 0; 0]).
Proof.
  intros Hr H. pose proof (rotation_dot _ _ _ _ _ Hr Hr) as D. rewrite wave_heading in D. unfold dot3 in D. unfold rotate_to_segment in H. rewrite Hr in H. injection H as <-.
  split; [reflexivity|]. split; [reflexivity|]. assert (L : f = [nth 0 f 0; nth 1 f 0; nth 2 f 0]).
  { apply list3. unfold rotation in Hr. destruct (thetax u); [|discriminate]. destruct (thetay u); [|discriminate]. injection Hr as <-. reflexivity. }
  unfold heading. cbn [pw_polar pw_azimuth]. split.
  - intros Hn. destruct (heading_angles _ _ _ D Hn) as (E1 & E2 & E3). cbv zeta in *. rewrite E1, E2, E3. symmetry. exact L.
  - intros Hz Hy. rewrite Hz in *. destruct (heading_wrong _ _ D Hy) as (E1 & E2 & E3). cbv zeta in *. rewrite E1, E2, E3. reflexivity.
Qed.
Lemma polarization_lost : exists (w w' : planewave NumR) u e', rotate_to_segment w u = Some w' /\ rotation u (pw_e w) = Some e' /\ pw_e w' <> e'.
Proof.
  set (w := @PlaneWave NumR (fun t => t) (PI / 2) 0 0). set (u := [1; 0; 1] : list R).
  destruct (ratio_pos 0 1) as (a & Ea & Ca & Sa); [lra|right; lra|]. destruct (ratio_pos (- 1) 1) as (b & Eb & Cb & Sb); [lra|right; lra|].
  assert (S1 : sqrt (0 * 0 + 1 * 1) = 1) by (replace (0 * 0 + 1 * 1) with 1 by ring; apply sqrt_1). assert (Tx : thetax u = Some a) by exact Ea. assert (Ty : thetay u = Some b) by (unfold thetay, u; cbn [nth]; rewrite S1; exact Eb).
  assert (Rt : forall f, rotation u f = Some (ry b (rx a f))) by (intros f; unfold rotation; now rewrite Tx, Ty).
  destruct (rotate_to_segment w u) as [w'|] eqn:Ew; [|unfold rotate_to_segment in Ew; rewrite Rt in Ew; discriminate].
  exists w, w', u, (ry b (rx a (pw_e w))). split; [exact Ew|]. split; [apply Rt|]. destruct (rotated_wave w w' u _ (Rt _) Ew) as (_ & Ep & _).
  intros X. apply (f_equal (fun l => nth 0 l 0)) in X. unfold ry, rx, pw_e, compute_directions in X. cbn [nth] in X. rewrite Ep in X. unfold w in X. cbn [pw_polarization pw_polar pw_azimuth] in X. rsimpl. unfold n1 in X. cbn in X.
  rewrite sin_0, cos_0, sin_PI2, Sb, Sa, Ca, cos_PI2 in X. set (q := sqrt (0 * 0 + 1 * 1)) in *. assert (q = 1) by exact S1. rewrite H in X. set (p := sqrt (- 1 * - 1 + 1 * 1)) in *. assert (P : 0 < p) by (apply sqrt_lt_R0; lra).
  assert (Y : - 1 / p <> 0) by (apply Rmult_integral_contrapositive; split; [lra|apply Rinv_neq_0_compat; lra]). apply Y. lra.
Qed.
Lemma rotation_ex : rotation [3; 0; 4] [3; 0; 4] = Some [0; 0; 5] /\ (exists f, rotation [0; 0; -1] [0; 0; -1] = Some f /\ f = [0; 0; -1]).
Proof.
  split.
  - rewrite rotation_up; [|cbn; lra|right; cbn; lra]. unfold len3, dot3. cbn [nth]. replace (3 * 3 + 0 * 0 + 4 * 4) with (5 * 5) by ring. rewrite sqrt_square by lra. reflexivity.
  - destruct (rotation_down [0; 0; -1]) as (f & E & F); [cbn; lra|]. exists f. split; [exact E|]. rewrite F. unfold len3, dot3. cbn [nth]. replace (0 * 0 + 0 * 0 + -1 * -1) with (1 * 1) by ring. rewrite sqrt_square by lra.
    f_equal; [field|]. f_equal. f_equal. field.
Qed.
