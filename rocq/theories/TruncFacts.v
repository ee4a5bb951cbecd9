(** What is left when a solution of the telegrapher's equations is put in the equations of the
    scheme.  Pure real analysis, no model. *)
From Coq Require Import Arith Lia Reals Lra Psatz.
From Verif Require Import ErrFacts SpecTelegraph.
Local Open Scope R_scope.

Lemma abs_between x y : Rabs x <= y -> - y <= x <= y.
Proof. intros H. pose proof (Rle_abs x). pose proof (Rle_abs (- x)). rewrite Rabs_Ropp in *. lra. Qed.

(** ** curved functions *)
Lemma curved_small K a b f f' x : a < b -> a <= x <= b -> curved K a b f f' -> (forall y, a <= y <= b -> f y = 0) -> f' x = 0.
Proof.
  intros Hab Hx Hc H0. destruct (Req_dec (f' x) 0) as [|N]; auto. exfalso.
  assert (A : 0 < Rabs (f' x)) by now apply Rabs_pos_lt.
  assert (forall y, a <= y <= b -> Rabs (f' x) * Rabs (y - x) <= K * (y - x) ^ 2).
  { intros y Hy. specialize (Hc x y Hx Hy). rewrite !H0 in Hc by auto. replace (0 - 0 - f' x * (y - x)) with (- (f' x * (y - x))) in Hc by ring.
    now rewrite Rabs_Ropp, Rabs_mult in Hc. }
  assert (Hd : forall d, 0 < d -> (x + d <= b \/ a <= x - d) -> Rabs (f' x) <= K * d).
  { intros d D [B|B].
    - specialize (H (x + d) ltac:(lra)). replace (x + d - x) with d in H by ring. rewrite (Rabs_right d) in H by lra. apply (Rmult_le_reg_r d); auto. lra.
    - specialize (H (x - d) ltac:(lra)). replace (x - d - x) with (- d) in H by ring. rewrite Rabs_Ropp, (Rabs_right d) in H by lra. apply (Rmult_le_reg_r d); auto. lra. }
  set (w := (b - a) / 2). assert (W : 0 < w) by (unfold w; lra).
  destruct (Rle_or_lt K 0) as [K0|K0].
  - specialize (Hd w W). assert (Rabs (f' x) <= K * w) by (apply Hd; unfold w; lra). nra.
  - set (d := Rmin w (Rabs (f' x) / (2 * K))). assert (Q : 0 < Rabs (f' x) / (2 * K)) by (apply Rdiv_lt_0_compat; lra).
    assert (D : 0 < d) by (unfold d; apply Rmin_glb_lt; auto). pose proof (Rmin_l w (Rabs (f' x) / (2 * K))). pose proof (Rmin_r w (Rabs (f' x) / (2 * K))). fold d in H1, H2.
    assert (Rabs (f' x) <= K * d) by (apply Hd; auto; unfold w in *; lra).
    assert (K * d <= Rabs (f' x) / 2) by (apply (Rmult_le_compat_l K) in H2; [|lra]; replace (K * (Rabs (f' x) / (2 * K))) with (Rabs (f' x) / 2) in H2 by (field; lra); lra). lra.
Qed.

(** the mean and the difference of two values about the middle *)
Lemma curved_mean K a b f f' x d : curved K a b f f' -> a <= x <= b -> a <= x - d -> x + d <= b -> 0 <= d -> Rabs ((f (x + d) + f (x - d)) / 2 - f x) <= K * d ^ 2.
Proof.
  intros Hc Hx H1 H2 H3. pose proof (Hc x (x + d) Hx ltac:(lra)) as A. pose proof (Hc x (x - d) Hx ltac:(lra)) as B.
  replace (x + d - x) with d in A by ring. replace (x - d - x) with (- d) in B by ring. replace ((- d) ^ 2) with (d ^ 2) in B by ring.
  apply Rabs_le. apply abs_between in A, B. lra.
Qed.
Lemma curved_diff K a b f f' x d : curved K a b f f' -> a <= x <= b -> a <= x - d -> x + d <= b -> 0 <= d -> Rabs (f (x + d) - f (x - d) - 2 * d * f' x) <= 2 * K * d ^ 2.
Proof.
  intros Hc Hx H1 H2 H3. pose proof (Hc x (x + d) Hx ltac:(lra)) as A. pose proof (Hc x (x - d) Hx ltac:(lra)) as B.
  replace (x + d - x) with d in A by ring. replace (x - d - x) with (- d) in B by ring. replace ((- d) ^ 2) with (d ^ 2) in B by ring.
  apply Rabs_le. apply abs_between in A, B. lra.
Qed.

Section Trunc.
Variables (l c r g len zs zl Tm : R) (vs vl : R -> R) (V I Vz Vt Iz It : R -> R -> R) (K : R).
Hypotheses (Hl : 0 < l) (Hc : 0 < c) (Hr : 0 <= r) (Hg : 0 <= g) (Hlen : 0 < len) (Hzs : 0 < zs) (Hzl : 0 < zl) (HTm : 0 < Tm).
Hypothesis HZ : forall t, 0 <= t <= Tm -> curved K 0 len (fun z => V z t) (fun z => Vz z t) /\ curved K 0 len (fun z => I z t) (fun z => Iz z t).
Hypothesis HT : forall z, 0 <= z <= len -> curved K 0 Tm (fun t => V z t) (fun t => Vt z t) /\ curved K 0 Tm (fun t => I z t) (fun t => It z t).
Hypothesis Heq : forall z t, 0 <= z <= len -> 0 <= t <= Tm -> l * It z t + r * I z t + Vz z t = 0 /\ c * Vt z t + g * V z t + Iz z t = 0.
Hypothesis Hend : forall t, 0 <= t <= Tm -> V 0 t + zs * I 0 t = vs t /\ V len t - zl * I len t = vl t.
Hypothesis Hrest : forall z, 0 <= z <= len -> V z 0 = 0 /\ I z 0 = 0.
Hypothesis Hneg : forall t, t < 0 -> vs t = 0 /\ vl t = 0.

Lemma K_nonneg : 0 <= K.
Proof.
  pose proof (proj1 (HZ 0 ltac:(lra)) 0 len ltac:(lra) ltac:(lra)) as A. pose proof (Rabs_pos (V len 0 - V 0 0 - Vz 0 0 * (len - 0))).
  assert (0 < (len - 0) ^ 2) by (apply pow_lt; lra). cbv beta in A. nra.
Qed.
Lemma rates_at_rest z : 0 <= z <= len -> Vt z 0 = 0 /\ It z 0 = 0.
Proof.
  intros Hz. destruct (HZ 0 ltac:(lra)) as [A B]. destruct (Heq z 0 Hz ltac:(lra)) as [E1 E2]. destruct (Hrest z Hz) as [R1 R2].
  pose proof (curved_small _ _ _ _ _ z Hlen Hz A (fun y Hy => proj1 (Hrest y Hy))) as X. pose proof (curved_small _ _ _ _ _ z Hlen Hz B (fun y Hy => proj2 (Hrest y Hy))) as Y.
  cbv beta in X, Y. rewrite R1, R2, X, Y in *. split; nra.
Qed.
Lemma size z t : 0 <= z <= len -> 0 <= t <= Tm -> Rabs (V z t) <= K * t ^ 2 /\ Rabs (I z t) <= K * t ^ 2 /\ Rabs (Vt z t) <= 2 * K * t /\ Rabs (It z t) <= 2 * K * t.
Proof.
  intros Hz Ht. destruct (HT z Hz) as [A B]. destruct (rates_at_rest z Hz) as [E1 E2]. destruct (Hrest z Hz) as [R1 R2].
  pose proof (A 0 t ltac:(lra) Ht) as A1. pose proof (B 0 t ltac:(lra) Ht) as B1. cbv beta in A1, B1. rewrite R1, E1 in A1. rewrite R2, E2 in B1.
  replace (V z t - 0 - 0 * (t - 0)) with (V z t) in A1 by ring. replace (I z t - 0 - 0 * (t - 0)) with (I z t) in B1 by ring. replace (t - 0) with t in A1, B1 by ring.
  split; [exact A1|]. split; [exact B1|].
  destruct (Req_dec t 0) as [->|N]; [rewrite E1, E2, Rabs_R0; lra|]. assert (T0 : 0 < t) by lra.
  pose proof (A t 0 Ht ltac:(lra)) as A2. pose proof (B t 0 Ht ltac:(lra)) as B2. cbv beta in A2, B2. rewrite R1 in A2. rewrite R2 in B2.
  replace ((0 - t) ^ 2) with (t ^ 2) in A2, B2 by ring.
  split; apply (Rmult_le_reg_r t); auto.
  - replace (Rabs (Vt z t) * t) with (Rabs (Vt z t * t)) by (now rewrite Rabs_mult, (Rabs_right t) by lra). apply Rabs_le. apply abs_between in A1, A2. nra.
  - replace (Rabs (It z t) * t) with (Rabs (It z t * t)) by (now rewrite Rabs_mult, (Rabs_right t) by lra). apply Rabs_le. apply abs_between in B1, B2. nra.
Qed.
(** changes in time *)
Lemma drift z s t : 0 <= z <= len -> 0 <= s <= Tm -> 0 <= t <= Tm -> s <= t -> Rabs (V z t - V z s) <= 3 * K * Tm * (t - s) /\ Rabs (I z t - I z s) <= 3 * K * Tm * (t - s).
Proof.
  intros Hz Hs Ht Hst. pose proof K_nonneg as K0. destruct (HT z Hz) as [A B]. destruct (size z s Hz Hs) as (_ & _ & S1 & S2).
  pose proof (A s t Hs Ht) as A1. pose proof (B s t Hs Ht) as B1. cbv beta in A1, B1. set (d := t - s) in *.
  assert (D : 0 <= d <= Tm) by (unfold d; lra). assert (K1 : 0 <= K * d) by nra. assert (K2 : K * d ^ 2 <= K * Tm * d) by nra. assert (K3 : 2 * K * s <= 2 * K * Tm) by nra.
  split; apply Rabs_le.
  - apply abs_between in A1, S1. assert (- (2 * K * Tm) * d <= Vt z s * d <= 2 * K * Tm * d) by (split; apply Rmult_le_compat_r; lra). lra.
  - apply abs_between in B1, S2. assert (- (2 * K * Tm) * d <= It z s * d <= 2 * K * Tm * d) by (split; apply Rmult_le_compat_r; lra). lra.
Qed.
(** changes along the line next to a point *)
Lemma slope z t y : 0 <= z <= len -> 0 <= t <= Tm -> 0 <= y <= len ->
  Rabs (I y t - I z t) <= (2 * c * K * Tm + g * K * Tm ^ 2) * Rabs (y - z) + K * (y - z) ^ 2.
Proof.
  intros Hz Ht Hy. pose proof K_nonneg as K0. destruct (HZ t Ht) as [_ B]. pose proof (B z y Hz Hy) as B1. cbv beta in B1.
  destruct (size z t Hz Ht) as (S1 & _ & S3 & _). destruct (Heq z t Hz Ht) as [_ E].
  assert (Q : Rabs (Iz z t) <= 2 * c * K * Tm + g * K * Tm ^ 2).
  { replace (Iz z t) with (- (c * Vt z t + g * V z t)) by lra. rewrite Rabs_Ropp. eapply Rle_trans; [apply Rabs_triang|]. rewrite !Rabs_mult, (Rabs_right c), (Rabs_right g) by lra.
    apply Rplus_le_compat.
    - replace (2 * c * K * Tm) with (c * (2 * K * Tm)) by ring. apply Rmult_le_compat_l; [lra|]. nra.
    - replace (g * K * Tm ^ 2) with (g * (K * Tm ^ 2)) by ring. apply Rmult_le_compat_l; [lra|]. apply Rle_trans with (1 := S1). apply Rmult_le_compat_l; auto. apply pow_incr. lra. }
  replace (I y t - I z t) with ((I y t - I z t - Iz z t * (y - z)) + Iz z t * (y - z)) by ring. eapply Rle_trans; [apply Rabs_triang|].
  rewrite Rabs_mult. assert (Rabs (Iz z t) * Rabs (y - z) <= (2 * c * K * Tm + g * K * Tm ^ 2) * Rabs (y - z)) by (apply Rmult_le_compat_r; [apply Rabs_pos|auto]). lra.
Qed.

(** ** the residuals of the scheme *)
Variables (P : nat) (Z rho : R).
Hypotheses (HZl : l = c * Z * Z) (HZ0 : 0 < Z) (Hrho : 0 < rho <= 1).
Let h := len / INR (S P).
Notation dt0 := (h * c * Z).
Notation dt := (rho * (h * c * Z)).

Lemma h_pos : 0 < h.
Proof. apply Rdiv_lt_0_compat; auto. apply lt_0_INR. lia. Qed.
Lemma h_all : h * INR (S P) = len.
Proof. unfold h. field. apply not_0_INR. lia. Qed.
Lemma h_len : h <= len.
Proof. apply Rle_trans with (h * INR (S P)); [|right; apply h_all]. rewrite S_INR. pose proof h_pos. pose proof (pos_INR P). nra. Qed.
Lemma node_in j : (j <= S P)%nat -> 0 <= INR j * h <= len.
Proof. intros H. pose proof h_pos. split; [apply Rmult_le_pos; [apply pos_INR|lra]|]. apply Rle_trans with (h * INR (S P)); [|right; apply h_all]. rewrite Rmult_comm. apply Rmult_le_compat_l; [lra|]. now apply le_INR. Qed.
Lemma mid_in k : (k < S P)%nat -> 0 <= (INR k + / 2) * h <= len.
Proof. intros H. pose proof h_pos. pose proof (node_in k ltac:(lia)). pose proof (node_in (S k) ltac:(lia)) as N. rewrite S_INR in N. lra. Qed.
Lemma step_pos : 0 < dt.
Proof. pose proof h_pos. apply Rmult_lt_0_compat; [lra|]. apply Rmult_lt_0_compat; [|auto]. apply Rmult_lt_0_compat; auto. Qed.
Lemma step_le : dt <= h * (c * Z).
Proof. pose proof h_pos. assert (0 < h * (c * Z)) by (apply Rmult_lt_0_compat; [auto|now apply Rmult_lt_0_compat]). rewrite (Rmult_assoc h). nra. Qed.

Definition tau (n j : nat) : R :=
  h * (c * (V (INR (S j) * h) (INR (S n) * dt) - V (INR (S j) * h) (INR n * dt)) / dt + g * (V (INR (S j) * h) (INR (S n) * dt) + V (INR (S j) * h) (INR n * dt)) / 2)
  + I ((INR (S j) + / 2) * h) ((INR n + / 2) * dt) - I ((INR j + / 2) * h) ((INR n + / 2) * dt).
Definition mu (n k : nat) : R :=
  h * (l * (I ((INR k + / 2) * h) ((INR (S n) + / 2) * dt) - I ((INR k + / 2) * h) ((INR n + / 2) * dt)) / dt
      + r * (I ((INR k + / 2) * h) ((INR (S n) + / 2) * dt) + I ((INR k + / 2) * h) ((INR n + / 2) * dt)) / 2)
  + V (INR (S k) * h) (INR (S n) * dt) - V (INR k * h) (INR (S n) * dt).
Definition s0 (n : nat) : R :=
  vs (INR n * dt) + vs (INR n * dt - dt) - 2 * zs * I ((INR 0 + / 2) * h) ((INR n + / 2) * dt)
  - (h * zs * (c * (V 0 (INR (S n) * dt) - V 0 (INR n * dt)) / dt0 + g * (V 0 (INR (S n) * dt) + V 0 (INR n * dt)) / 2) + V 0 (INR (S n) * dt) + V 0 (INR n * dt)).
Definition sN (n : nat) : R :=
  vl (INR n * dt) + vl (INR n * dt - dt) + 2 * zl * I ((INR P + / 2) * h) ((INR n + / 2) * dt)
  - (h * zl * (c * (V len (INR (S n) * dt) - V len (INR n * dt)) / dt0 + g * (V len (INR (S n) * dt) + V len (INR n * dt)) / 2) + V len (INR (S n) * dt) + V len (INR n * dt)).

Lemma tau_le n j : (j < P)%nat -> (INR (S n)) * dt <= Tm -> Rabs (tau n j) <= h * (K * (c * dt / 2 + g * dt ^ 2 / 4 + h / 2)).
Proof.
  intros Hj Hn. pose proof h_pos as Hh. pose proof step_pos as Hd. pose proof K_nonneg as K0. pose proof (pos_INR n) as N0. rewrite S_INR in Hn.
  set (z := INR (S j) * h). set (t := (INR n + / 2) * dt). assert (Hz : 0 <= z <= len) by (apply node_in; lia). assert (Ht : 0 <= t <= Tm) by (unfold t; nra).
  assert (Ep : INR (S n) * dt = t + dt / 2) by (unfold t; rewrite S_INR; field). assert (Em : INR n * dt = t - dt / 2) by (unfold t; field).
  assert (Zp : (INR (S j) + / 2) * h = z + h / 2) by (unfold z; field). assert (Zm : (INR j + / 2) * h = z - h / 2) by (unfold z; rewrite S_INR; field).
  pose proof (mid_in (S j) ltac:(lia)) as M1. pose proof (mid_in j ltac:(lia)) as M2. rewrite Zp in M1. rewrite Zm in M2.
  unfold tau. fold z t. rewrite Ep, Em, Zp, Zm.
  assert (T1 : 0 <= t - dt / 2) by (rewrite <- Em; nra). assert (T2 : t + dt / 2 <= Tm) by (rewrite <- Ep, S_INR; lra).
  destruct (HT z Hz) as [A _]. destruct (HZ t Ht) as [_ B]. destruct (Heq z t Hz Ht) as [_ E].
  pose proof (curved_diff _ _ _ _ _ t (dt / 2) A Ht T1 T2 ltac:(lra)) as D1. pose proof (curved_mean _ _ _ _ _ t (dt / 2) A Ht T1 T2 ltac:(lra)) as D2.
  pose proof (curved_diff _ _ _ _ _ z (h / 2) B Hz ltac:(lra) ltac:(lra) ltac:(lra)) as D3. cbv beta in D1, D2, D3.
  set (vp := V z (t + dt / 2)) in *. set (vm := V z (t - dt / 2)) in *. set (ip := I (z + h / 2) t) in *. set (im := I (z - h / 2) t) in *.
  set (x1 := vp - vm - 2 * (dt / 2) * Vt z t) in *. set (x2 := (vp + vm) / 2 - V z t) in *. set (x3 := ip - im - 2 * (h / 2) * Iz z t) in *.
  replace (h * (c * (vp - vm) / dt + g * (vp + vm) / 2) + ip - im) with (h * (c * (x1 / dt) + g * x2) + x3 + h * (c * Vt z t + g * V z t + Iz z t)) by (unfold x1, x2, x3; field; lra).
  rewrite E, Rmult_0_r, Rplus_0_r.
  assert (Y1 : Rabs (x1 / dt) <= K * dt / 2).
  { unfold Rdiv. rewrite Rabs_mult, Rabs_inv, (Rabs_right dt) by lra. apply (Rmult_le_reg_r dt); auto. rewrite Rmult_assoc, Rinv_l, Rmult_1_r by lra. eapply Rle_trans; [exact D1|]. right. field. }
  apply abs_between in Y1, D2, D3. set (y := x1 / dt) in *.
  assert (- (c * (K * dt / 2)) <= c * y <= c * (K * dt / 2)) by nra. assert (- (g * (K * (dt / 2) ^ 2)) <= g * x2 <= g * (K * (dt / 2) ^ 2)) by nra.
  set (q := c * y + g * x2) in *. assert (- (h * (c * (K * dt / 2) + g * (K * (dt / 2) ^ 2))) <= h * q <= h * (c * (K * dt / 2) + g * (K * (dt / 2) ^ 2))) by (unfold q; nra).
  apply Rabs_le. replace (h * (K * (c * dt / 2 + g * dt ^ 2 / 4 + h / 2))) with (h * (c * (K * dt / 2) + g * (K * (dt / 2) ^ 2)) + 2 * K * (h / 2) ^ 2) by field. lra.
Qed.
Lemma mu_le n k : (k < S P)%nat -> (INR (S n) + / 2) * dt <= Tm -> Rabs (mu n k) <= h * (K * (l * dt / 2 + r * dt ^ 2 / 4 + h / 2)).
Proof.
  intros Hj Hn. pose proof h_pos as Hh. pose proof step_pos as Hd. pose proof K_nonneg as K0. pose proof (pos_INR n) as N0.
  set (z := (INR k + / 2) * h). set (t := INR (S n) * dt). assert (Hz : 0 <= z <= len) by (apply mid_in; lia). assert (Ht : 0 <= t <= Tm) by (unfold t; rewrite S_INR in *; nra).
  assert (Ep : (INR (S n) + / 2) * dt = t + dt / 2) by (unfold t; field). assert (Em : (INR n + / 2) * dt = t - dt / 2) by (unfold t; rewrite S_INR; field).
  assert (Zp : INR (S k) * h = z + h / 2) by (unfold z; rewrite S_INR; field). assert (Zm : INR k * h = z - h / 2) by (unfold z; field).
  pose proof (node_in (S k) ltac:(lia)) as M1. pose proof (node_in k ltac:(lia)) as M2. rewrite Zp in M1. rewrite Zm in M2.
  unfold mu. fold z t. rewrite Ep, Em, Zp, Zm.
  assert (T1 : 0 <= t - dt / 2) by (rewrite <- Em; nra). assert (T2 : t + dt / 2 <= Tm) by (rewrite <- Ep; lra).
  destruct (HT z Hz) as [_ A]. destruct (HZ t Ht) as [B _]. destruct (Heq z t Hz Ht) as [E _].
  pose proof (curved_diff _ _ _ _ _ t (dt / 2) A Ht T1 T2 ltac:(lra)) as D1. pose proof (curved_mean _ _ _ _ _ t (dt / 2) A Ht T1 T2 ltac:(lra)) as D2.
  pose proof (curved_diff _ _ _ _ _ z (h / 2) B Hz ltac:(lra) ltac:(lra) ltac:(lra)) as D3. cbv beta in D1, D2, D3.
  set (vp := I z (t + dt / 2)) in *. set (vm := I z (t - dt / 2)) in *. set (ip := V (z + h / 2) t) in *. set (im := V (z - h / 2) t) in *.
  set (x1 := vp - vm - 2 * (dt / 2) * It z t) in *. set (x2 := (vp + vm) / 2 - I z t) in *. set (x3 := ip - im - 2 * (h / 2) * Vz z t) in *.
  replace (h * (l * (vp - vm) / dt + r * (vp + vm) / 2) + ip - im) with (h * (l * (x1 / dt) + r * x2) + x3 + h * (l * It z t + r * I z t + Vz z t)) by (unfold x1, x2, x3; field; lra).
  rewrite E, Rmult_0_r, Rplus_0_r.
  assert (Y1 : Rabs (x1 / dt) <= K * dt / 2).
  { unfold Rdiv. rewrite Rabs_mult, Rabs_inv, (Rabs_right dt) by lra. apply (Rmult_le_reg_r dt); auto. rewrite Rmult_assoc, Rinv_l, Rmult_1_r by lra. eapply Rle_trans; [exact D1|]. right. field. }
  apply abs_between in Y1, D2, D3. set (y := x1 / dt) in *.
  assert (- (l * (K * dt / 2)) <= l * y <= l * (K * dt / 2)) by nra. assert (- (r * (K * (dt / 2) ^ 2)) <= r * x2 <= r * (K * (dt / 2) ^ 2)) by nra.
  set (q := l * y + r * x2) in *. assert (- (h * (l * (K * dt / 2) + r * (K * (dt / 2) ^ 2))) <= h * q <= h * (l * (K * dt / 2) + r * (K * (dt / 2) ^ 2))) by (unfold q; nra).
  apply Rabs_le. replace (h * (K * (l * dt / 2 + r * dt ^ 2 / 4 + h / 2))) with (h * (l * (K * dt / 2) + r * (K * (dt / 2) ^ 2)) + 2 * K * (h / 2) ^ 2) by field. lra.
Qed.

Definition end_res (src : R -> R) (sg z zz y : R) (n : nat) : R :=
  src (INR n * dt) + src (INR n * dt - dt) - 2 * sg * z * I y ((INR n + / 2) * dt)
  - (h * z * (c * (V zz (INR (S n) * dt) - V zz (INR n * dt)) / dt0 + g * (V zz (INR (S n) * dt) + V zz (INR n * dt)) / 2) + V zz (INR (S n) * dt) + V zz (INR n * dt)).
Lemma end_le src sg z zz y n : 0 <= zz <= len -> 0 <= y <= len -> Rabs (y - zz) = h / 2 -> sg = 1 \/ sg = -1 -> 0 < z ->
  (forall t, 0 <= t <= Tm -> V zz t + sg * z * I zz t = src t) -> (forall t, t < 0 -> src t = 0) -> INR (S n) * dt <= Tm ->
  Rabs (end_res src sg z zz y n) <= 6 * K * Tm * (1 + z) * dt + z * (3 * K * Tm * dt + (2 * c * K * Tm + g * K * Tm ^ 2) * h + K * h ^ 2 / 2) + h * z * (3 * K * Tm * c + g * K * Tm ^ 2).
Proof.
  intros Hzz Hy Hd2 Hsg Hz Hsrc Hs0 Hn. pose proof h_pos as Hh. pose proof step_pos as Hd. pose proof K_nonneg as K0. pose proof (pos_INR n) as N0.
  set (t0 := INR n * dt). assert (E1 : INR (S n) * dt = t0 + dt) by (unfold t0; rewrite S_INR; ring). assert (Em : (INR n + / 2) * dt = t0 + dt / 2) by (unfold t0; field).
  unfold end_res. fold t0. rewrite E1 in *. rewrite Em. assert (T0 : 0 <= t0) by (unfold t0; nra).
  assert (KT : 0 <= K * Tm) by nra.
  assert (Lip : forall s t, 0 <= s <= Tm -> 0 <= t <= Tm -> s <= t -> Rabs (src t - src s) <= 3 * K * Tm * (1 + z) * (t - s)).
  { intros s t Hs Ht Hst. rewrite <- !Hsrc by auto. destruct (drift zz s t Hzz Hs Ht Hst) as [A B].
    apply abs_between in A, B. assert (- (z * (3 * K * Tm * (t - s))) <= z * (I zz t - I zz s) <= z * (3 * K * Tm * (t - s))) by nra.
    apply Rabs_le. destruct Hsg as [-> | ->]; lra. }
  assert (X1 : Rabs (src (t0 - dt) - src (t0 + dt)) <= 6 * K * Tm * (1 + z) * dt).
  { rewrite Rabs_minus_sym. destruct (Rle_or_lt 0 (t0 - dt)) as [B|B].
    - eapply Rle_trans; [apply Lip; lra|]. right. ring.
    - rewrite (Hs0 _ B), Rminus_0_r. assert (n = 0)%nat.
      { destruct n as [|n]; auto. exfalso. unfold t0 in B. rewrite S_INR in B. pose proof (pos_INR n). nra. }
      assert (Z0 : t0 = 0) by (unfold t0; subst n; simpl; ring). pose proof (Lip 0 (t0 + dt) ltac:(lra) ltac:(lra) ltac:(lra)) as L.
      rewrite <- (Hsrc 0) in L by lra. destruct (Hrest zz Hzz) as [R1 R2]. rewrite R1, R2, Rmult_0_r, Rplus_0_r, Rminus_0_r in L. eapply Rle_trans; [exact L|]. rewrite Z0.
      replace (0 + dt - 0) with dt by ring. assert (0 <= K * Tm * (1 + z)) by nra. nra. }
  assert (X2 : Rabs (I zz (t0 + dt) + I zz t0 - 2 * I y (t0 + dt / 2)) <= 3 * K * Tm * dt + (2 * c * K * Tm + g * K * Tm ^ 2) * h + K * h ^ 2 / 2).
  { destruct (drift zz (t0 + dt / 2) (t0 + dt) Hzz ltac:(lra) ltac:(lra) ltac:(lra)) as [_ A]. destruct (drift zz t0 (t0 + dt / 2) Hzz ltac:(lra) ltac:(lra) ltac:(lra)) as [_ B].
    pose proof (slope zz (t0 + dt / 2) y Hzz ltac:(lra) Hy) as C. rewrite Hd2 in C. replace ((y - zz) ^ 2) with (Rabs (y - zz) ^ 2) in C by apply pow2_abs. rewrite Hd2 in C.
    apply abs_between in A, B, C. apply Rabs_le. replace (t0 + dt - (t0 + dt / 2)) with (dt / 2) in A by field. replace (t0 + dt / 2 - t0) with (dt / 2) in B by field.
    set (w := 2 * c * K * Tm + g * K * Tm ^ 2) in *. set (kt := 3 * K * Tm) in *. nra. }
  assert (X3 : Rabs (c * (V zz (t0 + dt) - V zz t0) / dt0) <= 3 * K * Tm * c).
  { destruct (drift zz t0 (t0 + dt) Hzz ltac:(lra) ltac:(lra) ltac:(lra)) as [A _]. replace (t0 + dt - t0) with dt in A by ring.
    assert (D0 : 0 < h * c * Z) by (apply Rmult_lt_0_compat; [now apply Rmult_lt_0_compat|auto]).
    unfold Rdiv. rewrite !Rabs_mult, Rabs_inv, (Rabs_right c), (Rabs_right (h * c * Z)) by lra. apply (Rmult_le_reg_r (h * c * Z)); auto. rewrite Rmult_assoc, Rinv_l, Rmult_1_r by lra.
    apply Rle_trans with (c * (3 * K * Tm * (h * c * Z))); [|right; ring]. apply Rmult_le_compat_l; [lra|]. eapply Rle_trans; [exact A|]. apply Rmult_le_compat_l; [lra|]. nra. }
  assert (X4 : Rabs (g * (V zz (t0 + dt) + V zz t0) / 2) <= g * K * Tm ^ 2).
  { destruct (size zz (t0 + dt) Hzz ltac:(lra)) as (A & _). destruct (size zz t0 Hzz ltac:(lra)) as (B & _).
    assert (K * (t0 + dt) ^ 2 <= K * Tm ^ 2) by (apply Rmult_le_compat_l; [auto|apply pow_incr; lra]). assert (K * t0 ^ 2 <= K * Tm ^ 2) by (apply Rmult_le_compat_l; [auto|apply pow_incr; lra]).
    apply abs_between in A, B. apply Rabs_le. nra. }
  pose proof (Hsrc t0 ltac:(lra)) as S1. pose proof (Hsrc (t0 + dt) ltac:(lra)) as S2.
  set (x1 := src (t0 - dt) - src (t0 + dt)) in *. set (x2 := I zz (t0 + dt) + I zz t0 - 2 * I y (t0 + dt / 2)) in *.
  set (x3 := c * (V zz (t0 + dt) - V zz t0) / dt0) in *. set (x4 := g * (V zz (t0 + dt) + V zz t0) / 2) in *.
  replace (src t0 + src (t0 - dt) - 2 * sg * z * I y (t0 + dt / 2) - (h * z * (x3 + x4) + V zz (t0 + dt) + V zz t0)) with (x1 + sg * (z * x2) - h * z * (x3 + x4)) by (unfold x1, x2; rewrite <- S1, <- S2; ring).
  apply abs_between in X1, X2, X3, X4. clearbody x1 x2 x3 x4. set (b2 := 3 * K * Tm * dt + _ + _) in *. assert (- (z * b2) <= z * x2 <= z * b2) by nra.
  assert (HZ1 : 0 < h * z) by nra. set (b3 := 3 * K * Tm * c + g * K * Tm ^ 2) in *. assert (- (h * z * b3) <= h * z * (x3 + x4) <= h * z * b3) by (unfold b3; nra).
  apply Rabs_le. destruct Hsg as [-> | ->]; lra.
Qed.

(** all residuals at once, with a constant that depends neither on the cells nor on the step *)
Definition K1 : R :=
  K * (c * (c * Z) / 2 + g * (Tm * (c * Z)) / 4 + / 2) + K * (l * (c * Z) / 2 + r * (Tm * (c * Z)) / 4 + / 2) +
  (6 * K * Tm * (1 + zs) * (c * Z) + zs * (3 * K * Tm * (c * Z) + (2 * c * K * Tm + g * K * Tm ^ 2) + K * len / 2) + zs * (3 * K * Tm * c + g * K * Tm ^ 2)) +
  (6 * K * Tm * (1 + zl) * (c * Z) + zl * (3 * K * Tm * (c * Z) + (2 * c * K * Tm + g * K * Tm ^ 2) + K * len / 2) + zl * (3 * K * Tm * c + g * K * Tm ^ 2)).
Lemma K1_parts :
  0 <= K * (c * (c * Z) / 2 + g * (Tm * (c * Z)) / 4 + / 2) /\ 0 <= K * (l * (c * Z) / 2 + r * (Tm * (c * Z)) / 4 + / 2) /\
  0 <= 6 * K * Tm * (1 + zs) * (c * Z) + zs * (3 * K * Tm * (c * Z) + (2 * c * K * Tm + g * K * Tm ^ 2) + K * len / 2) + zs * (3 * K * Tm * c + g * K * Tm ^ 2) /\
  0 <= 6 * K * Tm * (1 + zl) * (c * Z) + zl * (3 * K * Tm * (c * Z) + (2 * c * K * Tm + g * K * Tm ^ 2) + K * len / 2) + zl * (3 * K * Tm * c + g * K * Tm ^ 2).
Proof.
  pose proof K_nonneg as K0. assert (CZ : 0 <= c * Z) by nra. assert (KT : 0 <= K * Tm) by nra. assert (0 <= Tm * (c * Z)) by nra. assert (T2 : 0 <= Tm ^ 2) by (apply pow2_ge_0).
  assert (0 <= c * K * Tm) by (rewrite Rmult_assoc; nra). assert (0 <= g * K) by nra. assert (0 <= g * K * Tm ^ 2) by nra. assert (0 <= K * len) by nra. assert (0 <= K * Tm * (c * Z)) by nra.
  assert (0 <= K * Tm * c) by nra.
  split; [|split; [|split]].
  - apply Rmult_le_pos; auto. assert (0 <= c * (c * Z)) by nra. assert (0 <= g * (Tm * (c * Z))) by nra. lra.
  - apply Rmult_le_pos; auto. assert (0 <= l * (c * Z)) by nra. assert (0 <= r * (Tm * (c * Z))) by nra. lra.
  - assert (0 <= K * Tm * (1 + zs) * (c * Z)) by (apply Rmult_le_pos; [apply Rmult_le_pos; lra|auto]). 
    assert (0 <= zs * (3 * K * Tm * (c * Z) + (2 * c * K * Tm + g * K * Tm ^ 2) + K * len / 2)) by (apply Rmult_le_pos; lra). assert (0 <= zs * (3 * K * Tm * c + g * K * Tm ^ 2)) by (apply Rmult_le_pos; lra). lra.
  - assert (0 <= K * Tm * (1 + zl) * (c * Z)) by (apply Rmult_le_pos; [apply Rmult_le_pos; lra|auto]). 
    assert (0 <= zl * (3 * K * Tm * (c * Z) + (2 * c * K * Tm + g * K * Tm ^ 2) + K * len / 2)) by (apply Rmult_le_pos; lra). assert (0 <= zl * (3 * K * Tm * c + g * K * Tm ^ 2)) by (apply Rmult_le_pos; lra). lra.
Qed.
Lemma K1_nonneg : 0 <= K1.
Proof. destruct K1_parts as (A & B & C & D). unfold K1. lra. Qed.

Lemma cell_bound a b : 0 <= a -> 0 <= b -> dt <= Tm -> K * (a * dt / 2 + b * dt ^ 2 / 4 + h / 2) <= h * (K * (a * (c * Z) / 2 + b * (Tm * (c * Z)) / 4 + / 2)).
Proof.
  intros Ha Hb HT1. pose proof h_pos. pose proof step_pos as D. pose proof step_le as D1. pose proof K_nonneg as K0. assert (0 < c * Z) by nra.
  replace (h * (K * (a * (c * Z) / 2 + b * (Tm * (c * Z)) / 4 + / 2))) with (K * (a * (h * (c * Z)) / 2 + b * (Tm * (h * (c * Z))) / 4 + h / 2)) by field.
  apply Rmult_le_compat_l; auto. assert (a * dt <= a * (h * (c * Z))) by (apply Rmult_le_compat_l; lra).
  assert (dt ^ 2 <= Tm * (h * (c * Z))) by nra. assert (b * dt ^ 2 <= b * (Tm * (h * (c * Z)))) by (apply Rmult_le_compat_l; lra). lra.
Qed.
Lemma end_bound z : 0 < z ->
  6 * K * Tm * (1 + z) * dt + z * (3 * K * Tm * dt + (2 * c * K * Tm + g * K * Tm ^ 2) * h + K * h ^ 2 / 2) + h * z * (3 * K * Tm * c + g * K * Tm ^ 2) <=
  h * (6 * K * Tm * (1 + z) * (c * Z) + z * (3 * K * Tm * (c * Z) + (2 * c * K * Tm + g * K * Tm ^ 2) + K * len / 2) + z * (3 * K * Tm * c + g * K * Tm ^ 2)).
Proof.
  intros Hz. pose proof h_pos. pose proof h_len. pose proof step_pos as D. pose proof step_le as D1. pose proof K_nonneg as K0. assert (KT : 0 <= K * Tm) by nra.
  assert (A1 : 6 * K * Tm * (1 + z) * dt <= 6 * K * Tm * (1 + z) * (h * (c * Z))) by (apply Rmult_le_compat_l; [|lra]; apply Rmult_le_pos; lra).
  assert (A2 : 3 * K * Tm * dt <= 3 * K * Tm * (h * (c * Z))) by (apply Rmult_le_compat_l; lra).
  assert (A3 : K * h ^ 2 / 2 <= h * (K * len / 2)). { assert (K * h ^ 2 <= K * (h * len)) by (apply Rmult_le_compat_l; [auto|nra]). lra. }
  assert (A4 : z * (3 * K * Tm * dt + (2 * c * K * Tm + g * K * Tm ^ 2) * h + K * h ^ 2 / 2) <= z * (3 * K * Tm * (h * (c * Z)) + (2 * c * K * Tm + g * K * Tm ^ 2) * h + h * (K * len / 2))) by (apply Rmult_le_compat_l; lra).
  lra.
Qed.
Lemma residuals n : (INR (S n) + / 2) * dt <= Tm ->
  (forall j, (j < P)%nat -> Rabs (tau n j) <= h * (h * K1)) /\ (forall k, (k < S P)%nat -> Rabs (mu n k) <= h * (h * K1)) /\
  Rabs (s0 n) <= h * K1 /\ Rabs (sN n) <= h * K1.
Proof.
  intros Hn. pose proof h_pos as Hh. pose proof step_pos as D. pose proof (pos_INR n) as N0. destruct K1_parts as (A & B & C & E).
  assert (Hn1 : INR (S n) * dt <= Tm) by nra. assert (HT1 : dt <= Tm) by (rewrite S_INR in Hn1; nra).
  split; [|split; [|split]].
  - intros j Hj. eapply Rle_trans; [apply tau_le; auto|]. apply Rmult_le_compat_l; [lra|]. eapply Rle_trans; [apply cell_bound; auto; lra|]. apply Rmult_le_compat_l; [lra|]. unfold K1. lra.
  - intros j Hj. eapply Rle_trans; [apply mu_le; auto|]. apply Rmult_le_compat_l; [lra|]. eapply Rle_trans; [apply cell_bound; auto; lra|]. apply Rmult_le_compat_l; [lra|]. unfold K1. lra.
  - pose proof (end_le vs 1 zs 0 ((INR 0 + / 2) * h) n ltac:(lra) (mid_in 0 ltac:(lia))) as L.
    replace (end_res vs 1 zs 0 ((INR 0 + / 2) * h) n) with (s0 n) in L by (unfold end_res, s0; ring).
    eapply Rle_trans; [apply L; auto|]; clear L.
    + replace ((INR 0 + / 2) * h - 0) with (h / 2) by (simpl; field). apply Rabs_right. lra.
    + intros t Ht. rewrite Rmult_1_l. now apply Hend.
    + intros t Ht. now apply Hneg.
    + eapply Rle_trans; [apply end_bound; auto|]. apply Rmult_le_compat_l; [lra|]. unfold K1. lra.
  - pose proof (end_le vl (-1) zl len ((INR P + / 2) * h) n ltac:(lra) (mid_in P ltac:(lia))) as L.
    replace (end_res vl (-1) zl len ((INR P + / 2) * h) n) with (sN n) in L by (unfold end_res, sN; ring).
    eapply Rle_trans; [apply L; auto|]; clear L.
    + replace ((INR P + / 2) * h - len) with (- (h / 2)); [rewrite Rabs_Ropp; apply Rabs_right; lra|]. pose proof h_all as E1. rewrite S_INR in E1. lra.
    + intros t Ht. rewrite <- (proj2 (Hend t Ht)). ring.
    + intros t Ht. now apply Hneg.
    + eapply Rle_trans; [apply end_bound; auto|]. apply Rmult_le_compat_l; [lra|]. unfold K1. lra.
Qed.

(** ** the errors of a run *)
Variables (v i : nat -> nat -> R) (n : nat).
Hypothesis Hn : (INR n + / 2) * dt <= Tm.
Hypothesis Hv0 : forall j, (j <= S P)%nat -> v 0%nat j = 0.
Hypothesis Hi0 : forall k, (k < S P)%nat -> i 0%nat k = 0.
Hypothesis Hnode : forall m j, (m < n)%nat -> (j < P)%nat ->
  h * (c * (v (S m) (S j) - v m (S j)) / dt + g * (v (S m) (S j) + v m (S j)) / 2) + i m (S j) - i m j = 0.
Hypothesis Hcell : forall m k, (m < n)%nat -> (k < S P)%nat ->
  h * (l * (i (S m) k - i m k) / dt + r * (i (S m) k + i m k) / 2) + v (S m) (S k) - v (S m) k = 0.
Hypothesis Hleft : forall m, (m < n)%nat ->
  h * zs * (c * (v (S m) 0%nat - v m 0%nat) / dt0 + g * (v (S m) 0%nat + v m 0%nat) / 2) + v (S m) 0%nat + v m 0%nat =
  vs (INR m * dt) + vs (INR m * dt - dt) - 2 * zs * i m 0%nat.
Hypothesis Hright : forall m, (m < n)%nat ->
  h * zl * (c * (v (S m) (S P) - v m (S P)) / dt0 + g * (v (S m) (S P) + v m (S P)) / 2) + v (S m) (S P) + v m (S P) =
  vl (INR m * dt) + vl (INR m * dt - dt) + 2 * zl * i m P.

Definition ev (m j : nat) : R := v m j - V (INR j * h) (INR m * dt).
Definition ei (m k : nat) : R := i m k - I ((INR k + / 2) * h) ((INR m + / 2) * dt).
Lemma errors_forced m : (m < n)%nat -> forced P h c Z rho r g zs zl (ev m) (ei m) (ev (S m)) (ei (S m)) (tau m) (mu m) (s0 m) (sN m).
Proof.
  intros Hm. pose proof step_pos as D. pose proof h_pos as Hh. assert (D0 : 0 < h * c * Z) by (apply Rmult_lt_0_compat; [now apply Rmult_lt_0_compat|auto]).
  assert (EL : INR (S P) * h = len) by (rewrite Rmult_comm; apply h_all). assert (E0 : INR 0 * h = 0) by (simpl; ring).
  split.
  - intros j Hj. pose proof (Hnode m j Hm Hj) as E. unfold ev, ei, tau. unfold Rdiv in *. lra.
  - intros k Hk. pose proof (Hcell m k Hm Hk) as E. rewrite <- HZl. unfold ev, ei, mu. unfold Rdiv in *. lra.
  - pose proof (Hleft m Hm) as E. unfold ev, ei, s0. rewrite E0. unfold Rdiv in *. lra.
  - pose proof (Hright m Hm) as E. unfold ev, ei, sN. rewrite EL. unfold Rdiv in *. lra.
Qed.
Lemma start_energy : En P h c Z rho (ev 0) (ei 0) <= len * l * (K * Tm * (c * Z)) ^ 2 / 8 * h ^ 2.
Proof.
  pose proof step_pos as D. pose proof h_pos as Hh. pose proof step_le as D1. pose proof K_nonneg as K0. pose proof (pos_INR n) as N0.
  assert (HT1 : dt / 2 <= Tm) by nra.
  assert (Z0 : forall j, (j <= S P)%nat -> ev 0 j = 0).
  { intros j Hj. unfold ev. rewrite Hv0 by auto. replace (INR 0 * dt) with 0 by (simpl; ring). rewrite (proj1 (Hrest _ (node_in j Hj))). ring. }
  assert (B : forall k, (k < S P)%nat -> ei 0 k ^ 2 <= (K * Tm * (c * Z) / 2 * h) ^ 2).
  { intros k Hk. unfold ei. rewrite Hi0 by auto. replace ((INR 0 + / 2) * dt) with (dt / 2) by (simpl; field).
    destruct (size ((INR k + / 2) * h) (dt / 2) (mid_in k Hk) ltac:(lra)) as (_ & A & _).
    replace ((0 - I ((INR k + / 2) * h) (dt / 2)) ^ 2) with (I ((INR k + / 2) * h) (dt / 2) ^ 2) by ring. rewrite <- pow2_abs.
    apply pow_incr. split; [apply Rabs_pos|]. eapply Rle_trans; [exact A|].
    replace (K * Tm * (c * Z) / 2 * h) with (K * (Tm * (h * (c * Z) / 2))) by field. apply Rmult_le_compat_l; auto. nra. }
  unfold En. rewrite (Z0 0%nat), (Z0 (S P)) by lia.
  rewrite (rsum_ext P _ (fun _ => 0)) by (intros j Hj; rewrite Z0 by lia; field).
  rewrite (rsum_ext (S P) _ (fun k => h * l / 2 * ei 0 k ^ 2)) by (intros k Hk; rewrite !Z0 by lia; rewrite HZl; field).
  rewrite rsum_const, rsum_scal. pose proof (rsum_le (S P) (fun k => ei 0 k ^ 2) (fun _ => (K * Tm * (c * Z) / 2 * h) ^ 2) B) as Q. rewrite rsum_const in Q.
  replace (len * l * (K * Tm * (c * Z)) ^ 2 / 8 * h ^ 2) with (h * l / 2 * (INR (S P) * (K * Tm * (c * Z) / 2 * h) ^ 2)).
  2:{ rewrite <- h_all at 1. field. }
  apply (Rmult_le_compat_l (h * l / 2)) in Q; [|nra]. lra.
Qed.

(** a bound in the square of the cell length that knows neither the cells nor the step *)
Definition Kf : R := 9 * (len * l * (K * Tm * (c * Z)) ^ 2 / 8 + 2 * Tm * (Dk c Z r zs zl len (Tlam Tm) * K1 ^ 2)).
Lemma Dk_pos : 0 <= Dk c Z r zs zl len (Tlam Tm).
Proof. pose proof h_pos. exact (Dk_nonneg P h c Z r zs zl H Hc HZ0 Hr Hzs Hzl len Tm h_all HTm). Qed.
Lemma Kf_nonneg : 0 <= Kf.
Proof.
  unfold Kf. pose proof Dk_pos. pose proof K1_nonneg. assert (0 <= len * l * (K * Tm * (c * Z)) ^ 2) by (apply Rmult_le_pos; [nra|apply pow2_ge_0]).
  assert (0 <= Dk c Z r zs zl len (Tlam Tm) * K1 ^ 2) by (apply Rmult_le_pos; [auto|apply pow2_ge_0]). assert (0 <= Tm * (Dk c Z r zs zl len (Tlam Tm) * K1 ^ 2)) by (apply Rmult_le_pos; lra). lra.
Qed.
Lemma run_error : En P h c Z rho (ev n) (ei n) + dt * rsum n (at_ends P zs zl ev) <= Kf * h ^ 2.
Proof.
  pose proof step_pos as D. pose proof h_pos as Hh. pose proof (pos_INR n) as N0.
  assert (RES : forall m, (m < n)%nat -> _) by (intros m Hm; refine (residuals m _); assert (INR (S m) <= INR n) by (apply le_INR; lia); nra).
  pose proof (run_bound P h c Z rho r g zs zl Hh Hc HZ0 Hrho Hr Hg Hzs Hzl ev ei tau mu s0 sN (h * K1) len Tm n h_all HTm ltac:(nra) errors_forced
    (fun m j Hm => proj1 (RES m Hm) j) (fun m k Hm => proj1 (proj2 (RES m Hm)) k) (fun m Hm => proj1 (proj2 (proj2 (RES m Hm)))) (fun m Hm => proj2 (proj2 (proj2 (RES m Hm))))) as B.
  eapply Rle_trans; [exact B|]. unfold Kf. pose proof start_energy as S0.
  replace (9 * (len * l * (K * Tm * (c * Z)) ^ 2 / 8 + 2 * Tm * (Dk c Z r zs zl len (Tlam Tm) * K1 ^ 2)) * h ^ 2) with
    (9 * (len * l * (K * Tm * (c * Z)) ^ 2 / 8 * h ^ 2 + 2 * Tm * (Dk c Z r zs zl len (Tlam Tm) * (h * K1) ^ 2))) by field. lra.
Qed.

Definition Bf : R := 14 * Kf * (/ c + / l) + 2 * (zs + zl) * Kf + (3 * Kf + 3 / 4 * c * Z ^ 2 * len ^ 3 * K1 ^ 2) / c.
Lemma Bf_parts : 0 <= 14 * Kf * (/ c + / l) /\ 0 <= 2 * (zs + zl) * Kf /\ 0 <= (3 * Kf + 3 / 4 * c * Z ^ 2 * len ^ 3 * K1 ^ 2) / c.
Proof.
  pose proof Kf_nonneg. assert (0 < / c) by now apply Rinv_0_lt_compat. assert (0 < / l) by now apply Rinv_0_lt_compat.
  split; [apply Rmult_le_pos; lra|]. split; [apply Rmult_le_pos; lra|].
  apply Rmult_le_pos; [|lra]. assert (0 <= c * Z ^ 2 * len ^ 3 * K1 ^ 2); [|lra].
  apply Rmult_le_pos; [|apply pow2_ge_0]. apply Rmult_le_pos; [|left; now apply pow_lt]. apply Rmult_le_pos; [lra|apply pow2_ge_0].
Qed.
Lemma Bf_nonneg : 0 <= Bf.
Proof. destruct Bf_parts as (A & B & C). unfold Bf. lra. Qed.
Lemma ends_sum_nonneg : 0 <= rsum n (at_ends P zs zl ev).
Proof. apply rsum_nonneg. intros m _. now apply at_ends_nonneg. Qed.
Lemma energy_error : En P h c Z rho (ev n) (ei n) <= Kf * h ^ 2.
Proof. pose proof run_error as H. pose proof step_pos as D. pose proof (Rmult_le_pos _ _ (Rlt_le _ _ D) ends_sum_nonneg). lra. Qed.
Lemma value_error : rho < 1 -> h * rsum P (fun j => ev n (S j) ^ 2) + h * rsum (S P) (fun k => ei n k ^ 2) <= Bf * h ^ 2 / (1 - rho).
Proof.
  intros R1. pose proof h_pos as Hh. pose proof energy_error as E. pose proof (values_bound P h c Z rho Hh Hc Hrho (ev n) (ei n) R1) as V1. rewrite <- HZl in V1.
  assert (S1 : 0 <= rsum P (fun j => ev n (S j) ^ 2)) by (apply rsum_nonneg; intros; apply pow2_ge_0). assert (S2 : 0 <= rsum (S P) (fun k => ei n k ^ 2)) by (apply rsum_nonneg; intros; apply pow2_ge_0).
  set (a := rsum P _) in *. set (b := rsum (S P) _) in *. set (w := 14 / (1 - rho) * En P h c Z rho (ev n) (ei n)) in *.
  assert (W : w <= 14 * Kf * h ^ 2 / (1 - rho)).
  { unfold w. replace (14 * Kf * h ^ 2 / (1 - rho)) with (14 / (1 - rho) * (Kf * h ^ 2)) by (field; lra). apply Rmult_le_compat_l; [|auto]. apply Rmult_le_pos; [lra|left; apply Rinv_0_lt_compat; lra]. }
  assert (A : h * a <= / c * w). { apply (Rmult_le_reg_l c); auto. replace (c * (/ c * w)) with w by (field; lra). assert (0 <= h * l * b) by (apply Rmult_le_pos; [nra|auto]). lra. }
  assert (B : h * b <= / l * w). { apply (Rmult_le_reg_l l); auto. replace (l * (/ l * w)) with w by (field; lra). assert (0 <= h * c * a) by (apply Rmult_le_pos; [nra|auto]). lra. }
  apply Rle_trans with ((/ c + / l) * w); [lra|]. assert (0 < / c) by now apply Rinv_0_lt_compat. assert (0 < / l) by now apply Rinv_0_lt_compat.
  apply Rle_trans with ((/ c + / l) * (14 * Kf * h ^ 2 / (1 - rho))); [apply Rmult_le_compat_l; lra|].
  replace ((/ c + / l) * (14 * Kf * h ^ 2 / (1 - rho))) with (14 * Kf * (/ c + / l) * (h ^ 2 / (1 - rho))) by (field; lra).
  replace (Bf * h ^ 2 / (1 - rho)) with (Bf * (h ^ 2 / (1 - rho))) by (field; lra). apply Rmult_le_compat_r.
  - apply Rmult_le_pos; [apply pow2_ge_0|left; apply Rinv_0_lt_compat; lra].
  - destruct Bf_parts as (X1 & X2 & X3). unfold Bf. lra.
Qed.
Lemma terminal_error : dt * rsum n (fun m => ((ev (S m) 0%nat + ev m 0%nat) / 2) ^ 2 + ((ev (S m) (S P) + ev m (S P)) / 2) ^ 2) <= Bf * h ^ 2.
Proof.
  pose proof h_pos as Hh. pose proof step_pos as D. pose proof run_error as E. pose proof (En_nonneg P h c Z rho Hh Hc Hrho (ev n) (ei n)) as E0.
  apply Rle_trans with (dt * rsum n (fun m => 2 * (zs + zl) * at_ends P zs zl ev m)).
  - apply Rmult_le_compat_l; [lra|]. apply rsum_le. intros m _. unfold at_ends. set (x := ((ev (S m) 0%nat + ev m 0%nat) / 2) ^ 2). set (y := ((ev (S m) (S P) + ev m (S P)) / 2) ^ 2).
    assert (0 <= x) by apply pow2_ge_0. assert (0 <= y) by apply pow2_ge_0.
    replace (2 * (zs + zl) * (x / (2 * zs) + y / (2 * zl))) with (x + y + x * (zl / zs) + y * (zs / zl)) by (field; lra).
    assert (0 <= x * (zl / zs)) by (apply Rmult_le_pos; auto; left; now apply Rdiv_lt_0_compat). assert (0 <= y * (zs / zl)) by (apply Rmult_le_pos; auto; left; now apply Rdiv_lt_0_compat). lra.
  - rewrite rsum_scal. replace (dt * (2 * (zs + zl) * rsum n (at_ends P zs zl ev))) with (2 * (zs + zl) * (dt * rsum n (at_ends P zs zl ev))) by ring.
    apply Rle_trans with (2 * (zs + zl) * (Kf * h ^ 2)); [apply Rmult_le_compat_l; lra|]. destruct Bf_parts as (X1 & X2 & X3). rewrite <- Rmult_assoc.
    apply Rmult_le_compat_r; [apply pow2_ge_0|]. unfold Bf. lra.
Qed.
Lemma mean_error k : (k < n)%nat -> En P h c Z rho (ev k) (ei k) <= Kf * h ^ 2 -> h * rsum P (fun j => ((ev (S k) (S j) + ev k (S j)) / 2) ^ 2) <= Bf * h ^ 2.
Proof.
  intros Hk E. pose proof h_pos as Hh. pose proof step_pos as D. pose proof h_len as HL.
  pose proof (mean_voltage P h c Z rho r g zs zl Hh Hc HZ0 Hrho Hg _ _ _ _ _ _ _ _ (errors_forced k Hk)) as M. cbv beta in M.
  assert (RES := residuals k ltac:(assert (INR (S k) <= INR n) by (apply le_INR; lia); nra)). destruct RES as (RT & _).
  pose proof (sum_sq_le P h Hh (h * K1) len h_all P (tau k) ltac:(lia) RT) as Q.
  set (a := rsum P (fun j => ((ev (S k) (S j) + ev k (S j)) / 2) ^ 2)) in *.
  assert (HB : h * c * a <= (3 * Kf + 3 / 4 * c * Z ^ 2 * len ^ 3 * K1 ^ 2) * h ^ 2).
  { eapply Rle_trans; [exact M|].
    assert (0 <= 3 / 4 * c * Z ^ 2) by (apply Rmult_le_pos; [lra|apply pow2_ge_0]).
    apply (Rmult_le_compat_l (3 / 4 * c * Z ^ 2)) in Q; auto.
    replace (3 / 4 * h * c * Z ^ 2 * rsum P (fun j => tau k j ^ 2)) with (3 / 4 * c * Z ^ 2 * (h * rsum P (fun j => tau k j ^ 2))) by ring.
    replace ((3 * Kf + 3 / 4 * c * Z ^ 2 * len ^ 3 * K1 ^ 2) * h ^ 2) with (3 * (Kf * h ^ 2) + 3 / 4 * c * Z ^ 2 * (len ^ 3 * (h * K1) ^ 2)) by ring. lra. }
  apply Rle_trans with ((3 * Kf + 3 / 4 * c * Z ^ 2 * len ^ 3 * K1 ^ 2) / c * h ^ 2).
  - apply (Rmult_le_reg_l c); auto. replace (c * ((3 * Kf + 3 / 4 * c * Z ^ 2 * len ^ 3 * K1 ^ 2) / c * h ^ 2)) with ((3 * Kf + 3 / 4 * c * Z ^ 2 * len ^ 3 * K1 ^ 2) * h ^ 2) by (field; lra). lra.
  - apply Rmult_le_compat_r; [apply pow2_ge_0|]. destruct Bf_parts as (X1 & X2 & X3). unfold Bf. lra.
Qed.
End Trunc.

(** the sequences a scheme with [S P] cells and the step [dt] computes *)
Record scheme (l c r g len zs zl : R) (vs vl : R -> R) (P : nat) (Z rho : R) (v i : nat -> nat -> R) (n : nat) : Prop := {
  sc_v0 : forall j, (j <= S P)%nat -> v 0%nat j = 0; sc_i0 : forall k, (k < S P)%nat -> i 0%nat k = 0;
  sc_node : let h := len / INR (S P) in let dt := rho * (h * c * Z) in forall m j, (m < n)%nat -> (j < P)%nat ->
    h * (c * (v (S m) (S j) - v m (S j)) / dt + g * (v (S m) (S j) + v m (S j)) / 2) + i m (S j) - i m j = 0;
  sc_cell : let h := len / INR (S P) in let dt := rho * (h * c * Z) in forall m k, (m < n)%nat -> (k < S P)%nat ->
    h * (l * (i (S m) k - i m k) / dt + r * (i (S m) k + i m k) / 2) + v (S m) (S k) - v (S m) k = 0;
  sc_left : let h := len / INR (S P) in let dt := rho * (h * c * Z) in forall m, (m < n)%nat ->
    h * zs * (c * (v (S m) 0%nat - v m 0%nat) / (h * c * Z) + g * (v (S m) 0%nat + v m 0%nat) / 2) + v (S m) 0%nat + v m 0%nat =
    vs (INR m * dt) + vs (INR m * dt - dt) - 2 * zs * i m 0%nat;
  sc_right : let h := len / INR (S P) in let dt := rho * (h * c * Z) in forall m, (m < n)%nat ->
    h * zl * (c * (v (S m) (S P) - v m (S P)) / (h * c * Z) + g * (v (S m) (S P) + v m (S P)) / 2) + v (S m) (S P) + v m (S P) =
    vl (INR m * dt) + vl (INR m * dt - dt) + 2 * zl * i m P
}.

Lemma scheme_converges (l c r g len zs zl Tm : R) (vs vl : R -> R) (V I : R -> R -> R) (K Z : R) :
  0 < l -> 0 < c -> 0 <= r -> 0 <= g -> 0 < len -> 0 < zs -> 0 < zl -> 0 < Tm -> l = c * Z * Z -> 0 < Z -> telegraph l c r g len zs zl Tm vs vl V I K ->
  exists B, 0 <= B /\ forall P rho v i n, 0 < rho <= 1 -> scheme l c r g len zs zl vs vl P Z rho v i n ->
    let h := len / INR (S P) in let dt := rho * (h * c * Z) in (INR n + / 2) * dt <= Tm ->
    let X m j := v m j - V (INR j * h) (INR m * dt) in let Y m k := i m k - I ((INR k + / 2) * h) ((INR m + / 2) * dt) in
    (rho < 1 -> h * rsum P (fun j => X n (S j) ^ 2) + h * rsum (S P) (fun k => Y n k ^ 2) <= B * h ^ 2 / (1 - rho)) /\
    dt * rsum n (fun m => ((X (S m) 0%nat + X m 0%nat) / 2) ^ 2 + ((X (S m) (S P) + X m (S P)) / 2) ^ 2) <= B * h ^ 2 /\
    (forall k, (k < n)%nat -> h * rsum P (fun j => ((X (S k) (S j) + X k (S j)) / 2) ^ 2) <= B * h ^ 2).
Proof.
  intros Hl Hc Hr Hg Hlen Hzs Hzl HTm HZl HZ0 (Vz & Vt & Iz & It & H1 & H2 & H3 & H4 & H5 & H6).
  exists (Bf l c r g len zs zl Tm K Z). split.
  { eapply Bf_nonneg; eauto; try exact O. }
  intros P rho v i n Hrho S h dt Hn X Y. destruct S as [A1 A2 A3 A4 A5 A6]. cbv zeta in *. split; [|split].
  - eapply (value_error l c r g len zs zl Tm vs vl V I Vz Vt Iz It K); eauto.
  - eapply (terminal_error l c r g len zs zl Tm vs vl V I Vz Vt Iz It K); eauto.
  - intros k Hk. eapply (mean_error l c r g len zs zl Tm vs vl V I Vz Vt Iz It K) with (n := n); eauto.
    eapply (energy_error l c r g len zs zl Tm vs vl V I Vz Vt Iz It K) with (n := k); eauto; try (intros; match goal with H : _ |- _ => apply H; lia end).
    assert (INR k <= INR n) by (apply le_INR; lia). assert (0 < dt).
    { unfold dt. apply Rmult_lt_0_compat; [lra|]. apply Rmult_lt_0_compat; [|auto]. apply Rmult_lt_0_compat; auto. apply Rdiv_lt_0_compat; auto. apply lt_0_INR. lia. }
    fold h. fold dt. nra.
Qed.
