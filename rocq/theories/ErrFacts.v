(** The scheme of a line of one conductor with residuals in its equations: how far the errors of
    node voltages [e] and cell currents [d] can grow.  Pure real analysis, no model. *)
From Coq Require Import Arith Lia Reals Lra Psatz.
Local Open Scope R_scope.

Fixpoint rsum (n : nat) (f : nat -> R) : R :=
  match n with O => 0 | S p => rsum p f + f p end.
Lemma rsum_ext n f g : (forall k, (k < n)%nat -> f k = g k) -> rsum n f = rsum n g.
Proof. induction n as [|n IH]; intros H; [reflexivity|]. cbn. rewrite IH, H; auto. Qed.
Lemma rsum_plus n f g : rsum n (fun k => f k + g k) = rsum n f + rsum n g.
Proof. induction n as [|n IH]; cbn; [ring|]. rewrite IH; ring. Qed.
Lemma rsum_scal n a f : rsum n (fun k => a * f k) = a * rsum n f.
Proof. induction n as [|n IH]; cbn; [ring|]. rewrite IH; ring. Qed.
Lemma rsum_minus n f g : rsum n (fun k => f k - g k) = rsum n f - rsum n g.
Proof. induction n as [|n IH]; cbn; [ring|]. rewrite IH; ring. Qed.
Lemma rsum_le n f g : (forall k, (k < n)%nat -> f k <= g k) -> rsum n f <= rsum n g.
Proof. induction n as [|n IH]; intros H; cbn; [lra|]. apply Rplus_le_compat; auto. Qed.
Lemma rsum_nonneg n f : (forall k, (k < n)%nat -> 0 <= f k) -> 0 <= rsum n f.
Proof. induction n as [|n IH]; intros H; cbn; [lra|]. apply Rplus_le_le_0_compat; auto. Qed.
Lemma rsum_const n a : rsum n (fun _ => a) = INR n * a.
Proof. induction n as [|n IH]; [cbn; ring|]. cbn [rsum]. rewrite IH, S_INR. ring. Qed.
Lemma rsum_shift n f : rsum (S n) f = f 0%nat + rsum n (fun k => f (S k)).
Proof. induction n as [|n IH]; cbn in *; [ring|]. rewrite IH. ring. Qed.

Lemma parts P (s d : nat -> R) :
  rsum (S P) (fun k => d k * (s (S k) - s k)) =
  s (S P) * d P - s 0%nat * d 0%nat - rsum P (fun j => s (S j) * (d (S j) - d j)).
Proof. induction P as [|P IH]; [cbn; ring|]. cbn [rsum] in *. rewrite IH. ring. Qed.
Lemma squares P (d : nat -> R) :
  rsum P (fun j => d (S j) ^ 2 + d j ^ 2) = 2 * rsum (S P) (fun k => d k ^ 2) - d 0%nat ^ 2 - d P ^ 2.
Proof. induction P as [|P IH]; [cbn; ring|]. cbn [rsum] in *. rewrite IH. ring. Qed.

Section Scheme.
(** [P + 1] cells of length [h], impedance [Z] and capacitance [c] per unit length, [rho] the part
    of the largest step that is used; the end nodes are advanced with the largest step *)
Variables (P : nat) (h c Z rho r g zs zl : R).
Hypothesis Hh : 0 < h.
Hypothesis Hc : 0 < c.
Hypothesis HZ : 0 < Z.
Hypothesis Hrho : 0 < rho <= 1.
Hypothesis Hr : 0 <= r.
Hypothesis Hg : 0 <= g.
Hypothesis Hzs : 0 < zs.
Hypothesis Hzl : 0 < zl.
Notation l := (c * Z * Z).
Notation dt0 := (h * c * Z).
Notation dt := (rho * (h * c * Z)).

Definition En (e d : nat -> R) : R :=
  rho * h / 2 * c * e 0%nat ^ 2 / 2 + rho * h / 2 * c * e (S P) ^ 2 / 2
  + rsum P (fun j => h * c * e (S j) ^ 2 / 2)
  + rsum (S P) (fun k => h * l * d k ^ 2 / 2 + dt / 2 * (d k * (e (S k) - e k))).

(** the combinations of voltage and current that the energy controls *)
Definition combos (e d : nat -> R) : R :=
  rsum P (fun j => (e (S j) - rho * Z * d (S j)) ^ 2 + (e (S j) + rho * Z * d j) ^ 2)
  + rho * (e 0%nat - Z * d 0%nat) ^ 2 + rho * (e (S P) + Z * d P) ^ 2.
Definition sqd (d : nat -> R) : R := Z ^ 2 * rsum (S P) (fun k => d k ^ 2).

Lemma ends_le (d : nat -> R) : d 0%nat ^ 2 + d P ^ 2 <= 2 * rsum (S P) (fun k => d k ^ 2).
Proof.
  pose proof (squares P d). assert (0 <= rsum P (fun j => d (S j) ^ 2 + d j ^ 2)); [|lra].
  apply rsum_nonneg. intros k _. pose proof (pow2_ge_0 (d (S k))). pose proof (pow2_ge_0 (d k)). lra.
Qed.
Lemma sqd_nonneg d : 0 <= sqd d.
Proof. unfold sqd. apply Rmult_le_pos; [apply pow2_ge_0|]. apply rsum_nonneg. intros; apply pow2_ge_0. Qed.
Lemma combos_nonneg e d : 0 <= combos e d.
Proof.
  unfold combos. assert (0 <= rsum P (fun j => (e (S j) - rho * Z * d (S j)) ^ 2 + (e (S j) + rho * Z * d j) ^ 2)).
  { apply rsum_nonneg. intros j _. pose proof (pow2_ge_0 (e (S j) - rho * Z * d (S j))). pose proof (pow2_ge_0 (e (S j) + rho * Z * d j)). lra. }
  pose proof (Rmult_le_pos rho _ ltac:(lra) (pow2_ge_0 (e 0%nat - Z * d 0%nat))).
  pose proof (Rmult_le_pos rho _ ltac:(lra) (pow2_ge_0 (e (S P) + Z * d P))). lra.
Qed.

Lemma En_eq e d : En e d =
  h * c / 4 * (combos e d + (2 - 2 * rho ^ 2) * sqd d + (rho ^ 2 - rho) * Z ^ 2 * (d 0%nat ^ 2 + d P ^ 2)).
Proof.
  unfold En, combos, sqd.
  rewrite rsum_plus, (rsum_scal (S P) (dt / 2) (fun k => d k * (e (S k) - e k))), parts.
  rewrite (rsum_ext P (fun j => (e (S j) - rho * Z * d (S j)) ^ 2 + (e (S j) + rho * Z * d j) ^ 2)
    (fun j => (2 * e (S j) ^ 2 + - (2 * rho * Z) * (e (S j) * (d (S j) - d j))) + rho ^ 2 * Z ^ 2 * (d (S j) ^ 2 + d j ^ 2))) by (intros; ring).
  rewrite rsum_plus, rsum_scal, squares, rsum_plus, !rsum_scal.
  rewrite (rsum_ext P (fun j => h * c * e (S j) ^ 2 / 2) (fun j => h * c / 2 * e (S j) ^ 2)) by (intros; field).
  rewrite (rsum_ext (S P) (fun k => h * l * d k ^ 2 / 2) (fun k => h * l / 2 * d k ^ 2)) by (intros; field).
  rewrite !rsum_scal. field.
Qed.

Lemma En_lower e d : h * c / 4 * (combos e d + 2 * (1 - rho) * sqd d) <= En e d.
Proof.
  rewrite En_eq. apply Rmult_le_compat_l; [nra|].
  pose proof (ends_le d) as H. pose proof (sqd_nonneg d) as H0.
  assert ((rho - rho ^ 2) * (Z ^ 2 * (d 0%nat ^ 2 + d P ^ 2)) <= (rho - rho ^ 2) * (2 * sqd d)).
  { apply Rmult_le_compat_l; [nra|]. unfold sqd. replace (2 * (Z ^ 2 * rsum (S P) (fun k => d k ^ 2))) with (Z ^ 2 * (2 * rsum (S P) (fun k => d k ^ 2))) by ring.
    apply Rmult_le_compat_l; [apply pow2_ge_0|auto]. }
  nra.
Qed.
Lemma En_nonneg e d : 0 <= En e d.
Proof.
  eapply Rle_trans; [|apply En_lower]. pose proof (combos_nonneg e d). pose proof (sqd_nonneg d).
  apply Rmult_le_pos; [nra|]. apply Rplus_le_le_0_compat; auto. apply Rmult_le_pos; [lra|auto].
Qed.

(** one step with residuals *)
Record forced (e d e' d' tau mu : nat -> R) (s0 sN : R) : Prop := {
  fo_node : forall j, (j < P)%nat ->
    h * (c * (e' (S j) - e (S j)) / dt + g * (e' (S j) + e (S j)) / 2) + d (S j) - d j = - tau j;
  fo_cell : forall k, (k < S P)%nat ->
    h * (l * (d' k - d k) / dt + r * (d' k + d k) / 2) + e' (S k) - e' k = - mu k;
  fo_left : h * zs * (c * (e' 0%nat - e 0%nat) / dt0 + g * (e' 0%nat + e 0%nat) / 2) + e' 0%nat + e 0%nat = s0 - 2 * zs * d 0%nat;
  fo_right : h * zl * (c * (e' (S P) - e (S P)) / dt0 + g * (e' (S P) + e (S P)) / 2) + e' (S P) + e (S P) = sN + 2 * zl * d P
}.

Lemma rho_sq : 0 < rho ^ 2 /\ rho ^ 2 <= rho /\ rho ^ 2 <= 1.
Proof. replace (rho ^ 2) with (rho * rho) by ring. repeat split; nra. Qed.

Section Step.
Variables (e d e' d' tau mu : nat -> R) (s0 sN : R).
Hypothesis F : forced e d e' d' tau mu s0 sN.
Notation em k := ((e' k + e k) / 2).
Notation dm k := ((d' k + d k) / 2).

Lemma dt_pos : 0 < dt.
Proof. assert (0 < h * c) by nra. assert (0 < h * c * Z) by nra. nra. Qed.
Lemma dt0_pos : 0 < dt0.
Proof. assert (0 < h * c) by nra. nra. Qed.

Lemma balance : En e' d' - En e d =
  dt * (- rsum P (fun j => tau j * em (S j) + h * g * em (S j) ^ 2)
        - rsum (S P) (fun k => mu k * dm k + h * r * dm k ^ 2)
        + em 0 * (s0 / 2 - em 0) / zs - h / 2 * g * em 0 ^ 2
        + em (S P) * (sN / 2 - em (S P)) / zl - h / 2 * g * em (S P) ^ 2).
Proof.
  pose proof dt_pos as D. pose proof dt0_pos as D0.
  assert (N0 : rho * h / 2 * c * e' 0%nat ^ 2 / 2 - rho * h / 2 * c * e 0%nat ^ 2 / 2 =
    dt * (em 0 * (s0 / 2 - em 0) / zs - h / 2 * g * em 0 ^ 2 - em 0 * d 0%nat)).
  { pose proof (fo_left _ _ _ _ _ _ _ _ F) as E.
    assert (Es : s0 = h * zs * (c * (e' 0%nat - e 0%nat) / dt0 + g * (e' 0%nat + e 0%nat) / 2) + e' 0%nat + e 0%nat + 2 * zs * d 0%nat) by lra.
    rewrite Es. field. repeat split; lra. }
  assert (NN : rho * h / 2 * c * e' (S P) ^ 2 / 2 - rho * h / 2 * c * e (S P) ^ 2 / 2 =
    dt * (em (S P) * (sN / 2 - em (S P)) / zl - h / 2 * g * em (S P) ^ 2 + em (S P) * d P)).
  { pose proof (fo_right _ _ _ _ _ _ _ _ F) as E.
    assert (Es : sN = h * zl * (c * (e' (S P) - e (S P)) / dt0 + g * (e' (S P) + e (S P)) / 2) + e' (S P) + e (S P) - 2 * zl * d P) by lra.
    rewrite Es. field. repeat split; lra. }
  assert (NI : rsum P (fun j => h * c * e' (S j) ^ 2 / 2) - rsum P (fun j => h * c * e (S j) ^ 2 / 2) =
    dt * (- rsum P (fun j => tau j * em (S j) + h * g * em (S j) ^ 2) - rsum P (fun j => em (S j) * (d (S j) - d j)))).
  { rewrite <- rsum_minus.
    transitivity (rsum P (fun j => - dt * (tau j * em (S j) + h * g * em (S j) ^ 2) + - dt * (em (S j) * (d (S j) - d j)))).
    2:{ rewrite rsum_plus, !rsum_scal. ring. }
    apply rsum_ext. intros j Hj. pose proof (fo_node _ _ _ _ _ _ _ _ F j Hj) as E.
    assert (Et : tau j = - (h * (c * (e' (S j) - e (S j)) / dt + g * (e' (S j) + e (S j)) / 2) + d (S j) - d j)) by lra.
    rewrite Et. field. repeat split; lra. }
  assert (NC : rsum (S P) (fun k => h * l * d' k ^ 2 / 2 + dt / 2 * (d' k * (e' (S k) - e' k)))
     - rsum (S P) (fun k => h * l * d k ^ 2 / 2 + dt / 2 * (d k * (e (S k) - e k))) =
    dt * (- rsum (S P) (fun k => mu k * dm k + h * r * dm k ^ 2) - rsum (S P) (fun k => d k * (em (S k) - em k)))).
  { rewrite <- rsum_minus.
    transitivity (rsum (S P) (fun k => - dt * (mu k * dm k + h * r * dm k ^ 2) + - dt * (d k * (em (S k) - em k)))).
    2:{ rewrite rsum_plus, !rsum_scal. ring. }
    apply rsum_ext. intros k Hk. pose proof (fo_cell _ _ _ _ _ _ _ _ F k Hk) as E.
    assert (Et : mu k = - (h * (l * (d' k - d k) / dt + r * (d' k + d k) / 2) + e' (S k) - e' k)) by lra.
    rewrite Et. field. repeat split; lra. }
  unfold En. pose proof (parts P (fun k => em k) d) as Pt. cbv beta in Pt. rewrite Pt in NC. clear Pt. nra.
Qed.

(** the means over a step are controlled, whatever the step *)
Lemma mean_voltage : h * c * rsum P (fun j => em (S j) ^ 2) <= 3 * En e d + 3 / 4 * h * c * Z ^ 2 * rsum P (fun j => tau j ^ 2).
Proof.
  pose proof dt_pos as D. pose proof dt0_pos as D0.
  set (X := fun j => e (S j) - rho * Z * d (S j)). set (Y := fun j => e (S j) + rho * Z * d j).
  assert (B : forall j, (j < P)%nat -> em (S j) ^ 2 <= 3 / 4 * ((X j ^ 2 + Y j ^ 2) + Z ^ 2 * tau j ^ 2)).
  { intros j Hj. pose proof (fo_node _ _ _ _ _ _ _ _ F j Hj) as E.
    set (q := g * dt / (2 * c)). assert (Hq : 0 <= q).
    { unfold q. apply Rmult_le_pos; [apply Rmult_le_pos; lra|]. left. apply Rinv_0_lt_compat. lra. }
    assert (E' : 2 * em (S j) * (1 + q) = X j + Y j - rho * Z * tau j).
    { assert (Et : tau j = - (h * (c * (e' (S j) - e (S j)) / dt + g * (e' (S j) + e (S j)) / 2) + d (S j) - d j)) by lra.
      rewrite Et. unfold X, Y, q. field. repeat split; lra. }
    set (m := em (S j)) in *.
    assert (4 * m ^ 2 <= (2 * m * (1 + q)) ^ 2).
    { replace ((2 * m * (1 + q)) ^ 2) with (4 * m ^ 2 * (1 + q) ^ 2) by ring.
      rewrite <- (Rmult_1_r (4 * m ^ 2)) at 1. apply Rmult_le_compat_l; [pose proof (pow2_ge_0 m); lra|nra]. }
    rewrite E' in H. set (w := rho * Z * tau j) in *.
    assert (w ^ 2 <= Z ^ 2 * tau j ^ 2).
    { unfold w. replace ((rho * Z * tau j) ^ 2) with (rho ^ 2 * (Z ^ 2 * tau j ^ 2)) by ring.
      rewrite <- (Rmult_1_l (Z ^ 2 * tau j ^ 2)) at 2. apply Rmult_le_compat_r; [|nra].
      apply Rmult_le_pos; apply pow2_ge_0. }
    assert ((X j + Y j - w) ^ 2 <= 3 * (X j ^ 2 + Y j ^ 2 + w ^ 2)).
    { pose proof (pow2_ge_0 (X j - Y j)). pose proof (pow2_ge_0 (X j + w)). pose proof (pow2_ge_0 (Y j + w)). nra. }
    lra. }
  apply rsum_le in B. rewrite rsum_scal, (rsum_plus P (fun j => X j ^ 2 + Y j ^ 2)), rsum_scal in B.
  assert (C1 : h * c / 4 * rsum P (fun j => X j ^ 2 + Y j ^ 2) <= En e d).
  { eapply Rle_trans; [|apply En_lower]. apply Rmult_le_compat_l; [nra|]. unfold combos. fold (X 0%nat).
    pose proof (Rmult_le_pos rho _ ltac:(lra) (pow2_ge_0 (e 0%nat - Z * d 0%nat))).
    pose proof (Rmult_le_pos rho _ ltac:(lra) (pow2_ge_0 (e (S P) + Z * d P))).
    pose proof (Rmult_le_pos (2 * (1 - rho)) _ ltac:(lra) (sqd_nonneg d)). unfold X, Y. lra. }
  assert (HC : 0 < h * c) by nra. apply (Rmult_le_compat_l (h * c)) in B; [|lra]. lra.
Qed.

Definition Wk (k : nat) : R := 2 * Z * dm k - rho * h * r * dm k.
Lemma Wk_eq k : (k < S P)%nat -> Wk k = (Z * d' k - rho * e' k) + (Z * d' k + rho * e' (S k)) + rho * mu k.
Proof.
  intros Hk. pose proof dt_pos as D. pose proof dt0_pos as D0. pose proof (fo_cell _ _ _ _ _ _ _ _ F k Hk) as E.
  assert (Et : mu k = - (h * (l * (d' k - d k) / dt + r * (d' k + d k) / 2) + e' (S k) - e' k)) by lra.
  rewrite Et. unfold Wk. field. repeat split; lra.
Qed.
Lemma sum_W : h * c * rsum (S P) (fun k => Wk k ^ 2) <= 48 * En e' d' + 3 * h * c * rsum (S P) (fun k => mu k ^ 2).
Proof.
  pose proof rho_sq as (R0 & R1 & R2).
  set (Pk := fun k => Z * d' k - rho * e' k). set (Qk := fun k => Z * d' k + rho * e' (S k)).
  assert (B : rsum (S P) (fun k => Wk k ^ 2) <= 3 * (rsum (S P) (fun k => Pk k ^ 2) + rsum (S P) (fun k => Qk k ^ 2)) + 3 * rsum (S P) (fun k => mu k ^ 2)).
  { rewrite <- !rsum_plus, <- !rsum_scal, <- rsum_plus. apply rsum_le. intros k Hk. rewrite Wk_eq by auto. fold (Pk k) (Qk k).
    set (w := rho * mu k). assert (w ^ 2 <= mu k ^ 2).
    { unfold w. replace ((rho * mu k) ^ 2) with (rho ^ 2 * mu k ^ 2) by ring. rewrite <- (Rmult_1_l (mu k ^ 2)) at 2.
      apply Rmult_le_compat_r; [apply pow2_ge_0|nra]. }
    pose proof (pow2_ge_0 (Pk k - Qk k)). pose proof (pow2_ge_0 (Pk k - w)). pose proof (pow2_ge_0 (Qk k - w)). nra. }
  (* a half cell next to an interior node, and one next to an end *)
  assert (I1 : forall x y, (Z * y - rho * x) ^ 2 <= 2 * (x - rho * Z * y) ^ 2 + 4 * (1 - rho) * Z ^ 2 * y ^ 2).
  { intros x y. set (a := x - rho * Z * y). set (b := Z * y). assert (0 <= b ^ 2) by apply pow2_ge_0. assert (0 <= a ^ 2) by apply pow2_ge_0.
    replace ((b - rho * x) ^ 2) with (((1 - rho ^ 2) * b - rho * a) ^ 2) by (unfold a, b; ring).
    replace (4 * (1 - rho) * Z ^ 2 * y ^ 2) with (4 * (1 - rho) * b ^ 2) by (unfold b; ring).
    assert (((1 - rho ^ 2) * b - rho * a) ^ 2 <= 2 * ((1 - rho ^ 2) ^ 2 * b ^ 2) + 2 * (rho ^ 2 * a ^ 2)).
    { pose proof (pow2_ge_0 ((1 - rho ^ 2) * b + rho * a)). nra. }
    assert ((1 - rho ^ 2) ^ 2 * b ^ 2 <= 2 * (1 - rho) * b ^ 2).
    { apply Rmult_le_compat_r; auto. assert (0 <= 1 - rho ^ 2 <= 1) by (split; nra). assert (1 - rho ^ 2 <= 2 * (1 - rho)) by nra. nra. }
    assert (rho ^ 2 * a ^ 2 <= 1 * a ^ 2) by (apply Rmult_le_compat_r; auto). lra. }
  assert (I2 : forall x y, (Z * y + rho * x) ^ 2 <= 2 * (x + rho * Z * y) ^ 2 + 4 * (1 - rho) * Z ^ 2 * y ^ 2).
  { intros x y. specialize (I1 (- x) y). replace (- x - rho * Z * y) with (- (x + rho * Z * y)) in I1 by ring.
    replace (Z * y - rho * - x) with (Z * y + rho * x) in I1 by ring. replace ((- (x + rho * Z * y)) ^ 2) with ((x + rho * Z * y) ^ 2) in I1 by ring. exact I1. }
  assert (I3 : forall x y, (Z * y - rho * x) ^ 2 <= 2 * (rho * (x - Z * y) ^ 2) + 4 * (1 - rho) * Z ^ 2 * y ^ 2).
  { intros x y. set (a := x - Z * y). set (b := Z * y). assert (0 <= b ^ 2) by apply pow2_ge_0. assert (0 <= a ^ 2) by apply pow2_ge_0.
    replace ((b - rho * x) ^ 2) with (((1 - rho) * b - rho * a) ^ 2) by (unfold a, b; ring).
    replace (4 * (1 - rho) * Z ^ 2 * y ^ 2) with (4 * (1 - rho) * b ^ 2) by (unfold b; ring).
    assert (((1 - rho) * b - rho * a) ^ 2 <= 2 * ((1 - rho) ^ 2 * b ^ 2) + 2 * (rho ^ 2 * a ^ 2)).
    { pose proof (pow2_ge_0 ((1 - rho) * b + rho * a)). nra. }
    assert ((1 - rho) ^ 2 * b ^ 2 <= 2 * (1 - rho) * b ^ 2) by (apply Rmult_le_compat_r; auto; nra).
    assert (rho ^ 2 * a ^ 2 <= rho * a ^ 2) by (apply Rmult_le_compat_r; auto). lra. }
  assert (I4 : forall x y, (Z * y + rho * x) ^ 2 <= 2 * (rho * (x + Z * y) ^ 2) + 4 * (1 - rho) * Z ^ 2 * y ^ 2).
  { intros x y. specialize (I3 (- x) y). replace (- x - Z * y) with (- (x + Z * y)) in I3 by ring.
    replace (Z * y - rho * - x) with (Z * y + rho * x) in I3 by ring. replace ((- (x + Z * y)) ^ 2) with ((x + Z * y) ^ 2) in I3 by ring. exact I3. }
  assert (B2 : rsum (S P) (fun k => Pk k ^ 2) + rsum (S P) (fun k => Qk k ^ 2) <= 2 * combos e' d' + 8 * (1 - rho) * sqd d').
  { rewrite (rsum_shift P (fun k => Pk k ^ 2)). cbn [rsum].
    assert (Q1 : rsum P (fun k => Pk (S k) ^ 2) + rsum P (fun k => Qk k ^ 2) <=
      2 * rsum P (fun j => (e' (S j) - rho * Z * d' (S j)) ^ 2 + (e' (S j) + rho * Z * d' j) ^ 2) + 4 * (1 - rho) * Z ^ 2 * rsum P (fun j => d' (S j) ^ 2 + d' j ^ 2)).
    { rewrite <- !rsum_scal, <- !rsum_plus. apply rsum_le. intros j Hj. unfold Pk, Qk.
      pose proof (I1 (e' (S j)) (d' (S j))). pose proof (I2 (e' (S j)) (d' j)). lra. }
    rewrite squares in Q1. pose proof (I3 (e' 0%nat) (d' 0%nat)) as E0. pose proof (I4 (e' (S P)) (d' P)) as E1. fold (Pk 0%nat) in E0. fold (Qk P) in E1.
    unfold combos, sqd. lra. }
  pose proof (En_lower e' d') as L. assert (HC : 0 < h * c) by nra. pose proof (combos_nonneg e' d').
  apply (Rmult_le_compat_l (h * c)) in B; [|lra]. apply (Rmult_le_compat_l (h * c)) in B2; [|lra].
  assert (h * c * (2 * combos e' d' + 8 * (1 - rho) * sqd d') <= 16 * En e' d').
  { assert (0 <= h * c * combos e' d') by (apply Rmult_le_pos; lra). nra. }
  lra.
Qed.

(** ** one step, residuals bounded by [kap] *)
Variables (kap len lam : R).
Hypothesis Hlen : h * INR (S P) = len.
Hypothesis Hlam : 0 < lam.
Hypothesis Ktau : forall j, (j < P)%nat -> Rabs (tau j) <= h * kap.
Hypothesis Kmu : forall k, (k < S P)%nat -> Rabs (mu k) <= h * kap.
Hypothesis K0 : Rabs s0 <= kap.
Hypothesis KN : Rabs sN <= kap.

Lemma sq_le x y : Rabs x <= y -> x ^ 2 <= y ^ 2.
Proof. intros H. rewrite <- (pow2_abs x). apply pow_incr. split; auto. apply Rabs_pos. Qed.
Lemma young a b be : 0 < be -> a * b <= a ^ 2 / (4 * be) + be * b ^ 2.
Proof.
  intros H. assert (E : a ^ 2 / (4 * be) + be * b ^ 2 - a * b = be * (b - a / (2 * be)) ^ 2) by (field; lra).
  pose proof (Rmult_le_pos be _ (Rlt_le _ _ H) (pow2_ge_0 (b - a / (2 * be)))). lra.
Qed.
Definition Dk : R := len / (4 * (c * lam)) + len / (16 * Z ^ 2 * (c * lam)) + 3 / 4 * lam * c * Z ^ 2 * len ^ 3 + 3 * lam * c * len ^ 3
  + r * len ^ 3 / (16 * Z ^ 2) + / (8 * zs) + / (8 * zl).

Lemma len_h : h <= len.
Proof. rewrite <- Hlen, S_INR. pose proof (pos_INR P). nra. Qed.
Lemma sum_const_le n x : 0 <= x -> (n <= S P)%nat -> h * rsum n (fun _ => x) <= len * x.
Proof. intros H Hn. rewrite rsum_const, <- Hlen, Rmult_assoc. apply Rmult_le_compat_l; [lra|]. apply Rmult_le_compat_r; auto. now apply le_INR. Qed.
Lemma sum_sq_le n f : (n <= S P)%nat -> (forall k, (k < n)%nat -> Rabs (f k) <= h * kap) -> h * rsum n (fun k => f k ^ 2) <= len ^ 3 * kap ^ 2.
Proof.
  intros Hn H. apply Rle_trans with (h * rsum n (fun _ => (h * kap) ^ 2)).
  - apply Rmult_le_compat_l; [lra|]. apply rsum_le. intros k Hk. now apply sq_le, H.
  - eapply Rle_trans; [apply sum_const_le; auto; apply pow2_ge_0|]. pose proof len_h.
    replace (len ^ 3 * kap ^ 2) with (len * (len ^ 2 * kap ^ 2)) by ring. apply Rmult_le_compat_l; [lra|]. rewrite Rpow_mult_distr. apply Rmult_le_compat_r; [apply pow2_ge_0|]. apply pow_incr. lra.
Qed.
Lemma end_term x s z : 0 < z -> Rabs s <= kap -> x * (s / 2 - x) / z - h / 2 * g * x ^ 2 <= kap ^ 2 * / (8 * z) - x ^ 2 / (2 * z).
Proof.
  intros Hz Hs. apply sq_le in Hs. assert (0 <= h / 2 * g * x ^ 2) by (apply Rmult_le_pos; [nra|apply pow2_ge_0]).
  assert (x * (s / 2 - x) / z <= (kap ^ 2 / 8 - x ^ 2 / 2) / z).
  { apply Rmult_le_compat_r; [left; now apply Rinv_0_lt_compat|]. pose proof (pow2_ge_0 (x - s / 2)). nra. }
  replace (kap ^ 2 * / (8 * z) - x ^ 2 / (2 * z)) with ((kap ^ 2 / 8 - x ^ 2 / 2) / z) by (field; lra). lra.
Qed.

Lemma step_bound : En e' d' + dt * (em 0 ^ 2 / (2 * zs) + em (S P) ^ 2 / (2 * zl))
  <= En e d + dt * (Dk * kap ^ 2 + 48 * lam * (En e d + En e' d')).
Proof.
  pose proof balance as B. pose proof dt_pos as D. pose proof len_h as LH. assert (CL : 0 < c * lam) by nra.
  assert (T1 : - rsum P (fun j => tau j * em (S j) + h * g * em (S j) ^ 2) <=
     kap ^ 2 * (len / (4 * (c * lam))) + lam * (3 * En e d + 3 / 4 * c * Z ^ 2 * (len ^ 3 * kap ^ 2))).
  { apply Rle_trans with (h * rsum P (fun _ => kap ^ 2 / (4 * (c * lam))) + lam * (h * c * rsum P (fun j => em (S j) ^ 2))).
    - replace (lam * (h * c * rsum P (fun j => em (S j) ^ 2))) with (h * c * lam * rsum P (fun j => em (S j) ^ 2)) by ring.
      rewrite <- !rsum_scal, <- rsum_plus. replace (- rsum P (fun j => tau j * em (S j) + h * g * em (S j) ^ 2)) with (- 1 * rsum P (fun j => tau j * em (S j) + h * g * em (S j) ^ 2)) by ring.
      rewrite <- rsum_scal. apply rsum_le. intros j Hj. set (m := em (S j)). specialize (Ktau j Hj).
      assert (- (tau j * m) <= h * kap * Rabs m).
      { apply Rle_trans with (Rabs (- (tau j * m))); [apply Rle_abs|]. rewrite Rabs_Ropp, Rabs_mult. apply Rmult_le_compat_r; [apply Rabs_pos|auto]. }
      pose proof (young kap (Rabs m) (c * lam) CL) as Y. rewrite pow2_abs in Y. apply (Rmult_le_compat_l h) in Y; [|lra].
      assert (0 <= h * g * m ^ 2) by (apply Rmult_le_pos; [nra|apply pow2_ge_0]). nra.
    - apply Rplus_le_compat.
      + replace (kap ^ 2 * (len / (4 * (c * lam)))) with (len * (kap ^ 2 / (4 * (c * lam)))) by (field; lra). apply sum_const_le; [|lia].
        apply Rmult_le_pos; [apply pow2_ge_0|left; apply Rinv_0_lt_compat; lra].
      + apply Rmult_le_compat_l; [lra|]. eapply Rle_trans; [apply mean_voltage|]. apply Rplus_le_compat_l.
        pose proof (sum_sq_le P tau ltac:(lia) Ktau) as Q.
        replace (3 / 4 * h * c * Z ^ 2 * rsum P (fun j => tau j ^ 2)) with (3 / 4 * c * Z ^ 2 * (h * rsum P (fun j => tau j ^ 2))) by ring.
        apply Rmult_le_compat_l; [|auto]. assert (0 <= Z ^ 2) by apply pow2_ge_0. nra. }
  assert (Z2 : 0 < Z ^ 2) by nra.
  assert (T2 : - rsum (S P) (fun k => mu k * dm k + h * r * dm k ^ 2) <=
     kap ^ 2 * (len / (16 * Z ^ 2 * (c * lam))) + lam * (48 * En e' d' + 3 * c * (len ^ 3 * kap ^ 2)) + r / (16 * Z ^ 2) * (len ^ 3 * kap ^ 2)).
  { apply Rle_trans with (h * rsum (S P) (fun _ => kap ^ 2 / (16 * Z ^ 2 * (c * lam))) + lam * (h * c * rsum (S P) (fun k => Wk k ^ 2)) + r / (16 * Z ^ 2) * (h * rsum (S P) (fun k => mu k ^ 2))).
    - replace (lam * (h * c * rsum (S P) (fun k => Wk k ^ 2))) with (h * c * lam * rsum (S P) (fun k => Wk k ^ 2)) by ring.
      rewrite <- !rsum_scal, <- !rsum_plus. replace (- rsum (S P) (fun k => mu k * dm k + h * r * dm k ^ 2)) with (- 1 * rsum (S P) (fun k => mu k * dm k + h * r * dm k ^ 2)) by ring.
      rewrite <- rsum_scal. apply rsum_le. intros k Hk. specialize (Kmu k Hk). set (m := dm k).
      assert (EW : m = Wk k / (2 * Z) + rho * h * r * m / (2 * Z)) by (unfold Wk; fold m; field; lra).
      set (w := Wk k) in *.
      assert (A1 : - (mu k * (w / (2 * Z))) <= h * (kap / (2 * Z) * Rabs w)).
      { apply Rle_trans with (Rabs (- (mu k * (w / (2 * Z))))); [apply Rle_abs|]. rewrite Rabs_Ropp, Rabs_mult. unfold Rdiv. rewrite Rabs_mult, (Rabs_right (/ (2 * Z))).
        2:{ apply Rle_ge. left. apply Rinv_0_lt_compat. lra. }
        replace (h * (kap * / (2 * Z) * Rabs w)) with (h * kap * (Rabs w * / (2 * Z))) by ring. apply Rmult_le_compat_r; auto.
        apply Rmult_le_pos; [apply Rabs_pos|]. left. apply Rinv_0_lt_compat. lra. }
      pose proof (young (kap / (2 * Z)) (Rabs w) (c * lam) CL) as Y. rewrite pow2_abs in Y. apply (Rmult_le_compat_l h) in Y; [|lra].
      replace ((kap / (2 * Z)) ^ 2 / (4 * (c * lam))) with (kap ^ 2 / (16 * Z ^ 2 * (c * lam))) in Y by (field; repeat split; lra).
      assert (A2 : - (mu k * (rho * h * r * m / (2 * Z))) <= h * r * m ^ 2 + r / (16 * Z ^ 2) * h * mu k ^ 2).
      { set (y := rho * mu k / (4 * Z)). replace (- (mu k * (rho * h * r * m / (2 * Z)))) with (h * r * (- 2 * y * m)) by (unfold y; field; lra).
        assert (y ^ 2 <= mu k ^ 2 / (16 * Z ^ 2)).
        { unfold y. replace ((rho * mu k / (4 * Z)) ^ 2) with (rho ^ 2 * (mu k ^ 2 / (16 * Z ^ 2))) by (field; lra). rewrite <- (Rmult_1_l (mu k ^ 2 / _)) at 2.
          apply Rmult_le_compat_r; [|nra]. apply Rmult_le_pos; [apply pow2_ge_0|left; apply Rinv_0_lt_compat; lra]. }
        assert (- 2 * y * m <= m ^ 2 + mu k ^ 2 / (16 * Z ^ 2)) by (pose proof (pow2_ge_0 (m + y)); nra).
        replace (h * r * m ^ 2 + r / (16 * Z ^ 2) * h * mu k ^ 2) with (h * r * (m ^ 2 + mu k ^ 2 / (16 * Z ^ 2))) by (field; lra).
        apply Rmult_le_compat_l; [nra|auto]. }
      assert (Em : mu k * m = mu k * (w / (2 * Z)) + mu k * (rho * h * r * m / (2 * Z))) by (rewrite EW at 1; ring).
      rewrite Em. lra.
    - repeat apply Rplus_le_compat.
      + replace (kap ^ 2 * (len / (16 * Z ^ 2 * (c * lam)))) with (len * (kap ^ 2 / (16 * Z ^ 2 * (c * lam)))) by (field; repeat split; lra). apply sum_const_le; [|lia].
        apply Rmult_le_pos; [apply pow2_ge_0|left; apply Rinv_0_lt_compat; nra].
      + apply Rmult_le_compat_l; [lra|]. eapply Rle_trans; [apply sum_W|]. apply Rplus_le_compat_l.
        pose proof (sum_sq_le (S P) mu ltac:(lia) Kmu) as Q.
        replace (3 * h * c * rsum (S P) (fun j => mu j ^ 2)) with (3 * c * (h * rsum (S P) (fun j => mu j ^ 2))) by ring.
        apply Rmult_le_compat_l; [nra|auto].
      + apply Rmult_le_compat_l; [|apply sum_sq_le; auto]. apply Rmult_le_pos; [lra|left; apply Rinv_0_lt_compat; lra]. }
  pose proof (end_term (em 0) s0 zs Hzs K0) as T3. pose proof (end_term (em (S P)) sN zl Hzl KN) as T4.
  pose proof (En_nonneg e d) as N1. pose proof (En_nonneg e' d') as N2.
  assert (LE : 0 <= lam * En e d) by (apply Rmult_le_pos; lra).
  replace (En e' d') with (En e d + (En e' d' - En e d)) at 1 by ring. rewrite B.
  rewrite Rplus_assoc, <- Rmult_plus_distr_l. apply Rplus_le_compat_l, Rmult_le_compat_l; [lra|].
  replace (Dk * kap ^ 2) with (kap ^ 2 * (len / (4 * (c * lam))) + kap ^ 2 * (len / (16 * Z ^ 2 * (c * lam))) + lam * (3 / 4 * c * Z ^ 2 * (len ^ 3 * kap ^ 2))
    + lam * (3 * c * (len ^ 3 * kap ^ 2)) + r / (16 * Z ^ 2) * (len ^ 3 * kap ^ 2) + kap ^ 2 * / (8 * zs) + kap ^ 2 * / (8 * zl)) by (unfold Dk; field; repeat split; lra).
  lra.
Qed.
End Step.

(** ** many steps *)
Variables (e d tau mu : nat -> nat -> R) (s0 sN : nat -> R) (kap len T : R) (n : nat).
Hypothesis Hlen : h * INR (S P) = len.
Hypothesis HT : 0 < T.
Hypothesis Hn : INR n * dt <= T.
Hypothesis Hstep : forall m, (m < n)%nat -> forced (e m) (d m) (e (S m)) (d (S m)) (tau m) (mu m) (s0 m) (sN m).
Hypothesis Ktau : forall m j, (m < n)%nat -> (j < P)%nat -> Rabs (tau m j) <= h * kap.
Hypothesis Kmu : forall m k, (m < n)%nat -> (k < S P)%nat -> Rabs (mu m k) <= h * kap.
Hypothesis K0 : forall m, (m < n)%nat -> Rabs (s0 m) <= kap.
Hypothesis KN : forall m, (m < n)%nat -> Rabs (sN m) <= kap.
Definition Tlam : R := / (96 * T).
Definition at_ends (m : nat) : R :=
  ((e (S m) 0%nat + e m 0%nat) / 2) ^ 2 / (2 * zs) + ((e (S m) (S P) + e m (S P)) / 2) ^ 2 / (2 * zl).
Notation D := (Dk len Tlam).
Notation G m := (En (e m) (d m) + dt * rsum m at_ends).

Lemma at_ends_nonneg m : 0 <= at_ends m.
Proof. unfold at_ends. apply Rplus_le_le_0_compat; apply Rmult_le_pos; try apply pow2_ge_0; left; apply Rinv_0_lt_compat; lra. Qed.
Lemma Tlam_pos : 0 < Tlam.
Proof. apply Rinv_0_lt_compat. lra. Qed.
Lemma Dk_nonneg : 0 <= D.
Proof.
  assert (Hl : h <= len) by (rewrite <- Hlen, S_INR; pose proof (pos_INR P); nra).
  pose proof Tlam_pos. assert (0 < c * Tlam) by nra. assert (0 < Z ^ 2) by nra. assert (0 < len ^ 3) by (apply pow_lt; lra).
  assert (0 < Tlam * c) by nra. assert (0 < Tlam * c * Z ^ 2) by (apply Rmult_lt_0_compat; auto).
  unfold Dk. repeat apply Rplus_le_le_0_compat.
  - apply Rmult_le_pos; [lra|left; apply Rinv_0_lt_compat; lra].
  - apply Rmult_le_pos; [lra|left; apply Rinv_0_lt_compat]. apply Rmult_lt_0_compat; lra.
  - replace (3 / 4 * Tlam * c * Z ^ 2 * len ^ 3) with (3 / 4 * (Tlam * c * Z ^ 2) * len ^ 3) by ring. apply Rmult_le_pos; lra.
  - replace (3 * Tlam * c * len ^ 3) with (3 * (Tlam * c) * len ^ 3) by ring. apply Rmult_le_pos; lra.
  - apply Rmult_le_pos; [apply Rmult_le_pos; lra|left; apply Rinv_0_lt_compat; lra].
  - left. apply Rinv_0_lt_compat. lra.
  - left. apply Rinv_0_lt_compat. lra.
Qed.

Lemma grow m : (m <= n)%nat -> G m <= (1 + 2 * dt / T) ^ m * (En (e 0%nat) (d 0%nat) + INR m * (2 * dt * (D * kap ^ 2))).
Proof.
  pose proof dt_pos as Dp. set (B := D * kap ^ 2).
  assert (HB : 0 <= B) by (apply Rmult_le_pos; [apply Dk_nonneg|apply pow2_ge_0]).
  induction m as [|m IH]; intros Hm; [cbn; lra|].
  specialize (IH ltac:(lia)).
  assert (Hx : dt <= T).
  { apply Rle_trans with (INR n * dt); auto. assert (1 <= INR n) by (change 1 with (INR 1); apply le_INR; lia). nra. }
  set (x := dt / (2 * T)). assert (X : 0 < x <= / 2).
  { unfold x. split; [apply Rdiv_lt_0_compat; lra|]. apply (Rmult_le_reg_r (2 * T)); [lra|]. unfold Rdiv. rewrite Rmult_assoc, Rinv_l by lra. lra. }
  pose proof (step_bound _ _ _ _ _ _ _ _ (Hstep m ltac:(lia)) kap len Tlam Hlen Tlam_pos (fun j => Ktau m j ltac:(lia)) (fun k => Kmu m k ltac:(lia)) (K0 m ltac:(lia)) (KN m ltac:(lia))) as S1.
  fold (at_ends m) in S1. fold B in S1. set (E := En (e m) (d m)) in *. set (E' := En (e (S m)) (d (S m))) in *.
  assert (HE : 0 <= E) by apply En_nonneg. assert (HE' : 0 <= E') by apply En_nonneg.
  set (A := dt * rsum m at_ends) in *. assert (HA : 0 <= A) by (apply Rmult_le_pos; [lra|apply rsum_nonneg; intros; apply at_ends_nonneg]).
  assert (Hb := at_ends_nonneg m). cbn [rsum]. set (b := at_ends m) in *.
  assert (S2 : E' + dt * b <= E + dt * B + x * (E + E')).
  { replace (x * (E + E')) with (dt * (48 * Tlam * (E + E'))) by (unfold x, Tlam; field; lra). lra. }
  replace (E' + dt * (rsum m at_ends + b)) with (E' + A + dt * b) by (unfold A; ring).
  set (y := E' + A + dt * b). assert (Hy : y * (1 - x) <= (1 + x) * (E + A) + dt * B).
  { unfold y. assert (0 <= x * A) by nra. assert (0 <= dt * b) by nra. assert (0 <= x * (dt * b)) by nra. nra. }
  assert (Hy2 : y <= (1 + 4 * x) * (E + A) + 2 * (dt * B)).
  { apply (Rmult_le_reg_r (1 - x)); [lra|]. eapply Rle_trans; [exact Hy|].
    assert (0 <= dt * B) by nra. assert (1 + x <= (1 + 4 * x) * (1 - x)) by nra.
    assert ((1 + x) * (E + A) <= (1 + 4 * x) * (1 - x) * (E + A)) by (apply Rmult_le_compat_r; lra). nra. }
  assert (E4 : 1 + 4 * x = 1 + 2 * dt / T) by (unfold x; field; lra). rewrite E4 in Hy2. set (q := 1 + 2 * dt / T) in *. assert (Q1 : 1 <= q) by lra.
  eapply Rle_trans; [exact Hy2|]. rewrite S_INR. cbn [pow].
  assert (P1 : 1 <= q ^ m) by (apply pow_R1_Rle; auto).
  set (E0 := En (e 0%nat) (d 0%nat)) in *. apply (Rmult_le_compat_l q) in IH; [|lra].
  assert (2 * (dt * B) <= q * q ^ m * (2 * dt * B)).
  { replace (2 * (dt * B)) with (1 * (2 * dt * B)) by ring. apply Rmult_le_compat_r; nra. }
  nra.
Qed.

Lemma exp2_9 : exp 2 <= 9.
Proof. replace 2 with (1 + 1) by ring. rewrite exp_plus. pose proof exp_le_3. pose proof (exp_pos 1). nra. Qed.
Lemma run_bound : G n <= 9 * (En (e 0%nat) (d 0%nat) + 2 * T * (D * kap ^ 2)).
Proof.
  eapply Rle_trans; [apply grow; auto|]. pose proof dt_pos as Dp. pose proof (En_nonneg (e 0%nat) (d 0%nat)).
  assert (HB : 0 <= D * kap ^ 2) by (apply Rmult_le_pos; [apply Dk_nonneg|apply pow2_ge_0]). set (B := D * kap ^ 2) in *.
  assert (Q : (1 + 2 * dt / T) ^ n <= 9).
  { apply Rle_trans with (exp 2); [|apply exp2_9]. apply Rle_trans with (exp (2 * dt / T) ^ n).
    - apply pow_incr. assert (0 < 2 * dt / T) by (apply Rdiv_lt_0_compat; lra). split; [lra|]. left. apply exp_ineq1. lra.
    - assert (EE : forall k, exp (2 * dt / T) ^ k = exp (INR k * (2 * dt / T))).
      { induction k as [|k IH]; [cbn; now rewrite Rmult_0_l, exp_0|]. cbn [pow]. rewrite IH, <- exp_plus, S_INR. f_equal. ring. }
      rewrite EE. assert (W : INR n * (2 * dt / T) <= 2).
      { replace (INR n * (2 * dt / T)) with (2 * (INR n * dt) / T) by (field; lra). apply (Rmult_le_reg_r T); auto. unfold Rdiv. rewrite Rmult_assoc, Rinv_l by lra. lra. }
      destruct (Rle_lt_or_eq_dec _ _ W) as [L|W2]; [left; now apply exp_increasing|rewrite W2; lra]. }
  assert (0 <= INR n * (2 * dt * B)) by (apply Rmult_le_pos; [apply pos_INR|nra]).
  assert (INR n * (2 * dt * B) <= 2 * T * B) by nra.
  assert (0 < (1 + 2 * dt / T) ^ n) by (apply pow_lt; assert (0 < 2 * dt / T) by (apply Rdiv_lt_0_compat; lra); lra).
  nra.
Qed.

(** below the largest step the values themselves are controlled *)
Lemma values_bound x y : rho < 1 ->
  h * c * rsum P (fun j => x (S j) ^ 2) + h * l * rsum (S P) (fun k => y k ^ 2) <= 14 / (1 - rho) * En x y.
Proof.
  intros R1. pose proof (En_lower x y) as L. pose proof (combos_nonneg x y) as C0. pose proof (sqd_nonneg y) as S0. assert (HC : 0 < h * c) by nra.
  assert (I : rsum P (fun j => x (S j) ^ 2) <= 2 * combos x y + 2 * sqd y).
  { assert (A : rsum P (fun j => x (S j) ^ 2) <= rsum P (fun j => 2 * ((x (S j) - rho * Z * y (S j)) ^ 2 + (x (S j) + rho * Z * y j) ^ 2) + 2 * Z ^ 2 * y (S j) ^ 2)).
    { apply rsum_le. intros j _. pose proof (pow2_ge_0 (x (S j) - 2 * (rho * Z * y (S j)))). pose proof (pow2_ge_0 (x (S j) + rho * Z * y j)).
      assert ((rho * Z * y (S j)) ^ 2 <= Z ^ 2 * y (S j) ^ 2).
      { replace ((rho * Z * y (S j)) ^ 2) with (rho ^ 2 * (Z * y (S j)) ^ 2) by ring. replace (Z ^ 2 * y (S j) ^ 2) with (1 * (Z * y (S j)) ^ 2) by ring.
        apply Rmult_le_compat_r; [apply pow2_ge_0|nra]. }
      set (u := rho * Z * y (S j)) in *. nra. }
    eapply Rle_trans; [exact A|]. rewrite rsum_plus, (rsum_scal P 2 (fun j => (x (S j) - rho * Z * y (S j)) ^ 2 + (x (S j) + rho * Z * y j) ^ 2)), (rsum_scal P (2 * Z ^ 2) (fun j => y (S j) ^ 2)).
    unfold combos, sqd. rewrite (rsum_shift P (fun k => y k ^ 2)).
    pose proof (Rmult_le_pos rho _ ltac:(lra) (pow2_ge_0 (x 0%nat - Z * y 0%nat))). pose proof (Rmult_le_pos rho _ ltac:(lra) (pow2_ge_0 (x (S P) + Z * y P))).
    assert (0 <= Z ^ 2 * y 0%nat ^ 2) by (apply Rmult_le_pos; apply pow2_ge_0). cbv beta in *. nra. }
  replace (h * l * rsum (S P) (fun k => y k ^ 2)) with (h * c * sqd y) by (unfold sqd; ring).
  apply (Rmult_le_compat_l (h * c)) in I; [|lra].
  apply (Rmult_le_reg_r (1 - rho)); [lra|]. replace (14 / (1 - rho) * En x y * (1 - rho)) with (14 * En x y) by (field; lra).
  set (cc := h * c * combos x y). set (ss := h * c * sqd y).
  assert (0 <= cc) by (apply Rmult_le_pos; lra). assert (0 <= ss) by (apply Rmult_le_pos; lra).
  replace (h * c * (2 * combos x y + 2 * sqd y)) with (2 * cc + 2 * ss) in I by (unfold cc, ss; ring).
  replace (h * c / 4 * (combos x y + 2 * (1 - rho) * sqd y)) with (cc / 4 + (1 - rho) * ss / 2) in L by (unfold cc, ss; field).
  set (S1 := h * c * rsum P (fun j => x (S j) ^ 2)) in *. assert (0 <= rho * cc) by nra. nra.
Qed.
End Scheme.
