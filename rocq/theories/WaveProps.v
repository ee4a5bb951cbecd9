(** Proofs of the statements of PropWave.v: excitation waveforms and small utilities. *)
From Coq Require Import List Arith ZArith Bool Lia Reals Lra.
From Verif Require Import Num Py Arr NumR RFacts Waveforms Utils.
Import ListNotations.
Local Open Scope R_scope.

Ltac wcase := repeat match goal with
  | |- context [Rleb ?a ?b] => destruct (Rleb_spec a b)
  | |- context [Rltb ?a ?b] => destruct (Rltb_spec a b)
  end; cbn [nb n0 n1 NumR].

Lemma frac_bound x x0 A : 0 <= x <= x0 -> 0 < x0 -> 0 <= A -> 0 <= A * (x / x0) <= A.
Proof.
  intros H H0 HA. assert (0 <= x / x0 <= 1).
  { split; [apply Rmult_le_pos; [lra|apply Rlt_le, Rinv_0_lt_compat; lra]|].
    apply (Rmult_le_reg_r x0); [lra|]. replace (x / x0 * x0) with x by (field; lra). lra. }
  split; [apply Rmult_le_pos; lra|]. rewrite <- (Rmult_1_r A) at 2. apply Rmult_le_compat_l; lra.
Qed.

(** *** C35 *)
Lemma square_shape (x A x0 : R) : 0 < x0 -> 0 <= A ->
  (0 <= x <= x0 -> @square_pulse NumR x A x0 = A) /\ (x < 0 \/ x0 < x -> @square_pulse NumR x A x0 = 0) /\
  0 <= @square_pulse NumR x A x0 <= A.
Proof.
  intros H HA. unfold square_pulse. rsimpl. repeat split; wcase; intros; rsimpl; lra.
Qed.
Lemma triangle_shape (x A x0 : R) : 0 < x0 -> 0 <= A ->
  (0 <= x <= x0 -> @triangle_pulse NumR x A x0 = A * x / x0) /\ (x < 0 \/ x0 < x -> @triangle_pulse NumR x A x0 = 0) /\
  0 <= @triangle_pulse NumR x A x0 <= A.
Proof.
  intros H HA. unfold triangle_pulse. rsimpl. pose proof (fun h => frac_bound x x0 A h H HA) as B.
  repeat split; wcase; intros; rsimpl; try (field; lra); try lra; specialize (B (conj r0 r)); lra.
Qed.

(** *** C36 *)
Lemma ramp_shape (x A x0 : R) : 0 < x0 ->
  (x < 0 -> @ramp_pulse NumR x A x0 = 0) /\ (0 <= x < x0 -> @ramp_pulse NumR x A x0 = A * x / x0) /\
  (x0 < x -> @ramp_pulse NumR x A x0 = A) /\ @ramp_pulse NumR x0 A x0 = 2 * A.
Proof.
  intros H. unfold ramp_pulse. rsimpl. repeat split; wcase; intros; rsimpl; try lra; field; lra.
Qed.
Lemma ramp_value (x A x0 : R) : 0 < x0 -> x <> x0 ->
  @ramp_pulse NumR x A x0 = if Rlt_dec x 0 then 0 else if Rlt_dec x x0 then A * (x / x0) else A.
Proof.
  intros H Hx. destruct (ramp_shape x A x0 H) as (H1 & H2 & H3 & _). destruct (Rlt_dec x 0); auto.
  destruct (Rlt_dec x x0); [rewrite H2 by lra; unfold Rdiv; rring|apply H3; lra].
Qed.
Lemma ramp_bound (x A x0 : R) : 0 < x0 -> 0 <= A -> x <> x0 -> 0 <= @ramp_pulse NumR x A x0 <= A.
Proof.
  intros H HA Hx. rewrite ramp_value by auto. destruct (Rlt_dec x 0); [lra|]. destruct (Rlt_dec x x0); [|lra].
  apply frac_bound; lra.
Qed.
Lemma ramp_monotone (x y A x0 : R) : 0 < x0 -> 0 <= A -> x <= y -> x <> x0 -> y <> x0 ->
  @ramp_pulse NumR x A x0 <= @ramp_pulse NumR y A x0.
Proof.
  intros H HA Hxy Hx Hy. pose proof (ramp_bound y A x0 H HA Hy) as By. pose proof (ramp_bound x A x0 H HA Hx) as Bx.
  rewrite !ramp_value in * by auto.
  destruct (Rlt_dec x 0), (Rlt_dec y 0), (Rlt_dec x x0), (Rlt_dec y x0); try lra.
  apply Rmult_le_compat_l; auto. apply Rmult_le_compat_r; [apply Rlt_le, Rinv_0_lt_compat|]; lra.
Qed.

(** *** C37 *)
Lemma Int_part_unique x (k : Z) : IZR k <= x < IZR k + 1 -> Int_part x = k.
Proof.
  intros [H1 H2]. destruct (base_Int_part x) as [B1 B2].
  assert (Int_part x < k + 1)%Z by (apply lt_IZR; rewrite plus_IZR; lra).
  assert (k < Int_part x + 1)%Z by (apply lt_IZR; rewrite plus_IZR; lra). lia.
Qed.
Lemma mod_phase (x f0 phi : R) (k : Z) : 0 < f0 -> x = phi + IZR k / f0 -> 0 <= phi < / f0 ->
  @nmod NumR x (1 / f0) = phi.
Proof.
  intros H -> [H1 H2]. unfold nmod. rsimpl.
  assert (E : (phi + IZR k / f0) / (1 / f0) = phi * f0 + IZR k) by (field; lra).
  rewrite E, (Int_part_unique _ k); [field; lra|].
  assert (0 <= phi * f0) by (apply Rmult_le_pos; lra).
  assert (phi * f0 < 1). { apply (Rmult_lt_compat_r f0) in H2; auto. rewrite Rinv_l in H2 by lra. lra. }
  lra.
Qed.
Lemma mod_shift (x f0 : R) (k : Z) : 0 < f0 -> @nmod NumR (x + IZR k / f0) (1 / f0) = @nmod NumR x (1 / f0).
Proof.
  intros H. unfold nmod. rsimpl.
  assert (E : (x + IZR k / f0) / (1 / f0) = x / (1 / f0) + IZR k) by (field; lra). rewrite E.
  assert (EI : Int_part (x / (1 / f0) + IZR k) = (Int_part (x / (1 / f0)) + k)%Z).
  { apply Int_part_unique. destruct (base_Int_part (x / (1 / f0))). rewrite plus_IZR. lra. }
  rewrite EI, plus_IZR. field. lra.
Qed.

Section Trap.
Variables (A rise fall f0 D : R).
Hypothesis Hr : 0 < rise.
Hypothesis Hf : 0 < fall.
Hypothesis H0 : 0 < f0.
(** end of the flat part and end of the fall, as in the code: the wave is above A/2 during D/f0 *)
Let t2 := D / f0 + (rise - fall) / 2.
Let t3 := D / f0 + (rise + fall) / 2.
Hypothesis Hflat : rise < t2.
Hypothesis Hper : t3 < / f0.

Lemma t2_eq : rise + (D / f0 - 1 / 2 * (rise + fall)) = t2. Proof. unfold t2. lra. Qed.
Lemma t3_eq : rise + (D / f0 - 1 / 2 * (rise + fall)) + fall = t3. Proof. unfold t3. lra. Qed.
Lemma t23 : t3 = t2 + fall. Proof. unfold t2, t3. lra. Qed.

Lemma trap_period x (k : Z) : @trapezoidal_wave NumR (x + IZR k / f0) A rise fall f0 D = @trapezoidal_wave NumR x A rise fall f0 D.
Proof. unfold trapezoidal_wave. rsimpl. rewrite mod_shift; auto. Qed.

Lemma trap_unfold x phi (k : Z) : x = phi + IZR k / f0 -> 0 <= phi < / f0 ->
  @trapezoidal_wave NumR x A rise fall f0 D =
  A * (phi / rise) * @nb NumR (Rleb phi rise) + A * @nb NumR (Rleb rise phi) * @nb NumR (Rleb phi t2)
  + (- A * phi / fall + A * t3 / fall) * @nb NumR (Rleb t2 phi) * @nb NumR (Rleb phi t3).
Proof.
  intros E P. unfold trapezoidal_wave. rsimpl. rewrite (mod_phase x f0 phi k H0 E P).

  change (1 / (1 + 1)) with (1 / 2). rewrite t3_eq, t2_eq. reflexivity.
Qed.

Lemma trap_shape x phi (k : Z) : x = phi + IZR k / f0 -> 0 <= phi < / f0 ->
  let w := @trapezoidal_wave NumR x A rise fall f0 D in
  (phi < rise -> w = A * phi / rise) /\ (phi = rise -> w = 2 * A) /\ (rise < phi < t2 -> w = A) /\
  (phi = t2 -> w = 2 * A) /\ (t2 < phi <= t3 -> w = A * (t3 - phi) / fall) /\ (t3 < phi -> w = 0).
Proof.
  intros E P w. subst w. rewrite (trap_unfold x phi k E P). pose proof t23 as T.
  split; [|split; [|split; [|split; [|split]]]]; intros C; wcase; rsimpl; try lra; try (field; lra).
  - rewrite C. field. lra.
  - rewrite C. rewrite T. field. lra.
Qed.
Lemma trap_bound x phi (k : Z) : 0 <= A -> x = phi + IZR k / f0 -> 0 <= phi < / f0 -> phi <> rise -> phi <> t2 ->
  0 <= @trapezoidal_wave NumR x A rise fall f0 D <= A.
Proof.
  intros HA E P N1 N2. pose proof (trap_shape x phi k E P) as (S1 & _ & S3 & _ & S5 & S6). pose proof t23 as T.
  destruct (Rlt_dec phi rise) as [C|C].
  - rewrite S1 by auto. unfold Rdiv. rewrite Rmult_assoc. apply frac_bound; lra.
  - destruct (Rlt_dec phi t2).
    + rewrite S3 by lra. lra.
    + destruct (Rle_dec phi t3).
      * rewrite S5 by lra. unfold Rdiv. rewrite Rmult_assoc. apply frac_bound; lra.
      * rewrite S6 by lra. lra.
Qed.
(** the symbolic variant does not double its corners *)
Lemma trap_sp_shape v x t phi (k : Z) : t + x / v = phi + IZR k / f0 -> 0 <= phi < / f0 ->
  let w := @trapezoidal_wave_sp NumR A rise fall f0 D v x t in
  (phi <= rise -> w = A * phi / rise) /\ (rise < phi <= t2 -> w = A) /\
  (t2 < phi <= t3 -> w = A * (t3 - phi) / fall) /\ (t3 < phi -> w = 0).
Proof.
  intros E P w. subst w. unfold trapezoidal_wave_sp. rsimpl. rewrite (mod_phase _ f0 phi k H0 E P).
  change (1 / (1 + 1)) with (1 / 2). rewrite t3_eq, t2_eq. pose proof t23 as T.
  repeat split; intros C; wcase; cbn [andb]; try lra; field; lra.
Qed.
End Trap.

Lemma phase_exists x f0 : 0 < f0 -> exists phi (k : Z), x = phi + IZR k / f0 /\ 0 <= phi < / f0.
Proof.
  intros H. exists (x - IZR (Int_part (x * f0)) / f0), (Int_part (x * f0)). split; [ring|].
  destruct (base_Int_part (x * f0)) as [B1 B2].
  assert (E : x - IZR (Int_part (x * f0)) / f0 = (x * f0 - IZR (Int_part (x * f0))) * / f0) by (field; lra).
  rewrite E. pose proof (Rinv_0_lt_compat f0 H). split; [apply Rmult_le_pos; lra|].
  rewrite <- (Rmult_1_l (/ f0)) at 2. apply Rmult_lt_compat_r; lra.
Qed.

(** *** C38 *)
Lemma sin_sq_shape (x A w : R) : 0 < w -> 0 <= A ->
  (x < 0 \/ PI / w <= x -> @sin_sq_pulse NumR x A w = 0) /\
  (0 <= x < PI / w -> @sin_sq_pulse NumR x A w = A * (sin (w * x)) ^ 2) /\
  0 <= @sin_sq_pulse NumR x A w <= A.
Proof.
  intros H HA. unfold sin_sq_pulse. rsimpl.
  assert (B : 0 <= A * (sin (w * x) * sin (w * x)) <= A).
  { pose proof (SIN_bound (w * x)). assert (0 <= sin (w * x) * sin (w * x) <= 1).
    { split; [apply Rle_0_sqr|]. pose proof (sin2_cos2 (w * x)) as S. unfold Rsqr in S.
      pose proof (Rle_0_sqr (cos (w * x))) as C. unfold Rsqr in C. lra. }
    split; [apply Rmult_le_pos; lra|]. rewrite <- (Rmult_1_r A) at 2. apply Rmult_le_compat_l; lra. }
  repeat split; wcase; intros; rsimpl; lra.
Qed.
Lemma exp_le_1 x : 0 <= x -> 0 < exp (- x) <= 1.
Proof.
  intros H. split; [apply exp_pos|]. rewrite <- exp_0. destruct H as [H|<-]; [|rewrite Ropp_0; lra].
  apply Rlt_le, exp_increasing. lra.
Qed.
Lemma exp_eq_1 x : exp x = 1 -> x = 0.
Proof. intros H. apply exp_inv. now rewrite exp_0. Qed.
Lemma gaussian_shape (x x0 s0 : R) : s0 <> 0 ->
  0 < @gaussian NumR x x0 s0 <= 1 /\ @gaussian NumR (2 * x0 - x) x0 s0 = @gaussian NumR x x0 s0 /\
  (@gaussian NumR x x0 s0 = 1 <-> x = x0).
Proof.
  intros H. unfold gaussian. rsimpl.
  assert (P : 0 < 2 * (s0 * s0)).
  { pose proof (Rlt_0_sqr s0 H) as S. unfold Rsqr in S. lra. }
  assert (E : - ((x - x0) * (x - x0)) / (2 * (s0 * s0)) = - ((x - x0) * (x - x0) / (2 * (s0 * s0)))) by (field; auto).
  rewrite E. assert (Q : 0 <= (x - x0) * (x - x0)) by apply Rle_0_sqr.
  split; [|split].
  - apply exp_le_1. apply Rmult_le_pos; auto. now apply Rlt_le, Rinv_0_lt_compat.
  - rewrite <- E. f_equal. field. auto.
  - split.
    + intros X. apply exp_eq_1 in X. apply Rminus_diag_uniq.
      apply Rsqr_0_uniq. unfold Rsqr. assert (Z : (x - x0) * (x - x0) / (2 * (s0 * s0)) = 0) by lra.
      apply (Rmult_eq_compat_r (2 * (s0 * s0))) in Z. unfold Rdiv in Z. rewrite Rmult_assoc, Rinv_l in Z by lra. lra.
    + intros ->. rewrite <- E. replace (- ((x0 - x0) * (x0 - x0)) / (2 * (s0 * s0))) with 0; [apply exp_0|field; auto].
Qed.
Lemma gaussian2_shape (x A x0 s0 : R) : s0 <> 0 -> 0 < A ->
  0 < @gaussian_2 NumR x A x0 s0 <= A /\ @gaussian_2 NumR (2 * x0 - x) A x0 s0 = @gaussian_2 NumR x A x0 s0 /\
  (@gaussian_2 NumR x A x0 s0 = A <-> x = x0).
Proof.
  intros H HA. unfold gaussian_2. rsimpl.
  assert (Q : 0 <= (x - x0) / s0 * ((x - x0) / s0)) by apply Rle_0_sqr.
  destruct (exp_le_1 _ Q) as [E1 E2].
  split; [|split].
  - split; [apply Rmult_lt_0_compat; auto|]. rewrite <- (Rmult_1_r A) at 2. apply Rmult_le_compat_l; lra.
  - apply (f_equal (fun e => A * exp e)). field. auto.
  - split.
    + intros X. assert (X' : exp (- ((x - x0) / s0 * ((x - x0) / s0))) = 1) by (apply (Rmult_eq_reg_l A); lra).
      apply exp_eq_1 in X'. assert (Z : Rsqr ((x - x0) / s0) = 0) by (unfold Rsqr; lra).
      apply Rsqr_0_uniq in Z. apply (Rmult_eq_compat_r s0) in Z. unfold Rdiv in Z. rewrite Rmult_assoc, Rinv_l in Z by lra. lra.
    + intros ->. replace ((x0 - x0) / s0 * ((x0 - x0) / s0)) with 0 by (field; auto). rewrite Ropp_0, exp_0. ring.
Qed.
Lemma exp_shape (x y A x0 : R) : 0 < x0 -> 0 < A ->
  @wf_exp NumR 0 A x0 = 0 /\ @wf_exp NumR x A x0 < A /\ (x < y -> @wf_exp NumR x A x0 < @wf_exp NumR y A x0).
Proof.
  intros H HA. unfold wf_exp. rsimpl. split; [|split].
  - replace (- 0 / x0) with 0 by (field; lra). rewrite exp_0. ring.
  - pose proof (exp_pos (- x / x0)) as E. rewrite <- (Rmult_1_r A) at 2. apply Rmult_lt_compat_l; lra.
  - intros L. apply Rmult_lt_compat_l; auto. apply Rplus_lt_compat_l, Ropp_lt_contravar, exp_increasing.
    unfold Rdiv. apply Rmult_lt_compat_r; [now apply Rinv_0_lt_compat|lra].
Qed.

(** *** C39 *)
(** what a source argument contributes at time [t] *)
Definition value (f : tfun NumR) (t : R) : R := match f with TInt _ => 0 | TFun g => g t end.
Lemma add_pointwise f g t : value (add_t_functions f g) t = value f t + value g t.
Proof. destruct f, g; cbn; lra. Qed.
Lemma add_commutes f g t : value (add_t_functions f g) t = value (add_t_functions g f) t.
Proof. rewrite !add_pointwise. ring. Qed.
Lemma add_associates f g h t : value (add_t_functions (add_t_functions f g) h) t = value (add_t_functions f (add_t_functions g h)) t.
Proof. rewrite !add_pointwise. ring. Qed.

(** *** C40 *)
Definition vec3 (x y z : R) : list R := [x; y; z].
Definition along (a b : list R) (s : R) : list R :=
  [nth 0 a 0 + s * (nth 0 b 0 - nth 0 a 0); nth 1 a 0 + s * (nth 1 b 0 - nth 1 a 0); nth 2 a 0 + s * (nth 2 b 0 - nth 2 a 0)].
Lemma vnorm3 (a : list R) : @vnorm NumR a = sqrt (nth 0 a 0 * nth 0 a 0 + nth 1 a 0 * nth 1 a 0 + nth 2 a 0 * nth 2 a 0).
Proof. unfold vnorm, get, sumn, nsq. cbn. f_equal. ring. Qed.
Lemma scaled_norm s x y z : 0 <= s -> sqrt (s * x * (s * x) + s * y * (s * y) + s * z * (s * z)) = s * sqrt (x * x + y * y + z * z).
Proof.
  intros H. replace (s * x * (s * x) + s * y * (s * y) + s * z * (s * z)) with ((s * s) * (x * x + y * y + z * z)) by ring.
  rewrite sqrt_mult_alt by apply Rle_0_sqr. now rewrite sqrt_square.
Qed.
Lemma on_segment (a b : list R) s : 0 <= s <= 1 -> @point_in_line NumR (along a b s) a b = true.
Proof.
  intros [H1 H2]. unfold point_in_line. cbn [nltb nleb NumR]. rewrite !andb_true_iff, Rltb_true, !Rleb_true, !vnorm3.
  cbn [vcross vsub mk map seq nth]. unfold get. rsimpl. cbn [along nth].
  set (x := nth 0 a 0 - nth 0 b 0). set (y := nth 1 a 0 - nth 1 b 0). set (z := nth 2 a 0 - nth 2 b 0).
  assert (N0 : 0 <= sqrt (x * x + y * y + z * z)) by apply sqrt_pos.
  split; [split|].
  - replace (_ + _) with 0; [rewrite sqrt_0; unfold n1em6; rsimpl; lra|]. unfold x, y, z. ring.
  - replace (_ + _) with (s * x * (s * x) + s * y * (s * y) + s * z * (s * z)) by (unfold x, y, z; ring).
    rewrite scaled_norm by lra. rewrite <- (Rmult_1_l (sqrt (x * x + y * y + z * z))) at 2. apply Rmult_le_compat_r; lra.
  - replace (_ + _) with ((1 - s) * x * ((1 - s) * x) + (1 - s) * y * ((1 - s) * y) + (1 - s) * z * ((1 - s) * z)) by (unfold x, y, z; ring).
    rewrite scaled_norm by lra. rewrite <- (Rmult_1_l (sqrt (x * x + y * y + z * z))) at 2. apply Rmult_le_compat_r; lra.
Qed.

Lemma accepted_inv (p a b : list R) : @point_in_line NumR p a b = true ->
  @vnorm NumR (@vcross NumR (@vsub NumR a b) (@vsub NumR a p)) < / 1000000 /\
  @vnorm NumR (@vsub NumR a p) <= @vnorm NumR (@vsub NumR a b) /\ @vnorm NumR (@vsub NumR b p) <= @vnorm NumR (@vsub NumR a b).
Proof.
  unfold point_in_line. cbn [nltb nleb NumR]. rewrite !andb_true_iff, Rltb_true, !Rleb_true. unfold n1em6. rsimpl. lra.
Qed.
Lemma short_segment d : 0 < d <= / 1000 -> @point_in_line NumR [d / 2; 0; d / 2] [0; 0; 0] [0; 0; d] = true.
Proof.
  intros [H1 H2]. unfold point_in_line. cbn [nltb nleb NumR]. rewrite !andb_true_iff, Rltb_true, !Rleb_true, !vnorm3.
  cbn [vcross vsub mk map seq nth]. unfold get. rsimpl. cbn [nth].
  assert (Q : 0 < d * d) by (apply Rmult_lt_0_compat; lra).
  assert (Q2 : d * d <= / 1000000).
  { replace (/ 1000000) with (/ 1000 * / 1000) by lra. apply Rmult_le_compat; lra. }
  split; [split|].
  - replace (_ + _) with (d * d / 2 * (d * d / 2)) by field. rewrite sqrt_square by lra. unfold n1em6; rsimpl; lra.
  - apply sqrt_le_1_alt. lra.
  - apply sqrt_le_1_alt. lra.
Qed.

(** *** C82 *)
Lemma ramp_sp_shape (A x0 t : R) : 0 < x0 ->
  (t <= x0 -> @ramp_pulse_sp NumR A x0 t = A * t / x0) /\ (x0 < t -> @ramp_pulse_sp NumR A x0 t = A).
Proof. intros H. unfold ramp_pulse_sp. rsimpl. split; wcase; intros; try lra; field; lra. Qed.
Lemma ramp_sp_negative (A x0 t : R) : 0 < x0 -> 0 < A -> t < 0 ->
  @ramp_pulse_sp NumR A x0 t < 0 /\ @ramp_pulse NumR t A x0 = 0.
Proof.
  intros H HA Ht. split; [|now apply ramp_shape]. destruct (ramp_sp_shape A x0 t H) as [E _]; rewrite E by lra.
  unfold Rdiv. rewrite Rmult_assoc. assert (t * / x0 < 0).
  { rewrite <- (Rmult_0_l (/ x0)). apply Rmult_lt_compat_r; [now apply Rinv_0_lt_compat|auto]. }
  rewrite <- (Rmult_0_r A). apply Rmult_lt_compat_l; auto.
Qed.
