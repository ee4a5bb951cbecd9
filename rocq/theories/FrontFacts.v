(** The front of a wave on a line of one conductor at rest. *)
From Coq Require Import String List Arith ZArith Bool Lia Reals Lra.
From Verif Require Import Num Py Arr ArrFacts NumR RFacts LapackR Probes Line SpecLine SpecR SpecEnergy SpecFront SpecRecip HistoryFacts RunEqFacts EnergyFacts StepProps RecipProps.
Import ListNotations.
Local Open Scope R_scope.

Section Front.
Variable LA : lapack NumR.
Hypothesis LAok : lapack_ok LA.
Variables m0 m : mtl NumR.
Hypothesis Q : resting_line LA m0 m.

Lemma mulv_single A x : mulv 1 A x 0 = A 0%nat 0%nat * x 0%nat.
Proof. unfold mulv. cbn. rsimpl. ring. Qed.
Lemma zero_r x y : 0 < x -> x * y = 0 -> y = 0.
Proof. intros Hx E. apply Rmult_integral in E as [E|E]; lra. Qed.
Lemma div_intro x y z : y <> 0 -> x * y = z -> x = z / y.
Proof. intros H <-. field. exact H. Qed.
Lemma width_pos j : (0 < j)%nat -> (j <= cells m)%nat -> 0 < width m j.
Proof.
  intros H0 H. unfold width. destruct (Nat.eqb_spec j 0); [lia|]. destruct (Nat.eqb_spec j (cells m)); [exact (proj1 (rg_cell _ _ _ Q (cells m - 1)%nat ltac:(lia)))|].
  pose proof (proj1 (rg_cell _ _ _ Q (j - 1)%nat ltac:(lia))). pose proof (proj1 (rg_cell _ _ _ Q j ltac:(lia))). lra.
Qed.
Lemma per_step_pos x y d : 0 < x -> 0 <= y -> 0 < d -> 0 < x / d + y / 2.
Proof. intros. assert (0 < x / d) by (apply Rdiv_lt_0_compat; lra). lra. Qed.
Lemma crossing_pos q : (S q < cells m)%nat -> 0 < crossing m q.
Proof.
  intros H. unfold crossing. destruct (rg_cell _ _ _ Q q ltac:(lia)) as (H1 & H2 & H3). destruct (rg_node _ _ _ Q (S q) ltac:(lia)) as (N1 & N2 & _). pose proof (rg_dt _ _ _ Q).
  apply Rmult_lt_0_compat; apply Rmult_lt_0_compat; auto using per_step_pos. apply width_pos; lia.
Qed.

Record front (k : nat) (a : mtl NumR) : Prop := {
  fr_v : forall j, (k <= j)%nat -> (j <= cells m)%nat -> volt a 0 j = 0;
  fr_i : forall j, (k <= j)%nat -> (j < cells m)%nat -> curr a 0 j = 0;
  fr_f : forall j, k = S j -> (j < cells m)%nat -> volt a 0 j * crossings m j = first_voltage m0 m;
  fr_c : forall j, k = S j -> (j < cells m)%nat -> curr a 0 j * (cell_len m j * (L_ m j 0 0 / step_dt m + R_ m j 0 0 / 2)) = volt a 0 j
}.
Lemma front_step T k a b : run_step LA m T k a b -> front k a -> front (S k) b.
Proof.
  intros Hs [Fv Fi Ff Fc]. pose proof (rg_history _ _ _ Q) as HH. assert (HR : reachable LA m) by (exists m0; exact HH).
  pose proof (rg_one _ _ _ Q) as H1. destruct (rg_field _ _ _ Q) as [NT NL]. pose proof (rg_dt _ _ _ Q) as D. pose proof (rg_dt0 _ _ _ Q) as D0. destruct (rg_ends _ _ _ Q) as [Zs Zl].
  destruct (end_step LA LAok m0 m a b T k 0 HH (rg_field _ _ _ Q) Hs ltac:(lia)) as [En Ef]. cbv zeta in Ef. unfold end_Z, drive, end_node, node_G in En, Ef. rewrite H1 in En, Ef. rewrite !mulv_single in En, Ef.
  assert (Node : forall j, (0 < j)%nat -> (j < cells m)%nat ->
    width m j * (C_ m j 0 0 * (volt b 0 j - volt a 0 j) / step_dt m + G_ m j 0 0 * (volt b 0 j + volt a 0 j) / 2) + curr a 0 j - curr a 0 (j - 1) = 0).
  { intros j J0 J. pose proof (voltage_eq LA LAok m T k a b 0 j HR Hs ltac:(lia) J0 J) as E. cbv zeta in E. rewrite H1, !mulv_single in E. rewrite !NT in E by lia. eapply eq_trans; [|exact E]. rsimpl. unfold Rdiv. ring. }
  assert (Cell : forall j, (j < cells m)%nat ->
    cell_len m j * (L_ m j 0 0 * (curr b 0 j - curr a 0 j) / step_dt m + R_ m j 0 0 * (curr b 0 j + curr a 0 j) / 2) + (volt b 0 (S j) - volt b 0 j) = 0).
  { intros j J. pose proof (current_eq_plain LA LAok m T k a b 0 j HR (rg_plain _ _ _ Q) Hs ltac:(lia) J) as E. cbv zeta in E. rewrite H1, !mulv_single in E. rewrite !NT, !NL in E by lia. lra. }
  assert (V : forall j, (S k <= j)%nat -> (j <= cells m)%nat -> volt b 0 j = 0).
  { intros j J1 J2. destruct (rg_node _ _ _ Q j J2) as (N1 & N2 & N3). destruct (Nat.eq_dec j (cells m)) as [->|J3].
    - rewrite Nat.eqb_refl, orb_true_r in Ef. rewrite (Fv (cells m)), (Fi (cells m - 1)%nat) in Ef by lia. rewrite !(rg_far _ _ _ Q) in Ef.
      destruct (rg_cell _ _ _ Q (cells m - 1)%nat ltac:(lia)) as (P1 & _). pose proof (per_step_pos _ _ _ N1 N3 D0) as P2.
      apply (zero_r (1 + cell_len m (cells m - 1) * Zl_ m 0 0 * (C_ m (cells m) 0 0 / step_dt m0 + G_ m0 (cells m) 0 0 / 2))).
      + assert (0 <= cell_len m (cells m - 1) * Zl_ m 0 0 * (C_ m (cells m) 0 0 / step_dt m0 + G_ m0 (cells m) 0 0 / 2)); [|lra]. apply Rmult_le_pos; [|lra]. apply Rmult_le_pos; lra.
      + unfold Rdiv in *. lra.
    - specialize (Node j ltac:(lia) ltac:(lia)). rewrite (Fv j), (Fi j), (Fi (j - 1)%nat) in Node by lia.
      apply (zero_r (width m j * (C_ m j 0 0 / step_dt m + G_ m j 0 0 / 2))); [apply Rmult_lt_0_compat; [apply width_pos; lia|auto using per_step_pos]|]. unfold Rdiv in *. lra. }
  assert (I : forall j, (k <= j)%nat -> (j < cells m)%nat -> curr b 0 j * (cell_len m j * (L_ m j 0 0 / step_dt m + R_ m j 0 0 / 2)) = volt b 0 j).
  { intros j J1 J2. specialize (Cell j J2). rewrite (Fi j), (V (S j)) in Cell by lia. unfold Rdiv in *. lra. }
  split; [exact V| | |].
  - intros j J1 J2. destruct (rg_cell _ _ _ Q j J2) as (P1 & P2 & P3). specialize (I j ltac:(lia) J2). rewrite (V j) in I by lia. rewrite Rmult_comm in I.
    apply zero_r in I; auto. apply Rmult_lt_0_compat; auto using per_step_pos.
  - intros j E Hj. injection E as <-. destruct k as [|q]; cbn [crossings].
    + cbn [Nat.eqb orb] in En. rewrite (Fv 0%nat), (Fi 0%nat) in En by lia. rewrite Rmult_1_r. unfold first_voltage. cbn [INR] in En. rewrite !Rmult_0_l, !Rplus_0_r in En.
      destruct (rg_node _ _ _ Q 0%nat ltac:(lia)) as (N1 & N2 & N3). destruct (rg_cell _ _ _ Q 0%nat ltac:(lia)) as (P1 & _). pose proof (per_step_pos _ _ _ N1 N3 D0) as P2.
      assert (0 <= Zs_ m 0 0 * cell_len m 0 * (C_ m 0 0 0 / step_dt m0 + G_ m0 0 0 0 / 2)) by (apply Rmult_le_pos; [apply Rmult_le_pos; lra|lra]).
      apply div_intro; [lra|]. unfold Rdiv in *. lra.
    + rewrite <- (Ff q eq_refl ltac:(lia)). specialize (Node (S q) ltac:(lia) Hj). rewrite (Fv (S q)), (Fi (S q)) in Node by lia. replace (S q - 1)%nat with q in Node by lia.
      rewrite <- (Fc q eq_refl ltac:(lia)). unfold crossing.
      assert (E : volt b 0 (S q) * (width m (S q) * (C_ m (S q) 0 0 / step_dt m + G_ m (S q) 0 0 / 2)) = curr a 0 q) by (unfold Rdiv in *; lra).
      rewrite <- E. ring.
  - intros j E Hj. injection E as <-. apply I; auto.
Qed.
Lemma front_run T k : forall a, run_state LA m T k a -> front k a.
Proof.
  assert (HR : reachable LA m) by (exists m0; exact (rg_history _ _ _ Q)).
  induction k as [|k IH]; intros a H.
  - destruct (run_state_0 LA m T a HR H) as [V I]. split; try discriminate; intros j _ Hj; rewrite ?V, ?I; [apply (rg_volt _ _ _ Q)|apply (rg_curr _ _ _ Q)]; exact Hj.
  - destruct H as (s & p & H1 & H2 & H3 & H4). rewrite iterM_S in H4. inv_bind H4. apply (front_step T k a0 a); [exists s, p; auto 6|]. apply IH. exists s, p. repeat split; auto. lia.
Qed.
Lemma wave_front T j a : run_state LA m T (S j) a -> (j < cells m)%nat ->
  volt a 0 j * crossings m j = first_voltage m0 m /\ (forall k, (j < k)%nat -> (k <= cells m)%nat -> volt a 0 k = 0) /\ (forall k, (j < k)%nat -> (k < cells m)%nat -> curr a 0 k = 0).
Proof. intros H J. destruct (front_run T (S j) a H) as [Fv Fi Ff _]. split; [apply Ff; auto|]. split; intros k K; [apply Fv|apply Fi]; lia. Qed.
Lemma crossings_pos j : (j < cells m)%nat -> 0 < crossings m j.
Proof. induction j as [|j IH]; cbn [crossings]; intros H; [lra|]. apply Rmult_lt_0_compat; [apply IH; lia|apply crossing_pos; exact H]. Qed.
Lemma uniform_crossings l c h j : uniform m l c h -> (j < cells m)%nat -> crossings m j = (h * sqrt (l * c) / step_dt m) ^ (2 * j).
Proof.
  intros [Uc Un]. induction j as [|j IH]; intros H; [reflexivity|]. cbn [crossings]. rewrite IH by lia. replace (2 * S j)%nat with (2 * j + 2)%nat by lia. rewrite pow_add. f_equal.
  unfold crossing. destruct (rg_cell _ _ _ Q j ltac:(lia)) as (P1 & P2 & _). destruct (rg_node _ _ _ Q (S j) ltac:(lia)) as (P3 & _). destruct (Uc j ltac:(lia)) as (-> & E1 & ->). destruct (Un (S j) ltac:(lia)) as (E2 & ->).
  assert (W : width m (S j) = h).
  { unfold width. destruct (Nat.eqb_spec (S j) 0); [lia|]. destruct (Nat.eqb_spec (S j) (cells m)); [lia|]. rewrite (proj1 (Uc (S j - 1)%nat ltac:(lia))), (proj1 (Uc (S j) ltac:(lia))). lra. }
  rewrite W, E1, E2 in *. pose proof (rg_dt _ _ _ Q).
  assert (Sq : sqrt (l * c) ^ 2 = l * c) by (cbn [pow]; rewrite Rmult_1_r; apply sqrt_sqrt; apply Rmult_le_pos; lra).
  unfold Rdiv. rewrite !Rpow_mult_distr, Sq. field. lra.
Qed.
Lemma uniform_front l c h T j a : uniform m l c h -> 0 < l -> 0 < c -> 0 < h -> run_state LA m T (S j) a -> (j < cells m)%nat ->
  volt a 0 j = first_voltage m0 m * (step_dt m / (h * sqrt (l * c))) ^ (2 * j).
Proof.
  intros U Hl Hc Hh H J. destruct (wave_front T j a H J) as [E _]. rewrite (uniform_crossings l c h j U J) in E. rewrite <- E.
  assert (0 < h * sqrt (l * c)) by (apply Rmult_lt_0_compat; [lra|]; apply sqrt_lt_R0; apply Rmult_lt_0_compat; lra). pose proof (rg_dt _ _ _ Q).
  set (q := h * sqrt (l * c)) in *. clearbody q. rewrite Rmult_assoc, <- Rpow_mult_distr. replace (q / step_dt m * (step_dt m / q)) with 1 by (field; lra). rewrite pow1. symmetry. apply Rmult_1_r.
Qed.
End Front.

(** powers of a number above one have no bound *)
Lemma growth s v K : 1 < s -> 0 < v -> exists j : nat, forall i, (j <= i)%nat -> K < v * s ^ (2 * i).
Proof.
  intros Hs Hv. destruct (Pow_x_infinity s ltac:(rewrite Rabs_right; lra) (K / v + 1)) as [n Hn]. exists n. intros i Hi. specialize (Hn (2 * i)%nat ltac:(lia)).
  rewrite Rabs_right in Hn by (apply Rle_ge, pow_le; lra). assert (K / v < s ^ (2 * i)) by lra. apply (Rmult_lt_compat_l v) in H; [|exact Hv]. unfold Rdiv in H. rewrite <- Rmult_assoc, (Rmult_comm v K), Rmult_assoc, Rinv_r in H by lra. lra.
Qed.
