(** What [curved] means, and a solution of the telegrapher's equations with the runs that tend to it. *)
From Coq Require Import String List Arith ZArith Bool Lia Reals Lra Psatz.
From Verif Require Import Num Py Arr ArrFacts NumR RFacts LapackR Probes Line LineFacts SpecLine SpecR HistoryFacts TotalFacts ExampleLine RunProps BounceProps
  SpecTelegraph TruncFacts TelegraphProps.
Import ListNotations.
Local Open Scope R_scope.

Lemma curved_of_second K a b f f' f'' :
  (forall x, a <= x <= b -> derivable_pt_lim f x (f' x)) -> (forall x, a <= x <= b -> derivable_pt_lim f' x (f'' x)) ->
  (forall x, a <= x <= b -> Rabs (f'' x) <= K) -> curved K a b f f'.
Proof.
  intros D1 D2 B x y Hx Hy.
  assert (G : forall u v, a <= u <= b -> a <= v <= b -> u < v -> forall s, u <= s <= v -> Rabs (f v - f u - f' s * (v - u)) <= K * (v - u) ^ 2).
  { intros u v Hu Hv Huv s Hs. destruct (MVT_cor2 f f' u v Huv) as (xi & E & Hxi); [intros c Hc; apply D1; lra|]. rewrite E.
    replace (f' xi * (v - u) - f' s * (v - u)) with ((f' xi - f' s) * (v - u)) by ring. rewrite Rabs_mult, (Rabs_right (v - u)) by lra.
    assert (L : Rabs (f' xi - f' s) <= K * (v - u)).
    { assert (K0 : 0 <= K) by (eapply Rle_trans; [apply Rabs_pos|apply (B u); lra]).
      destruct (Rtotal_order s xi) as [L|[L|L]].
      - destruct (MVT_cor2 f' f'' s xi L) as (eta & E2 & He); [intros c Hc; apply D2; lra|]. rewrite E2, Rabs_mult, (Rabs_right (xi - s)) by lra.
        pose proof (B eta ltac:(lra)). pose proof (Rabs_pos (f'' eta)). apply Rmult_le_compat; lra.
      - subst s. rewrite Rminus_eq_0, Rabs_R0. apply Rmult_le_pos; lra.
      - destruct (MVT_cor2 f' f'' xi s L) as (eta & E2 & He); [intros c Hc; apply D2; lra|]. rewrite Rabs_minus_sym, E2, Rabs_mult, (Rabs_right (s - xi)) by lra.
        pose proof (B eta ltac:(lra)). pose proof (Rabs_pos (f'' eta)). apply Rmult_le_compat; lra. }
    apply (Rmult_le_compat_r (v - u)) in L; lra. }
  destruct (Rtotal_order x y) as [L|[L|L]].
  - apply G; auto; lra.
  - subst y. replace (f x - f x - f' x * (x - x)) with 0 by ring. rewrite Rabs_R0. replace (K * (x - x) ^ 2) with 0 by ring. lra.
  - replace (f y - f x - f' x * (y - x)) with (- (f x - f y - f' x * (x - y))) by ring. rewrite Rabs_Ropp. replace ((y - x) ^ 2) with ((x - y) ^ 2) by ring. apply G; auto; lra.
Qed.
Lemma curved_derivative K a b f f' x : curved K a b f f' -> a < x < b -> derivable_pt_lim f x (f' x).
Proof.
  intros C Hx eps He. pose proof (Rabs_pos K) as K0.
  set (d := Rmin (Rmin (x - a) (b - x)) (eps / (Rabs K + 1))).
  assert (D : 0 < d). { unfold d. repeat apply Rmin_glb_lt; try lra. apply Rdiv_lt_0_compat; lra. }
  exists (mkposreal d D). intros h Hh Hd. cbn in Hd.
  pose proof (Rmin_l (Rmin (x - a) (b - x)) (eps / (Rabs K + 1))) as L1. pose proof (Rmin_r (Rmin (x - a) (b - x)) (eps / (Rabs K + 1))) as L2.
  pose proof (Rmin_l (x - a) (b - x)) as L3. pose proof (Rmin_r (x - a) (b - x)) as L4. fold d in L1, L2.
  assert (Hh2 : - d < h < d) by (apply Rabs_def2 in Hd; lra).
  pose proof (C x (x + h) ltac:(lra) ltac:(lra)) as E. replace (x + h - x) with h in E by ring.
  replace ((f (x + h) - f x) / h - f' x) with ((f (x + h) - f x - f' x * h) / h) by (field; auto).
  assert (HA : 0 < Rabs h) by now apply Rabs_pos_lt. unfold Rdiv. rewrite Rabs_mult, Rabs_inv. apply (Rmult_lt_reg_r (Rabs h)); auto.
  rewrite Rmult_assoc, Rinv_l, Rmult_1_r by lra. eapply Rle_lt_trans; [exact E|]. rewrite <- (pow2_abs h).
  assert (K * Rabs h ^ 2 <= Rabs K * Rabs h ^ 2) by (apply Rmult_le_compat_r; [apply pow2_ge_0|apply Rle_abs]).
  assert ((Rabs K + 1) * Rabs h < eps).
  { apply (Rmult_lt_compat_l (Rabs K + 1)) in Hd; [|lra]. apply (Rmult_le_compat_l (Rabs K + 1)) in L2; [|lra]. replace ((Rabs K + 1) * (eps / (Rabs K + 1))) with eps in L2 by (field; lra). lra. }
  nra.
Qed.

(** a pulse that starts as a parabola *)
Definition ramp2 (s : R) : R := if Rle_dec s 0 then 0 else s ^ 2.
Definition ramp2' (s : R) : R := if Rle_dec s 0 then 0 else 2 * s.
Lemma ramp2_curved x y : Rabs (ramp2 y - ramp2 x - ramp2' x * (y - x)) <= (y - x) ^ 2.
Proof.
  unfold ramp2, ramp2'. cbn [pow]. rewrite !Rmult_1_r. pose proof (Rle_0_sqr x) as X. pose proof (Rle_0_sqr y) as Y. pose proof (Rle_0_sqr (y - x)) as W. unfold Rsqr in *.
  destruct (Rle_dec y 0) as [A|A], (Rle_dec x 0) as [B|B]; apply Rabs_le; try lra.
  - assert (0 <= - y * x) by nra. lra.
  - assert (0 <= y * - x) by nra. lra.
Qed.
(** it runs along a line with l = 4, c = 1: impedance 2, delay 2 per unit length *)
Definition exV (z t : R) : R := ramp2 (t - 2 * z).
Definition exI (z t : R) : R := ramp2 (t - 2 * z) / 2.
Lemma ex_solution Tm : 0 < Tm -> telegraph 4 1 0 0 1 2 2 Tm (fun t => 2 * ramp2 t) (fun _ => 0) exV exI 4.
Proof.
  intros HT. exists (fun z t => - 2 * ramp2' (t - 2 * z)), (fun z t => ramp2' (t - 2 * z)), (fun z t => - ramp2' (t - 2 * z)), (fun z t => ramp2' (t - 2 * z) / 2).
  assert (Z : forall t x y, Rabs (ramp2 (t - 2 * y) - ramp2 (t - 2 * x) - ramp2' (t - 2 * x) * (- 2 * (y - x))) <= 4 * (y - x) ^ 2).
  { intros t x y. pose proof (ramp2_curved (t - 2 * x) (t - 2 * y)) as H. replace (t - 2 * y - (t - 2 * x)) with (- 2 * (y - x)) in H by ring. eapply Rle_trans; [exact H|]. right. ring. }
  assert (W : forall z s t, Rabs (ramp2 (t - 2 * z) - ramp2 (s - 2 * z) - ramp2' (s - 2 * z) * (t - s)) <= (t - s) ^ 2).
  { intros z s t. pose proof (ramp2_curved (s - 2 * z) (t - 2 * z)) as H. replace (t - 2 * z - (s - 2 * z)) with (t - s) in H by ring. exact H. }
  split; [|split; [|split; [|split; [|split]]]].
  - intros t Ht. split; intros x y Hx Hy; unfold exV, exI; pose proof (Z t x y) as H.
    + replace (- 2 * ramp2' (t - 2 * x) * (y - x)) with (ramp2' (t - 2 * x) * (- 2 * (y - x))) by ring. exact H.
    + apply abs_between in H. pose proof (pow2_ge_0 (y - x)). apply Rabs_le. lra.
  - intros z Hz. split; intros s t Hs Ht; unfold exV, exI; pose proof (W z s t) as H; apply abs_between in H; pose proof (pow2_ge_0 (t - s)); apply Rabs_le; lra.
  - intros z t Hz Ht. unfold exV, exI. split; lra.
  - intros t Ht. unfold exV, exI. split; [|lra]. replace (t - 2 * 0) with t by ring. lra.
  - intros z Hz. unfold exV, exI, ramp2. destruct (Rle_dec (0 - 2 * z) 0); [split; lra|lra].
  - intros t Ht. unfold ramp2. destruct (Rle_dec t 0); [split; lra|lra].
Qed.
Lemma ex_moves : exV (/ 4) 1 = / 4.
Proof. unfold exV, ramp2. destruct (Rle_dec (1 - 2 * / 4) 0); lra. Qed.

(** the lines that tend to it, whatever the number of cells, with half the default step *)
Lemma ex_runs P : exists (m0 m1 m2 m : mtl NumR) T (st : nat -> mtl NumR), lapack_ok LR /\ lapack_complete LR /\
  mtl_new LR (fun _ => []) (fun _ => []) (@PFloat NumR 4) (@PFloat NumR 1) (@PFloat NumR 0) (@PFloat NumR 0) 1 [] [S P]
      (@ZScal NumR 2) (@ZScal NumR 2) "line" = Ok m0 /\
  add_voltage_source m0 (@PosF NumR 0) 0 (fun t => 2 * ramp2 t) = Ok m1 /\ add_voltage_source m1 (@PosF NumR 1) 0 (fun _ => 0) = Ok m2 /\
  m = set_time_step m2 2 (step_dt m0) /\ 0 < step_dt m <= / 2 * step_dt m0 /\ step_dt m < step_dt m0 /\
  (forall k, (k <= 2)%nat -> run_state LR m T k (st k)) /\ (INR 2 + / 2) * step_dt m <= 3.
Proof.
  destruct (two_ends LR LR_ok LR_complete (fun _ => []) (fun _ => []) 4 1 0 0 1 2 2 (S P) "line" (fun t => 2 * ramp2 t) (fun _ => 0)) as
    (m0 & m1 & m2 & E0 & E1 & E2 & HH & Ph & O & U & D0 & D1 & _); try lra; try lia.
  set (m := set_time_step m2 2 (step_dt m0)). assert (HN : 1 <= INR (S P)) by (rewrite S_INR; pose proof (pos_INR P); lra).
  assert (ED0 : step_dt m0 = 2 / INR (S P)).
  { rewrite D0, Rabs_R1. replace (4 * 1) with (2 * 2) by ring. rewrite sqrt_square by lra. rty. unfold Rdiv. ring. }
  assert (Q0 : 0 < step_dt m0 <= 2).
  { rewrite ED0. split; [apply Rdiv_lt_0_compat; lra|]. apply (Rmult_le_reg_r (INR (S P))); [lra|]. unfold Rdiv. rewrite Rmult_assoc, Rinv_l by lra. lra. }
  assert (ED : step_dt m = step_dt m0 / 2) by reflexivity.
  assert (Pm : physical m) by (apply physical_time_step; auto; lra).
  set (T := (INR 2 + / 2) * step_dt m).
  destruct (run_total LR LR_complete m T Pm) as [a Ha]. destruct (run_until_state LR m T a Ha) as (n & Hn & R).
  assert (n = 2%nat) as ->.
  { assert (F : @time_range_len NumR T (step_dt m) = Ok 2%nat). { apply floor_range; [rewrite ED; lra|]. unfold T. rewrite ED. simpl. lra. }
    congruence. }
  destruct R as (steps & p & A1 & A2 & A3 & A4).
  exists m0, m1, m2, m, T, (fun k => match iterM k mtl_step p with Ok x => x | Err _ => a end).
  split; [exact LR_ok|]. split; [exact LR_complete|]. split; [exact E0|]. split; [exact E1|]. split; [exact E2|]. split; [reflexivity|].
  split; [rewrite ED; lra|]. split; [rewrite ED; lra|]. split.
  - intros k Hk. destruct (iterM_prefix _ k _ _ _ A4 Hk) as (x & Ex & _). rewrite Ex. exists steps, p. repeat split; auto. lia.
  - rewrite ED. simpl. lra.
Qed.
