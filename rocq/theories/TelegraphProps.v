(** The runs of a line of one conductor tend to the solution of the telegrapher's equations. *)
From Coq Require Import String List Arith ZArith Bool Lia Reals Lra Psatz.
From Verif Require Import Num Py Arr ArrFacts NumR RFacts LapackR Probes Dispersive Line LineFacts SpecLine SpecR SpecDyn HistoryFacts
  NearestFacts TotalFacts RunEqFacts StepProps ExampleLine RunProps BounceProps EnergyFacts SpecTelegraph ErrFacts TruncFacts.
Import ListNotations.
Local Open Scope R_scope.

Lemma rsum_sumR n f : rsum n f = sumR n f.
Proof. induction n as [|n IH]; [reflexivity|]. cbn [rsum]. rewrite IH, sumR_S. reflexivity. Qed.

Lemma mulv_1 A x : mulv 1 A x 0 = A 0%nat 0%nat * x 0%nat.
Proof. unfold mulv. rewrite sumR_S, sumR_0. rring. Qed.

Lemma archimed_nat (x : R) : exists n, x <= INR n.
Proof.
  destruct (Rle_or_lt x 0) as [H|H]; [exists 0%nat; simpl; lra|]. exists (Z.to_nat (up x)). destruct (archimed x) as [A _].
  rewrite INR_IZR_INZ, Z2Nat.id; [lra|]. apply le_IZR. lra.
Qed.
Lemma rsum_term n f k : (k < n)%nat -> (forall j, (j < n)%nat -> 0 <= f j) -> f k <= rsum n f.
Proof.
  induction n as [|n IH]; intros Hk H; [lia|]. cbn [rsum]. assert (0 <= rsum n f) by (apply rsum_nonneg; auto).
  destruct (Nat.eq_dec k n) as [->|Hn]; [pose proof (H n ltac:(lia)); lra|]. pose proof (IH ltac:(lia) ltac:(auto)). pose proof (H n ltac:(lia)). lra.
Qed.

Lemma Rle_add1 a b : 0 <= b -> a <= a + b.
Proof. lra. Qed.
Lemma Rle_add2 a b : 0 <= b -> a <= b + a.
Proof. lra. Qed.

Section Telegraph.
Variable LA : lapack NumR.
Hypothesis LAok : lapack_ok LA.
Hypothesis LAC : lapack_complete LA.

(** the values along a run are those of the scheme *)
Lemma run_scheme ju jdu (l c r g len zs zl : R) P name (vs vl : R -> R) (m0 m1 m2 m : mtl NumR) T n (st : nat -> mtl NumR) :
  0 < l -> 0 < c -> 0 <= r -> 0 <= g -> 0 < len -> 0 < zs -> 0 < zl ->
  mtl_new LA ju jdu (@PFloat NumR l) (@PFloat NumR c) (@PFloat NumR r) (@PFloat NumR g) len [] [S P]
      (@ZScal NumR zs) (@ZScal NumR zl) name = Ok m0 ->
  add_voltage_source m0 (@PosF NumR 0) 0 vs = Ok m1 -> add_voltage_source m1 (@PosF NumR len) 0 vl = Ok m2 ->
  m = m2 \/ (exists NDT Tf, m = set_time_step m2 NDT Tf) -> 0 < step_dt m ->
  (forall k, (k <= n)%nat -> run_state LA m T k (st k)) ->
  let h := len / INR (S P) in let Z := sqrt (l / c) in
  step_dt m0 = h * c * Z /\ step_dt m = step_dt m / step_dt m0 * (h * c * Z) /\
  scheme l c r g len zs zl vs vl P Z (step_dt m / step_dt m0) (fun k j => volt (st k) 0 j) (fun k j => curr (st k) 0 j) n.
Proof.
  intros Hl Hc Hr Hg Hlen Hzs Hzl E0 E1 E2 Em Hdt Hst h Z.
  destruct (two_ends LA LAok LAC ju jdu l c r g len zs zl (S P) name vs vl) as
    (x0 & x1 & x2 & X0 & X1 & X2 & HH & Ph & O & U & D0 & D1 & S0 & SN & V0 & I0 & ET & EL & T0 & EG); auto; try lra; try lia.
  assert (x0 = m0) as -> by congruence. assert (x1 = m1) as -> by congruence. assert (x2 = m2) as -> by congruence. clear X0 X1 X2.
  assert (HN : 0 < INR (S P)) by (apply lt_0_INR; lia). assert (Hh : 0 < h) by (now apply Rdiv_lt_0_compat).
  assert (HZ : 0 < Z) by (apply sqrt_lt_R0; now apply Rdiv_lt_0_compat).
  assert (ZZ : c * Z = sqrt (l * c)).
  { unfold Z. rewrite <- (sqrt_square c) at 1 by lra. rewrite <- sqrt_mult by (try nra; left; now apply Rdiv_lt_0_compat). apply (f_equal sqrt). field. lra. }
  assert (Edt0 : step_dt m0 = h * c * Z).
  { rewrite D0, (Rabs_right len) by lra. rewrite <- ZZ. fold h. rring. }
  assert (P0 : 0 < step_dt m0) by (rewrite Edt0; apply Rmult_lt_0_compat; [now apply Rmult_lt_0_compat|auto]).
  split; [exact Edt0|]. rewrite <- Edt0. assert (DD : forall x y : R, 0 < y -> x / y * y = x) by (intros; field; lra). split; [symmetry; now apply DD|].
  assert (Q : history LA m0 m /\ one_line m (S P) l c r g h zs zl /\ undispersed m /\ source m 0 0 = vs /\ source m 0 (S P) = vl /\
    (forall j k, volt m j k = 0) /\ (forall j k, curr m j k = 0) /\ (forall j k, eTran m j k = (fun _ => 0)) /\ (forall j k, eLong m j k = (fun _ => 0)) /\ m_time m = 0 /\
    (forall k i j, G_ m k i j = G_ m0 k i j)).
  { replace h with (Rabs len / INR (S P)) by (unfold h; now rewrite (Rabs_right len) by lra). destruct Em as [->|(NDT & Tf & ->)].
    - tauto.
    - split; [now apply h_time_step|]. split; [destruct O; split; auto|]. split.
      { destruct U as (u & dt & U). exists u, dt. exact U. }
      repeat (split; [assumption|]). exact EG. }
  clear HH O U S0 SN V0 I0 ET EL T0 EG D0 D1 Em. destruct Q as (HH & O & U & S0 & SN & V0 & I0 & ET & EL & T0 & EG).
  assert (HR : reachable LA m) by (exists m0; auto). destruct O as [On ON Oh OL OR OC OG Ozs Ozl].
  assert (STEP : forall k, (k < n)%nat -> run_step LA m T k (st k) (st (S k))).
  { intros k Hk. destruct (Hst k ltac:(lia)) as (s1 & p1 & A1 & A2 & A3 & A4). destruct (Hst (S k) ltac:(lia)) as (s2 & p2 & B1 & B2 & B3 & B4).
    assert (s1 = s2) as -> by congruence. assert (p1 = p2) as -> by congruence. rewrite iterM_S in B4. rewrite A4 in B4. cbn in B4. exists s2, p2. repeat split; auto. }
  destruct (run_state_0 LA m T (st 0%nat) HR (Hst 0%nat ltac:(lia))) as [W1 W2].
  assert (Edt : step_dt m / step_dt m0 * step_dt m0 = step_dt m) by now apply DD.
  split; cbv zeta; fold h; fold Z; rewrite <- ?Edt0, ?Edt.
  - intros j Hj. rewrite W1. apply V0.
  - intros j Hj. rewrite W2. apply I0.
  - intros k j Hk Hj. pose proof (voltage_eq LA LAok m T k _ _ 0%nat (S j) HR (STEP k Hk) ltac:(rewrite On; lia) ltac:(lia) ltac:(rewrite ON; lia)) as E.
    cbv zeta in E. rewrite On, !mulv_1, OC, OG, !ET in E by lia. unfold width in E. rewrite ON in E.
    replace (S j =? 0)%nat with false in E by (symmetry; apply Nat.eqb_neq; lia). replace (S j =? S P)%nat with false in E by (symmetry; apply Nat.eqb_neq; lia).
    rewrite !Oh in E by lia. replace (S j - 1)%nat with j in E by lia. rewrite <- E. rfield. lra.
  - intros k j Hk Hj. pose proof (current_eq_plain LA LAok m T k _ _ 0%nat j HR U (STEP k Hk) ltac:(rewrite On; lia) ltac:(rewrite ON; lia)) as E.
    cbv zeta in E. rewrite On, !mulv_1, OL, OR, Oh, !ET, !EL in E by lia. lra.
  - intros k Hk. destruct (old_step LA LAok m0 m _ _ T k 0%nat HH (STEP k Hk) ltac:(rewrite On; lia)) as [E _]; try (intros; now rewrite ET).
    cbv zeta in E. unfold thevenin in E. rewrite On, !mulv_1, OC, <- EG, OG, Oh, Ozs, S0, T0 in E by lia. rewrite Rplus_0_l in E. lra.
  - intros k Hk. destruct (old_step LA LAok m0 m _ _ T k 0%nat HH (STEP k Hk) ltac:(rewrite On; lia)) as [_ E]; try (intros; now rewrite ET).
    cbv zeta in E. unfold thevenin in E. rewrite On, ON, !mulv_1, OC, <- EG, OG, Oh, Ozl, SN, T0 in E by lia. rewrite Rplus_0_l in E. replace (S P - 1)%nat with P in E by lia. lra.
Qed.

Lemma converges (l c r g len zs zl Tm : R) (vs vl : R -> R) (V I : R -> R -> R) (K : R) :
  0 < l -> 0 < c -> 0 <= r -> 0 <= g -> 0 < len -> 0 < zs -> 0 < zl -> 0 < Tm -> telegraph l c r g len zs zl Tm vs vl V I K ->
  exists B, 0 <= B /\ forall ju jdu P name (m0 m1 m2 m : mtl NumR) T n st,
    mtl_new LA ju jdu (@PFloat NumR l) (@PFloat NumR c) (@PFloat NumR r) (@PFloat NumR g) len [] [S P]
        (@ZScal NumR zs) (@ZScal NumR zl) name = Ok m0 ->
    add_voltage_source m0 (@PosF NumR 0) 0 vs = Ok m1 -> add_voltage_source m1 (@PosF NumR len) 0 vl = Ok m2 ->
    m = m2 \/ (exists NDT Tf, m = set_time_step m2 NDT Tf) -> 0 < step_dt m <= step_dt m0 ->
    (forall k, (k <= n)%nat -> run_state LA m T k (st k)) -> (INR n + / 2) * step_dt m <= Tm ->
    let h := len / INR (S P) in let dt := step_dt m in let X := volt_error st V h dt in let Y := curr_error st I h dt in
    (dt < step_dt m0 -> h * sumR P (fun j => X n (S j) ^ 2) + h * sumR (S P) (fun k => Y n k ^ 2) <= B * h ^ 2 / (1 - dt / step_dt m0)) /\
    dt * sumR n (fun k => ((X (S k) 0%nat + X k 0%nat) / 2) ^ 2 + ((X (S k) (S P) + X k (S P)) / 2) ^ 2) <= B * h ^ 2 /\
    (forall k, (k < n)%nat -> h * sumR P (fun j => ((X (S k) (S j) + X k (S j)) / 2) ^ 2) <= B * h ^ 2).
Proof.
  intros Hl Hc Hr Hg Hlen Hzs Hzl HTm TE. set (Z := sqrt (l / c)).
  assert (Q : 0 < l / c) by now apply Rdiv_lt_0_compat. assert (HZ : 0 < Z) by now apply sqrt_lt_R0.
  assert (HZl : l = c * Z * Z) by (unfold Z; rewrite Rmult_assoc, sqrt_sqrt by lra; field; lra).
  destruct (scheme_converges l c r g len zs zl Tm vs vl V I K Z Hl Hc Hr Hg Hlen Hzs Hzl HTm HZl HZ TE) as (B & B0 & HB).
  exists B. split; [exact B0|]. intros ju jdu P name m0 m1 m2 m T n st E0 E1 E2 Em [D1 D2] Hst Hn h dt X Y.
  destruct (run_scheme ju jdu l c r g len zs zl P name vs vl m0 m1 m2 m T n st Hl Hc Hr Hg Hlen Hzs Hzl E0 E1 E2 Em D1 Hst) as (Ed0 & Ed & Sc).
  fold h Z in Ed0, Ed, Sc. set (rho := step_dt m / step_dt m0) in *. assert (P0 : 0 < step_dt m0) by lra.
  assert (Hrho : 0 < rho <= 1).
  { unfold rho. split; [now apply Rdiv_lt_0_compat|]. apply (Rmult_le_reg_r (step_dt m0)); auto. unfold Rdiv. rewrite Rmult_assoc, Rinv_l, Rmult_1_r, Rmult_1_l; lra. }
  specialize (HB P rho _ _ n Hrho Sc). cbv zeta in HB. fold h in HB. rewrite <- Ed in HB. fold dt in HB. specialize (HB Hn). destruct HB as (A1 & A2 & A3).
  split; [|split].
  - intros Hlt. rewrite <- !rsum_sumR. apply A1. unfold rho. apply (Rmult_lt_reg_r (step_dt m0)); auto. unfold Rdiv. rewrite Rmult_assoc, Rinv_l, Rmult_1_r, Rmult_1_l; [exact Hlt|lra].
  - rewrite <- rsum_sumR. exact A2.
  - intros k Hk. rewrite <- rsum_sumR. exact (A3 k Hk).
Qed.

(** every inner node and every cell, in the limit *)
Lemma pointwise (l c r g len zs zl Tm : R) (vs vl : R -> R) (V I : R -> R -> R) (K q eps : R) :
  0 < l -> 0 < c -> 0 <= r -> 0 <= g -> 0 < len -> 0 < zs -> 0 < zl -> 0 < Tm -> telegraph l c r g len zs zl Tm vs vl V I K ->
  0 < q < 1 -> 0 < eps ->
  exists P0, forall ju jdu P name (m0 m1 m2 m : mtl NumR) T n a, (P0 <= P)%nat ->
    mtl_new LA ju jdu (@PFloat NumR l) (@PFloat NumR c) (@PFloat NumR r) (@PFloat NumR g) len [] [S P]
        (@ZScal NumR zs) (@ZScal NumR zl) name = Ok m0 ->
    add_voltage_source m0 (@PosF NumR 0) 0 vs = Ok m1 -> add_voltage_source m1 (@PosF NumR len) 0 vl = Ok m2 ->
    m = m2 \/ (exists NDT Tf, m = set_time_step m2 NDT Tf) -> 0 < step_dt m <= q * step_dt m0 ->
    run_state LA m T n a -> (INR n + / 2) * step_dt m <= Tm ->
    let h := len / INR (S P) in let dt := step_dt m in
    (forall j, (0 < j <= P)%nat -> Rabs (volt a 0 j - V (INR j * h) (INR n * dt)) <= eps) /\
    (forall k, (k <= P)%nat -> Rabs (curr a 0 k - I ((INR k + / 2) * h) ((INR n + / 2) * dt)) <= eps).
Proof.
  intros Hl Hc Hr Hg Hlen Hzs Hzl HTm TE [Q0 Q1] He.
  destruct (converges l c r g len zs zl Tm vs vl V I K Hl Hc Hr Hg Hlen Hzs Hzl HTm TE) as (B & B0 & HB).
  set (M := B * len / (1 - q) / eps ^ 2). destruct (archimed_nat M) as [P0 HP0].
  exists P0. intros ju jdu P name m0 m1 m2 m T n a HP E0 E1 E2 Em [D1 D2] Ha Hn h dt.
  destruct Ha as (steps & p & A1 & A2 & A3 & A4).
  assert (ST : exists st : nat -> mtl NumR, st n = a /\ forall k, (k <= n)%nat -> run_state LA m T k (st k)).
  { exists (fun k => match iterM k mtl_step p with Ok x => x | Err _ => a end). split; [now rewrite A4|].
    intros k Hk. destruct (iterM_prefix _ k _ _ _ A4 Hk) as (x & Ex & _). rewrite Ex. exists steps, p. repeat split; auto. lia. }
  destruct ST as (st & <- & Hst). pose proof (pos_INR P) as PP. assert (HN : 0 < INR (S P)) by (apply lt_0_INR; lia).
  assert (P1 : 0 < step_dt m0) by nra.
  destruct (HB ju jdu P name m0 m1 m2 m T n st E0 E1 E2 Em ltac:(nra) Hst Hn) as [A _]. cbv zeta in A. specialize (A ltac:(nra)). fold h dt in A.
  set (rho := dt / step_dt m0) in *. assert (Hrho : rho <= q).
  { unfold rho. apply (Rmult_le_reg_r (step_dt m0)); auto. unfold Rdiv. rewrite Rmult_assoc, Rinv_l, Rmult_1_r; [exact D2|lra]. }
  assert (Hh : 0 < h) by (now apply Rdiv_lt_0_compat).
  rewrite <- !rsum_sumR in A.
  assert (N1 : forall j, (j < P)%nat -> 0 <= volt_error st V h dt n (S j) ^ 2) by (intros; apply pow2_ge_0).
  assert (N2 : forall j, (j < S P)%nat -> 0 <= curr_error st I h dt n j ^ 2) by (intros; apply pow2_ge_0).
  pose proof (rsum_nonneg P _ N1) as S1. pose proof (rsum_nonneg (S P) _ N2) as S2.
  assert (LIM : B * h ^ 2 / (1 - rho) <= h * eps ^ 2).
  { apply Rle_trans with (B * h ^ 2 / (1 - q)).
    - unfold Rdiv. apply Rmult_le_compat_l; [apply Rmult_le_pos; [auto|apply pow2_ge_0]|]. apply Rinv_le_contravar; lra.
    - replace (B * h ^ 2 / (1 - q)) with (h * (B * h / (1 - q))) by (field; lra). apply Rmult_le_compat_l; [lra|].
      replace (B * h / (1 - q)) with (M * (eps ^ 2 * / INR (S P))) by (unfold M, h; field; lra).
      replace (eps ^ 2) with (INR (S P) * (eps ^ 2 * / INR (S P))) at 2 by (field; lra).
      apply Rmult_le_compat_r.
      + apply Rmult_le_pos; [apply pow2_ge_0|left; now apply Rinv_0_lt_compat].
      + apply Rle_trans with (1 := HP0). apply le_INR. lia. }
  assert (SQ : forall x, x ^ 2 <= eps ^ 2 -> Rabs x <= eps).
  { intros x Hx. rewrite <- (pow2_abs x) in Hx. pose proof (Rabs_pos x). nra. }
  split.
  - intros j Hj. apply SQ. pose proof (rsum_term P _ (j - 1) ltac:(lia) N1) as W. cbv beta in W. replace (S (j - 1)) with j in W by lia.
    apply (Rmult_le_reg_l h); auto. change (h * volt_error st V h dt n j ^ 2 <= h * eps ^ 2).
    apply (Rmult_le_compat_l h) in W; [|lra]. pose proof (Rmult_le_pos _ _ (Rlt_le _ _ Hh) S2). exact (Rle_trans _ _ _ W (Rle_trans _ _ _ (Rle_add1 _ _ H) (Rle_trans _ _ _ A LIM))).
  - intros k Hk. apply SQ. pose proof (rsum_term (S P) _ k ltac:(lia) N2) as W. cbv beta in W.
    apply (Rmult_le_reg_l h); auto. change (h * curr_error st I h dt n k ^ 2 <= h * eps ^ 2).
    apply (Rmult_le_compat_l h) in W; [|lra]. pose proof (Rmult_le_pos _ _ (Rlt_le _ _ Hh) S1). exact (Rle_trans _ _ _ W (Rle_trans _ _ _ (Rle_add2 _ _ H) (Rle_trans _ _ _ A LIM))).
Qed.
End Telegraph.
