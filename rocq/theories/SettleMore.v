(** The direct-current solution of particular lines. *)
From Coq Require Import String List Arith ZArith Bool Lia Reals Lra Psatz.
From Verif Require Import Num Py Arr ArrFacts NumR RFacts LinAlg LapackR Probes Dispersive Line LineFacts SpecLine SpecR SpecDyn HistoryFacts
  RunEqFacts TotalFacts ExampleLine BounceProps SpecEnergy EnergyFacts EnergyProps SpecRecip RecipProps SpecShift ShiftFacts ShiftProps SpecSettle SettleFacts SettleProps.
Import ListNotations.
Local Open Scope R_scope.

Lemma mulv_only n A x c : (c < n)%nat -> (forall p, (p < n)%nat -> p <> c -> A c p = 0) -> mulv n A x c = A c c * x c.
Proof. intros Hc D. unfold mulv. apply (sumR_single n (fun j => A c j * x j) c Hc). intros j Hj Hne. rewrite D by auto. rring. Qed.
Lemma mulv_none n A x c : (forall p, (p < n)%nat -> A c p = 0) -> mulv n A x c = 0.
Proof. intros D. apply sumR_zero. intros j Hj. rewrite D by auto. rring. Qed.

Lemma mulv_zero n A c : mulv n A (fun _ => 0) c = 0.
Proof. apply sumR_zero. intros. rring. Qed.
Lemma mulv_one A x : mulv 1 A x 0 = A 0%nat 0%nat * x 0%nat.
Proof. unfold mulv. rewrite sumR_S, sumR_0. rring. Qed.
Lemma dc_rest (m0 m : mtl NumR) : dc_solution m0 m (fun _ => 0) (fun _ => 0) (fun _ _ => 0) (fun _ _ => 0).
Proof.
  split; intros; try (cbv zeta); rewrite mulv_zero; rring.
Qed.

Lemma dc_loops (m0 m : mtl NumR) s0 sN : (1 <= cells m)%nat ->
  (forall k c p, (k < cells m)%nat -> (c < conductors m)%nat -> (p < conductors m)%nat -> p <> c -> R_ m k c p = 0) ->
  (forall k c p, (k <= cells m)%nat -> (c < conductors m)%nat -> (p < conductors m)%nat -> node_G m0 m k c p = 0) ->
  (forall c, (c < conductors m)%nat -> end_Z m false c + wire_R m c (cells m) + end_Z m true c <> 0) ->
  dc_solution m0 m s0 sN (loop_V m s0 sN) (fun c _ => loop_I m s0 sN c).
Proof.
  intros N1 HR HG HZ. split.
  - intros c k Hc Hk. rewrite mulv_only by (auto; intros; apply HR; auto). unfold loop_V, wire_R. rewrite sumR_S. rsimpl. rty. ring.
  - intros c k Hc Hk. rewrite mulv_none by (intros; apply HG; auto; lia). rring.
  - intros c Hc. rewrite mulv_none by (intros; apply HG; auto; lia). unfold loop_V, wire_R. rewrite sumR_0. rsimpl. rty. ring.
  - intros c Hc. cbv zeta. rewrite mulv_none by (intros; apply HG; auto; lia). unfold loop_V, loop_I. specialize (HZ c Hc). rsimpl. rty. field. exact HZ.
Qed.

(** settling limits are unique *)
Lemma settles_unique LA m V I V' I' : endless LA m -> settles LA m V I -> settles LA m V' I' ->
  (forall c k, (c < conductors m)%nat -> (k <= cells m)%nat -> V c k = V' c k) /\ (forall c k, (c < conductors m)%nat -> (k < cells m)%nat -> I c k = I' c k).
Proof.
  intros HE A B. assert (X : forall x y : R, (forall eps, 0 < eps -> exists z, Rabs (z - x) < eps /\ Rabs (z - y) < eps) -> x = y).
  { intros x y H. destruct (Req_dec x y) as [E|E]; auto. exfalso. assert (P : 0 < Rabs (x - y) / 2) by (assert (0 < Rabs (x - y)) by (apply Rabs_pos_lt; lra); lra).
    destruct (H _ P) as (z & Z1 & Z2). assert (Rabs (x - y) <= Rabs (z - x) + Rabs (z - y)).
    { replace (x - y) with (- (z - x) + (z - y)) by ring. eapply Rle_trans; [apply Rabs_triang|]. rewrite Rabs_Ropp. lra. } lra. }
  split; intros c k Hc Hk; apply X; intros eps He; destruct (A eps He) as [K1 H1], (B eps He) as [K2 H2]; destruct (HE (Nat.max K1 K2)) as (T & a & Ha);
    destruct (H1 T _ a (Nat.le_max_l _ _) Ha) as [P1 P2], (H2 T _ a (Nat.le_max_r _ _) Ha) as [Q1 Q2].
  - exists (volt a c k). split; [apply P1|apply Q1]; auto.
  - exists (curr a c k). split; [apply P2|apply Q2]; auto.
Qed.

Lemma saw0 (v s : R) : v = s + 1 * (v - s). Proof. ring. Qed.
Section Run.
Variable LA : lapack NumR.
Hypothesis LAok : lapack_ok LA.
Hypothesis LAC : lapack_complete LA.

Lemma endless_physical m : physical m -> endless LA m.
Proof.
  intros P k. pose proof (ph_dt _ P) as D. set (T := INR (S k) * step_dt m).
  destruct (run_step_total LA LAC m T k P) as (a & b & H).
  - unfold T. replace (INR (S k) * step_dt m / step_dt m) with (IZR (Z.of_nat (S k))) by (rewrite <- INR_IZR_INZ; field; lra).
    assert (X : forall z, Int_part (IZR z) = z).
    { intros z. unfold Int_part. assert (up (IZR z) = z + 1)%Z as ->; [|lia]. symmetry. apply tech_up; rewrite plus_IZR; lra. }
    rewrite X, Nat2Z.id. lia.
  - exists T, a. now destruct (run_step_states LA _ _ _ _ _ H).
Qed.

(** a conductor tied to a constant generator that does not start at its voltage *)
Lemma untied m0 m T k a far c s : history LA m0 m -> no_field m -> 0 < step_dt m -> (c < conductors m)%nat -> end_Z m far c = 0 ->
  (forall t, m_time m - step_dt m <= t -> source m c (end_node m far) t = s) -> run_state LA m T k a ->
  volt a c (end_node m far) = s + (-1) ^ k * (volt m c (end_node m far) - s).
Proof.
  intros HH HF D Hc Hz HS. assert (HR : reachable LA m) by (exists m0; auto). revert a. induction k as [|k IH]; intros b Hb.
  - destruct (run_state_0 LA m T b HR Hb) as [V0 _]. rewrite V0. cbn [pow]. apply saw0.
  - assert (Hb' := Hb). destruct Hb as (st & p & H1 & H2 & H3 & H4). rewrite iterM_S in H4. inv_bind H4.
    assert (Hab : run_step LA m T k a b) by (exists st, p; repeat split; auto; lia).
    destruct (run_step_states LA _ _ _ _ _ Hab) as [Ha' _]. specialize (IH a Ha').
    assert (P : 0 <= INR k * step_dt m) by (apply Rmult_le_pos; [apply pos_INR|lra]).
    assert (E : drive m far c k = 2 * s).
    { unfold drive. cbv zeta. rewrite !HS by (rsimpl; rty; lra). rring. }
    destruct (end_step LA LAok m0 m a b T k c HH HF Hab Hc) as [E1 E2]. cbv zeta in E1, E2. cbn [pow].
    destruct far; cbn [end_node] in *; rewrite E, Hz in *; rsimpl; rty; lra.
Qed.

(** one conductor *)
Lemma divider_ready ju jdu (l c r len zs zl : R) (N : nat) name (Vs Vl : R -> R) NDT T (s0 sN t1 : R) (m0 m1 m2 m : mtl NumR) :
  0 < l -> 0 < c -> 0 <= r -> len <> 0 -> (1 <= N)%nat -> 0 <= zs -> 0 <= zl -> 0 < zs + zl ->
  mtl_new LA ju jdu (@PFloat NumR l) (@PFloat NumR c) (@PFloat NumR r) (@PFloat NumR 0) len [] [N] (@ZScal NumR zs) (@ZScal NumR zl) name = Ok m0 ->
  add_voltage_source m0 (@PosF NumR 0) 0 Vs = Ok m1 -> add_voltage_source m1 (@PosF NumR len) 0 Vl = Ok m2 -> set_time_step m2 NDT T = m ->
  0 < T / IZR NDT < step_dt m0 ->
  (forall t, t < 0 -> Vs t = 0 /\ Vl t = 0) -> (forall t, t1 <= t -> Vs t = s0 /\ Vl t = sN) ->
  history LA m0 m /\ endless LA m /\ undispersed m /\ no_field m /\ lossy m0 m /\
  (forall k, (k < cells m)%nat -> 0 < cell_len m k) /\ (forall k, (k < cells m)%nat -> pos_def (conductors m) (L_ m k)) /\ (forall k, (k <= cells m)%nat -> pos_def (conductors m) (C_ m k)) /\
  courant m (step_dt m0) /\ step_dt m < step_dt m0 /\ damped m /\ starts_tied m /\ steady_from t1 m (fun _ => s0) (fun _ => sN) /\
  (forall k c p, (k < cells m)%nat -> (c < conductors m)%nat -> (p < conductors m)%nat -> p <> c -> R_ m k c p = 0) /\
  (forall k c p, (k <= cells m)%nat -> (c < conductors m)%nat -> (p < conductors m)%nat -> node_G m0 m k c p = 0) /\
  conductors m = 1%nat /\ cells m = N /\ end_Z m false 0 = zs /\ end_Z m true 0 = zl /\ (forall k, (k <= N)%nat -> wire_R m 0 k = r * Rabs len * (INR k / INR N)).
Proof.
  intros Hl Hc Hr Hlen HN Hzs Hzl Hz E0 E1 E2 Em HT HV0 HV1.
  destruct (two_ends LA LAok LAC ju jdu l c r 0 len zs zl N name Vs Vl) as
    (m0' & m1' & m2' & F0 & F1 & F2 & HH & P & O & U & D0 & D1 & S0 & SN & V0 & I0 & ET & EL & T0 & G0); auto; try lra.
  rewrite E0 in F0. injection F0 as <-. rewrite E1 in F1. injection F1 as <-. rewrite E2 in F2. injection F2 as <-.
  assert (HHm : history LA m0 m) by (subst m; apply h_time_step; exact HH).
  assert (Pm : physical m) by (subst m; apply physical_time_step; auto; lra).
  assert (Edt : step_dt m = T / IZR NDT) by (subst m; reflexivity).
  assert (Om : one_line m N l c r 0 (Rabs len / INR N) zs zl) by (subst m; destruct O; split; auto).
  assert (HINR : 0 < INR N) by (apply lt_0_INR; lia).
  assert (Hh : 0 < Rabs len / INR N) by (apply Rdiv_lt_0_compat; auto; now apply Rabs_pos_lt).
  destruct Om as [On ON Oh OL OR OC OG Ozs Ozl].
  assert (Gz : forall k c p, (k <= cells m)%nat -> (c < conductors m)%nat -> (p < conductors m)%nat -> node_G m0 m k c p = 0).
  { intros k x y Hk Hx Hy. rewrite On in Hx, Hy. assert (x = 0%nat) as -> by lia. assert (y = 0%nat) as -> by lia. rewrite ON in Hk.
    assert (X : forall k, G_ m0 k 0 0 = G_ m k 0 0) by (intros; rewrite <- G0; subst m; reflexivity).
    unfold node_G. destruct (_ || _); rewrite ?X; apply OG; auto. }
  assert (RD : forall k c p, (k < cells m)%nat -> (c < conductors m)%nat -> (p < conductors m)%nat -> p <> c -> R_ m k c p = 0) by (intros k x y Hk Hx Hy Hne; rewrite On in *; lia).
  assert (WR : forall k, (k <= N)%nat -> wire_R m 0 k = r * Rabs len * (INR k / INR N)).
  { intros k Hk. unfold wire_R. rewrite (sumR_ext k _ (fun _ => Rabs len / INR N * r)).
    - clear - HINR. induction k as [|k IH]; [rewrite sumR_0; cbn [INR]; rsimpl; rty; field; lra|]. rewrite sumR_S, IH, S_INR. rsimpl. rty. field. lra.
    - intros j Hj. rewrite Oh, OR by lia. reflexivity. }
  assert (HC : courant m (step_dt m0)).
  { eapply (courant_single LA LAok); eauto. intros k Hk. rewrite ON in Hk. rewrite Oh by auto. lra. }
  split; [exact HHm|]. split; [now apply endless_physical|]. split; [apply Pm|].
  split; [subst m; split; intros; [change (eTran m2 c0 k t = 0); now rewrite ET|change (eLong m2 c0 k t = 0); now rewrite EL]|].
  split.
  { split; rewrite ?Edt; try lra; rewrite ?On; try (intros; apply symm_1).
    + intros k Hk. rewrite ON in Hk. rewrite Oh by auto. lra.
    + intros k Hk. rewrite ON in Hk. apply psd_1. rewrite OR by auto. lra.
    + intros k Hk. apply psd_1. rewrite Gz by (rewrite ?On; lia). lra.
    + apply psd_1. rewrite Ozs. lra.
    + apply psd_1. rewrite Ozl. lra. }
  split; [exact (ph_h _ Pm)|]. split; [exact (ph_L _ Pm)|]. split; [exact (ph_C _ Pm)|]. split; [exact HC|]. split; [rewrite Edt; lra|].
  split; [destruct (Rlt_dec 0 zs) as [Q|Q]; [exists false|exists true]; intros x Hx; rewrite On in Hx; assert (x = 0%nat) as -> by lia; unfold end_Z; rewrite ?Ozs, ?Ozl; lra|].
  split.
  { intros far x Hx _. rewrite On in Hx. assert (x = 0%nat) as -> by lia. replace (volt m 0 (end_node m far)) with 0 by (subst m; symmetry; apply V0).
    assert (TT : m_time m - step_dt m < 0) by (rewrite Edt; subst m; change (m_time (set_time_step m2 NDT T)) with (m_time m2); rewrite T0; rsimpl; rty; lra).
    destruct (HV0 _ TT) as [A B]. assert (SS : source m = source m2) by (subst m; reflexivity). rewrite SS. destruct far; cbn [end_node]; rewrite ?ON, ?S0, ?SN; auto. }
  split; [intros x t Hx Ht; rewrite On in Hx; assert (x = 0%nat) as -> by lia; assert (SS : source m = source m2) by (subst m; reflexivity); rewrite SS, ON, S0, SN; exact (HV1 t Ht)|].
  split; [exact RD|]. split; [exact Gz|]. auto 10.
Qed.

(** one conductor *)
Theorem divider ju jdu (l c r len zs zl : R) (N : nat) name (Vs Vl : R -> R) NDT T (s0 sN t1 : R) (m0 m1 m2 m : mtl NumR) :
  0 < l -> 0 < c -> 0 <= r -> len <> 0 -> (1 <= N)%nat -> 0 <= zs -> 0 <= zl -> 0 < zs + zl ->
  mtl_new LA ju jdu (@PFloat NumR l) (@PFloat NumR c) (@PFloat NumR r) (@PFloat NumR 0) len [] [N] (@ZScal NumR zs) (@ZScal NumR zl) name = Ok m0 ->
  add_voltage_source m0 (@PosF NumR 0) 0 Vs = Ok m1 -> add_voltage_source m1 (@PosF NumR len) 0 Vl = Ok m2 -> set_time_step m2 NDT T = m ->
  0 < T / IZR NDT < step_dt m0 ->
  (forall t, t < 0 -> Vs t = 0 /\ Vl t = 0) -> (forall t, t1 <= t -> Vs t = s0 /\ Vl t = sN) ->
  let i := (s0 - sN) / (zs + r * Rabs len + zl) in
  endless LA m /\ settles LA m (fun _ k => s0 - i * (zs + r * Rabs len * (INR k / INR N))) (fun _ _ => i).
Proof.
  intros Hl Hc Hr Hlen HN Hzs Hzl Hz E0 E1 E2 Em HT HV0 HV1 i.
  destruct (divider_ready ju jdu l c r len zs zl N name Vs Vl NDT T s0 sN t1 m0 m1 m2 m Hl Hc Hr Hlen HN Hzs Hzl Hz E0 E1 E2 Em HT HV0 HV1)
    as (HH & HE & HU & HF & HL & Hh & PL & PC & HC & DD & HD & TI & HS & RD & Gz & On & ON & Ozs & Ozl & WR).
  split; [exact HE|]. assert (HINR : 0 < INR N) by (apply lt_0_INR; lia).
  assert (WN : wire_R m 0 N = r * Rabs len) by (rewrite WR by lia; field; lra).
  assert (Pr : 0 <= r * Rabs len) by (apply Rmult_le_pos; auto; apply Rabs_pos).
  assert (EI : loop_I m (fun _ => s0) (fun _ => sN) 0 = i) by (unfold loop_I, i; rewrite ON, WN, Ozs, Ozl; reflexivity).
  assert (ST : settles LA m (loop_V m (fun _ => s0) (fun _ => sN)) (fun c _ => loop_I m (fun _ => s0) (fun _ => sN) c)).
  { apply (settling LA LAok m0 m (fun _ => s0) (fun _ => sN) _ _ t1); auto. apply dc_loops; auto; [lia|].
    intros x Hx. rewrite On in Hx. assert (x = 0%nat) as -> by lia. rewrite ON, WN, Ozs, Ozl. lra. }
  intros eps He. destruct (ST eps He) as [K HK]. exists K. intros T' k a Hk Ha. destruct (HK T' k a Hk Ha) as [A B].
  split; intros x j Hx Hj; assert (Y := Hx); rewrite On in Y; assert (x = 0%nat) as -> by lia.
  - specialize (A 0%nat j Hx Hj). unfold loop_V in A. rewrite EI, Ozs, WR in A by lia. exact A.
  - specialize (B 0%nat j Hx Hj). rewrite EI in B. exact B.
Qed.
End Run.

Section Corollaries.
Variable LA : lapack NumR.
Hypothesis LAok : lapack_ok LA.

Theorem loops m0 m s0 sN t1 : history LA m0 m -> endless LA m -> undispersed m -> no_field m -> lossy m0 m ->
  (forall k, (k < cells m)%nat -> 0 < cell_len m k) -> (forall k, (k < cells m)%nat -> pos_def (conductors m) (L_ m k)) -> (forall k, (k <= cells m)%nat -> pos_def (conductors m) (C_ m k)) ->
  courant m (step_dt m0) -> step_dt m < step_dt m0 -> damped m -> starts_tied m -> steady_from t1 m s0 sN ->
  (forall k c p, (k < cells m)%nat -> (c < conductors m)%nat -> (p < conductors m)%nat -> p <> c -> R_ m k c p = 0) ->
  (forall k c p, (k <= cells m)%nat -> (c < conductors m)%nat -> (p < conductors m)%nat -> node_G m0 m k c p = 0) ->
  settles LA m (loop_V m s0 sN) (fun c _ => loop_I m s0 sN c).
Proof.
  intros HH HE HU HF HL Hh PL PC HC HDD HD TI HS RD Gz. apply (settling LA LAok m0 m s0 sN _ _ t1); auto.
  assert (N1 : (1 <= cells m)%nat) by apply (sh_N _ (reachable_shape LA m (ex_intro _ m0 HH))).
  apply dc_loops; auto. intros c Hc. pose proof (end_Z_pos m0 m HL false c Hc) as P0. pose proof (end_Z_pos m0 m HL true c Hc) as P1.
  assert (PW : 0 <= wire_R m c (cells m)).
  { unfold wire_R. apply sumR_nonneg. intros k Hk. apply Rmult_le_pos; [apply (lo_h _ _ HL); auto|].
    pose proof (lo_R _ _ HL k Hk (fun i => if (i =? c)%nat then 1 else 0)) as Q. rewrite quad_dot in Q. unfold dot in Q.
    rewrite (sumR_single _ _ c Hc) in Q by (intros j Hj Hne; rewrite (proj2 (Nat.eqb_neq j c) Hne); rring).
    rewrite (mulv_only _ _ _ c Hc (fun p Hp Hne => RD k c p Hk Hc Hp Hne)), Nat.eqb_refl in Q. rsimpl. rty. lra. }
  destruct HD as [[|] HD]; specialize (HD c Hc); rsimpl; rty; lra.
Qed.

Theorem ring_down m0 m t1 : history LA m0 m -> endless LA m -> undispersed m -> no_field m -> lossy m0 m ->
  (forall k, (k < cells m)%nat -> 0 < cell_len m k) -> (forall k, (k < cells m)%nat -> pos_def (conductors m) (L_ m k)) -> (forall k, (k <= cells m)%nat -> pos_def (conductors m) (C_ m k)) ->
  courant m (step_dt m0) -> step_dt m < step_dt m0 -> damped m -> starts_tied m -> steady_from t1 m (fun _ => 0) (fun _ => 0) ->
  settles LA m (fun _ _ => 0) (fun _ _ => 0).
Proof.
  intros HH HE HU HF HL Hh PL PC HC HDD HD TI HS. apply (settling LA LAok m0 m (fun _ => 0) (fun _ => 0) _ _ t1); auto. apply dc_rest.
Qed.
End Corollaries.
