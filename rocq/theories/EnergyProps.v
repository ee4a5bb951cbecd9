(** Stability of the default time step, and a charged line for the examples. *)
From Coq Require Import String List Arith ZArith Bool Lia Reals Lra.
From Verif Require Import Num Py Arr ArrFacts NumR RFacts LapackR LinAlg Utils Probes Dispersive Line LineFacts SpecLine SpecR SpecDyn SpecEnergy HistoryFacts
  NearestFacts TotalFacts RunEqFacts StepProps GeomProps GeomProps2 ExampleLine RunProps BounceFacts BounceProps EnergyFacts.
Import ListNotations.
Local Open Scope R_scope.

Section Stable.
Variable LA : lapack NumR.
Hypothesis LAok : lapack_ok LA.

Lemma built_same_C (m : mtl NumR) : built LA m -> same_C m.
Proof.
  intros (ju & jdu & l & c & r & g & len & np & ndiv & zs & zl & name & H). apply new_LC in H.
  destruct l as [x|r1 c1 A|], c as [y|r2 c2 B|]; try contradiction.
  - destruct H as (Hn & _ & HC). intros k i j Hk Hi Hj. rewrite Hn in *. assert (i = 0%nat) as -> by lia. assert (j = 0%nat) as -> by lia.
    rewrite !HC by lia. reflexivity.
  - destruct H as (_ & _ & _ & _ & _ & HC). intros k i j Hk Hi Hj. rewrite !HC by (auto; lia). reflexivity.
Qed.
Lemma reachable_same_C m0 (m : mtl NumR) : history LA m0 m -> same_C m.
Proof.
  intros HH. destruct (history_shape LA _ _ HH) as [_ K]. pose proof (built_same_C m0 (history_built LA _ _ HH)) as B.
  intros k i j Hk Hi Hj. unfold same_C, C_, cells, conductors in *. rewrite (kp_c _ _ K). rewrite (kp_N _ _ K) in Hk. rewrite (kp_n _ _ K) in Hi, Hj. now apply B.
Qed.

(** any number of conductors: no state of a run has more energy than the first, nor less than its share of the stored one *)
Lemma stable_general m0 m T k a : history LA m0 m -> undispersed m -> undriven m -> lossy m0 m -> courant m (step_dt m0) -> step_dt m <= step_dt m0 ->
  (forall k, (k < cells m)%nat -> pos_semidef (conductors m) (L_ m k)) -> (forall k, (k <= cells m)%nat -> pos_semidef (conductors m) (C_ m k)) ->
  run_state LA m T k a ->
  (1 - sqrt (step_dt m / step_dt m0)) * stored (step_dt m0) a <= energy (step_dt m0) a /\
  energy (step_dt m0) a <= energy (step_dt m0) m.
Proof.
  intros HH U Un L CFL DD HL HC Ha. assert (HR : reachable LA m) by (exists m0; auto).
  split; [|apply (energy_run LA LAok m0 m T HH U Un L k a Ha)].
  pose proof (run_state_same LA _ _ _ _ HR Ha) as S.
  assert (N1 : (1 <= cells m)%nat) by apply (sh_N _ (reachable_shape _ _ HR)).
  pose proof (reachable_same_C m0 m HH) as SC. rewrite <- (rs_sdt _ _ S).
  apply energy_bound; unfold courant, same_C in *; rewrite ?(rs_cells _ _ S), ?(rs_cond _ _ S), ?(rs_sdt _ _ S), ?(rs_L _ _ S), ?(rs_C _ _ S); auto.
  - intros j x y Hj. rewrite (rs_len _ _ _ S). auto.
  - apply L.
  - intros j Hj. rewrite (rs_len _ _ _ S). now apply L.
Qed.

Lemma stored_terms dt0 (m : mtl NumR) : 0 <= step_dt m -> 0 < dt0 -> (1 <= cells m)%nat -> (forall k, (k < cells m)%nat -> 0 <= cell_len m k) ->
  (forall k, (k < cells m)%nat -> pos_semidef (conductors m) (L_ m k)) -> (forall k, (k <= cells m)%nat -> pos_semidef (conductors m) (C_ m k)) ->
  0 <= stored dt0 m /\
  (forall k, (k <= cells m)%nat -> weight dt0 m k * quad (conductors m) (C_ m k) (at_node m k) / 2 <= stored dt0 m) /\
  (forall k, (k < cells m)%nat -> cell_len m k * quad (conductors m) (L_ m k) (in_cell m k) / 2 <= stored dt0 m).
Proof.
  intros D D0 N1 HH HL HC. unfold stored.
  set (se := sumR (S (cells m)) _). set (sm := sumR (cells m) _).
  assert (W : forall k, (k <= cells m)%nat -> 0 <= weight dt0 m k).
  { intros k Hk. unfold weight. pose proof (share_nonneg m k N1 HH Hk). destruct (_ || _); auto.
    apply Rmult_le_pos; auto. apply Rmult_le_pos; auto. apply Rlt_le, Rinv_0_lt_compat; auto. }
  assert (Pe : forall k, (k < S (cells m))%nat -> 0 <= weight dt0 m k * quad (conductors m) (C_ m k) (at_node m k)).
  { intros k Hk. apply Rmult_le_pos; [apply W; lia|apply HC; lia]. }
  assert (Pm : forall k, (k < cells m)%nat -> 0 <= cell_len m k * quad (conductors m) (L_ m k) (in_cell m k)).
  { intros k Hk. apply Rmult_le_pos; [auto|apply HL; auto]. }
  assert (0 <= se) by (apply sumR_nonneg; auto). assert (0 <= sm) by (apply sumR_nonneg; auto).
  split; [lra|]. split.
  - intros k Hk. pose proof (sumR_term (S (cells m)) (fun k => weight dt0 m k * quad (conductors m) (C_ m k) (at_node m k)) k ltac:(lia) Pe) as X.
    cbv beta in X. fold se in X. lra.
  - intros k Hk. pose proof (sumR_term (cells m) (fun k => cell_len m k * quad (conductors m) (L_ m k) (in_cell m k)) k Hk Pm) as X.
    cbv beta in X. fold sm in X. lra.
Qed.

Lemma quad_1 A x : quad 1 A x = A 0%nat 0%nat * (x 0%nat) ^ 2.
Proof. unfold quad. rewrite !sumR_S, !sumR_0. rring. Qed.
Lemma psd_1 A : 0 <= A 0%nat 0%nat -> pos_semidef 1 A.
Proof. intros H x. rewrite quad_1. pose proof (pow2_ge_0 (x 0%nat)). nra. Qed.
Lemma symm_1 A : symm 1 A.
Proof. intros i j Hi Hj. assert (i = 0%nat) as -> by lia. assert (j = 0%nat) as -> by lia. reflexivity. Qed.

(** for one conductor the constructor's step satisfies [courant] *)
Lemma courant_single ju jdu (l c : R) r g len np ndiv zs zl name (m0 m : mtl NumR) :
  mtl_new LA ju jdu (@PFloat NumR l) (@PFloat NumR c) r g len np ndiv zs zl name = Ok m0 -> 0 < l -> 0 < c ->
  history LA m0 m -> (forall k, (k < cells m)%nat -> cell_len m k <> 0) -> courant m (step_dt m0).
Proof.
  intros Hm0 Hl Hc HH HR.
  pose proof (new_LC _ _ _ _ _ _ _ _ _ _ _ _ _ _ Hm0) as (Hn0 & HL0 & HC0).
  destruct (default_dt_cfl LA ju jdu l c r g len np ndiv zs zl name m0 LAok Hm0 Hl Hc) as [D0 CFL].
  destruct (history_shape LA _ _ HH) as [Shm K].
  assert (HN : cells m = cells m0) by exact (kp_N _ _ K).
  assert (Hn : conductors m = 1%nat) by (rewrite <- Hn0; exact (kp_n _ _ K)).
  assert (HL : forall k, (k < cells m)%nat -> L_ m k 0 0 = l).
  { intros k Hk. unfold L_. rewrite (kp_l _ _ K). apply HL0. now rewrite <- HN. }
  assert (HC : forall k, (k <= cells m)%nat -> C_ m k 0 0 = c).
  { intros k Hk. unfold C_. rewrite (kp_c _ _ K). apply HC0. now rewrite <- HN. }
  assert (Hh : forall k, cell_len m k = cell_len m0 k) by (intros; unfold cell_len; now rewrite (kp_h _ _ K)).
  intros k x y Hk. rewrite Hn, !quad_1, HL, HC by lia. unfold dot. rewrite sumR_S, sumR_0. rsimpl. rewrite Rplus_0_l.
    specialize (CFL k ltac:(now rewrite <- HN) ltac:(rewrite <- Hh; now apply HR)). rewrite <- Hh in CFL.
    assert (Slc : 0 < sqrt (l * c)) by (apply sqrt_lt_R0; nra). assert (Es : sqrt (l * c) * sqrt (l * c) = l * c) by (apply sqrt_sqrt; nra).
    assert (B : step_dt m0 <= cell_len m k * sqrt (l * c)).
    { apply (Rmult_le_compat_r (sqrt (l * c))) in CFL; [|lra]. unfold Rdiv in CFL. rewrite Rmult_1_l, Rmult_assoc, Rinv_l, Rmult_1_r in CFL; lra. }
    set (xy := x 0%nat * y 0%nat). apply Rle_trans with ((cell_len m k * sqrt (l * c) * xy) ^ 2).
    - rewrite !Rpow_mult_distr. apply Rmult_le_compat_r; [apply pow2_ge_0|]. rewrite <- Rpow_mult_distr. apply pow_incr. lra.
    - right. unfold xy. replace ((cell_len m k * sqrt (l * c) * (x 0%nat * y 0%nat)) ^ 2) with (cell_len m k ^ 2 * (sqrt (l * c) * sqrt (l * c)) * (x 0%nat ^ 2 * y 0%nat ^ 2)) by ring.
      rewrite Es. ring.
Qed.

(** one conductor, the step the constructor chose or a smaller one *)
Lemma stable_single ju jdu (l c : R) r g len np ndiv zs zl name (m0 m : mtl NumR) T n a :
  mtl_new LA ju jdu (@PFloat NumR l) (@PFloat NumR c) r g len np ndiv zs zl name = Ok m0 -> 0 < l -> 0 < c ->
  history LA m0 m -> undispersed m -> undriven m -> 0 < step_dt m <= step_dt m0 ->
  (forall k, (k < cells m)%nat -> cell_len m k <> 0 /\ 0 <= R_ m k 0 0) ->
  (forall k, (k <= cells m)%nat -> 0 <= G_ m k 0 0 /\ 0 <= G_ m0 k 0 0) -> 0 <= Zs_ m 0 0 -> 0 <= Zl_ m 0 0 ->
  run_state LA m T n a ->
  let E := energy (step_dt m0) in let s := 1 - sqrt (step_dt m / step_dt m0) in
  0 <= s /\ 0 <= E a /\ E a <= E m /\
  (forall k, (k <= cells m)%nat -> s * (weight (step_dt m0) m k * c * volt a 0 k ^ 2 / 2) <= E m) /\
  (forall k, (k < cells m)%nat -> s * (cell_len m k * l * curr a 0 k ^ 2 / 2) <= E m).
Proof.
  intros Hm0 Hl Hc HH U Un [D DD] HR HG HZs HZl Ha E s. assert (RR : reachable LA m) by (exists m0; auto).
  pose proof (new_LC _ _ _ _ _ _ _ _ _ _ _ _ _ _ Hm0) as (Hn0 & HL0 & HC0).
  destruct (default_dt_cfl LA ju jdu l c r g len np ndiv zs zl name m0 LAok Hm0 Hl Hc) as [D0 CFL].
  destruct (history_shape LA _ _ HH) as [Shm K].
  assert (N1 : (1 <= cells m)%nat) by apply (sh_N _ Shm).
  assert (HN : cells m = cells m0) by exact (kp_N _ _ K).
  assert (Hn : conductors m = 1%nat) by (rewrite <- Hn0; exact (kp_n _ _ K)).
  assert (HL : forall k, (k < cells m)%nat -> L_ m k 0 0 = l).
  { intros k Hk. unfold L_. rewrite (kp_l _ _ K). apply HL0. now rewrite <- HN. }
  assert (HC : forall k, (k <= cells m)%nat -> C_ m k 0 0 = c).
  { intros k Hk. unfold C_. rewrite (kp_c _ _ K). apply HC0. now rewrite <- HN. }
  assert (Hh : forall k, cell_len m k = cell_len m0 k) by (intros; unfold cell_len; now rewrite (kp_h _ _ K)).
  assert (Hpos : forall k, (k < cells m)%nat -> 0 <= cell_len m k).
  { intros k Hk. rewrite Hh. apply (cell_len_nonneg LA); [exact (history_built LA _ _ HH)|now rewrite <- HN]. }
  assert (PL : forall k, (k < cells m)%nat -> pos_semidef (conductors m) (L_ m k)).
  { intros k Hk. rewrite Hn. apply psd_1. rewrite HL by auto. lra. }
  assert (PC : forall k, (k <= cells m)%nat -> pos_semidef (conductors m) (C_ m k)).
  { intros k Hk. rewrite Hn. apply psd_1. rewrite HC by auto. lra. }
  assert (Lo : lossy m0 m).
  { split; auto; try (rewrite Hn; intros; apply symm_1); rewrite ?Hn; try (apply psd_1; auto).
    - intros k Hk. apply psd_1. now apply HR.
    - intros k Hk. apply psd_1. unfold node_G. destruct (_ || _); now apply HG. }
  pose proof (courant_single ju jdu l c r g len np ndiv zs zl name m0 m Hm0 Hl Hc HH (fun k Hk => proj1 (HR k Hk))) as CF.
  destruct (stable_general m0 m T n a HH U Un Lo CF DD PL PC Ha) as [B1 B2].
  assert (Hs : 0 <= s).
  { unfold s. assert (sqrt (step_dt m / step_dt m0) <= 1); [|lra]. rewrite <- sqrt_1. apply sqrt_le_1_alt.
    apply (Rmult_le_reg_r (step_dt m0)); auto. unfold Rdiv. rewrite Rmult_assoc, Rinv_l, Rmult_1_r, Rmult_1_l; lra. }
  pose proof (run_state_same LA _ _ _ _ RR Ha) as S.
  destruct (stored_terms (step_dt m0) a) as (P0 & P1 & P2); rewrite ?(rs_cells _ _ S), ?(rs_cond _ _ S), ?(rs_L _ _ S), ?(rs_C _ _ S), ?(rs_sdt _ _ S); auto; try lra.
  { intros k Hk. rewrite (rs_len _ _ _ S). auto. }
  fold s in B1. split; [auto|]. split; [|split; [exact B2|split]].
  - apply Rle_trans with (s * stored (step_dt m0) a); [now apply Rmult_le_pos|exact B1].
  - intros k Hk. specialize (P1 k ltac:(now rewrite (rs_cells _ _ S))). rewrite (run_same_weight _ _ _ _ S), (rs_cond _ _ S), (rs_C _ _ S), Hn, quad_1, HC in P1 by auto.
    unfold at_node in P1. apply Rle_trans with (s * stored (step_dt m0) a); [|exact (Rle_trans _ _ _ B1 B2)].
    apply Rmult_le_compat_l; auto. rsimpl. lra.
  - intros k Hk. specialize (P2 k ltac:(now rewrite (rs_cells _ _ S))). rewrite (rs_len _ _ _ S), (rs_cond _ _ S), (rs_L _ _ S), Hn, quad_1, HL in P2 by auto.
    unfold in_cell in P2. apply Rle_trans with (s * stored (step_dt m0) a); [|exact (Rle_trans _ _ _ B1 B2)].
    apply Rmult_le_compat_l; auto. rsimpl. lra.
Qed.
End Stable.

(** a matched line that was driven by a step, then left alone with half its default time step *)
Lemma charged_line : exists (m0 m1 m2 m3 m : mtl NumR), lapack_ok LR /\ lapack_complete LR /\
  mtl_new LR (fun _ => []) (fun _ => []) (@PFloat NumR 4) (@PFloat NumR 1) (@PFloat NumR 0) (@PFloat NumR 0) 1 [] [4%nat]
      (@ZScal NumR (sqrt (4 / 1))) (@ZScal NumR (sqrt (4 / 1))) "line" = Ok m0 /\
  add_voltage_source m0 (@PosF NumR 0) 0 unit_step = Ok m1 /\ run_until LR m1 (5 / 2 * step_dt m0) = Ok m2 /\
  add_voltage_source m2 (@PosF NumR 0) 0 (fun _ => 0) = Ok m3 /\ m = set_time_step m3 1 (step_dt m0 / 2) /\
  history LR m0 m /\ undispersed m /\ undriven m /\ 0 < step_dt m <= step_dt m0 /\ step_dt m = step_dt m0 / 2 /\ lossy m0 m /\
  (forall k, (k < cells m)%nat -> cell_len m k <> 0 /\ 0 <= R_ m k 0 0) /\
  (forall k, (k <= cells m)%nat -> 0 <= G_ m k 0 0 /\ 0 <= G_ m0 k 0 0) /\ 0 <= Zs_ m 0 0 /\ 0 <= Zl_ m 0 0 /\
  volt m 0 0 = 1 / 2 /\ forall T, exists n a, run_state LR m T n a.
Proof.
  destruct (driven_line LR (fun _ => []) (fun _ => []) 4 1 0 0 1 (sqrt (4 / 1)) (sqrt (4 / 1)) 4 "line" unit_step LR_ok LR_complete) as
    (m0 & m1 & E0 & E1 & HH & P & O & D0 & D1 & S & V & I & ET & EL & T0 & G); try lra; try lia; try apply sqrt_pos.
  assert (HR1 : reachable LR m1) by (exists m0; auto).
  assert (HINR : INR 4 = 4) by (simpl; lra).
  assert (Pdt : 0 < step_dt m0) by (rewrite <- D1; apply P).
  destruct (run_total LR LR_complete m1 (5 / 2 * step_dt m0) P) as [m2 E2].
  pose proof (physical_run LR m1 _ m2 HR1 P E2) as P2.
  destruct (steps_of_run LR m1 _ m2 HR1 (ph_dt _ P) E2) as (n & R2 & _ & Hn & _).
  rewrite D1 in Hn. specialize (Hn ltac:(nra)).
  assert (n = 2%nat) as ->.
  { destruct Hn as [H1 H2]. apply Rmult_le_reg_r in H1; auto. apply Rmult_lt_reg_r in H2; auto.
    rewrite S_INR in H2. assert (INR n < INR 3) by (simpl; lra). assert (INR 1 < INR n) by (simpl; lra). apply INR_lt in H, H0. lia. }
  assert (V2 : volt m2 0 0 = 1 / 2).
  { rewrite (matched_line LR LR_ok LR_complete (fun _ => []) (fun _ => []) 4 1 1 4 "line" unit_step m0 m1 (5 / 2 * step_dt m0) 2 m2) with (k := 0%nat); auto; try lra; try lia.
    - unfold unit_step. set (x := (INR 2 - 1 - INR 0) * _). assert (0 <= x).
      { unfold x. apply Rmult_le_pos; [simpl; lra|]. rewrite <- D0. lra. }
      destruct (Rltb_spec x 0); [lra|reflexivity].
    - intros t Ht. unfold unit_step. destruct (Rltb_spec t 0); [auto|lra]. }
  pose proof (run_state_same LR _ _ _ _ HR1 R2) as S2.
  assert (Hn2 : k_n (m_core m2) = 1%nat) by (rewrite (rs_n _ _ S2); apply (ol_n _ _ _ _ _ _ _ _ _ O)).
  destruct (add_voltage_source m2 (@PosF NumR 0) 0 (fun _ => 0)) as [m3|e] eqn:E3.
  2:{ unfold add_voltage_source in E3. rewrite Hn2 in E3. discriminate. }
  pose proof (physical_source _ _ _ _ _ P2 E3) as P3.
  assert (HH3 : history LR m0 m3).
  { eapply h_source; [|exact E3]. eapply h_run; [exact HH|exact E2]. }
  set (m := set_time_step m3 1 (step_dt m0 / 2)).
  assert (Edt : step_dt m = step_dt m0 / 2).
  { change (step_dt m0 / 2 / 1 = step_dt m0 / 2). apply (Rmult_eq_reg_r 2); [|lra]. unfold Rdiv. rewrite Rinv_1. ring. }
  assert (HHm : history LR m0 m) by (apply h_time_step; exact HH3).
  assert (Pm : physical m) by (apply physical_time_step; auto; lra).
  assert (Q : conductors m = 1%nat /\ cells m = 4%nat /\ (forall k, cell_len m k = cell_len m1 k) /\ (forall k, L_ m k = L_ m1 k) /\
    (forall k, C_ m k = C_ m1 k) /\ (forall k, G_ m k = G_ m1 k) /\ (forall k, R_ m k = R_ m1 k) /\ Zs_ m = Zs_ m1 /\ Zl_ m = Zl_ m1 /\ volt m 0 0 = 1 / 2 /\
    (forall c k, eTran m c k = eTran m1 c k) /\ (forall c k, eLong m c k = eLong m1 c k)).
  { assert (A : m_core m = set_dt (m_core m2) (step_dt m) /\ m_zs m = m_zs m2 /\ m_zl m = m_zl m2).
    { unfold m. unfold add_voltage_source in E3. destruct (_ <? _)%nat; [|discriminate]. injection E3 as <-. split; [|split]; reflexivity. }
    destruct A as (A & A1 & A2). unfold conductors, cells, cell_len, L_, C_, G_, R_, Zs_, Zl_, volt, eTran, eLong. rewrite A, A1, A2.
    cbn [k_n k_N k_h k_l k_c k_g k_r k_v k_eL k_eT set_dt].
    rewrite (rs_n _ _ S2), (rs_N _ _ S2), (rs_h _ _ S2), (rs_l _ _ S2), (rs_c _ _ S2), (rs_g _ _ S2), (rs_r _ _ S2), (rs_zs _ _ S2), (rs_zl _ _ S2), (rs_eL _ _ S2), (rs_eT _ _ S2).
    split; [apply (ol_n _ _ _ _ _ _ _ _ _ O)|]. split; [apply (ol_N _ _ _ _ _ _ _ _ _ O)|]. split; [reflexivity|]. split; [reflexivity|].
    split; [reflexivity|]. split; [reflexivity|]. split; [reflexivity|]. split; [reflexivity|]. split; [reflexivity|]. split; [exact V2|]. split; reflexivity. }
  destruct Q as (Qn & QN & Qh & QL & QC & QG & QR & QZs & QZl & QV & QT & QLo).
  assert (HhR : forall k, (k < cells m)%nat -> cell_len m k = 1 / 4 /\ L_ m k 0 0 = 4 /\ R_ m k 0 0 = 0).
  { intros k Hk. rewrite QN in Hk. rewrite Qh, QL, QR, (ol_h _ _ _ _ _ _ _ _ _ O k Hk), (ol_L _ _ _ _ _ _ _ _ _ O k Hk), (ol_R _ _ _ _ _ _ _ _ _ O k Hk).
    rewrite Rabs_R1, HINR. auto. }
  assert (HG : forall k, (k <= cells m)%nat -> G_ m k 0 0 = 0 /\ G_ m0 k 0 0 = 0).
  { intros k Hk. rewrite QN in Hk. rewrite <- G, QG, (ol_G _ _ _ _ _ _ _ _ _ O k Hk). auto. }
  assert (HZ : 0 <= Zs_ m 0 0 /\ 0 <= Zl_ m 0 0).
  { rewrite QZs, QZl, (ol_zs _ _ _ _ _ _ _ _ _ O), (ol_zl _ _ _ _ _ _ _ _ _ O). split; apply sqrt_pos. }
  assert (HL : lossy m0 m).
  { split; auto; try lra; rewrite ?Qn; try (intros; apply symm_1); try (apply psd_1; apply HZ).
    - intros k Hk. destruct (HhR k Hk) as (-> & _). lra.
    - intros k Hk. apply psd_1. destruct (HhR k Hk) as (_ & _ & ->). lra.
    - intros k Hk. apply psd_1. destruct (HG k Hk) as (G1 & G2). unfold node_G. destruct (_ || _); [rewrite G2|rewrite G1]; lra. }
  exists m0, m1, m2, m3, m. split; [exact LR_ok|]. split; [exact LR_complete|]. split; [exact E0|]. split; [exact E1|]. split; [exact E2|]. split; [exact E3|].
  split; [reflexivity|]. split; [exact HHm|]. split; [apply Pm|]. split.
  { split; [|split].
    - intros c t Hc. rewrite Qn in Hc. assert (c = 0%nat) as -> by lia. rewrite QN.
      set (idx := nearest (m_u m0) (pos_vec (@PosF NumR 0))).
      assert (Ev : m_vsrc m1 = upd2 (m_vsrc m0) 0 idx unit_step /\ m_u m1 = m_u m0).
      { unfold add_voltage_source in E1. destruct (_ <? _)%nat; [|discriminate]. injection E1 as <-. split; reflexivity. }
      destruct Ev as [Ev Eu].
      assert (L0 : length (m_vsrc m0) = 1%nat /\ length (nth 0 (m_vsrc m0) []) = 5%nat /\ length (m_u m0) = 5%nat).
      { apply mtl_new_inv in E0 as (Sh0 & _ & _ & _ & _ & _ & _ & _ & _ & _ & _ & E0 & _).
        destruct (history_shape LR _ _ HHm) as [_ K].
        assert (X1 : k_n (m_core m0) = 1%nat) by (rewrite <- (kp_n _ _ K); exact Qn).
        assert (X2 : k_N (m_core m0) = 4%nat) by (rewrite <- (kp_N _ _ K); exact QN).
        rewrite E0, (sh_u _ Sh0), X1, X2. split; [|split]; reflexivity. }
      destruct L0 as (L1 & L2 & L3).
      assert (Hidx : (idx < 5)%nat) by (rewrite <- L3; apply nearest_lt; intros X; rewrite X in L3; discriminate L3).
      assert (idx0 : idx = 0%nat).
      { pose proof (upd2_source m0 0 idx unit_step 0 idx ltac:(lia) ltac:(lia)) as X. rewrite !Nat.eqb_refl in X. cbn [andb] in X.
        assert (Y : source m1 0 idx = unit_step) by (rewrite <- X; unfold source; rewrite Ev; reflexivity).
        rewrite S in Y. cbn [Nat.eqb andb] in Y. destruct (Nat.eqb_spec idx 0); auto. apply (f_equal (fun f => f 1)) in Y.
        unfold unit_step in Y. destruct (Rltb_spec 1 0); lra. }
      assert (Ss : forall k, source m 0 k = if (k =? 0)%nat then (fun _ => 0) else source m1 0 k).
      { intros k. assert (X : m_vsrc m = upd2 (m_vsrc m2) 0 (nearest (m_u m2) (pos_vec (@PosF NumR 0))) (fun _ => 0)).
        { unfold m. unfold add_voltage_source in E3. destruct (_ <? _)%nat; [|discriminate]. injection E3 as <-. reflexivity. }
        rewrite (rs_u _ _ S2), Eu in X. fold idx in X. rewrite idx0, (rs_vsrc _ _ S2) in X.
        change (source m 0 k) with (source (m_set_vsrc m1 (m_vsrc m)) 0 k). rewrite X. rewrite upd2_source; [reflexivity| |].
        - rewrite Ev. unfold upd2. rewrite length_lset, L1. lia.
        - rewrite Ev, idx0. unfold upd2. rewrite nth_lset, L1. cbn [Nat.eqb Nat.ltb Nat.leb andb]. rewrite length_lset, L2. lia. }
      rewrite !Ss, !S. split; reflexivity.
    - intros. rewrite QT, ET. reflexivity.
    - intros. rewrite QLo, EL. reflexivity. }
  split; [lra|]. split; [exact Edt|]. split; [exact HL|].
  split. { intros k Hk. destruct (HhR k Hk) as (H1 & _ & H2). split; [|now right]. rewrite H1. lra. }
  split. { intros k Hk. destruct (HG k Hk) as (G1 & G2). split; [rewrite G1|rewrite G2]; lra. }
  split; [apply HZ|]. split; [apply HZ|]. split; [exact QV|].
  intros T. destruct (run_total LR LR_complete m T Pm) as [a Ha]. destruct (run_until_state LR m T a Ha) as (n & _ & R). exists n, a. exact R.
Qed.
