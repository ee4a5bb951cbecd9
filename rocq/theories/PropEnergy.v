(** Properties C18 and C19: energy balance and stability.  Real arithmetic. *)
From Coq Require Import String List Arith ZArith Bool Lia Reals Lra.
From Verif Require Import Num Py Arr ArrFacts NumR RFacts LapackR LinAlg Probes Dispersive Line SpecLine SpecR SpecDyn SpecEnergy HistoryFacts TotalFacts RunEqFacts RunProps ExampleLine ExampleRun
  EnergyFacts EnergyProps.
Import ListNotations.
Local Open Scope R_scope.

(** ** C18.  [energy], [lost_in_R], [lost_in_G], [lost_in_Z] and [supplied] are in SpecEnergy.v. *)
(** The balance, sources included: what is supplied minus what is lost, exactly. *)
Theorem C18_energy_balance (LA : lapack NumR) : lapack_ok LA ->
  forall (m0 m : mtl NumR) T k a b, history LA m0 m -> run_step LA m T k a b -> undispersed m -> no_field m ->
  (forall j, (j <= cells m)%nat -> symm (conductors m) (C_ m j)) -> (forall j, (j < cells m)%nat -> symm (conductors m) (L_ m j)) ->
  step_dt m <> 0 -> step_dt m0 <> 0 ->
  energy (step_dt m0) b =
    energy (step_dt m0) a + supplied m0 a b (m_time a) - lost_in_R a b - lost_in_G m0 a b - lost_in_Z m0 a b.
Proof. exact (energy_step LA). Qed.
Print Assumptions C18_energy_balance.
(** Without sources and fields no step increases it: the losses are not negative. *)
Theorem C18_energy_never_grows (LA : lapack NumR) : lapack_ok LA ->
  forall (m0 m : mtl NumR) T k a b, history LA m0 m -> run_step LA m T k a b -> undispersed m -> undriven m -> lossy m0 m ->
  energy (step_dt m0) b = energy (step_dt m0) a - lost_in_R a b - lost_in_G m0 a b - lost_in_Z m0 a b /\
  energy (step_dt m0) b <= energy (step_dt m0) a.
Proof. exact (energy_decreases LA). Qed.
Print Assumptions C18_energy_never_grows.
Theorem C18_losses_nonneg (LA : lapack NumR) (m0 m : mtl NumR) T k a b : history LA m0 m -> run_step LA m T k a b -> lossy m0 m ->
  0 <= lost_in_R a b /\ 0 <= lost_in_G m0 a b /\ 0 <= lost_in_Z m0 a b.
Proof. exact (losses_nonneg LA m0 m T k a b). Qed.
Print Assumptions C18_losses_nonneg.
Theorem C18_whole_run (LA : lapack NumR) : lapack_ok LA ->
  forall (m0 m : mtl NumR) T, history LA m0 m -> undispersed m -> undriven m -> lossy m0 m ->
  forall k a, run_state LA m T k a -> energy (step_dt m0) a <= energy (step_dt m0) m.
Proof. exact (energy_run LA). Qed.
Print Assumptions C18_whole_run.
(** with the step of the constructor the weights are the lengths that belong to the nodes *)
Theorem C18_weights (m0 m : mtl NumR) k : step_dt m = step_dt m0 -> step_dt m0 <> 0 -> weight (step_dt m0) m k = share m k.
Proof. intros E H. unfold weight. rewrite E. destruct (_ || _)%bool; auto. unfold Rdiv. rewrite Rinv_r by auto. ring. Qed.
Print Assumptions C18_weights.

(** a driven two-conductor line with losses; and a line that was charged and left alone *)
Example C18_example_driven : exists (m0 m a b : mtl NumR), lapack_ok LR /\
  add_voltage_source m0 (@PosF NumR 0) 0 (fun t => if Rltb t 0 then 0 else 1) = Ok m /\
  history LR m0 m /\ run_step LR m (5.5 * step_dt m) 3 a b /\ undispersed m /\ conductors m = 2%nat /\ cells m = 3%nat /\
  no_field m /\ (forall j, (j <= cells m)%nat -> symm (conductors m) (C_ m j)) /\ (forall j, (j < cells m)%nat -> symm (conductors m) (L_ m j)) /\
  step_dt m <> 0 /\ step_dt m0 <> 0.
Proof.
  destruct ex_run as (m0 & m & a & b & E0 & Em & HH & P & Hn & HN & Hdt & HG & Hab).
  destruct (ex_new_ok (fun _ => []) (fun _ => [])) as (x0 & X0 & P0 & _ & _ & _ & HL & HC & _).
  assert (x0 = m0) as -> by (rewrite E0 in X0; now injection X0).
  exists m0, m, a, b. split; [exact LR_ok|]. split; [exact Em|]. split; [exact HH|]. split; [exact Hab|]. split; [apply P|]. split; [exact Hn|]. split; [exact HN|].
  assert (S2 : forall A : nat -> nat -> R, A 0%nat 1%nat = A 1%nat 0%nat -> symm 2 A).
  { intros A H i j Hi Hj. assert (i = 0 \/ i = 1)%nat as [-> | ->] by lia; assert (j = 0 \/ j = 1)%nat as [-> | ->] by lia; auto. }
  assert (Q : (forall k, C_ m k = C_ m0 k) /\ (forall k, L_ m k = L_ m0 k) /\ (forall c k, eTran m c k = eTran m0 c k) /\ (forall c k, eLong m c k = eLong m0 c k) /\ cells m0 = 3%nat /\ conductors m0 = 2%nat).
  { unfold add_voltage_source in Em. destruct (_ <? _)%nat; [|discriminate]. injection Em as <-. split; [reflexivity|]. split; [reflexivity|]. split; [reflexivity|]. split; [reflexivity|]. auto. }
  destruct Q as (QC & QL & QT & QLo & QN & Qn).
  pose proof E0 as E1. unfold ex_new in E1. apply mtl_new_inv in E1 as (_ & _ & _ & _ & _ & _ & _ & _ & _ & _ & _ & _ & EL & ET).
  split.
  { split; intros c k t Hc Hk.
    - rewrite QT. unfold eTran. rewrite ET. unfold mk2. rewrite nth_mk by (fold (conductors m0); lia). rewrite nth_mk by (fold (cells m0); lia). reflexivity.
    - rewrite QLo. unfold eLong. rewrite EL. unfold mk2. rewrite nth_mk by (fold (conductors m0); lia). rewrite nth_mk by (fold (cells m0); lia). reflexivity. }
  split. { intros j Hj. rewrite Hn. apply S2. rewrite QC. rewrite !(fun i k => proj1 (HC j i k ltac:(lia))). reflexivity. }
  split. { intros j Hj. rewrite Hn. apply S2. rewrite QL. rewrite !(fun i k => proj1 (HL j i k ltac:(lia))). reflexivity. }
  pose proof (ph_dt _ P). rewrite <- Hdt. split; lra.
Qed.
Example C18_example_charged : exists (m0 m : mtl NumR), lapack_ok LR /\ history LR m0 m /\ undispersed m /\ undriven m /\ lossy m0 m /\
  volt m 0 0 = 1 / 2 /\ step_dt m = step_dt m0 / 2 /\ forall T, exists n a, run_state LR m T n a.
Proof.
  destruct charged_line as (m0 & m1 & m2 & m3 & m & H1 & _ & _ & _ & _ & _ & _ & H2 & H3 & H4 & _ & H5 & H6 & _ & _ & _ & _ & H7 & H8).
  exists m0, m. auto 10.
Qed.

(** ** C19.  One conductor with any cells, with the step of the constructor or a smaller one set
    by set_time_step: the energy is not negative, and [s] times the energy stored in any node or
    cell never exceeds the energy at the start; [s] is positive below the default step. *)
Theorem C19_bounded_for_ever (LA : lapack NumR) : lapack_ok LA ->
  forall ju jdu (l c : R) r g len np ndiv zs zl name (m0 m : mtl NumR) T n a,
  mtl_new LA ju jdu (@PFloat NumR l) (@PFloat NumR c) r g len np ndiv zs zl name = Ok m0 -> 0 < l -> 0 < c ->
  history LA m0 m -> undispersed m -> undriven m -> 0 < step_dt m <= step_dt m0 ->
  (forall k, (k < cells m)%nat -> cell_len m k <> 0 /\ 0 <= R_ m k 0 0) ->
  (forall k, (k <= cells m)%nat -> 0 <= G_ m k 0 0 /\ 0 <= G_ m0 k 0 0) -> 0 <= Zs_ m 0 0 -> 0 <= Zl_ m 0 0 ->
  run_state LA m T n a ->
  let E := energy (step_dt m0) in let s := 1 - sqrt (step_dt m / step_dt m0) in
  0 <= s /\ 0 <= E a /\ E a <= E m /\
  (forall k, (k <= cells m)%nat -> s * (weight (step_dt m0) m k * c * volt a 0 k ^ 2 / 2) <= E m) /\
  (forall k, (k < cells m)%nat -> s * (cell_len m k * l * curr a 0 k ^ 2 / 2) <= E m).
Proof. exact (stable_single LA). Qed.
Print Assumptions C19_bounded_for_ever.
Theorem C19_margin (dt dt0 : R) : 0 < dt < dt0 -> 0 < 1 - sqrt (dt / dt0).
Proof.
  intros H. assert (sqrt (dt / dt0) < 1); [|lra]. rewrite <- sqrt_1. apply sqrt_lt_1_alt.
  split; [apply Rlt_le, Rdiv_lt_0_compat; lra|]. apply (Rmult_lt_reg_r dt0); [lra|]. unfold Rdiv. rewrite Rmult_assoc, Rinv_l; lra.
Qed.
Print Assumptions C19_margin.
(** any number of conductors, when no wave crosses a cell in less than the constructor's step *)
Theorem C19_many_conductors (LA : lapack NumR) : lapack_ok LA ->
  forall (m0 m : mtl NumR) T k a, history LA m0 m -> undispersed m -> undriven m -> lossy m0 m -> courant m (step_dt m0) -> step_dt m <= step_dt m0 ->
  (forall k, (k < cells m)%nat -> pos_semidef (conductors m) (L_ m k)) -> (forall k, (k <= cells m)%nat -> pos_semidef (conductors m) (C_ m k)) ->
  run_state LA m T k a ->
  (1 - sqrt (step_dt m / step_dt m0)) * stored (step_dt m0) a <= energy (step_dt m0) a /\
  energy (step_dt m0) a <= energy (step_dt m0) m.
Proof. exact (stable_general LA). Qed.
Print Assumptions C19_many_conductors.
Example C19_example : exists (m0 m : mtl NumR), lapack_ok LR /\
  mtl_new LR (fun _ => []) (fun _ => []) (@PFloat NumR 4) (@PFloat NumR 1) (@PFloat NumR 0) (@PFloat NumR 0) 1 [] [4%nat]
      (@ZScal NumR (sqrt (4 / 1))) (@ZScal NumR (sqrt (4 / 1))) "line" = Ok m0 /\
  history LR m0 m /\ undispersed m /\ undriven m /\ 0 < step_dt m <= step_dt m0 /\
  (forall k, (k < cells m)%nat -> cell_len m k <> 0 /\ 0 <= R_ m k 0 0) /\
  (forall k, (k <= cells m)%nat -> 0 <= G_ m k 0 0 /\ 0 <= G_ m0 k 0 0) /\ 0 <= Zs_ m 0 0 /\ 0 <= Zl_ m 0 0 /\
  volt m 0 0 = 1 / 2 /\ step_dt m = step_dt m0 / 2 /\ forall T, exists n a, run_state LR m T n a.
Proof.
  destruct charged_line as (m0 & m1 & m2 & m3 & m & H1 & _ & H0 & _ & _ & _ & _ & H2 & H3 & H4 & H5 & H6 & _ & H8 & H9 & H10 & H11 & H12 & H13).
  exists m0, m. auto 20.
Qed.
Example C19_many_example : exists (m0 m : mtl NumR), lapack_ok LR /\ history LR m0 m /\ undispersed m /\ undriven m /\ lossy m0 m /\
  courant m (step_dt m0) /\ step_dt m <= step_dt m0 /\
  (forall k, (k < cells m)%nat -> pos_semidef (conductors m) (L_ m k)) /\ (forall k, (k <= cells m)%nat -> pos_semidef (conductors m) (C_ m k)) /\
  volt m 0 0 = 1 / 2 /\ forall T, exists n a, run_state LR m T n a.
Proof.
  destruct charged_line as (m0 & m1 & m2 & m3 & m & H1 & HLc & H0 & E1 & E2 & E3 & Em & H2 & H3 & H4 & H5 & H6 & H7 & H8 & H9 & H10 & H11 & H12 & H13).
  exists m0, m. split; [exact H1|]. split; [exact H2|]. split; [exact H3|]. split; [exact H4|]. split; [exact H7|].
  split. { eapply (courant_single LR H1); [exact H0|lra|lra|exact H2|]. intros k Hk. now apply H8. }
  split; [lra|].
  assert (P : physical m0).
  { destruct (one_conductor LR LR_ok LR_complete (fun _ => []) (fun _ => []) 4 1 0 0 1 (sqrt (4 / 1)) (sqrt (4 / 1)) 4 "line") as (x & X & P & _); try lra; try lia; try apply sqrt_pos.
    assert (x = m0) as -> by congruence. exact P. }
  destruct (history_shape LR _ _ H2) as [_ K].
  split; [|split; [|split; [exact H12|exact H13]]].
  - intros k Hk. unfold conductors, L_. rewrite (kp_n _ _ K), (kp_l _ _ K). apply pd_psd, (ph_L _ P). unfold cells in *. now rewrite (kp_N _ _ K) in Hk.
  - intros k Hk. unfold conductors, C_. rewrite (kp_n _ _ K), (kp_c _ _ K). apply pd_psd, (ph_C _ P). unfold cells in *. now rewrite (kp_N _ _ K) in Hk.
Qed.
