(** A lossy line with different impedances at its ends, switched on at time 0. *)
From Coq Require Import String List Arith ZArith Bool Lia Reals Lra.
From Verif Require Import Num Py Arr ArrFacts NumR RFacts LinAlg LapackR Probes Dispersive Line LineFacts SpecLine SpecR SpecDyn HistoryFacts
  TotalFacts BounceProps RunProps SpecEnergy SpecRecip SpecSettle SettleMore.
Import ListNotations.
Local Open Scope R_scope.

Lemma settle_example : exists (m0 m1 m2 m : mtl NumR),
  mtl_new LR (fun _ => []) (fun _ => []) (@PFloat NumR 4) (@PFloat NumR 1) (@PFloat NumR 5) (@PFloat NumR 0) 1 [] [4%nat] (@ZScal NumR 50) (@ZScal NumR 45) "line" = Ok m0 /\
  add_voltage_source m0 (@PosF NumR 0) 0 unit_step = Ok m1 /\ add_voltage_source m1 (@PosF NumR 1) 0 (fun _ => 0) = Ok m2 /\ set_time_step m2 1 (step_dt m0 / 2) = m /\
  0 < step_dt m0 / 2 / 1 < step_dt m0 /\ (forall t, t < 0 -> unit_step t = 0) /\ (forall t, 0 <= t -> unit_step t = 1) /\
  history LR m0 m /\ endless LR m /\ undispersed m /\ no_field m /\ lossy m0 m /\
  (forall k, (k < cells m)%nat -> 0 < cell_len m k) /\ (forall k, (k < cells m)%nat -> pos_def (conductors m) (L_ m k)) /\ (forall k, (k <= cells m)%nat -> pos_def (conductors m) (C_ m k)) /\
  courant m (step_dt m0) /\ step_dt m < step_dt m0 /\ damped m /\ starts_tied m /\ steady_from 0 m (fun _ => 1) (fun _ => 0) /\
  dc_solution m0 m (fun _ => 1) (fun _ => 0) (loop_V m (fun _ => 1) (fun _ => 0)) (fun c _ => loop_I m (fun _ => 1) (fun _ => 0) c) /\
  loop_I m (fun _ => 1) (fun _ => 0) 0 = 1 / 100 /\ loop_V m (fun _ => 1) (fun _ => 0) 0 4 = 45 / 100.
Proof.
  destruct (two_ends LR LR_ok LR_complete (fun _ => []) (fun _ => []) 4 1 5 0 1 50 45 4 "line" unit_step (fun _ => 0)) as
    (m0 & m1 & m2 & F0 & F1 & F2 & HH & P & O & U & D0 & D1 & _); try lra; try lia.
  assert (Pdt : 0 < step_dt m0) by (rewrite <- D1; apply P).
  assert (U0 : forall t, t < 0 -> unit_step t = 0) by (intros t Ht; unfold unit_step; destruct (Rltb_spec t 0); lra).
  assert (U1 : forall t, 0 <= t -> unit_step t = 1) by (intros t Ht; unfold unit_step; destruct (Rltb_spec t 0); lra).
  assert (HT : 0 < step_dt m0 / 2 / 1 < step_dt m0) by lra.
  destruct (divider_ready LR LR_ok LR_complete (fun _ => []) (fun _ => []) 4 1 5 1 50 45 4 "line" unit_step (fun _ => 0) 1 (step_dt m0 / 2) 1 0 0 m0 m1 m2 (set_time_step m2 1 (step_dt m0 / 2)))
    as (H1 & H2 & H3 & H4 & H5 & H6 & H7 & H8 & H9 & H10 & H11 & H12 & H13 & H14 & H15 & On & ON & Z0 & Z1 & WR); auto; try lra; try lia.
  set (m := set_time_step m2 1 (step_dt m0 / 2)) in *.
  assert (W4 : wire_R m 0 4 = 5) by (rewrite (WR 4%nat ltac:(lia)), Rabs_R1; simpl; lra).
  assert (EI : loop_I m (fun _ => 1) (fun _ => 0) 0 = 1 / 100) by (unfold loop_I; rewrite ON, W4, Z0, Z1; rsimpl; rty; lra).
  exists m0, m1, m2, m. repeat (match goal with |- _ /\ _ => split end); auto; try lra.
  - apply dc_loops; auto; [rewrite ON; lia|]. intros c Hc. rewrite On in Hc. assert (c = 0%nat) as -> by lia. rewrite ON, W4, Z0, Z1. rsimpl. rty. lra.
  - unfold loop_V. rewrite EI, W4, Z0. rsimpl. rty. lra.
Qed.
