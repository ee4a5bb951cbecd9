(** Two coupled lossy conductors with a generator that is switched on now, or two steps later. *)
From Coq Require Import String List Arith ZArith Bool Lia Reals Lra.
From Verif Require Import Num Py Arr ArrFacts NumR RFacts LinAlg LapackR Probes Dispersive Line LineFacts
  SpecLine SpecR SpecDyn HistoryFacts StepTotal TotalFacts RunProps SuperProps SpecEnergy SpecRecip ExampleRecip SpecShift ShiftProps.
Import ListNotations.
Local Open Scope R_scope.

Lemma shift_example : exists m m1 m2 a b T, reachable LR m /\ undispersed m /\ 0 < step_dt m /\ silent m /\ undriven m /\ conductors m = 2%nat /\ cells m = 3%nat /\
  (forall t, t < m_time m -> unit_step t = 0) /\ unit_step (m_time m) = 1 /\
  add_voltage_source m (@PosF NumR 0) 0 unit_step = Ok m1 /\
  add_voltage_source m (@PosF NumR 0) 0 (fun t => unit_step (t - INR 2 * step_dt m)) = Ok m2 /\
  run_state LR m1 T 2 a /\ run_state LR m2 T (2 + 2) b.
Proof.
  destruct rec_line as (m & E & RL & U & P & Hn & HN & Hu & Ht & _).
  destruct (source_on m (@PosF NumR 0) 0 unit_step ltac:(lia) P) as (m1 & E1 & P1).
  destruct (source_on m (@PosF NumR 0) 0 (fun t => unit_step (t - INR 2 * step_dt m)) ltac:(lia) P) as (m2 & E2 & P2).
  assert (Dt : step_dt m1 = step_dt m /\ step_dt m2 = step_dt m).
  { unfold add_voltage_source in E1, E2. unfold conductors in Hn. rewrite Hn in *. injection E1 as <-. injection E2 as <-. auto. }
  destruct Dt as [D1 D2]. pose proof (ph_dt _ P) as Hdt.
  assert (ST : (Z.to_nat (Int_part (5.5 * step_dt m / step_dt m)) > 3)%nat).
  { replace (5.5 * step_dt m / step_dt m) with 5.5 by (field; lra).
    assert (X : Int_part 5.5 = 5%Z).
    { unfold Int_part. assert (up 5.5 = 6%Z) as ->; [|reflexivity]. symmetry. apply tech_up; simpl; lra. }
    rewrite X. simpl. lia. }
  destruct (run_step_total LR LR_complete m1 (5.5 * step_dt m) 1 P1) as (a0 & a & A); [rewrite D1; lia|].
  destruct (run_step_total LR LR_complete m2 (5.5 * step_dt m) 3 P2) as (b0 & b & B); [rewrite D2; exact ST|].
  destruct (run_step_states LR _ _ _ _ _ A) as [_ A']. destruct (run_step_states LR _ _ _ _ _ B) as [_ B'].
  destruct RL as [HH UD _ SS _ _ _ _ _].
  exists m, m1, m2, a, b, (5.5 * step_dt m). split; [exists m; exact HH|]. split; [exact UD|]. split; [exact Hdt|]. split; [exact SS|]. split; [exact U|].
  split; [exact Hn|]. split; [exact HN|]. rewrite Ht. unfold unit_step at 1 2.
  split; [intros t L; destruct (Rltb_spec t 0); lra|]. split; [destruct (Rltb_spec 0 0); lra|].
  split; [exact E1|]. split; [exact E2|]. auto.
Qed.
