(** Property C118: the front of a wave, and what a time step above the constructor's does to it.
    Real arithmetic.  [run_state LA m T n a]: run_until(T) called on [m] is in state [a] after
    [n] steps.  The words of the statements are defined in SpecFront.v. *)
From Coq Require Import String List Arith ZArith Bool Lia Reals Lra.
From Verif Require Import Num Py Arr NumR RFacts LapackR Probes Line SpecLine SpecR SpecEnergy SpecFront SpecSettle HistoryFacts TotalFacts PlainFacts
  ExampleLine SettleMore FrontFacts.
Import ListNotations.
Local Open Scope R_scope.

(** A line at rest is driven at its near end.  After [j + 1] steps the wave has reached node [j],
    where its first value is the first voltage of the near end divided by one factor for each
    cell crossed; nothing has happened beyond. *)
Theorem C118_front (LA : lapack NumR) (m0 m : mtl NumR) T j a : lapack_ok LA -> resting_line LA m0 m -> run_state LA m T (S j) a -> (j < cells m)%nat ->
  volt a 0 j * crossings m j = first_voltage m0 m /\ 0 < crossings m j /\
  (forall k, (j < k)%nat -> (k <= cells m)%nat -> volt a 0 k = 0) /\ (forall k, (j < k)%nat -> (k < cells m)%nat -> curr a 0 k = 0).
Proof.
  intros A Q H J. destruct (wave_front LA A m0 m Q T j a H J) as (E & V & I). split; [exact E|]. split; [exact (crossings_pos LA m0 m Q j J)|]. split; [exact V|exact I].
Qed.
Print Assumptions C118_front.
(** On a uniform line without losses every cell multiplies the front by the square of the ratio
    of the time step to the time a wave takes to cross a cell. *)
Theorem C118_uniform (LA : lapack NumR) (m0 m : mtl NumR) l c h T j a : lapack_ok LA -> resting_line LA m0 m -> uniform m l c h -> 0 < l -> 0 < c -> 0 < h ->
  run_state LA m T (S j) a -> (j < cells m)%nat ->
  volt a 0 j = first_voltage m0 m * (step_dt m / (h * sqrt (l * c))) ^ (2 * j).
Proof. exact (fun A Q => uniform_front LA A m0 m Q l c h T j a). Qed.
Print Assumptions C118_uniform.
(** Above that time, which is the constructor's step, the simulation diverges: whatever the bound
    [K], some number of cells is enough for every such line to exceed it. *)
Theorem C118_diverges (l c h dt v K : R) : 0 < l -> 0 < c -> 0 < h -> h * sqrt (l * c) < dt -> 0 < v ->
  exists j, forall (LA : lapack NumR) (m0 m : mtl NumR) T a, lapack_ok LA -> resting_line LA m0 m -> uniform m l c h -> step_dt m = dt -> first_voltage m0 m = v ->
    run_state LA m T (S j) a -> (j < cells m)%nat -> K < volt a 0 j.
Proof.
  intros Hl Hc Hh Hd Hv. assert (P : 0 < h * sqrt (l * c)) by (apply Rmult_lt_0_compat; [lra|]; apply sqrt_lt_R0; apply Rmult_lt_0_compat; lra).
  assert (G : 1 < dt / (h * sqrt (l * c))) by (apply (Rmult_lt_reg_r (h * sqrt (l * c))); [exact P|]; unfold Rdiv; rewrite Rmult_assoc, Rinv_l; lra).
  destruct (growth _ v K G Hv) as [j Hj]. exists j. intros LA m0 m T a A Q U Ed Ev H J.
  rewrite (uniform_front LA A m0 m Q l c h T j a U Hl Hc Hh H J), Ed, Ev. exact (Hj j (le_n j)).
Qed.
Print Assumptions C118_diverges.
(** Such lines exist with any number of cells: built with l = c = 1 and cells of length 1, driven
    by one volt, run with steps of 2 instead of 1. *)
Theorem C118_diverging_lines (K : R) : exists (m0 m1 m : mtl NumR) T j a,
  mtl_new LR (fun _ => []) (fun _ => []) (@PFloat NumR 1) (@PFloat NumR 1) (@PFloat NumR 0) (@PFloat NumR 0) (INR (S j)) [] [S j] (@ZScal NumR 1) (@ZScal NumR 1) "line" = Ok m0 /\
  step_dt m0 = 1 /\ add_voltage_source m0 (@PosF NumR 0) 0 (fun _ => 1) = Ok m1 /\ m = set_time_step m1 1 2 /\
  resting_line LR m0 m /\ uniform m 1 1 1 /\ first_voltage m0 m = 1 /\ run_state LR m T (S j) a /\ K < volt a 0 j.
Proof.
  assert (S1 : sqrt (1 * 1) = 1) by (rewrite Rmult_1_r; apply sqrt_1).
  destruct (growth 2 1 K ltac:(lra) ltac:(lra)) as [j Hj].
  assert (Pj : 0 < INR (S j)) by (apply lt_0_INR; lia).
  destruct (driven_line LR (fun _ => []) (fun _ => []) 1 1 0 0 (INR (S j)) 1 1 (S j) "line" (fun _ => 1) LR_ok LR_complete) as
    (m0 & m1 & E0 & E1 & HH & P & O & D0 & D1 & Sr & V & I & ET & EL & T0 & G); try lra; try lia.
  assert (Hh : Rabs (INR (S j)) / INR (S j) = 1) by (rewrite Rabs_right by lra; unfold Rdiv; apply Rinv_r; lra). rewrite Hh in *.
  rewrite S1, Rmult_1_r in D0. set (m := set_time_step m1 1 2). assert (Dm : step_dt m = 2) by (change (2 / 1 = 2); lra).
  assert (Pm : physical m) by (apply physical_time_step; [exact P|]; change (0 < 2 / 1); lra).
  destruct O as [On ON Oh OL OR_ OC OG Ozs Ozl].
  assert (Q : resting_line LR m0 m).
  { split.
    - apply h_time_step. exact HH.
    - exact (ph_undisp _ Pm).
    - exact On.
    - split; intros c k t _ _; [change (eTran m1 c k t = 0); rewrite ET|change (eLong m1 c k t = 0); rewrite EL]; reflexivity.
    - lra.
    - lra.
    - intros k Hk. change (k < cells m1)%nat in Hk. rewrite ON in Hk. change (0 < cell_len m1 k /\ 0 < L_ m1 k 0 0 /\ 0 <= R_ m1 k 0 0). rewrite Oh, OL, OR_ by exact Hk. lra.
    - intros k Hk. change (k <= cells m1)%nat in Hk. rewrite ON in Hk. change (0 < C_ m1 k 0 0 /\ 0 <= G_ m1 k 0 0 /\ 0 <= G_ m0 k 0 0). rewrite <- G, OC, OG by exact Hk. lra.
    - change (0 <= Zs_ m1 0 0 /\ 0 <= Zl_ m1 0 0). lra.
    - intros t. change (source m1 0 (cells m1) t = 0). rewrite Sr, ON. reflexivity.
    - intros k _. exact (V 0%nat k).
    - intros k _. exact (I 0%nat k). }
  assert (U : uniform m 1 1 1).
  { split; intros k Hk; [change (k < cells m1)%nat in Hk|change (k <= cells m1)%nat in Hk]; rewrite ON in Hk.
    - change (cell_len m1 k = 1 /\ L_ m1 k 0 0 = 1 /\ R_ m1 k 0 0 = 0). auto.
    - change (C_ m1 k 0 0 = 1 /\ G_ m1 k 0 0 = 0). auto. }
  assert (F : first_voltage m0 m = 1).
  { unfold first_voltage. change (Zs_ m 0 0) with (Zs_ m1 0 0). change (cell_len m 0) with (cell_len m1 0). change (C_ m 0 0 0) with (C_ m1 0 0 0). change (source m) with (source m1).
    rewrite Sr, <- G, Ozs, Oh, OC, OG, D0 by lia. cbn [Nat.eqb andb]. rsimpl. field. }
  destruct (endless_physical LR LR_complete m Pm (S j)) as (T & a & Hr).
  exists m0, m1, m, T, j, a. split; [exact E0|]. split; [exact D0|]. split; [exact E1|]. split; [reflexivity|]. split; [exact Q|]. split; [exact U|]. split; [exact F|]. split; [exact Hr|].
  rewrite (uniform_front LR LR_ok m0 m Q 1 1 1 T j a U ltac:(lra) ltac:(lra) ltac:(lra) Hr ltac:(change (j < cells m1)%nat; rewrite ON; lia)), F, Dm, S1.
  replace (2 / (1 * 1)) with 2 by field. exact (Hj j (le_n j)).
Qed.
Print Assumptions C118_diverging_lines.
