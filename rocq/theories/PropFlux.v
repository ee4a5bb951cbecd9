(** C122: flux and charge of any stretch of a conductor.  Vocabulary: SpecFlux.v, SpecNetEnergy.v. *)
From Coq Require Import String List Arith ZArith Bool Lia Reals Lra.
From Verif Require Import Num Py Arr ArrFacts NumR RFacts LinAlg LapackR Utils Probes Dispersive Line LineFacts StepTotal Bundle Networks Mtln   SpecLine SpecR SpecBundle SpecNet SpecMtln SpecCore SpecDisp SpecEnergy SpecTele SpecSuper SpecSolo SpecNetEnergy HistoryFacts TotalFacts BundleFacts   NetFacts NetBuild NetMore ExampleLine ExampleNet PropGeom WaveProps MtlnFacts MtlnProps MtlnR MtlnTotal SoloRun NetEnergyRun NetEnergyBuild
  SpecFlux FluxFacts PropNetEnergy.
Import ListNotations.
Local Open Scope R_scope.

(** in a run of any network of lines: the flux of the cells [a .. a+m-1] is the voltage between their ends, summed up
    over the steps, with that of the field added and the resistive one taken off *)
Theorem C122_flux : forall (LA : lapack NumR) x T dt name n X B b0 c a m, lapack_ok LA -> lines_net LA x -> one_step x dt ->
  bundle_of x name = Some b0 -> plain_bundle LA b0 -> (c < b_conductors b0)%nat -> (a + m <= b_cells b0)%nat -> history_of LA x T dt name n X B ->
  let d := t_dt (X 0%nat) in
  flux (B n) c a m = flux (B 0%nat) c a m + d * sumR n (fun j => let t := t_time (X j) in
    node_volt t (B (S j)) c a - node_volt t (B (S j)) c (a + m) + pushed d t (B j) c a m - ohmic (B j) (B (S j)) c a m).
Proof. intros LA x T dt name n X B b0 c a m LAok. exact (history_flux LA LAok x T dt name n X B b0 c a m). Qed.
Print Assumptions C122_flux.

(** and the charge of the interior nodes [a .. a+m-1] is what flowed in through the cell before them less what flowed out
    through the cell after them and what leaked *)
Theorem C122_charge : forall (LA : lapack NumR) x T dt name n X B b0 c a m, lapack_ok LA -> lines_net LA x -> one_step x dt ->
  bundle_of x name = Some b0 -> (c < b_conductors b0)%nat -> (0 < a)%nat -> (a + m <= b_cells b0)%nat -> history_of LA x T dt name n X B ->
  let d := t_dt (X 0%nat) in
  charge (t_time (X n) - d) (B n) c a m = charge (t_time (X 0%nat) - d) (B 0%nat) c a m
    + d * sumR n (fun j => b_curr (B j) c (a - 1)%nat - b_curr (B j) c (a + m - 1)%nat - leaked d (t_time (X j)) (B j) (B (S j)) c a m).
Proof. intros LA x T dt name n X B b0 c a m LAok. exact (history_charge LA LAok x T dt name n X B b0 c a m). Qed.
Print Assumptions C122_charge.

(** two lossy lines in a row, driven at one end, for any number of steps: all three cells and the two interior nodes of the first one *)
Example C122_example (n : nat) : (6 <= n)%nat -> exists x b0 X B, pulse 0 = 1 /\ lines_net LR x /\ one_step x (1/2) /\ bundle_of x "b0" = Some b0 /\ plain_bundle LR b0 /\
  b_conductors b0 = 1%nat /\ b_cells b0 = 3%nat /\ history_of LR x (INR n / 2) (1/2) "b0" n X B.
Proof.
  intros Hn. destruct chain_exists as (m & x & P & U & C1 & C3 & Dt & Hh & Hc & A).
  assert (UL : Forall (fun nm => unlit_line LR (snd nm)) [("b0", m); ("b1", m)]%string) by (constructor; [exact U|constructor; [exact U|constructor]]).
  assert (PP : Forall (fun nm => physical (snd nm)) [("b0", m); ("b1", m)]%string) by (constructor; [exact P|constructor; [exact P|constructor]]).
  pose proof (asm_lines LR _ _ _ A UL) as Ln. pose proof (asm_runnable LR _ _ _ A UL PP) as Rn.
  destruct (mtln_run_total LR LR_complete x (INR n / 2) (1/2) Ln Rn) as (v & Ev & _); [left; lra|].
  destruct (proj1 (run_reaches LR x (INR n / 2) (1/2) v) Ev) as (k & Ek & Rv).
  assert (O1 : t_dt (override_dt x (1/2 : NumR)) = 1/2) by (unfold override_dt; replace (@neqb NumR (1/2) n0) with false by (symmetry; apply Reqb_false; rsimpl; lra); reflexivity).
  rewrite O1, halves in Ek. injection Ek as <-.
  destruct (asm_of_line _ _ _ A "b0"%string m (or_introl eq_refl)) as (b0 & G0 & Hm). destruct (asm_carries LR _ UL _ _ _ (or_introl eq_refl) Hm) as (Ca & _).
  destruct (history_exists LR x (INR n / 2) (1/2) n v "b0" b0 Rv G0) as (X & B & H & _). pose proof (cl_bundles _ _ (asm_closed LR _ _ _ A UL) _ _ G0) as Ub.
  exists x, b0, X, B. split; [unfold pulse; destruct (Rle_dec 2 0); lra|]. split; [exact Ln|]. split; [left; lra|]. split; [exact G0|]. split; [exact (conj (ub_D _ _ Ub) (ub_way _ _ Ub))|].
  split; [rewrite (ca_n _ _ _ Ca); exact C1|]. split; [rewrite (ca_N _ _ _ Ca); exact C3|exact H].
Qed.
