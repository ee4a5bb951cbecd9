(** C121: the charge of a network of lines.  Vocabulary: SpecCharge.v, SpecNetEnergy.v, SpecElement.v. *)
From Coq Require Import String List Arith ZArith Bool Permutation Lia Reals Lra.
From Verif Require Import Num Py Arr NumR RFacts LapackR Utils Probes Dispersive Line Bundle Networks Mtln SpecLine SpecR SpecBundle SpecNet SpecMtln SpecElement SpecCharge SpecNetEnergy
  MtlnFacts NetEnergyRun ChargeFacts ExampleLine ExampleNet PropNetEnergy PropElement.
Import ListNotations.
Local Open Scope R_scope.

(** in every step of a run the charge of the lines changes by what the circuits send in less what leaks *)
Theorem C121_charge : forall (LA : lapack NumR) x T dt n y z, lapack_ok LA -> lines_net LA x -> closed LA x -> one_step x dt -> (0 < n)%nat \/ joined x -> steps_to LA x T dt n y z ->
  net_charge z = net_charge y + t_dt y * (net_supply y z - net_leak y z).
Proof. intros LA x T dt n y z LAok. exact (run_charge LA LAok x T dt n y z). Qed.
Print Assumptions C121_charge.

(** a circuit sends in what its components to ground do: branches between nodes only move charge *)
Theorem C121_supply : forall (LA : lapack NumR) ds (w0 w1 w w' : network NumR) gs bs (dt t : R), network_new ds = Ok w0 ->
  Forall grounds gs -> NoDup (map ground_id gs) -> Forall sourceless bs -> do_calls w0 (gs ++ bs) = Ok w1 -> after LA (@no_call NumR) w1 w ->
  w_supply dt t w w' = (ground_total w0 gs dt t (nV w') (nV w) (nX w') + ground_total w0 gs dt (t - dt) (nV w) (nVprev w) (nX w)) / 2.
Proof. exact supply_after. Qed.
Print Assumptions C121_supply.

(** so a circuit without components to ground keeps the charge *)
Theorem C121_floating : forall (LA : lapack NumR) ds (w0 w1 w w' : network NumR) bs (dt t : R), network_new ds = Ok w0 ->
  Forall sourceless bs -> do_calls w0 bs = Ok w1 -> after LA (@no_call NumR) w1 w -> w_supply dt t w w' = 0.
Proof. exact floating. Qed.
Print Assumptions C121_floating.

(** two lines in a row, a source at one end: every step of a run of any length meets the hypotheses of C121_charge *)
Example C121_example (n : nat) : (6 <= n)%nat -> exists m x y z, assembled [("b0", m); ("b1", m)]%string (chain m) x /\ pulse 0 = 1 /\ lines_net LR x /\ closed LR x /\ joined x /\ one_step x (1/2) /\
  steps_to LR x (INR n / 2) (1/2) 5 y z.
Proof.
  intros Hn. destruct (C104_example n Hn) as (m & x & u & v & A & P & L & C & _ & J & O & _ & Ru & _).
  destruct (reaches_step LR x (INR n / 2) (1/2) 5 u Ru) as [y S]. exists m, x, y, u. repeat (split; [assumption|]). exact S.
Qed.
(** the circuit of the example of C120 meets those of C121_supply; what it sends in comes through the capacitor, the resistor and the short circuit to ground *)
Example C121_supply_example : exists m (w0 w1 w2 w3 : network NumR), network_new (star_descr m plain) = Ok w0 /\
  Forall grounds some_grounds /\ NoDup (map ground_id some_grounds) /\ Forall sourceless some_branches /\ do_calls w0 (some_grounds ++ some_branches) = Ok w1 /\ after LR (@no_call NumR) w1 w2 /\
  nw_advance_voltage LR w2 (1/2) (1/2) = Ok w3 /\
  (forall dt t v vp x, ground_total w0 some_grounds dt t v vp x
     = 1/8 * ((sin t - v 0%nat) - (sin (t - dt) - vp 0%nat)) / dt + (cos t - v 1%nat) / 50 - 10 ^ 10 * v (node_number w0 30)).
Proof.
  destruct C120_example as (m & w0 & w1 & w2 & w3 & H & G & ND & B & E & A & _ & V & I1 & I2 & _). exists m, w0, w1, w2, w3. repeat (split; [assumption|]).
  intros dt t v vp x. unfold ground_total, SpecNetEnergy.total. destruct I1 as (n1 & F1 & N1), I2 as (n2 & F2 & N2).
  assert (E1 : node_number w0 10 = 0%nat) by (unfold node_number; now rewrite F1). assert (E2 : node_number w0 20 = 1%nat) by (unfold node_number; now rewrite F2).
  cbn [some_grounds fold_right ground_id ground_current source_value]. rewrite E1, E2. lra.
Qed.
