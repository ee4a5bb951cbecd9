(** The circuit "resistor r in series with the parallel of inductor l and capacitor c, and a source", from a node to
    ground.  No proofs here. *)
From Coq Require Import Reals.
Local Open Scope R_scope.

(** Rates of change of the capacitor voltage and of the inductor current when the node is at
    [v] and the source at [s]: the current through the resistor is (v - s - vc)/r; it charges the capacitor after the
    inductor has taken its part. *)
Definition vc_rate (r c v s vc il : R) : R := ((v - s - vc) / r - il) / c.
Definition il_rate (l vc : R) : R := vc / l.
(** stored energy *)
Definition stored (l c vc il : R) : R := (c * vc ^ 2 + l * il ^ 2) / 2.
(** an implicit (backward Euler) step of length [h] *)
Definition implicit_step (h r l c v s vc il vc' il' : R) : Prop :=
  vc' = vc + h * vc_rate r c v s vc' il' /\ il' = il + h * il_rate l vc'.
