(** Vocabulary of the theorems on the state variables of a connection.  No proofs here. *)
From Coq Require Import String List Arith ZArith Bool.
From Verif Require Import Num Py Arr Utils Probes Dispersive Line Bundle Networks.
Import ListNotations.

Section SpecStates.
Context {N : num}.
Local Open Scope num_scope.
(** How many state variables conductor [cond] of a connector needs: a series RLC one
    for its inductance, unless that is zero, and one for its capacitance, unless that is 1e22 or
    more (no capacitor); a capacitor one; a parallel LC two; a multiwire connector what its
    connection number [cond] needs; every other none. *)
Inductive state_count (cond : nat) (k : connector N) : nat -> Prop :=
| sc_sRLC l c p q : cn_type k = "Conn_sRLC"%string -> cn_L k = Some l -> cn_C k = Some c ->
    ((l =? n0) = false /\ p = 1%nat \/ (l =? n0) = true /\ p = 0%nat) -> ((c <? n1e22) = true /\ q = 1%nat \/ (c <? n1e22) = false /\ q = 0%nat) ->
    state_count cond k (p + q)
| sc_C : cn_type k = "Conn_C"%string -> state_count cond k 1
| sc_LC : cn_type k = "Conn_LCpRs"%string -> state_count cond k 2
| sc_multi t p : cn_type k = "MultiwireConnector"%string -> nth_error (cn_conns k) cond = Some t ->
    (t = "Conn_C" /\ p = 1%nat \/ t = "Conn_LCpRs" /\ p = 2%nat \/ t <> "Conn_C" /\ t <> "Conn_LCpRs" /\ p = 0%nat)%string -> state_count cond k p
| sc_none : ~ In (cn_type k) ["Conn_sRLC"; "Conn_C"; "Conn_LCpRs"; "MultiwireConnector"]%string -> state_count cond k 0.
End SpecStates.
