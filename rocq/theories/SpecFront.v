(** Vocabulary of the theorems on the front of a wave.  Real arithmetic.  No proofs here. *)
From Coq Require Import List Arith Reals.
From Verif Require Import Num Arr NumR Line SpecLine SpecR SpecEnergy.
Local Open Scope R_scope.

(** A line of one conductor without dispersive elements, external fields or a source at its far
    end, at rest.  [m0] is the line as constructed, whose step and conductances the terminals
    keep (property C32); the step may have been changed since. *)
Record resting_line (LA : lapack NumR) (m0 m : mtl NumR) : Prop := {
  rg_history : history LA m0 m; rg_plain : undispersed m; rg_one : conductors m = 1%nat; rg_field : no_field m;
  rg_dt : 0 < step_dt m; rg_dt0 : 0 < step_dt m0;
  rg_cell : forall k, (k < cells m)%nat -> 0 < cell_len m k /\ 0 < L_ m k 0 0 /\ 0 <= R_ m k 0 0;
  rg_node : forall k, (k <= cells m)%nat -> 0 < C_ m k 0 0 /\ 0 <= G_ m k 0 0 /\ 0 <= G_ m0 k 0 0;
  rg_ends : 0 <= Zs_ m 0 0 /\ 0 <= Zl_ m 0 0;
  rg_far : forall t, source m 0 (cells m) t = 0;
  rg_volt : forall k, (k <= cells m)%nat -> volt m 0 k = 0;
  rg_curr : forall k, (k < cells m)%nat -> curr m 0 k = 0
}.
(** the first voltage at the near end: the source, divided between its resistance and half the
    first cell *)
Definition first_voltage (m0 m : mtl NumR) : R :=
  (source m 0 0 (m_time m) + source m 0 0 (m_time m - step_dt m)) /
  (1 + Zs_ m 0 0 * cell_len m 0 * (C_ m 0 0 0 / step_dt m0 + G_ m0 0 0 0 / 2)).
(** what a wave front is divided by when it crosses cell [q], from node [q] to node [q + 1] *)
Definition crossing (m : mtl NumR) (q : nat) : R :=
  cell_len m q * (L_ m q 0 0 / step_dt m + R_ m q 0 0 / 2) * (width m (S q) * (C_ m (S q) 0 0 / step_dt m + G_ m (S q) 0 0 / 2)).
Fixpoint crossings (m : mtl NumR) (j : nat) : R := match j with O => 1 | S q => crossings m q * crossing m q end.
(** a uniform line without losses *)
Definition uniform (m : mtl NumR) (l c h : R) : Prop :=
  (forall k, (k < cells m)%nat -> cell_len m k = h /\ L_ m k 0 0 = l /\ R_ m k 0 0 = 0) /\
  (forall k, (k <= cells m)%nat -> C_ m k 0 0 = c /\ G_ m k 0 0 = 0).
