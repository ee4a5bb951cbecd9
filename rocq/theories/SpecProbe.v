(** Vocabulary of the probe theorems: what a user reads from a probe, and what a frame that
    records a given state looks like.  No proofs here. *)
From Coq Require Import String List Arith Bool.
From Verif Require Import Num Py Arr Probes Line SpecLine.
Import ListNotations.

Section SpecProbe.
Context {N : num}.
Local Open Scope num_scope.

(** what reading the [val] of probe [p] gives while the line is in state [m]: one row per frame *)
Definition rows_of (m : mtl N) (p : probe N) : list (list N) :=
  probe_rows p (conductors m) (k_v (m_core m)) (k_i (m_core m)).

(** the cell a current probe at node [k] reads: the one after the node, the last one at the end *)
Definition cell_of (m : mtl N) (k : nat) : nat := if (k =? cells m)%nat then (k - 1)%nat else k.

(** time stamp [t] and row [row] are what probe [p] must record of state [b] *)
Definition frame_of (p : probe N) (b : mtl N) (t : N) (row : list N) : Prop :=
  length row = conductors b /\
  (p_type p = "voltage"%string /\ t = m_time b /\
     (forall c, (c < conductors b)%nat -> nth c row n0 = volt b c (p_index p))
   \/ p_type p = "current"%string /\ t = m_time b + p_dt p / n2 /\
     (forall c, (c < conductors b)%nat -> nth c row n0 = curr b c (cell_of b (p_index p)))).
End SpecProbe.
