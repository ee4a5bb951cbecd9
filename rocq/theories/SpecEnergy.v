(** Energy of a line between two steps of the scheme.  No proofs here. *)
From Coq Require Import List Arith Bool Reals.
From Verif Require Import Num Py Arr NumR Probes Dispersive Line SpecLine SpecR.
Local Open Scope R_scope.

(** scalar product of two lists of conductor values *)
Definition dot (n : nat) (x y : nat -> R) : R := sumR n (fun c => x c * y c).

(** voltages and currents of all conductors at a node or in a cell *)
Definition at_node (m : mtl NumR) (k : nat) : nat -> R := fun c => volt m c k.
Definition in_cell (m : mtl NumR) (k : nat) : nat -> R := fun c => curr m c k.

(** length of line that belongs to node [k]: half of each cell that touches it *)
Definition share (m : mtl NumR) (k : nat) : R :=
  if (k =? 0)%nat then cell_len m 0 / 2
  else if (k =? cells m)%nat then cell_len m (cells m - 1) / 2
  else (cell_len m (k - 1) + cell_len m k) / 2.

(** The two end nodes keep the step they were built with ([dt0]) when set_time_step changes the
    step (C32): their capacitance then counts in the proportion of the two steps. *)
Definition weight (dt0 : R) (m : mtl NumR) (k : nat) : R :=
  if (k =? 0)%nat || (k =? cells m)%nat then share m k * (step_dt m / dt0) else share m k.

(** electric energy of the nodes and magnetic energy of the cells *)
Definition stored (dt0 : R) (m : mtl NumR) : R :=
  sumR (S (cells m)) (fun k => weight dt0 m k * quad (conductors m) (C_ m k) (at_node m k)) / 2
  + sumR (cells m) (fun k => cell_len m k * quad (conductors m) (L_ m k) (in_cell m k)) / 2.

(** the energy the scheme balances: voltages are half a step older than currents, which adds the
    work done over that half step *)
Definition energy (dt0 : R) (m : mtl NumR) : R :=
  stored dt0 m
  + step_dt m / 2 * sumR (cells m) (fun k => dot (conductors m) (in_cell m k) (fun c => volt m c (S k) - volt m c k)).

(** Losses during the step from [a] to [b], [dt] times the mean power: in the series resistance
    of the cells, and in the conductance of the nodes.  At the end nodes the conductance is the
    one given to the constructor ([m0]). *)
Definition lost_in_R (a b : mtl NumR) : R :=
  step_dt a * sumR (cells a) (fun k => cell_len a k *
    quad (conductors a) (R_ a k) (fun c => (curr b c k + curr a c k) / 2)).
Definition node_G (m0 m : mtl NumR) (k : nat) : nat -> nat -> R :=
  if (k =? 0)%nat || (k =? cells m)%nat then G_ m0 k else G_ m k.
Definition lost_in_G (m0 a b : mtl NumR) : R :=
  step_dt a * sumR (S (cells a)) (fun k => share a k *
    quad (conductors a) (node_G m0 a k) (fun c => (volt b c k + volt a c k) / 2)).

(** current that flows from the left (right) termination into the line during the step: it
    charges the half cell of the end node, feeds its conductance and the first (last) cell *)
Definition J_left (m0 a b : mtl NumR) (c : nat) : R :=
  cell_len a 0 / 2 * (mulv (conductors a) (C_ a 0) (fun p => volt b p 0 - volt a p 0) c / step_dt m0
                    + mulv (conductors a) (G_ m0 0) (fun p => volt b p 0 + volt a p 0) c / 2)
  + curr a c 0.
Definition J_right (m0 a b : mtl NumR) (c : nat) : R :=
  let e := cells a in
  cell_len a (e - 1) / 2 * (mulv (conductors a) (C_ a e) (fun p => volt b p e - volt a p e) c / step_dt m0
                    + mulv (conductors a) (G_ m0 e) (fun p => volt b p e + volt a p e) c / 2)
  - curr a c (e - 1).
(** losses in the terminations and energy delivered by the terminal sources *)
Definition lost_in_Z (m0 a b : mtl NumR) : R :=
  step_dt a * (quad (conductors a) (Zs_ a) (J_left m0 a b) + quad (conductors a) (Zl_ a) (J_right m0 a b)).
Definition supplied (m0 a b : mtl NumR) (t : R) : R :=
  let src k c := (source a c k t + source a c k (t - step_dt a)) / 2 in
  step_dt a * (dot (conductors a) (src 0%nat) (J_left m0 a b) + dot (conductors a) (src (cells a)) (J_right m0 a b)).

(** no external field *)
Definition no_field (m : mtl NumR) : Prop :=
  (forall c k t, (c < conductors m)%nat -> (k <= cells m)%nat -> eTran m c k t = 0) /\
  (forall c k t, (c < conductors m)%nat -> (k < cells m)%nat -> eLong m c k t = 0).

(** a line that can only lose energy: [m0] gives the conductances of the end nodes *)
Record lossy (m0 m : mtl NumR) : Prop := {
  lo_dt : 0 < step_dt m; lo_dt0 : 0 < step_dt m0;
  lo_h : forall k, (k < cells m)%nat -> 0 <= cell_len m k;
  lo_C : forall k, (k <= cells m)%nat -> symm (conductors m) (C_ m k);
  lo_L : forall k, (k < cells m)%nat -> symm (conductors m) (L_ m k);
  lo_R : forall k, (k < cells m)%nat -> pos_semidef (conductors m) (R_ m k);
  lo_G : forall k, (k <= cells m)%nat -> pos_semidef (conductors m) (node_G m0 m k);
  lo_Zs : pos_semidef (conductors m) (Zs_ m); lo_Zl : pos_semidef (conductors m) (Zl_ m)
}.
(** no wave crosses a cell in less than [dt]; for one conductor this is dt <= h sqrt(l c) *)
Definition courant (m : mtl NumR) (dt : R) : Prop :=
  forall k x y, (k < cells m)%nat ->
    (dt * dot (conductors m) x y) ^ 2 <= cell_len m k ^ 2 * (quad (conductors m) (L_ m k) x * quad (conductors m) (C_ m k) y).
