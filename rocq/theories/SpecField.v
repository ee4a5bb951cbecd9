(** Localized longitudinal fields on a straight bundle.  No proofs here. *)
From Coq Require Import String List Arith ZArith Bool Reals.
From Verif Require Import Num Py Arr NumR Probes Dispersive Line Bundle SpecLine SpecBundle SpecCore.
Import ListNotations.
Local Open Scope R_scope.

(** the array of longitudinal fields has one entry per conductor and cell *)
Definition field_arrays {N : num} (b : bundle N) : Prop :=
  length (k_eL (b_core b)) = b_conductors b /\
  forall c, (c < b_conductors b)%nat -> length (nth c (k_eL (b_core b)) []) = b_cells b.
(** the function stored for conductor [c] and cell [k] *)
Definition field_at {N : num} (b : bundle N) (c k : nat) : N -> N := nth k (nth c (k_eL (b_core b)) []) (fun _ => n0).

(** the point at distance [y] from [p] in the direction [w] *)
Definition on_line (p w : list R) (y : R) (pt : list R) : Prop :=
  forall j, (j < 3)%nat -> nth j pt 0 = nth j p 0 + y * nth j w 0.
(** the nodes are the points at distances [x 0 < x 1 < ... < x N] from [p] in the direction of
    the unit vector [w] *)
Record straight (b : bundle NumR) (p w : list R) (x : nat -> R) : Prop := {
  st_unit : nth 0 w 0 ^ 2 + nth 1 w 0 ^ 2 + nth 2 w 0 ^ 2 = 1;
  st_nodes : length (b_u b) = S (b_cells b); st_cells : length (b_du b) = b_cells b;
  st_u : forall k, (k <= b_cells b)%nat -> on_line p w (x k) (nth k (b_u b) []);
  st_du : forall k j, (k < b_cells b)%nat -> (j < 3)%nat -> nth j (nth k (b_du b) []) 0 = (x (S k) - x k) * nth j w 0;
  st_up : forall k, (k < b_cells b)%nat -> x k < x (S k)
}.
(** the code compares with the absolute tolerance 1e-10: [y] is on a node or clearly not on it *)
Definition resolved (N : nat) (x : nat -> R) (y : R) : Prop :=
  forall k, (k <= N)%nat -> y = x k \/ / 10000000000 < Rabs (y - x k).
(** fraction of the cell from [x k] to [x (S k)] that lies between [y] and [z] *)
Definition covered (x : nat -> R) (y z : R) (k : nat) : R :=
  Rmax 0 (Rmin z (x (S k)) - Rmax y (x k)) / (x (S k) - x k).
