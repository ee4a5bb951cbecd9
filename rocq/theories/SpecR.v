(** Small definitions used in the statements of the real-arithmetic line theorems. *)
From Coq Require Import List Arith Reals.
Import ListNotations.
From Verif Require Import Num Arr NumR Line SpecLine.
Local Open Scope R_scope.

(** length of line attached to node [k]: the adjacent cell at the two ends, the mean of the
    two adjacent cells elsewhere *)
Definition width (m : mtl NumR) (k : nat) : R :=
  if (k =? 0)%nat then cell_len m 0
  else if (k =? cells m)%nat then cell_len m (cells m - 1)
  else (cell_len m (k - 1) + cell_len m k) / 2.

(** matrix times vector, as functions of indices *)
Definition mulv (n : nat) (A : nat -> nat -> R) (x : nat -> R) (i : nat) : R :=
  sumR n (fun j => A i j * x j).

(** quadratic form, positive definite, positive semidefinite, symmetric *)
Definition quad (n : nat) (A : nat -> nat -> R) (x : nat -> R) : R :=
  sumR n (fun i => x i * sumR n (fun j => A i j * x j)).
Definition pos_def (n : nat) (A : nat -> nat -> R) : Prop :=
  forall x, (exists i, (i < n)%nat /\ x i <> 0) -> 0 < quad n A x.
Definition pos_semidef (n : nat) (A : nat -> nat -> R) : Prop :=
  forall x, 0 <= quad n A x.
Definition symm (n : nat) (A : nat -> nat -> R) : Prop :=
  forall i j, (i < n)%nat -> (j < n)%nat -> A i j = A j i.

(** Euclidean distance of two points of space *)
Definition dist3 (p q : list R) : R :=
  sqrt ((nth 0 p 0 - nth 0 q 0) ^ 2 + (nth 1 p 0 - nth 1 q 0) ^ 2 + (nth 2 p 0 - nth 2 q 0) ^ 2).

(** [k] is the number of the node of [u] closest to [p], the first one if several are *)
Definition closest (u : list (list R)) (p : list R) (k : nat) : Prop :=
  (k < length u)%nat /\
  (forall j, (j < length u)%nat -> dist3 (nth k u []) p <= dist3 (nth j u []) p) /\
  (forall j, (j < k)%nat -> dist3 (nth k u []) p < dist3 (nth j u []) p).

(** Half a cell of line (per unit length [C], [G]; the cell has length [h]) in parallel with
    a terminal made of the impedance [Z] in series with a source: the discretised equation
    between two instants [dt] apart.  [v], [v'] are the end voltages before and after, [de]
    the increment of the transversal field, [src] the sum of the source at two consecutive
    sampling instants, [i] the current entering the line. *)
Definition thevenin (n : nat) (Z C G : nat -> nat -> R) (h dt : R) (v v' : nat -> R) (de : nat -> R)
  (src i : nat -> R) (c : nat) : Prop :=
  h * mulv n Z (fun q => mulv n C (fun p => v' p - v p + de p) q / dt
                       + mulv n G (fun p => v' p + v p) q / 2) c
  + v' c + v c = src c - 2 * mulv n Z i c.
