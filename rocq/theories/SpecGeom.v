(** Vocabulary of the constructor and geometry theorems.  No proofs here. *)
From Coq Require Import String List Arith ZArith Bool Reals.
From Verif Require Import Num Py Arr NumR Probes Dispersive Line SpecLine SpecR.
Import ListNotations.

Section Args.
Context {N : num}.

(** the vertices of the line: the given list, or a segment along z of the given length *)
Definition vertices (length_ : N) (np : mat N) : mat N :=
  match np with [] => [[n0; n0; n0]; [n0; n0; length_]] | _ => np end.
(** number of cells asked for: the sum of the divisions *)
Definition total (ndiv : list nat) : nat := fold_left Nat.add ndiv 0%nat.

(** acceptable arguments l, c: two floats or two square arrays of the same shape *)
Definition lc_ok (l c : pulin N) : Prop :=
  match l, c with PFloat _, PFloat _ => True | PArr r1 c1 _, PArr r2 c2 _ => r1 = c1 /\ r1 = r2 /\ c1 = c2 | _, _ => False end.
(** the number of conductors they stand for *)
Definition size_of (l : pulin N) : nat := match l with PArr a _ _ => a | _ => 1%nat end.
(** acceptable argument r or g for [n] conductors *)
Definition rg_ok (n : nat) (x : pulin N) : Prop :=
  match x with PFloat y => n = 1%nat \/ neqb y n0 = true | PArr a b _ => a = n /\ b = n | POther => False end.
(** acceptable terminal impedances: two scalars, or two vectors (flat, row or column) *)
Definition zt_ok (n : nat) (zs zl : ztin N) : Prop :=
  match zs, zl with
  | ZScal _, ZScal _ => True
  | ZVec a _, ZVec b _ => a = n /\ b = n
  | ZMat r1 c1 _, ZMat r2 c2 _ => r1 = r2 /\ c1 = c2 /\ (r1 = 1%nat /\ c1 = n \/ r1 = n /\ c1 = 1%nat)
  | _, _ => False
  end.
Definition is_scalar (z : ztin N) : bool := match z with ZScal _ => true | _ => false end.

(** some coordinate of [p] is above that of the last node of [u] or below that of the first *)
Definition outside (u : mat N) (p : vec N) : Prop :=
  exists k, (k < 3)%nat /\ (nltb (get (nth (length u - 1) u []) k) (get p k) = true \/ nltb (get p k) (get (nth 0 u []) k) = true).

(** zero fields and zero clock *)
Definition at_rest (m : mtl N) : Prop :=
  k_v (m_core m) = zeros2 (conductors m) (S (cells m)) /\ k_i (m_core m) = zeros2 (conductors m) (cells m) /\ m_time m = n0.

(** [marched a b]: [b] is what [a] has become after any number of step() and run_until(T) calls *)
Variable LA : lapack N.
Inductive marched (a : mtl N) : mtl N -> Prop :=
| ma_refl : marched a a
| ma_step b c : marched a b -> mtl_step b = Ok c -> marched a c
| ma_run b T c : marched a b -> run_until LA b T = Ok c -> marched a c.
End Args.

Local Open Scope R_scope.

(** [Z] is, on its first [n] rows and columns, the diagonal matrix with entries [z] *)
Definition diag_with (n : nat) (Z : nat -> nat -> R) (z : nat -> R) : Prop :=
  forall i j, (i < n)%nat -> (j < n)%nat -> Z i j = if (i =? j)%nat then z i else 0.

(** coordinate [k] of a point; points equal in all three coordinates *)
Definition coord (p : list R) (k : nat) : R := nth k p 0.
Definition same3 (p q : list R) : Prop := forall k, (k < 3)%nat -> coord p k = coord q k.
Definition norm3 (p : list R) : R := sqrt (nth 0 p 0 ^ 2 + nth 1 p 0 ^ 2 + nth 2 p 0 ^ 2).
(** no coordinate decreases from one node to the next *)
Definition rising (u : list (list R)) : Prop :=
  forall j k, (S j < length u)%nat -> (k < 3)%nat -> coord (nth j u []) k <= coord (nth (S j) u []) k.
(** vertices one unit apart along z *)
Definition ladder (s : nat) : list (list R) := mk (S s) (fun i => [0; 0; INR i]).

(** the cell that belongs to node [k]: the one after it, or the last one for the last node *)
Definition cell_at (m : mtl NumR) (k : nat) : nat := if (k =? cells m)%nat then (k - 1)%nat else k.
(** the length by which a lumped value is divided: that of the cell if the region is one
    cell, else the distance between the two nodes *)
Definition region_len (m : mtl NumR) (i1 i2 : nat) : R :=
  if (i1 =? i2)%nat then norm3 (nth i1 (m_du m) []) else dist3 (nth i2 (m_u m) []) (nth i1 (m_u m) []).
(** everything but the resistance, the conductance and the update matrices *)
Definition rest_of (m m' : mtl NumR) : Prop :=
  conductors m' = conductors m /\ cells m' = cells m /\ m_u m' = m_u m /\ m_du m' = m_du m /\ m_time m' = m_time m /\
  m_probes m' = m_probes m /\ m_vsrc m' = m_vsrc m /\ m_zs m' = m_zs m /\ m_zl m' = m_zl m /\ step_dt m' = step_dt m /\
  k_v (m_core m') = k_v (m_core m) /\ k_i (m_core m') = k_i (m_core m) /\ k_l (m_core m') = k_l (m_core m) /\
  k_c (m_core m') = k_c (m_core m) /\ k_h (m_core m') = k_h (m_core m) /\ k_disp (m_core m') = k_disp (m_core m) /\
  k_eL (m_core m') = k_eL (m_core m) /\ k_eT (m_core m') = k_eT (m_core m).
