(** When one line is the mirror image, a conductor, or a relabelling of another.  A line is given
    by its state [m0] when the constructor returned and its present state [m]; everything is said
    in terms of observables. *)
From Coq Require Import List Arith Reals.
From Verif Require Import Num Py Arr NumR Line SpecLine SpecR.
Local Open Scope R_scope.

(** the line [m'] read from its last node to its first is the line [m] *)
Record mirrored (m0 m m0' m' : mtl NumR) : Prop := {
  mi_n : conductors m' = conductors m; mi_N : cells m' = cells m;
  mi_dt : step_dt m' = step_dt m; mi_dt0 : step_dt m0' = step_dt m0; mi_time : m_time m' = m_time m;
  mi_len : forall k, (k < cells m)%nat -> cell_len m' k = cell_len m (cells m - 1 - k);
  mi_L : forall k i j, (k < cells m)%nat -> (i < conductors m)%nat -> (j < conductors m)%nat -> L_ m' k i j = L_ m (cells m - 1 - k) i j;
  mi_R : forall k i j, (k < cells m)%nat -> (i < conductors m)%nat -> (j < conductors m)%nat -> R_ m' k i j = R_ m (cells m - 1 - k) i j;
  mi_C : forall k i j, (k <= cells m)%nat -> (i < conductors m)%nat -> (j < conductors m)%nat -> C_ m' k i j = C_ m (cells m - k) i j;
  mi_G : forall k i j, (k <= cells m)%nat -> (i < conductors m)%nat -> (j < conductors m)%nat -> G_ m' k i j = G_ m (cells m - k) i j;
  mi_G0 : forall i j, (i < conductors m)%nat -> (j < conductors m)%nat -> G_ m0' 0 i j = G_ m0 (cells m) i j /\ G_ m0' (cells m) i j = G_ m0 0 i j;
  mi_Z : forall i j, (i < conductors m)%nat -> (j < conductors m)%nat -> Zs_ m' i j = Zl_ m i j /\ Zl_ m' i j = Zs_ m i j;
  mi_src : forall c t, (c < conductors m)%nat -> source m' c 0 t = source m c (cells m) t /\ source m' c (cells m) t = source m c 0 t;
  mi_eT : forall c k t, (c < conductors m)%nat -> (k <= cells m)%nat -> eTran m' c k t = eTran m c (cells m - k) t;
  mi_eL : forall c k t, (c < conductors m)%nat -> (k < cells m)%nat -> eLong m' c k t = - eLong m c (cells m - 1 - k) t
}.

(** no coupling between the conductors of [m] *)
Definition diagonal (n : nat) (A : nat -> nat -> R) : Prop := forall i j, (i < n)%nat -> (j < n)%nat -> i <> j -> A i j = 0.
Record uncoupled (m0 m : mtl NumR) : Prop := {
  un_L : forall k, (k < cells m)%nat -> diagonal (conductors m) (L_ m k);
  un_R : forall k, (k < cells m)%nat -> diagonal (conductors m) (R_ m k);
  un_C : forall k, (k <= cells m)%nat -> diagonal (conductors m) (C_ m k);
  un_G : forall k, (k <= cells m)%nat -> diagonal (conductors m) (G_ m k);
  un_G0 : diagonal (conductors m) (G_ m0 0) /\ diagonal (conductors m) (G_ m0 (cells m));
  un_Z : diagonal (conductors m) (Zs_ m) /\ diagonal (conductors m) (Zl_ m)
}.
(** the single-conductor line [m'] is conductor [c] of [m] *)
Record is_conductor (c : nat) (m0 m m0' m' : mtl NumR) : Prop := {
  ic_n : conductors m' = 1%nat; ic_N : cells m' = cells m;
  ic_dt : step_dt m' = step_dt m; ic_dt0 : step_dt m0' = step_dt m0; ic_time : m_time m' = m_time m;
  ic_len : forall k, (k < cells m)%nat -> cell_len m' k = cell_len m k;
  ic_L : forall k, (k < cells m)%nat -> L_ m' k 0 0 = L_ m k c c;
  ic_R : forall k, (k < cells m)%nat -> R_ m' k 0 0 = R_ m k c c;
  ic_C : forall k, (k <= cells m)%nat -> C_ m' k 0 0 = C_ m k c c;
  ic_G : forall k, (k <= cells m)%nat -> G_ m' k 0 0 = G_ m k c c;
  ic_G0 : G_ m0' 0 0 0 = G_ m0 0 c c /\ G_ m0' (cells m) 0 0 = G_ m0 (cells m) c c;
  ic_Z : Zs_ m' 0 0 = Zs_ m c c /\ Zl_ m' 0 0 = Zl_ m c c;
  ic_src : forall t, source m' 0 0 t = source m c 0 t /\ source m' 0 (cells m) t = source m c (cells m) t;
  ic_eT : forall k t, (k <= cells m)%nat -> eTran m' 0 k t = eTran m c k t;
  ic_eL : forall k t, (k < cells m)%nat -> eLong m' 0 k t = eLong m c k t
}.

(** [s] permutes 0..n-1 *)
Definition permutes (n : nat) (s : nat -> nat) : Prop :=
  (forall i, (i < n)%nat -> (s i < n)%nat) /\ (forall i j, (i < n)%nat -> (j < n)%nat -> s i = s j -> i = j).
(** conductor [i] of [m'] is conductor [s i] of [m] *)
Record relabelled (s : nat -> nat) (m0 m m0' m' : mtl NumR) : Prop := {
  re_n : conductors m' = conductors m; re_N : cells m' = cells m;
  re_dt : step_dt m' = step_dt m; re_dt0 : step_dt m0' = step_dt m0; re_time : m_time m' = m_time m;
  re_len : forall k, (k < cells m)%nat -> cell_len m' k = cell_len m k;
  re_L : forall k i j, (k < cells m)%nat -> (i < conductors m)%nat -> (j < conductors m)%nat -> L_ m' k i j = L_ m k (s i) (s j);
  re_R : forall k i j, (k < cells m)%nat -> (i < conductors m)%nat -> (j < conductors m)%nat -> R_ m' k i j = R_ m k (s i) (s j);
  re_C : forall k i j, (k <= cells m)%nat -> (i < conductors m)%nat -> (j < conductors m)%nat -> C_ m' k i j = C_ m k (s i) (s j);
  re_G : forall k i j, (k <= cells m)%nat -> (i < conductors m)%nat -> (j < conductors m)%nat -> G_ m' k i j = G_ m k (s i) (s j);
  re_G0 : forall i j, (i < conductors m)%nat -> (j < conductors m)%nat -> G_ m0' 0 i j = G_ m0 0 (s i) (s j) /\ G_ m0' (cells m) i j = G_ m0 (cells m) (s i) (s j);
  re_Z : forall i j, (i < conductors m)%nat -> (j < conductors m)%nat -> Zs_ m' i j = Zs_ m (s i) (s j) /\ Zl_ m' i j = Zl_ m (s i) (s j);
  re_src : forall i t, (i < conductors m)%nat -> source m' i 0 t = source m (s i) 0 t /\ source m' i (cells m) t = source m (s i) (cells m) t;
  re_eT : forall i k t, (i < conductors m)%nat -> (k <= cells m)%nat -> eTran m' i k t = eTran m (s i) k t;
  re_eL : forall i k t, (i < conductors m)%nat -> (k < cells m)%nat -> eLong m' i k t = eLong m (s i) k t
}.
