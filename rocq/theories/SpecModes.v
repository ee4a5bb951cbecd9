(** When the voltages and currents of one line are linear combinations of those of another.  No proofs here. *)
From Coq Require Import List Arith Reals.
From Verif Require Import Num Py Arr NumR Line SpecLine SpecR.
Local Open Scope R_scope.

(** [A X = Y B]: [X] square of size [n], [Y] square of size [n'], [A] and [B] with [n'] rows and [n] columns *)
Definition intertwined (n n' : nat) (A X Y B : nat -> nat -> R) : Prop :=
  forall i j, (i < n')%nat -> (j < n)%nat -> sumR n (fun p => A i p * X p j) = sumR n' (fun p => Y i p * B p j).
(** [combination n A x i]: the combination of x 0 .. x (n-1) given by row [i] of [A] *)
Definition combination (n : nat) (A : nat -> nat -> R) (x : nat -> R) (i : nat) : R := sumR n (fun p => A i p * x p).

(** [m'] is the line of the voltages V' = [TV] V and the currents I' = [TI] I of [m]: with L', R', C', G', Z' the
    parameters of [m'],  TV L = L' TI,  TV R = R' TI,  TI C = C' TV,  TI G = G' TV,  TV Z = Z' TI,  and the
    generators and fields of [m'] are those of [m] combined by [TV]. *)
Record transformed (TV TI : nat -> nat -> R) (m0 m m0' m' : mtl NumR) : Prop := {
  tr_N : cells m' = cells m;
  tr_dt : step_dt m' = step_dt m; tr_dt0 : step_dt m0' = step_dt m0; tr_time : m_time m' = m_time m;
  tr_len : forall k, (k < cells m)%nat -> cell_len m' k = cell_len m k;
  tr_L : forall k, (k < cells m)%nat -> intertwined (conductors m) (conductors m') TV (L_ m k) (L_ m' k) TI;
  tr_R : forall k, (k < cells m)%nat -> intertwined (conductors m) (conductors m') TV (R_ m k) (R_ m' k) TI;
  tr_C : forall k, (k <= cells m)%nat -> intertwined (conductors m) (conductors m') TI (C_ m k) (C_ m' k) TV;
  tr_G : forall k, (k <= cells m)%nat -> intertwined (conductors m) (conductors m') TI (G_ m k) (G_ m' k) TV;
  tr_G0 : intertwined (conductors m) (conductors m') TI (G_ m0 0) (G_ m0' 0) TV /\
          intertwined (conductors m) (conductors m') TI (G_ m0 (cells m)) (G_ m0' (cells m)) TV;
  tr_Z : intertwined (conductors m) (conductors m') TV (Zs_ m) (Zs_ m') TI /\ intertwined (conductors m) (conductors m') TV (Zl_ m) (Zl_ m') TI;
  tr_src : forall c t, (c < conductors m')%nat ->
    source m' c 0 t = combination (conductors m) TV (fun p => source m p 0 t) c /\
    source m' c (cells m) t = combination (conductors m) TV (fun p => source m p (cells m) t) c;
  tr_eT : forall c k t, (c < conductors m')%nat -> (k <= cells m)%nat -> eTran m' c k t = combination (conductors m) TV (fun p => eTran m p k t) c;
  tr_eL : forall c k t, (c < conductors m')%nat -> (k < cells m)%nat -> eLong m' c k t = combination (conductors m) TV (fun p => eLong m p k t) c
}.

(** the states of [m'] are those of [m] combined *)
Definition combined (TV TI : nat -> nat -> R) (m m' : mtl NumR) : Prop :=
  (forall c k, (c < conductors m')%nat -> (k <= cells m)%nat -> volt m' c k = combination (conductors m) TV (fun p => volt m p k) c) /\
  (forall c k, (c < conductors m')%nat -> (k < cells m)%nat -> curr m' c k = combination (conductors m) TI (fun p => curr m p k) c).

(** *** two equal conductors *)
(** both conductors have the same parameters; [s] = 1: their sum (common mode), [s] = -1: their difference *)
Definition twin (A : nat -> nat -> R) : Prop := A 1%nat 1%nat = A 0%nat 0%nat /\ A 1%nat 0%nat = A 0%nat 1%nat.
Record twins (m0 m : mtl NumR) : Prop := {
  tw_n : conductors m = 2%nat;
  tw_L : forall k, (k < cells m)%nat -> twin (L_ m k); tw_R : forall k, (k < cells m)%nat -> twin (R_ m k);
  tw_C : forall k, (k <= cells m)%nat -> twin (C_ m k); tw_G : forall k, (k <= cells m)%nat -> twin (G_ m k);
  tw_G0 : twin (G_ m0 0) /\ twin (G_ m0 (cells m)); tw_Z : twin (Zs_ m) /\ twin (Zl_ m)
}.
(** [m'] is the single line of that mode *)
Record is_mode (s : R) (m0 m m0' m' : mtl NumR) : Prop := {
  md_n : conductors m' = 1%nat; md_N : cells m' = cells m;
  md_dt : step_dt m' = step_dt m; md_dt0 : step_dt m0' = step_dt m0; md_time : m_time m' = m_time m;
  md_len : forall k, (k < cells m)%nat -> cell_len m' k = cell_len m k;
  md_L : forall k, (k < cells m)%nat -> L_ m' k 0 0 = L_ m k 0 0 + s * L_ m k 0 1;
  md_R : forall k, (k < cells m)%nat -> R_ m' k 0 0 = R_ m k 0 0 + s * R_ m k 0 1;
  md_C : forall k, (k <= cells m)%nat -> C_ m' k 0 0 = C_ m k 0 0 + s * C_ m k 0 1;
  md_G : forall k, (k <= cells m)%nat -> G_ m' k 0 0 = G_ m k 0 0 + s * G_ m k 0 1;
  md_G0 : G_ m0' 0 0 0 = G_ m0 0 0 0 + s * G_ m0 0 0 1 /\ G_ m0' (cells m) 0 0 = G_ m0 (cells m) 0 0 + s * G_ m0 (cells m) 0 1;
  md_Z : Zs_ m' 0 0 = Zs_ m 0 0 + s * Zs_ m 0 1 /\ Zl_ m' 0 0 = Zl_ m 0 0 + s * Zl_ m 0 1;
  md_src : forall t, source m' 0 0 t = source m 0 0 t + s * source m 1 0 t /\ source m' 0 (cells m) t = source m 0 (cells m) t + s * source m 1 (cells m) t;
  md_eT : forall k t, (k <= cells m)%nat -> eTran m' 0 k t = eTran m 0 k t + s * eTran m 1 k t;
  md_eL : forall k t, (k < cells m)%nat -> eLong m' 0 k t = eLong m 0 k t + s * eLong m 1 k t
}.
(** the two conductors are driven by [s] times each other *)
Record driven_alike (s : R) (m : mtl NumR) : Prop := {
  da_src : forall t, source m 1 0 t = s * source m 0 0 t /\ source m 1 (cells m) t = s * source m 0 (cells m) t;
  da_eT : forall k t, (k <= cells m)%nat -> eTran m 1 k t = s * eTran m 0 k t;
  da_eL : forall k t, (k < cells m)%nat -> eLong m 1 k t = s * eLong m 0 k t;
  da_volt : forall k, (k <= cells m)%nat -> volt m 1 k = s * volt m 0 k; da_curr : forall k, (k < cells m)%nat -> curr m 1 k = s * curr m 0 k
}.

(** *** impedance level *)
(** [m'] has all impedances of [m] multiplied by [a] *)
Record rescaled (a : R) (m0 m m0' m' : mtl NumR) : Prop := {
  rc_n : conductors m' = conductors m; rc_N : cells m' = cells m;
  rc_dt : step_dt m' = step_dt m; rc_dt0 : step_dt m0' = step_dt m0; rc_time : m_time m' = m_time m;
  rc_len : forall k, (k < cells m)%nat -> cell_len m' k = cell_len m k;
  rc_L : forall k i j, (k < cells m)%nat -> (i < conductors m)%nat -> (j < conductors m)%nat -> L_ m' k i j = a * L_ m k i j;
  rc_R : forall k i j, (k < cells m)%nat -> (i < conductors m)%nat -> (j < conductors m)%nat -> R_ m' k i j = a * R_ m k i j;
  rc_C : forall k i j, (k <= cells m)%nat -> (i < conductors m)%nat -> (j < conductors m)%nat -> C_ m' k i j = C_ m k i j / a;
  rc_G : forall k i j, (k <= cells m)%nat -> (i < conductors m)%nat -> (j < conductors m)%nat -> G_ m' k i j = G_ m k i j / a;
  rc_G0 : forall i j, (i < conductors m)%nat -> (j < conductors m)%nat -> G_ m0' 0 i j = G_ m0 0 i j / a /\ G_ m0' (cells m) i j = G_ m0 (cells m) i j / a;
  rc_Z : forall i j, (i < conductors m)%nat -> (j < conductors m)%nat -> Zs_ m' i j = a * Zs_ m i j /\ Zl_ m' i j = a * Zl_ m i j;
  rc_src : forall c t, (c < conductors m)%nat -> source m' c 0 t = source m c 0 t /\ source m' c (cells m) t = source m c (cells m) t;
  rc_eT : forall c k t, (c < conductors m)%nat -> (k <= cells m)%nat -> eTran m' c k t = eTran m c k t;
  rc_eL : forall c k t, (c < conductors m)%nat -> (k < cells m)%nat -> eLong m' c k t = eLong m c k t
}.
