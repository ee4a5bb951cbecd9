(** Vocabulary of the line theorems: which lines are reachable, what can be observed, and
    what "step number k of run_until(T)" means.  No proofs here. *)
From Coq Require Import String List Arith ZArith Bool.
From Verif Require Import Num Py Arr Probes Dispersive Line.
Import ListNotations.

Section SpecLine.
Context {N : num}.
Local Open Scope num_scope.
Variable LA : lapack N.

(** [built m]: the constructor returned [m] for some arguments *)
Definition built (m : mtl N) : Prop :=
  exists ju jdu l c r g len np ndiv zs zl name,
    mtl_new LA ju jdu l c r g len np ndiv zs zl name = Ok m.

(** [history m0 m]: [m0] was returned by the constructor and [m] is what it has become
    after any sequence of method calls that did not raise. *)
Inductive history (m0 : mtl N) : mtl N -> Prop :=
| h_new : built m0 -> history m0 m0
| h_time_step m NDT T : history m0 m -> history m0 (set_time_step m NDT T)
| h_resistance m a b c R m' : history m0 m ->
    set_resistance_in_region LA m a b c R = Ok m' -> history m0 m'
| h_conductance m a b c G m' : history m0 m ->
    add_conductance_in_region LA m a b c G = Ok m' -> history m0 m'
| h_source m p c f m' : history m0 m -> add_voltage_source m p c f = Ok m' -> history m0 m'
| h_field m eL eT : history m0 m -> history m0 (m_set_core m (set_fields (m_core m) eL eT))
| h_probe m p ty m' : history m0 m -> add_probe m p ty = Ok m' -> history m0 m'
| h_connector m p c model m' : history m0 m ->
    mtl_add_dispersive_connector m p c model = Ok m' -> history m0 m'
| h_step m m' : history m0 m -> mtl_step m = Ok m' -> history m0 m'
| h_run m T m' : history m0 m -> run_until LA m T = Ok m' -> history m0 m'
| h_copy m : history m0 m -> history m0 (create_clean_copy m).

(** a line some program can hold *)
Definition reachable (m : mtl N) : Prop := exists m0, history m0 m.

(** [run_step m T k a b]: [run_until(T)] called on [m] reaches state [a] after [k] of its
    steps, and its next step leads to [b]. *)
Definition run_step (m : mtl N) (T : N) (k : nat) (a b : mtl N) : Prop :=
  exists steps p, time_range_len T (k_dt (m_core m)) = Ok steps /\ (k < steps)%nat /\
    mtl_prepare LA m steps = Ok p /\ iterM k mtl_step p = Ok a /\ mtl_step a = Ok b.

(** [run_state m T k a]: [run_until(T)] called on [m] reaches state [a] after [k] steps. *)
Definition run_state (m : mtl N) (T : N) (k : nat) (a : mtl N) : Prop :=
  exists steps p, time_range_len T (k_dt (m_core m)) = Ok steps /\ (k <= steps)%nat /\
    mtl_prepare LA m steps = Ok p /\ iterM k mtl_step p = Ok a.

(** observables: conductor [c], node or cell [k] *)
Definition conductors (m : mtl N) : nat := k_n (m_core m).
Definition cells (m : mtl N) : nat := k_N (m_core m).
Definition volt (m : mtl N) (c k : nat) : N := get2 (k_v (m_core m)) c k.
Definition curr (m : mtl N) (c k : nat) : N := get2 (k_i (m_core m)) c k.
Definition cell_len (m : mtl N) (k : nat) : N := get3 (k_h (m_core m)) k 0 0.
Definition L_ (m : mtl N) (k i j : nat) : N := get3 (k_l (m_core m)) k i j.
Definition R_ (m : mtl N) (k i j : nat) : N := get3 (k_r (m_core m)) k i j.
Definition C_ (m : mtl N) (k i j : nat) : N := get3 (k_c (m_core m)) k i j.
Definition G_ (m : mtl N) (k i j : nat) : N := get3 (k_g (m_core m)) k i j.
Definition step_dt (m : mtl N) : N := k_dt (m_core m).
(** external field terms and terminal sources of conductor [c] at cell/node [k] and time [t] *)
Definition eLong (m : mtl N) (c k : nat) (t : N) : N := nth k (nth c (k_eL (m_core m)) []) (fun _ => n0) t.
Definition eTran (m : mtl N) (c k : nat) (t : N) : N := nth k (nth c (k_eT (m_core m)) []) (fun _ => n0) t.
Definition source (m : mtl N) (c k : nat) (t : N) : N := nth k (nth c (m_vsrc m) []) (fun _ => n0) t.
(** dispersive entries of cell [k]: constant, proportional, summed pole weights, history *)
Definition D_ (m : mtl N) (k i j : nat) : N := get3 (ds_d (k_disp (m_core m))) k i j.
Definition E_ (m : mtl N) (k i j : nat) : N := get3 (ds_e (k_disp (m_core m))) k i j.
Definition Q1_ (m : mtl N) (k i j : nat) : N := get3 (ds_q1sum (k_disp (m_core m))) k i j.
Definition Q2_ (m : mtl N) (k i j : nat) : N := get3 (ds_q2sum (k_disp (m_core m))) k i j.
Definition hist_ (m : mtl N) (k c : nat) : N := get2 (ds_q3phi (k_disp (m_core m))) k c.
(** the dispersive part is as the constructor left it: no connector was added *)
Definition undispersed (m : mtl N) : Prop :=
  exists u dt, k_disp (m_core m) = disp_new (conductors m) (cells m) u dt.
(** terminal impedances *)
Definition Zs_ (m : mtl N) (i j : nat) : N := get2 (m_zs m) i j.
Definition Zl_ (m : mtl N) (i j : nat) : N := get2 (m_zl m) i j.

End SpecLine.
