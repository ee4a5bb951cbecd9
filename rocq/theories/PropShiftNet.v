(** Property C116: causality and time invariance of networks of lines.  Real arithmetic.
    [reaches LA x T dt k x']: run_until(T, dt) called on [x] is in state [x'] after [k] steps.
    [t_dt (override_dt x dt)] is the time step of that run: [dt], or the network's own if [dt]
    is zero.  The words of the statements are defined in SpecShiftNet.v. *)
From Coq Require Import String List Arith ZArith Bool Lia Reals Lra.
From Verif Require Import Num Py Arr NumR LapackR Utils Line Bundle Networks Mtln SpecLine SpecBundle SpecNet SpecMtln SpecTele SpecDyn SpecSuper
  SpecShiftNet SuperNet SuperNet2 ExampleSuper ShiftNet ExampleShiftNet.
Import ListNotations.
Local Open Scope R_scope.

(** A network whose voltages, currents, memories and state variables are zero stays so through
    every step that ends no later than its first field or source acts. *)
Theorem C116_quiet (LA : lapack NumR) x (T dt t1 : R) k x' : lapack_ok LA -> regular LA -> lines_net LA x -> 0 < t_dt (override_dt x dt) ->
  lines_still x -> lines_off t1 x -> t_time x + INR k * t_dt (override_dt x dt) <= t1 -> reaches LA x T dt k x' -> lines_still x'.
Proof. exact (fun A Rg L => lines_quiet LA A x T dt t1 k x' L (or_introl Rg)). Qed.
Print Assumptions C116_quiet.
Theorem C116_quiet_rc (LA : lapack NumR) x (T dt t1 : R) k x' : lapack_ok LA -> lines_net LA x ->
  (forall w, In w (nets x) -> exists ds, rc_circuit LA ds w) -> 0 < dt \/ dt = 0 /\ 0 < t_dt x ->
  lines_still x -> lines_off t1 x -> t_time x + INR k * t_dt (override_dt x dt) <= t1 -> reaches LA x T dt k x' -> lines_still x'.
Proof. exact (fun A L C D => lines_quiet LA A x T dt t1 k x' L (or_intror (conj C D)) (step_pos x dt D)). Qed.
Print Assumptions C116_quiet_rc.

(** Causality: two networks that are equal except for what their fields and sources do at and
    after [t1] are in the same state after every step that ends at or before [t1]. *)
Theorem C116_causality (LA : lapack NumR) x y (T T' dt t1 : R) k a b : lapack_ok LA -> regular LA -> lines_net LA x -> lines_net LA y -> 0 < t_dt (override_dt x dt) ->
  alike_before t1 x y -> t_time x + INR k * t_dt (override_dt x dt) <= t1 -> reaches LA x T dt k a -> reaches LA y T' dt k b ->
  same_state a b /\ alike_before t1 a b.
Proof. exact (fun A Rg Lx Ly => lines_causal' LA A x y T T' dt t1 k a b Lx Ly (or_introl Rg)). Qed.
Print Assumptions C116_causality.
Theorem C116_causality_rc (LA : lapack NumR) x y (T T' dt t1 : R) k a b : lapack_ok LA -> lines_net LA x -> lines_net LA y ->
  (forall w, In w (nets x) -> exists ds, rc_circuit LA ds w) -> 0 < dt \/ dt = 0 /\ 0 < t_dt x ->
  alike_before t1 x y -> t_time x + INR k * t_dt (override_dt x dt) <= t1 -> reaches LA x T dt k a -> reaches LA y T' dt k b ->
  same_state a b /\ alike_before t1 a b.
Proof. exact (fun A Lx Ly C D => lines_causal' LA A x y T T' dt t1 k a b Lx Ly (or_intror (conj C D)) (step_pos x dt D)). Qed.
Print Assumptions C116_causality_rc.

(** Time invariance: [y] is [x] with every field and source delayed by [k] time steps: after
    [k + n] steps it is in the state [x] is in after [n], wherever the two runs end. *)
Theorem C116_time_invariance (LA : lapack NumR) x y (T T' dt : R) k n a b : lapack_ok LA -> regular LA -> lines_net LA x -> lines_net LA y -> 0 < t_dt (override_dt x dt) ->
  lines_still x -> lines_off (t_time x) x -> Forall (fun kb => single_poled (snd kb)) (t_bundles y) -> lines_delayed (INR k * t_dt (override_dt x dt)) x y ->
  reaches LA x T dt n a -> reaches LA y T' dt (k + n) b -> same_state a b /\ t_time b = t_time a + INR k * t_dt (override_dt x dt).
Proof. exact (fun A Rg Lx Ly => lines_delay LA A x y T T' dt k n a b Lx Ly (or_introl Rg)). Qed.
Print Assumptions C116_time_invariance.
Theorem C116_time_invariance_rc (LA : lapack NumR) x y (T T' dt : R) k n a b : lapack_ok LA -> lines_net LA x -> lines_net LA y ->
  (forall w, In w (nets x) -> exists ds, rc_circuit LA ds w) -> 0 < dt \/ dt = 0 /\ 0 < t_dt x ->
  lines_still x -> lines_off (t_time x) x -> Forall (fun kb => single_poled (snd kb)) (t_bundles y) -> lines_delayed (INR k * t_dt (override_dt x dt)) x y ->
  reaches LA x T dt n a -> reaches LA y T' dt (k + n) b -> same_state a b /\ t_time b = t_time a + INR k * t_dt (override_dt x dt).
Proof. exact (fun A Lx Ly C D => lines_delay LA A x y T T' dt k n a b Lx Ly (or_intror (conj C D)) (step_pos x dt D)). Qed.
Print Assumptions C116_time_invariance_rc.

(** How such networks arise: circuits described by the same calls with sources driven alike,
    and networks of lines put together from bundles and circuits driven alike. *)
Theorem C116_calls (tau : R) (seen : R -> Prop) ds (w0 : network NumR) a b u v : network_new ds = Ok w0 -> (forall i t, (i < w_nodes w0)%nat -> nField w0 i t = 0) ->
  Forall2 (call_alike tau seen) a b -> do_calls w0 a = Ok u -> do_calls w0 b = Ok v -> circuit_driven tau seen u v.
Proof. exact (calls_alike tau seen ds w0 a b u v). Qed.
Print Assumptions C116_calls.
Theorem C116_built (tau : R) (seen : R -> Prop) a b d e x y : Forall2 (bundle_alike tau seen) a b -> Forall2 (matched (circuit_driven tau seen)) d e ->
  mtln_new a d = Ok x -> mtln_new b e = Ok y -> driven_alike tau seen x y.
Proof. exact (new_alike tau seen a b d e x y). Qed.
Print Assumptions C116_built.

(** a line with a source behind 50 ohm at one end and 25 ohm at the other; the source is
    switched on at time 0, or two steps of 1/2 later; the states after three and five steps *)
Example C116_example : exists m b w1 w2 x v1 v2 y a c, one m b /\ lone m b switched_on 0 w1 w2 x /\ lone m b later 0 v1 v2 y /\
  lapack_ok LR /\ regular LR /\ lines_net LR x /\ lines_net LR y /\ (forall w, In w (nets x) -> exists ds, rc_circuit LR ds w) /\
  t_dt (override_dt x (1/2)) = 1/2 /\ t_time x = 0 /\ lines_still x /\ lines_off 0 x /\ lines_still y /\ lines_off 1 y /\ Forall (fun kb => single_poled (snd kb)) (t_bundles y) /\
  lines_delayed (INR 2 * (1/2)) x y /\ alike_before 0 x y /\ reaches LR x 5 (1/2) 3 a /\ reaches LR y 5 (1/2) (2 + 3) c /\ same_state a c.
Proof. exact shift_net_example. Qed.
(** two sources that part at time 1: alike before 1, two steps of 1/2 *)
Example C116_causality_example : exists m b w1 w2 x v1 v2 y a c, one m b /\ lone m b switched_on 0 w1 w2 x /\ lone m b doubled 0 v1 v2 y /\
  lapack_ok LR /\ regular LR /\ lines_net LR x /\ lines_net LR y /\ t_dt (override_dt x (1/2)) = 1/2 /\ t_time x = 0 /\
  alike_before 1 x y /\ reaches LR x 5 (1/2) 2 a /\ reaches LR y 5 (1/2) 2 c.
Proof. exact causal_net_example. Qed.
