(** Vocabulary of the theorems on networks of lines (class MTLN): which ones are reachable and
    what can be observed of them.  No proofs here. *)
From Coq Require Import String List Arith ZArith Bool Permutation.
From Verif Require Import Num Py Arr Utils Probes Dispersive Line Bundle Networks Mtln SpecLine SpecBundle SpecNet.
Import ListNotations.

Section SpecMtln.
Context {N : num}.
Local Open Scope num_scope.
Variable LA : lapack N.
Implicit Types x y : mtln N.

(** a tiered network some program can hold: every level is a reachable network *)
Definition tiers (d : networkd N) : list (network N) := map snd d.
Definition net_reachable (d : networkd N) : Prop := Forall (fun w => exists ds, net_history LA ds w) (tiers d).

(** the bundle registered under a name, and all the networks, of a network of lines *)
Definition bundle_of x (name : string) : option (bundle N) := dget String.eqb name (t_bundles x).
Definition nets x : list (network N) := flat_map tiers (t_networks x).

(** the user assigns [x.dt] *)
Definition with_dt x (dt : N) : mtln N := {| t_bundles := t_bundles x; t_networks := t_networks x; t_dt := dt; t_time := t_time x |}.
(** the user calls methods of a bundle after registering it *)
Definition with_bundle x (name : string) (b : bundle N) : mtln N := t_set x (dset String.eqb name b (t_bundles x)) (t_networks x).

(** [lines_net x]: some program can hold [x] *)
Inductive lines_net : mtln N -> Prop :=
| ln_empty : lines_net mtln_empty
| ln_bundle x b x' : lines_net x -> reachable_bundle LA b -> add_bundle x b = Ok x' -> lines_net x'
| ln_network x d x' : lines_net x -> net_reachable d -> add_network x d = Ok x' -> lines_net x'
| ln_networks x ds : lines_net x -> Forall net_reachable ds -> lines_net (add_networks x ds)
| ln_dt x dt : lines_net x -> lines_net (with_dt x dt)
| ln_edit x name b b' : lines_net x -> bundle_of x name = Some b ->
    (forall b0, bundle_history LA b0 b -> bundle_history LA b0 b') -> lines_net (with_bundle x name b')
| ln_step x x' : lines_net x -> mtln_step LA x = Ok x' -> lines_net x'
| ln_run x T dt x' : lines_net x -> mtln_run_until LA x T dt = Ok x' -> lines_net x'.

(** [reaches x T dt k y]: [run_until(T, dt)] called on [x] reaches state [y] after [k] of its steps *)
Definition reaches x (T dt : N) (k : nat) y : Prop :=
  exists ws steps p, let x0 := override_dt x dt in
    mapM (fun w => nwd_compute_v_terms w (t_dt x0)) (t_networks x0) = Ok ws /\
    time_range_len T (t_dt x0) = Ok steps /\ (k <= steps)%nat /\
    mtln_prepare LA (t_set x0 (t_bundles x0) ws) steps = Ok p /\ iterM k (mtln_step LA) p = Ok y.
(** [steps_to x T dt k y z]: and its next step leads to [z] *)
Definition steps_to x (T dt : N) (k : nat) y z : Prop :=
  reaches x T dt k y /\ mtln_step LA y = Ok z /\ reaches x T dt (S k) z.

(** some network writes the voltage of row [r], position [k] of the bundle [b] named [name] *)
Definition driven_by (l : list (network N)) (name : string) (b : bundle N) (r k : nat) : Prop :=
  exists w kn, In w l /\ In kn (w_conns w) /\ writes b name kn r k.
(** two networks write to different places *)
Definition apart (w w' : network N) : Prop :=
  forall kn kn', In kn (w_conns w) -> In kn' (w_conns w') ->
    ~ (nd_bundle (snd kn) = nd_bundle (snd kn') /\ nd_row (snd kn) = nd_row (snd kn') /\ nd_end (snd kn) = nd_end (snd kn')).

(** time stamp [t] and row [row] are what probe [p] must record of bundle [b] at time [now] *)
Definition frame_at (p : probe N) (b : bundle N) (now t : N) (row : list N) : Prop :=
  length row = b_conductors b /\
  (p_type p = "voltage"%string /\ t = now /\
     (forall c, (c < b_conductors b)%nat -> nth c row n0 = b_volt b c (p_index p))
   \/ p_type p = "current"%string /\ t = now + p_dt p / n2 /\
     (forall c, (c < b_conductors b)%nat -> nth c row n0 = b_curr b c (if (p_index p =? b_cells b)%nat then (p_index p - 1)%nat else p_index p))).
(** the rows a user reads from probe [p] of bundle [b] *)
Definition b_rows (b : bundle N) (p : probe N) : list (list N) := probe_rows p (b_conductors b) (k_v (b_core b)) (k_i (b_core b)).

(** the same bundles in another order, and the same networks in another order *)
Definition reordered x x' : Prop :=
  Permutation (t_bundles x) (t_bundles x') /\ Permutation (t_networks x) (t_networks x') /\ t_dt x' = t_dt x /\ t_time x' = t_time x.
(** networks (of different list items) write to different places *)
Definition disjoint_ends x : Prop :=
  ForallOrdPairs (fun d d' => forall w w', In w (tiers d) -> In w' (tiers d') -> apart w w') (t_networks x).
End SpecMtln.
