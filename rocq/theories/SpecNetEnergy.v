(** Energy of a network of lines: what the lines and the capacitors store, what the resistors
    lose.  No proofs here. *)
From Coq Require Import String List Arith ZArith Bool Permutation Reals.
From Verif Require Import Num Py Arr NumR RFacts Utils Probes Dispersive Line Bundle Networks Mtln SpecLine SpecR SpecBundle SpecCore SpecDisp SpecNet SpecMtln SpecEnergy SpecTele.
Import ListNotations.
Local Open Scope R_scope.

(** sum of [f] over a list *)
Definition total {A : Type} (f : A -> R) (l : list A) : R := fold_right (fun a s => f a + s) 0 l.

(** *** lines *)
(** voltages and currents of all conductors of a bundle at a node or in a cell *)
Definition bV (b : bundle NumR) (k c : nat) : R := b_volt b c k.
Definition bI (b : bundle NumR) (k c : nat) : R := b_curr b c k.
(** length of line that belongs to node [k]: half of each cell that touches it *)
Definition b_share (b : bundle NumR) (k : nat) : R :=
  if (k =? 0)%nat then klen (b_core b) 0 / 2
  else if (k =? b_cells b)%nat then klen (b_core b) (b_cells b - 1) / 2
  else (klen (b_core b) (k - 1) + klen (b_core b) k) / 2.
(** electric energy of the nodes and magnetic energy of the cells *)
Definition b_stored (b : bundle NumR) : R :=
  sumR (S (b_cells b)) (fun k => b_share b k * quad (b_conductors b) (kC (b_core b) k) (bV b k)) / 2
  + sumR (b_cells b) (fun k => klen (b_core b) k * quad (b_conductors b) (kL (b_core b) k) (bI b k)) / 2.
(** the energy the scheme balances: voltages are half a step older than currents *)
Definition b_energy (dt : R) (b : bundle NumR) : R :=
  b_stored b + dt / 2 * sumR (b_cells b) (fun k => dot (b_conductors b) (bI b k) (fun c => bV b (S k) c - bV b k c)).
(** losses of a step: in the resistance of the cells and in the conductance of the interior nodes *)
Definition b_lost_R (dt : R) (b b' : bundle NumR) : R :=
  dt * sumR (b_cells b) (fun k => klen (b_core b) k * quad (b_conductors b) (kR (b_core b) k) (fun c => (bI b' k c + bI b k c) / 2)).
Definition b_lost_G (dt : R) (b b' : bundle NumR) : R :=
  dt * sumR (b_cells b - 1) (fun k => b_share b (S k) * quad (b_conductors b) (kG (b_core b) (S k)) (fun c => (bV b' (S k) c + bV b (S k) c) / 2)).

(** *** circuits: [nG] holds the conductances and [nQ] the capacitances with the sign of a current
    that enters the node, so both are negative on a passive circuit *)
(** energy of the capacitors, charged to the mean of the last two voltages *)
Definition w_stored (w : network NumR) : R := - quad (w_nodes w) (nQ w) (fun i => (nV w i + nVprev w i) / 2) / 2.
(** losses of a step from [w] to [w']: in the resistors, and numerical loss in the capacitors *)
Definition w_lost_R (dt : R) (w w' : network NumR) : R := - (dt * quad (w_nodes w) (nG w) (fun i => (nV w' i + nV w i) / 2)).
Definition w_lost_C (w w' : network NumR) : R := - quad (w_nodes w) (nQ w) (fun i => (nV w' i - nVprev w i) / 2) / 2.
(** current that sources and state variables drive into node [i] at time [t] *)
Definition driven_current (w : network NumR) (dt t : R) (x : nat -> R) (i : nat) : R :=
  circuit_current w dt (fun _ => 0) (fun _ => 0) x (fun j => nSrc w j t) (fun j => nSrc w j (t - dt)) i.
(** the work this current does in the step that ends at time [t] *)
Definition w_work (dt t : R) (w w' : network NumR) : R :=
  dt * sumR (w_nodes w) (fun i => (nV w' i + nV w i) / 2 * ((driven_current w dt t (nX w') i + driven_current w dt (t - dt) (nX w) i) / 2)).

(** *** the whole *)
Definition net_stored (x : mtln NumR) : R :=
  total (fun kb => b_stored (snd kb)) (t_bundles x) + total w_stored (nets x).
Definition net_energy (x : mtln NumR) : R :=
  total (fun kb => b_energy (t_dt x) (snd kb)) (t_bundles x) + total w_stored (nets x).
(** over the bundles (the circuits) of two states of the same network of lines *)
Definition over_bundles (f : bundle NumR -> bundle NumR -> R) (x y : mtln NumR) : R :=
  total (fun p => f (snd (fst p)) (snd (snd p))) (combine (t_bundles x) (t_bundles y)).
Definition over_nets (f : network NumR -> network NumR -> R) (x y : mtln NumR) : R :=
  total (fun p => f (fst p) (snd p)) (combine (nets x) (nets y)).
Definition net_lost (x y : mtln NumR) : R :=
  let dt := t_dt x in
  over_bundles (b_lost_R dt) x y + over_bundles (b_lost_G dt) x y + over_nets (w_lost_R dt) x y + over_nets w_lost_C x y.
Definition net_work (x y : mtln NumR) : R := over_nets (w_work (t_dt x) (t_time x)) x y.

(** *** the wiring *)
(** an end of a conductor: bundle, row, near ([false]) or far end ([true]) *)
Definition cend : Type := (string * nat * bool)%type.
Definition cend_of (kn : Z * node) : cend := (nd_bundle (snd kn), nd_row (snd kn), nd_end (snd kn)).
Definition cends (kb : string * bundle NumR) : list cend :=
  flat_map (fun r => [(fst kb, r, false); (fst kb, r, true)]) (seq 0 (b_conductors (snd kb))).
(** every end of every conductor is one node of one circuit, and there are no other nodes *)
Definition wired (x : mtln NumR) : Prop :=
  Permutation (flat_map (fun w => map cend_of (w_conns w)) (nets x)) (flat_map cends (t_bundles x)).

(** capacitance between two conductors in the cell at an end of a bundle *)
Definition b_end_cap (b : bundle NumR) (e : bool) (r r' : nat) : R :=
  klen (b_core b) (if e then b_cells b - 1 else 0)%nat * kC (b_core b) (if e then b_cells b else 0%nat) r r'.
(** the circuits use the capacitances of the end cells of the bundles: between two nodes of a
    circuit on the same end of a bundle that of their conductors, otherwise none; and conductors
    with some capacitance between them end in the same circuit *)
Definition matched (x : mtln NumR) : Prop :=
  (forall w kn kn', In w (nets x) -> In kn (w_conns w) -> In kn' (w_conns w) ->
     forall b, bundle_of x (nd_bundle (snd kn)) = Some b ->
     nLen w (nd_index (snd kn)) * nCap w (nd_index (snd kn)) (nd_index (snd kn')) =
     if (String.eqb (nd_bundle (snd kn')) (nd_bundle (snd kn)) && Bool.eqb (nd_end (snd kn')) (nd_end (snd kn)))%bool
     then b_end_cap b (nd_end (snd kn)) (nd_row (snd kn)) (nd_row (snd kn')) else 0) /\
  (forall w kn b r', In w (nets x) -> In kn (w_conns w) -> bundle_of x (nd_bundle (snd kn)) = Some b -> (r' < b_conductors b)%nat ->
     b_end_cap b (nd_end (snd kn)) (nd_row (snd kn)) r' <> 0 ->
     exists kn', In kn' (w_conns w) /\ cend_of kn' = (nd_bundle (snd kn), r', nd_end (snd kn))).

(** the nodes hold the voltages of the conductor ends and the currents into the lines *)
Definition joined (x : mtln NumR) : Prop :=
  forall w kn, In w (nets x) -> In kn (w_conns w) -> exists b, bundle_of x (nd_bundle (snd kn)) = Some b /\
    let i := nd_index (snd kn) in let r := nd_row (snd kn) in
    if nd_end (snd kn) then nV w i = bV b (b_cells b) r /\ nI w i = - bI b (b_cells b - 1) r
    else nV w i = bV b 0 r /\ nI w i = bI b 0 r.

(** symmetric matrices, neither external field nor dispersive element *)
Record unlit_bundle (LA : lapack NumR) (b : bundle NumR) : Prop := {
  ub_C : forall k, (k <= b_cells b)%nat -> symm (b_conductors b) (kC (b_core b) k);
  ub_L : forall k, (k < b_cells b)%nat -> symm (b_conductors b) (kL (b_core b) k);
  ub_T : forall c k t, (c < b_conductors b)%nat -> (k <= b_cells b)%nat -> kTran (b_core b) c k t = 0;
  ub_E : forall c k t, (c < b_conductors b)%nat -> (k < b_cells b)%nat -> kLong (b_core b) c k t = 0;
  ub_D : forall k i j, kD (b_core b) k i j = 0 /\ kE (b_core b) k i j = 0 /\ kQ1 (b_core b) k i j = 0 /\ kQ2 (b_core b) k i j = 0;
  ub_way : exists b0, one_way LA (fun _ => False) b0 b
}.
Record unlit_net (w : network NumR) : Prop := {
  un_Q : symm (w_nodes w) (nQ w);
  un_F : forall i t, (i < w_nodes w)%nat -> nField w i t = 0
}.
(** a network of lines whose energy can be accounted for *)
Record closed (LA : lapack NumR) (x : mtln NumR) : Prop := {
  cl_wired : wired x; cl_matched : matched x;
  cl_bundles : forall name b, bundle_of x name = Some b -> unlit_bundle LA b;
  cl_nets : forall w, In w (nets x) -> unlit_net w
}.
(** every bundle marches with the step of the network of lines: given to the run, or the bundles' own *)
Definition one_step (x : mtln NumR) (dt : R) : Prop :=
  0 < dt \/ dt = 0 /\ 0 < t_dt x /\ forall name b, bundle_of x name = Some b -> k_dt (b_core b) = t_dt x.

(** nothing in it can supply energy, from time [t0] on *)
Record passive_bundle (b : bundle NumR) : Prop := {
  pv_h : forall k, (k < b_cells b)%nat -> 0 <= klen (b_core b) k;
  pv_R : forall k, (k < b_cells b)%nat -> pos_semidef (b_conductors b) (kR (b_core b) k);
  pv_G : forall k, (k <= b_cells b)%nat -> pos_semidef (b_conductors b) (kG (b_core b) k)
}.
Record passive_net (t0 : R) (w : network NumR) : Prop := {
  pt_G : forall u, quad (w_nodes w) (nG w) u <= 0;
  pt_Q : forall u, quad (w_nodes w) (nQ w) u <= 0;
  pt_ns : w_ns w = 0%nat;
  pt_src : forall i t, (i < w_nodes w)%nat -> t0 <= t -> nSrc w i t = 0
}.
Definition passive (t0 : R) (x : mtln NumR) : Prop :=
  (forall name b, bundle_of x name = Some b -> passive_bundle b) /\ (forall w, In w (nets x) -> passive_net t0 w).
(** no wave crosses a cell of the bundle in less than [dt]; the capacitance is the same along it *)
Definition b_courant (b : bundle NumR) (dt : R) : Prop :=
  (forall k x y, (k < b_cells b)%nat ->
     (dt * dot (b_conductors b) x y) ^ 2 <= klen (b_core b) k ^ 2 * (quad (b_conductors b) (kL (b_core b) k) x * quad (b_conductors b) (kC (b_core b) k) y)) /\
  (forall k i j, (k <= b_cells b)%nat -> (i < b_conductors b)%nat -> (j < b_conductors b)%nat -> kC (b_core b) k i j = kC (b_core b) 0 i j) /\
  (forall k, (k < b_cells b)%nat -> pos_semidef (b_conductors b) (kL (b_core b) k)) /\
  (forall k, (k <= b_cells b)%nat -> pos_semidef (b_conductors b) (kC (b_core b) k)).

(** *** networks of lines put together in the plain way *)
(** the line ends of a circuit, its connections to ground and then those between its nodes *)
Definition circuit : Type := (list (descr NumR) * (list (call NumR) * list (call NumR)))%type.
(** [w] is the circuit [c]: resistors and capacitors to ground, resistors between nodes, and sources *)
Definition builds (c : circuit) (w : network NumR) : Prop :=
  let '(ds, (gs, bs)) := c in
  all_connected ds /\ Forall to_ground gs /\ Forall between_nodes bs /\
  exists w0, network_new ds = Ok w0 /\ w_ns w0 = 0%nat /\ do_calls w0 (gs ++ bs) = Ok w.
(** [x] has the lines of [lines], each a bundle by itself, and the circuits of [cs]; every end of
    every line is in one circuit *)
Definition assembled (lines : list (string * mtl NumR)) (cs : list circuit) (x : mtln NumR) : Prop :=
  (forall c d, In c cs -> In d (fst c) -> In (d_bundle d, d_line d) lines) /\
  Permutation (flat_map (fun c => map (fun d => (d_bundle d, d_end d)) (fst c)) cs)
              (flat_map (fun nm => [(fst nm, false); (fst nm, true)]) lines) /\
  exists bs ws, Forall2 (fun nm b => mtld_new [[snd nm]] (fst nm) = Ok b) lines bs /\ Forall2 builds cs ws /\
    mtln_new bs (map (fun w => [(0%nat, w)]) ws) = Ok x.
(** a line with neither field nor dispersive element, with symmetric matrices *)
Record unlit_line (LA : lapack NumR) (m : mtl NumR) : Prop := {
  ul_reach : reachable LA m; ul_und : undispersed m;
  ul_T : forall c k t, (c < conductors m)%nat -> (k <= cells m)%nat -> eTran m c k t = 0;
  ul_C : forall k, (k <= cells m)%nat -> symm (conductors m) (C_ m k);
  ul_L : forall k, (k < cells m)%nat -> symm (conductors m) (L_ m k)
}.
Record passive_line (m : mtl NumR) : Prop := {
  pa_h : forall k, (k < cells m)%nat -> 0 <= cell_len m k;
  pa_R : forall k, (k < cells m)%nat -> pos_semidef (conductors m) (R_ m k);
  pa_G : forall k, (k <= cells m)%nat -> pos_semidef (conductors m) (G_ m k)
}.
(** the source of the call, if any, is off from [t0] on *)
Definition off_from (t0 : R) (c : call NumR) : Prop :=
  match c with
  | GroundR _ _ (TFun f) | GroundC _ _ (TFun f) | Branch _ _ _ (TFun f) => forall t, t0 <= t -> f t = 0
  | _ => True
  end.
