(** Vocabulary of the network theorems: how a network comes to be, and what can be observed of
    it.  No proofs here. *)
From Coq Require Import String List Arith ZArith Bool Permutation Sorted.
From Coq Require Rdefinitions.
From Verif Require Import Num Py Arr Utils Probes Dispersive Line Bundle Networks Mtln SpecLine SpecBundle.
From Verif Require NumR.
Import ListNotations.

Section SpecNet.
Context {N : num}.
Local Open Scope num_scope.
Variable LA : lapack N.

(** the methods that describe the circuit of a network *)
Inductive call :=
| GroundR (id : Z) (R : N) (Vt : tfun N)
| GroundLCpRs (id : Z) (R L C : N) (Vt : tfun N)
| GroundC (id : Z) (C : N) (Vt : tfun N)
| GroundShort (id : Z)
| Branch (id1 id2 : Z) (R : N) (Vt : tfun N)
| Short (id1 id2 : Z).
Definition do_call (w : network N) (c : call) : res (network N) :=
  match c with
  | GroundR id R Vt => connect_to_ground w id R Vt
  | GroundLCpRs id R L C Vt => connect_to_ground_LCpRs w id R L C Vt
  | GroundC id C Vt => connect_to_ground_C w id C Vt
  | GroundShort id => short_to_ground w id
  | Branch id1 id2 R Vt => connect_nodes w id1 id2 R Vt
  | Short id1 id2 => short_nodes w id1 id2
  end.
Definition do_calls (w : network N) (l : list call) : res (network N) := foldM do_call l w.

(** [net_history ds w]: [w] was built from the description [ds] and then any sequence of method
    calls and steps was made on it that did not raise *)
Inductive net_history (ds : list (descr N)) : network N -> Prop :=
| nh_new w : network_new ds = Ok w -> net_history ds w
| nh_call w c w' : net_history ds w -> do_call w c = Ok w' -> net_history ds w'
| nh_register w (bs : bdict N) level conns : net_history ds w -> mapM (shift_node bs level) (w_conns w) = Ok conns ->
    net_history ds (set_conns w conns)
| nh_terms w dt w' : net_history ds w -> compute_v_terms w dt = Ok w' -> net_history ds w'
| nh_volt w t dt w' : net_history ds w -> nw_advance_voltage LA w t dt = Ok w' -> net_history ds w'
| nh_curr w bs w' : net_history ds w -> nw_update_currents w bs = Ok w' -> net_history ds w'.

(** [net_run ds dt w]: as above, and the last thing done to the circuit was to compute its terms
    with the step [dt]; only steps followed (this is what running a problem does) *)
Inductive net_run (ds : list (descr N)) (dt : N) : network N -> Prop :=
| nr_terms w0 w : net_history ds w0 -> compute_v_terms w0 dt = Ok w -> net_run ds dt w
| nr_volt w t dt' w' : net_run ds dt w -> nw_advance_voltage LA w t dt' = Ok w' -> net_run ds dt w'
| nr_curr w bs w' : net_run ds dt w -> nw_update_currents w bs = Ok w' -> net_run ds dt w'.

(** a network after further calls satisfying [P] and any other methods *)
Inductive after (P : call -> Prop) (w : network N) : network N -> Prop :=
| af_refl : after P w w
| af_call x c w' : after P w x -> P c -> do_call x c = Ok w' -> after P w w'
| af_register x (bs : bdict N) level conns : after P w x -> mapM (shift_node bs level) (w_conns x) = Ok conns -> after P w (set_conns x conns)
| af_terms x dt w' : after P w x -> compute_v_terms x dt = Ok w' -> after P w w'
| af_volt x t dt w' : after P w x -> nw_advance_voltage LA x t dt = Ok w' -> after P w w'
| af_curr x (bs : bdict N) w' : after P w x -> nw_update_currents x bs = Ok w' -> after P w w'.

(** observables: voltage of node [i], state variable [j], current into the line at node [i] *)
Definition nV (w : network N) (i : nat) : N := get (w_v w) i.
Definition nVprev (w : network N) (i : nat) : N := get (w_vprev w) i.
Definition nX (w : network N) (j : nat) : N := get (w_X w) j.
Definition nI (w : network N) (i : nat) : N := get (w_i w) i.
(** source and transversal field at node [i] and time [t] *)
Definition nSrc (w : network N) (i : nat) (t : N) : N :=
  match nth i (w_vsrc w) (TInt 0) with TFun f => f t | TInt _ => n0 end.
Definition nField (w : network N) (i : nat) (t : N) : N := nth i (w_eT w) (fun _ => n0) t.
(** length of the end cell at node [i], capacitance per unit length between nodes [i], [j] *)
Definition nLen (w : network N) (i : nat) : N := get (w_dx w) i.
Definition nCap (w : network N) (i j : nat) : N := get2 (w_c w) i j.
(** coefficients of the circuit *)
Definition nG (w : network N) (i j : nat) : N := get2 (w_P1 w) i j.      (* of node voltages *)
Definition nGs (w : network N) (i j : nat) : N := get2 (w_Ps w) i j.     (* of sources *)
Definition nQ (w : network N) (i j : nat) : N := get2 (w_Q1 w) i j.      (* of voltage rates *)
Definition nQs (w : network N) (i j : nat) : N := get2 (w_Qs w) i j.     (* of source rates *)
Definition nO (w : network N) (i j : nat) : N := get2 (w_O w) i j.       (* of state variables *)
(** state equation x' = M x + B v + Bs s *)
Definition nM (w : network N) (i j : nat) : N := get2 (w_M w) i j.
Definition nB (w : network N) (i j : nat) : N := get2 (w_N1 w) i j.
Definition nBs (w : network N) (i j : nat) : N := get2 (w_Ns w) i j.

(** current entering node [i] from the circuit when the node voltages are [v] ([vp] one step
    before), the states [x], the sources [s] ([sp] one step before) *)
Definition circuit_current (w : network N) (dt : N) (v vp x s sp : nat -> N) (i : nat) : N :=
  sumn (w_ns w) (fun j => nO w i j * x j)
  + sumn (w_nodes w) (fun j => nG w i j * v j)
  + sumn (w_nodes w) (fun j => nGs w i j * s j)
  + sumn (w_nodes w) (fun j => nQ w i j * (v j - vp j)) / dt
  + sumn (w_nodes w) (fun j => nQs w i j * (s j - sp j)) / dt.

(** *** descriptions *)
Definition d_line (d : descr N) : mtl N := fst d.
Definition d_side (d : descr N) : string := fst (snd d).
Definition d_bundle (d : descr N) : string := fst (snd (snd d)).
Definition d_conns (d : descr N) : list (@connection N) := snd (snd (snd d)).
Definition c_id (x : @connection N) : Z := fst (fst x).
Definition c_cond (x : @connection N) : nat := snd (fst x).
Definition c_mat (x : @connection N) : connector N := snd x.
(** the end of the line: [true] is the far end, "L" *)
Definition d_end (d : descr N) : bool := negb (String.eqb (d_side d) "S").
(** [l'] is [l] ordered by conductor number, keeping the order of equal ones *)
Definition stable_sort (l l' : list (@connection N)) : Prop :=
  Permutation l l' /\ StronglySorted (fun x y => (c_cond x <= c_cond y)%nat) l' /\
  forall c, filter (fun x => (c_cond x =? c)%nat) l' = filter (fun x => (c_cond x =? c)%nat) l.
(** what a node of line [d] made for connection [x] says *)
Definition describes (d : descr N) (x : @connection N) (kn : Z * node) : Prop :=
  fst kn = c_id x /\ nd_line (snd kn) = m_name (d_line d) /\ nd_row (snd kn) = c_cond x /\
  nd_end (snd kn) = d_end d /\ nd_bundle (snd kn) = d_bundle d.
(** every conductor of every line is connected exactly once *)
Definition all_connected (ds : list (descr N)) : Prop :=
  Forall (fun d => Permutation (map c_cond (d_conns d)) (seq 0 (conductors (d_line d)))) ds.
(** number of the first node of line number [q] *)
Definition first_node (ds : list (descr N)) (q : nat) : nat :=
  list_sum (map (fun d => length (d_conns d)) (firstn q ds)).

(** the place of a node in a bundle: row [r], first or last position *)
Definition at_place (kn : Z * node) (bn : string) (r : nat) (e : bool) : Prop :=
  nd_bundle (snd kn) = bn /\ nd_row (snd kn) = r /\ nd_end (snd kn) = e.

(** the position in a bundle a node writes its voltage to: row [r], position [k] of the bundle named [bn] *)
Definition writes (b : bundle N) (bn : string) (kn : Z * node) (r k : nat) : Prop :=
  nd_bundle (snd kn) = bn /\ nd_row (snd kn) = r /\ k = (if nd_end (snd kn) then b_cells b else 0%nat).
(** two bundles that differ in their voltages only *)
Definition only_voltages (b b' : bundle N) : Prop := exists v, b' = b_set_core b (set_v (b_core b) v).
(** the node refers to a conductor of a registered bundle *)
Definition resolves (bs : bdict N) (kn : Z * node) : Prop :=
  exists b, dget String.eqb (nd_bundle (snd kn)) bs = Some b /\ (nd_row (snd kn) < b_conductors b)%nat.
(** what a description must say, apart from its identifiers, to be accepted *)
Definition well_described (d : descr N) : Prop :=
  (d_side d = "S" \/ d_side d = "L")%string /\
  forall x, In x (d_conns d) -> (c_cond x < length (k_eT (m_core (d_line d))))%nat /\ exists s, state_vars (c_cond x) (c_mat x) = Ok s.
(** identifiers of a description *)
Definition all_ids (ds : list (descr N)) : list Z := flat_map (fun d => map c_id (d_conns d)) ds.
(** the same tiered network registered [k] times in a row *)
Definition registered (bs : bdict N) (k : nat) (d : networkd N) : res (networkd N) := iterM k (fun d => update_index_numbers d bs) d.
(** the end of a line a description connects *)
Definition end_node (d : descr N) : nat := if d_end d then cells (d_line d) else 0%nat.
Definition end_cell (d : descr N) : nat := if d_end d then (cells (d_line d) - 1)%nat else 0%nat.

End SpecNet.
Arguments call N : clear implicits.

(** [k] is the number of the node with identifier [id] *)
Definition numbered {N : num} (w : network N) (id : Z) (k : nat) : Prop :=
  exists nd, find_node w id = Some nd /\ nd_index nd = k.
(** total current the sources drive into node [i] at time [t] *)
Definition source_current {N : num} (w : network N) (i : nat) (t : N) : N :=
  sumn (w_nodes w) (fun j => nmul (nGs w i j) (nSrc w j t)).
(** everything of a network but the conductances, source weights and sources *)
Definition same_but_resistors {N : num} (w w' : network N) : Prop :=
  exists P1 Ps vs, w' = set_P w P1 Ps vs.
(** a resistor of positive value, possibly with a source in series, or a short circuit between two nodes *)
Definition between_nodes (c : call NumR.NumR) : Prop :=
  match c with Branch _ _ R _ => Rdefinitions.Rlt Rdefinitions.R0 R | Short _ _ => True | _ => False end.

(** the call stamps the series-R parallel-LC termination of node [id] *)
Definition is_LCpRs {N : num} (id : Z) (c : call N) : Prop := match c with GroundLCpRs i _ _ _ _ => i = id | _ => False end.

(** resistors and capacitors to ground, with or without a time function in series *)
Definition source_like {N : num} (V : tfun N) : Prop := V = TInt 0 \/ exists f, V = TFun f.
Definition to_ground (c : call NumR.NumR) : Prop :=
  match c with
  | GroundR _ R V => Rdefinitions.Rlt Rdefinitions.R0 R /\ source_like V
  | GroundC _ C V => Rdefinitions.Rle Rdefinitions.R0 C /\ source_like V
  | GroundShort _ => True
  | _ => False
  end.
Definition no_call {N : num} (c : call N) : Prop := False.
