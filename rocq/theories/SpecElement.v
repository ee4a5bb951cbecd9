(** What a component draws: resistors, capacitors, short circuits and the resistor in series with a
    parallel inductor and capacitor, between a node and ground or between two nodes.
    Used by C120. *)
From Coq Require Import List ZArith Reals.
From Verif Require Import Num NumR Utils Line Networks SpecNet.
Import ListNotations.
Local Open Scope R_scope.

(** the value of a source: a function of time; a plain number is no source *)
Definition source_value (V : tfun NumR) (t : R) : R := match V with TFun f => f t | TInt _ => 0 end.
(** the number of the node with identifier [id] and of its first state variable *)
Definition node_number (w : network NumR) (id : Z) : nat := match find_node w id with Some nd => nd_index nd | None => 0%nat end.
Definition first_state (w : network NumR) (id : Z) : nat := match find_node w id with Some nd => hd 0%nat (nd_state nd) | None => 0%nat end.

(** *** to ground *)
Definition ground_id (c : call NumR) : Z :=
  match c with GroundR id _ _ | GroundLCpRs id _ _ _ _ | GroundC id _ _ | GroundShort id => id | _ => 0%Z end.
Definition grounds (c : call NumR) : Prop :=
  match c with GroundR _ R _ => R <> 0 | GroundLCpRs _ _ _ _ _ | GroundC _ _ _ | GroundShort _ => True | _ => False end.
(** the current a component between ground and a node sends into the node at time [t], when the voltage of the
    node is [v] ([vp] a step [dt] before) and the voltage of the inner node of an RLC circuit is [x] *)
Definition ground_current (c : call NumR) (dt t v vp x : R) : R :=
  match c with
  | GroundR _ R V => (source_value V t - v) / R
  | GroundLCpRs _ R _ _ V => (source_value V t + x - v) / R
  | GroundC _ C V => C * ((source_value V t - v) - (source_value V (t - dt) - vp)) / dt
  | GroundShort _ => - (10 ^ 10 * v)
  | _ => 0
  end.

(** *** between nodes: no source in series *)
Definition sourceless (c : call NumR) : Prop :=
  match c with Branch _ _ R V => 0 < R /\ V = TInt 0 | Short _ _ => True | _ => False end.
(** the current through a branch, from its second to its first node *)
Definition branch_flow (w : network NumR) (c : call NumR) (v : nat -> R) : R :=
  match c with
  | Branch a b R _ => (v (node_number w b) - v (node_number w a)) / R
  | Short a b => 10 ^ 10 * (v (node_number w b) - v (node_number w a))
  | _ => 0
  end.
Definition first_end (c : call NumR) : Z := match c with Branch a _ _ _ | Short a _ => a | _ => 0%Z end.
Definition second_end (c : call NumR) : Z := match c with Branch _ b _ _ | Short _ b => b | _ => 0%Z end.
Definition branch_current (w : network NumR) (c : call NumR) (v : nat -> R) (id : Z) : R :=
  (if (first_end c =? id)%Z then branch_flow w c v else 0) - (if (second_end c =? id)%Z then branch_flow w c v else 0).

(** the current the components send into the node [id] at time [t] *)
Definition total (l : list R) : R := fold_right Rplus 0 l.
Definition component_current (w : network NumR) (gs bs : list (call NumR)) (dt t : R) (v vp x : nat -> R) (id : Z) : R :=
  let k := node_number w id in
  total (map (fun c => if (ground_id c =? id)%Z then ground_current c dt t (v k) (vp k) (x (first_state w id)) else 0) gs)
  + total (map (fun c => branch_current w c v id) bs).
