(** Charge of a network of lines.  No proofs here.  Used by C121. *)
From Coq Require Import String List Arith ZArith Bool Reals.
From Verif Require Import Num Py Arr NumR RFacts Utils Line Bundle Networks Mtln SpecLine SpecR SpecBundle SpecCore SpecNet SpecMtln SpecTele SpecNetEnergy SpecElement.
Import ListNotations.
Local Open Scope R_scope.

(** charge of the conductors of a bundle: to each node belongs half of each cell that touches it *)
Definition b_charge (b : bundle NumR) : R :=
  sumR (S (b_cells b)) (fun k => b_share b k * sumR (b_conductors b) (fun c => sumR (b_conductors b) (fun p => kC (b_core b) k c p * b_volt b p k))).
(** the current that leaks through the conductance of the interior nodes *)
Definition b_leak (b b' : bundle NumR) : R :=
  sumR (b_cells b - 1) (fun k => b_share b (S k) * sumR (b_conductors b) (fun c => sumR (b_conductors b) (fun p => kG (b_core b) (S k) c p * ((b_volt b' p (S k) + b_volt b p (S k)) / 2)))).
(** the current a circuit sends into all its nodes: mean of the beginning and the end of the step that ends at [t] *)
Definition w_supply (dt t : R) (w w' : network NumR) : R :=
  sumR (w_nodes w) (fun i =>
    (@circuit_current NumR w dt (nV w') (nV w) (nX w') (fun j => nSrc w j t) (fun j => nSrc w j (t - dt)) i
     + @circuit_current NumR w dt (nV w) (nVprev w) (nX w) (fun j => nSrc w j (t - dt)) (fun j => nSrc w j (t - 2 * dt)) i) / 2).

(** of the whole network of lines *)
Definition net_charge (x : mtln NumR) : R := SpecNetEnergy.total (fun kb => b_charge (snd kb)) (t_bundles x).
Definition net_leak (x y : mtln NumR) : R := over_bundles b_leak x y.
Definition net_supply (x y : mtln NumR) : R := over_nets (w_supply (t_dt x) (t_time x)) x y.

(** what the components to ground of a circuit send in, all together *)
Definition ground_total (w : network NumR) (gs : list (call NumR)) (dt t : R) (v vp x : nat -> R) : R :=
  SpecNetEnergy.total (fun c => let k := node_number w (ground_id c) in ground_current c dt t (v k) (vp k) (x (first_state w (ground_id c)))) gs.
