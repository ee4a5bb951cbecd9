(** Properties C33 and C34 for bundles: resistance and conductance of a region of a bundle, edited at any time of its
    life.  [k1] and [k2] are the nodes closest to the ends of the region.  The vocabulary is in SpecRegion.v and SpecBundle.v. *)
From Coq Require Import String List Arith Bool Reals.
From Verif Require Import Num Py Arr NumR LapackR Line Bundle SpecLine SpecBundle SpecGeom SpecCore SpecTele SpecR SpecRegion BundleRegion RegionTotal.
Import ListNotations.
Local Open Scope R_scope.

(** row [c] of cell [k1 + c] is filled, nothing else changes *)
Theorem C33_bundle_one_row_of_one_cell LA (b b' : bundle NumR) (p q : posarg NumR) c (x : R) k1 k2 : reachable_bundle LA b ->
  closest (b_u b) (pos_vec p) k1 -> closest (b_u b) (pos_vec q) k2 -> bundle_set_resistance LA b p q c x = Ok b' ->
  (c < b_conductors b)%nat /\ (k1 + c <= k2)%nat /\ (k1 + c < b_cells b)%nat /\ bundle_rest b b' /\ k_g (b_core b') = k_g (b_core b) /\
  forall k i j, (j < b_conductors b)%nat -> get3 (k_r (b_core b')) k i j =
    if (k =? k1 + c)%nat && (i =? c)%nat then x / bundle_region_len b k1 k2 else get3 (k_r (b_core b)) k i j.
Proof. exact (bundle_resistance LA b b' p q c x k1 k2). Qed.
Print Assumptions C33_bundle_one_row_of_one_cell.

(** unlike on a line, the last node is not replaced by the last cell: a region that is only the end always raises *)
Theorem C33_bundle_otherwise_raises LA (b : bundle NumR) (p q : posarg NumR) c (x : R) k1 k2 : reachable_bundle LA b ->
  closest (b_u b) (pos_vec p) k1 -> closest (b_u b) (pos_vec q) k2 -> assert_ge q p = Ok tt ->
  ~ ((c < b_conductors b)%nat /\ (k1 + c <= k2)%nat /\ (k1 + c < b_cells b)%nat) ->
  bundle_set_resistance LA b p q c x = Err IndexError.
Proof. intros R C1 C2 A. exact (proj1 (bundle_raises LA b p q c x k1 k2 R C1 C2 A)). Qed.
Print Assumptions C33_bundle_otherwise_raises.

Theorem C33_bundle_accepts LA : lapack_complete LA -> forall (b : bundle NumR) (p q : posarg NumR) c (x : R) k1 k2,
  reachable_bundle LA b -> physical_bundle b ->
  closest (b_u b) (pos_vec p) k1 -> closest (b_u b) (pos_vec q) k2 -> assert_ge q p = Ok tt ->
  (c < b_conductors b)%nat -> (k1 + c <= k2)%nat -> (k1 + c < b_cells b)%nat ->
  (forall k, (k < b_cells b)%nat -> pos_def (b_conductors b) (fun i j => kL (b_core b) k i j / k_dt (b_core b) +
     (if (k =? k1 + c)%nat && (i =? c)%nat then x / bundle_region_len b k1 k2 else kR (b_core b) k i j) / 2)) ->
  exists b', bundle_set_resistance LA b p q c x = Ok b'.
Proof. exact (bundle_resistance_ok LA). Qed.
Print Assumptions C33_bundle_accepts.

Theorem C34_bundle_one_row_of_one_node LA (b b' : bundle NumR) (p q : posarg NumR) c (x : R) k1 k2 : reachable_bundle LA b ->
  closest (b_u b) (pos_vec p) k1 -> closest (b_u b) (pos_vec q) k2 -> bundle_add_conductance LA b p q c x = Ok b' ->
  (c < b_conductors b)%nat /\ (k1 + c <= k2)%nat /\ bundle_rest b b' /\ k_r (b_core b') = k_r (b_core b) /\
  forall k i j, (j < b_conductors b)%nat -> get3 (k_g (b_core b')) k i j =
    if (k =? k1 + c)%nat && (i =? c)%nat then x / bundle_region_len b k1 k2 else get3 (k_g (b_core b)) k i j.
Proof. exact (bundle_conductance LA b b' p q c x k1 k2). Qed.
Print Assumptions C34_bundle_one_row_of_one_node.

Theorem C34_bundle_otherwise_raises LA (b : bundle NumR) (p q : posarg NumR) c (x : R) k1 k2 : reachable_bundle LA b ->
  closest (b_u b) (pos_vec p) k1 -> closest (b_u b) (pos_vec q) k2 -> assert_ge q p = Ok tt ->
  ~ ((c < b_conductors b)%nat /\ (k1 + c <= k2)%nat) \/ (k1 = k2 /\ k1 = b_cells b) ->
  bundle_add_conductance LA b p q c x = Err IndexError.
Proof. intros R C1 C2 A. exact (proj2 (bundle_raises LA b p q c x k1 k2 R C1 C2 A)). Qed.
Print Assumptions C34_bundle_otherwise_raises.

Theorem C34_bundle_accepts LA : lapack_complete LA -> forall (b : bundle NumR) (p q : posarg NumR) c (x : R) k1 k2,
  reachable_bundle LA b -> physical_bundle b ->
  closest (b_u b) (pos_vec p) k1 -> closest (b_u b) (pos_vec q) k2 -> assert_ge q p = Ok tt ->
  (c < b_conductors b)%nat -> (k1 + c <= k2)%nat -> (k1 = k2 -> (k1 < b_cells b)%nat) ->
  (forall k, (k <= b_cells b)%nat -> pos_def (b_conductors b) (fun i j => kC (b_core b) k i j / k_dt (b_core b) +
     (if (k =? k1 + c)%nat && (i =? c)%nat then x / bundle_region_len b k1 k2 else kG (b_core b) k i j) / 2)) ->
  exists b', bundle_add_conductance LA b p q c x = Ok b'.
Proof. exact (bundle_conductance_ok LA). Qed.
Print Assumptions C34_bundle_accepts.

(** two wires of three unit cells, a region over the first two cells: row 1 of cell (node) 1 *)
Example C33_C34_bundle_example : exists (m : mtl NumR) (b b1 b2 : bundle NumR), mtld_new [[m]; [m]] "b"%string = Ok b /\ reachable_bundle LR b /\
  closest (b_u b) [0; 0; 0] 0 /\ closest (b_u b) [0; 0; 2] 2 /\ bundle_region_len b 0 2 = 2 /\ b_cells b = 3%nat /\
  bundle_set_resistance LR b (@PosF NumR 0) (@PosF NumR 2) 1 2 = Ok b1 /\ kR (b_core b1) 1 1 0 = 1 /\ kR (b_core b1) 0 1 1 = 0 /\
  bundle_add_conductance LR b (@PosF NumR 0) (@PosF NumR 2) 1 (1 / 2) = Ok b2 /\ kG (b_core b2) 1 1 0 = 1 / 4 /\ kG (b_core b2) 0 1 1 = 0.
Proof. exact region_example. Qed.
