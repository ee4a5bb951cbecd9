(** Vocabulary of the bundle theorems: which bundles are reachable and what can be observed
    of them.  No proofs here. *)
From Coq Require Import String List Arith ZArith Bool.
From Verif Require Import Num Py Arr Probes Dispersive Line Bundle Networks Mtln SpecLine.
Import ListNotations.

Section SpecBundle.
Context {N : num}.
Local Open Scope num_scope.
Variable LA : lapack N.

(** the constructor returned [b] for lines some program can hold *)
Definition bundle_built (b : bundle N) : Prop :=
  exists levels name, Forall (Forall (reachable LA)) levels /\ mtld_new levels name = Ok b.

(** one write of an end voltage by a network: row [c], first or last node *)
Definition put_end (b : bundle N) (c : nat) (last : bool) (x : N) : bundle N :=
  let s := b_core b in
  b_set_core b (set_v s (upd2 (k_v s) c (if last then k_N s else 0%nat) x)).

(** [marches b b']: [b'] is what [b] becomes when a network of lines is run (any number of
    runs and steps): coefficients are prepared, voltages and currents advanced, end voltages
    written, probes updated. *)
Inductive marches (b : bundle N) : bundle N -> Prop :=
| ma_refl : marches b b
| ma_dt x dt : marches b x -> marches b (b_set_core x (set_dt (b_core x) dt))
| ma_prepare x steps x' : marches b x -> bundle_prepare LA steps x = Ok x' -> marches b x'
| ma_volt x t dt x' : marches b x -> bundle_advance_voltage t dt x = Ok x' -> marches b x'
| ma_end x c last v : marches b x -> (c < k_n (b_core x))%nat -> marches b (put_end x c last v)
| ma_curr x t dt x' : marches b x -> bundle_advance_current t dt x = Ok x' -> marches b x'
| ma_probes x t x' : marches b x -> bundle_update_probes t x = Ok x' -> marches b x'.

(** [bundle_history b0 b]: [b0] was returned by the constructor and [b] is what it has become
    after any sequence of method calls and runs that did not raise. *)
Inductive bundle_history (b0 : bundle N) : bundle N -> Prop :=
| bh_new : bundle_built b0 -> bundle_history b0 b0
| bh_march b b' : bundle_history b0 b -> marches b b' -> bundle_history b0 b'
| bh_field b eL eT : bundle_history b0 b ->
    bundle_history b0 (b_set_core b (set_fields (b_core b) eL eT))
| bh_long b s e c f ty b' : bundle_history b0 b ->
    add_localized_longitudinal_field b s e c f ty = Ok b' -> bundle_history b0 b'
| bh_probe b p ty b' : bundle_history b0 b -> bundle_add_probe b p ty = Ok b' -> bundle_history b0 b'
| bh_transfer b ol oc il ic m b' : bundle_history b0 b ->
    bundle_add_transfer_impedance b ol oc il ic m = Ok b' -> bundle_history b0 b'
| bh_connector b side ol oc il ic m b' : bundle_history b0 b ->
    set_connector_transfer_impedance b side ol oc il ic m = Ok b' -> bundle_history b0 b'
| bh_resistance b s e c R b' : bundle_history b0 b ->
    bundle_set_resistance LA b s e c R = Ok b' -> bundle_history b0 b'
| bh_conductance b s e c G b' : bundle_history b0 b ->
    bundle_add_conductance LA b s e c G = Ok b' -> bundle_history b0 b'.
Definition reachable_bundle (b : bundle N) : Prop := exists b0, bundle_history b0 b.

(** observables *)
Definition b_cells (b : bundle N) : nat := k_N (b_core b).
Definition b_conductors (b : bundle N) : nat := k_n (b_core b).
Definition b_volt (b : bundle N) (c k : nat) : N := get2 (k_v (b_core b)) c k.
Definition b_curr (b : bundle N) (c k : nat) : N := get2 (k_i (b_core b)) c k.
(** first bundle row of the conductors of level [l]: the conductors of all lines in the
    levels before it *)
Definition level_offset (b : bundle N) (l : nat) : nat :=
  list_sum (map (@conductors N) (concat (firstn l (b_levels b)))).

(** dispersive entries of row [i], column [j] in cell [k]: constant and proportional terms,
    the three lists of pole weights, and the stored memory of conductor [c] *)
Definition dD (s : disp N) (k i j : nat) : N := get3 (ds_d s) k i j.
Definition dE (s : disp N) (k i j : nat) : N := get3 (ds_e s) k i j.
Definition dP1 (s : disp N) (k i j : nat) : list (cplx N) := qget3 (ds_q1 s) k i j.
Definition dP2 (s : disp N) (k i j : nat) : list (cplx N) := qget3 (ds_q2 s) k i j.
Definition dP3 (s : disp N) (k i j : nat) : list (cplx N) := qget3 (ds_q3 s) k i j.
Definition dPhi (s : disp N) (k c : nat) : list (cplx N) := qget2 (ds_phi s) k c.
(** the memory term used by the current update *)
Definition dMem (s : disp N) (k c : nat) : N := get2 (ds_q3phi s) k c.
Definition b_disp (b : bundle N) : disp N := k_disp (b_core b).
Definition m_disp (m : mtl N) : disp N := k_disp (m_core m).

(** two dispersive states with the same entry (k,i,j) *)
Definition same_entry (s s' : disp N) (k i j : nat) : Prop :=
  dD s' k i j = dD s k i j /\ dE s' k i j = dE s k i j /\
  dP1 s' k i j = dP1 s k i j /\ dP2 s' k i j = dP2 s k i j /\ dP3 s' k i j = dP3 s k i j.

(** pole number [l] and residue number [l] (divided by the factor [f]) of a rational model *)
Definition n_poles (m : ratmodel N) : nat := length (rm_pre m).
Definition pole (m : ratmodel N) (l : nat) : cplx N := (get (rm_pre m) l, get (rm_pim m) l).
Definition residue (m : ratmodel N) (f : N) (l : nat) : cplx N :=
  (get (rm_rre m) l / f, get (rm_rim m) l / f).
(** the four coefficient lists of a model have the same length *)
Definition consistent (m : ratmodel N) : Prop :=
  length (rm_pim m) = length (rm_pre m) /\ length (rm_rre m) = length (rm_pre m) /\
  length (rm_rim m) = length (rm_pre m).
(** the divisor of a transfer impedance (1 when absent) *)
Definition divisor (m : ratmodel N) : N := match rm_factor m with Some f => f | None => n1 end.
(** the model contributes something *)
Definition active (m : ratmodel N) : Prop :=
  rm_cte m / divisor m =? n0 = false \/ rm_prop m / divisor m =? n0 = false \/ (0 < n_poles m)%nat.

(** two level numbers next to each other *)
Definition neighbours (a c : nat) : Prop := a = S c \/ c = S a.
(** entry (i,j) couples a listed outer conductor and a listed inner conductor in direction
    [dir]: "in" is the inner row and outer column, "out" the outer row and inner column *)
Definition couples (b : bundle N) (dir : string) (ol : nat) (oc : list nat) (il : nat) (ic : list nat)
    (i j : nat) : Prop :=
  exists co ci, In co oc /\ In ci ic /\
    ((dir = "in"%string /\ i = (level_offset b il + ci)%nat /\ j = (level_offset b ol + co)%nat) \/
     (dir = "out"%string /\ i = (level_offset b ol + co)%nat /\ j = (level_offset b il + ci)%nat)).
(** entry (k,i,j) of [s'] is that of [s] minus constant, proportional and pole number [l]
    of the model ([dt]: the step the bundle was built with) *)
Definition lowered (m : ratmodel N) (l : nat) (s s' : disp N) (k i j : nat) : Prop :=
  let f := divisor m in let dt := ds_dt s in
  dD s' k i j = dD s k i j - rm_cte m / f /\
  dE s' k i j = dE s k i j - rm_prop m / f /\
  (n_poles m = 0%nat ->
     dP1 s' k i j = dP1 s k i j /\ dP2 s' k i j = dP2 s k i j /\ dP3 s' k i j = dP3 s k i j) /\
  (n_poles m <> 0%nat ->
     dP1 s' k i j = map (fun x => cadd x (w1 dt (residue m f l) (pole m l))) (dP1 s k i j) /\
     dP2 s' k i j = map (fun x => csub x (w2 dt (residue m f l) (pole m l))) (dP2 s k i j) /\
     dP3 s' k i j = map (fun x => csub x (w3 dt (pole m l))) (dP3 s k i j)).
(** entry (k,i,j) of [s'] is minus the whole model *)
Definition replaced (m : ratmodel N) (s s' : disp N) (k i j : nat) : Prop :=
  let f := divisor m in let dt := ds_dt s in let all := seq 0 (n_poles m) in
  dD s' k i j = - (rm_cte m / f) /\
  dE s' k i j = - (rm_prop m / f) /\
  (n_poles m = 0%nat ->
     dP1 s' k i j = dP1 s k i j /\ dP2 s' k i j = dP2 s k i j /\ dP3 s' k i j = dP3 s k i j) /\
  (n_poles m <> 0%nat ->
     dP1 s' k i j = map (fun l => w1 dt (residue m f l) (pole m l)) all /\
     dP2 s' k i j = map (fun l => copp (w2 dt (residue m f l) (pole m l))) all /\
     dP3 s' k i j = map (fun l => copp (w3 dt (pole m l))) all).
(** nothing but the dispersive coefficients changed *)
Definition only_coefficients (b b' : bundle N) : Prop :=
  exists d, b' = b_set_core b (set_disp (b_core b) d) /\
    ds_phi d = ds_phi (b_disp b) /\ ds_q3phi d = ds_q3phi (b_disp b) /\ ds_dt d = ds_dt (b_disp b).

(** entry read with numpy broadcasting: a one-element list stands for any length *)
Definition at_ (l : nat) (q : list (cplx N)) : cplx N :=
  if (length q =? 1)%nat then nth 0 q c0 else nth l q c0.

End SpecBundle.
