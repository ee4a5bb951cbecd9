(** Vocabulary of the dispersive connector theorems.  No proofs here. *)
From Coq Require Import String List Arith ZArith Bool.
From Verif Require Import Num Py Arr Probes Dispersive Line Bundle Networks Mtln SpecLine SpecBundle.
Import ListNotations.

Section SpecDisp.
Context {N : num}.
Local Open Scope num_scope.
Variable LA : lapack N.

(** [calls m m']: any sequence of method calls that did not raise leads from [m] to [m'] *)
Inductive calls (m0 : mtl N) : mtl N -> Prop :=
| ca_refl : calls m0 m0
| ca_time_step m NDT T : calls m0 m -> calls m0 (set_time_step m NDT T)
| ca_resistance m a b c R m' : calls m0 m ->
    set_resistance_in_region LA m a b c R = Ok m' -> calls m0 m'
| ca_conductance m a b c G m' : calls m0 m ->
    add_conductance_in_region LA m a b c G = Ok m' -> calls m0 m'
| ca_source m p c f m' : calls m0 m -> add_voltage_source m p c f = Ok m' -> calls m0 m'
| ca_field m eL eT : calls m0 m -> calls m0 (m_set_core m (set_fields (m_core m) eL eT))
| ca_probe m p ty m' : calls m0 m -> add_probe m p ty = Ok m' -> calls m0 m'
| ca_connector m p c model m' : calls m0 m ->
    mtl_add_dispersive_connector m p c model = Ok m' -> calls m0 m'
| ca_step m m' : calls m0 m -> mtl_step m = Ok m' -> calls m0 m'
| ca_run m T m' : calls m0 m -> run_until LA m T = Ok m' -> calls m0 m'
| ca_copy m : calls m0 m -> calls m0 (create_clean_copy m).

(** distance between nodes [k] and [k+1] *)
Definition node_gap (m : mtl N) (k : nat) : N := vnorm (vsub (nth (S k) (m_u m) []) (nth k (m_u m) [])).
(** the node a position is attached to *)
Definition node_of (m : mtl N) (p : vec N) : nat := nearest (m_u m) p.
(** some coordinate of the position is beyond the last node or before the first one *)
Definition outside (m : mtl N) (p : vec N) : Prop :=
  exists d, (d < 3)%nat /\
    (get (nth (length (m_u m) - 1) (m_u m) []) d <? get p d = true \/
     get p d <? get (nth 0 (m_u m) []) d = true).

(** conductor [c] of cell [k] carries no dispersive element *)
Definition free_entry (s : disp N) (k c : nat) : Prop :=
  dD s k c c =? n0 = true /\ dE s k c c =? n0 = true /\
  (exists z, dP1 s k c c = [z] /\ fst z =? n0 = true /\ snd z =? n0 = true) /\
  (exists z, dP2 s k c c = [z] /\ fst z =? n0 = true /\ snd z =? n0 = true) /\
  (exists z, dP3 s k c c = [z] /\ fst z =? n0 = true /\ snd z =? n0 = true).

(** the element added to a free entry: the model divided by the length [h], its poles
    discretised with the step [dt] *)
Definition connected (m : ratmodel N) (dt h : N) (s s' : disp N) (k c : nat) : Prop :=
  let all := seq 0 (n_poles m) in
  dD s' k c c = dD s k c c + rm_cte m / h /\
  dE s' k c c = dE s k c c + rm_prop m / h /\
  exists z1 z2 z3, dP1 s k c c = [z1] /\ dP2 s k c c = [z2] /\ dP3 s k c c = [z3] /\
    dP1 s' k c c = map (fun l => csub z1 (w1 dt (residue m h l) (pole m l))) all /\
    dP2 s' k c c = map (fun l => cadd z2 (w2 dt (residue m h l) (pole m l))) all /\
    dP3 s' k c c = map (fun l => cadd z3 (w3 dt (pole m l))) all.

(** sum of complex numbers *)
Definition csum (n : nat) (f : nat -> cplx N) : cplx N := (sumn n (fun j => fst (f j)), sumn n (fun j => snd (f j))).
(** one step of the memory recursion of a cell for one pole: [P1], [P2] the weights of the
    currents at the end and at the start of the step, [P3] the decay of the memory [phi] *)
Definition recursion (n : nat) (P1 P2 P3 : nat -> cplx N) (i_end i_start : nat -> N) (phi : nat -> cplx N) : cplx N :=
  cadd (cadd (csum n (fun j => cscal (i_end j) (P1 j))) (csum n (fun j => cscal (i_start j) (P2 j))))
       (csum n (fun j => cmul (P3 j) (phi j))).

(** [one_way S b0 b]: [b0] is a bundle of lines without dispersive elements, [b] what it has
    become after method calls and runs in which every transfer impedance acts on conductors in
    [S] and takes its current from conductors outside [S] *)
Inductive one_way (S : nat -> Prop) (b0 : bundle N) : bundle N -> Prop :=
| ow_new levels name : Forall (Forall (reachable LA)) levels -> Forall (Forall undispersed) levels ->
    mtld_new levels name = Ok b0 -> one_way S b0 b0
| ow_march b b' : one_way S b0 b -> marches LA b b' -> one_way S b0 b'
| ow_field b eL eT : one_way S b0 b -> one_way S b0 (b_set_core b (set_fields (b_core b) eL eT))
| ow_long b s e c f ty b' : one_way S b0 b ->
    add_localized_longitudinal_field b s e c f ty = Ok b' -> one_way S b0 b'
| ow_probe b p ty b' : one_way S b0 b -> bundle_add_probe b p ty = Ok b' -> one_way S b0 b'
| ow_resistance b s e c R b' : one_way S b0 b -> bundle_set_resistance LA b s e c R = Ok b' -> one_way S b0 b'
| ow_conductance b s e c G b' : one_way S b0 b -> bundle_add_conductance LA b s e c G = Ok b' -> one_way S b0 b'
| ow_transfer b ol oc il ic m b' : one_way S b0 b -> NoDup oc -> NoDup ic ->
    (forall i j, couples b (rm_direction m) ol oc il ic i j -> S i /\ ~ S j) ->
    bundle_add_transfer_impedance b ol oc il ic m = Ok b' -> one_way S b0 b'
| ow_connector b side ol oc il ic m b' : one_way S b0 b ->
    (forall i j, couples b (rm_direction m) ol oc il ic i j -> S i /\ ~ S j) ->
    set_connector_transfer_impedance b side ol oc il ic m = Ok b' -> one_way S b0 b'.
End SpecDisp.
