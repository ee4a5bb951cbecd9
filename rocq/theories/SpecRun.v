(** Vocabulary of the theorems on the parser's run methods.  No proofs here. *)
From Coq Require Import String List Arith ZArith Bool.
From Verif Require Import Num Py Arr Utils Probes Dispersive Line Bundle Networks Mtln Fields SpecLine SpecBundle SpecNet SpecMtln SpecFields RunFields.
Import ListNotations.

Section SpecRun.
Context {N : num}.
Local Open Scope num_scope.

(** comparisons find zero equal to itself *)
Definition zero_is_zero : Prop := @neqb N n0 n0 = true.
(** all the networks are on level 0: no shielded conductor is connected to anything *)
Definition level_0_only (ws : list (networkd N)) : Prop := Forall (Forall (fun lw => fst lw = 0%nat)) ws.
(** the same network of lines with its clock back at zero *)
Definition rewound (x : mtln N) : mtln N := {| t_bundles := t_bundles x; t_networks := t_networks x; t_dt := t_dt x; t_time := n0 |}.
(** node [kn'] is node [kn], [k] times the conductors of the levels above further down in its bundle *)
Definition shifted (bs : list (bundle N)) (k level : nat) (kn kn' : Z * node) : Prop :=
  exists b, In b bs /\ b_name b = nd_bundle (snd kn) /\ fst kn' = fst kn /\
    nd_bundle (snd kn') = nd_bundle (snd kn) /\ nd_end (snd kn') = nd_end (snd kn) /\ nd_index (snd kn') = nd_index (snd kn) /\
    nd_row (snd kn') = (nd_row (snd kn) + k * level_offset b level)%nat.
Definition all_shifted (bs : list (bundle N)) (k : nat) (ws ws' : list (networkd N)) : Prop :=
  Forall2 (Forall2 (fun lw lw' => fst lw' = fst lw /\ Forall2 (shifted bs k (fst lw)) (w_conns (snd lw)) (w_conns (snd lw')))) ws ws'.

(** two bundles that differ at most in the field functions of their outermost conductors *)
Definition same_but_outer_fields (b b' : bundle N) : Prop :=
  b' = b_set_core b (set_fields (b_core b) (k_eL (b_core b')) (k_eT (b_core b'))) /\ lit_arrays (b_core b) /\ lit_arrays (b_core b') /\
  forall n, outer_conductors b = Ok n -> forall c k, (n <= c)%nat -> eLong (b_core b') c k = eLong (b_core b) c k /\ eTran (b_core b') c k = eTran (b_core b) c k.
(** one bundle of the list replaced *)
Definition replaced (bs : list (bundle N)) (name : string) (b' : bundle N) : list (bundle N) :=
  map (fun b => if String.eqb name (b_name b) then b' else b) bs.
End SpecRun.
