(** A line inside a bundle and the same line in a bundle of its own, marched side by side.
    No proofs here. *)
From Coq Require Import String List Arith ZArith Bool Reals.
From Verif Require Import Num Py Arr NumR Probes Dispersive Line Bundle Networks Mtln SpecLine SpecBundle SpecCore.
Import ListNotations.
Local Open Scope R_scope.

(** first row of line number [q] in a bundle of these lines *)
Definition first_row {N : num} (lines : list (mtl N)) (q : nat) : nat := list_sum (map conductors (firstn q lines)).

(** the bundle uses the cell lengths of its outermost line; here they are also [m]'s own (nodes
    are compared by the constructor, and lines with equal divisions have as cell lengths the
    distances between nodes) *)
Definition own_cells {N : num} (levels : list (list (mtl N))) (m : mtl N) : Prop :=
  forall outer rest, levels = [outer] :: rest -> forall k, (k < cells m)%nat -> cell_len m k = cell_len outer k.

Section SpecAlone.
Variable LA : lapack NumR.
Variable levels : list (list (mtl NumR)).
Variable q : nat.
Variable m : mtl NumR.
Let row (c : nat) : nat := (first_row (concat levels) q + c)%nat.

(** [beside b a]: [b] is a bundle of the lines [levels], [a] a bundle of the single line [m],
    line number [q] of [levels], using the time step of [b].  Both have gone through the same
    phases of a run; the end voltages of [m]'s conductors were written with the same values in
    both; those of other conductors, and the fields on them, are arbitrary. *)
Inductive beside : bundle NumR -> bundle NumR -> Prop :=
| be_new name name' b a : mtld_new levels name = Ok b -> mtld_new [[m]] name' = Ok a ->
    beside b (b_set_core a (set_dt (b_core a) (k_dt (b_core b))))
| be_dt b a dt : beside b a -> beside (b_set_core b (set_dt (b_core b) dt)) (b_set_core a (set_dt (b_core a) dt))
| be_prepare b a steps steps' b' a' : beside b a -> bundle_prepare LA steps b = Ok b' -> bundle_prepare LA steps' a = Ok a' -> beside b' a'
| be_volt b a t dt b' a' : beside b a -> bundle_advance_voltage t dt b = Ok b' -> bundle_advance_voltage t dt a = Ok a' -> beside b' a'
| be_curr b a t dt b' a' : beside b a -> bundle_advance_current t dt b = Ok b' -> bundle_advance_current t dt a = Ok a' -> beside b' a'
| be_own b a c last x : beside b a -> (c < conductors m)%nat -> beside (put_end b (row c) last x) (put_end a c last x)
| be_other b a r last x : beside b a -> (r < b_conductors b)%nat -> (forall c, (c < conductors m)%nat -> r <> row c) ->
    beside (put_end b r last x) a
| be_field b a eL eT eL' eT' : beside b a ->
    let b' := b_set_core b (set_fields (b_core b) eL eT) in let a' := b_set_core a (set_fields (b_core a) eL' eT') in
    (forall c k t, (c < conductors m)%nat -> kLong (b_core b') (row c) k t = kLong (b_core a') c k t /\
                                            kTran (b_core b') (row c) k t = kTran (b_core a') c k t) ->
    beside b' a'
| be_probes b a t b' : beside b a -> bundle_update_probes t b = Ok b' -> beside b' a
| be_probes_alone b a t a' : beside b a -> bundle_update_probes t a = Ok a' -> beside b a'.
End SpecAlone.
